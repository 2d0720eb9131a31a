-Q theories Verif
theories/AabbModel.v
theories/AabbProofs.v
theories/AabbProofs2.v
theories/AabbProps.v
theories/AabbSpec.v
theories/ApiModel.v
theories/ApiProofs1.v
theories/ApiProofs2.v
theories/ApiProofs3.v
theories/ApiProps.v
theories/ApiSpec.v
theories/ArrZ.v
theories/AvlModel.v
theories/AvlProofs.v
theories/AvlProps.v
theories/AvlSpec.v
theories/BezModel.v
theories/BezProofs.v
theories/BezProofs2.v
theories/BezProps.v
theories/BezSpec.v
theories/BinomModel.v
theories/BndModel.v
theories/BndProofs.v
theories/BndProps.v
theories/BndSpec.v
theories/BrepModel.v
theories/BrepProofs1.v
theories/BrepProofs2.v
theories/BrepProofs3.v
theories/BrepProofs4.v
theories/BrepProps.v
theories/BrepSpec.v
theories/BvhModel.v
theories/BvhProofs.v
theories/BvhProofs2.v
theories/BvhProofs3.v
theories/BvhProofs4.v
theories/BvhProps.v
theories/BvhSpec.v
theories/CacheModel.v
theories/CacheProofs.v
theories/CacheProps.v
theories/CacheSpec.v
theories/CdllModel.v
theories/CdllProofs.v
theories/CdllProps.v
theories/CdllSpec.v
theories/CircModel.v
theories/CircProofs.v
theories/CircProps.v
theories/CircSpec.v
theories/Common.v
theories/CuModel.v
theories/CuProofs.v
theories/CuProofs2.v
theories/CuProps.v
theories/CuSpec.v
theories/DacModel.v
theories/DacProofs.v
theories/DacProofs2.v
theories/DacProofs3.v
theories/DacProofs4.v
theories/DacProps.v
theories/DacSpec.v
theories/DcModel.v
theories/DcProofs1.v
theories/DcProofs2.v
theories/DcProofs3.v
theories/DcProps.v
theories/DcSpec.v
theories/DerModel.v
theories/DerProofs1.v
theories/DerProofs2.v
theories/DerProofs3.v
theories/DerProofs4.v
theories/DerProofs5.v
theories/DerProofs6.v
theories/DerProofs7.v
theories/DerProofs8.v
theories/DerProofs9.v
theories/DerProps.v
theories/DerSpec.v
theories/DerivLib.v
theories/Dyadic.v
theories/GjkModel.v
theories/GjkProofs1.v
theories/GjkProofs2.v
theories/GjkProofs3.v
theories/GjkProofs4.v
theories/GjkProps.v
theories/GjkSpec.v
theories/ImplModel.v
theories/ImplProofs.v
theories/ImplProofs2.v
theories/ImplProofs3.v
theories/ImplProps.v
theories/ImplSpec.v
theories/IntervalModel.v
theories/IntervalProofs.v
theories/IntervalProps.v
theories/IntervalSpec.v
theories/IptModel.v
theories/IptProofs1.v
theories/IptProofs2.v
theories/IptProofs3.v
theories/IptProofs4.v
theories/IptProps.v
theories/IptSpec.v
theories/KdModel.v
theories/KdProofs.v
theories/KdProofs2.v
theories/KdProofs3.v
theories/KdProps.v
theories/KdSpec.v
theories/KnotModel.v
theories/KnotProofs.v
theories/KnotProofs2.v
theories/KnotProofs3.v
theories/KnotProofs4.v
theories/KnotProofs5.v
theories/KnotProps.v
theories/KnotSpec.v
theories/ListLib.v
theories/LuModel.v
theories/LuProofs1.v
theories/LuProofs2.v
theories/LuProofs3.v
theories/LuProofs4.v
theories/LuProps.v
theories/LuSpec.v
theories/MchModel.v
theories/MchProofs.v
theories/MchProofs2.v
theories/MchProps.v
theories/MchSpec.v
theories/MolModel.v
theories/MolProofs1.v
theories/MolProofs2.v
theories/MolProofs3.v
theories/MolProofs4.v
theories/MolProofs5.v
theories/MolProofs6.v
theories/MolProps.v
theories/MolSpec.v
theories/NcsModel.v
theories/NcsProofs.v
theories/NcsProps.v
theories/NcsSpec.v
theories/NurbsEditModel.v
theories/NurbsEditProofs.v
theories/NurbsEditProofs2.v
theories/NurbsEditProps.v
theories/NurbsEditSpec.v
theories/NurbsInsert.v
theories/NurbsModel.v
theories/NurbsProofs.v
theories/NurbsProofs2.v
theories/NurbsProofs3.v
theories/NurbsProofs4.v
theories/NurbsProps.v
theories/NurbsReverse.v
theories/NurbsSpec.v
theories/NurbsSplit.v
theories/OctModel.v
theories/OctProofs.v
theories/OctProofs2.v
theories/OctProps.v
theories/OctSpec.v
theories/ParModel.v
theories/ParProofs1.v
theories/ParProofs2.v
theories/ParProps.v
theories/ParSpec.v
theories/PickleModel.v
theories/PickleProofs.v
theories/PlnModel.v
theories/PlnProofs1.v
theories/PlnProofs2.v
theories/PlnProofs3.v
theories/PlnProofs4.v
theories/PlnProofs5.v
theories/PlnProps.v
theories/PlnSpec.v
theories/PolyModel.v
theories/PolyProofs.v
theories/PolyProofs10.v
theories/PolyProofs11.v
theories/PolyProofs12.v
theories/PolyProofs13.v
theories/PolyProofs14.v
theories/PolyProofs2.v
theories/PolyProofs3.v
theories/PolyProofs4.v
theories/PolyProofs5.v
theories/PolyProofs6.v
theories/PolyProofs7.v
theories/PolyProofs8.v
theories/PolyProofs9.v
theories/PolyProps.v
theories/PolyProps2.v
theories/PolySpec.v
theories/PqModel.v
theories/PqProofs1.v
theories/PqProofs2.v
theories/PqProps.v
theories/PqSpec.v
theories/PrmModel.v
theories/PrmProofs1.v
theories/PrmProofs2.v
theories/PrmProofs3.v
theories/PrmProofs4.v
theories/PrmProps.v
theories/PrmSpec.v
theories/QcLib.v
theories/RefModel.v
theories/RefProofs1.v
theories/RefProofs2.v
theories/RefProofs3.v
theories/RefProofs4.v
theories/RefProps.v
theories/RefSpec.v
theories/RkModel.v
theories/RkProofs1.v
theories/RkProofs2.v
theories/RkProofs3.v
theories/RkProps.v
theories/RkSpec.v
theories/RombModel.v
theories/RombProofs1.v
theories/RombProofs2.v
theories/RombProps.v
theories/RombSpec.v
theories/RtModel.v
theories/RtProofs1.v
theories/RtProofs2.v
theories/RtProofs3.v
theories/RtProps.v
theories/RtSpec.v
theories/RtreeModel.v
theories/RtreeProofs.v
theories/RtreeProps.v
theories/RtreeSpec.v
theories/SerModel.v
theories/SerProofs.v
theories/SerProps.v
theories/SerSpec.v
theories/SkipModel.v
theories/SkipProofs.v
theories/SkipProofs2.v
theories/SkipProps.v
theories/SkipSpec.v
theories/SortModel.v
theories/SortProofs.v
theories/SortProps.v
theories/SortSpec.v
theories/SphModel.v
theories/SphProofs.v
theories/SphProofs2.v
theories/SphProps.v
theories/SphSpec.v
theories/SplineTheory.v
theories/SplineTheory2.v
theories/SseqModel.v
theories/SseqProofs1.v
theories/SseqProofs2.v
theories/SseqProofs3.v
theories/SseqProps.v
theories/SseqSpec.v
theories/StepModel.v
theories/StepModel2.v
theories/StepProofs.v
theories/StepProofs2.v
theories/StepProofs3.v
theories/StepProps.v
theories/StepSpec.v
theories/StepSpec2.v
theories/SumLib.v
theories/SurfModel.v
theories/SurfProofs1.v
theories/SurfProofs2.v
theories/SurfProofs3.v
theories/SurfProofs4.v
theories/SurfProofs5.v
theories/SurfProps.v
theories/SurfSpec.v
theories/SwpModel.v
theories/SwpProofs1.v
theories/SwpProofs2.v
theories/SwpProps.v
theories/SwpSpec.v
theories/TessModel.v
theories/TessProofs1.v
theories/TessProofs2.v
theories/TessProps.v
theories/TessSpec.v
theories/TldModel.v
theories/TldProofs.v
theories/TldProps.v
theories/TldSpec.v
theories/UnionFindGroup.v
theories/UnionFindModel.v
theories/UnionFindProofs.v
theories/UnionFindProps.v
theories/UnionFindSpec.v
theories/VecModel.v
theories/VecProofs1.v
theories/VecProofs2.v
theories/VecProofs3.v
theories/VecProofs4.v
theories/VecProps.v
theories/VecSpec.v
