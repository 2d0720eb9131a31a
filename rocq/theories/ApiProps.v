(* The object API: theorems and concrete cases. *)
From Coq Require Import List ZArith Lia Bool QArith Qcanon.
From Verif Require Import Common QcLib ArrZ SumLib NurbsModel DerModel PlnModel ApiModel ApiSpec ApiProofs1 ApiProofs2 ApiProofs3.
Import ListNotations.
Local Open Scope Z_scope.
Local Open Scope Qc_scope.

Definition q (a : Z) (b : positive) : Qc := Q2Qc (a # b).
Definition w (x y z : Z) : v3 := mkv (q x 1) (q y 1) (q z 1).
Definition pt (x y : Z) : p2 := (q x 1, q y 1).
(* root of the square of a fraction, for the cases *)
Definition root (x : Qc) : Qc := Q2Qc (Z.sqrt (Qnum (this x)) # Z.to_pos (Z.sqrt (Zpos (Qden (this x))))).
Ltac canon := apply Qc_is_canon; vm_compute; reflexivity.
Ltac ne := let E := fresh in intro E; vm_compute in E; discriminate E.
Ltac nev f := let E := fresh in intro E; apply (f_equal f) in E; vm_compute in E; discriminate E.
Ltac le := vm_compute; discriminate.

(* C307: a 2D box made from points *)
Theorem C307_from_points_refuted : forall K pts a b va vb, rows_of K pts ->
  (exists e, bb2_from_array pts = Err e) /\ (exists e, bb2_union a b = Err e) /\ (exists e, bb2_intersection a b va vb = Err e).
Proof.
  exact (fun K pts a b va vb H => conj (from_array_2d K pts H) (conj (union_2d a b) (intersection_2d a b va vb))).
Qed.
Print Assumptions C307_from_points_refuted.
Example C307_case : bb2_from_array [[q 0 1; q 1 1]; [q 2 1; q 5 1]] = Err ValueError /\
  bb2_union (mkb2 (pt 0 0) (pt 1 1)) (mkb2 (pt 2 2) (pt 3 3)) = Err ValueError /\
  bb2_intersection (mkb2 (pt 0 0) (pt 2 2)) (mkb2 (pt 1 1) (pt 3 3)) [pt 2 2] [pt 1 1] = Err ValueError.
Proof. split; [|split]; vm_compute; reflexivity. Qed.

(* C308: a 3D box made from points *)
Theorem C308_from_points : forall pts, pts <> [] ->
  exists b, bb3_from_array (map lst pts) = Ok b /\ proper3 b /\ least3 (fun p => In p pts) b.
Proof. exact from_array_3d. Qed.
Print Assumptions C308_from_points.
Example C308_case : bb3_from_array (map lst [w 3 0 1; w 1 2 5; w 2 1 0]) = Ok (mkb3 (w 1 0 0) (w 3 2 5)).
Proof. vm_compute. reflexivity. Qed.

(* C309: union of 3D boxes *)
Theorem C309_union : forall a b, proper3 a -> proper3 b ->
  exists c, bb3_union a b = Ok c /\ proper3 c /\ least3 (fun p => in3 p a \/ in3 p b) c.
Proof. exact union_3d. Qed.
Print Assumptions C309_union.
Example C309_case : bb3_union (mkb3 (w 0 0 0) (w 1 1 1)) (mkb3 (w 2 (-1) 0) (w 3 0 4)) = Ok (mkb3 (w 0 (-1) 0) (w 3 1 4)) /\
  proper3 (mkb3 (w 0 0 0) (w 1 1 1)) /\ proper3 (mkb3 (w 2 (-1) 0) (w 3 0 4)).
Proof. split; [vm_compute; reflexivity|]. split; (split; [le|split; le]). Qed.

(* C310: growing a box *)
Theorem C310_expand : forall b p b' q', proper3 b -> proper2 b' ->
  (snd (bb3_expand b p) = true /\ proper3 (fst (bb3_expand b p)) /\ least3 (fun q => in3 q b \/ q = p) (fst (bb3_expand b p))) /\
  (snd (bb2_expand b' q') = true /\ proper2 (fst (bb2_expand b' q')) /\ least2 (fun q => in2 q b' \/ q = q') (fst (bb2_expand b' q'))).
Proof. exact (fun b p b' q' H K => conj (expand_3d b p H) (expand_2d b' q' K)). Qed.
Print Assumptions C310_expand.
Theorem C310_combine : forall a b a' b', proper3 a -> proper3 b -> proper2 a' -> proper2 b' ->
  (snd (bb3_combine a b) = true /\ proper3 (fst (bb3_combine a b)) /\ least3 (fun q => in3 q a \/ in3 q b) (fst (bb3_combine a b))) /\
  (snd (bb2_combine a' b') = true /\ proper2 (fst (bb2_combine a' b')) /\ least2 (fun q => in2 q a' \/ in2 q b') (fst (bb2_combine a' b'))).
Proof. exact (fun a b a' b' A B A' B' => conj (combine_3d a b A B) (combine_2d a' b' A' B')). Qed.
Print Assumptions C310_combine.
Example C310_case : bb3_expand (mkb3 (w 0 0 0) (w 1 1 1)) (w 2 (-1) 1) = (mkb3 (w 0 (-1) 0) (w 2 1 1), true) /\
  bb2_combine (mkb2 (pt 0 0) (pt 1 1)) (mkb2 (pt 2 (-3)) (pt 4 0)) = (mkb2 (pt 0 (-3)) (pt 4 1), true).
Proof. split; vm_compute; reflexivity. Qed.

(* C311: boxes that meet *)
Theorem C311_intersects : forall a b a' b', proper3 a -> proper3 b -> proper2 a' -> proper2 b' ->
  (bb3_intersects a b = true <-> exists p, in3 p a /\ in3 p b) /\ (bb2_intersects a' b' = true <-> exists p, in2 p a' /\ in2 p b').
Proof. exact (fun a b a' b' A B A' B' => conj (meet_3d a b A B) (meet_2d a' b' A' B')). Qed.
Print Assumptions C311_intersects.
Theorem C311_overlap : forall a b a' b', bb3_overlap a b = bb3_intersects a b /\ bb2_overlap a' b' = bb2_intersects a' b'.
Proof. exact (fun a b a' b' => conj (overlap_3d a b) (overlap_2d a' b')). Qed.
Print Assumptions C311_overlap.
Example C311_case : bb3_intersects (mkb3 (w 0 0 0) (w 1 1 1)) (mkb3 (w 1 1 1) (w 2 2 2)) = true /\
  bb3_overlap (mkb3 (w 0 0 0) (w 1 1 1)) (mkb3 (w 0 0 2) (w 2 2 3)) = false /\ bb2_intersects (mkb2 (pt 0 0) (pt 1 1)) (mkb2 (pt 0 2) (pt 1 3)) = false.
Proof. split; [|split]; vm_compute; reflexivity. Qed.

(* C312: intersection of 3D boxes *)
Theorem C312_intersection : forall a b, proper3 a -> proper3 b ->
  match bb3_intersection a b with
  | None => forall p, in3 p a -> ~ in3 p b
  | Some c => proper3 c /\ forall p, in3 p c <-> in3 p a /\ in3 p b
  end.
Proof. exact intersection_3d. Qed.
Print Assumptions C312_intersection.
Example C312_case : bb3_intersection (mkb3 (w 0 0 0) (w 2 2 2)) (mkb3 (w 1 (-1) 1) (w 3 1 5)) = Some (mkb3 (w 1 0 1) (w 2 1 2)) /\
  bb3_intersection (mkb3 (w 0 0 0) (w 2 2 2)) (mkb3 (w 3 0 0) (w 4 1 1)) = None.
Proof. split; vm_compute; reflexivity. Qed.

(* C313: points of a box *)
Theorem C313_contains_partial : forall b p b' p', vz (mn3 b) <= vz p -> vz p <= vz (mx3 b) ->
  (bb3_contains b p = true <-> in3 p b) /\ (bb2_contains b' p' = true <-> in2 p' b').
Proof. exact (fun b p b' p' H K => conj (contains_3d b p H K) (contains_2d b' p')). Qed.
Print Assumptions C313_contains_partial.
Theorem C313_contains_refuted : forall b p, in3 p b -> forall z, bb3_contains b (mkv (vx p) (vy p) z) = true.
Proof. exact contains_3d_outside. Qed.
Print Assumptions C313_contains_refuted.
Example C313_case : bb3_contains (mkb3 (w 0 0 0) (w 1 1 1)) (w 1 1 100) = true /\ ~ in3 (w 1 1 100) (mkb3 (w 0 0 0) (w 1 1 1)) /\
  in3 (w 1 1 0) (mkb3 (w 0 0 0) (w 1 1 1)) /\ bb2_contains (mkb2 (pt 0 0) (pt 1 1)) (pt 1 2) = false.
Proof.
  split; [vm_compute; reflexivity|]. split; [intros (_ & _ & _ & H); vm_compute in H; apply H; reflexivity|].
  split; [split; [split; le|split; split; le]|vm_compute; reflexivity].
Qed.

(* C314: the copy of a box *)
Theorem C314_copy_refuted : forall b b', proper3 b -> mn3 b <> mx3 b -> proper2 b' -> mn2 b' <> mx2 b' ->
  (forall p, ~ in3 p (bb3_copy b)) /\ (forall p, ~ in2 p (bb2_copy b')).
Proof. exact (fun b b' P N P' N' => conj (copy_3d_empty b P N) (copy_2d_empty b' P' N')). Qed.
Print Assumptions C314_copy_refuted.
Theorem C314_copy_partial : forall b b', (bb3_copy b = b <-> mn3 b = mx3 b) /\ (bb2_copy b' = b' <-> mn2 b' = mx2 b') /\
  mn3 (bb3_copy b) = mx3 b /\ mx3 (bb3_copy b) = mn3 b.
Proof. exact (fun b b' => conj (copy_3d_same b) (conj (copy_2d_same b') (copy_3d b))). Qed.
Print Assumptions C314_copy_partial.
Example C314_case : bb3_copy (mkb3 (w 0 0 0) (w 1 2 3)) = mkb3 (w 1 2 3) (w 0 0 0) /\ proper3 (mkb3 (w 0 0 0) (w 1 2 3)) /\ w 0 0 0 <> w 1 2 3 /\
  proper2 (mkb2 (pt 0 0) (pt 1 2)) /\ pt 0 0 <> pt 1 2.
Proof. split; [reflexivity|]. split; [split; [le|split; le]|]. split; [nev vx|]. split; [split; le|nev (@fst Qc Qc)]. Qed.

(* C315: the centre of a box *)
Theorem C315_centroid : forall b p, proper3 b ->
  in3 (bb3_centroid b) b /\ (in3 p b -> in3 (vsub (vadd (bb3_centroid b) (bb3_centroid b)) p) b).
Proof. exact centroid_3d. Qed.
Print Assumptions C315_centroid.
Example C315_case : bb3_centroid (mkb3 (w 0 0 1) (w 2 4 3)) = w 1 2 2 /\ proper3 (mkb3 (w 0 0 1) (w 2 4 3)).
Proof. split; [apply v3_ext; canon|split; [le|split; le]]. Qed.

(* C316: arithmetic in place *)
Theorem C316_in_place_refuted : forall a b k, snd (v3_iadd a b) = None /\ snd (v3_isub a b) = None /\ snd (v3_imul a k) = None.
Proof. exact (fun a b k => conj eq_refl (conj eq_refl eq_refl)). Qed.
Print Assumptions C316_in_place_refuted.
Theorem C316_in_place_partial : forall a b k,
  fst (v3_iadd a b) = v3_plus a b /\ fst (v3_iadd a b) = fst (v3_add a b) /\ fst (v3_isub a b) = fst (v3_subtract a b) /\
  fst (v3_imul a k) = fst (v3_scale a k) /\ fst (v3_subtract (fst (v3_add a b)) b) = a.
Proof.
  refine (fun a b k => conj eq_refl (conj eq_refl (conj eq_refl (conj eq_refl _)))).
  apply v3_ext; unfold v3_subtract, v3_add, vsub, vadd; cbn [fst vx vy vz]; ring.
Qed.
Print Assumptions C316_in_place_partial.
Example C316_case : v3_iadd (w 1 2 3) (w 1 1 1) = (w 2 3 4, None).
Proof. vm_compute. reflexivity. Qed.

(* C317: parallel vectors *)
Theorem C317_parallel_partial : forall a b, unit3 a -> unit3 b ->
  (parallel a b -> v3_is_parallel a b = true) /\
  (v3_is_parallel a b = true -> vdot (vcross a b) (vcross a b) <= (1 + 1) * (atol + rtol)).
Proof. exact parallel_unit. Qed.
Print Assumptions C317_parallel_partial.
Theorem C317_parallel_refuted : forall v, v <> v30 ->
  (exists k, 0 < k /\ v3_is_parallel v (vscale k v) = false) /\ (exists u, ~ parallel v u /\ v3_is_parallel v u = true).
Proof. exact (fun v N => conj (parallel_scaled_missed v N) (parallel_wrong v N)). Qed.
Print Assumptions C317_parallel_refuted.
Theorem C317_opposite_refuted : forall a b, v2_is_parallel a b = true -> v2_is_parallel a (opp2 b) = false.
Proof. exact parallel_2d_opposite. Qed.
Print Assumptions C317_opposite_refuted.
Example C317_case : v3_is_parallel (w 2 0 0) (w 2 0 0) = false /\ v3_is_parallel (w 1 0 0) (w 1 7 0) = true /\ v3_is_parallel (w 0 1 0) (w 0 (-1) 0) = true /\
  v2_is_parallel (pt 1 0) (pt 1 0) = true /\ v2_is_parallel (pt 1 0) (pt (-1) 0) = false /\ unit3 (w 0 1 0) /\ w 2 0 0 <> v30.
Proof. do 5 (split; [vm_compute; reflexivity|]). split; [canon|nev vx]. Qed.

(* C318: perpendicular vectors *)
Theorem C318_perpendicular_partial : forall a b, (vdot a b = 0 -> v3_is_perpendicular a b = true) /\
  (v3_is_perpendicular a b = true <-> fabs (vdot a b) <= atol).
Proof. exact (fun a b => conj (perp_true a b) (perp_bound a b)). Qed.
Print Assumptions C318_perpendicular_partial.
Theorem C318_perpendicular_refuted : forall a b, exists k, 0 < k /\ v3_is_perpendicular (vscale k a) b = true.
Proof. exact perp_short. Qed.
Print Assumptions C318_perpendicular_refuted.
Example C318_case : v3_is_perpendicular (w 1 0 0) (w 0 1 0) = true /\ v3_is_perpendicular (w 1 0 0) (w 1 1 0) = false /\
  v3_is_perpendicular (mkv (q 1 1000000000) 0 0) (w 1 1 0) = true.
Proof. split; [|split]; vm_compute; reflexivity. Qed.

(* C319: the length of a vector *)
Theorem C319_length_refuted : forall a, v3_length a = Err TypeError.
Proof. exact (fun a => eq_refl). Qed.
Print Assumptions C319_length_refuted.
Theorem C319_length_partial : forall sqrt a, rooted sqrt (dot2 a a) -> exists l, v2_length sqrt a = Ok l /\ 0 <= l /\ l * l = fst a * fst a + snd a * snd a.
Proof. exact (fun sqrt a R => ex_intro _ (sqrt (dot2 a a)) (conj eq_refl R)). Qed.
Print Assumptions C319_length_partial.
Example C319_case : v2_length root (pt 3 4) = Ok (q 5 1) /\ rooted root (dot2 (pt 3 4) (pt 3 4)).
Proof. split; [vm_compute; f_equal; canon|split; [le|canon]]. Qed.

(* C320: products of matrices and vectors *)
Theorem C320_compose : forall a b v a' b' v', affine4 b -> affine3 b' ->
  m4_apply (m4_matmul a b) v = m4_apply a (m4_apply b v) /\ m3_apply (m3_transform a' b') v' = m3_apply a' (m3_apply b' v').
Proof. exact (fun a b v a' b' v' H K => conj (apply_compose a b v H) (apply_compose2 a' b' v' K)). Qed.
Print Assumptions C320_compose.
Theorem C320_affine : forall a b, affine4 a -> affine4 b -> affine4 (m4_matmul a b).
Proof. exact affine_compose. Qed.
Print Assumptions C320_affine.
Theorem C320_translation : forall v p v' p', m4_apply (v3_to_translation v) p = vadd p v /\ m4_apply m4_identity p = p /\
  m3_apply (v2_to_translation v') p' = (fst p' + fst v', snd p' + snd v').
Proof. exact (fun v p v' p' => conj (apply_translation v p) (conj (apply_identity p) (apply_translation2 v' p'))). Qed.
Print Assumptions C320_translation.
Example C320_case : m4_apply (m4_matmul (v3_to_translation (w 1 2 3)) (mkm4 (mkm (w 0 (-1) 0) (w 1 0 0) (w 0 0 1)) (w 5 0 0) v30 1)) (w 1 0 0) = w 6 3 3 /\
  affine4 (mkm4 (mkm (w 0 (-1) 0) (w 1 0 0) (w 0 0 1)) (w 5 0 0) v30 1).
Proof. split; [apply v3_ext; canon|split; reflexivity]. Qed.

(* C321: vectors changed by a matrix, and matrices made from cells *)
Theorem C321_transform_refuted : forall v m v' m', v3_transform v m = Err AttributeError /\ v2_transform v' m' = Err ValueError.
Proof. exact (fun v m v' m' => conj eq_refl eq_refl). Qed.
Print Assumptions C321_transform_refuted.
Theorem C321_cells_refuted : forall cells, m4_of_list cells = cells <-> cells = m4_identity.
Proof. exact (fun cells => conj (fun H => eq_sym H) (fun H => eq_sym H)). Qed.
Print Assumptions C321_cells_refuted.
Example C321_case : v3_transform (w 1 0 0) m4_identity = Err AttributeError /\ m4_of_list (v3_to_translation (w 1 0 0)) <> v3_to_translation (w 1 0 0).
Proof. split; [reflexivity|]. intros E. apply (f_equal (fun m => vx (trans m))) in E. vm_compute in E. discriminate E. Qed.

(* C322: coordinate systems *)
Theorem C322_frame_refuted : forall m o x y z m' o' x' y',
  (m4_get_coordinate_system (fst (m4_set_coordinate_system m o x y z)) = (o, x, y, z) <-> o = v30 /\ vx y = vy x /\ vx z = vz x /\ vy z = vz y) /\
  (m3_get_coordinate_system (fst (m3_set_coordinate_system m' o' x' y')) = (o', x', y') <-> o' = (0, 0) /\ fst y' = snd x').
Proof. exact (fun m o x y z m' o' x' y' => conj (frame_3d_same m o x y z) (frame_2d_same m' o' x' y')). Qed.
Print Assumptions C322_frame_refuted.
Theorem C322_frame_partial : forall m o x y z,
  m4_get_coordinate_system (fst (m4_set_coordinate_system m o x y z)) =
  (v30, mkv (vx x) (vx y) (vx z), mkv (vy x) (vy y) (vy z), mkv (vz x) (vz y) (vz z)).
Proof. exact frame_3d. Qed.
Print Assumptions C322_frame_partial.
Example C322_case : m4_get_coordinate_system (fst (m4_set_coordinate_system m4_identity (w 5 6 7) (w 0 1 0) (w (-1) 0 0) (w 0 0 1))) =
  (v30, w 0 (-1) 0, w 1 0 0, w 0 0 1).
Proof. vm_compute. reflexivity. Qed.

(* C323: mapping a coordinate system to another *)
Theorem C323_align_refuted : forall m fo fx fy fz o tx ty tz m' fo' fx' fy' o' tx' ty',
  m4_align m fo fx fy fz o tx ty tz = (fst (m4_set_coordinate_system m o tx ty tz), Err ValueError) /\
  m3_align m' fo' fx' fy' o' tx' ty' = (fst (m3_set_coordinate_system m' o' tx' ty'), Err ValueError).
Proof. exact (fun m fo fx fy fz o tx ty tz m' fo' fx' fy' o' tx' ty' => conj (align_3d m fo fx fy fz o tx ty tz) (align_2d m' fo' fx' fy' o' tx' ty')). Qed.
Print Assumptions C323_align_refuted.
Example C323_case : snd (m4_align m4_identity v30 (w 1 0 0) (w 0 1 0) (w 0 0 1) v30 (w 1 0 0) (w 0 1 0) (w 0 0 1)) = Err ValueError.
Proof. reflexivity. Qed.

(* C324: turning about a point *)
Theorem C324_rotation_refuted : forall m t o, is_angle t ->
  (m3_apply (fst (m3_set_to_rotation m t (Some o))) o = o <-> snd t = 0 \/ o = (0, 0)).
Proof. exact rotation_2d_about. Qed.
Print Assumptions C324_rotation_refuted.
Theorem C324_rotation_3d_refuted : forall rotvec radians m angle axis o, isometry (rotvec (vscale (radians angle) axis)) ->
  (m4_apply (fst (m4_set_to_rotation rotvec radians m angle axis o)) o = o <-> o = v30).
Proof. exact rotation_3d_about. Qed.
Print Assumptions C324_rotation_3d_refuted.
Theorem C324_rotation_partial : forall m t v rotvec radians m' angle axis v',
  m3_apply (fst (m3_set_to_rotation m t (Some (0, 0)))) v = turned t v /\
  m3_apply (fst (m3_set_to_rotation m t None)) v = (fst (turned t v) + fst (trans2 m), snd (turned t v) + snd (trans2 m)) /\
  m4_apply (fst (m4_set_to_rotation rotvec radians m' angle axis v30)) v' = mv (rotvec (vscale (radians angle) axis)) v'.
Proof.
  exact (fun m t v rotvec radians m' angle axis v' =>
    conj (rotation_2d_zero m t v) (conj (rotation_2d_none m t v) (rotation_3d_zero rotvec radians m' angle axis v'))).
Qed.
Print Assumptions C324_rotation_partial.
Example C324_case : is_angle (pt 0 1) /\ m3_apply (fst (m3_set_to_rotation m3_identity (pt 0 1) (Some (pt 1 0)))) (pt 1 0) = pt 1 2 /\
  m3_apply (fst (m3_set_to_rotation m3_identity (pt 0 1) (Some (0, 0)))) (pt 1 0) = pt 0 1 /\ isometry eye3.
Proof.
  split; [canon|]. split; [apply injective_projections; canon|]. split; [apply injective_projections; canon|].
  intros v. rewrite mv_eye. reflexivity.
Qed.

(* C325: turning a vector of the plane to another *)
Theorem C325_rotate_to : forall sqrt m f t, f <> (0, 0) -> t <> (0, 0) ->
  rooted sqrt (dot2 f t * dot2 f t + (fst f * snd t - snd f * fst t) * (fst f * snd t - snd f * fst t)) ->
  snd (m3_set_to_rotate_to sqrt m f t) = true /\
  exists k, 0 < k /\ m3_apply (fst (m3_set_to_rotate_to sqrt m f t)) f = (k * fst t, k * snd t) /\
    k * k * dot2 t t = dot2 f f.
Proof. exact rotate_to_2d. Qed.
Print Assumptions C325_rotate_to.
Example C325_case : m3_apply (fst (m3_set_to_rotate_to root m3_identity (pt 2 0) (pt 3 4))) (pt 2 0) = (q 6 5, q 8 5) /\
  rooted root (dot2 (pt 2 0) (pt 3 4) * dot2 (pt 2 0) (pt 3 4) + (q 2 1 * q 4 1 - q 0 1 * q 3 1) * (q 2 1 * q 4 1 - q 0 1 * q 3 1)).
Proof. split; [apply injective_projections; canon|split; [le|canon]]. Qed.

(* C326: turning a vector of space to another *)
Theorem C326_rotate_to_refuted : forall rotvec arccos m f t axis, above_tol (vcross f t) ->
  m4_set_to_rotate_to rotvec arccos m f t axis = (m, false).
Proof. exact rotate_to_3d_far. Qed.
Print Assumptions C326_rotate_to_refuted.
Theorem C326_rotate_to_partial : forall rotvec arccos m f k, rotvec v30 = eye3 -> trans m = v30 ->
  snd (m4_set_to_rotate_to rotvec arccos m f (vscale k f) None) = true /\
  m4_apply (fst (m4_set_to_rotate_to rotvec arccos m f (vscale k f) None)) f = f.
Proof. exact rotate_to_3d_scaled. Qed.
Print Assumptions C326_rotate_to_partial.
Example C326_case : above_tol (vcross (w 1 0 0) (w 0 1 0)) /\ trans m4_identity = v30 /\
  m4_set_to_rotate_to (fun _ => eye3) (fun x => x) m4_identity (w 1 0 0) (w 0 1 0) None = (m4_identity, false).
Proof. split; [right; right; vm_compute; reflexivity|]. split; reflexivity. Qed.

(* C327: collections *)
Theorem C327_collection_refuted : forall (A : Type) (l : list A) (ops : list (op A)) (x : A),
  oc_run l ops = l /\ oc_contains (oc_run l ops) x = false /\ oc_count (oc_run l ops) = 0%Z.
Proof. exact (fun A l ops x => conj (oc_run_same ops l) (conj eq_refl eq_refl)). Qed.
Print Assumptions C327_collection_refuted.
Example C327_case : oc_run [1%Z] [OpAdd 2%Z; OpClear; OpRemove 1%Z] = [1%Z] /\ oc_contains [1%Z] 1%Z = false /\ oc_getitem [1%Z] 0 = None.
Proof. split; [|split]; reflexivity. Qed.

(* C328: a plane and a line *)
Theorem C328_plane_line : forall p l, fresh l ->
  match plane_x_line p l with
  | Some q => on_plane p q /\ exists t, in_range l t /\ q = line_at l t
  | None => fabs (vdot (pl_n (ap_array p)) (line_direction l)) <= atol \/ (forall t, in_range l t -> ~ on_plane p (line_at l t))
  end.
Proof. exact plane_line. Qed.
Print Assumptions C328_plane_line.
Definition z_plane (h : Z) : aplane := plane_of_array (mkpl (w 0 0 h) (w 1 0 0) (w 0 1 0) (w 0 0 1)).
Example C328_case : plane_x_line (z_plane 1) (line_segment (w 0 0 0) (w 2 4 2)) = Some (w 1 2 1) /\ fresh (line_segment (w 0 0 0) (w 2 4 2)) /\
  plane_x_line (z_plane 5) (line_segment (w 0 0 0) (w 2 4 2)) = None /\ plane_x_line (z_plane 5) (infinite_line (w 0 0 0) (w 2 4 2)) = Some (w 5 10 5).
Proof. split; [vm_compute; reflexivity|]. split; [reflexivity|]. split; vm_compute; reflexivity. Qed.

(* C329: a plane and a line whose ends were set again *)
Theorem C329_moved_line_refuted : forall p a b c d r, plane_x_line p (line_set (line_segment a b) c d) = Some r ->
  on_plane p r /\ (on_line (line_set (line_segment a b) c d) r <-> vcross (vsub a c) (vsub d c) = v30).
Proof. exact plane_line_moved. Qed.
Print Assumptions C329_moved_line_refuted.
Example C329_case : plane_x_line (z_plane 1) (line_set (line_segment (w 0 0 0) (w 1 1 1)) (w 7 0 0) (w 7 0 2)) = Some (w 0 0 1) /\
  vcross (vsub (w 0 0 0) (w 7 0 0)) (vsub (w 7 0 2) (w 7 0 0)) <> v30.
Proof. split; [vm_compute; reflexivity|nev vy]. Qed.

(* C330: two planes *)
Theorem C330_plane_plane_refuted : forall p r l, plane_x_plane p r = Some l ->
  ((forall t, on_plane p (line_at l t) /\ on_plane r (line_at l t)) <-> on_plane p v30 /\ on_plane r v30).
Proof. exact (fun p r l H => proj1 (plane_plane p r l H)). Qed.
Print Assumptions C330_plane_plane_refuted.
Theorem C330_plane_plane_partial : forall p r l, plane_x_plane p r = Some l ->
  vdot (line_direction l) (pl_n (ap_array p)) = 0 /\ vdot (line_direction l) (pl_n (ap_array r)) = 0.
Proof. exact (fun p r l H => proj2 (plane_plane p r l H)). Qed.
Print Assumptions C330_plane_plane_partial.
Definition x_plane (h : Z) : aplane := plane_of_array (mkpl (w h 0 0) (w 0 1 0) (w 0 0 1) (w 1 0 0)).
Example C330_case : plane_x_plane (z_plane 1) (x_plane 2) = Some (Infinite (w 0 0 0) (w 0 1 0)) /\ ~ on_plane (z_plane 1) v30.
Proof. split; [vm_compute; reflexivity|ne]. Qed.

(* C331: planes with the same points *)
Theorem C331_coplanar_refuted : forall p r, ap_origin p = ap_origin r -> plane_is_coplanar p r = true.
Proof. exact coplanar_same_origin. Qed.
Print Assumptions C331_coplanar_refuted.
Theorem C331_coplanar_partial : forall p r, (on_plane p (ap_origin r) -> plane_is_coplanar p r = true) /\
  (plane_is_coplanar p r = true <-> fabs (vdot (pl_n (ap_array p)) (vsub (ap_origin r) (ap_origin p))) < tol10).
Proof. exact (fun p r => conj (coplanar_true p r) (coplanar_bound p r)). Qed.
Print Assumptions C331_coplanar_partial.
Example C331_case : plane_is_coplanar (z_plane 0) (x_plane 0) = true /\ plane_is_coplanar (z_plane 0) (x_plane 5) = true /\
  plane_is_coplanar (x_plane 5) (z_plane 0) = false /\ ap_origin (z_plane 0) = ap_origin (x_plane 0).
Proof. split; [|split; [|split]]; vm_compute; reflexivity. Qed.

(* C332: moving a plane *)
Theorem C332_set_origin_refuted : forall p o uvh n,
  plane_evaluate (plane_set_origin p o) uvh = plane_evaluate p uvh /\
  (plane_evaluate (plane_set_origin p o) v30 = o <-> o = pl_o (ap_array p)) /\
  plane_set_normal p n = Err TypeError /\ plane_copy (plane_set_origin p o) = plane_copy p.
Proof. exact (fun p o uvh n => conj (set_origin_keeps p o uvh) (conj (set_origin_zero p o) (conj eq_refl eq_refl))). Qed.
Print Assumptions C332_set_origin_refuted.
Example C332_case : plane_evaluate (plane_set_origin (z_plane 0) (w 5 5 5)) (w 1 2 0) = w 1 2 0 /\ w 5 5 5 <> pl_o (ap_array (z_plane 0)).
Proof. split; [apply v3_ext; canon|nev vx]. Qed.

(* C333: the parameters of two lines that meet *)
Theorem C333_line_line_refuted : forall a b s t, allclose0 (vcross (line_direction a) (line_direction b)) = false ->
  line_at a s = line_at b t -> line_line_intersection a b = (true, Some (- s, - t)).
Proof. exact line_line_params. Qed.
Print Assumptions C333_line_line_refuted.
Theorem C333_line_line_partial : forall a b, parallel (line_direction a) (line_direction b) -> line_line_intersection a b = (false, None).
Proof. exact line_line_parallel. Qed.
Print Assumptions C333_line_line_partial.
Example C333_case : line_line_intersection (line_segment (w 0 0 0) (w 2 2 0)) (line_segment (w 0 2 0) (w 2 0 0)) = (true, Some (- q 1 2, - q 1 2)) /\
  line_at (line_segment (w 0 0 0) (w 2 2 0)) (q 1 2) = line_at (line_segment (w 0 2 0) (w 2 0 0)) (q 1 2).
Proof. split; [vm_compute; do 2 f_equal; apply injective_projections; canon|apply v3_ext; canon]. Qed.

(* C334: line.intersect_with_line *)
Theorem C334_cross_partial : forall a b h ok t1 t2, line_x_line (line_segment (fst a) (snd a)) (line_segment (fst b) (snd b)) = (ok, t1, t2) ->
  vz (fst a) = h -> vz (snd a) = h -> vz (fst b) = h -> vz (snd b) = h -> fabs h <= rtol ->
  area2 (snd a) (fst b) (snd b) <> 0 ->
  (ok = true <-> flat_cross (line_segment (fst a) (snd a)) (line_segment (fst b) (snd b)) <> 0 /\
     exists u v, 0 <= u /\ u <= 1 /\ 0 <= v /\ v <= 1 /\
       line_at (line_segment (fst a) (snd a)) u = line_at (line_segment (fst b) (snd b)) v) /\
  (ok = true -> exists u v, t1 = Some v /\ t2 = Some u /\
       line_at (line_segment (fst a) (snd a)) u = line_at (line_segment (fst b) (snd b)) v).
Proof. exact cross_flat. Qed.
Print Assumptions C334_cross_partial.
Theorem C334_lifted_refuted : forall a b h, at_height a h -> at_height b h -> rtol < fabs h -> area2 (line_end a) (line_start b) (line_end b) <> 0 ->
  fst (fst (line_x_line a b)) = false.
Proof. exact cross_lifted. Qed.
Print Assumptions C334_lifted_refuted.
Theorem C334_infinite_refuted : forall a o d u v, at_height a 0 -> at_height (Infinite o d) 0 -> area2 (line_end a) o (vadd o d) <> 0 ->
  flat_cross a (Infinite o d) <> 0 -> line_at a u = line_at (Infinite o d) v ->
  (fst (fst (line_x_line a (Infinite o d))) = true <-> 0 <= v /\ v <= 1).
Proof. exact cross_infinite. Qed.
Print Assumptions C334_infinite_refuted.
Example C334_case : line_x_line (line_segment (w 0 0 0) (w 2 2 0)) (line_segment (w 0 2 0) (w 2 0 0)) = (true, Some (q 1 2), Some (q 1 2)) /\
  fst (fst (line_x_line (line_segment (w 0 0 3) (w 2 2 3)) (line_segment (w 0 2 3) (w 2 0 3)))) = false /\
  fst (fst (line_x_line (line_segment (w 0 0 0) (w 1 0 0)) (infinite_line (w 5 (-1) 0) (w 0 4 0)))) = true /\
  area2 (w 2 2 3) (w 0 2 3) (w 2 0 3) <> 0 /\ rtol < fabs (q 3 1) /\
  line_at (line_segment (w 0 0 0) (w 1 0 0)) (q 5 1) = line_at (infinite_line (w 5 (-1) 0) (w 0 4 0)) (q 1 4).
Proof.
  split; [vm_compute; apply f_equal2; [apply f_equal; apply f_equal; canon|apply f_equal; canon]|]. split; [vm_compute; reflexivity|]. split; [vm_compute; reflexivity|]. split; [ne|].
  split; [vm_compute; reflexivity|apply v3_ext; canon].
Qed.

(* C335: collinear lines *)
Theorem C335_colinear_refuted : forall a b u,
  (unit3 (vsub b a) -> line_is_colinear (line_segment a b) (line_segment (vadd a u) (vadd b u)) = true) /\
  (line_is_colinear (line_segment a b) (line_segment a b) = true <->
    1 - (atol + rtol) <= vdot (vsub b a) (vsub b a) /\ vdot (vsub b a) (vsub b a) <= 1 + (atol + rtol)).
Proof. exact (fun a b u => conj (colinear_shifted a b u) (colinear_itself a b)). Qed.
Print Assumptions C335_colinear_refuted.
Example C335_case : line_is_colinear (line_segment (w 0 0 0) (w 1 0 0)) (line_segment (w 0 9 0) (w 1 9 0)) = true /\
  line_is_colinear (line_segment (w 0 0 0) (w 2 0 0)) (line_segment (w 0 0 0) (w 2 0 0)) = false /\ unit3 (vsub (w 1 0 0) (w 0 0 0)).
Proof. split; [vm_compute; reflexivity|]. split; [vm_compute; reflexivity|canon]. Qed.

(* C336: the circle through three points *)
Theorem C336_three_points : forall sqrt a b c k, rooted sqrt (dist2 a b * dist2 a c * dist2 b c) -> circle2_by_3pt sqrt a b c = Ok k ->
  0 <= c2_radius k /\
  dist2 (c2_center k) a = c2_radius k * c2_radius k /\ dist2 (c2_center k) b = c2_radius k * c2_radius k /\ dist2 (c2_center k) c = c2_radius k * c2_radius k.
Proof. exact circle_3pt. Qed.
Print Assumptions C336_three_points.
Theorem C336_not_in_line : forall sqrt a b c, area2 (mkv (fst a) (snd a) 0) (mkv (fst b) (snd b) 0) (mkv (fst c) (snd c) 0) <> 0 <->
  exists k, circle2_by_3pt sqrt a b c = Ok k.
Proof. exact circle_3pt_some. Qed.
Print Assumptions C336_not_in_line.
Example C336_case : circle2_by_3pt root (pt 6 2) (pt 1 7) (pt 1 (-3)) = Ok (mkc2 (pt 1 2) (q 5 1)) /\
  rooted root (dist2 (pt 6 2) (pt 1 7) * dist2 (pt 6 2) (pt 1 (-3)) * dist2 (pt 1 7) (pt 1 (-3))).
Proof. split; [vm_compute; f_equal; f_equal; [apply injective_projections; canon|canon]|split; [le|canon]]. Qed.

(* C337: the points of a circle object *)
Theorem C337_circle_points_refuted : forall c,
  (forall t, is_angle t -> dist2 (vx (circle2_evaluate c t), vy (circle2_evaluate c t)) (c2_center c) = c2_radius c * c2_radius c) <->
  c2_center c = (0, 0).
Proof. exact circle_evaluate_center. Qed.
Print Assumptions C337_circle_points_refuted.
Example C337_case : circle2_evaluate (mkc2 (pt 10 0) (q 2 1)) (pt 1 0) = w 2 0 0 /\ is_angle (pt 1 0) /\ pt 10 0 <> (0, 0).
Proof. split; [apply v3_ext; canon|]. split; [canon|nev (@fst Qc Qc)]. Qed.
