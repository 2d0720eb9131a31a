(* mmcore/compat/step/step_writer.py: StepWriter. *)
From Coq Require Import List Arith ZArith Bool QArith Qcanon String Lia.
From Verif Require Import Common QcLib StepModel.
Import ListNotations.
Local Open Scope string_scope.
Local Open Scope list_scope.

(* steputils.p21 values.  The reference '#12' is ARef 12.  Modelled as data; how steputils prints
   them is not modelled.  [for ent, step_writer.py:321-335] *)
Inductive arg :=
| AStr (s : string) | AInt (z : Z) | ANum (x : Qc) | AEnum (s : string) | AUnset (s : string)
| ARef (r : nat) | AList (l : list arg) | AEnt (name : string) (l : list arg).
(* for st, step_writer.py:321-335 *)
Inductive ent := Simple (name : string) (args : list arg) | Complex (parts : list (string * list arg)).
(* step_writer.py:145-152 constants *)
Definition ANY : arg := AUnset "*".
(* for add_units, step_writer.py:361-396 *)
Definition UNSET : arg := AUnset "$".
(* for add_b_spline_curve_with_knots, step_writer.py:265-280 *)
Definition UNSPECIFIED : arg := AEnum ".UNSPECIFIED.".
(* for flag, step_writer.py:294-300 *)
Definition FALSE_ : arg := AEnum ".F.".
(* for flag, step_writer.py:294-300 *)
Definition TRUE_ : arg := AEnum ".T.".
(* for add_edge_curve, step_writer.py:294-300 *)
Definition flag (b : bool) : arg := if b then TRUE_ else FALSE_.

(* the writer: _last_ref, step_file.data[0].instances (a dict in insertion order), _context3,
   tolerance, and the entities kept as attributes by __init__  [for W, step_writer.py:321-335] *)
Record st := { last_ref : nat; insts : list (nat * ent); context3 : option nat; tolerance : Qc; e4 : nat; e8 : nat; world : nat }.
(* for next_ref, step_writer.py:260-263 *)
Definition set_last n s := {| last_ref := n; insts := insts s; context3 := context3 s; tolerance := tolerance s; e4 := e4 s; e8 := e8 s; world := world s |}.
(* for add, step_writer.py:453-457 *)
Definition set_insts l s := {| last_ref := last_ref s; insts := l; context3 := context3 s; tolerance := tolerance s; e4 := e4 s; e8 := e8 s; world := world s |}.
(* for add_context3, step_writer.py:397-408 *)
Definition set_context c s := {| last_ref := last_ref s; insts := insts s; context3 := Some c; tolerance := tolerance s; e4 := e4 s; e8 := e8 s; world := world s |}.
(* for init, step_writer.py:223-255 *)
Definition set_e4 n s := {| last_ref := last_ref s; insts := insts s; context3 := context3 s; tolerance := tolerance s; e4 := n; e8 := e8 s; world := world s |}.
(* for init, step_writer.py:223-255 *)
Definition set_e8 n s := {| last_ref := last_ref s; insts := insts s; context3 := context3 s; tolerance := tolerance s; e4 := e4 s; e8 := n; world := world s |}.
(* for init, step_writer.py:223-255 *)
Definition set_world n s := {| last_ref := last_ref s; insts := insts s; context3 := context3 s; tolerance := tolerance s; e4 := e4 s; e8 := e8 s; world := n |}.

(* methods change the writer even when they raise  [for ret, step_writer.py:321-335] *)
Definition W (A : Type) : Type := st -> st * res A.
(* for each, step_writer.py:321-335 *)
Definition ret {A} (a : A) : W A := fun s => (s, Ok a).
(* for add_cartesian_point, step_writer.py:428-435 *)
Definition raise {A} (e : err) : W A := fun s => (s, Err e).
(* one method after another; not in the code *)
Definition andthen {A B} (m : W A) (k : A -> W B) : W B := fun s => match m s with (s1, Ok a) => k a s1 | (s1, Err e) => (s1, Err e) end.
Notation "'let!' x := m 'in' k" := (andthen m (fun x => k)) (at level 200, x name, right associativity).
(* for add_edge_loop, step_writer.py:321-335 *)
Fixpoint each {A B} (f : A -> W B) (l : list A) : W (list B) :=
  match l with [] => ret [] | a :: r => let! b := f a in let! bs := each f r in ret (b :: bs) end.

(* dict.update of one key  [for add, step_writer.py:453-457] *)
Fixpoint dict_put (k : nat) (v : ent) (l : list (nat * ent)) : list (nat * ent) :=
  match l with [] => [(k, v)] | (k0, v0) :: r => if Nat.eqb k0 k then (k0, v) :: r else (k0, v0) :: dict_put k v r end.
(* for typeof, step_writer.py:286-293 *)
Fixpoint dict_get (k : nat) (l : list (nat * ent)) : option ent :=
  match l with [] => None | (k0, v0) :: r => if Nat.eqb k0 k then Some v0 else dict_get k r end.
(* step_writer.py:260-263 next_ref *)
Definition next_ref : W nat := fun s => (set_last (S (last_ref s)) s, Ok (S (last_ref s))).
(* step_writer.py:453-457 add_entity, 459-463 add_complex_entity *)
Definition add (e : ent) : W nat := let! r := next_ref in fun s => (set_insts (dict_put r e (insts s)) s, Ok r).
(* step_writer.py:453-457 *)
Definition add_entity (name : string) (args : list arg) : W nat := add (Simple name args).
(* step_writer.py:453-457 *)
Definition add_complex_entity (parts : list (string * list arg)) : W nat := add (Complex parts).
(* step_writer.py:286-293 typeof *)
Definition typeof (r : nat) : W string := fun s =>
  match dict_get r (insts s) with
  | Some (Simple name _) => (s, Ok name)
  | Some (Complex _) => (s, Ok "COMPLEX_ENTITY_INSTANCE")
  | None => (s, Err KeyError)
  end.

(* step_writer.py:428-435 add_cartesian_point, add_direction *)
Definition dims (pt : list Qc) : bool := Nat.eqb (List.length pt) 2 || Nat.eqb (List.length pt) 3.
(* step_writer.py:428-435 *)
Definition add_cartesian_point (pt : list Qc) (name : string) : W nat :=
  if dims pt then add_entity "CARTESIAN_POINT" [AStr name; AList (map ANum pt)] else raise ValueError.
(* step_writer.py:428-435 *)
Definition add_direction (v : list Qc) (name : string) : W nat :=
  if dims v then add_entity "DIRECTION" [AStr name; AList (map ANum v)] else raise ValueError.

(* step_writer.py:282-283 issteptype, 302-311 add_vertex_point.  An argument is coordinates or a reference; in the first case the
   method calls itself with the reference of a new point and the default name. *)
Inductive point := Coords (l : list Qc) | Ref (r : nat).
(* for add_vertex_point, step_writer.py:282-283 *)
Definition vertex_of_ref (r : nat) (name : string) : W nat :=
  let! t := typeof r in
  if String.eqb t "CARTESIAN_POINT" then add_entity "VERTEX_POINT" [AStr name; ARef r]
  else if String.eqb t "VERTEX_POINT" then ret r
  else raise ValueError.
(* step_writer.py:282-283 *)
Definition add_vertex_point (p : point) (name : string) : W nat :=
  match p with
  | Coords l => let! r := add_cartesian_point l "" in vertex_of_ref r ""
  | Ref r => vertex_of_ref r name
  end.
(* step_writer.py:294-300 add_edge_curve *)
Definition add_edge_curve (start fin : point) (geometry : nat) (same : bool) (name : string) : W nat :=
  let! a := add_vertex_point start "" in
  let! b := add_vertex_point fin "" in
  add_entity "EDGE_CURVE" [AStr name; ARef a; ARef b; ARef geometry; flag same].
(* step_writer.py:313-319 add_oriented_edge; start and end default to ANY *)
Definition opt (a : option nat) : arg := match a with Some r => ARef r | None => ANY end.
(* step_writer.py:313-319 *)
Definition add_oriented_edge (edge : nat) (start fin : option nat) (orientation : bool) (name : string) : W nat :=
  add_entity "ORIENTED_EDGE" [AStr name; opt start; opt fin; ARef edge; flag orientation].
(* step_writer.py:321-335 add_edge_loop; an edge that is not a reference raises *)
Definition loop_edge (e : option nat) : W nat :=
  match e with
  | None => raise ValueError
  | Some r => let! t := typeof r in
              if String.eqb t "ORIENTED_EDGE" then ret r
              else if String.eqb t "EDGE_CURVE" then add_oriented_edge r None None true ""
              else raise ValueError
  end.
(* for add_edge_loop, step_writer.py:321-335 *)
Definition refs (l : list nat) : arg := AList (map ARef l).
(* step_writer.py:321-335 *)
Definition add_edge_loop (edges : list (option nat)) (name : string) : W nat :=
  let! l := each loop_edge edges in add_entity "EDGE_LOOP" [AStr name; refs l].
(* step_writer.py:336-353 add_face_bound, add_open_shell, add_advanced_face, add_shell_based_surface_model *)
Definition add_face_bound (loop : nat) (orientation : arg) (name : string) : W nat := add_entity "FACE_BOUND" [AStr name; ARef loop; orientation].
(* for add_nurbs_surface, step_writer.py:465-498 *)
Definition add_open_shell (faces : list nat) (name : string) : W nat := add_entity "OPEN_SHELL" [AStr name; refs faces].
(* for add_nurbs_surface, step_writer.py:465-498 *)
Definition add_advanced_face (loops : list nat) (geometry : nat) (same : arg) (name : string) : W nat := add_entity "ADVANCED_FACE" [AStr name; refs loops; ARef geometry; same].
(* for add_nurbs_surface, step_writer.py:465-498 *)
Definition add_shell_based_surface_model (shells : list nat) (name : string) : W nat := add_entity "SHELL_BASED_SURFACE_MODEL" [AStr name; refs shells].

(* step_writer.py:361-396 add_units *)
Definition add_units : W (nat * nat * nat * nat) :=
  let! len := add_complex_entity [("LENGTH_UNIT", []); ("NAMED_UNIT", [ANY]); ("SI_UNIT", [AEnum ".MILLI."; AEnum ".METRE."])] in
  let! ang := add_complex_entity [("NAMED_UNIT", [ANY]); ("PLANE_ANGLE_UNIT", []); ("SI_UNIT", [UNSET; AEnum ".RADIAN."])] in
  let! sol := add_complex_entity [("NAMED_UNIT", [ANY]); ("SI_UNIT", [UNSET; AEnum ".STERADIAN."]); ("SOLID_ANGLE_UNIT", [])] in
  fun s => (let! unc := add_entity "UNCERTAINTY_MEASURE_WITH_UNIT" [AEnt "LENGTH_MEASURE" [ANum (tolerance s)]; ARef len; AStr ""; AStr "maximum tolerance"] in ret (len, ang, sol, unc)) s.
(* step_writer.py:397-408 add_context3 *)
Definition add_context3 : W nat := fun s =>
  match context3 s with
  | Some c => (s, Ok c)
  | None =>
    (let! u := add_units in
     let '(len, ang, sol, unc) := u in
     let! c := add_complex_entity [("GEOMETRIC_REPRESENTATION_CONTEXT", [AInt 3]); ("GLOBAL_UNCERTAINTY_ASSIGNED_CONTEXT", [refs [unc]]); ("GLOBAL_UNIT_ASSIGNED_CONTEXT", [refs [len; ang; sol]]); ("REPRESENTATION_CONTEXT", [AStr "ID1"; AStr "3D"])] in
     fun s => (set_context c s, Ok c)) s
  end.
(* step_writer.py:397-408 *)
Definition context_or (c : option nat) : W nat := match c with Some r => ret r | None => add_context3 end.
(* step_writer.py:355-359 *)
Definition add_manifold_surface_shape_representation (reps : list nat) (context : option nat) (name : string) : W nat :=
  let! c := context_or context in add_entity "MANIFOLD_SURFACE_SHAPE_REPRESENTATION" [AStr name; refs reps; ARef c].
(* step_writer.py:409-426 *)
Definition add_axis_axis2_placement_3d (origin x y : nat) (name : string) : W nat := add_entity "AXIS2_PLACEMENT_3D" [AStr name; ARef origin; ARef x; ARef y].
(* step_writer.py:409-426 *)
Definition add_plane (o x y : list Qc) : W (nat * nat * nat * nat) :=
  let! o := add_cartesian_point o "" in
  let! x := add_direction x "" in
  let! y := add_direction y "" in
  let! p := add_axis_axis2_placement_3d o x y "" in ret (o, x, y, p).
(* step_writer.py:409-426 *)
Definition add_shape_representation (items : list nat) (context : option nat) (name : string) : W nat :=
  let! c := context_or context in add_entity "SHAPE_REPRESENTATION" [AStr name; refs items; ARef c].
(* step_writer.py:409-426 *)
Definition add_shape_representation_relationship (a b : nat) (description name : string) : W nat := add_entity "SHAPE_REPRESENTATION_RELATIONSHIP" [AStr name; AStr description; ARef a; ARef b].

(* step_writer.py:437-451 add_surface_style: self._context3 is never None after __init__; None there would make
   the first call add a context *)
Definition add_surface_style (model : nat) (color : list Qc) : W unit := fun s =>
  (let! c := context_or (context3 s) in
   let! a492 := add_manifold_surface_shape_representation [model; world s] (Some c) "" in
   let! _ := add_entity "SHAPE_DEFINITION_REPRESENTATION" [ARef (e8 s); ARef a492] in
   let! _ := add_entity "PRODUCT_RELATED_PRODUCT_CATEGORY" [AStr "part"; UNSET; refs [e4 s]] in
   let! a501 := add_entity "COLOUR_RGB" (AStr "" :: map ANum color) in
   let! a502 := add_entity "FILL_AREA_STYLE_COLOUR" [AStr ""; ARef a501] in
   let! a500 := add_entity "FILL_AREA_STYLE" [AStr ""; refs [a502]] in
   let! a499 := add_entity "SURFACE_STYLE_FILL_AREA" [ARef a500] in
   let! a498 := add_entity "SURFACE_SIDE_STYLE" [AStr ""; refs [a499]] in
   let! a497 := add_entity "SURFACE_STYLE_USAGE" [AEnum ".BOTH."; ARef a498] in
   let! a496 := add_entity "PRESENTATION_STYLE_ASSIGNMENT" [refs [a497]] in
   let! a495 := add_entity "STYLED_ITEM" [AStr ""; refs [a496]; ARef model] in
   let! _ := add_entity "MECHANICAL_DESIGN_GEOMETRIC_PRESENTATION_REPRESENTATION" [AStr ""; refs [a495]; ARef c] in
   let! _ := add_entity "PRESENTATION_LAYER_ASSIGNMENT" [AStr "Default"; AStr ""; refs [model]] in
   ret tt) s.

(* what the writer asks of NURBSCurve and NURBSSurface.  c_start and c_end are curve.start() and
   curve.end(); the weights are kept in the model because the source objects have them.  [for add_b_spline_curve_with_knots, step_writer.py:265-280] *)
Record curve := { c_degree : Z; c_knots : list Qc; c_points : list (list Qc); c_weights : list Qc; c_start : list Qc; c_end : list Qc }.
(* for add_b_spline_surface, step_writer.py:465-498 *)
Record surface := { s_degree_u : Z; s_degree_v : Z; s_knots_u : list Qc; s_knots_v : list Qc; s_points : list (list (list Qc)); s_weights : list (list Qc) }.
(* for add_b_spline_curve_with_knots, step_writer.py:265-280 *)
Definition counts (l : list nat) : arg := AList (map (fun n => AInt (Z.of_nat n)) l).
(* for add_b_spline_curve_with_knots, step_writer.py:265-280 *)
Definition nums (l : list Qc) : arg := AList (map ANum l).
(* step_writer.py:265-280 add_b_spline_curve_with_knots *)
Definition add_b_spline_curve_with_knots (c : curve) (name : string) : W nat :=
  let '(u, m) := get_knot_multiplicities (c_knots c) in
  let! pts := each (fun p => add_cartesian_point p "") (c_points c) in
  add_entity "B_SPLINE_CURVE_WITH_KNOTS" [AStr name; AInt (c_degree c); refs pts; UNSPECIFIED; FALSE_; FALSE_; counts m; nums u; UNSPECIFIED].
(* step_writer.py:499-506 add_nurbs_curve: the arguments of add_edge_curve are evaluated first *)
Definition curve_edge (c : curve) : W nat :=
  let! a := add_cartesian_point (c_start c) "" in
  let! b := add_cartesian_point (c_end c) "" in
  let! g := add_b_spline_curve_with_knots c "" in
  let! e := add_edge_curve (Ref a) (Ref b) g true "" in
  add_oriented_edge e None None true "".
(* step_writer.py:499-506 *)
Definition add_nurbs_curve (c : curve) : W nat := curve_edge c.
(* step_writer.py:465-498 add_nurbs_surface.  boundaries is the result of extract_surface_boundaries. *)
Definition add_b_spline_surface (f : surface) (name : string) : W nat :=
  let '(uu, mu) := get_knot_multiplicities (s_knots_u f) in
  let '(uv, mv) := get_knot_multiplicities (s_knots_v f) in
  let! pts := each (fun row => each (fun p => add_cartesian_point p "") row) (s_points f) in
  add_entity "B_SPLINE_SURFACE_WITH_KNOTS" [AStr name; AInt (s_degree_u f); AInt (s_degree_v f); AList (map refs pts); UNSPECIFIED; FALSE_; FALSE_; FALSE_; counts mu; counts mv; nums uu; nums uv; UNSPECIFIED].
(* step_writer.py:465-498 *)
Definition add_nurbs_surface (f : surface) (boundaries : list curve) (color : list Qc) (name : string) : W nat :=
  let! edges := each curve_edge boundaries in
  let! loop := add_edge_loop (map Some edges) "" in
  let! bound := add_face_bound loop TRUE_ "" in
  let! g := add_b_spline_surface f name in
  let! face := add_advanced_face [bound] g TRUE_ name in
  let! shell := add_open_shell [face] "" in
  let! model := add_shell_based_surface_model [shell] name in
  let! _ := add_surface_style model color in
  ret model.

(* step_writer.py:223-255 __init__ *)
Definition init (tol : Qc) (w0 w1 w2 : list Qc) : st * res unit :=
  (let! e1 := add_entity "APPLICATION_CONTEXT" [AStr "core data for automotive mechanical design processes"] in
   let! _ := add_entity "APPLICATION_PROTOCOL_DEFINITION" [AStr "international standard"; AStr "automotive_design"; AInt 2000; ARef e1] in
   let! e3 := add_entity "PRODUCT_CONTEXT" [AStr ""; ARef e1; AStr "mechanical"] in
   let! e4 := add_entity "PRODUCT" [AStr "Document"; AStr "Document"; UNSET; ARef e3] in
   let! e5 := add_entity "PRODUCT_DEFINITION_FORMATION" [AStr ""; UNSET; ARef e4] in
   let! e6 := add_entity "PRODUCT_DEFINITION_CONTEXT" [AStr "part definition"; ARef e1; AStr "design"] in
   let! e7 := add_entity "PRODUCT_DEFINITION" [AStr "design"; UNSET; ARef e5; ARef e6] in
   let! e8 := add_entity "PRODUCT_DEFINITION_SHAPE" [AStr ""; UNSET; ARef e7] in
   let! _ := add_context3 in
   let! p := add_plane w0 w1 w2 in
   let '(_, _, _, xy) := p in
   fun s => (set_world xy (set_e8 e8 (set_e4 e4 s)), Ok tt))
  {| last_ref := 0; insts := []; context3 := None; tolerance := tol; e4 := 0; e8 := 0; world := 0 |}.

(* the public methods as commands; the caller may catch what a command raises and go on  [a call in a history of calls of the functions above] *)
Inductive cmd :=
| CEntity (name : string) (args : list arg) | CComplex (parts : list (string * list arg))
| CCurveWithKnots (c : curve) (name : string) | CEdgeCurve (a b : point) (g : nat) (same : bool) (name : string)
| CVertex (p : point) (name : string) | COriented (e : nat) (a b : option nat) (o : bool) (name : string)
| CLoop (edges : list (option nat)) (name : string) | CBound (loop : nat) (o : bool) (name : string)
| CShell (faces : list nat) (name : string) | CFace (loops : list nat) (g : nat) (same : bool) (name : string)
| CModel (shells : list nat) (name : string) | CManifold (reps : list nat) (c : option nat) (name : string)
| CUnits | CContext | CPlacement (o x y : nat) (name : string) | CPlane (o x y : list Qc)
| CShape (items : list nat) (c : option nat) (name : string) | CRelation (a b : nat) (d name : string)
| CPoint (l : list Qc) (name : string) | CDirection (l : list Qc) (name : string)
| CStyle (model : nat) (color : list Qc) | CSurface (f : surface) (bs : list curve) (color : list Qc) (name : string)
| CCurve (c : curve).
(* what exec returns *)
Definition one (m : W nat) : W (list nat) := let! r := m in ret [r].
(* what exec returns *)
Definition four (m : W (nat * nat * nat * nat)) : W (list nat) := let! r := m in let '(a, b, c, d) := r in ret [a; b; c; d].
(* the references a command returns *)
Definition exec (c : cmd) : W (list nat) :=
  match c with
  | CEntity n l => one (add_entity n l) | CComplex p => one (add_complex_entity p)
  | CCurveWithKnots c n => one (add_b_spline_curve_with_knots c n) | CEdgeCurve a b g s n => one (add_edge_curve a b g s n)
  | CVertex p n => one (add_vertex_point p n) | COriented e a b o n => one (add_oriented_edge e a b o n)
  | CLoop l n => one (add_edge_loop l n) | CBound l o n => one (add_face_bound l (flag o) n)
  | CShell l n => one (add_open_shell l n) | CFace l g s n => one (add_advanced_face l g (flag s) n)
  | CModel l n => one (add_shell_based_surface_model l n) | CManifold l c n => one (add_manifold_surface_shape_representation l c n)
  | CUnits => four add_units | CContext => one add_context3 | CPlacement o x y n => one (add_axis_axis2_placement_3d o x y n)
  | CPlane o x y => four (add_plane o x y) | CShape l c n => one (add_shape_representation l c n)
  | CRelation a b d n => one (add_shape_representation_relationship a b d n) | CPoint l n => one (add_cartesian_point l n)
  | CDirection l n => one (add_direction l n) | CStyle m c => let! _ := add_surface_style m c in ret []
  | CSurface f b c n => one (add_nurbs_surface f b c n) | CCurve c => one (add_nurbs_curve c)
  end.
