(* Specification vocabulary for NURBS surfaces: the textbook definitions,
   independent of the code's algorithms. *)
From Coq Require Import List ZArith Bool QArith Qcanon Sorted.
From Verif Require Import Common QcLib ArrZ SplineTheory NurbsModel NurbsSpec NurbsEditModel NurbsEditSpec SurfModel.
Import ListNotations.
Local Open Scope Z_scope.
Local Open Scope Qc_scope.

(* entry [i, j] of an array *)
Definition entry (G : grid) (i j : Z) : pt := atZ pt0 (atZ [] G i) j.

(* an nu x nv array *)
Definition shaped (nu nv : Z) (G : grid) : Prop := lenZ G = nu /\ Forall (fun r => lenZ r = nv) G.

(* sum_i sum_j N_{i,p}(u) N_{j,q}(v) f(P_ij), the tensor product B-spline
   of one column of the array *)
Definition tensor (s : surface) (f : pt -> Qc) (u v : Qc) : Qc :=
  sum_to (s_nu s - 1) (fun i => sum_to (s_nv s - 1) (fun j =>
    cox_de_boor (s_ku s) (s_nu s - 1) (Z.to_nat (s_du s)) i u
    * cox_de_boor (s_kv s) (s_nv s - 1) (Z.to_nat (s_dv s)) j v
    * f (entry (s_pts s) i j))).

(* the point of the rational surface *)
Definition nurbs_surface_point (s : surface) (u v : Qc) : Qc * Qc * Qc :=
  (tensor s px u v / tensor s pw u v, tensor s py u v / tensor s pw u v, tensor s pz u v / tensor s pw u v).

Definition valid_surface (s : surface) : Prop :=
  shaped (s_nu s) (s_nv s) (s_pts s) /\
  valid_knots (s_du s) (s_nu s - 1) (s_ku s) /\
  valid_knots (s_dv s) (s_nv s - 1) (s_kv s).

Definition weights_positive (s : surface) : Prop := Forall (Forall (fun q => 0 < pw q)) (s_pts s).

Definition dom_u (s : surface) (u : Qc) : Prop :=
  knot (s_ku s) (s_du s) <= u <= knot (s_ku s) (s_nu s).
Definition dom_v (s : surface) (v : Qc) : Prop :=
  knot (s_kv s) (s_dv s) <= v <= knot (s_kv s) (s_nv s).
Definition in_dom (s : surface) (u v : Qc) : Prop := dom_u s u /\ dom_v s v.

(* the stored interval is the range of the knots *)
Definition interval_current (s : surface) : Prop := surface_interval (s_ku s) (s_kv s) = Ok (s_int s).

(* p+1 equal knots at each end *)
Definition clamped_u (s : surface) : Prop := clamped (s_du s) (s_nu s - 1) (s_ku s).
Definition clamped_v (s : surface) : Prop := clamped (s_dv s) (s_nv s - 1) (s_kv s).

(* a homogeneous control point as a point of space *)
Definition to_space (q : pt) : Qc * Qc * Qc := (px q / pw q, py q / pw q, pz q / pw q).

(* the rational curve of a row of homogeneous control points *)
Definition row_sum (U : list Qc) (n p : Z) (row : Z -> pt) (f : pt -> Qc) (x : Qc) : Qc :=
  sum_to n (fun i => cox_de_boor U n (Z.to_nat p) i x * f (row i)).
Definition row_point (U : list Qc) (n p : Z) (row : Z -> pt) (x : Qc) : Qc * Qc * Qc :=
  (row_sum U n p row px x / row_sum U n p row pw x, row_sum U n p row py x / row_sum U n p row pw x,
   row_sum U n p row pz x / row_sum U n p row pw x).

(* q is s restricted to the parameters in R *)
Definition piece_of (s q : surface) (R : Qc -> Qc -> Prop) : Prop :=
  valid_surface q /\ interval_current q /\ s_du q = s_du s /\ s_dv q = s_dv s /\
  (forall u v, in_dom q u v <-> in_dom s u v /\ R u v) /\
  (forall u v, in_dom q u v -> evaluate_surface q u v = evaluate_surface s u v).

(* a single Bezier segment in one direction *)
Definition bezier_knots (p : Z) (U : list Qc) : Prop :=
  exists a b, a < b /\ U = repeat a (Z.to_nat (p + 1)) ++ repeat b (Z.to_nat (p + 1)).
Definition bezier_u (s : surface) : Prop := bezier_knots (s_du s) (s_ku s).
Definition bezier_v (s : surface) : Prop := bezier_knots (s_dv s) (s_kv s).

(* the surfaces of l together are exactly s *)
Definition covers (s : surface) (l : list surface) : Prop :=
  (forall q u v, In q l -> in_dom q u v -> in_dom s u v /\ evaluate_surface q u v = evaluate_surface s u v) /\
  (forall u v, in_dom s u v -> exists q, In q l /\ in_dom q u v).

(* knot vectors that can be cut at every inner knot: both ends have p+1
   copies, an inner knot at most p, and different knots are more than 1e-7 and
   more than the multiplicity test's tolerance apart *)
Definition end_multiplicity (p : Z) (U : list Qc) (a b : Qc) : Prop :=
  a < b /\ exists M, U = repeat a (Z.to_nat (p + 1)) ++ M ++ repeat b (Z.to_nat (p + 1)) /\
  forall x, In x M -> a < x < b.
Definition spaced (U : list Qc) : Prop :=
  forall x y, In x U -> In y U -> x < y ->
    Q2Qc (1 # 10000000) < y - x /\ calc_epsilon x < y - x /\ calc_epsilon y < y - x.
Definition decomposable (p : Z) (U : list Qc) (a b : Qc) : Prop :=
  (1 <= p)%Z /\ end_multiplicity p U a b /\ spaced U /\
  forall t, a < t -> t < b -> (multiplicity U t <= p)%Z.

(* consecutive pairs *)
Definition consecutive (l : list Qc) : list (Qc * Qc) := combine l (tl l).

(* the affine map of the knot range onto [0, 1] *)
Definition unit_map (U : list Qc) (p n : Z) (x : Qc) : Qc := (x - knot U 0) / (knot U (n + p + 1) - knot U 0).

(* a parameter at which a direction with n control points can be cut *)
Definition cuttable (p n : Z) (U : list Qc) (t tol : Qc) : Prop :=
  (1 <= p)%Z /\ knot U 0 + tol < t /\ t + tol < knot U (n + p) /\ knot U p < t /\ t < knot U n /\
  separated t U /\ (multiplicity U t <= p)%Z.


(* ts lists the different knots strictly between a and b in increasing order *)
Definition inner_knots (U : list Qc) (a b : Qc) (ts : list Qc) : Prop :=
  StronglySorted Qclt ts /\ forall t, In t ts <-> In t U /\ a < t < b.

