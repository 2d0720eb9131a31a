(* Specification vocabulary for curve editing. *)
From Coq Require Import List ZArith Bool QArith Qcanon.
From Verif Require Import Common QcLib ArrZ SplineTheory NurbsModel NurbsSpec NurbsEditModel.
Import ListNotations.
Local Open Scope Z_scope.
Local Open Scope Qc_scope.

(* the B-spline function of one column (x, y, z or weight) of the control
   point array *)
Definition column_value (c : curve) (f : pt -> Qc) (u : Qc) : Qc :=
  sum_to (last_ix c) (fun i => cox_de_boor (c_knots c) (last_ix c) (Z.to_nat (c_deg c)) i u * f (ctrl (c_pts c) i)).

Definition column (f : pt -> Qc) : Prop := f = px \/ f = py \/ f = pz \/ f = pw.

(* a polynomial curve: one common non-zero weight *)
Definition equal_weights (c : curve) : Prop :=
  exists w, w <> 0 /\ forall q, In q (c_pts c) -> pw q = w.

(* how often t occurs as a knot *)
Definition multiplicity (U : list Qc) (t : Qc) : Z := Z.of_nat (count_occ Qc_eq_dec U t).

(* no knot is within the code's tolerance of t without being equal to t *)
Definition separated (t : Qc) (U : list Qc) : Prop :=
  forall x, In x U -> x = t \/ calc_epsilon x < qabs (t - x).

(* the first span of the domain is not empty *)
Definition first_span (c : curve) : Prop :=
  knot (c_knots c) (c_deg c) < knot (c_knots c) (c_deg c + 1).

(* knots strictly inside the domain occur at most degree times *)
Definition inner_multiplicities (c : curve) : Prop :=
  forall t, knot (c_knots c) (c_deg c) < t -> t < knot (c_knots c) (last_ix c + 1) ->
    (multiplicity (c_knots c) t <= c_deg c)%Z.

(* a curve marked periodic repeats its first degree control points *)
Definition wrapped (c : curve) : Prop :=
  c_per c = true ->
  firstn (Z.to_nat (c_deg c)) (c_pts c)
  = skipn (length (c_pts c) - Z.to_nat (c_deg c)) (c_pts c).
