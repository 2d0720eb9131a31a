(* Specification vocabulary for B-spline and NURBS curves: the textbook
   definitions, independent of the code's algorithms. *)
From Coq Require Import List ZArith Bool QArith Qcanon.
From Verif Require Import Common QcLib ArrZ SplineTheory NurbsModel.
Import ListNotations.
Local Open Scope Z_scope.
Local Open Scope Qc_scope.

(* the i-th knot *)
Definition knot (U : list Qc) (i : Z) : Qc := atZ 0 U i.

Definition sorted_knots (U : list Qc) : Prop :=
  forall i j, (0 <= i)%Z -> (i <= j)%Z -> (j < lenZ U)%Z -> knot U i <= knot U j.

(* U is a knot vector for degree p and n+1 control points: n+p+2 entries,
   non-decreasing, and the last span of the domain [U_p, U_{n+1}] is not
   empty. *)
Definition valid_knots (p n : Z) (U : list Qc) : Prop :=
  (0 <= p <= n)%Z /\ lenZ U = (n + p + 2)%Z /\ sorted_knots U /\ knot U n < knot U (n + 1).

(* u belongs to span i: U_i <= u < U_{i+1}; the upper end of the domain
   belongs to the last span n. *)
Definition in_span (U : list Qc) (n i : Z) (u : Qc) : bool :=
  if qlt u (knot U (n + 1)) then qle (knot U i) u && qlt u (knot U (i + 1)) else (i =? n)%Z.

(* Cox-de Boor recursion, N_{i,p}(u).  Division by zero is 0 in Qc, which is
   the textbook convention 0/0 = 0. *)
Fixpoint cox_de_boor (U : list Qc) (n : Z) (p : nat) (i : Z) (u : Qc) : Qc :=
  match p with
  | O => if in_span U n i u then 1 else 0
  | S q =>
      (u - knot U i) / (knot U (i + Z.of_nat p) - knot U i) * cox_de_boor U n q i u
      + (knot U (i + Z.of_nat p + 1) - u) / (knot U (i + Z.of_nat p + 1) - knot U (i + 1))
        * cox_de_boor U n q (i + 1) u
  end.

(* sum over i = 0 .. n *)
Definition sum_to (n : Z) (f : Z -> Qc) : Qc := sum_n (Z.to_nat (n + 1)) 0 f.

Definition pt0 : pt := mkpt 0 0 0 0.
Definition ctrl (P : list pt) (i : Z) : pt := atZ pt0 P i.

(* sum_i N_{i,p}(u) w_i f(P_i) / sum_i N_{i,p}(u) w_i *)
Definition rational (U : list Qc) (n : Z) (p : Z) (P : list pt) (f : pt -> Qc) (u : Qc) : Qc :=
  sum_to n (fun i => cox_de_boor U n (Z.to_nat p) i u * pw (ctrl P i) * f (ctrl P i))
  / sum_to n (fun i => cox_de_boor U n (Z.to_nat p) i u * pw (ctrl P i)).

(* the NURBS curve point with control points P *)
Definition nurbs_point (U : list Qc) (n p : Z) (P : list pt) (u : Qc) : Qc * Qc * Qc :=
  (rational U n p P px u, rational U n p P py u, rational U n p P pz u).

Definition last_ix (c : curve) : Z := (lenZ (c_pts c) - 1)%Z.

(* a well-formed curve object: knots match degree and control points *)
Definition valid_curve (c : curve) : Prop := valid_knots (c_deg c) (last_ix c) (c_knots c).

Definition positive_weights (c : curve) : Prop := Forall (fun q => 0 < pw q) (c_pts c).

(* u is in the evaluation domain [U_p, U_{n+1}] *)
Definition in_domain (c : curve) (u : Qc) : Prop :=
  knot (c_knots c) (c_deg c) <= u <= knot (c_knots c) (last_ix c + 1).

(* clamped: the first and the last p+1 knots coincide *)
Definition clamped (p n : Z) (U : list Qc) : Prop :=
  (forall i, (0 <= i <= p)%Z -> knot U i = knot U 0) /\
  (forall i, (n + 1 <= i <= n + p + 1)%Z -> knot U i = knot U (n + p + 1)).

(* a point inside an axis-aligned box *)
Definition in_box3 (b : box3) (v : Qc * Qc * Qc) : Prop :=
  let '((a0, a1, a2), (b0, b1, b2)) := b in
  let '(x, y, z) := v in
  a0 <= x <= b0 /\ a1 <= y <= b1 /\ a2 <= z <= b2.

Definition xyz (q : pt) : Qc * Qc * Qc := (px q, py q, pz q).
