(* Specification vocabulary for knot refinement and removal. *)
From Coq Require Import List ZArith Bool QArith Qcanon.
From Verif Require Import Common QcLib ArrZ SplineTheory NurbsModel NurbsSpec NurbsEditModel NurbsEditSpec.
Import ListNotations.
Local Open Scope Z_scope.
Local Open Scope Qc_scope.

(* the B-spline function of one column f of the rows P, over the knots U *)
Definition spline (p : Z) (U : list Qc) (P : list pt) (f : pt -> Qc) (t : Qc) : Qc :=
  sum_to (lenZ P - 1) (fun i => cox_de_boor U (lenZ P - 1) (Z.to_nat p) i t * f (ctrl P i)).
(* every column has the same function from the parameter lo on *)
Definition same_splines (p : Z) (lo : Qc) (U : list Qc) (P : list pt) (V : list Qc) (R : list pt) : Prop :=
  forall f t, column f -> lo <= t -> spline p V R f t = spline p U P f t.
(* knots nearer than tol are equal *)
Definition spread (tol : Qc) (l : list Qc) : Prop := forall x y, In x l -> In y l -> qabs (x - y) < tol -> x = y.
(* knots inside the domain, the upper end excluded *)
Definition inside (p : Z) (U : list Qc) (P : list pt) (x : Qc) : Prop := knot U p <= x /\ x < knot U (lenZ P).
(* the copies of the knots of l that are missing for multiplicity p *)
Definition missing (p : Z) (U l : list Qc) : list Qc := flat_map (fun x => repeat x (Z.to_nat (p - multiplicity U x))) l.
(* the rows without row j *)
Definition without_row (j : Z) (P : list pt) : list pt := firstn (Z.to_nat j) P ++ skipn (Z.to_nat (j + 1)) P.
(* a list with the middle of every two neighbours between them *)
Fixpoint with_middles (l : list Qc) : list Qc :=
  match l with
  | x :: ((y :: _) as r) => x :: x + (y - x) / (1 + 1) :: with_middles r
  | _ => l
  end.
(* the knots a call of knot_refinement asks for *)
Definition asked (p : Z) (U : list Qc) (kl akl : option (list Qc)) : list Qc :=
  match kl with Some l => l | None => skipn (Z.to_nat p) (firstn (length U - Z.to_nat p) U) end ++ match akl with Some l => l | None => [] end.
