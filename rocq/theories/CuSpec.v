(* Specification vocabulary for the curve utilities, independent of the code. *)
From Coq Require Import List Arith ZArith Bool QArith Qcanon.
From Verif Require Import Common QcLib SumLib CuModel.
Import ListNotations.
Local Open Scope Qc_scope.

Definition kn (U : list Qc) (i : nat) : Qc := nth i U 0.
Definition sorted_knots (U : list Qc) : Prop := forall i j, (i <= j)%nat -> (j < length U)%nat -> kn U i <= kn U j.
(* the Cox-de Boor recursion; a quotient with divisor zero counts as zero *)
Fixpoint bspline (U : list Qc) (p i : nat) (u : Qc) : Qc :=
  match p with
  | O => if qle (kn U i) u && qlt u (kn U (i + 1)) then 1 else 0
  | S r => (u - kn U i) / (kn U (i + p) - kn U i) * bspline U r i u
           + (kn U (i + p + 1) - u) / (kn U (i + p + 1) - kn U (i + 1)) * bspline U r (i + 1) u
  end.
(* the values the code computes: the two linear functions over a whole degree of knots *)
Definition first_part (U : list Qc) (p s : nat) (u : Qc) : Qc := (kn U (s + 1) - u) / (kn U (s + 1) - kn U (s + 1 - p)).
Definition second_part (U : list Qc) (p s : nat) (u : Qc) : Qc := (u - kn U (s + 1 - p)) / (kn U (s + 1) - kn U (s + 1 - p)).
Definition pt_0 : pt4 := (0, 0, 0, 0).
(* a P + b Q in homogeneous coordinates *)
Definition mix (a b : Qc) (P Q : pt4) : pt4 :=
  let '(x, y, z, w) := P in let '(x', y', z', w') := Q in
  (a * (x * w) + b * (x' * w'), a * (y * w) + b * (y' * w'), a * (z * w) + b * (z' * w'), a * w + b * w').
(* coordinates of arrays *)
Definition wgt (a : arr4) : Qc := let '(_, (_, _, _, w)) := a in w.
Definition crd (c : nat) (a : arr4) : Qc := let '(_, (x, y, z, _)) := a in match c with O => x | S O => y | _ => z end.
Definition crd3 (c : nat) (a : Qc * Qc * Qc) : Qc := let '(x, y, z) := a in match c with O => x | S O => y | _ => z end.
Definition zero4 : arr4 := (DFloat, pt_0).
