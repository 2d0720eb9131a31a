(* Specification vocabulary for knot.py: parameters, closeness, merging. *)
From Coq Require Import List ZArith Bool QArith Qcanon Sorted.
From Verif Require Import Common QcLib ArrZ SplineTheory NurbsModel NurbsSpec.
Import ListNotations.
Local Open Scope Z_scope.
Local Open Scope Qc_scope.

(* u lies in span s of the domain: U_s <= u < U_{s+1}, and the last span n
   from the upper end on *)
Definition right_span (p n : Z) (U : list Qc) (u : Qc) (s : Z) : Prop :=
  (p <= s <= n)%Z /\
  (u < knot U (n + 1) -> knot U s <= u /\ u < knot U (s + 1)) /\
  (knot U (n + 1) <= u -> s = n).

(* knots strictly between the first and the last one occur at most p times *)
Definition inner_multiplicity (p : Z) (U : list Qc) : Prop :=
  forall i, (0 <= i)%Z -> (i + p < lenZ U)%Z ->
    knot U 0 < knot U i -> knot U (i + p) < knot U (lenZ U - 1) -> knot U i < knot U (i + p).

(* strictly increasing from 0 to 1 *)
Definition strictly_01 (l : list Qc) : Prop :=
  (2 <= lenZ l)%Z /\ atZ 0 l 0 = 0 /\ atZ 0 l (lenZ l - 1) = 1 /\
  forall i j, (0 <= i)%Z -> (i < j)%Z -> (j < lenZ l)%Z -> atZ 0 l i < atZ 0 l j.

(* distances of consecutive elements *)
Fixpoint gaps {A} (dist : A -> A -> Qc) (l : list A) : list Qc :=
  match l with
  | x :: (y :: _) as r => dist x y :: gaps dist r
  | _ => []
  end.

Definition occurs (l : list Qc) (x : Qc) : nat := count_occ Qc_eq_dec l x.
