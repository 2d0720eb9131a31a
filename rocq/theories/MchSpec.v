(* Marching and separation: vocabulary of the properties. *)
From Coq Require Import List Arith ZArith Bool QArith Qcanon.
Import ListNotations.
Local Open Scope Qc_scope.

(* neighbours in a list are related *)
Definition chain {A} (R : A -> A -> Prop) (l : list A) : Prop := forall pre x y post, l = pre ++ x :: y :: post -> R x y.
(* the value of the linear form n at p *)
Definition form (n p : Qc * Qc * Qc) : Qc := fst (fst p) * fst (fst n) + snd (fst p) * snd (fst n) + snd p * snd n.
(* the plane form n = c leaves the first points on one side and the second on the other, up to eps *)
Definition plane_between (eps c : Qc) (n : Qc * Qc * Qc) (l1 l2 : list (Qc * Qc * Qc)) : Prop :=
  Forall (fun p => c - eps <= form n p) l1 /\ Forall (fun p => form n p <= c + eps) l2.
(* strictly separated along a coordinate *)
Definition coordinate_gap (c : Qc * Qc * Qc -> Qc) (l1 l2 : list (Qc * Qc * Qc)) : Prop :=
  (forall p q, In p l1 -> In q l2 -> c p < c q) \/ (forall p q, In p l1 -> In q l2 -> c q < c p).
(* y is the corrected point of x moved forwards or backwards by a step along the unit tangent at x, where x itself is a corrected point; `move s u x` is x + s u *)
Definition marched (ipoint : list Qc -> list Qc * list Qc * list Qc) (unit_tangent : list Qc -> list Qc -> list Qc) (move : Qc -> list Qc -> list Qc -> list Qc) (step : Qc) (x y : list Qc) : Prop :=
  exists q0, fst (fst (ipoint q0)) = x /\ exists s, (s = step \/ s = - step) /\ y = fst (fst (ipoint (move s (unit_tangent (snd (fst (ipoint q0))) (snd (ipoint q0))) x))).
(* x is a minimum of f among the elements that satisfy P *)
Definition minimum {A} (P : A -> bool) (f : A -> Qc) (x : A) : Prop := P x = true /\ forall y, P y = true -> f x <= f y.
