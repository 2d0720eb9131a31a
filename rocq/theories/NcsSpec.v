(* Newton with a constraint, colours, segments, shapes: vocabulary of the properties. *)
From Coq Require Import List Arith ZArith Bool QArith Qcanon.
From Verif Require Import NcsModel.
Import ListNotations.
Local Open Scope Qc_scope.

(* the j-th point of the iteration x -> x - H(x)^-1 (grad f - lam grad g)(x), where H is the Hessian of f alone *)
Section Iterates.
Variable inv : list (list Qc) -> option (list (list Qc)).
Variables df dg : list Qc -> list Qc.
Variable h : list Qc -> list (list Qc).
Variable lam : Qc.
Definition newton_step (x : list Qc) : list Qc := match inv (h x) with Some m => mapply m (nsub (df x) (nscale lam (dg x))) | None => [] end.
Definition newton_next (x : list Qc) : list Qc := nsub x (newton_step x).
Fixpoint iterate (j : nat) (x : list Qc) : list Qc := match j with O => x | S j' => newton_next (iterate j' x) end.
End Iterates.
(* a step is small *)
Definition small (norm : list Qc -> Qc) (tol : Qc) (step x y : list Qc) : Prop := ndot step step < tol \/ norm (nsub x y) < tol.
(* an integer is a nearest one *)
Definition nearest (x : Qc) (k : Z) : Prop := x - Q2Qc (1 # 2) <= Q2Qc (inject_Z k) <= x + Q2Qc (1 # 2).
