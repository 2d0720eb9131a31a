(* Specification vocabulary for the Runge-Kutta integration, independent of the code. *)
From Coq Require Import List Arith ZArith Bool QArith Qcanon.
From Verif Require Import Common QcLib RkModel.
Import ListNotations.
Local Open Scope Qc_scope.

(* value of a polynomial given by its coefficients, lowest first *)
Definition peval (p : list Qc) (t : Qc) : Qc := fold_right (fun c r => c + t * r) 0 p.
(* coefficients of the antiderivative: c_i / (i + 1), shifted *)
Fixpoint pint_from (i : positive) (p : list Qc) : list Qc := match p with [] => [] | c :: r => c * fr 1 i :: pint_from (i + 1) r end.
(* integral of a polynomial from a to b *)
Definition integral (p : list Qc) (a b : Qc) : Qc := peval (0 :: pint_from 1 p) b - peval (0 :: pint_from 1 p) a.
(* a right-hand side that does not depend on the state: one polynomial per coordinate *)
Definition poly_rhs (ps : list (list Qc)) (t : Qc) (_ : list Qc) : list Qc := map (fun p => peval p t) ps.
(* the exact solution of y' = poly_rhs *)
Definition exact_solution (ps : list (list Qc)) (t0 : Qc) (y0 : list Qc) (t : Qc) : list Qc := map (fun q => snd q + integral (fst q) t0 t) (combine ps y0).
(* linear maps on vectors of length n *)
Definition linear (n : nat) (A : list Qc -> list Qc) : Prop :=
  (forall x, length x = n -> length (A x) = n) /\ (forall x y, length x = n -> length y = n -> A (vadd x y) = vadd (A x) (A y)) /\
  (forall c x, length x = n -> A (vscale c x) = vscale c (A x)).
(* c0 y + c1 A y + c2 A (A y) + ... *)
Fixpoint series (A : list Qc -> list Qc) (cs : list Qc) (y : list Qc) : list Qc :=
  match cs with [] => repeat 0 (length y) | c :: r => vadd (vscale c y) (series A r (A y)) end.
(* times after t, each larger than the one before by at most hmax, none above t1 *)
Fixpoint steps (hmax t1 t : Qc) (vt : list Qc) : Prop :=
  match vt with [] => True | u :: r => t < u /\ u - t <= hmax /\ u <= t1 /\ steps hmax t1 u r end.
(* every value comes from the one before by a step of order five whose error estimate is at most tol *)
Fixpoint accepted (f : Qc -> list Qc -> list Qc) (norm : list Qc -> Qc) (tol t : Qc) (y : list Qc) (vt : list Qc) (vy : list (list Qc)) : Prop :=
  match vt, vy with
  | [], [] => True
  | u :: r, z :: s => z = snd (rk_step f t y (u - t)) /\ norm (vsub z (fst (rk_step f t y (u - t)))) <= tol /\ accepted f norm tol u z r s
  | _, _ => False
  end.
