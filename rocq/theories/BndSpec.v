(* Specification vocabulary for bounded minimisation, independent of the code. *)
From Coq Require Import List Arith ZArith Bool QArith Qcanon.
From Verif Require Import Common QcLib SumLib BndModel.
Import ListNotations.
Local Open Scope Qc_scope.

(* the coordinate i *)
Definition co (v : vec) (i : nat) : Qc := nth i v 0.
(* the scalar product of two vectors with n coordinates *)
Definition inner (n : nat) (a b : vec) : Qc := sumn n (fun i => co a i * co b i).

(* a box: as many lower as upper bounds, lower not above upper *)
Definition box (n : nat) (lower upper : vec) : Prop :=
  length lower = n /\ length upper = n /\ forall i, (i < n)%nat -> co lower i <= co upper i.
Definition in_box (n : nat) (lower upper p : vec) : Prop :=
  length p = n /\ forall i, (i < n)%nat -> co lower i <= co p i /\ co p i <= co upper i.
(* the value of [lo, hi] nearest to x *)
Definition nearest (lo hi x y : Qc) : Prop := (x <= lo /\ y = lo) \/ (lo <= x /\ x <= hi /\ y = x) \/ (hi <= x /\ y = hi).

(* p is the point x + a d *)
Definition is_moved (n : nat) (x : vec) (a : Qc) (d p : vec) : Prop :=
  length p = n /\ forall i, (i < n)%nat -> co p i = co x i + a * co d i.
(* p is the point of the box nearest to x + a d *)
Definition is_projected (n : nat) (lower upper x : vec) (a : Qc) (d p : vec) : Prop :=
  length p = n /\ forall i, (i < n)%nat -> nearest (co lower i) (co upper i) (co x i + a * co d i) (co p i).

(* the two strong Wolfe conditions for a step a from x to y in direction d *)
Definition armijo (n : nat) (f : vec -> Qc) (grad : vec -> vec) (c1 : Qc) (x d : vec) (a : Qc) (y : vec) : Prop :=
  f y <= f x + c1 * a * inner n d (grad x).
Definition curvature (n : nat) (grad : vec -> vec) (c2 : Qc) (x d y : vec) : Prop :=
  c2 * inner n d (grad x) <= inner n d (grad y) /\ inner n d (grad y) <= - c2 * inner n d (grad x).
