(* Specification vocabulary for linear systems, independent of the code. *)
From Coq Require Import List Arith ZArith Bool QArith Qcanon Permutation Sorted.
From Verif Require Import Common QcLib SumLib LuModel.
Import ListNotations.
Local Open Scope Qc_scope.

(* the entry (i, j) of a row-major array *)
Definition ent (m : mtx) (i j : nat) : Qc := nth (i * mcols m + j) (mdata m) 0.
(* an n x n array *)
Definition square (n : nat) (m : mtx) : Prop := mrows m = n /\ mcols m = n /\ length (mdata m) = (n * n)%nat.

(* the product of the n x n matrix F and the column x, row r *)
Definition mulv (n : nat) (F : nat -> nat -> Qc) (x : nat -> Qc) (r : nat) : Qc := sumn n (fun c => F r c * x c).
(* the product of two n x n matrices *)
Definition mulm (n : nat) (F G : nat -> nat -> Qc) (r c : nat) : Qc := sumn n (fun k => F r k * G k c).
Definition ident (r c : nat) : Qc := if (r =? c)%nat then 1 else 0.

(* the unit lower and the upper triangular factor packed in one array *)
Definition low (F : nat -> nat -> Qc) (r k : nat) : Qc := if (k <? r)%nat then F r k else ident r k.
Definition upp (F : nat -> nat -> Qc) (k c : nat) : Qc := if (k <=? c)%nat then F k c else 0.

(* only the zero column is mapped to zero *)
Definition nonsingular (n : nat) (F : nat -> nat -> Qc) : Prop :=
  forall x, (forall r, (r < n)%nat -> mulv n F x r = 0) -> forall r, (r < n)%nat -> x r = 0.

(* P lists the numbers below n, each once *)
Definition is_perm (n : nat) (P : list nat) : Prop := Permutation (seq 0 n) P.

(* the entry (i, j) of a list of rows, and an n x n list of rows *)
Definition rent (A : rowsT) (i j : nat) : Qc := nth j (nth i A []) 0.
Definition rsquare (n : nat) (A : rowsT) : Prop := length A = n /\ Forall (fun r => length r = n) A.

(* at least 1e-15 away from zero *)
Definition away (x : Qc) : Prop := x <= - Q2Qc (1 # 10 ^ 15) \/ Q2Qc (1 # 10 ^ 15) <= x.
(* c is not larger in magnitude than a *)
Definition within_mag (c a : Qc) : Prop := (- a <= c /\ c <= a) \/ (a <= c /\ c <= - a).
(* fr lists, in increasing order, the places where the list holds 0 *)
Definition zeros_of (active : list Z) (fr : list nat) : Prop :=
  Sorted.StronglySorted lt fr /\ forall i, In i fr <-> ((i < length active)%nat /\ nth i active 1%Z = 0%Z).
