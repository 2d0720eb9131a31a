(* Specification vocabulary for vectors of any length. *)
From Coq Require Import List ZArith Bool QArith Qcanon.
From Verif Require Import Common QcLib ArrZ SumLib DerModel PlnSpec VecModel.
Import ListNotations.
Local Open Scope Z_scope.
Local Open Scope Qc_scope.

(* inner product *)
Definition inner (a b : list Qc) : Qc := sumn (length a) (fun i => nth i a 0 * nth i b 0).
(* n rows of k numbers *)
Definition rect (n k : nat) (a : mat) : Prop := length a = n /\ forall i, (i < n)%nat -> length (nth i a []) = k.
(* s times v *)
Definition times (s : Qc) (v : list Qc) : list Qc := map (Qcmult s) v.

(* product of 2 by 2 matrices, identity *)
Definition mul2 (a b : m2) : m2 :=
  mkm (m00 a * m00 b + m01 a * m10 b) (m00 a * m01 b + m01 a * m11 b)
      (m10 a * m00 b + m11 a * m10 b) (m10 a * m01 b + m11 a * m11 b).
Definition id2 : m2 := mkm 1 0 0 1.
Definition det2 (a : m2) : Qc := m00 a * m11 a - m01 a * m10 a.
Definition app2 (a : m2) (x : v2) : v2 := mkp (m00 a * p0 x + m01 a * p1 x) (m10 a * p0 x + m11 a * p1 x).

(* the vector v - x a - y b *)
Definition residual (v a b : list Qc) (x y : Qc) : list Qc :=
  map (fun i => nth i v 0 - x * nth i a 0 - y * nth i b 0) (seq 0 (length v)).

(* twice the signed area of the closed polygon, by the shoelace formula *)
Definition next_of (pts : list v2) (i : nat) : v2 := nth (if Nat.eqb (S i) (length pts) then 0%nat else S i) pts (mkp 0 0).
Definition area2 (pts : list v2) : Qc :=
  sumn (length pts) (fun i => p0 (nth i pts (mkp 0 0)) * p1 (next_of pts i) - p0 (next_of pts i) * p1 (nth i pts (mkp 0 0))).
Definition shift2 (t : v2) (p : v2) : v2 := mkp (p0 p + p0 t) (p1 p + p1 t).

(* products of the rows with equal number, of a vector with every row; sum of two lists *)
Definition row_products (a b : mat) : list Qc := map (fun i => inner (nth i a []) (nth i b [])) (seq 0 (length a)).
Definition vec_products (v : list Qc) (a : mat) : list Qc := map (fun i => inner v (nth i a [])) (seq 0 (length a)).
Definition plus_list (a b : list Qc) : list Qc := map (fun i => nth i a 0 + nth i b 0) (seq 0 (length a)).
(* u is v divided by its length *)
Definition unit_of (v u : list Qc) : Prop := inner u u = 1 /\ exists s, is_sqrt s (inner v v) /\ 0 < s /\ v = times s u.
(* vertex number k is the first with the largest product *)
Definition first_max (vs : mat) (d : list Qc) (k : nat) : Prop :=
  (k < length vs)%nat /\
  (forall m, (m < length vs)%nat -> inner (nth m vs []) d <= inner (nth k vs []) d) /\
  (forall m, (m < k)%nat -> inner (nth m vs []) d < inner (nth k vs []) d).
Definition independent (a b : list Qc) : Prop :=
  forall x y, (forall i, (i < length a)%nat -> x * nth i a 0 + y * nth i b 0 = 0) -> x = 0 /\ y = 0.
(* p is the point of the line closest to q *)
Definition closest_on_line (o d q p : v3) : Prop :=
  (exists t, p = along o t d) /\ (forall t, dist2 q p <= dist2 q (along o t d)) /\ dot3 (minus3 q p) d = 0.
(* the angle atan2 y x is that of the vector (x, y) of length r *)
Definition polar (sin cos : Qc -> Qc) (atan2 : Qc -> Qc -> Qc) (x y r : Qc) : Prop := r * cos (atan2 y x) = x /\ r * sin (atan2 y x) = y.
