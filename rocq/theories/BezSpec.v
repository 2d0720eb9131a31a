(* Specification vocabulary for binomials, polynomials and Bezier form. *)
From Coq Require Import List Arith ZArith QArith Qcanon.
From Verif Require Import Common QcLib SumLib SkipSpec BezModel.
Import ListNotations.
Open Scope Qc_scope.

(* all k-element sublists of l *)
Fixpoint sublists {A} (k : nat) (l : list A) : list (list A) :=
  match k, l with
  | O, _ => [[]]
  | S _, [] => []
  | S j, x :: r => map (cons x) (sublists j r) ++ sublists (S j) r
  end.

(* a list of rows of the given shape *)
Definition shaped (n m : nat) (A : arr) : Prop := length A = n /\ Forall (fun r => length r = m) A.
Definition wf_patch (p : patch) : Prop := Forall (shaped (rows p) (cols p)) (coords p).
(* the sizes the table of binomials covers *)
Definition table_size (p : patch) : Prop := (1 <= rows p <= 31 /\ 1 <= cols p <= 31)%nat.

(* the Bernstein polynomial of degree n *)
Definition bernstein (n k : nat) (u : Qc) : Qc := bq n k * u ^ k * (1 - u) ^ (n - k).
(* coordinate d of the Bezier patch with control values X, and of the polynomial
   with coefficients X *)
Definition bezier_value (n m : nat) (X : arr) (u v : Qc) : Qc :=
  sumn n (fun i => sumn m (fun j => ent X i j * bernstein (n - 1) i u * bernstein (m - 1) j v)).
Definition poly_value (n m : nat) (X : arr) (u v : Qc) : Qc :=
  sumn n (fun i => sumn m (fun j => ent X i j * u ^ i * v ^ j)).
(* coordinate d of the Bezier curve with the given control points *)
Definition bezier_curve (pts : list (list Qc)) (d : nat) (u : Qc) : Qc :=
  sumn (length pts) (fun k => nth d (nth k pts []) 0 * bernstein (length pts - 1) k u).

(* the identity matrix, and the inverse of M *)
Definition identity (n : nat) : arr := tab n (fun i => tab n (fun j => if (i =? j)%nat then 1 else 0)).
Definition inverse_of (n : nat) (M N : arr) : Prop := shaped n n N /\ matmul n n n N M = identity n /\ matmul n n n M N = identity n.
(* inv inverts the conversion matrices *)
Definition inverts (inv : arr -> arr) : Prop := forall n M, (n <= 30)%nat -> bpmat n = Ok M -> inverse_of (S n) M (inv M).
