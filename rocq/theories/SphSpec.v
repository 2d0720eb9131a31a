(* Separation on the sphere and constrained problems: vocabulary of the properties. *)
From Coq Require Import List Arith ZArith Bool QArith Qcanon.
Import ListNotations.
Local Open Scope Qc_scope.

(* the value of the linear form d in the plane *)
Definition form2 (d p : Qc * Qc) : Qc := fst d * fst p + snd d * snd p.
(* the two sets are on two sides of a line with normal d; they may touch it *)
Definition weakly_apart (d : Qc * Qc) (h1 h2 : list (Qc * Qc)) : Prop :=
  (forall p q, In p h1 -> In q h2 -> form2 d p <= form2 d q) \/ (forall p q, In p h1 -> In q h2 -> form2 d q <= form2 d p).
(* i and the vertex after it *)
Definition neighbours (h : list (Qc * Qc)) (a b : Qc * Qc) : Prop := exists i, (i < length h)%nat /\ a = nth i h (0, 0) /\ b = nth ((i + 1) mod length h)%nat h (0, 0).
(* d is along a side or normal to it *)
Definition side_direction (h : list (Qc * Qc)) (d : Qc * Qc) : Prop :=
  exists a b, neighbours h a b /\ (d = (fst a - fst b, snd a - snd b) \/ d = (snd a - snd b, - (fst a - fst b))).
(* no vertex equals the next one *)
Definition no_repeats (h : list (Qc * Qc)) : Prop := forall a b, neighbours h a b -> a <> b.
(* point, origin and the point (x, y, 0) are on a line *)
Definition on_line (origin point : Qc * Qc * Qc) (q : Qc * Qc) : Prop :=
  exists t, fst q = fst (fst origin) + t * (fst (fst point) - fst (fst origin)) /\ snd q = snd (fst origin) + t * (snd (fst point) - snd (fst origin)) /\
    0 = snd origin + t * (snd point - snd origin).
Definition on_sphere (p : Qc * Qc * Qc) : Prop := fst (fst p) * fst (fst p) + snd (fst p) * snd (fst p) + snd p * snd p = 1.
(* the product of a matrix with a vector, and of the transposed matrix with a vector *)
Definition vdot (a b : list Qc) : Qc := fold_right Qcplus 0 (map (fun p => fst p * snd p) (combine a b)).
Definition matvec (A : list (list Qc)) (v : list Qc) : list Qc := map (fun r => vdot r v) A.
Definition vecmat (n : nat) (v : list Qc) (A : list (list Qc)) : list Qc := map (fun j => vdot (map (fun r => nth j r 0) A) v) (seq 0 n).
Definition vplus (a b : list Qc) : list Qc := map (fun p => fst p + snd p) (combine a b).
(* a matrix with m rows and n columns *)
Definition matrix (m n : nat) (A : list (list Qc)) : Prop := length A = m /\ Forall (fun r => length r = n) A.
(* what solve answers is a solution *)
Definition solves (solve : list (list Qc) -> list Qc -> option (list Qc)) : Prop :=
  forall A b x, solve A b = Some x -> length x = length A /\ matvec A x = b.
