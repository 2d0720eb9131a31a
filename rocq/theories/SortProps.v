(* Sorting and removal of duplicates: the theorems. *)
From Coq Require Import List ZArith Bool QArith Qcanon Permutation.
From Verif Require Import Common QcLib ArrZ SortModel SortSpec SortProofs.
Import ListNotations.

Definition qz (k : Z) : Qc := Q2Qc (inject_Z k).
Definition shown (r : res (list Qc)) : res (list Q) := do l <- r ; Ok (map this l).

(* C22: quicksort returns, having touched no element outside the array, and
   leaves a sorted permutation; argsort returns a permutation of the positions
   that sorts the values. *)
Theorem C22_quicksort : forall arr, exists out, quicksort arr = Ok out /\ Permutation arr out /\ ascending out.
Proof. exact quicksort_ok. Qed.
Print Assumptions C22_quicksort.
Theorem C22_argsort : forall arr, exists idx, argsort arr = Ok idx /\ Permutation (positions (length arr)) idx /\ ascending (map (atZ 0%Qc arr) idx).
Proof. exact argsort_ok. Qed.
Print Assumptions C22_argsort.
Example C22_case : shown (quicksort (map qz [3; 1; 2; 3; 0; 1]%Z)) = Ok (map inject_Z [0; 1; 1; 2; 3; 3]%Z) /\
  argsort (map qz [3; 1; 2; 0]%Z) = Ok [3; 1; 2; 0]%Z.
Proof. split; vm_compute; reflexivity. Qed.

(* C23: unique gives the distinct values in increasing order *)
Theorem C23_unique : forall arr, exists out, unique arr = Ok (out, qsort arr) /\ strictly_ascending out /\ same_values out arr.
Proof. exact unique_ok. Qed.
Print Assumptions C23_unique.
Theorem C23_unique_sorted : forall arr, exists out, uniqueSorted arr = Ok (out, qsort arr) /\ strictly_ascending out /\ same_values out arr.
Proof. exact uniqueSorted_ok. Qed.
Print Assumptions C23_unique_sorted.
Example C23_case : shown (do (o, _) <- unique (map qz [3; 1; 2; 3; 1]%Z) ; Ok o) = Ok (map inject_Z [1; 2; 3]%Z).
Proof. vm_compute. reflexivity. Qed.

(* C79, refuted: for every tolerance some array loses a value that is further
   than the tolerance from everything kept *)
Theorem C79_tolerance_refuted : forall eps, (0 < eps)%Qc -> exists arr out arr', uniqueSortedEps arr eps = Ok (out, arr') /\
  exists x, In x arr /\ forall k, In k out -> (eps < qabs (x - k))%Qc.
Proof. exact eps_chain_refuted. Qed.
Print Assumptions C79_tolerance_refuted.
(* C79, partial: what is kept is spaced wider than the tolerance, and a dropped
   value is linked to a kept one by a chain of steps within the tolerance.
   Missing: the distance to the kept value itself. *)
Theorem C79_tolerance_partial : forall arr eps, (0 <= eps)%Qc -> exists out, uniqueSortedEps arr eps = Ok (out, qsort arr) /\ spaced eps out /\ incl out arr /\
  forall x, In x arr -> exists k, In k out /\ chained arr eps k x.
Proof. exact eps_ok. Qed.
Print Assumptions C79_tolerance_partial.
Example C79_case : shown (do (o, _) <- uniqueSortedEps (map qz [9; 0; 2; 1; 6; 10]%Z) (qz 1) ; Ok o) = Ok (map inject_Z [0; 6; 9]%Z).
Proof. vm_compute. reflexivity. Qed.

(* C80, refuted: the argument is left sorted, so it changes unless it was *)
Theorem C80_unique_mutates_refuted : forall arr, exists out arr', unique arr = Ok (out, arr') /\ Permutation arr arr' /\ ascending arr' /\ (arr' = arr <-> ascending arr).
Proof. exact unique_mutates. Qed.
Print Assumptions C80_unique_mutates_refuted.
Example C80_case : shown (do (_, a) <- unique (map qz [3; 1; 2]%Z) ; Ok a) = Ok (map inject_Z [1; 2; 3]%Z).
Proof. vm_compute. reflexivity. Qed.
