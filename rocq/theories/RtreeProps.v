(* C13, C95-C97: the R*-tree. *)
From Coq Require Import List Arith ZArith Bool QArith Qcanon Lia Permutation.
From Verif Require Import Common QcLib RtreeModel RtreeSpec RtreeProofs.
Import ListNotations.

Definition rc (a b c d : Z) : rect2 := {| rx0 := Q2Qc (inject_Z a); ry0 := Q2Qc (inject_Z b); rx1 := Q2Qc (inject_Z c); ry1 := Q2Qc (inject_Z d) |}.
Definition square (x : Z) : rect2 := rc x x (x + 1) (x + 1).
Definition diagonal (n : nat) : list rect2 := map (fun k => square (3 * Z.of_nat k)) (seq 0 n).
Definition built (l : list rect2) : res (rtree rect2) := insert_all (sh := Rectangle) 4 2 (empty_tree Rectangle) l.
Definition found (q : rect2) (l : list rect2) : option (list Q) :=
  match built l with Ok t => match search (sh := Rectangle) q t with Ok r => Some (map (fun x => this (rx0 x)) r) | Err _ => None end | Err _ => None end.

(* the two rectangle classes of the file *)
Theorem C13_box_lawful : lawful Box. Proof. exact box_lawful. Qed.
Print Assumptions C13_box_lawful.
Theorem C13_rectangle_lawful : lawful Rectangle. Proof. exact rectangle_lawful. Qed.
Print Assumptions C13_rectangle_lawful.

(* C13: in a tree of more than two levels a rectangle away from the boxes of the
   root's children is not found after it was inserted without a split *)
Theorem C13_stale_boxes_refuted : forall (sh : shape) mx mn m cs (r : rect sh) t', Forall is_inner cs -> (forall c b, In c cs -> mbr_of c = Ok b -> meets sh b r = false) ->
  insert mx mn (Inner m cs) r = Ok t' -> leaf_count t' = leaf_count (Inner m cs) -> search r t' = Ok [].
Proof. exact @stale_search. Qed.
Print Assumptions C13_stale_boxes_refuted.
(* nothing is returned that was not stored, or does not meet q, or more often than stored *)
Theorem C13_sound_partial : forall (sh : shape) mx mn (l : list (rect sh)) q, (1 <= mn)%nat -> (2 * mn <= mx + 1)%nat -> (2 <= mx)%nat ->
  exists t found missed, insert_all mx mn (empty_tree sh) l = Ok t /\ search q t = Ok found /\ Permutation (found ++ missed) (filter (fun e => meets sh e q) l).
Proof. exact @search_sound. Qed.
Print Assumptions C13_sound_partial.
(* and everything is found while the tree cannot have three levels *)
Theorem C13_complete_while_small_partial : forall (sh : shape) mx mn (l : list (rect sh)) q, lawful sh -> (1 <= mn)%nat -> (2 * mn <= mx + 1)%nat -> (2 <= mx)%nat -> (length l < (mx + 1) * mn)%nat ->
  exists t found, insert_all mx mn (empty_tree sh) l = Ok t /\ search q t = Ok found /\ Permutation found (filter (fun e => meets sh e q) l).
Proof. exact @search_small. Qed.
Print Assumptions C13_complete_while_small_partial.
Example C13_case : found (rc 0 0 10 10) (diagonal 9) = Some [0; 3; 6; 9]%Q /\ found (square 100) (diagonal 11 ++ [square 100]) = Some [] /\
  (match built (diagonal 11), built (diagonal 11 ++ [square 100]) with Ok t, Ok t' =>
     (depths t, leaf_count t', forallb (fun c => match mbr_of (sh := Rectangle) c with Ok b => negb (meets Rectangle b (square 100)) | Err _ => false end) (children t)) | _, _ => ([], 0%nat, false) end) = ([2; 2; 2; 2; 2]%nat, 5%nat, true).
Proof. repeat split; vm_compute; reflexivity. Qed.

(* C95 *)
Theorem C95_all_stored_and_occupied : forall (sh : shape) mx mn (l : list (rect sh)), (1 <= mn)%nat -> (2 * mn <= mx + 1)%nat -> (2 <= mx)%nat ->
  exists t, insert_all mx mn (empty_tree sh) l = Ok t /\ Permutation (entries t) l /\ occupied_root mn mx t.
Proof. exact @stored. Qed.
Print Assumptions C95_all_stored_and_occupied.
Example C95_case : (match built (diagonal 16) with Ok t => (length (entries t), depths t, map size (children t)) | Err _ => (0%nat, [], []) end) = (16%nat, [2; 2; 2; 2; 2; 1; 1]%nat, [3; 2; 2; 4]%nat).
Proof. vm_compute. reflexivity. Qed.

(* C96: a leaf split in a tree of more than two levels is hung under the root *)
Theorem C96_unbalanced_refuted : forall (sh : shape) mx mn (l : list (rect sh)) r t t', (1 <= mn)%nat -> (2 * mn <= mx + 1)%nat -> (2 <= mx)%nat -> insert_all mx mn (empty_tree sh) l = Ok t -> insert mx mn t r = Ok t' ->
  Forall is_inner (children t) -> (1 <= length (children t) < mx)%nat -> leaf_count t' <> leaf_count t -> In 1%nat (depths t') /\ exists d, (2 <= d)%nat /\ In d (depths t').
Proof. exact @unbalanced_reached. Qed.
Print Assumptions C96_unbalanced_refuted.
Example C96_case : (match built (diagonal 12), built (diagonal 13) with Ok t, Ok t' => Some (depths t, depths t') | _, _ => None end) = Some ([2; 2; 2; 2; 2], [2; 2; 2; 2; 2; 1])%nat.
Proof. vm_compute. reflexivity. Qed.

(* C97 *)
Theorem C97_bad_limits_refuted : forall (sh : shape) mx mn (l : list (rect sh)) r, length l = mx ->
  ((mx + 1 < 2 * mn)%nat -> insert_all mx mn (empty_tree sh) (l ++ [r]) = Err TypeError) /\ (mn = 0%nat -> insert_all mx mn (empty_tree sh) (l ++ [r]) = Err IndexError).
Proof. exact @fill_fails. Qed.
Print Assumptions C97_bad_limits_refuted.
Example C97_case : insert_all (sh := Rectangle) 4 3 (empty_tree Rectangle) (diagonal 5) = Err TypeError /\ insert_all (sh := Rectangle) 2 0 (empty_tree Rectangle) (diagonal 3) = Err IndexError.
Proof. split; vm_compute; reflexivity. Qed.
