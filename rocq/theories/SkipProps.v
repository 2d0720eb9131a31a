(* Skip list: the theorems. *)
From Coq Require Import List Arith ZArith Bool Lia.
From Verif Require Import Common SkipModel SkipSpec SkipProofs SkipProofs2.
Import ListNotations.

(* C14: after any sequence of stores, with any tower heights, iteration gives
   the last value of every key in increasing order, lookup agrees, the length
   counts the keys and every level is a sublist of the one below. *)
Theorem C14_stores : forall V (os : list (op V)), only_sets os -> exists s, run skip_new os = Ok s /\ agrees s os.
Proof. exact @history. Qed.
Print Assumptions C14_stores.

Definition demo : list (op Z) := [Set_ 5%Z (Some 50%Z) 2; Set_ 1%Z (Some 10%Z) 0; Set_ 3%Z (Some 30%Z) 1; Set_ 5%Z (Some 51%Z) 4; Set_ 4%Z None 3].
Example C14_case : only_sets demo /\ (do s <- run skip_new demo ; iteritems s) =
  Ok [(Key 1%Z, Some 10%Z); (Key 3%Z, Some 30%Z); (Key 4%Z, None); (Key 5%Z, Some 51%Z)].
Proof. split; [repeat constructor|reflexivity]. Qed.

(* C15, refuted: deleting a key loses every smaller key *)
Theorem C15_delete_refuted : forall V (os : list (op V)) k k', deletes_smallest os -> last_set os k <> None -> last_set os k' <> None -> (k' < k)%Z ->
  exists s, run skip_new (os ++ [Del k]) = Ok s /\ ~ agrees s (os ++ [Del k]).
Proof. exact @lost_refuted. Qed.
Print Assumptions C15_delete_refuted.
(* ... precisely: what is left are the keys above the deleted one *)
Theorem C15_delete_loses_smaller : forall V (os : list (op V)) k, deletes_smallest os -> last_set os k <> None ->
  exists s s' kvs, run skip_new os = Ok s /\ iteritems s = Ok (entries kvs) /\ remove s k = Ok s' /\
   iteritems s' = Ok (entries (filter (fun kv => k <? fst kv)%Z kvs)) /\ len s' = (len s - 1)%Z /\
   forall k' v, In (k', v) kvs <-> last_set os k' = Some v.
Proof. exact @history_lost. Qed.
Print Assumptions C15_delete_loses_smaller.
Example C15_refuted_case : (do s <- run skip_new (demo ++ [Del 4%Z]) ; do l <- iteritems s ; Ok (l, len s)) = Ok ([(Key 5%Z, Some 51%Z)], 3%Z).
Proof. reflexivity. Qed.

(* C15, partial: stores mixed with deletions of missing keys and of the
   smallest key present.  Missing: deletion of any other key. *)
Theorem C15_delete_smallest_partial : forall V (os : list (op V)), deletes_smallest os -> exists s, run skip_new os = Ok s /\ agrees s os.
Proof. exact @history_tame. Qed.
Print Assumptions C15_delete_smallest_partial.
Example C15_partial_case : (do s <- run skip_new (demo ++ [Del 2%Z; Del 1%Z; Del 3%Z; Set_ 2%Z None 1]) ; iteritems s) =
  Ok [(Key 2%Z, None); (Key 4%Z, None); (Key 5%Z, Some 51%Z)].
Proof. reflexivity. Qed.
Example C15_partial_hyp : deletes_smallest (demo ++ [Del 2%Z; Del 1%Z; Del 3%Z]).
Proof.
  intros p k q E.
  unfold demo in E. cbn in E.
  repeat (destruct p as [|? p]; cbn in E; [try discriminate; inversion E; subst|inversion E as [[E0 E1]]; clear E; subst; rename E1 into E]).
  - left. reflexivity.
  - right. intros k' N. destruct (Z.le_gt_cases 1 k') as [|G]; auto. exfalso. apply N. unfold last_set. cbn [fold_left].
    repeat match goal with |- context [(?a =? k')%Z] => destruct (Z.eqb_spec a k'); [try lia; reflexivity|] end; auto.
  - right. intros k' N. destruct (Z.le_gt_cases 3 k') as [|G]; auto. exfalso. apply N. unfold last_set. cbn [fold_left].
    repeat match goal with |- context [(?a =? k')%Z] => destruct (Z.eqb_spec a k'); [try lia; reflexivity|] end; auto.
Qed.
