(* C03, C04, C05: mmcore/ds/tree/avl.py *)
From Coq Require Import List ZArith Bool Sorted Lia.
From Verif Require Import Common AvlModel AvlSpec AvlProofs.
Import ListNotations.
Local Open Scope Z_scope.

Definition sample : list (avl_op Z) :=
  [Insert 5 (Some 50); Insert 2 (Some 20); Insert 9 (Some 90); Insert 7 (Some 70); Insert 8 (Some 80);
   Delete 9; Insert 1 None; Delete 4; Insert 2 (Some 21); Delete 5].

(* C03 *)
Theorem C03_avl_ordered_set : forall (V : Type) (ops : list (avl_op V)),
  exists t, avl_run avl_new ops = Ok t /\
    StronglySorted Z.lt (map fst (inorder t)) /\
    forall k, (In k (map fst (inorder t)) <-> present ops k False) /\
              ((exists v, search t k = Some (k, v)) <-> present ops k False) /\
              (search t k = None <-> ~ present ops k False).
Proof. exact @C03_lemma. Qed.
Print Assumptions C03_avl_ordered_set.

Example C03_case : match avl_run avl_new sample with
  | Ok t => map fst (inorder t) = [1; 2; 7; 8] | Err _ => False end.
Proof. vm_compute. reflexivity. Qed.

(* C04 *)
Theorem C04_avl_balanced : forall (V : Type) (ops : list (avl_op V)),
  exists t, avl_run avl_new ops = Ok t /\ everywhere stored_ok t /\
    size t = Z.of_nat (length (inorder t)) /\
    fib (Z.to_nat (height t + 3)) - 1 <= size t /\
    forall k, visited t k <= height t + 1.
Proof. exact @C04_lemma. Qed.
Print Assumptions C04_avl_balanced.

(* ascending insertions: 7 keys in a tree of height 2 *)
Example C04_case : match avl_run avl_new (map (fun k => Insert k (@None Z)) [1; 2; 3; 4; 5; 6; 7]) with
  | Ok t => (height t, size t, fib (Z.to_nat (height t + 3)) - 1) = (2, 7, 4) | Err _ => False end.
Proof. vm_compute. reflexivity. Qed.

(* C05, false as stated: a second assignment is ignored *)
Theorem C05_avl_map_refuted : exists (ops : list (avl_op Z)) t k v v',
  avl_run avl_new ops = Ok t /\ latest ops k None = Some v /\ getitem t k = Ok v' /\ v <> v'.
Proof.
  exists [Insert 1 (Some 10); Insert 1 (Some 11)].
  eexists. exists 1, (Some 11), (Some 10). vm_compute. repeat split. discriminate.
Qed.
Print Assumptions C05_avl_map_refuted.

(* C05, false as stated: deleting a key moves another key's value *)
Theorem C05_avl_delete_refuted : exists (ops : list (avl_op Z)) t k v v',
  NoDup (map op_key (removelast ops)) /\ (exists d, last ops (Delete 0) = Delete d /\ d <> k) /\
  avl_run avl_new ops = Ok t /\ latest ops k None = Some v /\ getitem t k = Ok v' /\ v <> v'.
Proof.
  exists [Insert 2 (Some 20); Insert 1 (Some 10); Insert 3 (Some 30); Delete 2].
  eexists. exists 3, (Some 30), (Some 20). split; [|vm_compute; repeat split; try discriminate].
  - simpl. repeat constructor; simpl; intuition discriminate.
  - exists 2. split; [reflexivity|discriminate].
Qed.
Print Assumptions C05_avl_delete_refuted.

(* C05, what holds: distinct keys assigned once, no deletions *)
Theorem C05_avl_assign_once_partial : forall (V : Type) (ops : list (avl_op V)),
  only_inserts ops -> NoDup (map op_key ops) ->
  exists t, avl_run avl_new ops = Ok t /\
  forall k, getitem t k = match latest ops k None with Some v => Ok v | None => Err AttributeError end.
Proof. exact @C05_insert_lemma. Qed.
Print Assumptions C05_avl_assign_once_partial.

Example C05_assign_case :
  only_inserts [Insert 3 (Some 30); Insert 1 (Some 10); Insert 2 (@None Z)] /\
  NoDup (map op_key [Insert 3 (Some 30); Insert 1 (Some 10); Insert 2 (@None Z)]).
Proof.
  split; [intros k H; simpl in H; intuition discriminate|].
  simpl. repeat constructor; simpl; intuition discriminate.
Qed.

(* C05, what holds: deleting k changes at most the value of k's successor *)
Theorem C05_avl_delete_partial : forall (V : Type) (ops : list (avl_op V)) k t t',
  avl_run avl_new ops = Ok t -> delete t k = Ok t' ->
  forall j, j <> k -> (forall s, successor k s (inorder t) -> j <> s) -> search t' j = search t j.
Proof. exact @C05_delete_lemma. Qed.
Print Assumptions C05_avl_delete_partial.

Example C05_delete_case : exists t t', avl_run avl_new sample = Ok t /\ delete t 2 = Ok t' /\
  search t' 8 = Some (8, Some 80).
Proof. do 2 eexists. vm_compute. repeat split. Qed.

(* C53, false of the code: the key is height+1, so from the fourth append on
   every appended value is dropped. *)
Theorem C53_append_keeps_values_refuted : forall (V : Type) (v1 v2 v3 : option V) vs,
  exists t, append_all avl_new (v1 :: v2 :: v3 :: vs) = Ok t /\ inorder t = [(0, v1); (1, v2); (2, v3)].
Proof. exact @append_three. Qed.
Print Assumptions C53_append_keeps_values_refuted.

(* what holds: every append succeeds and never removes or changes a stored value *)
Theorem C53_append_partial : forall (V : Type) (vs : list (option V)),
  exists t, append_all avl_new vs = Ok t /\ map snd (inorder t) = firstn 3 vs.
Proof. exact @append_firstn. Qed.
Print Assumptions C53_append_partial.

Example C53_case : match append_all avl_new [Some 1; Some 2; Some 3; Some 4] with
  | Ok t => search t 3 = None | Err _ => False end.
Proof. vm_compute. reflexivity. Qed.
