(* Specification vocabulary for the skip list: maps given by a history. *)
From Coq Require Import List Arith ZArith Bool Sorted.
From Verif Require Import Common SkipModel.
Import ListNotations.

(* every operation is a store *)
Definition only_sets {V} (os : list (op V)) : Prop :=
  Forall (fun o => match o with Set_ _ _ _ => True | Del _ => False end) os.
(* the value stored last under k, if any *)
Definition last_set {V} (os : list (op V)) (k : Z) : option (option V) :=
  fold_left (fun r o => match o with
                        | Set_ a v _ => if (a =? k)%Z then Some v else r
                        | Del a => if (a =? k)%Z then None else r
                        end) os None.
(* strictly increasing keys *)
Definition strict {V} (l : list (Z * option V)) : Prop := StronglySorted Z.lt (map fst l).
(* what iteration shows for a list of entries *)
Definition entries {V} (l : list (Z * option V)) : list (skey * option V) := map (fun kv => (Key (fst kv), snd kv)) l.
(* the value at k in a list of entries *)
Definition value_at {V} (l : list (Z * option V)) (k : Z) (r : option V) : Prop :=
  In (k, r) l \/ (r = None /\ ~ In k (map fst l)).
(* a is obtained from b by leaving elements out *)
Inductive subseq {A} : list A -> list A -> Prop :=
| sub_nil l : subseq [] l
| sub_keep x a b : subseq a b -> subseq (x :: a) (x :: b)
| sub_drop x a b : subseq a b -> subseq a (x :: b).

(* everything a caller can see agrees with the map the history os describes *)
Record agrees {V} (s : skip V) (os : list (op V)) : Prop := {
  a_items : exists kvs, iteritems s = Ok (entries kvs) /\ strict kvs /\ len s = Z.of_nat (length kvs) /\
              forall k v, In (k, v) kvs <-> last_set os k = Some v;
  a_get : forall k, get s k = Ok (match last_set os k with Some v => v | None => None end);
  a_levels : exists H, height (heap s) = Ok H /\ forall l, S l < H ->
              exists lo hi, level_nodes s l = Ok lo /\ level_nodes s (S l) = Ok hi /\ subseq hi lo }.
(* every deletion is of a missing key or of the smallest one present *)
Definition deletes_smallest {V} (os : list (op V)) : Prop :=
  forall p k q, os = p ++ Del k :: q -> last_set p k = None \/ forall k', last_set p k' <> None -> (k <= k')%Z.
