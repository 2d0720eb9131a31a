(* Specification vocabulary for the priority queue, independent of the code. *)
From Coq Require Import List Arith ZArith Bool QArith Qcanon Permutation.
From Verif Require Import Common QcLib PqModel.
Import ListNotations.
Local Open Scope Qc_scope.

Section Queue.
Context {V : Type}.
(* key of the node at a place *)
Definition kat (h : list (Qc * V)) (i : nat) : Qc := nth i (map fst h) 0.
(* no node is smaller than its parent *)
Definition is_heap (h : list (Qc * V)) : Prop := forall i, (0 < i < length h)%nat -> kat h ((i - 1) / 2) <= kat h i.
(* x has a least key *)
Definition least (x : Qc * V) (l : list (Qc * V)) : Prop := In x l /\ Forall (fun y => fst x <= fst y) l.
(* keys that do not decrease *)
Fixpoint sorted_keys (l : list (Qc * V)) : Prop := match l with x :: ((y :: _) as r) => fst x <= fst y /\ sorted_keys r | _ => True end.
(* the nodes inserted by calls, and the number of deletions *)
Definition inserted (calls : list (call V)) : list (Qc * V) := flat_map (fun c => match c with CInsert _ k v => [(k, v)] | CDelMin _ => [] end) calls.
Definition deletions (calls : list (call V)) : nat := length (filter (fun c => match c with CDelMin _ => true | _ => false end) calls).
(* no prefix has more deletions than insertions *)
Definition never_empty (calls : list (call V)) : Prop := forall k, (deletions (firstn k calls) <= length (inserted (firstn k calls)))%nat.
End Queue.
