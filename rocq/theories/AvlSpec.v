(* Specification vocabulary for C03-C05 *)
From Coq Require Import List ZArith Bool.
From Verif Require Import AvlModel.
Import ListNotations.
Local Open Scope Z_scope.

(* C03: keys inserted and not deleted since *)
Fixpoint present {V} (ops : list (avl_op V)) (k : Z) (now : Prop) : Prop :=
  match ops with
  | [] => now
  | Insert k' _ :: t => present t k (k = k' \/ now)
  | Delete k' :: t => present t k (k <> k' /\ now)
  end.

(* C04: the shape of a tree, with true heights *)
Fixpoint depth {V} (t : avl V) : Z :=
  match t with
  | Emp _ _ => -1
  | Nd _ _ l _ _ r => 1 + Z.max (depth l) (depth r)
  end.

Fixpoint size {V} (t : avl V) : Z :=
  match t with
  | Emp _ _ => 0
  | Nd _ _ l _ _ r => size l + 1 + size r
  end.

(* P holds of every wrapper in the tree *)
Fixpoint everywhere {V} (P : avl V -> Prop) (t : avl V) : Prop :=
  P t /\
  match t with
  | Emp _ _ => True
  | Nd _ _ l _ _ r => everywhere P l /\ everywhere P r
  end.

Definition stored_ok {V} (t : avl V) : Prop :=
  height t = depth t /\
  balance t = match t with Emp _ _ => 0 | Nd _ _ l _ _ r => depth l - depth r end /\
  -1 <= balance t <= 1.

Fixpoint fib (n : nat) : Z :=
  match n with
  | O => 0
  | S O => 1
  | S (S m as p) => fib p + fib m
  end.

(* number of nodes visited by a search *)
Fixpoint visited {V} (t : avl V) (key : Z) : Z :=
  match t with
  | Emp _ _ => 0
  | Nd _ _ l k _ r => 1 + (if key <? k then visited l key else if k <? key then visited r key else 0)
  end.

(* C05: value most recently assigned and not deleted since *)
Fixpoint latest {V} (ops : list (avl_op V)) (k : Z) (now : option (option V)) : option (option V) :=
  match ops with
  | [] => now
  | Insert k' v :: t => latest t k (if k =? k' then Some v else now)
  | Delete k' :: t => latest t k (if k =? k' then None else now)
  end.

Definition only_inserts {V} (ops : list (avl_op V)) := forall k, ~ In (Delete k) ops.

Definition op_key {V} (o : avl_op V) : Z := match o with Insert k _ => k | Delete k => k end.

(* k' is the least listed key above k *)
Definition successor {V} (k k' : Z) (l : list (Z * option V)) :=
  In k' (map fst l) /\ k < k' /\ forall j, In j (map fst l) -> k < j -> k' <= j.
