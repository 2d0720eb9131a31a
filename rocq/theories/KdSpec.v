(* Specification vocabulary for k-d trees. *)
From Coq Require Import List ZArith Bool QArith Qcanon.
From Verif Require Import Common QcLib KdModel.
Import ListNotations.
Local Open Scope nat_scope.

Definition dims (k : nat) (l : list point) : Prop := forall p, In p l -> length p = k.

(* at every node: axis = depth mod k, the recorded size is the number of
   points, points on the left are <= and points on the right >= the node's
   point on the node's axis *)
Fixpoint split_ok (k d : nat) (t : kd) : Prop :=
  match t with
  | Empty => True
  | Node p a l r s =>
      a = d mod k /\ s = length (collect t) /\
      (forall q, In q (collect l) -> (coord q a <= coord p a)%Qc) /\
      (forall q, In q (collect r) -> (coord p a <= coord q a)%Qc) /\
      split_ok k (d + 1) l /\ split_ok k (d + 1) r
  end.

Fixpoint height (t : kd) : nat :=
  match t with Empty => 0 | Node _ _ l r _ => S (max (height l) (height r)) end.

(* p is a nearest point to q in l *)
Definition is_nearest (q p : point) (l : list point) : Prop :=
  In p l /\ forall x, In x l -> (dist2 q p <= dist2 q x)%Qc.

(* distances do not decrease along the list *)
Fixpoint by_distance (q : point) (l : list point) : Prop :=
  match l with
  | [] => True
  | x :: r => (forall y, In y r -> (dist2 q x <= dist2 q y)%Qc) /\ by_distance q r
  end.

(* no two points share a coordinate value on some axis *)
Definition distinct_coords (k : nat) (l : list point) : Prop :=
  NoDup l /\ forall p q a, In p l -> In q l -> a < k -> coord p a = coord q a -> p = q.

(* the inserted points of a history *)
Definition inserted (os : list kop) : list point :=
  flat_map (fun o => match o with OpInsert p => [p] | OpDelete _ => [] end) os.
Definition only_inserts (os : list kop) : Prop :=
  Forall (fun o => match o with OpInsert _ => True | OpDelete _ => False end) os.
