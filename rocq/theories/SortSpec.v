(* Specification vocabulary for sorting and removal of duplicates. *)
From Coq Require Import List ZArith QArith Qcanon Sorted.
From Verif Require Import Common QcLib ArrZ.
Import ListNotations.

Definition ascending (l : list Qc) : Prop := StronglySorted Qcle l.
Definition strictly_ascending (l : list Qc) : Prop := StronglySorted Qclt l.
Definition same_values (a b : list Qc) : Prop := forall x, In x a <-> In x b.
(* the positions 0 .. n-1 *)
Definition positions (n : nat) : list Z := map Z.of_nat (seq 0 n).
(* x is reached from y by steps of at most eps through values of l *)
Inductive chained (l : list Qc) (eps y : Qc) : Qc -> Prop :=
| ch_here : In y l -> chained l eps y y
| ch_step x x' : chained l eps y x -> In x' l -> (x <= x')%Qc -> (x' - x <= eps)%Qc -> chained l eps y x'.
(* consecutive values more than eps apart *)
Definition spaced (eps : Qc) (l : list Qc) : Prop := StronglySorted (fun a b => (eps < b - a)%Qc) l.
