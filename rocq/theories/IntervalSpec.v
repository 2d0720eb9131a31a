(* Specification vocabulary for intervals: sets of numbers. *)
From Coq Require Import List ZArith Bool QArith Qcanon.
From Verif Require Import Common QcLib IntervalModel.
Import ListNotations.
Local Open Scope Qc_scope.

Definition mem (x : Qc) (X : iv) : Prop := low X <= x /\ x <= upp X.
Definition wf (X : iv) : Prop := low X <= upp X.
Definition subset (X Y : iv) : Prop := forall x, mem x X -> mem x Y.
Definition width (X : iv) : Qc := upp X - low X.
Definition degenerate (X : iv) : Prop := low X = upp X.

(* R contains every value of f on X x Y *)
Definition encloses2 (f : Qc -> Qc -> Qc) (X Y R : iv) : Prop :=
  forall x y, mem x X -> mem y Y -> mem (f x y) R.
Definition encloses1 (f : Qc -> Qc) (X R : iv) : Prop := forall x, mem x X -> mem (f x) R.
(* R is contained in every interval with this property *)
Definition tight2 (f : Qc -> Qc -> Qc) (X Y R : iv) : Prop :=
  encloses2 f X Y R /\ forall R', encloses2 f X Y R' -> subset R R'.
