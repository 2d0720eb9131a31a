(* What the parts of the sweep line should do, stated without the model's helpers. *)
From Coq Require Import List ZArith QArith Qcanon.
From Verif Require Import Common QcLib SwpModel.
Import ListNotations.
Local Open Scope Z_scope.
Local Open Scope Qc_scope.

(* the order of the sweep: from left to right, then upwards *)
Definition before (a b : point) : Prop := p_x a < p_x b \/ p_x a = p_x b /\ p_y a < p_y b.
(* the same object has the same place *)
Definition same_object (a b : point) : Prop := p_id a = p_id b -> p_x a = p_x b /\ p_y a = p_y b.
(* two numbers are the same or clearly different *)
Definition clear (x y : Qc) : Prop := x = y \/ eps2 < x - y \/ eps2 < y - x.
Definition clear_points (a b : point) : Prop := same_object a b /\ clear (p_x a) (p_x b) /\ clear (p_y a) (p_y b).
(* positive for a left turn at b on the way from a to c *)
Definition turn (a b c : point) : Qc := (p_x b - p_x a) * (p_y c - p_y a) - (p_y b - p_y a) * (p_x c - p_x a).
(* c is on the line through a and b *)
Definition on_line (a b c : point) : Prop := turn a b c = 0.
(* c is between a and b *)
Definition between (a b c : point) : Prop :=
  exists t, 0 <= t /\ t <= 1 /\ p_x c = p_x a + t * (p_x b - p_x a) /\ p_y c = p_y a + t * (p_y b - p_y a).
(* the lines have the same direction *)
Definition parallel (a b c d : point) : Prop := (p_x b - p_x a) * (p_y d - p_y c) = (p_y b - p_y a) * (p_x d - p_x c).
Definition proper (a b : point) : Prop := p_x a <> p_x b \/ p_y a <> p_y b.
(* no end of one is taken for an end of the other *)
Definition no_common_end (a b c d : point) : Prop := peq a c = false /\ peq a d = false /\ peq b c = false /\ peq b d = false.
(* the same sign *)
Definition sign_of (s : Z) (x : Qc) : Prop := (s = 1%Z /\ 0 < x) \/ (s = 0%Z /\ x = 0) \/ (s = (-1)%Z /\ x < 0).

(* powers of two *)
Fixpoint pow2 (n : nat) : Qc := match n with O => 1 | S m => pow2 m * (1 + 1) end.
(* the coordinates of a segment *)
Definition coords (s : xy * xy) : list Qc := [fst (fst s); snd (fst s); fst (snd s); snd (snd s)].
Definition inside (b x : Qc) : Prop := - b < x /\ x < b.

(* on the way from a to b, measured by the first coordinate if it changes and by the second otherwise *)
Definition along (a b p q : xy) : Prop :=
  (fst a < fst b -> fst p <= fst q) /\ (fst b < fst a -> fst q <= fst p) /\
  (fst a = fst b -> (snd a < snd b -> snd p <= snd q) /\ (snd b < snd a -> snd q <= snd p)).
(* every earlier element is related to every later one *)
Fixpoint ordered {A} (R : A -> A -> Prop) (l : list A) : Prop :=
  match l with [] => True | a :: r => (forall b, In b r -> R a b) /\ ordered R r end.
(* the sweep point is on the way of the second segment, not at its end *)
Definition passes (b1 b2 w : point) : Prop := exists t, t < 1 /\ p_x w = p_x b1 + t * (p_x b2 - p_x b1) /\ p_y w = p_y b1 + t * (p_y b2 - p_y b1).
