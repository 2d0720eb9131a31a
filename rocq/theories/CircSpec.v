(* Specification vocabulary for circles of the plane and lengths of curves. *)
From Coq Require Import List ZArith Bool QArith Qcanon.
From Verif Require Import Common QcLib CircModel.
Import ListNotations.
Local Open Scope Z_scope.
Local Open Scope Qc_scope.

Definition sqr (x : Qc) : Qc := x * x.
Definition gap (p q : p2) : Qc := sqr (fst p - fst q) + sqr (snd p - snd q).
Definition centre (c : circle) : p2 := (c_x c, c_y c).
Definition on_circle (c : circle) (p : p2) : Prop := gap p (centre c) = sqr (c_r c).
(* root s of x *)
Definition root_of (s x : Qc) : Prop := 0 <= s /\ s * s = x.
Definition good (sqrt : Qc -> Qc) (x : Qc) : Prop := root_of (sqrt x) x.
Definition is_angle (t : angle) : Prop := sqr (fst t) + sqr (snd t) = 1.
(* t is the point of the circle nearest to p *)
Definition nearest (c : circle) (p t : p2) : Prop := on_circle c t /\ forall q, on_circle c q -> gap p t <= gap p q.
(* the line through p and t touches the circle at t *)
Definition touches (c : circle) (p t : p2) : Prop :=
  on_circle c t /\ (fst t - c_x c) * (fst p - fst t) + (snd t - c_y c) * (snd p - snd t) = 0.
(* the half chord of two circles, squared *)
Definition half_chord2 (c1 c2 : circle) : Qc :=
  sqr (c_r c1) - sqr ((sqr (c_r c1) - sqr (c_r c2) + gap (centre c1) (centre c2)) / (1 + 1)) / gap (centre c1) (centre c2).
Definition xy (r : Qc * Qc * Qc) : p2 := fst r.
(* a straight line in any dimension, and the length of its direction *)
Definition straight (p v : list Qc) (t : Qc) : list Qc := map (fun pv => fst pv + t * snd pv) (combine p v).
Definition sum_squares (v : list Qc) : Qc := fold_right (fun x s => x * x + s) 0 v.
Definition inject (n : Z) : Qc := Q2Qc (inject_Z n).
(* the point with the two offsets from the centre exchanged *)
Definition swapped (c : circle) (p : p2) : p2 := (c_x c + (snd p - c_y c), c_y c + (fst p - c_x c)).
(* the squared sine of the direction from the centre to v *)
Definition sine2 (c : circle) (v : p2) : Qc := sqr (snd v - c_y c) / gap v (centre c).
