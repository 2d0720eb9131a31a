(* Specification vocabulary of the object API: points of boxes, lines and planes, distances, rotations. *)
From Coq Require Import List ZArith Bool QArith Qcanon.
From Verif Require Import Common QcLib ArrZ SumLib NurbsModel DerModel PlnModel ApiModel.
Import ListNotations.
Local Open Scope Qc_scope.

(* the points of a box *)
Definition in2 (p : p2) (b : bb2) : Prop :=
  (fst (mn2 b) <= fst p /\ fst p <= fst (mx2 b)) /\ (snd (mn2 b) <= snd p /\ snd p <= snd (mx2 b)).
Definition in3 (p : v3) (b : bb3) : Prop :=
  (vx (mn3 b) <= vx p /\ vx p <= vx (mx3 b)) /\ (vy (mn3 b) <= vy p /\ vy p <= vy (mx3 b)) /\
  (vz (mn3 b) <= vz p /\ vz p <= vz (mx3 b)).
(* a box that has a point: minimum below maximum *)
Definition proper2 (b : bb2) : Prop := fst (mn2 b) <= fst (mx2 b) /\ snd (mn2 b) <= snd (mx2 b).
Definition proper3 (b : bb3) : Prop :=
  vx (mn3 b) <= vx (mx3 b) /\ vy (mn3 b) <= vy (mx3 b) /\ vz (mn3 b) <= vz (mx3 b).
(* b is the least box with the points of P *)
Definition least2 (P : p2 -> Prop) (b : bb2) : Prop :=
  (forall p, P p -> in2 p b) /\ (forall c, (forall p, P p -> in2 p c) -> forall q, in2 q b -> in2 q c).
Definition least3 (P : v3 -> Prop) (b : bb3) : Prop :=
  (forall p, P p -> in3 p b) /\ (forall c, (forall p, P p -> in3 p c) -> forall q, in3 q b -> in3 q c).
(* an array with K columns *)
Definition rows_of (K : nat) (pts : list (list Qc)) : Prop := Forall (fun r => length r = K) pts.

(* directions *)
Definition parallel (a b : v3) : Prop := vcross a b = v30.
Definition unit3 (a : v3) : Prop := vdot a a = 1.
Definition opp2 (a : p2) : p2 := (- fst a, - snd a).

(* a map of space given by a matrix whose last row is 0 0 0 1 *)
Definition affine4 (m : m4) : Prop := bot m = v30 /\ corner m = 1.
Definition affine3 (m : m3) : Prop := bot2 m = (0, 0) /\ corner2 m = 1.
(* (cosine, sine) of an angle *)
Definition is_angle (t : p2) : Prop := fst t * fst t + snd t * snd t = 1.
(* the plane turned about the origin *)
Definition turned (t v : p2) : p2 := (fst t * fst v - snd t * snd v, snd t * fst v + fst t * snd v).
(* a matrix that keeps lengths *)
Definition isometry (m : m33) : Prop := forall v, vdot (mv m v) (mv m v) = vdot v v.
Definition rooted (sqrt : Qc -> Qc) (x : Qc) : Prop := 0 <= sqrt x /\ sqrt x * sqrt x = x.

(* points of lines and planes *)
Definition on_line (l : line3) (q : v3) : Prop := exists t, q = vadd (line_start l) (vscale t (vsub (line_end l) (line_start l))).
Definition on_plane (p : aplane) (q : v3) : Prop := vdot (pl_n (ap_array p)) (vsub q (ap_origin p)) = 0.
(* the point at the parameter t *)
Definition line_at (l : line3) (t : Qc) : v3 := vadd (line_start l) (vscale t (vsub (line_end l) (line_start l))).
(* the part of the line that the object stands for *)
Definition in_range (l : line3) (t : Qc) : Prop := match l with Infinite _ _ => True | Segment _ _ _ => 0 <= t /\ t <= 1 end.
(* a line whose stored origin is its first point *)
Definition fresh (l : line3) : Prop := line_origin l = line_start l.
(* both ends at the height h *)
Definition at_height (l : line3) (h : Qc) : Prop := vz (line_start l) = h /\ vz (line_end l) = h.
(* twice the area of the triangle of the projections *)
Definition area2 (a b c : v3) : Qc := (vx b - vx a) * (vy c - vy a) - (vx c - vx a) * (vy b - vy a).
(* the projections of the lines to the plane z = 0 are not parallel *)
Definition flat_cross (a b : line3) : Qc :=
  (vx (line_end a) - vx (line_start a)) * (vy (line_end b) - vy (line_start b))
  - (vy (line_end a) - vy (line_start a)) * (vx (line_end b) - vx (line_start b)).
Definition dist2 (a b : p2) : Qc := (fst a - fst b) * (fst a - fst b) + (snd a - snd b) * (snd a - snd b).
Definition above_tol (v : v3) : Prop := atol < fabs (vx v) \/ atol < fabs (vy v) \/ atol < fabs (vz v).
(* contents after a sequence of operations *)
Fixpoint oc_run {A} (l : list A) (ops : list (op A)) : list A :=
  match ops with [] => l | o :: r => oc_run (fst (oc_do l o)) r end.
