(* What the properties of triangle intersections mean. *)
From Coq Require Import List ZArith Bool QArith Qcanon.
From Verif Require Import Common QcLib ArrZ AabbModel AabbSpec BvhModel BvhSpec MolModel.
Import ListNotations.
Local Open Scope Qc_scope.

(* v0 + u (v1 - v0) + w (v2 - v0) *)
Definition tri_at (t : tri) (u w : Qc) : v3 :=
  let '(v0, v1, v2) := t in
  (vx v0 + u * (vx v1 - vx v0) + w * (vx v2 - vx v0),
   vy v0 + u * (vy v1 - vy v0) + w * (vy v2 - vy v0),
   vz v0 + u * (vz v1 - vz v0) + w * (vz v2 - vz v0)).
(* a point of the triangle *)
Definition in_tri (t : tri) (p : v3) : Prop := exists u w, 0 <= u /\ 0 <= w /\ u + w <= 1 /\ p = tri_at t u w.
(* a point of the triangle enlarged by h of its edges *)
Definition near_tri (h : Qc) (t : tri) (p : v3) : Prop :=
  exists u w, - h <= u /\ u <= 1 + h /\ - h <= w /\ u + w <= 1 + h /\ p = tri_at t u w.
(* six times the volume spanned by the direction of the segment and the triangle *)
Definition span6 (t : tri) (s e : v3) : Qc :=
  let '(v0, v1, v2) := t in
  let '(a, b, c) := vsub v1 v0 in let '(d, f, g) := vsub v2 v0 in let '(x, y, z) := vsub e s in
  x * (f * c - g * b) + y * (g * a - d * c) + z * (d * b - f * a).
(* all coordinates multiplied by k *)
Definition scaled (k : Qc) (p : v3) : v3 := (k * vx p, k * vy p, k * vz p).
Definition scaled_tri (k : Qc) (t : tri) : tri := let '(a, b, c) := t in (scaled k a, scaled k b, scaled k c).
(* a triangle in a plane x = c, y = c or z = c *)
Definition flat_along (i : nat) (t : tri) : Prop :=
  let '(a, b, c) := t in comp a i = comp b i /\ comp b i = comp c i.
Definition axis_flat (t : tri) : Prop := exists i, (i < 3)%nat /\ flat_along i t.
(* points equal up to h in every coordinate *)
Definition within (h : Qc) (p q : v3) : Prop :=
  - h < vx p - vx q /\ vx p - vx q < h /\ - h < vy p - vy q /\ vy p - vy q < h /\ - h < vz p - vz q /\ vz p - vz q < h.
Definition corner (t : tri) (p : v3) : Prop := let '(a, b, c) := t in p = a \/ p = b \/ p = c.
Definition near_corner (h : Qc) (t : tri) (p : v3) : Prop := let '(a, b, c) := t in within h p a \/ within h p b \/ within h p c.
(* a point of the segment from a to b *)
Definition between (a b p : v3) : Prop := exists r, 0 <= r /\ r <= 1 /\ p = seg_at (a, b) r.
Definition on_side (t : tri) (p : v3) : Prop := let '(a, b, c) := t in between a b p \/ between b c p \/ between c a p.
(* the answer for one row *)
Definition row_flag (t : tri) (s e : v3) : Z := match tri_segment t s e with Some p => classify p t | None => 0%Z end.
Definition row_out (t : tri) (s e o : v3) : v3 := match tri_segment t s e with Some p => p | None => o end.
(* the arrays after the rows in D have been worked on *)
Definition rows_done (s e : v3) (ts : list tri) (D : Z -> Prop) (outs : list v3) (flags : list Z) (outs' : list v3) (flags' : list Z) : Prop :=
  length outs' = length outs /\ length flags' = length flags /\
  forall i, (0 <= i)%Z ->
    (D i -> forall t o, rdZ ts i = Ok t -> rdZ outs i = Ok o -> rdZ outs' i = Ok (row_out t s e o) /\ rdZ flags' i = Ok (row_flag t s e)) /\
    (~ D i -> rdZ outs' i = rdZ outs i /\ rdZ flags' i = rdZ flags i).
(* the number of steps of an iteration of a parallel loop *)
Definition steps_of (s e : v3) (ts : list tri) (i : Z) : nat :=
  match rdZ ts i with Ok t => match tri_segment t s e with Some _ => 14 | None => 11 end | Err _ => 0 end.
(* a schedule in which every iteration runs without interruption, over the chunks of indices of the threads *)
Inductive whole (s e : v3) (ts : list tri) : list (list Z) -> list Z -> Prop :=
| whole_end : forall cs, Forall (fun c => c = []) cs -> whole s e ts cs []
| whole_iter : forall cs h i rest cs' sched, rdZ cs h = Ok (i :: rest) -> wrZ cs h rest = Ok cs' -> whole s e ts cs' sched ->
    whole s e ts cs (repeat h (steps_of s e ts i) ++ sched).
(* at least 1e-8 in size *)
Definition big (x : Qc) : Prop := eps8 <= x \/ x <= - eps8.
(* the part of the segment between two of its points inside the box is big enough for the triangle *)
Definition big_in (b : bbox) (t : tri) (seg : v3 * v3) : Prop :=
  exists t0 t1, 0 <= t0 /\ t0 <= t1 /\ t1 <= 1 /\ in_box3 (seg_at seg t0) (corners b) /\ in_box3 (seg_at seg t1) (corners b) /\
    big (span6 t (seg_at seg t0) (seg_at seg t1)).
(* a is not behind b *)
Definition not_after (ray : v3 * v3) (a b : v3 * obj tri * Qc) : Prop :=
  exists ta tb, fst (fst a) = seg_at ray ta /\ fst (fst b) = seg_at ray tb /\ ta <= tb.
(* rows outside D as before, the flags of the others as before or from 0 to 3 *)
Definition kept (D : Z -> Prop) (outs o : list v3) (flags f : list Z) : Prop :=
  length o = length outs /\ length f = length flags /\
  forall i, (0 <= i)%Z -> (~ D i -> rdZ o i = rdZ outs i /\ rdZ f i = rdZ flags i) /\
    (D i -> rdZ f i = rdZ flags i \/ exists k, rdZ f i = Ok k /\ (0 <= k <= 3)%Z).
