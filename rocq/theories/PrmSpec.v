(* Specification vocabulary for spheres, cylinders and tubes, independent of the
   code.  Vectors, dot3, dist2, along and is_sqrt are those of PlnSpec. *)
From Coq Require Import List ZArith Bool QArith Qcanon.
From Verif Require Import Common QcLib ArrZ SumLib NurbsModel DerModel PlnModel PlnSpec PrmModel.
Import ListNotations.
Local Open Scope Z_scope.
Local Open Scope Qc_scope.

(* p is in the closed box b *)
Definition in_box (b : box) (p : v3) : Prop :=
  vx (fst b) <= vx p <= vx (snd b) /\ vy (fst b) <= vy p <= vy (snd b) /\ vz (fst b) <= vz p <= vz (snd b).
(* b is the smallest box around the set X: it contains X and each of its six faces meets X *)
Definition tight (b : box) (X : v3 -> Prop) : Prop :=
  (forall p, X p -> in_box b p) /\
  (exists p, X p /\ vx p = vx (fst b)) /\ (exists p, X p /\ vx p = vx (snd b)) /\
  (exists p, X p /\ vy p = vy (fst b)) /\ (exists p, X p /\ vy p = vy (snd b)) /\
  (exists p, X p /\ vz p = vz (fst b)) /\ (exists p, X p /\ vz p = vz (snd b)).

Definition ball (o : v3) (r : Qc) (p : v3) : Prop := dist2 p o <= r * r.
(* the solid cylinder with axis from s to e: p is at distance at most r from a
   point of the axis, in a direction orthogonal to it *)
Definition solid (s e : v3) (r : Qc) (p : v3) : Prop :=
  exists t, 0 <= t <= 1 /\ let q := along s t (minus3 e s) in
    dot3 (minus3 p q) (minus3 e s) = 0 /\ dist2 p q <= r * r.
(* n is the distance from p to the line through s and e *)
Definition line_distance (s e p : v3) (n : Qc) : Prop :=
  0 <= n /\ (exists t, n * n = dist2 p (along s t (minus3 e s))) /\
  (forall t, n * n <= dist2 p (along s t (minus3 e s))).

(* every rational that is a square has this root; the assumption that sqrt is
   exact where the exact result exists *)
Definition exact_sqrt (sqrt : Qc -> Qc) (x : Qc) : Prop := is_sqrt (sqrt x) x.

(* assignments to the properties of a sphere, a cylinder or a tube *)
Inductive sphere_op := SetR (r : Qc) | SetO (o : v3).
Inductive icyl_op := Start (s : v3) | End (e : v3) | Radius (r : Qc).
Definition run_sphere (s : sphere) (l : list sphere_op) : sphere :=
  fold_left (fun s op => match op with SetR r => sphere_set_radius s r | SetO o => sphere_set_origin s o end) l s.
Definition run_icyl (sqrt : Qc -> Qc) (c : icyl) (l : list icyl_op) : icyl :=
  fold_left (fun c op => match op with Start s => set_start sqrt c s | End e => set_end sqrt c e
                                     | Radius r => set_radius sqrt c r end) l c.
(* the last value assigned, or the first value *)
Definition last_r (r : Qc) (l : list sphere_op) : Qc :=
  fold_left (fun r op => match op with SetR r' => r' | SetO _ => r end) l r.
Definition last_o (o : v3) (l : list sphere_op) : v3 :=
  fold_left (fun o op => match op with SetR _ => o | SetO o' => o' end) l o.
Definition last_start (s : v3) (l : list icyl_op) : v3 :=
  fold_left (fun s op => match op with Start s' => s' | _ => s end) l s.
Definition last_end (e : v3) (l : list icyl_op) : v3 :=
  fold_left (fun e op => match op with End e' => e' | _ => e end) l e.
Definition last_radius (r : Qc) (l : list icyl_op) : Qc :=
  fold_left (fun r op => match op with Radius r' => r' | _ => r end) l r.
(* sqrt is exact at the three numbers whose roots the bounding box of a cylinder needs *)
Definition aabb_roots (sqrt : Qc -> Qc) (s e : v3) : Prop :=
  let d := minus3 e s in
  exact_sqrt sqrt (1 - vx d * vx d / dot3 d d) /\ exact_sqrt sqrt (1 - vy d * vy d / dot3 d d) /\
  exact_sqrt sqrt (1 - vz d * vz d / dot3 d d).
(* a quadratic function and its gradient *)
Record quad := mkq { q0 : Qc; q1 : v3; qxx : Qc; qyy : Qc; qzz : Qc; qxy : Qc; qyz : Qc; qzx : Qc }.
Definition quad_at (f : quad) (p : v3) : Qc :=
  q0 f + dot3 (q1 f) p + qxx f * (vx p * vx p) + qyy f * (vy p * vy p) + qzz f * (vz p * vz p) +
  qxy f * (vx p * vy p) + qyz f * (vy p * vz p) + qzx f * (vz p * vx p).
Definition quad_grad (f : quad) (p : v3) : v3 :=
  mkv (vx (q1 f) + (1 + 1) * qxx f * vx p + qxy f * vy p + qzx f * vz p)
      (vy (q1 f) + (1 + 1) * qyy f * vy p + qxy f * vx p + qyz f * vz p)
      (vz (q1 f) + (1 + 1) * qzz f * vz p + qyz f * vy p + qzx f * vx p).
(* the axis from s to e is not along the negative x axis *)
Definition not_minus_x (s e : v3) : Prop := ~ (vy e = vy s /\ vz e = vz s /\ vx e <= vx s).
(* sqrt is exact at the numbers whose roots the constructor of Cylinder needs *)
Definition frame_roots (sqrt : Qc -> Qc) (s e : v3) : Prop :=
  let d := minus3 e s in
  exact_sqrt sqrt (dist2 e s) /\ exact_sqrt sqrt ((vx d * vx d + vz d * vz d) / dist2 e s) /\
  exact_sqrt sqrt ((vy d * vy d + vz d * vz d) / dist2 e s).
