(* Vocabulary for the statements about derivatives: derivatives of a function
   on a set, the knot span of a parameter, frames, and the quotient rule. *)
From Coq Require Import List ZArith Bool QArith Qcanon Qcabs.
From Verif Require Import Common QcLib ArrZ SplineTheory NurbsModel NurbsSpec SurfModel SurfSpec DerModel.
Import ListNotations.
Local Open Scope Z_scope.
Local Open Scope Qc_scope.

(* g is the derivative of f at t, with only the points of D looked at: the
   error of the linear approximation is quadratic *)
Definition deriv_on (D : Qc -> Prop) (f : Qc -> Qc) (t g : Qc) : Prop :=
  exists C d, 0 <= C /\ 0 < d /\
    forall h, D (t + h) -> Qcabs h <= d -> Qcabs (f (t + h) - f t - h * g) <= C * (h * h).

(* v is the k-th derivative of f at t *)
Fixpoint nth_deriv_on (D : Qc -> Prop) (k : nat) (f : Qc -> Qc) (t v : Qc) : Prop :=
  match k with
  | O => f t = v
  | S k' => exists g, (forall x, D x -> deriv_on D f x (g x)) /\ nth_deriv_on D k' g t v
  end.

(* the parameters of the domain in the same knot span as t *)
Definition span_at (p n : Z) (U : list Qc) (t x : Qc) : Prop :=
  knot U p <= x <= knot U (n + 1) /\
  forall i, (p <= i <= n)%Z -> in_span U n i x = in_span U n i t.

(* the curve with the same control points and all weights one *)
Definition unit_pt (q : pt) : pt := mkpt (px q) (py q) (pz q) 1.
Definition unit_weights (c : curve) : curve := mkcurve (map unit_pt (c_pts c)) (c_deg c) (c_knots c) (c_per c) (c_int c) (c_grev c).

(* v is the k-th derivative of the curve (the point function of the NURBS
   definition) at t *)
Definition curve_deriv (c : curve) (k : nat) (t : Qc) (v : v3) : Prop :=
  let D := span_at (c_deg c) (last_ix c) (c_knots c) t in
  let f g := rational (c_knots c) (last_ix c) (c_deg c) (c_pts c) g in
  nth_deriv_on D k (f px) t (vx v) /\ nth_deriv_on D k (f py) t (vy v) /\ nth_deriv_on D k (f pz) t (vz v).

Definition dot (a b : v3) : Qc := vx a * vx b + vy a * vy b + vz a * vz b.
Definition unit_vec (a : v3) : Prop := dot a a = 1.
Definition orthogonal (a b : v3) : Prop := dot a b = 0.
Definition det3 (a b c : v3) : Qc :=
  vx a * (vy b * vz c - vz b * vy c) - vy a * (vx b * vz c - vz b * vx c) + vz a * (vx b * vy c - vy b * vx c).

(* sqrt gives the non-negative root of x *)
Definition root_of (sqrt : Qc -> Qc) (x : Qc) : Prop := 0 <= sqrt x /\ sqrt x * sqrt x = x.
(* the square of the part of b perpendicular to a *)
Definition perp2 (a b : v3) : Qc := dot b b - dot a b * dot a b / dot a a.
(* a x + b y *)
Definition comb (a : Qc) (x : v3) (b : Qc) (y : v3) : v3 :=
  mkv (a * vx x + b * vx y) (a * vy x + b * vy y) (a * vz x + b * vz y).

(* w is the derivative of F of order k in the first and l in the second
   variable *)
Definition mixed_deriv (Du Dv : Qc -> Prop) (k l : nat) (F : Qc -> Qc -> Qc) (u v w : Qc) : Prop :=
  exists G, (forall x, Du x -> nth_deriv_on Dv l (F x) v (G x)) /\ nth_deriv_on Du k G u w.

(* w holds the derivatives of the four columns of the surface before the
   division by the weight *)
Definition tensor_deriv (s : surface) (k l : nat) (u v : Qc) (w : pt) : Prop :=
  forall f, In f [px; py; pz; pw] ->
    mixed_deriv (span_at (s_du s) (s_nu s - 1) (s_ku s) u) (span_at (s_dv s) (s_nv s - 1) (s_kv s) v)
      k l (tensor s f) u v (f w).

(* ... and after the division: S holds the derivatives of the three
   coordinates of the surface point *)
Definition point_deriv (s : surface) (k l : nat) (u v : Qc) (w : v3) : Prop :=
  let D f := mixed_deriv (span_at (s_du s) (s_nu s - 1) (s_ku s) u) (span_at (s_dv s) (s_nv s - 1) (s_kv s) v)
      k l (fun x y => tensor s f x y / tensor s pw x y) u v in
  D px (vx w) /\ D py (vy w) /\ D pz (vz w).

(* entry [i, j] of an array *)
Definition cell {A} (d : A) (M : list (list A)) (i j : Z) : A := atZ d (atZ [] M i) j.
Definition entry3 (G : list (list v3)) (i j : Z) : v3 := cell v30 G i j.
(* an a x b array *)
Definition rect {A} (a b : Z) (m : list (list A)) : Prop :=
  lenZ m = a /\ (forall i, (0 <= i < a)%Z -> lenZ (atZ [] m i) = b).
