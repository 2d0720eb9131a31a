(* Specification vocabulary for implicit points and inversion, independent of the code. *)
From Coq Require Import List ZArith Bool QArith Qcanon.
From Verif Require Import Common QcLib DerModel PlnSpec VecModel.
Local Open Scope Qc_scope.

(* a du + b dv *)
Definition comb3 (a : Qc) (du : v3) (b : Qc) (dv : v3) : v3 :=
  mkv (a * vx du + b * vx dv) (a * vy du + b * vy dv) (a * vz du + b * vz dv).
(* the minors of the 3 x 2 matrix with columns du, dv: rows xy, xz, yz *)
Definition mxy (du dv : v3) : Qc := vx du * vy dv - vx dv * vy du.
Definition mxz (du dv : v3) : Qc := vx du * vz dv - vx dv * vz du.
Definition myz (du dv : v3) : Qc := vy du * vz dv - vy dv * vz du.

(* f is an affine function of the point and g its gradient *)
Definition affine3 (f : v3 -> Qc) (g : v3 -> v3) (n : v3) (c : Qc) : Prop :=
  (forall p, f p = dot3 n p + c) /\ (forall p, g p = n).
Definition dot2 (a b : v2) : Qc := p0 a * p0 b + p1 a * p1 b.
Definition affine2 (f : v2 -> Qc) (g : v2 -> v2) (n : v2) (c : Qc) : Prop :=
  (forall p, f p = dot2 n p + c) /\ (forall p, g p = n).
Definition sqdist2 (a b : v2) : Qc := (p0 a - p0 b) * (p0 a - p0 b) + (p1 a - p1 b) * (p1 a - p1 b).

(* the linear approximation of f at q vanishes at p *)
Definition tangent_zero (f : v3 -> Qc) (g : v3 -> v3) (q p : v3) : Prop := f q + dot3 (g q) (minus3 p q) = 0.

(* the absolute value *)
Definition aval (x : Qc) : Qc := if qlt x 0 then - x else x.
(* the function sqrt is the square root *)
Definition sqrt_fun (sqrt : Qc -> Qc) (P : Qc -> Prop) : Prop := forall x, P x -> is_sqrt (sqrt x) x.

(* the part of v orthogonal to u *)
Definition perp_part (u v : v3) : v3 := minus3 v (along zero3 (dot3 u v / dot3 u u) u).
(* a straight line and a plane with their parameters *)
Definition line_at (o d : v3) (u : Qc) : v3 := along o u d.
Definition plane_at (o a b : v3) (uv : v2) : v3 := along (along o (p0 uv) a) (p1 uv) b.
