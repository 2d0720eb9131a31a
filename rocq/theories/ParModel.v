(* Model of mmcore/geom/parametric.pyx (the base classes ParametricCurve and
   ParametricSurface, ruled and bilinear surfaces), of
   mmcore/geom/evaluator/surface_evaluator.pyx (finite differences of a callback)
   and of the cubic curves of mmcore/geom/curves/_cubic.pyx and cubic.py.  Doubles
   are exact rationals and 1e-3 is the rational it denotes.  A virtual method is a
   function argument: a class that overrides evaluate or derivative passes its own.
   A division by zero is [Err ZeroDivision] (the code is compiled with cdivision). *)
From Coq Require Import List ZArith Bool QArith Qcanon.
From Verif Require Import Common QcLib ArrZ SumLib NurbsModel DerModel PlnModel.
Import ListNotations.
Local Open Scope Z_scope.
Local Open Scope Qc_scope.

(* parametric.pyx:11, surface_evaluator.pyx:36 DEFAULT_H *)
Definition H : Qc := Q2Qc (1 # 1000).
(* the literals 0.5 and 2, parametric.pyx:73 and 326 *)
Definition half : Qc := Q2Qc (1 # 2).
(* the literal 2, parametric.pyx:326 *)
Definition q2 : Qc := Q2Qc (2 # 1).
(* result[i] = v[i] * k, parametric.pyx:73-75 *)
Definition times (v : v3) (k : Qc) : v3 := mkv (vx v * k) (vy v * k) (vz v * k).
(* result[i] = v[i] / k for a non-zero constant k, parametric.pyx:567-569 *)
Definition over (v : v3) (k : Qc) : v3 := mkv (vx v / k) (vy v / k) (vz v / k).

(* ---- curves ---- *)

(* parametric.pyx:56-75 ParametricCurve.cderivative; f is cevaluate.  The two buffers
   np.zeros(result.shape) are taken to be as long as result *)
Definition curve_derivative (f : Qc -> v3) (t : Qc) : v3 :=
  times (vsub (f (t + H)) (f (t - H))) (half * H).
(* parametric.pyx:100-115 ParametricCurve.csecond_derivative; d is cderivative *)
Definition curve_second (d : Qc -> v3) (t : Qc) : v3 :=
  times (vsub (d (t + H)) (d (t - H))) (half * H).

(* parametric.pyx:47-50 evaluate, 26-29 and 40-42 interval, _cubic.pyx:5-19; the
   fields are cevaluate, cderivative, csecond_derivative and the interval *)
Record pcurve : Type := mkpcv { e0 : Qc -> v3; e1 : Qc -> v3; e2 : Qc -> v3; lo : Qc; hi : Qc }.
(* a class that overrides only cevaluate, parametric.pyx:24-29 *)
Definition plain_curve (f : Qc -> v3) : pcurve := mkpcv f (curve_derivative f) (curve_second (curve_derivative f)) 0 1.

Section WithSqrt.
Variable sqrt : Qc -> Qc.

(* parametric.pyx:137-141 ccurvature, 239-242 curvature *)
Definition pc_curvature (c : pcurve) (t : Qc) : res v3 := evaluate_curvature sqrt (e1 c t) (e2 c t) (mkv 0 0 0).
(* parametric.pyx:147-151 ctangent, 230-233 tangent *)
Definition pc_tangent (c : pcurve) (t : Qc) : res v3 := evaluate_tangent sqrt (e1 c t) (e2 c t).
(* parametric.pyx:156-175 cnormal, 221-224 normal *)
Definition pc_normal (c : pcurve) (t : Qc) : res v3 :=
  do T <- vdiv (e1 c t) (scalar_norm sqrt (e1 c t)) ;
  let g := gram_schmidt T (e2 c t) in
  vdiv g (scalar_norm sqrt g).
(* parametric.pyx:196-215 cplane, 248-251 plane_at *)
Definition pc_plane_at (c : pcurve) (t : Qc) : res (list v3) :=
  do T <- vdiv (e1 c t) (scalar_norm sqrt (e1 c t)) ;
  let g := gram_schmidt T (e2 c t) in
  do N <- vdiv g (scalar_norm sqrt g) ;
  Ok [e0 c t; T; N; vcross T N].

End WithSqrt.

(* parametric.pyx:296-310 __call__: a number, or a list or tuple of numbers *)
Inductive arg : Type := Num (t : Qc) | Seq (l : list Qc).
(* parametric.pyx:296-310 __call__ with res None; a list where a double is expected is a TypeError *)
Definition call (c : pcurve) (a : arg) : res (list v3) :=
  match a with
  | Num t => Ok [e0 c t]
  | Seq l => if (1 <? lenZ l)%Z then Ok (map (e0 c) l) else Err TypeError
  end.
(* np.linspace(a, b, n), parametric.pyx:280 *)
Definition linspace (a b : Qc) (n : nat) : list Qc :=
  map (fun i => if (n =? 1)%nat then a else a + Q2Qc (inject_Z (Z.of_nat i)) * ((b - a) / Q2Qc (inject_Z (Z.of_nat (n - 1))))) (seq 0 n).
(* parametric.pyx:271-287 points *)
Definition points (c : pcurve) (n : nat) : list v3 := map (e0 c) (linspace (lo c) (hi c) n).

(* ---- cubic curves ---- *)

(* _cubic.pyx:24-33 cevaluate, one coordinate *)
Definition cub0 (p0 c0 c1 p1 t : Qc) : Qc :=
  let x0 := 1 - t in
  let x1 := x0 ^ 2 in
  let x2 := t ^ 2 in
  let x3 := x0 ^ 3 in
  let x4 := t ^ 3 in
  Q2Qc 3 * c0 * t * x1 + Q2Qc 3 * c1 * x2 * x0 + p0 * x3 + p1 * x4.
(* _cubic.pyx:37-45 cderivative, one coordinate *)
Definition cub1 (p0 c0 c1 p1 t : Qc) : Qc :=
  let t0 := Q2Qc 2 * t - Q2Qc 2 in
  let x0 := Q2Qc 3 * t ^ 2 in
  let x1 := 1 - t in
  let x2 := Q2Qc 3 * x1 ^ 2 in
  Q2Qc 3 * c0 * t * t0 + c0 * x2 + Q2Qc 6 * c1 * t * x1 - c1 * x0 - p0 * x2 + p1 * x0.
(* _cubic.pyx:49-53 csecond_derivative, one coordinate *)
Definition cub2 (p0 c0 c1 p1 t : Qc) : Qc :=
  let x0 := t - 1 in
  Q2Qc 6 * c0 * t + Q2Qc 12 * c0 * x0 - Q2Qc 12 * c1 * t - Q2Qc 6 * c1 * x0 - Q2Qc 6 * p0 * x0 + Q2Qc 6 * p1 * t.
(* the three coordinates, _cubic.pyx:31-33 *)
Definition coords (f : Qc -> Qc -> Qc -> Qc -> Qc -> Qc) (p0 c0 c1 p1 : v3) (t : Qc) : v3 :=
  mkv (f (vx p0) (vx c0) (vx c1) (vx p1) t) (f (vy p0) (vy c0) (vy c1) (vy p1) t) (f (vz p0) (vz c0) (vz c1) (vz p1) t).
(* _cubic.pyx:13-19 CubicSpline *)
Definition cubic (p0 c0 c1 p1 : v3) : pcurve := mkpcv (coords cub0 p0 c0 c1 p1) (coords cub1 p0 c0 c1 p1) (coords cub2 p0 c0 c1 p1) 0 1.

(* cubic.py:64-76 PyCubicSpline.evaluate, one coordinate *)
Definition pycub0 (p0 c0 c1 p1 t : Qc) : Qc :=
  p0 * (1 - t) ^ 3 + Q2Qc 3 * c0 * t * (1 - t) ^ 2 + Q2Qc 3 * c1 * t ^ 2 * (1 - t) + p1 * t ^ 3.
(* cubic.py:59-61 PyCubicSpline.dderivative, one coordinate *)
Definition pycub1 (p0 c0 c1 p1 t : Qc) : Qc :=
  Q2Qc 3 * c0 * t * (Q2Qc 2 * t - Q2Qc 2) + Q2Qc 3 * c0 * (1 - t) ^ 2 - Q2Qc 3 * c1 * t ^ 2 + Q2Qc 6 * c1 * t * (1 - t) -
  Q2Qc 3 * p0 * (1 - t) ^ 2 + Q2Qc 3 * p1 * t ^ 2.
(* cubic.py:62-63 PyCubicSpline.dsecond_derivative, one coordinate *)
Definition pycub2 (p0 c0 c1 p1 t : Qc) : Qc :=
  Q2Qc 6 * (c0 * t + Q2Qc 2 * c0 * (t - 1) - Q2Qc 2 * c1 * t - c1 * (t - 1) - p0 * (t - 1) + p1 * t).

(* ---- surfaces ---- *)

(* parametric.pyx:329-350, 356-377, 383-404, 410-431, 438-459: the difference of g
   at x with step H, central when H <= x <= 1 - H, else one-sided *)
Definition difference (g : Qc -> v3) (x : Qc) : v3 :=
  if (qle x (1 - H)) && (qle H x) then over (vsub (g (x + H)) (g (x - H))) (q2 * H)
  else if qlt x H then over (vsub (g (x + H)) (g x)) H
  else over (vsub (g x) (g (x - H))) H.

(* parametric.pyx:327-350 cderivative_u, 495-499 derivative_u *)
Definition surf_u (f : Qc -> Qc -> v3) (u v : Qc) : v3 := difference (fun x => f x v) u.
(* parametric.pyx:355-377 cderivative_v, 504-508 derivative_v *)
Definition surf_v (f : Qc -> Qc -> v3) (u v : Qc) : v3 := difference (fun y => f u y) v.
(* parametric.pyx:382-404 csecond_derivative_uu; du is cderivative_u *)
Definition surf_uu (du : Qc -> Qc -> v3) (u v : Qc) : v3 := difference (fun x => du x v) u.
(* parametric.pyx:409-431 csecond_derivative_vv; dv is cderivative_v *)
Definition surf_vv (dv : Qc -> Qc -> v3) (u v : Qc) : v3 := difference (fun y => dv u y) v.
(* parametric.pyx:437-459 csecond_derivative_uv; du is cderivative_u *)
Definition surf_uv (du : Qc -> Qc -> v3) (u v : Qc) : v3 := difference (fun y => du u y) v.

(* parametric.pyx:549-580 derivatives, 592-615 cderivatives *)
Definition surf_derivatives (f : Qc -> Qc -> v3) (u v : Qc) : v3 * v3 :=
  (over (vsub (f (u + H) v) (f (u - H) v)) (q2 * H), over (vsub (f u (v + H)) (f u (v - H))) (q2 * H)).
(* parametric.pyx:621-624 cnormal, 630-637 normal *)
Definition surf_normal (f : Qc -> Qc -> v3) (u v : Qc) : v3 :=
  let d := surf_derivatives f u v in vcross (fst d) (snd d).
(* parametric.pyx:643-651 normal_multi *)
Definition surf_normal_multi (f : Qc -> Qc -> v3) (l : list (Qc * Qc)) : list v3 := map (fun uv => surf_normal f (fst uv) (snd uv)) l.

(* parametric.pyx:468-475 cplane_at, 489-493 plane_at; du and dv are cderivative_u and cderivative_v *)
Definition surf_plane_at (sqrt : Qc -> Qc) (f du dv : Qc -> Qc -> v3) (u v : Qc) : res (list v3) :=
  do a <- scalar_unit sqrt (du u v) ;
  do n <- scalar_unit sqrt (vcross a (dv u v)) ;
  Ok [f u v; a; vcross n a; n].

(* ---- ruled surfaces ---- *)

(* parametric.pyx:672-673 *)
Definition remap (c : pcurve) (u : Qc) : Qc := u * (hi c - lo c) + lo c.
(* parametric.pyx:671-683 Ruled.cevaluate *)
Definition ruled0 (a b : pcurve) (u v : Qc) : v3 := vadd (vscale (1 - v) (e0 a (remap a u))) (vscale v (e0 b (remap b u))).
(* parametric.pyx:688-697 Ruled.cderivative_v *)
Definition ruled_v (a b : pcurve) (u v : Qc) : v3 := vsub (e0 b (remap b u)) (e0 a (remap a u)).
(* parametric.pyx:703-719 Ruled.cderivative_u *)
Definition ruled_u (a b : pcurve) (u v : Qc) : v3 := vadd (vscale (1 - v) (e1 a (remap a u))) (vscale v (e1 b (remap b u))).
(* parametric.pyx:724-740 Ruled.csecond_derivative_uu *)
Definition ruled_uu (a b : pcurve) (u v : Qc) : v3 := vadd (vscale (1 - v) (e2 a (remap a u))) (vscale v (e2 b (remap b u))).
(* parametric.pyx:746-752 Ruled.csecond_derivative_vv *)
Definition ruled_vv (a b : pcurve) (u v : Qc) : v3 := mkv 0 0 0.
(* parametric.pyx:437-459 inherited by Ruled *)
Definition ruled_uv (a b : pcurve) (u v : Qc) : v3 := surf_uv (ruled_u a b) u v.

(* ---- bilinear surfaces ---- *)

(* parametric.pyx:792-801 BiLinear *)
Record bilinear : Type := mkbl { b00 : v3; b10 : v3; b11 : v3; b01 : v3 }.
(* parametric.pyx:797-799 BiLinear.__init__ *)
Definition bilinear_init (a b c d : v3) : bilinear := mkbl a b c d.
(* parametric.pyx:805-811 cevaluate, one coordinate *)
Definition bl0 (b00 b10 b11 b01 u v : Qc) : Qc := v * (u * b11 + b01 * (1 - u)) + (1 - v) * (u * b10 + b00 * (1 - u)).
(* parametric.pyx:816-821 cderivative_u, one coordinate *)
Definition bl_u (b00 b10 b11 b01 u v : Qc) : Qc := v * (- b01 + b11) + (1 - v) * (- b00 + b10).
(* parametric.pyx:826-829 cderivative_v, one coordinate *)
Definition bl_v (b00 b10 b11 b01 u v : Qc) : Qc := - u * b10 + u * b11 - b00 * (1 - u) + b01 * (1 - u).
(* parametric.pyx:834-838 csecond_derivative_uv, one coordinate *)
Definition bl_uv (b00 b10 b11 b01 u v : Qc) : Qc := b00 - b01 - b10 + b11.
(* the three coordinates, parametric.pyx:806-811 *)
Definition bcoords (f : Qc -> Qc -> Qc -> Qc -> Qc -> Qc -> Qc) (s : bilinear) (u v : Qc) : v3 :=
  mkv (f (vx (b00 s)) (vx (b10 s)) (vx (b11 s)) (vx (b01 s)) u v) (f (vy (b00 s)) (vy (b10 s)) (vy (b11 s)) (vy (b01 s)) u v)
      (f (vz (b00 s)) (vz (b10 s)) (vz (b11 s)) (vz (b01 s)) u v).

(* ---- surface_evaluator.pyx ---- *)

(* surface_evaluator.pyx:41-55 c_derivative_u; f is the callback *)
Definition ev_u (f : Qc -> Qc -> v3) (u v : Qc) : v3 := over (vsub (f (u + H) v) (f (u - H) v)) (q2 * H).
(* surface_evaluator.pyx:60-73 c_derivative_v *)
Definition ev_v (f : Qc -> Qc -> v3) (u v : Qc) : v3 := over (vsub (f u (v + H)) (f u (v - H))) (q2 * H).
(* surface_evaluator.pyx:103-122 c_derivative_uu *)
Definition ev_uu (f : Qc -> Qc -> v3) (u v : Qc) : v3 :=
  over (vadd (vsub (f (u + H) v) (vscale q2 (f u v))) (f (u - H) v)) (H ^ 2).
(* surface_evaluator.pyx:78-99 c_derivative_vv *)
Definition ev_vv (f : Qc -> Qc -> v3) (u v : Qc) : v3 :=
  over (vadd (vsub (f u (v + H)) (vscale q2 (f u v))) (f u (v - H))) (H ^ 2).
(* surface_evaluator.pyx:128-157 c_derivative_uv *)
Definition ev_uv (f : Qc -> Qc -> v3) (u v : Qc) : v3 :=
  over (vadd (vsub (vsub (f (u + H) (v + H)) (f (u + H) (v - H))) (f (u - H) (v + H))) (f (u - H) (v - H))) (Q2Qc 4 * H ^ 2).
(* surface_evaluator.pyx:210-260 c_second_derivatives, 317-328 second_derivatives *)
Definition ev_second (f : Qc -> Qc -> v3) (u v : Qc) : list v3 :=
  [f u v; ev_u f u v; ev_v f u v; ev_uu f u v; ev_vv f u v; ev_uv f u v].
(* surface_evaluator.pyx:162-188 c_derivatives, 194-205 c_normal, 333-345 derivatives_normal *)
Definition ev_normal (sqrt : Qc -> Qc) (f : Qc -> Qc -> v3) (u v : Qc) : res (list v3) :=
  let a := ev_u f u v in let b := ev_v f u v in
  let c := vcross a b in
  do n <- vdiv c (sqrt (vdot c c)) ;
  Ok [a; b; n].
