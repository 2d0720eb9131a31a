(* Model of mmcore/geom/circle.py (Circle2D, circle_intersection2d, tangents_lines,
   closest_point_on_circle_2d) and of mmcore/numeric/arc_length.py.  Doubles are
   exact rationals.  An angle is the pair of its cosine and its sine: arccos c is
   (c, sqrt (1 - c * c)), arctan2 y x is (x / n, y / n) with n the length of (x, y).
   numpy does not raise for a division by zero, a root of a negative number or an
   arccos outside [-1, 1]; [Err ZeroDivision] and [Err TypeError] stand for the
   resulting values that are not numbers. *)
From Coq Require Import List ZArith Bool QArith Qcanon.
From Verif Require Import Common QcLib ArrZ SumLib NurbsModel PlnModel.
Import ListNotations.
Local Open Scope Z_scope.
Local Open Scope Qc_scope.

(* points and vectors of the plane, circle.py:39-41 *)
Definition p2 : Type := (Qc * Qc)%type.
Definition angle : Type := (Qc * Qc)%type.
(* circle.py:38-45 Circle2D: origin and r; the origin may have more than two coordinates *)
Record circle : Type := mkcir { c_x : Qc; c_y : Qc; c_rest : list Qc; c_r : Qc }.
(* circle.py:38-45 __init__ with two coordinates *)
Definition circle2 (x y r : Qc) : circle := mkcir x y [] r.
(* origin[-1], circle.py:138 *)
Definition c_last (c : circle) : Qc := last (c_rest c) (c_y c).

Section Roots.
Variable sqrt : Qc -> Qc.

(* np.linalg.norm, circle.py:51; np.hypot, circle.py:144 *)
Definition norm2 (v : p2) : Qc := sqrt (fst v * fst v + snd v * snd v).
(* circle.py:53-54 _implicit_normal *)
Definition circle_normal (c : circle) (v : p2) : p2 := (fst v - c_x c, snd v - c_y c).
(* circle.py:50-51 implicit *)
Definition circle_implicit (c : circle) (v : p2) : Qc := norm2 (circle_normal c v) - c_r c.
(* circle.py:56-58 _implicit_unit_normal, 60-64 gradient of an array *)
Definition circle_unit (c : circle) (v : p2) : res p2 :=
  let p := circle_normal c v in
  do x <- divR (fst p) (norm2 p) ;
  do y <- divR (snd p) (norm2 p) ;
  Ok (x, y).
(* circle.py:66-73 x, y and evaluate *)
Definition circle_evaluate (c : circle) (t : angle) : p2 := (c_x c + c_r c * fst t, c_y c + c_r c * snd t).
(* np.arccos, circle.py:80, 145 and 160 *)
Definition arccos (x : Qc) : res angle :=
  if qlt x (- (1)) || qlt 1 x then Err TypeError else Ok (x, sqrt (1 - x * x)).
(* circle.py:75-80 point_on_curve *)
Definition point_on_curve (c : circle) (v : p2) : res (p2 * angle) :=
  let N := circle_normal c v in
  let nn := norm2 N in
  do x <- divR (fst N) nn ;
  do y <- divR (snd N) nn ;
  do t <- arccos x ;
  Ok ((fst v - x * (nn - c_r c), snd v - y * (nn - c_r c)), t).

(* circle.py:115-138 circle_intersection2d: two rows of three numbers *)
Definition circle_intersection (c1 c2 : circle) : res ((Qc * Qc * Qc) * (Qc * Qc * Qc)) :=
  let r1 := c_r c1 in let x1 := c_x c1 in let y1 := c_y c1 in
  let r2 := c_r c2 in let x2 := c_x c2 in let y2 := c_y c2 in
  let d := sqrt ((x2 - x1) * (x2 - x1) + (y2 - y1) * (y2 - y1)) in
  if qlt (r1 + r2) d || qlt d (fabs (r2 - r1)) then Err ValueError
  else
    do a <- divR (r1 * r1 - r2 * r2 + d * d) ((1 + 1) * d) ;
    if qlt (r1 * r1 - a * a) 0 then Err TypeError
    else
      let h := sqrt (r1 * r1 - a * a) in
      do ux <- divR (a * (x2 - x1)) d ;
      do uy <- divR (a * (y2 - y1)) d ;
      do wx <- divR (h * (y2 - y1)) d ;
      do wy <- divR (h * (x2 - x1)) d ;
      let xm := x1 + ux in
      let ym := y1 + uy in
      Ok ((xm - wx, ym + wy, c_last c1), (xm + wx, ym - wy, c_last c2)).

(* np.arctan2(y, x), circle.py:146; the angle of the null vector is 0 *)
Definition arctan2 (y x : Qc) : res angle :=
  let n := sqrt (x * x + y * y) in
  if qeq n 0 then Ok (1, 0)
  else do c <- divR x n ; do s <- divR y n ; Ok (c, s).
(* cosine and sine of a sum and of a difference, circle.py:147-148 *)
Definition plus_angle (a b : angle) : angle := (fst a * fst b - snd a * snd b, snd a * fst b + fst a * snd b).
(* d - th, circle.py:148 *)
Definition minus_angle (a b : angle) : angle := (fst a * fst b + snd a * snd b, snd a * fst b - fst a * snd b).
(* circle.py:141-153 tangents_lines; the two rows end in 0.0 *)
Definition tangents_lines (c : circle) (pt : p2) : res (list (list Qc)) :=
  let a := c_r c in
  let dx := fst pt - c_x c in
  let dy := snd pt - c_y c in
  do k <- divR a (norm2 (dx, dy)) ;
  do th <- arccos k ;
  do d <- arctan2 dx dy ;
  let d1 := plus_angle d th in
  let d2 := minus_angle d th in
  Ok [[c_x c + a * fst d1; c_y c + a * snd d1; 0]; [c_x c + a * fst d2; c_y c + a * snd d2; 0]].
(* circle.py:156-160 closest_point_on_circle_2d: an angle; PI05 is half of pi, with cosine 0 and sine 1 *)
Definition closest_point_on_circle (c : circle) (pt : p2) : res angle :=
  do un <- circle_unit c pt ;
  do t <- arccos (fst un) ;
  Ok (minus_angle t (0, 1)).

(* ---- arc_length.py ---- *)

(* arc_length.py:7-8 curvature_based_step *)
Definition curvature_based_step (tolerance radius : Qc) : Qc := (1 + 1) * sqrt ((1 + 1) * radius * tolerance - tolerance * tolerance).
(* arc_length.py:11-18 arc_height *)
Definition arc_height (chord radius : Qc) : Qc := radius - sqrt ((radius - chord / (1 + 1)) * (radius + chord / (1 + 1))).
(* arc_length.py:21-24 step; k is the length of the curvature vector *)
Definition arc_step (k tol : Qc) : res Qc :=
  do r <- divR 1 k ;
  Ok (sqrt (r * r - (r - tol) * (r - tol)) * (1 + 1)).

(* the smallest integer that is not below q, np.arange at arc_length.py:29 *)
Definition ceil (q : Qc) : Z := Qround.Qceiling (this q).
(* number of values of np.arange(a, b, dt) for dt > 0, arc_length.py:29 *)
Definition arange_len (a b dt : Qc) : Z := Z.max 0 (ceil ((b - a) / dt)).
(* entry i of np.arange, arc_length.py:29 *)
Definition arange_at (a dt : Qc) (i : Z) : Qc := a + Q2Qc (inject_Z i) * dt.
(* difference of two points, arc_length.py:36 *)
Definition vector_minus (a b : list Qc) : list Qc := map (fun p => fst p - snd p) (combine a b).
(* division by a number, arc_length.py:36 *)
Definition vector_over (v : list Qc) (k : Qc) : list Qc := map (fun x => x / k) v.
(* scalar_norm, arc_length.py:43 *)
Definition norm_list (v : list Qc) : Qc := sqrt (fold_left (fun s x => s + x * x) v 0).
(* arc_length.py:27-50 parametric_arc_length; f gives the coordinates of a point,
   norm (scalar_norm) the length of a vector; np.arange needs dt <> 0 *)
Definition parametric_arc_length (f : Qc -> list Qc) (t_start t_end dt : Qc) : res Qc :=
  if qeq dt 0 then Err ZeroDivision
  else
    let n := (arange_len t_start (t_end + dt) dt - 1)%Z in
    do s <- forZ 0 n 0 (fun i acc =>
      let derivative := vector_over (vector_minus (f (arange_at t_start dt (i + 1))) (f (arange_at t_start dt i))) dt in
      let integrand := norm_list derivative in
      let integrand := if ((i =? 0) || (i =? n - 1))%Z then integrand * Q2Qc (1 # 2) else integrand in
      Ok (acc + integrand)) ;
    Ok (s * dt).

End Roots.
