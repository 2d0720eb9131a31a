(* Marching along implicit curves and the separation of two sets of points: Model of /repo/mmcore/numeric/marching.py and of
   /repo/mmcore/numeric/intersection/separability/spatial.py (lines 26-115, 146-211).

   Numbers are exact rationals, points of the marching functions are lists, points of the separation are triples.  The norm, the cross
   product, curve_point and intersection_curve_point (mmcore/numeric/algorithms/implicit_point.py), linprog and gjk are function
   arguments.  sys.maxsize points are an argument max_points.  The callback and printing are left out. *)
From Coq Require Import List Arith ZArith Bool QArith Qcanon.
From Verif Require Import Common QcLib ListLib RtModel NcsModel.
Import ListNotations.
Local Open Scope Qc_scope.

(* half of a number, marching.py:68, 144 *)
Definition half (x : Qc) : Qc := x / Q2Qc (2 # 1).

Section Implicit.
(* scalar_norm, marching.py:76 *)
Variable norm : list Qc -> Qc.
(* curve_point(func, _, delta, grad=grad), marching.py:55, 58, 72 *)
Variable cpoint : list Qc -> list Qc.
(* _implicit_tangent(grad(_), grad_derivative(_)), marching.py:59-61 *)
Variable tangent : list Qc -> list Qc.
Variable step : Qc.
(* one step, marching.py:69-74 *)
Definition mstep (p : list Qc) : list Qc := cpoint (nadd p (nscale step (tangent p))).
(* marching.py:68-76 the loop; pts is the list of points *)
Fixpoint mi_loop (fuel : nat) (max_points : nat) (end_point p : list Qc) (distance : Qc) (pts : list (list Qc)) : res (list (list Qc)) :=
  if qlt (half step) distance && (length pts <? max_points)%nat then
    match fuel with
    | O => Err OutOfFuel
    | S fuel' => let p' := mstep p in mi_loop fuel' max_points end_point p' (norm (nsub p' end_point)) (pts ++ [p'])
    end
  else Ok (pts ++ [end_point]).
(* marching.py:26-78 marching_implicit_curve_points *)
Definition march_implicit (fuel : nat) (v0 : list Qc) (v1 : option (list Qc)) (max_points : nat) : res (list (list Qc)) :=
  let start := cpoint v0 in
  let end_point := cpoint (match v1 with Some v => v | None => v0 end) in
  let p1 := mstep start in
  mi_loop fuel max_points end_point p1 step [start; p1].
End Implicit.

Section Intersection.
(* scalar_norm and scalar_cross, marching.py:121, 124 *)
Variable norm : list Qc -> Qc.
Variable cross : list Qc -> list Qc -> list Qc.
(* intersection_curve_point: the point and the gradients there, marching.py:103-104 *)
Variable ipoint : list Qc -> list Qc * list Qc * list Qc.
Variable step : Qc.
(* np.any(p < bounds[0]) or np.any(p > bounds[1]), marching.py:118 *)
Variable outside : list Qc -> bool.
(* the new point, marching.py:121-139 *)
Definition next_point (pts : list (list Qc)) (p g1 g2 : list Qc) : list Qc * list Qc * list Qc :=
  let c := cross g1 g2 in
  let t := nscale (/ norm c) c in
  let r := ipoint (nadd p (nscale step t)) in
  if (1 <? length pts)%nat && qlt (norm (nsub (fst (fst r)) (nth (length pts - 2) pts []))) (half step) then ipoint (nsub p (nscale step t)) else r.
(* marching.py:114-149 the loop *)
Fixpoint mx_loop (fuel : nat) (max_points : nat) (end_point p g1 g2 : list Qc) (pts : list (list Qc)) : res (list (list Qc)) :=
  if (length pts <? max_points)%nat then
    match fuel with
    | O => Err OutOfFuel
    | S fuel' =>
        if outside p then Ok pts
        else if qeq (ndot (cross g1 g2) (cross g1 g2)) 0 then Ok pts
        else
          let '(p1, h1, h2) := next_point pts p g1 g2 in
          if qlt (norm (nsub p1 end_point)) (half step) then Ok pts
          else mx_loop fuel' max_points end_point p1 h1 h2 (pts ++ [p1])
    end
  else Ok pts.
(* marching.py:81-151 marching_intersection_curve_points *)
Definition march_intersection (fuel : nat) (start : list Qc) (end_point : option (list Qc)) (max_points : nat) : res (list (list Qc)) :=
  let '(p, g1, g2) := ipoint start in
  mx_loop fuel max_points (match end_point with Some e => e | None => p end) p g1 g2 [p].
End Intersection.

(* division of numbers, marching.py:164 *)
Definition mdiv (a b : Qc) : res Qc := if qeq b 0 then Err ZeroDivision else Ok (a / b).
(* the grid in the order of the loops, marching.py:173-174 *)
Definition grid (xs ys : list Qc) : list (Qc * Qc) := flat_map (fun x => map (fun y => (x, y)) ys) xs.
(* marching.py:155-184 raster_algorithm_2d; f is given a list of coordinates; h is DEFAULT_H; `norm` is np.linalg.norm, `cpoint` curve_point(f, _) *)
Section Raster.
Variable f : list Qc -> res Qc.
Variable norm : Qc * Qc -> Qc.
Variable cpoint : Qc * Qc -> Qc * Qc.
Variable h : Qc.
(* marching.py:158-160 the gradient when none is given; the second call of f has three coordinates *)
Definition default_grad (p : Qc * Qc) : res (Qc * Qc) :=
  let '(x, y) := p in
  do a <- f [x + h; y] ; do b <- f [x; - h; y] ; do c <- f [x; y + h] ; do d <- f [x; y - h] ;
  do gx <- mdiv (a - b) (Q2Qc (2 # 1) * h) ; do gy <- mdiv (c - d) (Q2Qc (2 # 1) * h) ; Ok (gx, gy).
(* marching.py:173-182 the loops; without general_implicit the function grad is multiplied with a number *)
Fixpoint raster_loop (grad : Qc * Qc -> res (Qc * Qc)) (general : bool) (gamma d_max : Qc) (l : list (Qc * Qc)) (acc : list (Qc * Qc)) : res (list (Qc * Qc)) :=
  match l with
  | [] => Ok acc
  | p :: r =>
      do f_val <- f [fst p; snd p] ;
      do g <- grad p ;
      if negb (qeq (norm g) 0) && qlt ((if qlt f_val 0 then - f_val else f_val) / norm g) (gamma * d_max) then
        (if general then raster_loop grad general gamma d_max r (acc ++ [cpoint p]) else Err TypeError)
      else raster_loop grad general gamma d_max r acc
  end.
(* marching.py:155-184 raster_algorithm_2d *)
Definition raster (x0 x1 y0 y1 : Qc) (nx ny : nat) (gamma : Qc) (grad : option (Qc * Qc -> res (Qc * Qc))) (general : bool) : res (list (Qc * Qc)) :=
  do a <- mdiv (x1 - x0) (qn nx) ; do b <- mdiv (y1 - y0) (qn ny) ;
  let d_max := if qlt a b then b else a in
  raster_loop (match grad with Some g => g | None => default_grad end) general gamma d_max (grid (linspace x0 x1 nx) (linspace y0 y1 ny)) [].
End Raster.

(* a point in space, spatial.py:31-34 *)
Definition p3 := (Qc * Qc * Qc)%type.
(* np.dot, spatial.py:57-60 *)
Definition dot3 (a b : p3) : Qc := let '(a1, a2, a3) := a in let '(b1, b2, b3) := b in a1 * b1 + a2 * b2 + a3 * b3.
(* sums and means of points; for np.mean, spatial.py:57 *)
Definition add3 (a b : p3) : p3 := let '(a1, a2, a3) := a in let '(b1, b2, b3) := b in (a1 + b1, a2 + b2, a3 + b3).
Definition scale3 (c : Qc) (a : p3) : p3 := let '(a1, a2, a3) := a in (c * a1, c * a2, c * a3).
Definition mean3 (l : list p3) : p3 := scale3 (/ qn (length l)) (fold_right add3 (0, 0, 0) l).
(* spatial.py:56-60 _plane_separates *)
Definition plane_separates (normal : p3) (points1 points2 : list p3) : bool :=
  let d := - dot3 normal (mean3 points1) in
  forallb (fun p => qle 0 (dot3 p normal + d)) points1 && forallb (fun p => qle (dot3 p normal + d) 0) points2.
(* the variables of the linear program: a, b, c, d and epsilon; spatial.py:67-87 *)
Definition lp_vars := (p3 * Qc * Qc)%type.
(* A_ub x <= b_ub, spatial.py:68-79 *)
Definition lp_constraints (points1 points2 : list p3) (x : lp_vars) : bool :=
  let '(n, d, e) := x in
  forallb (fun p => qle (- dot3 p n + - d + - e) 0) points1 && forallb (fun p => qle (dot3 p n + d + - e) 0) points2.
(* the default bounds of linprog: no variable is negative, spatial.py:83 *)
Definition lp_bounds (x : lp_vars) : bool := let '(n, d, e) := x in qle 0 (fst (fst n)) && qle 0 (snd (fst n)) && qle 0 (snd n) && qle 0 d && qle 0 e.
(* the function to minimise, spatial.py:67 *)
Definition lp_objective (x : lp_vars) : Qc := snd x.
(* spatial.py:62-104 separating_plane_test; `solution` is the result of linprog, None without success *)
Definition separating_plane_test (norm : p3 -> Qc) (solution : option lp_vars) (epsilon : Qc) (points1 points2 : list p3) : bool * option (p3 * Qc * Qc) :=
  match solution with
  | None => (false, None)
  | Some (n, d, e) =>
      if qlt (norm n) epsilon then (false, None)
      else
        let m := scale3 (/ norm n) n in
        if forallb (fun p => qle (- epsilon) (dot3 p m + d)) points1 && forallb (fun p => qle (dot3 p m + d) epsilon) points2
        then (true, Some (m, d, e)) else (false, None)
  end.
(* the least and the greatest of a coordinate; for aabb, spatial.py:196-197; no points at all are an error here *)
Fixpoint least_of (x : Qc) (l : list Qc) : Qc := match l with [] => x | y :: r => least_of (if qlt y x then y else x) r end.
Fixpoint greatest_of (x : Qc) (l : list Qc) : Qc := match l with [] => x | y :: r => greatest_of (if qlt x y then y else x) r end.
Definition range_of (c : p3 -> Qc) (l : list p3) : res (Qc * Qc) :=
  match map c l with [] => Err ValueError | x :: r => Ok (least_of x r, greatest_of x r) end.
(* the coordinates, spatial.py:196-200 *)
Definition cx (p : p3) : Qc := fst (fst p).
Definition cy (p : p3) : Qc := snd (fst p).
Definition cz (p : p3) : Qc := snd p.
(* two intervals meet; for aabb_intersect, spatial.py:200 *)
Definition meet (a b : Qc * Qc) : bool := qle (fst a) (snd b) && qle (fst b) (snd a).
(* aabb_intersect(aabb(points1), aabb(points2)), spatial.py:196-200 *)
Definition boxes_meet (points1 points2 : list p3) : res bool :=
  do x1 <- range_of cx points1 ; do x2 <- range_of cx points2 ; do y1 <- range_of cy points1 ; do y2 <- range_of cy points2 ;
  do z1 <- range_of cz points1 ; do z2 <- range_of cz points2 ; Ok (meet x1 x2 && meet y1 y2 && meet z1 z2).
(* spatial.py:146-208 spatial_separability *)
Definition spatial_separability (gjk : list p3 -> list p3 -> bool) (points1 points2 : list p3) : res bool :=
  do b <- boxes_meet points1 points2 ;
  if negb b then Ok true else if negb (gjk points1 points2) then Ok true else Ok false.
(* why two objects are separable, spatial.py:109-115 *)
Inductive reason := BoundingBox | BoundingPlane | SeparatingPlane | AllTests.
(* spatial.py:106-115 are_separable; `normals` are the normals of the two surfaces, None unless both are surfaces (spatial.py:40-50) *)
Definition are_separable (norm : p3 -> Qc) (solution : option lp_vars) (epsilon : Qc) (normals : option (p3 * p3)) (points1 points2 : list p3) : res (bool * reason) :=
  do b <- boxes_meet points1 points2 ;
  if negb b then Ok (true, BoundingBox)
  else if match normals with Some (n1, n2) => plane_separates n1 points1 points2 || plane_separates n2 points2 points1 | None => false end then Ok (true, BoundingPlane)
  else if fst (separating_plane_test norm solution epsilon points1 points2) then Ok (true, SeparatingPlane) else Ok (false, AllTests).
