(* Model of mmcore/geom/primitives.pyx: spheres, cylinders and tubes given by a
   signed distance, a gradient and a bounding box.  Doubles are exact rationals
   and a literal such as 1e-3 is the rational it denotes.  The C function sqrt is
   the argument [sqrt] of the functions that call it.  The C code is compiled
   with cdivision, so that a division by zero gives an infinity or a NaN: here
   it is the value [Err ZeroDivision], and a bounding box made of NaN is [None]. *)
From Coq Require Import List ZArith Bool QArith Qcanon.
From Verif Require Import Common QcLib ArrZ SumLib NurbsModel DerModel PlnModel.
Import ListNotations.
Local Open Scope Z_scope.
Local Open Scope Qc_scope.

(* libc fmin, fmax: primitives.pyx:3 *)
Definition fmin (a b : Qc) : Qc := if qlt b a then b else a.
(* libc fmin, fmax: primitives.pyx:3 *)
Definition fmax (a b : Qc) : Qc := if qlt a b then b else a.
(* x ** 2, primitives.pyx:38 *)
Definition sq2 (x : Qc) : Qc := x * x.
(* double[:,:] _bounds, two rows: primitives.pxd:2 *)
Definition box := (v3 * v3)%type.
(* 1e-3, primitives.pyx:134 *)
Definition h3 : Qc := Q2Qc (1 # 1000).
(* the literal 2, primitives.pyx:134 *)
Definition two : Qc := Q2Qc (2 # 1).

Section WithSqrt.
Variable sqrt : Qc -> Qc.

(* primitives.pyx:37-39 norm3d *)
Definition norm3d (v : v3) : Qc := sqrt (sq2 (vx v) + sq2 (vy v) + sq2 (vz v)).

(* primitives.pyx:203-206 and 294-297 division of the three entries by n *)
Definition div3 (v : v3) (n : Qc) : res v3 :=
  do x <- divR (vx v) n ;
  do y <- divR (vy v) n ;
  do z <- divR (vz v) n ;
  Ok (mkv x y z).

(* ---- the base class ---- *)

(* primitives.pyx:127-129 Implicit3D.cimplicit *)
Definition base_implicit (p : v3) : res Qc := Ok 0.

(* primitives.pyx:134 one entry: (f(p + e) - f(p - e)) / 2 / 1e-3 *)
Definition central (f : v3 -> res Qc) (p e : v3) : res Qc :=
  do a <- f (vadd p e) ;
  do b <- f (vsub p e) ;
  Ok ((a - b) / two / h3).

(* primitives.pyx:132-141 Implicit3D.cgradient for the cimplicit f of the class *)
Definition base_gradient (f : v3 -> res Qc) (p : v3) : res v3 :=
  do x <- central f p (mkv h3 0 0) ;
  do y <- central f p (mkv 0 h3 0) ;
  do z <- central f p (mkv 0 0 h3) ;
  let g := mkv x y z in
  let n := norm3d g in
  if qlt 0 n then div3 g n else Ok g.

(* ---- spheres ---- *)

(* primitives.pxd:5-9 *)
Record sphere : Type := mksph { s_o : v3; s_r : Qc; s_b : box }.

(* primitives.pyx:182-188 Sphere._calculate_bounds *)
Definition sphere_bounds (o : v3) (r : Qc) : box :=
  (mkv (vx o - r) (vy o - r) (vz o - r), mkv (vx o + r) (vy o + r) (vz o + r)).
(* primitives.pyx:169-175 Sphere.__init__ *)
Definition sphere_init (o : v3) (r : Qc) : sphere := mksph o r (sphere_bounds o r).
(* primitives.pyx:223-225 the setter of radius *)
Definition sphere_set_radius (s : sphere) (r : Qc) : sphere := mksph (s_o s) r (sphere_bounds (s_o s) r).
(* primitives.pyx:237-242 the setter of origin *)
Definition sphere_set_origin (s : sphere) (o : v3) : sphere := mksph o (s_r s) (sphere_bounds o (s_r s)).
(* primitives.pyx:192-194 Sphere.cimplicit, 156-161 implicit *)
Definition sphere_implicit (s : sphere) (p : v3) : Qc :=
  sqrt (sq2 (vx p - vx (s_o s)) + sq2 (vy p - vy (s_o s)) + sq2 (vz p - vz (s_o s))) - s_r s.
(* primitives.pyx:197-205 Sphere.cgradient, 147-153 gradient *)
Definition sphere_gradient (s : sphere) (p : v3) : res v3 :=
  let g := mkv (vx p - vx (s_o s)) (vy p - vy (s_o s)) (vz p - vz (s_o s)) in
  div3 g (norm3d g).

(* ---- implicit cylinders and tubes ---- *)

(* primitives.pyx:246-261 cylinder_aabb; a is the direction *)
Definition cylinder_aabb (pa pb a : v3) (r : Qc) : option box :=
  let axsq := vx a * vx a in
  let aysq := vy a * vy a in
  let azsq := vz a * vz a in
  let n := axsq + aysq + azsq in
  if qeq n 0 then None else
  let ex := r * sqrt (1 - axsq / n) in
  let ey := r * sqrt (1 - aysq / n) in
  let ez := r * sqrt (1 - azsq / n) in
  Some (mkv (fmin (vx pa - ex) (vx pb - ex)) (fmin (vy pa - ey) (vy pb - ey)) (fmin (vz pa - ez) (vz pb - ez)),
        mkv (fmax (vx pa + ex) (vx pb + ex)) (fmax (vy pa + ey) (vy pb + ey)) (fmax (vz pa + ez) (vz pb + ez))).

(* primitives.pxd:11-21 and 35; c_t is the thickness of a Tube, None for a plain
   ImplicitCylinder *)
Record icyl : Type := mkcyl { c_o : v3; c_e : v3; c_d : v3; c_r : Qc; c_t : option Qc; c_b : option box }.

(* primitives.pyx:301-304 _calculate_direction *)
Definition calc_direction (c : icyl) : icyl :=
  mkcyl (c_o c) (c_e c) (vsub (c_e c) (c_o c)) (c_r c) (c_t c) (c_b c).
(* primitives.pyx:307-308 ImplicitCylinder._calculate_bounds, 545-546 Tube._calculate_bounds *)
Definition calc_bounds (c : icyl) : icyl :=
  let r := match c_t c with None => c_r c | Some t => c_r c + t / two end in
  mkcyl (c_o c) (c_e c) (c_d c) (c_r c) (c_t c) (cylinder_aabb (c_o c) (c_e c) (c_d c) r).
(* primitives.pyx:266-276 ImplicitCylinder.__init__ (t = None), 465-467 Tube.__init__ *)
Definition icyl_init (s e : v3) (r : Qc) (t : option Qc) : icyl :=
  calc_bounds (calc_direction (mkcyl s e (mkv 0 0 0) r t None)).
(* primitives.pyx:322-328 the setter of start *)
Definition set_start (c : icyl) (s : v3) : icyl :=
  calc_bounds (calc_direction (mkcyl s (c_e c) (c_d c) (c_r c) (c_t c) (c_b c))).
(* primitives.pyx:346-352 the setter of end *)
Definition set_end (c : icyl) (e : v3) : icyl :=
  calc_bounds (calc_direction (mkcyl (c_o c) e (c_d c) (c_r c) (c_t c) (c_b c))).
(* primitives.pyx:334-336 the setter of radius *)
Definition set_radius (c : icyl) (r : Qc) : icyl :=
  calc_bounds (mkcyl (c_o c) (c_e c) (c_d c) r (c_t c) (c_b c)).

(* primitives.pyx:367-376 _normal_not_unit *)
Definition normal_not_unit (c : icyl) (p : v3) : res v3 :=
  let o := c_o c in let d := c_d c in
  let ax := vx p - vx o in let ay := vy p - vy o in let az := vz p - vz o in
  let bn := sq2 (vx d) + sq2 (vy d) + sq2 (vz d) in
  do xx <- divR (ax * vx d * vx d) bn ; do xy <- divR (ay * vx d * vy d) bn ; do xz <- divR (az * vx d * vz d) bn ;
  do yx <- divR (ax * vx d * vy d) bn ; do yy <- divR (ay * vy d * vy d) bn ; do yz <- divR (az * vy d * vz d) bn ;
  do zx <- divR (ax * vx d * vz d) bn ; do zy <- divR (ay * vy d * vz d) bn ; do zz <- divR (az * vz d * vz d) bn ;
  Ok (mkv (vx p - (xx + xy + xz + vx o)) (vy p - (yx + yy + yz + vy o)) (vz p - (zx + zy + zz + vz o))).

(* primitives.pyx:280-287 ImplicitCylinder.cimplicit; the expression under the
   root is written out there with the same nine quotients *)
Definition cyl_implicit (c : icyl) (p : v3) : res Qc :=
  do w <- normal_not_unit c p ;
  Ok (sqrt (sq2 (vx w) + sq2 (vy w) + sq2 (vz w)) - c_r c).
(* primitives.pyx:291-297 ImplicitCylinder.cgradient *)
Definition cyl_gradient (c : icyl) (p : v3) : res v3 :=
  do w <- normal_not_unit c p ;
  div3 w (norm3d w).

(* primitives.pyx:472-485 Tube.cimplicit *)
Definition tube_implicit (c : icyl) (t : Qc) (p : v3) : res Qc :=
  let dx := vx (c_d c) in let dy := vy (c_d c) in let dz := vz (c_d c) in
  let ox := vx (c_o c) in let oy := vy (c_o c) in let oz := vz (c_o c) in
  let x := vx p in let y := vy p in let z := vz p in
  let x0 := sq2 dx in
  let x1 := sq2 dy in
  let x2 := sq2 dz in
  do x3 <- divR 1 (x0 + x1 + x2) ;
  let x4 := x3 * (oy - y) in
  let x5 := dx * dy in
  let x6 := x3 * (oz - z) in
  let x7 := dz * x6 in
  let x8 := x3 * (ox - x) in
  Ok (- (1) / two * t + fabs (c_r c - sqrt (
        sq2 (dx * x7 - ox + x + x0 * x8 + x4 * x5) + sq2 (dy * x7 - oy + x1 * x4 + x5 * x8 + y) +
        sq2 (dx * dz * x8 + dy * dz * x4 - oz + x2 * x6 + z)))).

(* primitives.pyx:535 the literal 500.0 *)
Definition five00 : Qc := Q2Qc (500 # 1).

(* primitives.pyx:488-543 Tube.cgradient *)
Definition tube_gradient (c : icyl) (p : v3) : res v3 :=
  let dx := vx (c_d c) in let dy := vy (c_d c) in let dz := vz (c_d c) in
  let ox := vx (c_o c) in let oy := vy (c_o c) in let oz := vz (c_o c) in
  let x := vx p in let y := vy p in let z := vz p in
  let r := c_r c in
  let x0 := sq2 dx in
  let x1 := sq2 dy in
  let x2 := sq2 dz in
  do x3 <- divR 1 (x0 + x1 + x2) ;
  let x4 := dy * x3 in
  let x5 := - ox + x in
  let x6 := x5 + h3 in
  let x7 := - x6 in
  let x8 := dx * x7 in
  let x9 := oz - z in
  let x10 := dz * x4 in
  let x11 := x10 * x9 in
  let x12 := oy - y in
  let x13 := x1 * x3 in
  let x14 := - oy + y in
  let x15 := x12 * x13 + x14 in
  let x16 := x11 + x15 in
  let x17 := dz * x3 in
  let x18 := x10 * x12 in
  let x19 := x2 * x3 in
  let x20 := - oz + z in
  let x21 := x19 * x9 + x20 in
  let x22 := x18 + x21 in
  let x23 := x0 * x3 in
  let x24 := dx * x17 in
  let x25 := x24 * x9 in
  let x26 := dx * x4 in
  let x27 := x12 * x26 in
  let x28 := x25 + x27 in
  let x29 := ox - x in
  let x30 := x29 + h3 in
  let x31 := x14 + h3 in
  let x32 := - x31 in
  let x33 := x23 * x29 + x5 in
  let x34 := x25 + x33 in
  let x35 := x24 * x29 in
  let x36 := x21 + x35 in
  let x37 := x26 * x29 in
  let x38 := x11 + x37 in
  let x39 := x12 + h3 in
  let x40 := x20 + h3 in
  let x41 := - x40 in
  let x42 := x27 + x33 in
  let x43 := x15 + x37 in
  let x44 := x18 + x35 in
  let x45 := x9 + h3 in
  Ok (mkv
    (- five00 * fabs (r - sqrt (sq2 (x16 + x26 * x30) + sq2 (x22 + x24 * x30) + sq2 (x23 * x30 + x28 + x5 - h3))) +
       five00 * fabs (r - sqrt (sq2 (x16 + x4 * x8) + sq2 (x17 * x8 + x22) + sq2 (x23 * x7 + x28 + x6))))
    (five00 * fabs (r - sqrt (sq2 (x10 * x32 + x36) + sq2 (x26 * x32 + x34) + sq2 (x13 * x32 + x31 + x38))) -
       five00 * fabs (r - sqrt (sq2 (x10 * x39 + x36) + sq2 (x26 * x39 + x34) + sq2 (x13 * x39 + x14 + x38 - h3))))
    (five00 * fabs (r - sqrt (sq2 (x10 * x41 + x43) + sq2 (x24 * x41 + x42) + sq2 (x19 * x41 + x40 + x44))) -
       five00 * fabs (r - sqrt (sq2 (x10 * x45 + x43) + sq2 (x24 * x45 + x42) + sq2 (x19 * x45 + x20 + x44 - h3))))).

(* primitives.pyx:147-161 implicit and gradient, by the class of the object *)
Definition icyl_implicit (c : icyl) (p : v3) : res Qc :=
  match c_t c with None => cyl_implicit c p | Some t => tube_implicit c t p end.
(* primitives.pyx:147-161 implicit and gradient, by the class of the object *)
Definition icyl_gradient (c : icyl) (p : v3) : res v3 :=
  match c_t c with None => cyl_gradient c p | Some t => tube_gradient c p end.

(* ---- the parametric cylinder ---- *)

(* primitives.pyx:380-391; the fields start, end and radius are public *)
Record cylinder : Type := mkpc { p_prim : icyl; p_start : v3; p_end : v3; p_radius : Qc;
  p_dhat : v3; p_dnorm : Qc; p_uhat : v3; p_v : v3 }.

(* np.allclose(a, b): |x - y| <= 1e-8 + 1e-5 |y| in every entry, primitives.pyx:406 *)
Definition close (x y : Qc) : bool := qle (fabs (x - y)) (Q2Qc (1 # 10 ^ 8) + Q2Qc (1 # 10 ^ 5) * fabs y).
(* np.allclose(a, b), primitives.pyx:406 *)
Definition allclose3 (a b : v3) : bool := close (vx a) (vx b) && close (vy a) (vy b) && close (vz a) (vz b).

(* primitives.pyx:393-418 Cylinder.__init__ *)
Definition cylinder_init (s e : v3) (r : Qc) : res cylinder :=
  let prim := icyl_init s e r None in
  let direction := vsub e s in
  let dnorm := norm3d direction in
  do dhat <- div3 direction dnorm ;
  let w := if allclose3 dhat (mkv 1 0 0) then mkv 0 1 0 else mkv 1 0 0 in
  let u := vcross dhat w in
  do uhat <- div3 u (norm3d u) ;
  Ok (mkpc prim s e r dhat dnorm uhat (vcross dhat uhat)).

(* primitives.pyx:438-445 Cylinder.cevaluate; cu and su are cos(u) and sin(u) *)
Definition cylinder_evaluate (c : cylinder) (cu su v : Qc) : v3 :=
  let s := p_start c in let d := p_dhat c in let u := p_uhat c in let w := p_v c in
  mkv (vx s + v * vx d + p_radius c * (cu * vx u + su * vx w))
      (vy s + v * vy d + p_radius c * (cu * vy u + su * vy w))
      (vz s + v * vz d + p_radius c * (cu * vz u + su * vz w)).
(* primitives.pyx:430-432 Cylinder.implicit *)
Definition cylinder_implicit (c : cylinder) (p : v3) : res Qc := icyl_implicit (p_prim c) p.
(* primitives.pyx:425-427 Cylinder.gradient *)
Definition cylinder_gradient (c : cylinder) (p : v3) : res v3 := icyl_gradient (p_prim c) p.
(* primitives.pyx:434-435 Cylinder.bounds *)
Definition cylinder_bounds (c : cylinder) : option box := c_b (p_prim c).
(* primitives.pyx:385 assignment to the public field radius *)
Definition assign_radius (c : cylinder) (r : Qc) : cylinder :=
  mkpc (p_prim c) (p_start c) (p_end c) r (p_dhat c) (p_dnorm c) (p_uhat c) (p_v c).
(* primitives.pyx:382 assignment to the public field start *)
Definition assign_start (c : cylinder) (s : v3) : cylinder :=
  mkpc (p_prim c) s (p_end c) (p_radius c) (p_dhat c) (p_dnorm c) (p_uhat c) (p_v c).

End WithSqrt.
