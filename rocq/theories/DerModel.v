(* Model of the derivative code of mmcore/geom/nurbs.pyx (curves and surfaces)
   and nurbs.pxd (rational surfaces), with the vector helpers it calls.
   Same conventions as NurbsModel.v.  The loops over the columns of a point
   are vector operations here.  The C function sqrt is an argument of the
   functions that use it. *)
From Coq Require Import List ZArith Bool QArith Qcanon.
From Verif Require Import Common QcLib ArrZ SumLib NurbsModel SurfModel BinomModel.
Import ListNotations.
Local Open Scope Z_scope.
Local Open Scope Qc_scope.

(* ---- arrays of doubles and of points ---- *)

(* double[:, :], nurbs.pyx:198 *)
Definition mat : Type := list (list Qc).
(* m[i, j], nurbs.pyx:211 *)
Definition rdM {A} (m : list (list A)) (i j : Z) : res A := do r <- rdZ m i ; rdZ r j.
(* m[i, j] = x, nurbs.pyx:210 *)
Definition wrM {A} (m : list (list A)) (i j : Z) (x : A) : res (list (list A)) :=
  do r <- rdZ m i ; do r' <- wrZ r j x ; wrZ m i r'.
(* np.zeros((a, b)), nurbs.pyx:198 *)
Definition zerosM {A} (x : A) (a b : Z) : list (list A) := repeat (repeat x (Z.to_nat b)) (Z.to_nat a).

(* a row of three numbers, nurbs.pyx:1648 *)
Record v3 : Type := mkv { vx : Qc; vy : Qc; vz : Qc }.
(* for curve_derivs_alg1, nurbs.pyx:374-375 *)
Definition vadd (a b : v3) : v3 := mkv (vx a + vx b) (vy a + vy b) (vz a + vz b).
(* for deriv_cpt, nurbs.pyx:415 *)
Definition vsub (a b : v3) : v3 := mkv (vx a - vx b) (vy a - vy b) (vz a - vz b).
(* for curve_derivs_alg1, nurbs.pyx:374-375 *)
Definition vscale (k : Qc) (a : v3) : v3 := mkv (k * vx a) (k * vy a) (k * vz a).
(* np.zeros rows, nurbs.pyx:1654 *)
Definition v30 : v3 := mkv 0 0 0.
(* a / k row by row; a zero divisor is reported, nurbs.pyx:415 *)
Definition vdiv (a : v3) (k : Qc) : res v3 :=
  do x <- divR (vx a) k ; do y <- divR (vy a) k ; do z <- divR (vz a) k ; Ok (mkv x y z).
(* _control_points[:, :-1], nurbs.pyx:1586 *)
Definition row3 (q : pt) : v3 := mkv (px q) (py q) (pz q).

(* ---- basis functions ---- *)

(* nurbs.pyx:209-213 (and 295-298) the loop over r *)
Definition tri_inner (lft rgt : list Qc) (j r : Z) (st : mat * Qc) : res (mat * Qc) :=
  let '(N, saved) := st in
  do rr <- rdZ rgt (r + 1) ;
  do lj <- rdZ lft (j - r) ;
  do N1 <- wrM N j r (rr + lj) ;
  do a <- rdM N1 r (j - 1) ;
  do b <- rdM N1 j r ;
  do temp <- divR a b ;
  do N2 <- wrM N1 r j (saved + rr * temp) ;
  Ok (N2, lj * temp).

(* nurbs.pyx:205-214 (and 290-299) the loop over j *)
Definition tri_outer (span : Z) (u : Qc) (U : list Qc) (j : Z) (st : mat * list Qc * list Qc)
  : res (mat * list Qc * list Qc) :=
  let '(N, lft, rgt) := st in
  do a <- rdZ U (span + 1 - j) ;
  do lft' <- wrZ lft j (u - a) ;
  do b <- rdZ U (span + j) ;
  do rgt' <- wrZ rgt j (b - u) ;
  do (N', saved) <- forZ 0 j (N, 0) (tri_inner lft' rgt' j) ;
  do N'' <- wrM N' j j saved ;
  Ok (N'', lft', rgt').

(* nurbs.pyx:183-216 all_basis_funs; ders_basis_funs starts with the same
   statements (279-299) *)
Definition all_basis_funs (span : Z) (u : Qc) (p : Z) (U : list Qc) : res mat :=
  let pp := (p + 1)%Z in
  do N <- wrM (zerosM (0 : Qc) pp pp) 0 0 1 ;
  let scratch := repeat (0 : Qc) (Z.to_nat pp) in
  do (N', _, _) <- forZ 1 pp (N, scratch, scratch) (tri_outer span u U) ;
  Ok N'.

(* nurbs.pyx:325-327 *)
Definition ders_mid (ndu : mat) (s1 s2 rk pk j : Z) (st : mat * Qc) : res (mat * Qc) :=
  let '(a, d) := st in
  do x <- rdM a s1 j ;
  do y <- rdM a s1 (j - 1) ;
  do z <- rdM ndu (pk + 1) (rk + j) ;
  do q <- divR (x - y) z ;
  do a' <- wrM a s2 j q ;
  do w <- rdM ndu (rk + j) pk ;
  Ok (a', d + q * w).

(* nurbs.pyx:310-334 the loop over k *)
Definition ders_k (ndu : mat) (p r k : Z) (st : mat * mat * Z * Z) : res (mat * mat * Z * Z) :=
  let '(a, ders, s1, s2) := st in
  let rk := (r - k)%Z in
  let pk := (p - k)%Z in
  do (a1, d1) <- (if (k <=? r)%Z then
       do x <- rdM a s1 0 ;
       do z <- rdM ndu (pk + 1) rk ;
       do q <- divR x z ;
       do a' <- wrM a s2 0 q ;
       do w <- rdM ndu rk pk ;
       Ok (a', q * w)
     else Ok (a, 0)) ;
  let j1 := if (-1 <=? rk)%Z then 1%Z else (- rk)%Z in
  let j2 := if (r - 1 <=? pk)%Z then (k - 1)%Z else (p - r)%Z in
  do (a2, d2) <- forZ j1 (j2 + 1) (a1, d1) (ders_mid ndu s1 s2 rk pk) ;
  do (a3, d3) <- (if (r <=? pk)%Z then
       do x <- rdM a2 s1 (k - 1) ;
       do z <- rdM ndu (pk + 1) r ;
       do q <- divR (- x) z ;
       do a' <- wrM a2 s2 k q ;
       do w <- rdM ndu r pk ;
       Ok (a', d2 + q * w)
     else Ok (a2, d2)) ;
  do ders' <- wrM ders k r d3 ;
  Ok (a3, ders', s2, s1).

(* nurbs.pyx:306-334 the loop over r *)
Definition ders_r (ndu : mat) (p n r : Z) (st : mat * mat) : res (mat * mat) :=
  let '(a, ders) := st in
  do a0 <- wrM a 0 0 1 ;
  do (a', ders', _, _) <- forZ 1 (n + 1) (a0, ders, 0%Z, 1%Z) (ders_k ndu p r) ;
  Ok (a', ders').

(* nurbs.pyx:336-340 the factors p, p (p - 1), ... *)
Definition ders_scale (p k : Z) (st : mat * Z) : res (mat * Z) :=
  let '(ders, r) := st in
  do ders' <- forZ 0 (p + 1) ders (fun j m => do x <- rdM m k j ; wrM m k j (x * zq r)) ;
  Ok (ders', (r * (p - k))%Z).

(* nurbs.pyx:222-341 ders_basis_funs; ders0 is the buffer given by the caller
   or the zeros allocated when there is none (288-289) *)
Definition ders_basis_funs (i : Z) (u : Qc) (p n : Z) (U : list Qc) (ders0 : mat) : res mat :=
  do ndu <- all_basis_funs i u p U ;
  do d1 <- forZ 0 (p + 1) ders0 (fun j m => do x <- rdM ndu j p ; wrM m 0 j x) ;
  do (_, d2) <- forZ 0 (p + 1) (zerosM (0 : Qc) 2 (p + 1), d1) (ders_r ndu p n) ;
  do (d3, _) <- forZ 1 (n + 1) (d2, p) (ders_scale p) ;
  Ok d3.

(* ---- curves ---- *)

(* nurbs.pyx:347-377 curve_derivs_alg1, P is the view without the weights *)
Definition curve_derivs_alg1 (n p : Z) (U : list Qc) (P : list v3) (u : Qc) (d : Z) (CK : list v3) (per : bool)
  : res (list v3) :=
  let du := Z.min d p in
  do span <- find_span n p u U per ;
  do nders <- ders_basis_funs span u p du U (zerosM (0 : Qc) (du + 1) (p + 1)) ;
  forZ 0 (du + 1) CK (fun k CK =>
    forZ 0 (p + 1) CK (fun j CK =>
      do c <- rdZ CK k ;
      do nk <- rdM nders k j ;
      do q <- rdZ P (span - p + j) ;
      wrZ CK k (vadd c (vscale nk q)))).

(* nurbs.pyx:407 PK[0, i, :] = P[r1 + i, :]; the rows of PK have three entries, the
   assignment of a row with another number of columns is a ValueError *)
Definition copy_row (cols : Z) (q : pt) : res v3 := if (cols =? 3)%Z then Ok (row3 q) else Err ValueError.

(* nurbs.pyx:412-415 one control point of the k-th derivative *)
Definition deriv_cpt (p : Z) (U : list Qc) (r1 k i : Z) (PK : list (list v3)) : res (list (list v3)) :=
  do a <- rdM PK (k - 1) (i + 1) ;
  do b <- rdM PK (k - 1) i ;
  do hi <- rdZ U (r1 + i + (p + 1)) ;
  do lo <- rdZ U (r1 + i + k) ;
  do q <- vdiv (vscale (zq (p - k + 1)) (vsub a b)) (hi - lo) ;
  wrM PK k i q.

(* nurbs.pyx:382-415 curve_deriv_cpts; P has [cols] columns *)
Definition curve_deriv_cpts (p : Z) (U : list Qc) (P : list pt) (cols d r1 r2 : Z) (PK : list (list v3))
  : res (list (list v3)) :=
  let r := (r2 - r1)%Z in
  do PK1 <- forZ 0 (r + 1) PK (fun i PK =>
    do q <- rdZ P (r1 + i) ; do v <- copy_row cols q ; wrM PK 0 i v) ;
  forZ 1 (d + 1) PK1 (fun k PK => forZ 0 (r - k + 1) PK (deriv_cpt p U r1 k)).

(* nurbs.pyx:423-460 curve_derivs_alg2 on the view without the weights *)
Definition curve_derivs_alg2 (n p : Z) (U : list Qc) (P : list pt) (u : Qc) (d : Z) (CK : list v3)
  (PK : list (list v3)) (per : bool) : res (list v3) :=
  let du := Z.min p d in
  do span <- find_span n p u U per ;
  do bf <- all_basis_funs span u p U ;
  do PK' <- curve_deriv_cpts p U P 3 d (span - p) span PK ;
  forZ 0 (du + 1) CK (fun k CK =>
    forZ 0 (p - k + 1) CK (fun j CK =>
      do c <- rdZ CK k ;
      do nk <- rdM bf j (p - k) ;
      do q <- rdM PK' k j ;
      wrZ CK k (vadd c (vscale nk q)))).

(* nurbs.pyx:1573-1586 cderivatives1 *)
Definition cderivatives1 (c : curve) (t : Qc) (d : Z) (CK : list v3) : res (list v3) :=
  curve_derivs_alg1 (lenZ (c_pts c) - 1) (c_deg c) (c_knots c) (map row3 (c_pts c)) t d CK (c_per c).

(* nurbs.pyx:1591-1605 cderivatives2 *)
Definition cderivatives2 (c : curve) (t : Qc) (d : Z) (CK : list v3) : res (list v3) :=
  curve_derivs_alg2 (lenZ (c_pts c) - 1) (c_deg c) (c_knots c) (c_pts c) t d CK
    (zerosM v30 (d + 1) (c_deg c + 1)) (c_per c).

(* nurbs.pyx:1662-1675 derivatives1 *)
Definition derivatives1 (c : curve) (t : Qc) (d : Z) : res (list v3) :=
  cderivatives1 c t d (repeat v30 (Z.to_nat (Z.min d (c_deg c) + 1))).

(* nurbs.pyx:1644-1658 derivatives2 *)
Definition derivatives2 (c : curve) (t : Qc) (d : Z) : res (list v3) :=
  cderivatives2 c t d (repeat v30 (Z.to_nat (Z.min d (c_deg c) + 1))).

(* nurbs.pyx:1698-1703 cderivative, 1564-1567 derivative *)
Definition derivative (c : curve) (t : Qc) : res v3 :=
  do CK <- cderivatives2 c t 1 (repeat v30 2) ; rdZ CK 1.

(* nurbs.pyx:1709-1714 csecond_derivative *)
Definition second_derivative (c : curve) (t : Qc) : res v3 :=
  do CK <- cderivatives2 c t 2 (repeat v30 3) ; rdZ CK 2.

(* nurbs.pyx:1680-1693 derivative_control_points: the control points are
   passed with their weights, PK has one column less *)
Definition derivative_control_points (c : curve) (t : Qc) (d : Z) : res (list (list v3)) :=
  do span <- find_span (lenZ (c_pts c) - 1) (c_deg c) t (c_knots c) (c_per c) ;
  curve_deriv_cpts (c_deg c) (c_knots c) (c_pts c) 4 d (span - c_deg c) span
    (zerosM v30 (d + 1) (c_deg c + 1)).

(* ---- frames ---- *)

(* vectors.pyx:505-510 scalar_dot inside scalar_gram_schmidt_emplace *)
Definition vdot (a b : v3) : Qc := vx a * vx b + vy a * vy b + vz a * vz b.
(* nurbs.pyx:1630-1632 *)
Definition vcross (a b : v3) : v3 :=
  mkv (vy a * vz b - vz a * vy b) (vz a * vx b - vx a * vz b) (vx a * vy b - vy a * vx b).
(* vectors.pyx:505-510 scalar_gram_schmidt_emplace *)
Definition gram_schmidt (a b : v3) : v3 := vsub b (vscale (vdot b a) a).

Section Sqrt.
Variable sqrt : Qc -> Qc.

(* vectors.pyx:138-145 scalar_norm *)
Definition scalar_norm (v : v3) : Qc := sqrt (vdot v v).

(* nurbs.pyx:1611-1632 cplane on an array of [rows] zero rows; the writes to
   result[3, .] are outside an array of three rows *)
Definition cplane (c : curve) (t : Qc) (rows : Z) : res (list v3) :=
  do R <- cderivatives2 c t 2 (repeat v30 3) ;
  do d1 <- rdZ R 1 ;
  do d2 <- rdZ R 2 ;
  do T <- vdiv d1 (scalar_norm d1) ;
  let g := gram_schmidt T d2 in
  do N <- vdiv g (scalar_norm g) ;
  do d0 <- rdZ R 0 ;
  wrZ (d0 :: T :: N :: repeat v30 (Z.to_nat (rows - 3))) 3 (vcross T N).

(* parametric.pyx:248-251 plane_at *)
Definition plane_at (c : curve) (t : Qc) : res (list v3) := cplane c t 4.

(* nurbs.pyx:1635-1639 cnormal, parametric.pyx:221-224 normal *)
Definition normal (c : curve) (t : Qc) : res v3 :=
  do R <- cplane c t 3 ; rdZ R 2.

(* calgorithms.pyx:20-52 evaluate_tangent; 1e-15 is taken exactly *)
Definition evaluate_tangent (D1 D2 : v3) : res v3 :=
  let d1 := scalar_norm D1 in
  if qle (if qlt d1 0 then - d1 else d1) (Q2Qc (1 # (10 ^ 15))) then
    let d2 := scalar_norm D2 in
    if qlt 0 d2 then vdiv D2 d2 else Ok v30
  else vdiv D1 d1.

(* nurbs.pyx:1429-1432 ctangent, parametric.pyx:230-233 tangent *)
Definition tangent (c : curve) (t : Qc) : res v3 :=
  do R <- cderivatives2 c t 2 (repeat v30 3) ;
  do d1 <- rdZ R 1 ;
  do d2 <- rdZ R 2 ;
  evaluate_tangent d1 d2.

(* calgorithms.pyx:81-135 evaluate_curvature: the curvature vector; the
   result array is not written when the derivative vanishes *)
Definition evaluate_curvature (D1 D2 before : v3) : res v3 :=
  let n1 := scalar_norm D1 in
  if qeq n1 0 then Ok before
  else
    do T <- vdiv D1 n1 ;
    let neg := - vdot D2 T in
    do inv <- divR 1 (n1 * n1) ;
    Ok (vscale inv (vadd D2 (vscale neg T))).

(* nurbs.pyx:1439-1443 ccurvature, parametric.pyx:239-242 curvature *)
Definition curvature (c : curve) (t : Qc) : res v3 :=
  do R <- cderivatives2 c t 2 (repeat v30 3) ;
  do d1 <- rdZ R 1 ;
  do d2 <- rdZ R 2 ;
  evaluate_curvature d1 d2 v30.

End Sqrt.

(* ---- surfaces ---- *)

(* nurbs.pyx:998-1006 temp[s] *)
Definition surf_temp (spanu spanv du dv size1 : Z) (bu : mat) (ctrl : list pt) (k s : Z) : res pt :=
  forZ 0 (du + 1) (mkpt 0 0 0 0) (fun r acc =>
    do b <- rdM bu k r ;
    do q <- rdZ ctrl (spanv - dv + s + size1 * (spanu - du + r)) ;
    Ok (padd acc (pscale b q))).

(* nurbs.pyx:893-1016 surface_derivatives called by surface_derivatives_py
   (1023-1043) with zeros; ctrl is the flattened net, junku and junkv the
   contents of the malloc'ed buffers.  temp[s] is computed when it is read:
   its entries do not change within one k. *)
Definition surface_derivatives (du dv : Z) (ku kv : list Qc) (ctrl : list pt) (size0 size1 : Z) (u v : Qc)
  (order : Z) (junku junkv : mat) : res grid :=
  let d0 := Z.min du order in
  let d1 := Z.min dv order in
  do spanu <- find_span size0 du u ku false ;
  do bu <- ders_basis_funs spanu u du d0 ku junku ;
  do spanv <- find_span size1 dv v kv false ;
  do bv <- ders_basis_funs spanv v dv d1 kv junkv ;
  forZ 0 (d0 + 1) (zerosM (mkpt 0 0 0 0) (order + 1) (order + 1)) (fun k SKL =>
    do temp <- mapR (surf_temp spanu spanv du dv size1 bu ctrl k) (ixs (dv + 1)) ;
    forZ 0 (Z.min order d1 + 1) SKL (fun l SKL =>
      forZ 0 (dv + 1) SKL (fun s SKL =>
        do c <- rdM SKL k l ;
        do b <- rdM bv l s ;
        do t <- rdZ temp s ;
        wrM SKL k l (padd c (pscale b t))))).

(* SKLw[k, l, :3], nurbs.pxd:405 *)
Definition num3 (q : pt) : v3 := mkv (px q) (py q) (pz q).

(* nurbs.pxd:407-410 *)
Definition rat_j (A : grid) (k l : Z) (S : list (list v3)) (j : Z) (v : v3) : res v3 :=
  do b <- binomial_coefficient l j ;
  do w <- rd2 A 0 j ;
  do s <- rdM S k (l - j) ;
  Ok (vsub v (vscale (b * pw w) s)).

(* nurbs.pxd:412-426 *)
Definition rat_i (A : grid) (k l : Z) (S : list (list v3)) (i : Z) (v : v3) : res v3 :=
  do bk <- binomial_coefficient k i ;
  do w <- rd2 A i 0 ;
  do s <- rdM S (k - i) l ;
  let v' := vsub v (vscale (bk * pw w) s) in
  do v2 <- forZ 1 (l + 1) v30 (fun j v2 =>
    do b <- binomial_coefficient l j ;
    do w <- rd2 A i j ;
    do s <- rdM S (k - i) (l - j) ;
    Ok (vadd v2 (vscale (b * pw w) s))) ;
  Ok (vsub v' (vscale bk v2)).

(* nurbs.pxd:350-432 rat_surface_derivs; S0 is the array given for the result
   (nurbs.pyx:1050-1099) *)
Definition rat_surface_derivs (A : grid) (order : Z) (S0 : list (list v3)) : res (list (list v3)) :=
  forZ 0 (order + 1) S0 (fun k S =>
    forZ 0 (order + 1) S (fun l S =>
      do a <- rd2 A k l ;
      do v1 <- forZ 1 (l + 1) (num3 a) (rat_j A k l S) ;
      do v2 <- forZ 1 (k + 1) v1 (rat_i A k l S) ;
      do w <- rd2 A 0 0 ;
      do q <- vdiv v2 (pw w) ;
      wrM S k l q)).
