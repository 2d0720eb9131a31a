(* Model of the curve editing functions of mmcore/geom/nurbs.pxd/.pyx:
   knot insertion, multiplicity, reversal, knot normalisation, splitting.
   Same conventions as NurbsModel.v. *)
From Coq Require Import List ZArith Bool QArith Qcanon.
From Verif Require Import Common QcLib ArrZ NurbsModel.
Import ListNotations.
Local Open Scope Z_scope.
Local Open Scope Qc_scope.

(* for calc_epsilon, nurbs.pxd:21-28 *)
Definition qabs (x : Qc) : Qc := if qlt x 0 then - x else x.

(* nurbs.pxd:21-28 calc_epsilon.  numeric_limits<double>::epsilon() = 2^-52,
   denorm_min() = 2^-1074; the constant 1e-12 is taken as exactly 10^-12. *)
Definition dbl_epsilon : Qc := Q2Qc (1 # (2 ^ 52)).
(* for calc_epsilon, nurbs.pxd:21-28 *)
Definition denorm_min : Qc := Q2Qc (1 # (2 ^ 1074)).
(* for calc_epsilon, nurbs.pxd:21-28 *)
Definition eps_delta : Qc := Q2Qc (1 # (10 ^ 12)).
(* nurbs.pxd:21-28 *)
Definition calc_epsilon (x : Qc) : Qc :=
  if qlt (qabs x) eps_delta then denorm_min else dbl_epsilon * qabs x.

(* nurbs.pxd:262-273 find_multiplicity (its tol argument is never used) *)
Definition find_multiplicity (k : Qc) (U : list Qc) : res Z :=
  forZ 0 (lenZ U) 0%Z (fun i mult =>
    do x <- rdZ U i ;
    Ok (if qle (qabs (k - x)) (calc_epsilon x) then (mult + 1)%Z else mult)).

(* alpha * a + (1 - alpha) * b on a whole row (x, y, z, w);
   nurbs.pyx:539-540, the loop over the columns *)
Definition lerp (alpha : Qc) (a b : pt) : pt :=
  mkpt (alpha * px a + (1 - alpha) * px b) (alpha * py a + (1 - alpha) * py b)
       (alpha * pz a + (1 - alpha) * pz b) (alpha * pw a + (1 - alpha) * pw b).

(* nurbs.pxd:277-278 knot_insertion_alpha *)
Definition knot_insertion_alpha (u : Qc) (U : list Qc) (span idx leg : Z) : res Qc :=
  do a <- rdZ U (leg + idx) ;
  do b <- rdZ U (idx + span + 1) ;
  divR (u - a) (b - a).

(* for i in range(lo, hi): dst[i + off] = src[i + soff]; row copies  [for knot_insertion, nurbs.pyx:511-550] *)
Definition copy_rows {A} (lo hi off soff : Z) (src dst : list A) : res (list A) :=
  forZ lo hi dst (fun i r => do q <- rdZ src (i + soff) ; wrZ r (i + off) q).

(* nurbs.pyx:537-540 inner loop of knot_insertion *)
Definition insertion_inner (u : Qc) (U : list Qc) (span L i : Z) (temp : list pt) : res (list pt) :=
  do alpha <- knot_insertion_alpha u U span i L ;
  do a <- rdZ temp (i + 1) ;
  do b <- rdZ temp i ;
  wrZ temp i (lerp alpha a b).

(* nurbs.pyx:535-542 outer loop of knot_insertion *)
Definition insertion_outer (degree : Z) (U : list Qc) (u : Qc) (num s span j : Z) (st : list pt * list pt)
  : res (list pt * list pt) :=
  let '(temp, result) := st in
  let L := (span - degree + j)%Z in
  do temp' <- forZ 0 (degree - j - s + 1) temp (insertion_inner u U span L) ;
  do q0 <- rdZ temp' 0 ;
  do result1 <- wrZ result L q0 ;
  do q1 <- rdZ temp' (degree - j - s) ;
  do result2 <- wrZ result1 (span + num - j - s) q1 ;
  Ok (temp', result2).

(* nurbs.pyx:511-550 knot_insertion.  [result0] is the output array passed by
   the caller with whatever it holds; temp (malloc) starts as zero rows. *)
Definition knot_insertion (degree : Z) (U : list Qc) (P : list pt) (u : Qc) (num s span : Z)
  (result0 : list pt) : res (list pt) :=
  let n := lenZ P in
  do r1 <- copy_rows 0 (span - degree + 1) 0 0 P result0 ;
  do r2 <- copy_rows (span - s) n num 0 P r1 ;
  do temp0 <- copy_rows 0 (degree - s + 1) 0 (span - degree) P (repeat (mkpt 0 0 0 0) (Z.to_nat (degree + 1))) ;
  do (temp, r3) <- forZ 1 (num + 1) (temp0, r2) (insertion_outer degree U u num s span) ;
  let L := (span - degree + num)%Z in
  copy_rows (L + 1) (span - s) 0 (- L) temp r3.

(* nurbs.pyx:554-568 knot_insertion_kv *)
Definition knot_insertion_kv (U : list Qc) (u : Qc) (span r : Z) : res (list Qc) :=
  let kv_size := lenZ U in
  do k1 <- copy_rows 0 (span + 1) 0 0 U (repeat (0 : Qc) (Z.to_nat (kv_size + r))) ;
  do k2 <- forZ 1 (r + 1) k1 (fun i kv => wrZ kv (span + i) u) ;
  copy_rows (span + 1) kv_size r 0 U k2.

(* nurbs.pyx:1716-1748 NURBSCurve.insert_knot.  The new control point array
   comes from np.empty: [junk] is its content before the call.  Note that the
   Greville abscissae are not refreshed (only _update_interval is called). *)
Definition insert_knot (c : curve) (t : Qc) (count : Z) (junk : list pt) : res curve :=
  let n := lenZ (c_pts c) in
  do span <- find_span (n - 1) (c_deg c) t (c_knots c) false ;
  do kv <- knot_insertion_kv (c_knots c) t span count ;
  do s <- find_multiplicity t (c_knots c) ;
  do P' <- knot_insertion (c_deg c) (c_knots c) (c_pts c) t count s span junk ;
  do iv <- update_interval kv ;
  Ok (mkcurve P' (c_deg c) kv (c_per c) iv (c_grev c)).

(* nurbs.pyx:1968-1981 multiply_knot *)
Definition multiply_knot (c : curve) (t : Qc) (junk : list pt) : res (curve * Z) :=
  do m <- find_multiplicity t (c_knots c) ;
  let needed := (c_deg c - m)%Z in
  if (0 <? needed)%Z then do c' <- insert_knot c t needed junk ; Ok (c', needed)
  else Ok (c, needed).

(* nurbs.pyx:1872-1879 cnormalize_knots; np.min / np.max of the knots *)
Definition list_min (l : list Qc) : res Qc :=
  match l with [] => Err ValueError | x :: r => Ok (fold_left (fun m a => qmin2 a m) r x) end.
(* for normalize_knots, nurbs.pyx:1872-1879 *)
Definition list_max (l : list Qc) : res Qc :=
  match l with [] => Err ValueError | x :: r => Ok (fold_left (fun m a => qmax2 a m) r x) end.

(* nurbs.pyx:1872-1879 *)
Definition normalize_knots (c : curve) : res curve :=
  do start <- list_min (c_knots c) ;
  do stop <- list_max (c_knots c) ;
  do d <- divR 1 (stop - start) ;
  knots_update_hook (mkcurve (c_pts c) (c_deg c) (map (fun k => (k - start) * d) (c_knots c))
                             (c_per c) (c_int c) (c_grev c)).

(* nurbs.pyx:2040-2064 reverse_curve (wraparound is on there, so
   _knots[-(i+1)] reads from the end) *)
Definition reverse_curve (c : curve) : res curve :=
  do a <- rdZ (c_knots c) 0 ;
  do b <- rdZ (c_knots c) (lenZ (c_knots c) - 1) ;
  do kv <- forZ 0 (lenZ (c_knots c)) (repeat (0 : Qc) (length (c_knots c)))
             (fun i kv => do k <- rdZ (c_knots c) (lenZ (c_knots c) - (i + 1)) ; wrZ kv i (a + b - k)) ;
  new_curve (rev (c_pts c)) (c_deg c) (Some kv) (c_per c).

(* nurbs.pyx:2033-2034 NURBSCurve.flip: the knots are mirrored but not
   reversed; the periodic flag is dropped *)
Definition flip (c : curve) : res curve :=
  do mx <- list_max (c_knots c) ;
  do mn <- list_min (c_knots c) ;
  new_curve (rev (c_pts c)) (c_deg c) (Some (map (fun k => mx - k + mn) (c_knots c))) false.

(* tcpts[:k, :] and tcpts[k:, :] for k >= 0  [for split_curve, nurbs.pyx:2091-2172] *)
Definition slice_to {A} (l : list A) (k : Z) : list A := firstn (Z.to_nat k) l.
(* for split_curve, nurbs.pyx:2091-2172 *)
Definition slice_from {A} (l : list A) (k : Z) : list A := skipn (Z.to_nat k) l.

(* nurbs.pyx:2091-2172 split_curve; tol = 1e-7 by default.  Note that the
   span searches are called with n = number of control points. *)
Definition split_curve (c : curve) (param tol : Qc) (normalize : bool) (junk : list pt)
  : res (curve * curve) :=
  let degree := c_deg c in
  let n := lenZ (c_pts c) in
  let (t0, t1) := c_int c in
  if qle param t0 || qle t1 param || qle (qabs (param - t0)) tol || qle (qabs (param - t1)) tol
  then Err ValueError
  else
    do sp <- find_span n degree param (c_knots c) false ;
    let ks := (sp - degree + 1)%Z in
    do s <- find_multiplicity param (c_knots c) ;
    let r := (degree - s)%Z in
    do tmp <- insert_knot c param r junk ;
    let tk := c_knots tmp in
    do sp2 <- find_span (lenZ (c_pts tmp)) degree param tk false ;
    let knot_span := (sp2 + 1)%Z in
    let kv1 := slice_to tk knot_span ++ [param] in
    let kv2 := repeat param (Z.to_nat (degree + 1)) ++ slice_from tk knot_span in
    let P1 := slice_to (c_pts tmp) (ks + r) in
    let P2 := slice_from (c_pts tmp) (ks + r - 1) in
    do c1 <- new_curve P1 degree (Some kv1) false ;
    do c2 <- new_curve P2 degree (Some kv2) false ;
    if normalize then
      do d1 <- normalize_knots c1 ;
      do d2 <- normalize_knots c2 ;
      Ok (d1, d2)
    else Ok (c1, c2).
