(* Model of the evaluation core of mmcore/geom/nurbs.pxd and nurbs.pyx:
   knot span search, basis functions, curve points, generated knot vectors.

   Doubles are exact rationals (Qc): rounding, infinities and NaN are not
   modelled.  A division by zero (inf/nan in the compiled code) is reported
   as ZeroDivision, an out-of-range array access (undefined behaviour, bounds
   checks are off) as IndexError.  C ints are unbounded integers. *)
From Coq Require Import List ZArith Bool QArith Qcanon Qround.
From Verif Require Import Common QcLib ArrZ.
Import ListNotations.
Local Open Scope Z_scope.
Local Open Scope Qc_scope.

(* C double division, division by zero reported  [for basis_inner, nurbs.pxd:54-57] *)
Definition divR (a b : Qc) : res Qc := if qeq b 0 then Err ZeroDivision else Ok (a / b).

(* One row of the control point array: x, y, z and the weight.
   nurbs.pyx:1155-1161 stores Euclidean coordinates and the weight. *)
Record pt : Type := mkpt { px : Qc; py : Qc; pz : Qc; pw : Qc }.

(* nurbs.pxd:224-225  while u < U_min: u += period *)
Fixpoint wrap_up (fuel : nat) (u umin period : Qc) : res Qc :=
  if qlt u umin then
    match fuel with O => Err OutOfFuel | S f => wrap_up f (u + period) umin period end
  else Ok u.

(* nurbs.pxd:226-227  while u > U_max: u -= period *)
Fixpoint wrap_down (fuel : nat) (u umax period : Qc) : res Qc :=
  if qlt umax u then
    match fuel with O => Err OutOfFuel | S f => wrap_down f (u - period) umax period end
  else Ok u.

(* nurbs.pxd:246-257  binary search
   low/high/mid are ints; (low + high) // 2 on non-negative ints *)
Fixpoint span_search (fuel : nat) (u : Qc) (U : list Qc) (low high mid : Z) : res Z :=
  do um <- rdZ U mid ;
  do continue <- (if qlt u um then Ok true
                  else do um1 <- rdZ U (mid + 1) ; Ok (qle um1 u)) ;
  if continue : bool then
    match fuel with
    | O => Err OutOfFuel
    | S f =>
        if qlt u um then span_search f u U low mid ((low + mid) / 2)%Z
        else span_search f u U mid high ((mid + high) / 2)%Z
    end
  else Ok mid.

(* nurbs.pxd:169-257 find_span_inline (nurbs.pyx:78-166 find_span is the same
   text).  [fuel] bounds each of the three while loops. *)
Definition find_span_fuel (fuel : nat) (n p : Z) (u : Qc) (U : list Qc) (is_periodic : bool) : res Z :=
  do umin <- rdZ U p ;
  do umax <- rdZ U (n + 1) ;
  if is_periodic then
    let period := umax - umin in
    do u1 <- wrap_up fuel u umin period ;
    do u2 <- wrap_down fuel u1 umax period ;
    if qeq u2 umax then Ok n
    else span_search fuel u2 U p (n + 1) ((p + (n + 1)) / 2)
  else
    if qle umax u then Ok n
    else
      do u0 <- rdZ U 0 ;
      if qlt u u0 then Ok p
      else if qeq u umax then Ok n
      else span_search fuel u U p (n + 1) ((p + (n + 1)) / 2).

(* Number of loop steps granted to the search: the binary search needs at
   most n+2-p of them; wrapping needs one per period between u and the
   domain.  [for span_fuel, nurbs.pxd:169-257] *)
Definition wrap_steps (u umin umax : Qc) : nat :=
  (Z.to_nat (1 + Qceiling (this ((umin - u) / (umax - umin))))
   + Z.to_nat (1 + Qceiling (this ((u - umax) / (umax - umin)))))%nat.

(* for find_span, nurbs.pxd:169-257 *)
Definition span_fuel (n p : Z) (u : Qc) (U : list Qc) : nat :=
  (Z.to_nat (n + 3) + wrap_steps u (atZ 0%Qc U p) (atZ 0%Qc U (n + 1)))%nat.

(* nurbs.pxd:169-257 *)
Definition find_span (n p : Z) (u : Qc) (U : list Qc) (is_periodic : bool) : res Z :=
  find_span_fuel (span_fuel n p u U) n p u U is_periodic.

(* nurbs.pxd:54-57  inner loop body of basis_funs *)
Definition basis_inner (lft rgt : list Qc) (j : Z) (r : Z) (st : list Qc * Qc) : res (list Qc * Qc) :=
  let '(N, saved) := st in
  do nr <- rdZ N r ;
  do rr <- rdZ rgt (r + 1) ;
  do lj <- rdZ lft (j - r) ;
  do temp <- divR nr (rr + lj) ;
  do N' <- wrZ N r (saved + rr * temp) ;
  Ok (N', lj * temp).

(* nurbs.pxd:49-59  outer loop body of basis_funs *)
Definition basis_outer (i : Z) (u : Qc) (U : list Qc) (j : Z) (st : list Qc * list Qc * list Qc)
  : res (list Qc * list Qc * list Qc) :=
  let '(N, lft, rgt) := st in
  do a <- rdZ U (i + 1 - j) ;
  do lft' <- wrZ lft j (u - a) ;
  do b <- rdZ U (i + j) ;
  do rgt' <- wrZ rgt j (b - u) ;
  do (N', saved) <- forZ 0 j (N, 0) (basis_inner lft' rgt' j) ;
  do N'' <- wrZ N' j saved ;
  Ok (N'', lft', rgt').

(* nurbs.pxd:35-61 basis_funs.  N0 is the caller's buffer with whatever it
   holds; the malloc'ed scratch arrays left, right are taken as zeros (they
   are written before they are read). *)
Definition basis_funs (i : Z) (u : Qc) (p : Z) (U : list Qc) (N0 : list Qc) : res (list Qc) :=
  let pp := (p + 1)%Z in
  let scratch := repeat (0 : Qc) (Z.to_nat pp) in
  do N1 <- wrZ N0 0 1 ;
  do (N, _, _) <- forZ 1 pp (N1, scratch, scratch) (basis_outer i u U) ;
  Ok N.

(* nurbs.pxd:94-99  accumulation loop of curve_point *)
Definition point_step (span p : Z) (P : list pt) (N : list Qc) (i : Z) (st : Qc * Qc * Qc * Qc)
  : res (Qc * Qc * Qc * Qc) :=
  let '(sw, r0, r1, r2) := st in
  do ni <- rdZ N i ;
  do q <- rdZ P (span - p + i) ;
  let b := ni * pw q in
  Ok (sw + b, r0 + b * px q, r1 + b * py q, r2 + b * pz q).

(* nurbs.pxd:68-107 curve_point, called with a zeroed result buffer
   (nurbs.pyx:1461-1466).  Returns result[0..2]; result[3] = 1. *)
Definition curve_point (n p : Z) (U : list Qc) (P : list pt) (u : Qc) (is_periodic : bool)
  : res (Qc * Qc * Qc) :=
  do span <- find_span n p u U is_periodic ;
  do N <- basis_funs span u p U (repeat (0 : Qc) (Z.to_nat (p + 1))) ;
  do (sw, r0, r1, r2) <- forZ 0 (p + 1) (0, 0, 0, 0) (point_step span p P N) ;
  do x <- divR r0 sw ;
  do y <- divR r1 sw ;
  do z <- divR r2 sw ;
  Ok (x, y, z).

(* The fields of a NURBSCurve object that evaluation depends on, plus the
   stored interval and Greville abscissae (nurbs.pxd:435-441).  The
   evaluation cache is modelled separately. *)
Record curve : Type := mkcurve {
  c_pts : list pt;
  c_deg : Z;
  c_knots : list Qc;
  c_per : bool;
  c_int : Qc * Qc;
  c_grev : list Qc
}.

(* nurbs.pyx:1449-1472 NURBSCurve.cevaluate (uncached evaluation) *)
Definition evaluate (c : curve) (t : Qc) : res (Qc * Qc * Qc) :=
  curve_point (lenZ (c_pts c) - 1) (c_deg c) (c_knots c) (c_pts c) t (c_per c).

(* nurbs.pyx:1550-1557 evaluate_multi *)
Fixpoint evaluate_multi (c : curve) (ts : list Qc) : res (list (Qc * Qc * Qc)) :=
  match ts with
  | [] => Ok []
  | t :: r => do a <- evaluate c t ; do l <- evaluate_multi c r ; Ok (a :: l)
  end.

(* nurbs.pyx:2073-2085 greville_abscissae *)
Definition greville_abscissae (knots : list Qc) (degree : Z) : res (list Qc) :=
  let n := (lenZ knots - degree - 1)%Z in
  forZ 0 n (repeat (0 : Qc) (Z.to_nat n)) (fun i g =>
    do temp <- forZ 0 degree 0 (fun k temp => do a <- rdZ knots (i + 1 + k) ; Ok (temp + a)) ;
    do temp' <- divR temp (Q2Qc (inject_Z degree)) ;
    wrZ g i temp').

(* nurbs.pyx:1371-1373 _update_interval *)
Definition update_interval (knots : list Qc) : res (Qc * Qc) :=
  do a <- rdZ knots 0 ;
  do b <- rdZ knots (lenZ knots - 1) ;
  Ok (a, b).

(* nurbs.pyx:1353-1356 knots_update_hook *)
Definition knots_update_hook (c : curve) : res curve :=
  do iv <- update_interval (c_knots c) ;
  do g <- greville_abscissae (c_knots c) (c_deg c) ;
  Ok (mkcurve (c_pts c) (c_deg c) (c_knots c) (c_per c) iv g).

(* n - 1 integers starting at lo, as doubles: np.arange  [for generate_knots, nurbs.pyx:1344-1349] *)
Definition arange (lo hi : Z) : list Qc :=
  map (fun k => Q2Qc (inject_Z (lo + Z.of_nat k))) (seq 0 (Z.to_nat (hi - lo))).

(* nurbs.pyx:1344-1349 the array built by generate_knots *)
Definition generate_knots (n degree : Z) : list Qc :=
  repeat (0 : Qc) (Z.to_nat (degree + 1))
  ++ arange 1 (n - degree)
  ++ repeat (Q2Qc (inject_Z (n - degree))) (Z.to_nat (degree + 1)).

(* nurbs.pyx:1363-1368 the array built by generate_knots_periodic *)
Definition generate_knots_periodic (n degree : Z) : list Qc :=
  map (fun i => Q2Qc (inject_Z (Z.of_nat i - degree))) (seq 0 (Z.to_nat (n + degree + 1))).

(* nurbs.pyx:1221-1237 is_periodic: compares the first and the last `degree`
   rows; [break] leaves only the inner loop, so the flag of the last row
   compared wins.  Slices [:d] and [-d:] follow Python (degree 0 gives [-0:],
   the whole array, but then the first slice is empty and True is returned). *)
Definition row_eqb (a b : pt) : bool :=
  qeq (px a) (px b) && qeq (py a) (py b) && qeq (pz a) (pz b) && qeq (pw a) (pw b).
(* nurbs.pyx:1221-1237 *)
Definition is_periodic (P : list pt) (degree : Z) : bool :=
  let d := Z.to_nat degree in
  let part1 := firstn d P in
  let part2 := skipn (length P - d) P in
  fold_left (fun _ ab => row_eqb (fst ab) (snd ab)) (combine part1 part2) true.

(* nurbs.pyx:1383-1406 make_periodic (cache not modelled here) *)
Definition make_periodic (c : curve) : res curve :=
  if is_periodic (c_pts c) (c_deg c) then Ok c
  else
    let P' := c_pts c ++ firstn (Z.to_nat (c_deg c)) (c_pts c) in
    let K' := generate_knots_periodic (lenZ P') (c_deg c) in
    do c' <- knots_update_hook (mkcurve P' (c_deg c) K' (c_per c) (c_int c) (c_grev c)) ;
    Ok (mkcurve (c_pts c') (c_deg c') (c_knots c') true (c_int c') (c_grev c')).

(* nurbs.pyx:1151-1171 NURBSCurve.__init__ (and 1122-1142 create) for rows
   that already carry their weight; a three-column array gets weight 1. *)
Definition new_curve (P : list pt) (degree : Z) (knots : option (list Qc)) (periodic : bool) : res curve :=
  let K := match knots with Some k => k | None => generate_knots (lenZ P) degree end in
  do c <- knots_update_hook (mkcurve P degree K periodic (0, 0) []) ;
  if periodic then make_periodic c else Ok c.

(* nurbs.pyx:42-72 aabb on homogeneous rows: note that it divides by the
   weight column. *)
Definition bbox_row (q : pt) : res (Qc * Qc * Qc) :=
  do x <- divR (px q) (pw q) ;
  do y <- divR (py q) (pw q) ;
  do z <- divR (pz q) (pw q) ;
  Ok (x, y, z).

(* for bbox_step, nurbs.pyx:42-72 *)
Definition qmin2 (p m : Qc) : Qc := if qlt p m then p else m.   (* if p < min: min = p  [for bbox_step, nurbs.pyx:42-72] *)
Definition qmax2 (p m : Qc) : Qc := if qlt m p then p else m.   (* if p > max: max = p *)

(* for bbox_step, nurbs.pyx:42-72 *)
Definition box3 : Type := ((Qc * Qc * Qc) * (Qc * Qc * Qc))%type.

(* calls of the functions above, one after another *)
Definition bbox_step (b : box3) (v : Qc * Qc * Qc) : box3 :=
  let '((a0, a1, a2), (b0, b1, b2)) := b in
  let '(x, y, z) := v in
  ((qmin2 x a0, qmin2 y a1, qmin2 z a2), (qmax2 x b0, qmax2 y b1, qmax2 z b2)).

(* nurbs.pyx:42-72 *)
Fixpoint bbox_loop (b : box3) (rows : list pt) : res box3 :=
  match rows with
  | [] => Ok b
  | q :: r => do v <- bbox_row q ; bbox_loop (bbox_step b v) r
  end.

(* nurbs.pyx:1958-1962 NURBSCurve.bbox *)
Definition bbox (c : curve) : res box3 :=
  match c_pts c with
  | [] => Err IndexError
  | q :: r => do v <- bbox_row q ; bbox_loop (v, v) r
  end.
