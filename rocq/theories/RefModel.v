(* Model of knot_refinement and knot_removal, mmcore/geom/nurbs.pyx:563-765.
   Same conventions as NurbsModel.v: rows of four columns, exact numbers, an
   access outside an array is [Err IndexError]. *)
From Coq Require Import List ZArith Bool QArith Qcanon.
From Verif Require Import Common QcLib ArrZ SortModel NurbsModel NurbsEditModel.
Import ListNotations.
Local Open Scope Z_scope.
Local Open Scope Qc_scope.

(* knotvector[degree:-degree], nurbs.pyx:674 *)
Definition inner_knots (degree : Z) (U : list Qc) : list Qc :=
  skipn (Z.to_nat degree) (firstn (length U - Z.to_nat degree) U).

(* nurbs.pyx:690-701 one pass of the density loop; usz is the number of knots before
   duplicates were removed, or the size of the previous pass; new_len the number after *)
Definition density_pass (usz new_len : Z) (kl : list Qc) : res (list Qc) :=
  let size := (usz * 2 - 1)%Z in
  if (size <? 0)%Z then Err ValueError
  else
    do rk <- forZ 0 (usz - 1) (repeat 0 (Z.to_nat size)) (fun i rk =>
      do x <- rdZ kl i ;
      do y <- rdZ kl (i + 1) ;
      do rk <- wrZ rk (2 * i) x ;
      wrZ rk (2 * i + 1) (x + (y - x) / (1 + 1))) ;
    do z <- rdZ kl (new_len - 1) ;
    wrZ rk (size - 1) z.
(* nurbs.pyx:690-701 the density loop, count = density - 1 passes *)
Fixpoint density_loop (count : nat) (usz new_len : Z) (kl : list Qc) : res (list Qc) :=
  match count with
  | O => Ok kl
  | S c => do kl <- density_pass usz new_len kl ; density_loop c (usz * 2 - 1) new_len kl
  end.

(* nurbs.pyx:702-714 the knots to insert: each knot of the list up to multiplicity degree;
   X is written front to back, it is shown as a list that grows *)
Fixpoint knots_to_insert (degree : Z) (U kl : list Qc) : res (list Qc) :=
  match kl with
  | [] => Ok []
  | mk :: rest =>
      do s <- find_multiplicity mk U ;
      do X <- knots_to_insert degree U rest ;
      Ok (repeat mk (Z.to_nat (degree - s)) ++ X)
  end.

(* 1e-8, nurbs.pyx:753 *)
Definition ref_tol : Qc := Q2Qc (1 # 10 ^ 8).
(* nurbs.pyx:745-749 the inner while loop; state: new_kv, new_ctrlpts, i, k *)
Fixpoint ref_shift (fuel : nat) (degree a : Z) (U : list Qc) (P : list pt) (x : Qc) (kv : list Qc) (Q : list pt) (i k : Z)
  : res (list Qc * list pt * Z * Z) :=
  match fuel with
  | O => Err OutOfFuel
  | S f =>
      do y <- rdZ U i ;
      if qle x y && (a <? i)%Z then
        do q <- rdZ P (i - degree - 1) ;
        do Q <- wrZ Q (k - degree - 1) q ;
        do kv <- wrZ kv k y ;
        ref_shift f degree a U P x kv Q (i - 1) (k - 1)
      else Ok (kv, Q, i, k)
  end.
(* nurbs.pyx:751-759 the loop over l *)
Definition ref_blend (degree : Z) (U : list Qc) (x : Qc) (kv : list Qc) (i k : Z) (l : Z) (Q : list pt) : res (list pt) :=
  let idx := (k - degree + l)%Z in
  do y <- rdZ kv (k + l) ;
  let alpha := y - x in
  if qlt (qabs alpha) ref_tol then
    do q <- rdZ Q idx ; wrZ Q (idx - 1) q
  else
    do z <- rdZ U (i - degree + l) ;
    do alpha <- divR alpha (y - z) ;
    do q0 <- rdZ Q (idx - 1) ;
    do q1 <- rdZ Q idx ;
    wrZ Q (idx - 1) (lerp alpha q0 q1).
(* nurbs.pyx:744-762 the outer while loop; c = j + 1 knots are left *)
Fixpoint ref_loop (c : nat) (degree a : Z) (U : list Qc) (P : list pt) (X : list Qc) (kv : list Qc) (Q : list pt) (i k : Z)
  : res (list Qc * list pt) :=
  match c with
  | O => Ok (kv, Q)
  | S c' =>
      do x <- rdZ X (Z.of_nat c') ;
      do (st, k) <- ref_shift (S (Z.to_nat (i - a))) degree a U P x kv Q i k ;
      let '(kv, Q, i) := st in
      do q <- rdZ Q (k - degree) ;
      do Q <- wrZ Q (k - degree - 1) q ;
      do Q <- forZ 1 (degree + 1) Q (ref_blend degree U x kv i k) ;
      do kv <- wrZ kv k x ;
      ref_loop c' degree a U P X kv Q i (k - 1)
  end.
(* nurbs.pyx:716-765 from the list X on; the Exception of line 717 is shown as ValueError *)
Definition refine_with (degree : Z) (U : list Qc) (P : list pt) (X : list Qc) (per : bool) : res (list pt * list Qc) :=
  let n := (lenZ P - 1)%Z in
  let m := (n + degree + 1)%Z in
  if (lenZ X =? 0)%Z then Err ValueError
  else
    let r := (lenZ X - 1)%Z in
    do x0 <- rdZ X 0 ;
    do a <- find_span n degree x0 U per ;
    do xr <- rdZ X r ;
    do b <- find_span n degree xr U per ;
    let b := (b + 1)%Z in
    do Q <- copy_rows 0 (a - degree + 1) 0 0 P (repeat (mkpt 0 0 0 0) (Z.to_nat (n + r + 2))) ;
    do Q <- copy_rows (b - 1) (n + 1) (r + 1) 0 P Q ;
    do kv <- copy_rows 0 (a + 1) 0 0 U (repeat (0 : Qc) (Z.to_nat (m + r + 2))) ;
    do kv <- copy_rows (b + degree) (m + 1) (r + 1) 0 U kv ;
    do (kv, Q) <- ref_loop (Z.to_nat (r + 1)) degree a U P X kv Q (b + degree - 1) (b + degree + r) ;
    Ok (Q, kv).
(* nurbs.pyx:666-765 knot_refinement.  An empty list of knots is rejected by the cast at line
   685.  Second part of the result: the caller's knot_list after the call; uniqueSorted sorts
   the array it is given, which is the caller's own when add_knot_list is None. *)
Definition knot_refinement (degree : Z) (U : list Qc) (P : list pt) (knot_list add_knot_list : option (list Qc)) (density : Z) (per : bool)
  : res (list pt * list Qc * option (list Qc)) :=
  let base := match knot_list with Some l => l | None => inner_knots degree U end in
  let full := match add_knot_list with Some l => base ++ l | None => base end in
  do (kl, sorted) <- uniqueSorted full ;
  if (lenZ kl =? 0)%Z then Err ValueError
  else
    do kl' <- density_loop (Z.to_nat (density - 1)) (lenZ full) (lenZ kl) kl ;
    do X <- knots_to_insert degree U kl' ;
    do (R, W) <- refine_with degree U P X per ;
    Ok (R, W, match knot_list, add_knot_list with Some _, None => Some sorted | o, _ => o end).

(* ---- knot removal ---- *)

(* nurbs.pxd:281-286; the functions are noexcept, a zero denominator is shown as an error *)
Definition removal_alpha_i (u : Qc) (degree : Z) (U : list Qc) (num idx : Z) : res Qc :=
  do x <- rdZ U idx ; do y <- rdZ U (idx + degree + 1 + num) ; divR (u - x) (y - x).
Definition removal_alpha_j (u : Qc) (degree : Z) (U : list Qc) (num idx : Z) : res Qc :=
  do x <- rdZ U (idx - num) ; do y <- rdZ U (idx + degree + 1) ; divR (u - x) (y - x).
(* nurbs.pyx:565-573 point_distance(a, b) <= tol; the square root is compared by squaring.
   The columns are added, not subtracted (line 571). *)
Definition point_near (a b : pt) (tol : Qc) : bool :=
  let d := (px a + px b) * (px a + px b) + (py a + py b) * (py a + py b) + (pz a + pz b) * (pz a + pz b) + (pw a + pw b) * (pw a + pw b) in
  qle 0 tol && qle d (tol * tol).
(* nurbs.pyx:618, 619 (q - c * o) / d on a whole row *)
Definition unblend (q o : pt) (c d : Qc) : res pt :=
  do x <- divR (px q - c * px o) d ;
  do y <- divR (py q - c * py o) d ;
  do z <- divR (pz q - c * pz o) d ;
  do w <- divR (pw q - c * pw o) d ;
  Ok (mkpt x y z w).
(* nurbs.pyx:614-623 the first while loop; state: temp, i, j, ii, jj *)
Fixpoint removal_sweep (fuel : nat) (degree : Z) (U : list Qc) (P : list pt) (u : Qc) (t : Z) (temp : list pt) (i j ii jj : Z)
  : res (list pt * Z * Z * Z * Z) :=
  match fuel with
  | O => Err OutOfFuel
  | S f =>
      if (t <=? j - i)%Z then
        do ai <- removal_alpha_i u degree U t i ;
        do aj <- removal_alpha_j u degree U t j ;
        do q <- rdZ P i ;
        do o <- rdZ temp (ii - 1) ;
        do v <- unblend q o (1 - ai) ai ;
        do temp <- wrZ temp ii v ;
        do q <- rdZ P j ;
        do o <- rdZ temp (jj + 1) ;
        do v <- unblend q o aj (1 - aj) ;
        do temp <- wrZ temp jj v ;
        removal_sweep f degree U P u t temp (i + 1) (j - 1) (ii + 1) (jj - 1)
      else Ok (temp, i, j, ii, jj)
  end.
(* nurbs.pyx:638-644 the second while loop *)
Fixpoint removal_store (fuel : nat) (t first : Z) (temp new : list pt) (i j : Z) : res (list pt) :=
  match fuel with
  | O => Err OutOfFuel
  | S f =>
      if (t <? j - i)%Z then
        do a <- rdZ temp (i - first + 1) ;
        do new <- wrZ new i a ;
        do b <- rdZ temp (j - first + 1) ;
        do new <- wrZ new j b ;
        removal_store f t first temp new (i + 1) (j - 1)
      else Ok new
  end.
(* nurbs.pyx:605-647 one pass of the loop over t; state: temp, ctrlpts_new, first, last *)
Definition removal_pass (degree : Z) (U : list Qc) (P : list pt) (u tol : Qc) (t : Z) (st : list pt * list pt * Z * Z)
  : res (list pt * list pt * Z * Z) :=
  let '(temp, new, first, last) := st in
  do a <- rdZ P (first - 1) ;
  do temp <- wrZ temp 0 a ;
  do b <- rdZ P (last + 1) ;
  do temp <- wrZ temp (last - first + 2) b ;
  do r <- removal_sweep (Z.to_nat (last - first + 2)) degree U P u t temp first last 1 (last - first + 1) ;
  let '(temp, i, j, ii, jj) := r in
  do remflag <-
    (if (j - i <? t)%Z then
       do x <- rdZ temp (ii - 1) ; do y <- rdZ temp (jj + 1) ; Ok (point_near x y tol)
     else
       do ai <- removal_alpha_i u degree U t i ;
       do x <- rdZ temp (ii + t + 1) ;
       do y <- rdZ temp (ii - 1) ;
       do q <- rdZ P i ;
       Ok (point_near q (lerp ai x y) tol)) ;
  do new <- (if remflag : bool then removal_store (Z.to_nat (last - first + 2)) t first temp new first last else Ok new) ;
  Ok (temp, new, (first - 1)%Z, (last + 1)%Z).
(* nurbs.pyx:582-661 knot_removal; temp0: the malloc'ed rows, (2 degree + 1) of them; 1 <= num *)
Definition knot_removal (degree : Z) (U : list Qc) (P : list pt) (u tol : Qc) (num : Z) (per : bool) (temp0 : list pt) : res (list pt) :=
  do s <- find_multiplicity u U ;
  let n := lenZ P in
  do r <- find_span (n - 1) degree u U per ;
  do st <- forZ 0 num (temp0, P, (r - degree)%Z, (r - s)%Z) (fun t st => removal_pass degree U P u tol t st) ;
  let '(_, new, _, _) := st in
  let j := ((2 * r - s - degree) / 2)%Z in
  do (i, j) <- forZ 1 num (j, j) (fun k ij => let '(i, j) := ij in
    Ok (if (k mod 2 =? 1)%Z then ((i + 1)%Z, j) else (i, (j - 1)%Z))) ;
  do (new, _) <- forZ (i + 1) n (new, j) (fun k st => let '(new, j) := st in
    do q <- rdZ P k ; do new <- wrZ new j q ; Ok (new, (j + 1)%Z)) ;
  Ok (firstn (Z.to_nat (n - num)) new).
