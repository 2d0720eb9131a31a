(* Model of the span searches, basis functions, knot generators and curve
   interpolation of mmcore/geom/curves/knot.py, of the B-spline helpers of
   mmcore/geom/curves/bspline_utils.py and of the evaluator in
   mmcore/geom/curves/deboor.pyx.

   Simplifications: floats are exact rationals; a division by zero is the
   error ZeroDivision (numpy would produce inf or nan, Cython raises);
   sequences are indexed with non-negative indices only, an index outside
   the sequence is IndexError.  int(round(x)) and int(x) are taken on exact
   half-integers.  Chord lengths are given as a list (the square roots of
   scalar_norm and of the centripetal variant are not modelled), and the LU
   solver of scipy is not modelled: interpolation is stated for every
   solution of the linear system. *)
From Coq Require Import List ZArith Bool QArith Qcanon Lia.
From Verif Require Import Common QcLib ArrZ NurbsModel NurbsEditModel.
Import ListNotations.
Local Open Scope Z_scope.
Local Open Scope Qc_scope.

(* ---- span searches -------------------------------------------------- *)

(* knot.py:283 tol = 10e-6 *)
Definition span_tol : Qc := Q2Qc (1 # 100000).

(* knot.py:304-309 while loop of find_span_binsearch; the same text is the
   loop of find_knot_span (knot.py:981-986) and of find_span
   (bspline_utils.py:34-39), where // 2 stands for int(. / 2). *)
Fixpoint py_search (fuel : nat) (knot : Qc) (knots : list Qc) (low high mid : Z) : res Z :=
  do a <- rdZ knots mid ;
  do again <- (if qlt knot a then Ok true
               else do b <- rdZ knots (mid + 1) ; Ok (qle b knot)) ;
  if again : bool then
    match fuel with
    | O => Err OutOfFuel
    | S f =>
        if qlt knot a then py_search f knot knots low mid ((low + mid) / 2)
        else py_search f knot knots mid high ((mid + high) / 2)
    end
  else Ok mid.

(* knot.py:263-311 find_span_binsearch.  int(round(h + 1e-5)) for a
   half-integer h = m / 2 rounds up: (m + 1) / 2. *)
Definition find_span_binsearch (fuel : nat) (degree : Z) (knots : list Qc) (num_ctrlpts : Z)
    (knot : Qc) : res Z :=
  let n := (num_ctrlpts - 1)%Z in
  do e <- rdZ knots (n + 1) ;
  if qle (qabs (e - knot)) span_tol then Ok n
  else py_search fuel knot knots degree num_ctrlpts ((degree + num_ctrlpts + 1) / 2).

(* knot.py:331-332 the loop of find_span_linear; [left] counts the
   remaining candidates num_ctrlpts - span *)
Fixpoint linear_from (left : nat) (knots : list Qc) (knot : Qc) (span : Z) : res Z :=
  match left with
  | O => Ok span
  | S k =>
      do a <- rdZ knots span ;
      if qle a knot then linear_from k knots knot (span + 1) else Ok span
  end.

(* knot.py:314-334 find_span_linear *)
Definition find_span_linear (degree : Z) (knots : list Qc) (num_ctrlpts : Z) (knot : Qc) : res Z :=
  do span <- linear_from (Z.to_nat (num_ctrlpts - (degree + 1))) knots knot (degree + 1) ;
  Ok (span - 1)%Z.

(* knot.py:337-355 find_spans with the default search *)
Fixpoint find_spans (degree : Z) (knots : list Qc) (num_ctrlpts : Z) (us : list Qc) : res (list Z) :=
  match us with
  | [] => Ok []
  | u :: r =>
      do s <- find_span_linear degree knots num_ctrlpts u ;
      do rest <- find_spans degree knots num_ctrlpts r ;
      Ok (s :: rest)
  end.

(* knot.py:953-988 find_knot_span *)
Definition find_knot_span (fuel : nat) (n p : Z) (u : Qc) (U : list Qc) : res Z :=
  do e <- rdZ U (n + 1) ;
  if qeq u e then Ok n else py_search fuel u U p (n + 1) ((p + (n + 1)) / 2).

(* bspline_utils.py:18-41 find_span *)
Definition utils_find_span (fuel : nat) (p : Z) (u : Qc) (U : list Qc) : res Z :=
  let n := (lenZ U - p - 1)%Z in
  do e <- rdZ U n ;
  if qle e u then Ok (n - 1)%Z
  else
    do a <- rdZ U p ;
    if qle u a then Ok p else py_search fuel u U p n ((p + n) / 2).

(* ---- basis functions ------------------------------------------------ *)

(* knot.py:84-97 basis_function: the loops are those of nurbs.pxd:49-59
   (basis_outer, basis_inner), on lists initialised with ones *)
Definition basis_function (degree : Z) (knots : list Qc) (span : Z) (knot : Qc) : res (list Qc) :=
  let zeros := repeat (0 : Qc) (Z.to_nat (degree + 1)) in
  let ones := repeat (1 : Qc) (Z.to_nat (degree + 1)) in
  do (N, _, _) <- forZ 1 (degree + 1) (ones, zeros, zeros) (basis_outer span knot knots) ;
  Ok N.

(* bspline_utils.py:53-58 inner loop body of calc_basis_functions; note
   left[p - r] *)
Definition calc_inner (lft rgt : list Qc) (p : Z) (r : Z) (st : list Qc * Qc) : res (list Qc * Qc) :=
  let '(N, saved) := st in
  do rv <- rdZ rgt (r + 1) ;
  do lv <- rdZ lft (p - r) ;
  do nr <- rdZ N r ;
  do temp <- divR nr (rv + lv) ;
  do N' <- wrZ N r (saved + rv * temp) ;
  Ok (N', lv * temp).

(* bspline_utils.py:49-59 outer loop body of calc_basis_functions *)
Definition calc_outer (span : Z) (u : Qc) (p : Z) (U : list Qc) (j : Z)
    (st : list Qc * list Qc * list Qc) : res (list Qc * list Qc * list Qc) :=
  let '(N, lft, rgt) := st in
  do a <- rdZ U (span + 1 - j) ;
  do lft' <- wrZ lft j (u - a) ;
  do b <- rdZ U (span + j) ;
  do rgt' <- wrZ rgt j (b - u) ;
  do (N', saved) <- forZ 0 j (N, 0) (calc_inner lft' rgt' p) ;
  do N'' <- wrZ N' j saved ;
  Ok (N'', lft', rgt').

(* bspline_utils.py:44-60 calc_basis_functions *)
Definition calc_basis_functions (span : Z) (u : Qc) (p : Z) (U : list Qc) : res (list Qc) :=
  let zeros := repeat (0 : Qc) (Z.to_nat (p + 1)) in
  do N1 <- wrZ zeros 0 1 ;
  do (N, _, _) <- forZ 1 (p + 1) (N1, zeros, zeros) (calc_outer span u p U) ;
  Ok N.

(* bspline_utils.py:74-83 loop body of calc_b_spline_point *)
Definition calc_point_step (span p : Z) (P : list pt) (N : list Qc) (j : Z) (st : Qc * Qc * Qc * Qc)
  : res (Qc * Qc * Qc * Qc) :=
  let '(c0, c1, c2, c3) := st in
  do point <- rdZ P (span - p + j) ;
  do Nj <- rdZ N j ;
  let wNj := pw point * Nj in
  Ok (c0 + px point * wNj, c1 + py point * wNj, c2 + pz point * wNj, c3 + pw point * Nj).

(* bspline_utils.py:63-84 calc_b_spline_point: homogeneous coordinates *)
Definition calc_b_spline_point (fuel : nat) (p : Z) (U : list Qc) (P : list pt) (u : Qc)
  : res (Qc * Qc * Qc * Qc) :=
  do span <- utils_find_span fuel p u U ;
  do N <- calc_basis_functions span u p U ;
  forZ 0 (p + 1) (0, 0, 0, 0) (calc_point_step span p P N).

(* ---- knot generators ------------------------------------------------ *)

(* np.linspace(0.0, n - 1, n): the step is 1  [for generate_knot, knot.py:17-65] *)
Definition count_up (n : Z) : list Qc := arange 0 n.

(* knot.py:17-65 generate_knot *)
Definition generate_knot (degree num_ctrlpts : Z) (is_clamped : bool) : res (list Qc) :=
  if ((degree =? 0) || (num_ctrlpts =? 0))%Z then Err ValueError
  else
    let num_repeat := if is_clamped then degree else 0%Z in
    let num_segments := if is_clamped then (num_ctrlpts - (degree + 1))%Z
                        else (degree + num_ctrlpts - 1)%Z in
    let maxval := Q2Qc (inject_Z (num_segments + 1)) in
    if (num_segments + 2 <? 0)%Z then Err ValueError
    else Ok (repeat 0 (Z.to_nat num_repeat) ++ count_up (num_segments + 2)
             ++ repeat maxval (Z.to_nat num_repeat)).

(* knot.py:252-260 normalize_knot *)
Definition normalize_knot (knots : list Qc) : res (list Qc) :=
  do first <- rdZ knots 0 ;
  do last <- rdZ knots (lenZ knots - 1) ;
  let denominator := last - first in
  if qeq denominator 0 then Err ZeroDivision
  else Ok (map (fun kv => (kv - first) / denominator) knots).

(* sum([params[j] for j in range(a, a + c)])  [for averages, knot.py:118-120] *)
Fixpoint sum_params (c : nat) (a : Z) (params : list Qc) : res Qc :=
  match c with
  | O => Ok 0
  | S k =>
      do x <- rdZ params a ;
      do rest <- sum_params k (a + 1) params ;
      Ok (x + rest)
  end.

(* knot.py:118-120 the averaging loop of compute_knot_vector *)
Fixpoint averages (c : nat) (i : Z) (degree : Z) (params : list Qc) : res (list Qc) :=
  match c with
  | O => Ok []
  | S k =>
      do f <- divR 1 (Q2Qc (inject_Z degree)) ;
      do s <- sum_params (Z.to_nat degree) (i + 1) params ;
      do rest <- averages k (i + 1) degree params ;
      Ok (f * s :: rest)
  end.

(* knot.py:100-125 compute_knot_vector *)
Definition compute_knot_vector (degree num_points : Z) (params : list Qc) : res (list Qc) :=
  do mid <- averages (Z.to_nat (num_points - degree - 1)) 0 degree params ;
  Ok (repeat 0 (Z.to_nat (degree + 1)) ++ mid ++ repeat 1 (Z.to_nat (degree + 1))).

(* Python's sum()  [for params_loop, knot.py:166-167] *)
Fixpoint total (l : list Qc) : Qc := match l with [] => 0 | x :: r => x + total r end.

(* knot.py:166-167 uk[i] = sum(cds[0:i + 1]) / d *)
Fixpoint params_loop (cds : list Qc) (d : Qc) (is : list nat) : res (list Qc) :=
  match is with
  | [] => Ok []
  | i :: r =>
      do x <- divR (total (firstn (i + 1) cds)) d ;
      do rest <- params_loop cds d r ;
      Ok (x :: rest)
  end.

(* knot.py:139-169 compute_params_curve, given the lengths of the
   num_points - 1 chords: cds = [0] ++ chords ++ [1] *)
Definition compute_params_curve (chords : list Qc) : res (list Qc) :=
  let cds := 0 :: chords ++ [1] in
  params_loop cds (total chords) (seq 0 (length chords + 1)).

(* knot.py:131-135 one row of the coefficient matrix: the slice
   [span - degree : span + 1] of a row of zeros is replaced *)
Definition matrix_row (num_points degree : Z) (knots : list Qc) (u : Qc) : res (list Qc) :=
  do span <- find_span_linear degree knots num_points u ;
  do N <- basis_function degree knots span u ;
  let zeros := repeat (0 : Qc) (Z.to_nat num_points) in
  Ok (firstn (Z.to_nat (span - degree)) zeros ++ N ++ skipn (Z.to_nat (span + 1)) zeros).

(* knot.py:127-138 build_coefficient_matrix *)
Fixpoint matrix_rows (num_points degree : Z) (knots : list Qc) (params : list Qc) : res (list (list Qc)) :=
  match params with
  | [] => Ok []
  | u :: r =>
      do row <- matrix_row num_points degree knots u ;
      do rest <- matrix_rows num_points degree knots r ;
      Ok (row :: rest)
  end.

(* knot.py:171-196 _remove_adjacent_duplicates: which of the rows after the
   first stay, given the distances of consecutive points *)
Fixpoint keep_rows {A} (rows : list A) (mask : list bool) : list A :=
  match rows, mask with
  | x :: r, b :: m => if b then x :: keep_rows r m else keep_rows r m
  | _, _ => []
  end.

(* knot.py:171-196 *)
Definition remove_adjacent_duplicates {A} (tol : Qc) (diffs : list Qc) (points : list A) : list A :=
  keep_rows points (true :: map (fun d => qlt tol d) diffs).

(* knot.py:198-237 interpolate_curve up to the linear solve: parameters,
   knots and matrix *)
Definition interpolation_system (degree : Z) (chords : list Qc)
  : res (list Qc * list Qc * list (list Qc)) :=
  let num_points := (lenZ chords + 1)%Z in
  do uk <- compute_params_curve chords ;
  do kv <- compute_knot_vector degree num_points uk ;
  do rows <- matrix_rows num_points degree kv uk ;
  Ok (uk, kv, rows).

(* ---- merge_knot_vectors --------------------------------------------- *)

(* np.isclose(a, b): |a - b| <= atol + rtol * |b|, atol = 1e-8, rtol = 1e-5  [for count_close, knot.py:1175-1191] *)
Definition isclose (a b : Qc) : bool :=
  qle (qabs (a - b)) (Q2Qc (1 # 100000000) + Q2Qc (1 # 100000) * qabs b).

(* for merge_knot_vectors, knot.py:1175-1191 *)
Definition count_close (l : list Qc) (k : Qc) : nat :=
  length (filter (fun a => isclose a k) l).

(* np.unique: sorted without repetitions  [for unique, knot.py:1175-1191] *)
Fixpoint uniq_put (x : Qc) (l : list Qc) : list Qc :=
  match l with
  | [] => [x]
  | y :: r => if qlt x y then x :: l else if qeq x y then l else y :: uniq_put x r
  end.

(* for merge_knot_vectors, knot.py:1175-1191 *)
Definition unique (l : list Qc) : list Qc := fold_right uniq_put [] l.

(* knot.py:1175-1191 merge_knot_vectors *)
Definition merge_knot_vectors (knots1 knots2 : list Qc) : list Qc :=
  flat_map (fun k => repeat k (Nat.max (count_close knots1 k) (count_close knots2 k)))
           (unique (knots1 ++ knots2)).

(* ---- deboor.pyx ----------------------------------------------------- *)

(* deboor.pyx:7-28 cdeboor.  Note the closed interval at degree 0. *)
Fixpoint cdeboor (knots : list Qc) (t : Qc) (k : nat) (i : Z) : res Qc :=
  match k with
  | O =>
      do a <- rdZ knots i ;
      do b <- rdZ knots (i + 1) ;
      Ok (if qle a t && qle t b then 1 else 0)
  | S q =>
      do a <- rdZ knots i ;
      do b <- rdZ knots (i + Z.of_nat k) ;
      do a' <- rdZ knots (i + 1) ;
      do b' <- rdZ knots (i + Z.of_nat k + 1) ;
      do c1 <- (if qeq b a then Ok 0
                else do v <- cdeboor knots t q i ; Ok ((t - a) / (b - a) * v)) ;
      do c2 <- (if qeq b' a' then Ok 0
                else do v <- cdeboor knots t q (i + 1) ; Ok ((b' - t) / (b' - a') * v)) ;
      Ok (c1 + c2)
  end.

(* deboor.pyx:40-45 loop body of cevaluate_nurbs *)
Definition db_step (t : Qc) (P : list pt) (knots : list Qc) (degree : nat) (i : Z)
    (st : Qc * Qc * Qc * Qc) : res (Qc * Qc * Qc * Qc) :=
  let '(x, y, z, sw) := st in
  do v <- cdeboor knots t degree i ;
  do q <- rdZ P i ;
  let b := v * pw q in
  Ok (x + b * px q, y + b * py q, z + b * pz q, sw + b).

(* deboor.pyx:33-48 cevaluate_nurbs; [acc] is the value of *result on entry *)
Definition cevaluate_nurbs (t : Qc) (P : list pt) (knots : list Qc) (degree : nat)
    (acc : Qc * Qc * Qc) : res (Qc * Qc * Qc) :=
  let '(x0, y0, z0) := acc in
  do (x, y, z, sw) <- forZ 0 (lenZ P) (x0, y0, z0, 0) (db_step t P knots degree) ;
  do a <- divR x sw ;
  do b <- divR y sw ;
  do c <- divR z sw ;
  Ok (a, b, c).

(* deboor.pyx:68-76 evaluate_nurbs *)
Definition evaluate_nurbs (t : Qc) (P : list pt) (knots : list Qc) (degree : nat) : res (Qc * Qc * Qc) :=
  cevaluate_nurbs t P knots degree (0, 0, 0).

(* deboor.pyx:53-61 cevaluate_nurbs_multi: pt is set to zero once, before
   the loop *)
Fixpoint multi_loop (ts : list Qc) (P : list pt) (knots : list Qc) (degree : nat)
    (pt : Qc * Qc * Qc) : res (list (Qc * Qc * Qc)) :=
  match ts with
  | [] => Ok []
  | t :: r =>
      do v <- cevaluate_nurbs t P knots degree pt ;
      do rest <- multi_loop r P knots degree v ;
      Ok (v :: rest)
  end.

(* deboor.pyx:77-80 evaluate_nurbs_multi *)
Definition evaluate_nurbs_multi (ts : list Qc) (P : list pt) (knots : list Qc) (degree : nat)
  : res (list (Qc * Qc * Qc)) := multi_loop ts P knots degree (0, 0, 0).
