(* Curve utilities: Model of /repo/mmcore/geom/curves/curve_utils.py.

   Degrees, spans and indices are natural numbers (Python's negative indices, reached only with knot vectors that are too
   short, are not modelled).  Numbers are exact rationals.  In calc_basis_functions a division by zero, which numpy turns into
   inf or nan, stops the model with ZeroDivision; the divisions in calcKoverI and calc_rational_curve_derivatives are Qc
   divisions, the theorems about their values exclude a zero divisor.  An array of four numbers carries its dtype: an
   in-place += or -= of floats into an array of ints raises TypeError (numpy's UFuncTypeError).  The matrix of basis
   function derivatives (calc_basis_function_derivatives) is an argument. *)
From Coq Require Import List Arith ZArith Bool QArith Qcanon.
From Verif Require Import Common QcLib ListLib LuModel.
Import ListNotations.
Local Open Scope Qc_scope.

(* curve_utils.py:27-36, the loop of find_span *)
Fixpoint span_loop (fuel : nat) (u : Qc) (U : list Qc) (low high : nat) : res nat :=
  match fuel with
  | O => Err OutOfFuel
  | S fuel' =>
      let mid := ((low + high) / 2)%nat in
      do a <- getR U mid ;
      do b <- (if qlt u a then Ok a else getR U (mid + 1)) ;
      if qlt u a then span_loop fuel' u U low mid
      else if qle b u then span_loop fuel' u U mid high
      else Ok mid
  end.
(* curve_utils.py:13-36 find_span *)
Definition find_span (p : nat) (u : Qc) (U : list Qc) : res nat :=
  let n := (length U - p - 1)%nat in
  do un <- getR U n ;
  if qle un u then Ok (n - 1)%nat
  else
    do up <- getR U p ;
    if qle u up then Ok p else span_loop (length U) u U p n.

(* x / y on numbers of an array; for calc_basis_functions, curve_utils.py:51 *)
Definition fdiv (x y : Qc) : res Qc := if qeq y 0 then Err ZeroDivision else Ok (x / y).
(* curve_utils.py:48-53, the inner loop of calc_basis_functions at r *)
Definition basis_inner (p : nat) (lft rgt : list Qc) (r : nat) (st : list Qc * Qc) : res (list Qc * Qc) :=
  let '(N, saved) := st in
  do rv <- getR rgt (r + 1) ;
  do lv <- getR lft (p - r) ;
  do nr <- getR N r ;
  do temp <- fdiv nr (rv + lv) ;
  do N' <- wr N r (saved + rv * temp) ;
  Ok (N', lv * temp).
(* curve_utils.py:44-54, the outer loop at j *)
Definition basis_outer (span : nat) (u : Qc) (p : nat) (U : list Qc) (j : nat) (st : list Qc * list Qc * list Qc) : res (list Qc * list Qc * list Qc) :=
  let '(N, lft, rgt) := st in
  do a <- getR U (span + 1 - j) ;
  do lft' <- wr lft j (u - a) ;
  do b <- getR U (span + j) ;
  do rgt' <- wr rgt j (b - u) ;
  do (N', saved) <- loop 0 j (N, 0) (basis_inner p lft' rgt') ;
  do N'' <- wr N' j saved ;
  Ok (N'', lft', rgt').
(* curve_utils.py:39-55 calc_basis_functions *)
Definition calc_basis_functions (span : nat) (u : Qc) (p : nat) (U : list Qc) : res (list Qc) :=
  let zeros := repeat (0 : Qc) (p + 1) in
  do N <- wr zeros 0 1 ;
  do (N', _, _) <- loop 1 (p + 1) (N, zeros, zeros) (basis_outer span u p U) ;
  Ok N'.

(* a control point or an array of four numbers *)
Definition pt4 := (Qc * Qc * Qc * Qc)%type.
(* curve_utils.py:70-78, the loop of calc_b_spline_point at j *)
Definition point_step (p span : nat) (P : list pt4) (N : list Qc) (j : nat) (C : pt4) : res pt4 :=
  do (x, y, z, w) <- getR P (span - p + j) ;
  do Nj <- getR N j ;
  let wNj := w * Nj in
  let '(c0, c1, c2, c3) := C in
  Ok (c0 + x * wNj, c1 + y * wNj, c2 + z * wNj, c3 + w * Nj).
(* curve_utils.py:58-79 calc_b_spline_point *)
Definition calc_b_spline_point (p : nat) (U : list Qc) (P : list pt4) (u : Qc) : res pt4 :=
  do span <- find_span p u U ;
  do N <- calc_basis_functions span u p U ;
  loop 0 (p + 1) (0, 0, 0, 0) (point_step p span P N).

(* a 64-bit integer; for calcKoverI, curve_utils.py:82-85 *)
Definition wrap64 (z : Z) : Z := ((z + 2 ^ 63) mod 2 ^ 64 - 2 ^ 63)%Z.
(* np.prod(range(2, k + 1)) in 64-bit integers, 1.0 for an empty range; for calcKoverI, curve_utils.py:83-84 *)
Definition prod_to (k : nat) : Z := fold_left (fun acc i => wrap64 (acc * Z.of_nat i)) (seq 2 (k - 1)) 1%Z.
(* curve_utils.py:82-85 calcKoverI for i <= k *)
Definition calcKoverI (k i : nat) : Qc :=
  let nom := prod_to k in
  let denom := wrap64 (prod_to i * prod_to (k - i)) in
  Q2Qc (inject_Z nom) / Q2Qc (inject_Z denom).

(* numpy arrays with their dtype *)
Inductive dtype := DInt | DFloat.
(* for calc_rational_curve_derivatives, curve_utils.py:216-230 *)
Definition arr4 := (dtype * pt4)%type.
Definition arr3 := (dtype * (Qc * Qc * Qc))%type.
(* v -= w with a float array w; for calc_rational_curve_derivatives, curve_utils.py:228 *)
Definition isub3 (v : arr3) (w : Qc * Qc * Qc) : res arr3 :=
  match v with
  | (DInt, _) => Err TypeError
  | (DFloat, (a, b, c)) => let '(x, y, z) := w in Ok (DFloat, (a - x, b - y, c - z))
  end.
(* curve_utils.py:225-229, one turn of the outer loop *)
Definition rational_step (Aders : list arr3) (wders : list Qc) (k : nat) (CK : list (Qc * Qc * Qc)) : res (list (Qc * Qc * Qc)) :=
  do v0 <- getR Aders k ;
  do v <- loop 1 (k + 1) v0 (fun i v =>
     do (x, y, z) <- getR CK (k - i) ;
     do wi <- getR wders i ;
     let f := calcKoverI k i * wi in
     isub3 v (x * f, y * f, z * f)) ;
  do w0 <- getR wders 0 ;
  let '(_, (a, b, c)) := v in
  Ok (CK ++ [(a / w0, b / w0, c / w0)]).
(* curve_utils.py:216-230 calc_rational_curve_derivatives *)
Definition calc_rational_curve_derivatives (Pders : list arr4) : res (list (Qc * Qc * Qc)) :=
  let Aders := map (fun '(t, (x, y, z, _)) => (t, (x, y, z))) Pders in
  let wders := map (fun '(_, (_, _, _, w)) => w) Pders in
  loop 0 (length Pders) [] (rational_step Aders wders).

(* curve_utils.py:168-174 Pw *)
Definition weighted (P : list pt4) : list pt4 := map (fun '(x, y, z, w) => (x * w, y * w, z * w, w)) P.
(* tmp += Pw[...] * nders[k][j]; for calc_bspline_derivatives, curve_utils.py:176-180 *)
Definition combine_pts (p span : nat) (Pw : list pt4) (row : list Qc) : res pt4 :=
  loop 0 (p + 1) (0, 0, 0, 0) (fun j C =>
    do (x, y, z, w) <- getR Pw (span - p + j) ;
    do d <- getR row j ;
    let '(c0, c1, c2, c3) := C in Ok (c0 + x * d, c1 + y * d, c2 + z * d, c3 + w * d)).
Section Derivatives.
(* the result of calc_basis_function_derivatives(span, u, p, n, U), curve_utils.py:112-160 *)
Variable basis_ders : nat -> Qc -> nat -> nat -> list Qc -> res (list (list Qc)).
(* curve_utils.py:163-185 calc_bspline_derivatives; the entries after min(nd, p) are arrays of ints *)
Definition calc_bspline_derivatives (p : nat) (U : list Qc) (P : list pt4) (u : Qc) (nd : nat) : res (list arr4) :=
  let du := Nat.min nd p in
  do span <- find_span p u U ;
  do nders <- basis_ders span u p du U ;
  let Pw := weighted P in
  do CK <- loop 0 (du + 1) [] (fun k CK => do row <- getR nders k ; do t <- combine_pts p span Pw row ; Ok (CK ++ [(DFloat, t)])) ;
  Ok (CK ++ repeat (DInt, (0, 0, 0, 0)) (nd + 2 - (du + 1))).
(* curve_utils.py:88-90 calcNURBSDerivatives *)
Definition calcNURBSDerivatives (p : nat) (U : list Qc) (P : list pt4) (u : Qc) (nd : nat) : res (list (Qc * Qc * Qc)) :=
  do Pders <- calc_bspline_derivatives p U P u nd ;
  calc_rational_curve_derivatives Pders.
End Derivatives.

(* a += b with a float array b; for calcSurfacePoint, curve_utils.py:104-107, 210 *)
Definition iadd4 (a : arr4) (b : pt4) : res arr4 :=
  match a with
  | (DInt, _) => Err TypeError
  | (DFloat, (x, y, z, w)) => let '(x', y', z', w') := b in Ok (DFloat, (x + x', y + y', z + z', w + w'))
  end.
(* for calcSurfacePoint, curve_utils.py:98-107 *)
Definition scale4 (f : Qc) (a : pt4) : pt4 := let '(x, y, z, w) := a in (x * f, y * f, z * f, w * f).
(* P[i][j] with its first three coordinates multiplied by the weight; for calcSurfacePoint, curve_utils.py:101-103, 201-204 *)
Definition weighted_at (P : list (list pt4)) (i j : nat) : res pt4 :=
  do row <- getR P i ; do (x, y, z, w) <- getR row j ; Ok (x * w, y * w, z * w, w).
(* sum of k over the rows of one column; for calcSurfacePoint, curve_utils.py:99-104, 198-206 *)
Definition column (start : arr4) (p q uspan vspan : nat) (P : list (list pt4)) (Nu : list Qc) (l : nat) : res arr4 :=
  loop 0 (p + 1) start (fun k t => do a <- weighted_at P (uspan - p + k) (vspan - q + l) ; do nk <- getR Nu k ; iadd4 t (scale4 nk a)).
(* the two surface points: `start` is the array every column starts from, an int array in calcSurfacePoint (98) and a float
   array in calc_surface_point (199); Sw is an int array in both (105, 208) *)
Definition surface_point (start : arr4) (p q : nat) (U V : list Qc) (P : list (list pt4)) (u v : Qc) : res (Qc * Qc * Qc) :=
  do uspan <- find_span p u U ;
  do vspan <- find_span q v V ;
  do Nu <- calc_basis_functions uspan u p U ;
  do Nv <- calc_basis_functions vspan v q V ;
  do temp <- loop 0 (q + 1) [] (fun l ts => do t <- column start p q uspan vspan P Nu l ; Ok (ts ++ [t])) ;
  do Sw <- loop 0 (q + 1) (DInt, (0, 0, 0, 0)) (fun l S => do t <- getR temp l ; do nl <- getR Nv l ; iadd4 S (scale4 nl (snd t))) ;
  let '(_, (x, y, z, w)) := Sw in
  Ok (x / w, y / w, z / w).
(* curve_utils.py:93-109 calcSurfacePoint *)
Definition calcSurfacePoint := surface_point (DInt, (0, 0, 0, 0)).
(* curve_utils.py:192-213 calc_surface_point *)
Definition calc_surface_point := surface_point (DFloat, (0, 0, 0, 0)).
