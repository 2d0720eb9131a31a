(* Model of mmcore/numeric/vectors.pyx.
   A one-dimensional array is a list of rationals, a two-dimensional one a list
   of rows, a three-dimensional one a list of matrices; arithmetic is exact.
   np.empty holds arbitrary numbers: they are the arguments named junk.  The
   code switches bounds checks off; an access out of bounds is [Err IndexError]
   here.  A division by zero is [Err ZeroDivision].  sqrt, sin, cos and atan2
   are arguments of the functions that call them. *)
From Coq Require Import List ZArith Bool QArith Qcanon.
From Verif Require Import Common QcLib ArrZ SumLib NurbsModel DerModel PlnModel.
Import ListNotations.
Local Open Scope Z_scope.
Local Open Scope Qc_scope.

(* vec.shape[1] of a two-dimensional array, vectors.pyx:45; the rows of a NumPy
   array have one common length *)
Definition cols (a : mat) : Z := match a with [] => 0%Z | r :: _ => lenZ r end.

(* ---- products ---- *)

(* vectors.pyx:115-120 scalar_dot, 126-132 _dot_inl *)
Definition scalar_dot (a b : list Qc) : res Qc :=
  forZ 0 (lenZ a) 0 (fun j r => do x <- rdZ a j ; do y <- rdZ b j ; Ok (r + x * y)).

(* vectors.pyx:43-47, 105-109 the inner loop over the columns of row i *)
Definition dot_row (a b : mat) (n i : Z) : res Qc :=
  forZ 0 n 0 (fun j r => do x <- rdM a i j ; do y <- rdM b i j ; Ok (r + x * y)).

(* vectors.pyx:100-111 dot *)
Definition dot (a b : mat) (junk : list Qc) : res (list Qc) :=
  forZ 0 (lenZ a) junk (fun i r => do item <- dot_row a b (cols a) i ; wrZ r i item).

(* vectors.pyx:39-50 dot_array_x_array: the sum is added to the entry *)
Definition dot_array_x_array (a b : mat) (junk : list Qc) : res (list Qc) :=
  forZ 0 (lenZ a) junk (fun i r =>
    do item <- dot_row a b (cols a) i ;
    do old <- rdZ r i ;
    wrZ r i (old + item)).

(* vectors.pyx:73-83 dot_vec_x_array *)
Definition dot_vec_x_array (a : list Qc) (b : mat) (junk : list Qc) : res (list Qc) :=
  forZ 0 (lenZ b) junk (fun i r =>
    do row <- rdZ b i ;
    do item <- scalar_dot a row ;
    do old <- rdZ r i ;
    wrZ r i (old + item)).

(* vectors.pyx:86-96 dot_array_x_vec *)
Definition dot_array_x_vec (a : mat) (b : list Qc) (junk : list Qc) : res (list Qc) :=
  forZ 0 (lenZ a) junk (fun i r =>
    do row <- rdZ a i ;
    do item <- scalar_dot b row ;
    do old <- rdZ r i ;
    wrZ r i (old + item)).

(* vectors.pyx:58-66 matmul_array, one pair of matrices *)
Definition matmul_one (a b : mat) (junk : mat) : res mat :=
  forZ 0 (lenZ a) junk (fun i r =>
    forZ 0 (cols b) r (fun j r =>
      forZ 0 (cols a) r (fun k r =>
        do x <- rdM a i k ;
        do y <- rdM b k j ;
        do old <- rdM r i j ;
        wrM r i j (old + x * y)))).

(* vectors.pyx:53-68 matmul_array *)
Fixpoint matmul_array (a b junk : list mat) : res (list mat) :=
  match a, b, junk with
  | [], _, _ => Ok []
  | x :: a', y :: b', j :: junk' =>
      do m <- matmul_one x y j ; do ms <- matmul_array a' b' junk' ; Ok (m :: ms)
  | _, _, _ => Err IndexError
  end.

(* ---- norms ---- *)

(* vectors.pyx:142-143, 153-154, 172-174 the sum of squares *)
Definition sumsq (v : list Qc) : res Qc := forZ 0 (lenZ v) 0 (fun j r => do x <- rdZ v j ; Ok (r + x * x)).

Section Sqrt.
Variable sqrt : Qc -> Qc.

(* vectors.pyx:138-145 scalar_norm *)
Definition vnorm (v : list Qc) : res Qc := do r <- sumsq v ; Ok (sqrt r).

(* vectors.pyx:149-163 scalar_normalize: the new contents of vec and the code *)
Definition scalar_normalize (v : list Qc) : res (list Qc * Z) :=
  do r <- vnorm v ;
  if qlt tiny r then
    do v' <- forZ 0 (lenZ v) v (fun j v => do x <- rdZ v j ; do q <- divR x r ; wrZ v j q) ;
    Ok (v', 1%Z)
  else Ok (v, 0%Z).

(* vectors.pyx:166-178 norm *)
Definition norm (a : mat) (junk : list Qc) : res (list Qc) :=
  forZ 0 (lenZ a) junk (fun i r => do row <- rdZ a i ; do n <- vnorm row ; wrZ r i n).

(* vectors.pyx:363-376 scalar_unit *)
Definition vunit (v junk : list Qc) : res (list Qc) :=
  do n <- vnorm v ;
  forZ 0 (lenZ v) junk (fun k r => do x <- rdZ v k ; do q <- divR x n ; wrZ r k q).

(* vectors.pyx:183-197 unit *)
Definition unit_rows (a junk : mat) : res mat :=
  forZ 0 (lenZ a) junk (fun i r =>
    do row <- rdZ a i ;
    do old <- rdZ r i ;
    do u <- vunit row old ;
    wrZ r i u).
End Sqrt.

(* ---- cross products ---- *)

(* vectors.pyx:202-210 cross, 351-359 scalar_cross, vectors.pxd:229-234 cross_d1_3d *)
Definition cross_rows (a b : list v3) (junk : list v3) : res (list v3) :=
  forZ 0 (lenZ a) junk (fun i r => do x <- rdZ a i ; do y <- rdZ b i ; wrZ r i (vcross x y)).

(* vectors.pyx:743-757 normal_from_4pt *)
Definition normal_from_4pt (a b c d : v3) : v3 := vcross (vsub c a) (vsub d b).

(* ---- support points ---- *)

(* dot_value > highest, where highest starts as -inf (None), vectors.pyx:217-224 *)
Definition above (x : Qc) (h : option Qc) : bool := match h with None => true | Some y => qlt y x end.

(* vectors.pyx:220-224 and 237-241 the loop over the vertices *)
Definition support_loop (vs : mat) (d : list Qc) (s0 : list Qc) : res (option Qc * list Qc) :=
  forZ 0 (lenZ vs) (None, s0) (fun i st =>
    do v <- rdZ vs i ;
    do x <- scalar_dot v d ;
    if above x (fst st) then Ok (Some x, v) else Ok st).

(* vectors.pyx:215-225 support_vector *)
Definition support_vector (vs : mat) (d : list Qc) : res (list Qc) :=
  do st <- support_loop vs d (repeat 0 (length d)) ; Ok (snd st).

(* vectors.pyx:230-244 multi_support_vector *)
Definition multi_support_vector (vs ds : mat) : res mat :=
  forZ 0 (lenZ ds) (map (fun d => repeat 0 (length d)) ds) (fun j r =>
    do d <- rdZ ds j ;
    do s0 <- rdZ r j ;
    do st <- support_loop vs d s0 ;
    wrZ r j (snd st)).

(* ---- Gram-Schmidt ---- *)

(* vectors.pyx:248-259 gram_schmidt; the inner loop over k reads column j, the
   value left by the loop before *)
Definition gram_schmidt_rows (a b junk : mat) : res mat :=
  forZ 0 (lenZ a) junk (fun i r =>
    do item <- dot_row b a (cols a) i ;
    let j := (cols a - 1)%Z in
    forZ 0 (cols a) r (fun k r =>
      do x <- rdM b i j ;
      do y <- rdM a i j ;
      wrM r i k (x - y * item))).

(* where the caller's result array lives, vectors.pyx:496-500 *)
Inductive target : Type := Fresh | SameA | SameB.

(* vectors.pyx:496-500 scalar_gram_schmidt with scalar_mul3d 686-690 and sub3d
   665-669: what result holds afterwards *)
Definition scalar_gram_schmidt (t : target) (a b : v3) : v3 :=
  let r1 := vscale (vdot b a) a in
  let b' := match t with SameB => r1 | _ => b end in
  vsub b' r1.

(* vectors.pyx:505-510 scalar_gram_schmidt_emplace is DerModel.gram_schmidt *)

(* ---- two by two systems ---- *)

Record m2 : Type := mkm { m00 : Qc; m01 : Qc; m10 : Qc; m11 : Qc }. (* double[:,:] of shape (2, 2), vectors.pyx:382 *)
Record v2 : Type := mkp { p0 : Qc; p1 : Qc }. (* double[:] of shape (2,), vectors.pyx:470 *)

(* vectors.pyx:382-399 cinvert_jacobian *)
Definition cinvert_jacobian (j old : m2) : res (m2 * Z) :=
  let det := m00 j * m11 j - m01 j * m10 j in
  if qeq det 0 then Ok (old, (-1)%Z)
  else
    do a <- divR (m11 j) det ;
    do b <- divR (- m01 j) det ;
    do c <- divR (- m10 j) det ;
    do d <- divR (m00 j) det ;
    Ok (mkm a b c d, 0%Z).

(* an array with two or with three dimensions, vectors.pyx:417-425 *)
Inductive jac : Type := J2 (j : m2) | J3 (js : list m2).

(* vectors.pyx:412-427 invert_jacobian; the status array has three dimensions and
   is assigned to a one-dimensional view *)
Definition invert_jacobian (j : jac) (junk : m2) : res (m2 * Z) :=
  match j with
  | J2 m => cinvert_jacobian m junk
  | J3 _ => Err ValueError
  end.

(* vectors.pyx:470-483 solve2x2 *)
Definition solve2x2 (m : m2) (y old : v2) : res (v2 * bool) :=
  let det := m00 m * m11 m - m01 m * m10 m in
  if qeq det 0 then Ok (old, false)
  else
    do a <- divR (p0 y * m11 m - m01 m * p1 y) det ;
    do b <- divR (m00 m * p1 y - p0 y * m10 m) det ;
    Ok (mkp a b, true).

(* vectors.pyx:470-483 the same call with result = y: the first entry is
   overwritten before the second is computed *)
Definition solve2x2_inplace (m : m2) (y : v2) : res (v2 * bool) :=
  let det := m00 m * m11 m - m01 m * m10 m in
  if qeq det 0 then Ok (y, false)
  else
    do a <- divR (p0 y * m11 m - m01 m * p1 y) det ;
    let y' := mkp a (p1 y) in
    do b <- divR (m00 m * p1 y' - p0 y' * m10 m) det ;
    Ok (mkp a b, true).

(* vectors.pyx:703-718 decompose_vector *)
Definition decompose_vector (v a b : list Qc) (junk : v2) : res v2 :=
  do aa <- scalar_dot a a ;
  do ab <- scalar_dot a b ;
  do bb <- scalar_dot b b ;
  do av <- scalar_dot a v ;
  do bv <- scalar_dot b v ;
  do (r, _) <- solve2x2 (mkm aa ab ab bb) (mkp av bv) junk ;
  Ok r.

(* vectors.pyx:722-740 decompose_vectors *)
Definition decompose_vectors (vs : mat) (a b : list Qc) (result : list v2) : res (list v2) :=
  forZ 0 (lenZ vs) result (fun i r =>
    do v <- rdZ vs i ;
    do old <- rdZ r i ;
    do x <- decompose_vector v a b old ;
    wrZ r i x).

(* ---- projections ---- *)

(* vectors.pyx:431-438 vector_projection *)
Definition vector_projection (a b : v3) : res v3 :=
  let bn := vx b * vx b + vy b * vy b + vz b * vz b in
  let e (p q r : Qc) : res Qc := do x <- divR p bn ; do y <- divR q bn ; do z <- divR r bn ; Ok (x + y + z) in
  do r0 <- e (vx a * vx b * vx b) (vy a * vx b * vy b) (vz a * vx b * vz b) ;
  do r1 <- e (vx a * vx b * vy b) (vy a * vy b * vy b) (vz a * vy b * vz b) ;
  do r2 <- e (vx a * vx b * vz b) (vy a * vy b * vz b) (vz a * vz b * vz b) ;
  Ok (mkv r0 r1 r2).

(* vectors.pyx:442-452 closest_point_on_ray: nothing is added to the projection *)
Definition vec_closest_point_on_ray (start direction point : v3) : res v3 :=
  vector_projection (vsub point start) direction.

(* vectors.pyx:457-466 closest_point_on_line *)
Definition vec_closest_point_on_line (start stop point : v3) : res v3 :=
  vector_projection (vsub point start) (vsub stop start).

(* numeric/closest_point.py:309-312 closest_point_on_ray *)
Definition closest_point_on_ray (start direction point : v3) : res v3 :=
  do p <- vector_projection (vsub point start) direction ; Ok (vadd start p).

(* numeric/closest_point.py:315-318 closest_point_on_line *)
Definition closest_point_on_line (start stop point : v3) : res v3 :=
  do p <- vector_projection (vsub point start) (vsub stop start) ; Ok (vadd start p).

(* numeric/intersection/pp.py:84-86 _vector_projection: the row sums of the outer
   product, divided by bn *)
Definition pp_vector_projection (a b : v3) : res v3 := vdiv (vscale (vx b + vy b + vz b) a) (vdot b b).

(* numeric/intersection/pp.py:89-92 _closest_point_on_line *)
Definition pp_closest_point_on_line (start stop point : v3) : res v3 :=
  do p <- pp_vector_projection (vsub point start) (vsub stop start) ; Ok (vadd start p).

(* ---- orientation of polygons ---- *)

(* vectors.pyx:317-322 cdet over the rows (x, y), 327-328 det *)
Fixpoint cdet (pts : list v2) : Qc :=
  match pts with
  | p :: ((q :: _) as r) => (p0 q - p0 p) * (p1 q + p1 p) + cdet r
  | _ => 0
  end.

(* vectors.pyx:333-340 points_order *)
Definition points_order (pts : list v2) : Z :=
  let d := cdet pts in
  if qlt 0 d then 0%Z else if qlt d 0 then 1%Z else (-1)%Z.

(* vectors.pyx:342-347 multi_points_order *)
Definition multi_points_order (l : list (list v2)) : list Z := map points_order l.

(* geom/features.py:72-87 points_order; np.concatenate appends the first point *)
Definition features_points_order (pts : list v2) (close : bool) : res Z :=
  if (lenZ pts <? 3)%Z then Err ValueError
  else
    do pts' <- (if close then do f <- rdZ pts 0 ; Ok (pts ++ [f]) else Ok pts) ;
    Ok (points_order pts').

(* ---- curvilinear coordinates ---- *)
Section Trig.
Variables sqrt sin cos : Qc -> Qc.
Variable atan2 : Qc -> Qc -> Qc.

(* vectors.pyx:264-271 spherical_to_cartesian, one row *)
Definition spherical_to_cartesian (p : v3) : v3 :=
  mkv (vx p * sin (vy p) * cos (vz p)) (vx p * sin (vy p) * sin (vz p)) (vx p * cos (vy p)).

(* vectors.pyx:276-285 cartesian_to_spherical, one row *)
Definition cartesian_to_spherical (p : v3) : v3 :=
  let xy := vx p * vx p + vy p * vy p in
  mkv (sqrt (xy + vz p * vz p)) (atan2 (sqrt xy) (vz p)) (atan2 (vy p) (vx p)).

(* vectors.pyx:290-299 cylindrical_to_xyz, one row *)
Definition cylindrical_to_xyz (p : v3) : v3 := mkv (vx p * cos (vy p)) (vx p * sin (vy p)) (vz p).

(* vectors.pyx:304-313 courtesan_to_cylindrical, one row *)
Definition courtesan_to_cylindrical (p : v3) : v3 :=
  let xy := vx p * vx p + vy p * vy p in
  mkv (sqrt (xy + vz p * vz p)) (atan2 (sqrt xy) (vz p)) (vz p).
End Trig.

(* vectors.pyx:18-23 cis_close, is_close *)
Definition is_close (a b atol rtol : Qc) : bool := qle (fabs (a - b)) (atol + rtol * fabs b).
