(* Model of mmcore/numeric/plane/cplane.pyx and mmcore/numeric/plane/__init__.py.
   A plane is its four rows (origin, x axis, y axis, normal), a point is three
   numbers.  Arithmetic is exact.  A C division by zero gives an infinity or a
   NaN that ends up in the result; here it is the value [Err ZeroDivision].
   The C function sqrt is an argument of the functions that use it. *)
From Coq Require Import List ZArith Bool QArith Qcanon.
From Verif Require Import Common QcLib ArrZ SumLib NurbsModel DerModel.
Import ListNotations.
Local Open Scope Z_scope.
Local Open Scope Qc_scope.

(* double[:,:] pln of four rows, cplane.pyx:45 *)
Record plane : Type := mkpl { pl_o : v3; pl_x : v3; pl_y : v3; pl_n : v3 }.

(* libc fabs, cplane.pyx:3 *)
Definition fabs (x : Qc) : Qc := if qlt x 0 then - x else x.

(* ---- coordinates in a plane ---- *)

(* cplane.pyx:45-48 cevaluate_plane, 67-71 evaluate_plane *)
Definition evaluate_plane (pln : plane) (p : v3) : v3 :=
  vadd (vadd (vadd (pl_o pln) (vscale (vx p) (pl_x pln))) (vscale (vy p) (pl_y pln))) (vscale (vz p) (pl_n pln)).

(* cplane.pyx:54-59 cinverse_evaluate_plane, 77-80 inverse_evaluate_plane *)
Definition inverse_evaluate_plane (pln : plane) (p : v3) : v3 :=
  let d := vsub p (pl_o pln) in
  mkv (vdot d (pl_x pln)) (vdot d (pl_y pln)) (vdot d (pl_n pln)).

(* cplane.pyx:86-93 evaluate_plane_arr *)
Definition evaluate_plane_arr (pln : plane) (ps : list v3) : list v3 := map (evaluate_plane pln) ps.

(* cplane.pyx:99-106 inverse_evaluate_plane_arr *)
Definition inverse_evaluate_plane_arr (pln : plane) (ps : list v3) : list v3 := map (inverse_evaluate_plane pln) ps.

(* ---- linear systems ---- *)

(* cplane.pyx:18-23 and 34-39 the while loop *)
Fixpoint max_row_loop (fuel : nat) (m : mat) (i l r : Z) : res Z :=
  match fuel with
  | O => Err OutOfFuel
  | S f =>
    if (l <? r)%Z then
      let mid := ((l + r) / 2)%Z in
      do a <- rdM m mid i ;
      do b <- rdM m (mid + 1) i ;
      if qlt (fabs b) (fabs a) then max_row_loop f m i l mid else max_row_loop f m i (mid + 1) r
    else Ok l
  end.

(* cplane.pyx:13-24 find_max_row, 29-40 find_max_row_3x3 *)
Definition find_max_row (m : mat) (i n : Z) : res Z := max_row_loop (S (Z.to_nat n)) m i i (n - 1).

(* cplane.pyx:128-138 and 169-179 the exchange of two rows *)
Definition swap_rows (n i r : Z) (st : mat * list Qc) : res (mat * list Qc) :=
  let '(m, v) := st in
  do m' <- forZ 0 n m (fun h m =>
    do t1 <- rdM m i h ;
    do t2 <- rdM m r h ;
    do m1 <- wrM m i h t2 ;
    wrM m1 r h t1) ;
  do t1 <- rdZ v r ;
  do t2 <- rdZ v i ;
  do v1 <- wrZ v i t1 ;
  do v2 <- wrZ v1 r t2 ;
  Ok (m', v2).

(* cplane.pyx:142-147 and 183-188 one row below the pivot *)
Definition elim_row (n i j : Z) (st : mat * list Qc) : res (mat * list Qc) :=
  let '(m, v) := st in
  do a <- rdM m j i ;
  do b <- rdM m i i ;
  do factor <- divR a b ;
  do m' <- forZ i n m (fun k m =>
    do x <- rdM m j k ;
    do y <- rdM m i k ;
    wrM m j k (x - factor * y)) ;
  do vj <- rdZ v j ;
  do vi <- rdZ v i ;
  do v' <- wrZ v j (vj - factor * vi) ;
  Ok (m', v').

(* cplane.pyx:125-147 and 166-188 the loop over i *)
Definition elim_col (n i : Z) (st : mat * list Qc) : res (mat * list Qc) :=
  do r <- find_max_row (fst st) i n ;
  do st' <- (if (i =? r)%Z then Ok st else swap_rows n i r st) ;
  forZ (i + 1) n st' (elim_row n i).

(* cplane.pyx:149-154 and 190-195 back substitution *)
Definition back_row (n : Z) (m : mat) (i : Z) (st : list Qc * list Qc) : res (list Qc * list Qc) :=
  let '(v, x) := st in
  let k := (n - 1 - i)%Z in
  do a <- rdZ v k ;
  do b <- rdM m k k ;
  do q <- divR a b ;
  do x' <- wrZ x k q ;
  do v' <- forZ 0 k v (fun j v =>
    do vj <- rdZ v j ;
    do mk <- rdM m j k ;
    do xk <- rdZ x' k ;
    wrZ v j (vj - mk * xk)) ;
  Ok (v', x').

(* cplane.pyx:119-154 solve_system_5x5 (n = 5), 160-195 solve_system_3x3 (n = 3);
   x0 is what the array of unknowns holds before *)
Definition solve_system (n : Z) (m : mat) (v x0 : list Qc) : res (list Qc) :=
  do (m1, v1) <- forZ 0 n (m, v) (elim_col n) ;
  do (_, x) <- forZ 0 n (v1, x0) (back_row n m1) ;
  Ok x.

(* three entries read out of an array, cplane.pyx:246-248 *)
Definition first3 (x : list Qc) : res v3 :=
  do a <- rdZ x 0 ; do b <- rdZ x 1 ; do c <- rdZ x 2 ; Ok (mkv a b c).

(* a row as a list, cplane.pyx:345-347 *)
Definition lst (v : v3) : list Qc := [vx v; vy v; vz v].

(* cplane.pyx:362-388 cplane_plane_plane_intersect_points_and_normals, 402-415;
   the output array of np.empty holds [junk] before *)
Definition ppp_points_and_normals (junk : v3) (p1 n1 p2 n2 p3 n3 : v3) : res v3 :=
  do x <- solve_system 3 [lst n1; lst n2; lst n3] [vdot p1 n1; vdot p2 n2; vdot p3 n3] (lst junk) ;
  first3 x.

(* cplane.pyx:339-359 cplane_plane_plane_intersect, 394-399 plane_plane_plane_intersect *)
Definition plane_plane_plane_intersect (junk : v3) (a b c : plane) : res v3 :=
  ppp_points_and_normals junk (pl_o a) (pl_n a) (pl_o b) (pl_n b) (pl_o c) (pl_n c).

(* cplane.pyx:221-235 and 259-273 the matrix of the 5 by 5 system *)
Definition pp_matrix (n1 n2 : v3) : mat :=
  [ [1 + 1; 0; 0; vx n1; vx n2];
    [0; 1 + 1; 0; vy n1; vy n2];
    [0; 0; 1 + 1; vz n1; vz n2];
    [vx n1; vy n1; vz n1; 0; 0];
    [vx n2; vy n2; vz n2; 0; 0] ].

(* double[:,:] result of shape (2, 3): a point and a direction, cplane.pyx:246-249 *)
Record line : Type := mkln { ln_p : v3; ln_d : v3 }.

(* cplane.pyx:253-287 cplane_plane_normal_intersect, 297-301; the C array of the
   solution holds [junk] before *)
Definition pp_normal_intersect (junk : list Qc) (o1 n1 o2 n2 : v3) : res line :=
  do x <- solve_system 5 (pp_matrix n1 n2) (lst o1 ++ [vdot o1 n1; vdot o2 n2]) junk ;
  do p <- first3 x ;
  Ok (mkln p (vcross n1 n2)).

(* cplane.pyx:214-249 cplane_plane_intersect, 291-294 plane_plane_intersect *)
Definition plane_plane_intersect (junk : list Qc) (a b : plane) : res line :=
  pp_normal_intersect junk (pl_o a) (pl_n a) (pl_o b) (pl_n b).

(* an array of shape (4, 3) or (k, 4, 3), cplane.pyx:447-462 *)
Inductive planes : Type := One (p : plane) | Many (ps : list plane).
(* an array of shape (2, 3) or (k, 2, 3), cplane.pyx:447-462; the rows whose
   numbers are not finite are kept apart *)
Inductive lines : Type := OneL (l : res line) | ManyL (ls : list (res line)).

(* cplane.pyx:305-308 cplanes_plane_intersect *)
Definition planes_plane_loop (junk : list Qc) (ps : list plane) (q : plane) : list (res line) :=
  map (fun p => plane_plane_intersect junk p q) ps.

(* cplane.pyx:321-324 cplanes_planes_intersect; a row past the end of the second
   array is an IndexError here *)
Fixpoint planes_planes_loop (junk : list Qc) (ps qs : list plane) : list (res line) :=
  match ps, qs with
  | [], _ => []
  | p :: ps', [] => Err IndexError :: planes_planes_loop junk ps' []
  | p :: ps', q :: qs' => plane_plane_intersect junk p q :: planes_planes_loop junk ps' qs'
  end.

(* cplane.pyx:421-470 plane_plane_intersection, arrays of up to three dimensions *)
Definition plane_plane_intersection (junk : list Qc) (a b : planes) : lines :=
  match a, b with
  | Many ps, Many qs => ManyL (planes_planes_loop junk ps qs)
  | Many ps, One q => ManyL (planes_plane_loop junk ps q)
  | One p, Many qs => ManyL (planes_plane_loop junk qs p)
  | One p, One q => OneL (plane_plane_intersect junk p q)
  end.

(* cplane.pyx:328-334 planes_planes_intersect: there is no return statement, and
   the caller of a function typed double[:,:,:] raises TypeError when no value was set *)
Definition planes_planes_intersect (junk : list Qc) (ps qs : list plane) : res (list (res line)) :=
  if Nat.eqb (length ps) (length qs) then
    let rows := planes_planes_loop junk ps qs in Err TypeError
  else Err ValueError.

(* ---- rays ---- *)

(* the constant 1e-15, cplane.pyx:521, plane/__init__.py:181 *)
Definition tiny : Qc := Q2Qc (1 # 10 ^ 15).

(* cplane.pyx:499-541 _ray_plane_intersect *)
Definition ray_plane_core (po pn ro rd : v3) : res (option v3) :=
  let denom := vdot pn rd in
  if qlt (fabs denom) tiny then Ok None
  else
    let numer := vdot pn (vsub po ro) in
    do t <- divR numer denom ;
    if qlt t 0 then Ok None else Ok (Some (vadd ro (vscale t rd))).

(* cplane.pyx:544-583 ray_plane_intersection *)
Definition ray_plane_intersection (pln : list v3) (ray : line) : res (option v3) :=
  do po <- rdZ pln 0 ;
  do pn <- rdZ pln 1 ;
  ray_plane_core po pn (ln_p ray) (ln_d ray).

(* plane/__init__.py:196-209 plane_ray_intersection; pln is a local name that is
   bound only for four rows *)
Definition plane_ray_intersection (pln : list v3) (ray : line) : res (option v3) :=
  do pln2 <- (if (lenZ pln =? 4)%Z then
      do o <- rdZ pln 0 ; do n <- rdZ pln 3 ; Ok [o; n]
    else Err AttributeError (* UnboundLocalError *)) ;
  ray_plane_intersection pln2 ray.

(* plane/__init__.py:181-193 plane_line_intersection with full_return *)
Definition plane_line_intersection (pln : plane) (ln : line) (tol : Qc) : res (option (v3 * Qc * v3)) :=
  let ndotu := vdot (pl_n pln) (ln_d ln) in
  if qlt (fabs ndotu) tol then Ok None
  else
    let w := vsub (ln_p ln) (pl_o pln) in
    do si <- divR (- vdot (pl_n pln) w) ndotu ;
    Ok (Some (w, si, vadd (vadd w (vscale si (ln_d ln))) (pl_o pln))).

(* cplane.pyx:589-687 _ray_param_plane_intersect, 690-741 ray_plane_parametric_intersection *)
Definition ray_plane_parametric (pln : plane) (ray : line) : res (option (v3 * (Qc * Qc))) :=
  do h <- ray_plane_core (pl_o pln) (pl_n pln) (ln_p ray) (ln_d ray) ;
  match h with
  | None => Ok None
  | Some hit =>
    let diff := vsub hit (pl_o pln) in
    let a := vdot (pl_x pln) (pl_x pln) in
    let b := vdot (pl_x pln) (pl_y pln) in
    let c := vdot (pl_y pln) (pl_y pln) in
    let xd := vdot (pl_x pln) diff in
    let yd := vdot (pl_y pln) diff in
    let det := a * c - b * b in
    if qlt (fabs det) tiny then Ok None
    else
      do u <- divR (xd * c - b * yd) det ;
      do v <- divR (- b * xd + a * yd) det ;
      Ok (Some (hit, (u, v)))
  end.

(* ---- plane equations ---- *)

(* four coefficients, plane/__init__.py:130-135 *)
Record peq : Type := mkpe { pe_a : Qc; pe_b : Qc; pe_c : Qc; pe_d : Qc }.

(* plane/__init__.py:112-135 plane_eq_from_pts *)
Definition plane_eq_from_pts (p0 p1 p2 : v3) : peq :=
  let x3 := vy p0 * vz p1 in
  let x4 := vy p1 * vz p2 in
  let x5 := vy p2 * vz p0 in
  mkpe (x3 + x4 + x5 - vy p0 * vz p2 - vy p1 * vz p0 - vy p2 * vz p1)
       (- vx p0 * vz p1 + vx p0 * vz p2 + vx p1 * vz p0 - vx p1 * vz p2 - vx p2 * vz p0 + vx p2 * vz p1)
       (vx p0 * vy p1 - vx p0 * vy p2 - vx p1 * vy p0 + vx p1 * vy p2 + vx p2 * vy p0 - vx p2 * vy p1)
       (- vx p0 * x4 + vx p0 * vy p2 * vz p1 - vx p1 * x5 + vx p1 * vy p0 * vz p2 - vx p2 * x3
          + vx p2 * vy p1 * vz p0).

(* plane/__init__.py:264-266 plane_signed_distance *)
Definition plane_signed_distance (e : peq) (pts : list v3) : list Qc :=
  map (fun p => pe_a e * vx p + pe_b e * vy p + pe_c e * vz p + pe_d e) pts.

(* plane/__init__.py:148-151 _mycross *)
Definition mycross (a b : v3) : v3 :=
  mkv (vy a * vz b - vy b * vz a) (vz a * vx b - vz b * vx a) (vx a * vy b - vx b * vy a).

(* WORLD_XY, plane/__init__.py:14-17 *)
Definition WORLD_XY : plane := mkpl (mkv 0 0 0) (mkv 1 0 0) (mkv 0 1 0) (mkv 0 0 1).

(* the default tol of 1e-5, plane/__init__.py:74 and 138 *)
Definition tol5 : Qc := Q2Qc (1 # 10 ^ 5).

(* plane/__init__.py:138-145 perp_to_vector *)
Definition perp_to_vector (v : v3) (tol : Qc) : v3 :=
  if qle tol (vdot v v) then
    if qle tol (fabs (vx v)) || qle tol (fabs (vy v)) then mycross v (pl_n WORLD_XY)
    else mycross v (pl_x WORLD_XY)
  else mkv 0 0 0.

(* plane/__init__.py:84-87 project_point_by_normal *)
Definition project_point_by_normal (p n o : v3) : v3 :=
  let v := vsub p o in
  let dst := vx v * vx n + vy v * vy n + vz v * vz n in
  vsub p (vscale dst n).

(* plane/__init__.py:224-235 project *)
Definition project (pln : plane) (p : v3) : v3 :=
  vsub p (vscale (vdot (pl_n pln) (vsub p (pl_o pln))) (pl_n pln)).

Section Sqrt.
Variable sqrt : Qc -> Qc.

(* vectors.pyx:363-376 scalar_unit *)
Definition scalar_unit (v : v3) : res v3 := vdiv v (scalar_norm sqrt v).

(* plane/__init__.py:34-43 distance *)
Definition distance (pln : plane) (p : v3) : res Qc :=
  let n := pl_n pln in
  let d := vsub p (pl_o pln) in
  let nn := sqrt (vx n * vx n + vy n * vy n + vz n * vz n) in
  do a <- divR (vx n * vx d) nn ;
  do b <- divR (vy n * vy d) nn ;
  do c <- divR (vz n * vz d) nn ;
  Ok (fabs (a + b + c)).

(* plane/__init__.py:90-100 plane_from_3pt *)
Definition plane_from_3pt (p0 p1 p2 : v3) : res (plane * peq) :=
  let e := plane_eq_from_pts p0 p1 p2 in
  do N <- scalar_unit (mkv (pe_a e) (pe_b e) (pe_c e)) ;
  do xax <- scalar_unit (vsub p1 p0) ;
  let yax := vcross N xax in
  Ok (mkpl p0 xax yax N, e).

(* plane/__init__.py:102-110 plane_from_eq *)
Definition plane_from_eq (e : peq) : res (v3 * v3) :=
  do N <- scalar_unit (mkv (pe_a e) (pe_b e) (pe_c e)) ;
  Ok (vscale (pe_d e) N, N).

(* plane/__init__.py:74-81 plane_from_normal2 *)
Definition plane_from_normal2 (o n : v3) (tol : Qc) : res plane :=
  do n' <- (if qle (vdot n n) tol then Ok (mkv 0 0 1) else scalar_unit n) ;
  do xa <- scalar_unit (perp_to_vector n' tol5) ;
  do ya <- scalar_unit (mycross xa n') ;
  Ok (mkpl o xa ya n').

(* plane/__init__.py:216-221 plane_from_normal_origin *)
Definition plane_from_normal_origin (n o : v3) : res plane :=
  let pr := project_point_by_normal (mkv 0 0 0) n o in
  let xn := vsub pr o in
  do xa <- vdiv xn (scalar_norm sqrt xn) ;
  Ok (mkpl o xa (vcross n xa) n).
End Sqrt.

(* ---- local and world coordinates of plane objects ---- *)

(* what the argument pln can be: an array, or an object with the attributes
   origin, xaxis, yaxis, zaxis, plane/__init__.py:245-262 *)
Inductive plnarg : Type := ArrayP (p : plane) | ObjectP (p : plane).

(* pln.origin and the other attributes, plane/__init__.py:258-261 *)
Definition attrs (a : plnarg) : res plane :=
  match a with ArrayP _ => Err AttributeError | ObjectP p => Ok p end.

(* plane/__init__.py:245-262 local_to_world *)
Definition local_to_world (p : v3) (a : plnarg) : res v3 :=
  do pln <- attrs a ;
  Ok (vadd (vadd (vadd (vadd (mkv 0 0 0) (pl_o pln)) (vscale (vx p) (pl_x pln))) (vscale (vy p) (pl_y pln)))
        (vscale (vz p) (pl_n pln))).

(* plane/__init__.py:245 the default value of pln *)
Definition local_to_world_default (p : v3) : res v3 := local_to_world p (ArrayP WORLD_XY).

(* plane/__init__.py:267-269 world_to_local *)
Definition world_to_local (p : v3) (a : plnarg) : res v3 :=
  do pln <- attrs a ;
  let d := vsub p (pl_o pln) in
  Ok (mkv (vdot (pl_x pln) d) (vdot (pl_y pln) d) (vdot (pl_n pln) d)).
