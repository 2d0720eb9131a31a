(* Model of NURBSSurface in mmcore/geom/nurbs.pyx / nurbs.pxd: evaluation,
   knot insertion, splitting, subdivision and decomposition of surfaces.
   Same conventions as NurbsModel.v.  Control points are homogeneous here:
   a row holds (w x, w y, w z, w). *)
From Coq Require Import List ZArith Bool QArith Qcanon.
From Verif Require Import Common QcLib ArrZ NurbsModel NurbsEditModel.
Import ListNotations.
Local Open Scope Z_scope.
Local Open Scope Qc_scope.

(* double[:,:,:] arrays of rows: first index u, second index v  [for rd2, nurbs.pxd:320-327] *)
Definition grid : Type := list (list pt).

(* for grid_col, nurbs.pyx:2598-2635 *)
Fixpoint mapR {A B} (f : A -> res B) (l : list A) : res (list B) :=
  match l with
  | [] => Ok []
  | a :: r => do b <- f a ; do bs <- mapR f r ; Ok (b :: bs)
  end.

(* 0, 1, ..., n-1  [for from_cols, nurbs.pyx:2598-2635] *)
Definition ixs (n : Z) : list Z := map Z.of_nat (seq 0 (Z.to_nat n)).

(* P[i][j]  [for temp_entry, nurbs.pxd:320-327] *)
Definition rd2 (G : grid) (i j : Z) : res pt := do r <- rdZ G i ; rdZ r j.

(* cpts[:, v, :]  [for insert_knot_u, nurbs.pyx:2598-2635] *)
Definition grid_col (G : grid) (v : Z) : res (list pt) := mapR (fun r => rdZ r v) G.

(* the array whose [:, v, :] are the given columns  [for insert_knot_u, nurbs.pyx:2598-2635] *)
Definition from_cols (n : Z) (cols : list (list pt)) : res grid :=
  mapR (fun i => mapR (fun c => rdZ c i) cols) (ixs n).

(* for temp_entry, nurbs.pxd:320-327 *)
Definition padd (a b : pt) : pt := mkpt (px a + px b) (py a + py b) (pz a + pz b) (pw a + pw b).
(* for temp_entry, nurbs.pxd:320-327 *)
Definition pscale (k : Qc) (a : pt) : pt := mkpt (k * px a) (k * py a) (k * pz a) (k * pw a).

(* nurbs.pxd:320-327 one entry of temp: the loop over k *)
Definition temp_entry (uspan p col : Z) (Pw : grid) (Nu : list Qc) : res pt :=
  forZ 0 (p + 1) (mkpt 0 0 0 0) (fun k acc =>
    do nk <- rdZ Nu k ;
    do c <- rd2 Pw (uspan - p + k) col ;
    Ok (padd acc (pscale nk c))).

(* nurbs.pxd:302-344 surface_point; the malloc'ed buffers start as zeros (they
   are written before they are read) *)
Definition surface_point (n p : Z) (U : list Qc) (m q : Z) (V : list Qc) (Pw : grid) (u v : Qc)
  (periodic_u periodic_v : bool) : res (Qc * Qc * Qc) :=
  do uspan <- find_span n p u U periodic_u ;
  do Nu <- basis_funs uspan u p U (repeat (0 : Qc) (Z.to_nat (p + 1))) ;
  do vspan <- find_span m q v V periodic_v ;
  do Nv <- basis_funs vspan v q V (repeat (0 : Qc) (Z.to_nat (q + 1))) ;
  do temp <- forZ 0 (q + 1) (repeat (mkpt 0 0 0 0) (Z.to_nat (q + 1))) (fun l temp =>
    do e <- temp_entry uspan p (vspan - q + l) Pw Nu ; wrZ temp l e) ;
  do r <- forZ 0 (q + 1) (mkpt 0 0 0 0) (fun l r =>
    do nl <- rdZ Nv l ; do t <- rdZ temp l ; Ok (padd r (pscale nl t))) ;
  do x <- divR (px r) (pw r) ;
  do y <- divR (py r) (pw r) ;
  do z <- divR (pz r) (pw r) ;
  Ok (x, y, z).

(* The fields of a NURBSSurface object (nurbs.pxd:470-486). _size is the
   shape of the control point array. *)
Record surface : Type := mksurf {
  s_pts : grid;
  s_du : Z;
  s_dv : Z;
  s_ku : list Qc;
  s_kv : list Qc;
  s_int : (Qc * Qc) * (Qc * Qc)
}.
(* nurbs.pxd:470-486 *)
Definition s_nu (s : surface) : Z := lenZ (s_pts s).
(* nurbs.pxd:470-486 *)
Definition s_nv (s : surface) : Z := lenZ (hd [] (s_pts s)).

(* nurbs.pyx:2391-2395 _update_interval *)
Definition surface_interval (ku kv : list Qc) : res ((Qc * Qc) * (Qc * Qc)) :=
  do iu <- update_interval ku ;
  do iv <- update_interval kv ;
  Ok (iu, iv).

(* nurbs.pyx:2391-2395 *)
Definition update_surface (P : grid) (du dv : Z) (ku kv : list Qc) : res surface :=
  do i <- surface_interval ku kv ;
  Ok (mksurf P du dv ku kv i).

(* nurbs.pyx:2291-2325 __init__ and 2258-2290 create on a four-column array;
   generate_knots_u/v (2398-2456) build the same array as the curve's
   generate_knots. *)
Definition new_surface (P : grid) (du dv : Z) (ku kv : option (list Qc)) : res surface :=
  let nu := lenZ P in
  let nv := lenZ (hd [] P) in
  update_surface P du dv
    (match ku with Some k => k | None => generate_knots nu du end)
    (match kv with Some k => k | None => generate_knots nv dv end).

(* nurbs.pyx:2304-2312 a three-column array gets weight 1 *)
Definition weigh (v : Qc * Qc * Qc) : pt := let '(x, y, z) := v in mkpt x y z 1.
(* nurbs.pyx:2304-2312 *)
Definition new_surface3 (P : list (list (Qc * Qc * Qc))) (du dv : Z) (ku kv : option (list Qc)) : res surface :=
  new_surface (map (map weigh) P) du dv ku kv.

(* nurbs.pyx:2340-2354 control_points: Euclidean coordinates *)
Definition euclid (q : pt) : res (Qc * Qc * Qc) :=
  if qeq (pw q) 1 then Ok (px q, py q, pz q)
  else do x <- divR (px q) (pw q) ; do y <- divR (py q) (pw q) ; do z <- divR (pz q) (pw q) ; Ok (x, y, z).
(* nurbs.pyx:2340-2354 *)
Definition control_points (s : surface) : res (list (list (Qc * Qc * Qc))) :=
  mapR (mapR euclid) (s_pts s).

(* nurbs.pyx:2328-2331, 2374-2377 knots_u / knots_v setters *)
Definition set_knots_u (s : surface) (k : list Qc) : res surface :=
  update_surface (s_pts s) (s_du s) (s_dv s) k (s_kv s).
(* nurbs.pyx:2374-2377 *)
Definition set_knots_v (s : surface) (k : list Qc) : res surface :=
  update_surface (s_pts s) (s_du s) (s_dv s) (s_ku s) k.

(* nurbs.pyx:2382-2387 degree setter: _update_interval is not called *)
Definition set_degree (s : surface) (du dv : Z) : surface :=
  mksurf (s_pts s) du dv (generate_knots (s_nu s) du) (generate_knots (s_nv s) dv) (s_int s).

(* nurbs.pyx:2461-2462 cevaluate *)
Definition evaluate_surface (s : surface) (u v : Qc) : res (Qc * Qc * Qc) :=
  surface_point (s_nu s - 1) (s_du s) (s_ku s) (s_nv s - 1) (s_dv s) (s_kv s) (s_pts s) u v false false.

(* nurbs.pyx:2523-2544 cnormalize_knots_u / _v *)
Definition normalize_kv (k : list Qc) : res (list Qc) :=
  do mx <- rdZ k (lenZ k - 1) ;
  do mn <- rdZ k 0 ;
  mapR (fun x => divR (x - mn) (mx - mn)) k.

(* nurbs.pyx:2556-2558 normalize_knots *)
Definition normalize_surface (s : surface) : res surface :=
  do ku <- normalize_kv (s_ku s) ;
  do kv <- normalize_kv (s_kv s) ;
  update_surface (s_pts s) (s_du s) (s_dv s) ku kv.

(* nurbs.pyx:2598-2635 insert_knot_u.  [junk i v] is what the reallocated
   array holds at [i, v] before it is written. *)
Definition insert_knot_u (s : surface) (t : Qc) (count : Z) (junk : Z -> Z -> pt) : res surface :=
  let new_nu := (s_nu s + count)%Z in
  do span <- find_span (s_nu s - 1) (s_du s) t (s_ku s) false ;
  do kv <- knot_insertion_kv (s_ku s) t span count ;
  do m <- find_multiplicity t (s_ku s) ;
  do cols <- mapR (fun v =>
      do c <- grid_col (s_pts s) v ;
      knot_insertion (s_du s) (s_ku s) c t count m span (map (fun i => junk i v) (ixs new_nu)))
    (ixs (s_nv s)) ;
  do P <- from_cols new_nu cols ;
  update_surface P (s_du s) (s_dv s) kv (s_kv s).

(* nurbs.pyx:2658-2694 insert_knot_v *)
Definition insert_knot_v (s : surface) (t : Qc) (count : Z) (junk : Z -> Z -> pt) : res surface :=
  let new_nv := (s_nv s + count)%Z in
  do span <- find_span (s_nv s - 1) (s_dv s) t (s_kv s) false ;
  do kv <- knot_insertion_kv (s_kv s) t span count ;
  do m <- find_multiplicity t (s_kv s) ;
  do P <- mapR (fun u =>
      do r <- rdZ (s_pts s) u ;
      knot_insertion (s_dv s) (s_kv s) r t count m span (map (fun j => junk u j) (ixs new_nv)))
    (ixs (s_nu s)) ;
  update_surface P (s_du s) (s_dv s) (s_ku s) kv.

(* nurbs.pyx:2651-2652 bbox: aabb (42-72) of the flattened points *)
Definition surface_bbox (s : surface) : res box3 :=
  match concat (s_pts s) with
  | [] => Err IndexError
  | q :: r => do v <- bbox_row q ; bbox_loop (v, v) r
  end.

(* nurbs.pyx:2712, 2785: the test for the domain edge *)
Definition at_edge (param tol : Qc) (iv : Qc * Qc) : bool :=
  qle param (fst iv) || qle (snd iv) param
  || qle (qabs (param - fst iv)) tol || qle (qabs (param - snd iv)) tol.

(* nurbs.pyx:2730-2748, 2803-2821: the two knot vectors *)
Definition first_kv (tk : list Qc) (knot_span : Z) (param : Qc) : list Qc :=
  slice_to tk knot_span ++ [param].
(* for split_surface_u, nurbs.pyx:2703-2769 *)
Definition second_kv (tk : list Qc) (knot_span degree : Z) (param : Qc) : list Qc :=
  repeat param (Z.to_nat (degree + 1)) ++ slice_from tk knot_span.

(* nurbs.pyx:2703-2769 split_surface_u *)
Definition split_surface_u (s : surface) (param tol : Qc) (junk : Z -> Z -> pt) : res (surface * surface) :=
  if at_edge param tol (fst (s_int s)) then Err ValueError
  else
    do sp <- find_span (s_nu s) (s_du s) param (s_ku s) false ;
    let ks := (sp - s_du s + 1)%Z in
    do m <- find_multiplicity param (s_ku s) ;
    let r := (s_du s - m)%Z in
    do tmp <- insert_knot_u s param r junk ;
    do sp2 <- find_span (s_nu tmp) (s_du s) param (s_ku tmp) false ;
    let knot_span := (sp2 + 1)%Z in
    do s1 <- new_surface (slice_to (s_pts tmp) (ks + r)) (s_du s) (s_dv s)
               (Some (first_kv (s_ku tmp) knot_span param)) (Some (s_kv s)) ;
    do s2 <- new_surface (slice_from (s_pts tmp) (ks + r - 1)) (s_du s) (s_dv s)
               (Some (second_kv (s_ku tmp) knot_span (s_du s) param)) (Some (s_kv s)) ;
    Ok (s1, s2).

(* nurbs.pyx:2775-2841 split_surface_v *)
Definition split_surface_v (s : surface) (param tol : Qc) (junk : Z -> Z -> pt) : res (surface * surface) :=
  if at_edge param tol (snd (s_int s)) then Err ValueError
  else
    do sp <- find_span (s_nv s) (s_dv s) param (s_kv s) false ;
    let ks := (sp - s_dv s + 1)%Z in
    do m <- find_multiplicity param (s_kv s) ;
    let r := (s_dv s - m)%Z in
    do tmp <- insert_knot_v s param r junk ;
    do sp2 <- find_span (s_nv tmp) (s_dv s) param (s_kv tmp) false ;
    let knot_span := (sp2 + 1)%Z in
    do s1 <- new_surface (map (fun row => slice_to row (ks + r)) (s_pts tmp)) (s_du s) (s_dv s)
               (Some (s_ku s)) (Some (first_kv (s_kv tmp) knot_span param)) ;
    do s2 <- new_surface (map (fun row => slice_from row (ks + r - 1)) (s_pts tmp)) (s_du s) (s_dv s)
               (Some (s_ku s)) (Some (second_kv (s_kv tmp) knot_span (s_dv s) param)) ;
    Ok (s1, s2).

(* nurbs.pyx:2846-2863 subdivide_surface *)
Definition subdivide_surface (s : surface) (u v tol : Qc) (normalize : bool) (j1 j2 j3 : Z -> Z -> pt)
  : res (surface * surface * surface * surface) :=
  let norm x := if normalize then normalize_surface x else Ok x in
  do (a, b) <- split_surface_u s u tol j1 ;
  do s1 <- norm a ;
  do s2 <- norm b ;
  do (a1, a2) <- split_surface_v s1 v tol j2 ;
  do (b1, b2) <- split_surface_v s2 v tol j3 ;
  do s11 <- norm a1 ;
  do s12 <- norm a2 ;
  do s21 <- norm b1 ;
  do s22 <- norm b2 ;
  Ok (s11, s12, s21, s22).

(* sorted(set(l))  [for sorted_set, nurbs.pyx:2890-2907] *)
Fixpoint insert_sorted (x : Qc) (l : list Qc) : list Qc :=
  match l with
  | [] => [x]
  | y :: r => if qlt x y then x :: l else if qeq x y then l else y :: insert_sorted x r
  end.
(* for decompose_direction, nurbs.pyx:2890-2907 *)
Definition sorted_set (l : list Qc) : list Qc := fold_right insert_sorted [] l.

(* knots[degree + 1 : -(degree + 1)], degree >= 0  [for decompose_direction, nurbs.pyx:2890-2907] *)
Definition inner_slice (knots : list Qc) (degree : Z) : list Qc :=
  firstn (length knots - 2 * Z.to_nat (degree + 1)) (skipn (Z.to_nat (degree + 1)) knots).

(* nurbs.pyx:2896-2907 the loop of decompose_direction; tol is split's
   default 1e-7, [junk k] the memory of the k-th split *)
Definition split_tol : Qc := Q2Qc (1 # (10 ^ 7)).
(* nurbs.pyx:2896-2907 *)
Fixpoint decompose_loop (dir_u : bool) (s : surface) (ks : list Qc) (k : nat) (junk : nat -> Z -> Z -> pt)
  : res (list surface) :=
  match ks with
  | [] => Ok [s]
  | t :: r =>
      do (a, b) <- (if dir_u then split_surface_u s t split_tol (junk k)
                    else split_surface_v s t split_tol (junk k)) ;
      do l <- decompose_loop dir_u b r (S k) junk ;
      Ok (a :: l)
  end.

(* nurbs.pyx:2890-2907 decompose_direction inside decompose_surface *)
Definition decompose_direction (dir_u : bool) (s : surface) (junk : nat -> Z -> Z -> pt) : res (list surface) :=
  let ks := if dir_u then inner_slice (s_ku s) (s_du s) else inner_slice (s_kv s) (s_dv s) in
  decompose_loop dir_u s (sorted_set ks) 0 junk.

(* nurbs.pyx:2889-2936 decompose_surface; the argument normalize_knots is
   never used.  [junk k] is the memory used by the k-th call of
   decompose_direction. *)
Inductive dir : Type := DirU | DirV | DirUV | DirOther.
(* for decompose_surface, nurbs.pyx:2889-2936 *)
Fixpoint decompose_all (l : list surface) (k : nat) (junk : nat -> nat -> Z -> Z -> pt) : res (list surface) :=
  match l with
  | [] => Ok []
  | s :: r =>
      do a <- decompose_direction false s (junk k) ;
      do b <- decompose_all r (S k) junk ;
      Ok (a ++ b)
  end.
(* nurbs.pyx:2889-2936 *)
Definition decompose_surface (s : surface) (d : dir) (junk : nat -> nat -> Z -> Z -> pt) : res (list surface) :=
  match d with
  | DirU => decompose_direction true s (junk 0%nat)
  | DirV => decompose_direction false s (junk 0%nat)
  | DirUV => do us <- decompose_direction true s (junk 0%nat) ; decompose_all us 1 junk
  | DirOther => Err ValueError
  end.
