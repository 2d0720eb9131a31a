(* Model of mmcore/numeric/_aabb.pyx and of the box predicates of
   mmcore/numeric/aabb.py.  Doubles are exact rationals (no rounding, NaN or
   infinities).  A read or write outside an array is reported as IndexError;
   in the compiled code bounds checks are off and it is undefined behaviour. *)
From Coq Require Import List ZArith Bool QArith Qcanon.
From Verif Require Import Common QcLib ArrZ.
Import ListNotations.
Local Open Scope Z_scope.
Local Open Scope Qc_scope.

(* for aabb_segm3d, _aabb.pyx:25-31 *)
Definition fmin (a b : Qc) : Qc := if qlt b a then b else a.
(* for aabb_segm3d, _aabb.pyx:25-31 *)
Definition fmax (a b : Qc) : Qc := if qlt a b then b else a.
(* for slab_step, _aabb.pyx:208-231 *)
Definition fabs (a : Qc) : Qc := if qlt a 0 then - a else a.

(* points[j, i]  [for caabb, _aabb.pyx:50-79] *)
Definition rd2 (points : list (list Qc)) (j i : Z) : res Qc := do r <- rdZ points j ; rdZ r i.

(* _aabb.pyx:50-79 caabb; K = points.shape[1] *)
Definition caabb (K : Z) (points : list (list Qc)) (mm : list Qc * list Qc) : res (list Qc * list Qc) :=
  do mm1 <- forZ 0 K mm (fun i mm =>
    do v <- rd2 points 0 i ;
    do mn <- wrZ (fst mm) i v ;
    do mx <- wrZ (snd mm) i v ;
    Ok (mn, mx)) ;
  forZ 1 (lenZ points) mm1 (fun j mm =>
    forZ 0 K mm (fun i mm =>
      do p <- rd2 points j i ;
      do a <- rdZ (fst mm) i ;
      do mn <- (if qlt p a then wrZ (fst mm) i p else Ok (fst mm)) ;
      do b <- rdZ (snd mm) i ;
      do mx <- (if qlt b p then wrZ (snd mm) i p else Ok (snd mm)) ;
      Ok (mn, mx))).

(* _aabb.pyx:84-89 aabb; the default output array is 2 x 3 whatever K is *)
Definition zeros (n : nat) : list Qc := repeat 0 n.
(* _aabb.pyx:84-89 *)
Definition aabb (K : Z) (points : list (list Qc)) (bb : option (list Qc * list Qc)) : res (list Qc * list Qc) :=
  caabb K points (match bb with None => (zeros 3, zeros 3) | Some b => b end).

(* for box3, _aabb.pyx:25-31 *)
Definition v3 := (Qc * Qc * Qc)%type.
(* for aabb_segm3d, _aabb.pyx:25-31 *)
Definition box3 := (v3 * v3)%type.
(* for aabb_segm3d, _aabb.pyx:25-31 *)
Definition vx (v : v3) := fst (fst v).
(* for aabb_segm3d, _aabb.pyx:25-31 *)
Definition vy (v : v3) := snd (fst v).
(* for aabb_segm3d, _aabb.pyx:25-31 *)
Definition vz (v : v3) := snd v.

(* _aabb.pyx:25-31 caabb_segm3d *)
Definition aabb_segm3d (s e : v3) : box3 :=
  ((fmin (vx s) (vx e), fmin (vy s) (vy e), fmin (vz s) (vz e)),
   (fmax (vx s) (vx e), fmax (vy s) (vy e), fmax (vz s) (vz e))).

(* _aabb.pyx:94-100 caabb_intersect, on columns (min1, max1, min2, max2); the
   result for no column at all is an uninitialised variable *)
Fixpoint caabb_intersect (cols : list (Qc * Qc * (Qc * Qc))) : bool :=
  match cols with
  | [] => true
  | ((a0, a1), (b0, b1)) :: r => if qle a0 b1 && qle b0 a1 then caabb_intersect r else false
  end.

(* _aabb.pyx:107-115 aabb_intersect_fast_3d; 122-124 caabb_intersect_3d; the
   3-column branch of aabb.py:49-56 aabb_overlap *)
Definition aabb_intersect_3d (b1 b2 : box3) : bool :=
  qle (vx (fst b1)) (vx (snd b2)) && qle (vx (fst b2)) (vx (snd b1)) &&
  qle (vy (fst b1)) (vy (snd b2)) && qle (vy (fst b2)) (vy (snd b1)) &&
  qle (vz (fst b1)) (vz (snd b2)) && qle (vz (fst b2)) (vz (snd b1)).

(* _aabb.pyx:131-137 aabb_intersect; a box is its pair of rows *)
Definition box := (list Qc * list Qc)%type.
(* _aabb.pyx:131-137 *)
Definition columns (b1 b2 : box) : list (Qc * Qc * (Qc * Qc)) :=
  combine (combine (fst b1) (snd b1)) (combine (fst b2) (snd b2)).
(* _aabb.pyx:131-137 *)
Definition aabb_intersect (b1 b2 : box) : bool :=
  match b1, b2 with
  | ([x0; y0; z0], [x1; y1; z1]), ([u0; v0; w0], [u1; v1; w1]) =>
      aabb_intersect_3d ((x0, y0, z0), (x1, y1, z1)) ((u0, v0, w0), (u1, v1, w1))
  | _, _ => caabb_intersect (columns b1 b2)
  end.

(* aabb.py:15-21 point_in_aabb: 2 columns, otherwise the first three *)
Definition point_in_aabb (b : box) (p : list Qc) : res bool :=
  do a0 <- rdZ (fst b) 0 ; do p0 <- rdZ p 0 ; do c0 <- rdZ (snd b) 0 ;
  if negb (qle a0 p0 && qle p0 c0) then Ok false else
  do a1 <- rdZ (fst b) 1 ; do p1 <- rdZ p 1 ; do c1 <- rdZ (snd b) 1 ;
  if negb (qle a1 p1 && qle p1 c1) then Ok false else
  if Nat.eqb (length (fst b)) 2 then Ok true else
  do a2 <- rdZ (fst b) 2 ; do p2 <- rdZ p 2 ; do c2 <- rdZ (snd b) 2 ;
  Ok (qle a2 p2 && qle p2 c2).

(* _aabb.pyx:143-177 aabb_intersection *)
Definition aabb_intersection (b1 b2 : box3) : option box3 :=
  let lx := fmax (vx (fst b1)) (vx (fst b2)) in
  let ly := fmax (vy (fst b1)) (vy (fst b2)) in
  let lz := fmax (vz (fst b1)) (vz (fst b2)) in
  let hx := fmin (vx (snd b1)) (vx (snd b2)) in
  let hy := fmin (vy (snd b1)) (vy (snd b2)) in
  let hz := fmin (vz (snd b1)) (vz (snd b2)) in
  if qlt hx lx || qlt hy ly || qlt hz lz then None
  else Some ((lx, ly, lz), (hx, hy, hz)).

(* one axis: (bmin, bmax, origin, direction)  [for slab_step, _aabb.pyx:208-231] *)
Record slab := mkslab { sb0 : Qc; sb1 : Qc; so : Qc; sd : Qc }.
(* for slab_step, _aabb.pyx:208-231 *)
Definition tiny : Qc := Q2Qc (1 # 1000000000000000).          (* 1e-15  [for ray_core, _aabb.pyx:187-251] *)
Definition huge : Qc := Q2Qc (inject_Z (10 ^ 300)).           (* 1e300 *)

(* the loop body of _aabb.pyx:208-231 and 346-369; None = "return no hit" *)
Definition slab_step (s : slab) (t : Qc * Qc) : option (Qc * Qc) :=
  let (tmin, tmax) := t in
  if qlt (fabs (sd s)) tiny then
    if qlt (so s) (sb0 s) || qlt (sb1 s) (so s) then None else Some (tmin, tmax)
  else
    let invD := 1 / sd s in
    let t1 := (sb0 s - so s) * invD in
    let t2 := (sb1 s - so s) * invD in
    let '(t1, t2) := if qlt t2 t1 then (t2, t1) else (t1, t2) in
    let tmin := if qlt tmin t1 then t1 else tmin in
    let tmax := if qlt t2 tmax then t2 else tmax in
    if qlt tmax tmin then None else Some (tmin, tmax).
(* _aabb.pyx:208-231 *)
Fixpoint slab_loop (l : list slab) (t : Qc * Qc) : option (Qc * Qc) :=
  match l with
  | [] => Some t
  | s :: r => match slab_step s t with None => None | Some t' => slab_loop r t' end
  end.
(* for ray_core, _aabb.pyx:187-251 *)
Definition slabs (b : box3) (o d : v3) : list slab :=
  [mkslab (vx (fst b)) (vx (snd b)) (vx o) (vx d);
   mkslab (vy (fst b)) (vy (snd b)) (vy o) (vy d);
   mkslab (vz (fst b)) (vz (snd b)) (vz o) (vz d)].

(* _aabb.pyx:187-251 _ray_aabb_intersect: returned value, tmin, tmax *)
Definition ray_core (b : box3) (o d : v3) : Qc * (Qc * Qc) :=
  match slab_loop (slabs b o d) (- huge, huge) with
  | None => (-(1), (-(1), -(1)))
  | Some (tmin, tmax) =>
      if qlt tmax 0 then (-(1), (-(1), -(1)))
      else if qle 0 tmin then (tmin, (tmin, tmax))
      else if qle 0 tmax then (tmax, (tmin, tmax)) else (-(1), (tmin, tmax))
  end.
(* _aabb.pyx:257-311 ray_aabb_intersect *)
Definition ray_aabb_intersect (b : box3) (o d : v3) : option (Qc * Qc) :=
  let '(t, (tmin, tmax)) := ray_core b o d in
  if qle 0 t then Some (if qle tmin 0 then 0 else tmin, if qle 1 tmax then 1 else tmax) else None.

(* for segment_core, _aabb.pyx:318-387 *)
Definition vsub (e s : v3) : v3 := (vx e - vx s, vy e - vy s, vz e - vz s).

(* _aabb.pyx:318-387 _segment_aabb_intersect: number of solutions, out_t *)
Definition segment_core (b : box3) (s e : v3) : Z * (Qc * Qc) :=
  match slab_loop (slabs b s (vsub e s)) (0, 1) with
  | None => (0%Z, (0, 0))
  | Some (tmin, tmax) =>
      if qlt tmax 0 || qlt 1 tmin then (0%Z, (0, 0))
      else
        let clip_min := if qlt 0 tmin then tmin else 0 in
        let clip_max := if qlt tmax 1 then tmax else 1 in
        let n := if qlt clip_max clip_min then 0%Z
                 else if qlt (fabs (clip_min - clip_max)) tiny then 1%Z else 2%Z in
        (n, (tmin, tmax))
  end.
(* _aabb.pyx:394-448 segment_aabb_intersect *)
Definition segment_aabb_intersect (b : box3) (seg : v3 * v3) : option (Qc * Qc) :=
  let '(n, (t0, t1)) := segment_core b (fst seg) (snd seg) in
  if (0 <? n)%Z then Some (if qle t0 0 then 0 else t0, if qle 1 t1 then 1 else t1) else None.

(* for at_param, _aabb.pyx:454-495 *)
Definition lerp (s e t : Qc) : Qc := s + (e - s) * t.
(* for segment_aabb_clip, _aabb.pyx:454-495 *)
Definition at_param (seg : v3 * v3) (t : Qc) : v3 :=
  (lerp (vx (fst seg)) (vx (snd seg)) t, lerp (vy (fst seg)) (vy (snd seg)) t, lerp (vz (fst seg)) (vz (snd seg)) t).
(* _aabb.pyx:454-495 segment_aabb_clip *)
Definition segment_aabb_clip (b : box3) (seg : v3 * v3) : option (v3 * v3) :=
  match segment_aabb_intersect b seg with
  | None => None
  | Some (t0, t1) => Some (at_param seg t0, at_param seg t1)
  end.
