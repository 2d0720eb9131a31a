(* Model of the intersection of a segment with triangles,
   mmcore/numeric/algorithms/moller.pyx, and of the queries of triangle trees that use it,
   mmcore/geom/bvh/__init__.py:200-206, 290-294, 760-924.
   Arithmetic is exact.  The three arrays V0, V1, V2 are one list of triangles (they have
   the same length).  Writing outside outs or flags is reported as IndexError; in the
   compiled code bounds checks are off and it is undefined behaviour. *)
From Coq Require Import List ZArith Bool QArith Qcanon.
From Verif Require Import Common QcLib ArrZ RtreeModel AabbModel BvhModel.
Import ListNotations.
Local Open Scope Z_scope.
Local Open Scope Qc_scope.

(* moller.pyx:14 EPSILON *)
Definition eps8 : Qc := Q2Qc (1 # 10 ^ 8).
(* the corners V0, V1, V2, moller.pyx:91 *)
Definition tri : Type := (v3 * v3 * v3)%type.
(* moller.pyx:44-46, 125-127, 143-145 the products written out per component *)
Definition mcross (a b : v3) : v3 :=
  (vy a * vz b - vz a * vy b, vz a * vx b - vx a * vz b, vx a * vy b - vy a * vx b).
(* moller.pyx:54, 129, 139, 147, 152 *)
Definition mdot (a b : v3) : Qc := vx a * vx b + vy a * vy b + vz a * vz b.

(* moller.pyx:18-20 _is_close *)
Definition is_close (a b eps : Qc) : bool := qlt (fabs (a - b)) eps.
(* moller.pyx:24-26 _point_equals *)
Definition point_equals (p q : v3) : bool :=
  is_close (vx p) (vx q) eps8 && is_close (vy p) (vy q) eps8 && is_close (vz p) (vz q) eps8.
(* moller.pyx:30-60 _point_on_edge *)
Definition point_on_edge (p v0 v1 : v3) : bool :=
  let vec := vsub p v0 in
  let edge := vsub v1 v0 in
  let cr := mcross vec edge in
  if negb (is_close (vx cr) 0 eps8 && is_close (vy cr) 0 eps8 && is_close (vz cr) 0 eps8) then false else
  let dot_prod := mdot vec edge in
  let len_sq := mdot edge edge in
  if qlt dot_prod (- eps8) || qlt (len_sq + eps8) dot_prod then false else true.
(* moller.pyx:64-85 _classify_intersection *)
Definition classify (p : v3) (t : tri) : Z :=
  let '(v0, v1, v2) := t in
  if point_equals p v0 then 2%Z else
  if point_equals p v1 then 2%Z else
  if point_equals p v2 then 2%Z else
  if point_on_edge p v0 v1 then 3%Z else
  if point_on_edge p v1 v2 then 3%Z else
  if point_on_edge p v2 v0 then 3%Z else 1%Z.

(* moller.pyx:90-162 _intersect_triangle_segment; None is the result 0, with I left as it was *)
Definition tri_segment (t : tri) (s e : v3) : option v3 :=
  let '(v0, v1, v2) := t in
  let dir := vsub e s in
  let edge1 := vsub v1 v0 in
  let edge2 := vsub v2 v0 in
  let h := mcross dir edge2 in
  let a := mdot edge1 h in
  if qlt (- eps8) a && qlt a eps8 then None else
  let f := 1 / a in
  let sv := vsub s v0 in
  let u := f * mdot sv h in
  if qlt u (- eps8) || qlt (1 + eps8) u then None else
  let q := mcross sv edge1 in
  let w := f * mdot dir q in
  if qlt w (- eps8) || qlt (1 + eps8) (u + w) then None else
  let r := f * mdot edge2 q in
  if qlt r (- eps8) || qlt (1 + eps8) r then None else
  Some (vx s + r * vx dir, vy s + r * vy dir, vz s + r * vz dir).

(* moller.pyx:165-219 intersect_triangle_segment: the flag and the array out afterwards *)
Definition intersect_triangle_segment (t : tri) (s e out : v3) : Z * v3 :=
  match tri_segment t s e with None => (0%Z, out) | Some p => (1%Z, p) end.

(* moller.pyx:222-288 intersect_triangles_segment_one: the pair returned; out is the point when there is one *)
Fixpoint intersect_triangles_segment_one (ts : list tri) (s e : v3) : option v3 * Z :=
  match ts with
  | [] => (None, 0%Z)
  | t :: r => match tri_segment t s e with
      | Some p => (Some p, 1%Z)
      | None => intersect_triangles_segment_one r s e
      end
  end.

(* moller.pyx:328-353 the loop body for triangle ixs: outs, flags *)
Definition batch_body (s e : v3) (ts : list tri) (ixs : Z) (st : list v3 * list Z) : res (list v3 * list Z) :=
  do t <- rdZ ts ixs ;
  match tri_segment t s e with
  | Some p => do flags <- wrZ (snd st) ixs (classify p t) ; do outs <- wrZ (fst st) ixs p ; Ok (outs, flags)
  | None => do flags <- wrZ (snd st) ixs 0%Z ; Ok (fst st, flags)
  end.
(* moller.pyx:292-353 intersect_triangles_segment *)
Definition intersect_triangles_segment (ts : list tri) (s e : v3) (outs : list v3) (flags : list Z) : res (list v3 * list Z) :=
  forZ 0 (lenZ ts) (outs, flags) (batch_body s e ts).

(* ---- the parallel loop ---- *)

(* moller.pyx:383 the C arrays c_V0, c_V1, c_V2 and c_I are declared outside prange and only written
   through an index, so that all threads share them; exists and ixs are assigned by name and
   private.  S and E are never written in the loop. *)
Record shared := mkshared { buf : tri; pnt : v3; souts : list v3; sflags : list Z }.
(* where a thread is in its iteration; moller.pyx:398-420 *)
Inductive where_ := Loading (k : nat) | Testing | Flagging | Clearing | Writing (k : nat).
(* a thread: the indices of its chunk still to do, the first one being worked on *)
Record thread := mkthread { todo : list Z; at_ : where_ }.

(* moller.pyx:398-408 the k-th of the nine copies: V0[0] V1[0] V2[0] V0[1] ... *)
Definition with_x (v : v3) (c : Qc) : v3 := (c, vy v, vz v).
(* moller.pyx:402-404 *)
Definition with_y (v : v3) (c : Qc) : v3 := (vx v, c, vz v).
(* moller.pyx:406-408 *)
Definition with_z (v : v3) (c : Qc) : v3 := (vx v, vy v, c).
(* moller.pyx:398-408 *)
Definition copy_one (k : nat) (t b : tri) : tri :=
  let '(t0, t1, t2) := t in let '(b0, b1, b2) := b in
  match k with
  | 0 => (with_x b0 (vx t0), b1, b2)
  | 1 => (b0, with_x b1 (vx t1), b2)
  | 2 => (b0, b1, with_x b2 (vx t2))
  | 3 => (with_y b0 (vy t0), b1, b2)
  | 4 => (b0, with_y b1 (vy t1), b2)
  | 5 => (b0, b1, with_y b2 (vy t2))
  | 6 => (with_z b0 (vz t0), b1, b2)
  | 7 => (b0, with_z b1 (vz t1), b2)
  | _ => (b0, b1, with_z b2 (vz t2))
  end%nat.
(* moller.pyx:416-418 the k-th of the three writes of outs[ixs] *)
Definition out_one (k : nat) (p o : v3) : v3 :=
  match k with 0%nat => with_x o (vx p) | 1%nat => with_y o (vy p) | _ => with_z o (vz p) end.

(* moller.pyx:395-420 one step of a thread that works on ixs.  A step is one copy of a number, one call,
   or one write; real threads can be interrupted inside a call as well. *)
Definition thread_step (s e : v3) (ts : list tri) (m : shared) (h : thread) : res (shared * thread) :=
  match todo h with
  | [] => Ok (m, h)
  | ixs :: rest =>
    match at_ h with
    | Loading k =>
        do t <- rdZ ts ixs ;
        Ok (mkshared (copy_one k t (buf m)) (pnt m) (souts m) (sflags m),
            mkthread (todo h) (if Nat.ltb k 8 then Loading (S k) else Testing))
    | Testing =>
        match tri_segment (buf m) s e with
        | Some p => Ok (mkshared (buf m) p (souts m) (sflags m), mkthread (todo h) Flagging)
        | None => Ok (m, mkthread (todo h) Clearing)
        end
    | Flagging =>
        do flags <- wrZ (sflags m) ixs (classify (pnt m) (buf m)) ;
        Ok (mkshared (buf m) (pnt m) (souts m) flags, mkthread (todo h) (Writing 0))
    | Clearing =>
        do flags <- wrZ (sflags m) ixs 0%Z ;
        Ok (mkshared (buf m) (pnt m) (souts m) flags, mkthread rest (Loading 0))
    | Writing k =>
        do o <- rdZ (souts m) ixs ;
        do outs <- wrZ (souts m) ixs (out_one k (pnt m) o) ;
        Ok (mkshared (buf m) (pnt m) outs (sflags m),
            if Nat.ltb k 2 then mkthread (todo h) (Writing (S k)) else mkthread rest (Loading 0))
    end
  end.
(* moller.pyx:395 prange: the scheduler names the thread that makes the next step *)
Fixpoint run_threads (s e : v3) (ts : list tri) (sched : list Z) (m : shared) (hs : list thread) : res (shared * list thread) :=
  match sched with
  | [] => Ok (m, hs)
  | i :: r =>
    do h <- rdZ hs i ;
    do (m', h') <- thread_step s e ts m h ;
    do hs' <- wrZ hs i h' ;
    run_threads s e ts r m' hs'
  end.
(* moller.pyx:395 the threads at the start, one per chunk of indices *)
Definition start_threads (chunks : list (list Z)) : list thread := map (fun c => mkthread c (Loading 0)) chunks.

(* ---- trees of triangles ---- *)

(* bvh/__init__.py:200-206 Triangle: its box is that of the three points; value stands for pts, a, b, c *)
Definition triangle (t : tri) : res (obj tri) :=
  let '(a, b, c) := t in
  let r (v : v3) := [vx v; vy v; vz v] in
  do (lo, hi) <- aabb 3 [r a; r b; r c] None ;
  do lo3 <- row3 lo ; do hi3 <- row3 hi ;
  Ok {| obox := mkbox lo3 hi3; value := t |}.
(* bvh/__init__.py:860 the list of triangles *)
Fixpoint triangles (ts : list tri) : res (list (obj tri)) :=
  match ts with
  | [] => Ok []
  | t :: r => do o <- triangle t ; do os <- triangles r ; Ok (o :: os)
  end.
(* bvh/__init__.py:858-863 build_bvh_from_mesh, after the lookup points[indices]; build_bvh_from_triangles *)
Definition build_triangles (fuel : nat) (ts : list tri) (in_leaf : Z) : res (bvh tri) :=
  do os <- triangles ts ; do (t, _) <- build_bvh fuel os in_leaf ; Ok t.

(* bvh/__init__.py:787-805 a leaf; compound objects have no attributes a, b, c and triangles no objects *)
Definition leaf_test (compound : bool) (o : payload tri) (s e : v3) : res (option v3) :=
  match o, compound with
  | Many _ os, true => Ok (fst (intersect_triangles_segment_one (map value os) s e))
  | One x, false => Ok (tri_segment (value x) s e)
  | _, _ => Err AttributeError
  end.
(* bvh/__init__.py:775-813 the loop; a stack entry has the segment cut to the box of the parent *)
Fixpoint one_loop (fuel : nat) (compound : bool) (seg : v3 * v3) (stack : list (bvh tri * (v3 * v3))) : res (option (v3 * payload tri)) :=
  match fuel with
  | O => Err OutOfFuel
  | S fuel =>
    match stack with
    | [] => Ok None
    | (t, cur) :: stack =>
      if negb (aabb_intersect_3d (barr (node_box t)) (aabb_segm3d (fst cur) (snd cur))) then one_loop fuel compound seg stack else
      match segment_aabb_clip (barr (node_box t)) seg with
      | None => one_loop fuel compound seg stack
      | Some cut =>
        match t with
        | BLeaf _ o =>
            do r <- leaf_test compound o (fst cut) (snd cut) ;
            match r with
            | Some p => Ok (Some (p, o))
            | None => one_loop fuel compound seg stack
            end
        | BNode _ l r => one_loop fuel compound seg ((r, cut) :: (l, cut) :: stack)
        end
      end
    end
  end.
(* bvh/__init__.py:760-813 bvh_triangle_segment_intersection_one, 913-924 mesh_bvh_segment_intersection_one;
   max_leaf = max_objects_in_leaf *)
Definition mesh_segment_one (fuel : nat) (t : bvh tri) (max_leaf : Z) (seg : v3 * v3) : res (option (v3 * payload tri)) :=
  one_loop fuel (Z.ltb 1 max_leaf) seg [(t, seg)].

(* bvh/__init__.py:895-905 the loop over the leaves found; compound objects have no attribute pts *)
Fixpoint ray_hits (start dir : v3) (l : list (payload tri * (v3 * v3))) : res (list (v3 * obj tri * Qc)) :=
  match l with
  | [] => Ok []
  | (o, sg) :: r =>
    match o with
    | Many _ _ => Err AttributeError
    | One x =>
      match tri_segment (value x) (fst sg) (snd sg) with
      | None => ray_hits start dir r
      | Some p => do rest <- ray_hits start dir r ; Ok ((p, x, mdot (vsub p start) dir) :: rest)
      end
    end
  end.
(* bvh/__init__.py:867-908 mesh_bvh_ray_intersection; the ray is its array of start and end,
   with the end MAX_FLOAT64 times the direction away (290-294) *)
Definition mesh_ray (fuel : nat) (t : bvh tri) (ray : v3 * v3) : res (list (v3 * obj tri * Qc)) :=
  match segment_aabb_clip (barr (node_box t)) ray with
  | None => Ok []
  | Some seg =>
    do found <- bvh_segment_intersection fuel t seg ;
    do maybe <- ray_hits (fst ray) (vsub (snd seg) (fst seg)) found ;
    Ok (sort_by snd maybe)
  end.
