(* Model of mmcore/geom/bvh/__init__.py: BoundingBox, build_bvh and the queries.

   Coordinates are exact rationals.  The boxes are modelled from AabbModel
   (mmcore/numeric/_aabb.pyx).  A BoundingBox keeps its corners twice: the
   attributes min_point/max_point and the array _arr made once by the
   constructor; some methods read one copy and some the other, so the model
   keeps both.  Node objects carry their payload by value. *)
From Coq Require Import List Arith ZArith Bool QArith Qcanon.
From Verif Require Import Common QcLib ArrZ AabbModel.
From Verif Require RtreeModel.
Import ListNotations.
Local Open Scope Qc_scope.

(* for mkbox, bvh/__init__.py:23-30 *)
Definition half : Qc := Q2Qc (1 # 2).
(* for mkbox, bvh/__init__.py:23-30 *)
Definition vadd (a b : v3) : v3 := (vx a + vx b, vy a + vy b, vz a + vz b).
(* for mkbox, bvh/__init__.py:23-30 *)
Definition vscale (a : v3) (k : Qc) : v3 := (vx a * k, vy a * k, vz a * k).
(* for evaluate, bvh/__init__.py:60-67 *)
Definition vmul (a b : v3) : v3 := (vx a * vx b, vy a * vy b, vz a * vz b).
(* v[i] for the normalised index i  [for split, bvh/__init__.py:32-36] *)
Definition comp (v : v3) (i : nat) : Qc := match i with O => vx v | 1%nat => vy v | _ => vz v end.
(* for split, bvh/__init__.py:32-36 *)
Definition with_comp (v : v3) (i : nat) (c : Qc) : v3 :=
  match i with O => (c, vy v, vz v) | 1%nat => (vx v, c, vz v) | _ => (vx v, vy v, c) end.
(* an index into an array of length 3, negative ones counting from the end  [for split, bvh/__init__.py:32-36] *)
Definition axis_of (a : Z) : res nat :=
  if ((0 <=? a) && (a <? 3))%Z then Ok (Z.to_nat a)
  else if ((-3 <=? a) && (a <? 0))%Z then Ok (Z.to_nat (a + 3)) else Err IndexError.

(* bvh/__init__.py:23-30 BoundingBox.__init__ *)
Record bbox := { bmin : v3; bmax : v3; bcenter : v3; bdims : v3; barr : box3 }.
(* bvh/__init__.py:23-30 *)
Definition mkbox (mn mx : v3) : bbox :=
  {| bmin := mn; bmax := mx; bcenter := vscale (vadd mn mx) half; bdims := vsub mx mn; barr := (mn, mx) |}.
(* assignment into min_point / max_point: the other attributes stay  [bvh/__init__.py:23-30] *)
Definition set_min (b : bbox) (v : v3) : bbox :=
  {| bmin := v; bmax := bmax b; bcenter := bcenter b; bdims := bdims b; barr := barr b |}.
(* bvh/__init__.py:23-30 *)
Definition set_max (b : bbox) (v : v3) : bbox :=
  {| bmin := bmin b; bmax := v; bcenter := bcenter b; bdims := bdims b; barr := barr b |}.

(* bvh/__init__.py:32-36 split *)
Definition split (b : bbox) (axis : Z) (parameter : Qc) : res (bbox * bbox) :=
  do i <- axis_of axis ;
  let left := mkbox (bmin b) (bmax b) in
  let right := mkbox (bmin b) (bmax b) in
  let cut := (comp (bmin b) i + comp (bmax b) i) * parameter in
  Ok (set_max left (with_comp (bmax left) i cut), set_min right (with_comp (bmin right) i cut)).
(* bvh/__init__.py:53-55 split4 *)
Definition split4 (b : bbox) (axis1 axis2 : Z) (parameter1 parameter2 : Qc) : res (list bbox) :=
  do (l, r) <- split b axis2 parameter1 ;
  do (ll, lr) <- split l axis1 parameter2 ;
  do (rl, rr) <- split r axis1 parameter2 ;
  Ok [ll; lr; rl; rr].
(* bvh/__init__.py:57-58 split8 *)
Fixpoint split_all (bs : list bbox) (axis : Z) (parameter : Qc) : res (list bbox) :=
  match bs with
  | [] => Ok []
  | b :: r => do (x, y) <- split b axis parameter ; do s <- split_all r axis parameter ; Ok (x :: y :: s)
  end.
(* bvh/__init__.py:57-58 *)
Definition split8 (b : bbox) (axis1 axis2 axis3 : Z) (parameter1 parameter2 parameter3 : Qc) : res (list bbox) :=
  do bs <- split4 b axis2 axis3 parameter2 parameter3 ; split_all bs axis1 parameter1.

(* bvh/__init__.py:60-67 evaluate, centroid, volume *)
Definition evaluate (b : bbox) (uvh : v3) : v3 := vmul (vadd (bmin b) (bmax b)) uvh.
(* bvh/__init__.py:60-67 *)
Definition centroid (b : bbox) : v3 := vscale (vadd (bmin b) (bmax b)) half.
(* bvh/__init__.py:60-67 *)
Definition volume (b : bbox) : Qc := vx (bdims b) * vy (bdims b) * vz (bdims b).
(* bvh/__init__.py:69-70 intersect *)
Definition intersect (a b : bbox) : bool := aabb_intersect_3d (barr a) (barr b).
(* bvh/__init__.py:72-80 intersect_disjoint *)
Definition intersect_disjoint (a b : bbox) : bool :=
  qlt (vx (bmin a)) (vx (bmax b)) && qlt (vx (bmin b)) (vx (bmax a)) &&
  qlt (vy (bmin a)) (vy (bmax b)) && qlt (vy (bmin b)) (vy (bmax a)) &&
  qlt (vz (bmin a)) (vz (bmax b)) && qlt (vz (bmin b)) (vz (bmax a)).
(* bvh/__init__.py:82-93 intersection; Python's max and min keep the first of two equals, which
   is the same number *)
Definition intersection (a b : bbox) : option bbox :=
  match aabb_intersection (bmin a, bmax a) (bmin b, bmax b) with
  | Some (lo, hi) => Some (mkbox lo hi) | None => None end.
(* for merge, bvh/__init__.py:95-106 *)
Definition vmin (a b : v3) : v3 := (fmin (vx a) (vx b), fmin (vy a) (vy b), fmin (vz a) (vz b)).
(* for merge, bvh/__init__.py:95-106 *)
Definition vmax (a b : v3) : v3 := (fmax (vx a) (vx b), fmax (vy a) (vy b), fmax (vz a) (vz b)).
(* bvh/__init__.py:95-106 merge *)
Definition merge (a b : bbox) : bbox := mkbox (vmin (bmin a) (bmin b)) (vmax (bmax a) (bmax b)).
(* bvh/__init__.py:107-119 expand: the box after the call *)
Definition expand (a b : bbox) : bbox :=
  set_max (set_min a (vmin (bmin a) (bmin b))) (vmax (bmax a) (bmax b)).
(* bvh/__init__.py:121-122 contains_point *)
Definition contains (b : bbox) (p : v3) : bool :=
  (qle (vx (bmin b)) (vx p) && qle (vy (bmin b)) (vy p) && qle (vz (bmin b)) (vz p)) &&
  (qle (vx p) (vx (bmax b)) && qle (vy p) (vy (bmax b)) && qle (vz p) (vz (bmax b))).

(* bvh/__init__.py:307-349 get_aabb_corners_numpy in three dimensions; 38-39 get_corners *)
Definition bit_combinations : list (bool * bool * bool) :=
  [(false, false, false); (false, false, true); (false, true, false); (false, true, true);
   (true, false, false); (true, false, true); (true, true, false); (true, true, true)].
(* bvh/__init__.py:38-39 *)
Definition get_corners (b : bbox) : list v3 :=
  let lo := vmin (bmin b) (bmax b) in
  let hi := vmax (bmin b) (bmax b) in
  map (fun c => let '(x, y, z) := c in
    (if x : bool then vx hi else vx lo, if y : bool then vy hi else vy lo, if z : bool then vz hi else vz lo)) bit_combinations.
(* bvh/__init__.py:127-141 get_edges, 143-160 get_faces *)
Definition edge_indices : list (nat * nat) :=
  [(0, 1); (2, 3); (4, 5); (6, 7); (0, 2); (1, 3); (4, 6); (5, 7); (0, 4); (1, 5); (2, 6); (3, 7)]%nat.
(* bvh/__init__.py:143-160 *)
Definition face_indices : list (nat * nat * (nat * nat)) :=
  [((0, 1), (3, 2)); ((4, 5), (7, 6)); ((0, 1), (5, 4)); ((2, 3), (7, 6)); ((0, 2), (6, 4)); ((1, 3), (7, 5))]%nat.
(* for get_edges, bvh/__init__.py:127-141 *)
Fixpoint edges_of (c : list v3) (l : list (nat * nat)) : res (list (v3 * v3)) :=
  match l with
  | [] => Ok []
  | (i, j) :: r => do a <- getR c i ; do b <- getR c j ; do s <- edges_of c r ; Ok ((a, b) :: s)
  end.
(* bvh/__init__.py:143-160 *)
Fixpoint faces_of (c : list v3) (l : list (nat * nat * (nat * nat))) : res (list (list v3)) :=
  match l with
  | [] => Ok []
  | ((i, j), (k, m)) :: r => do a <- getR c i ; do b <- getR c j ; do d <- getR c k ; do e <- getR c m ;
      do s <- faces_of c r ; Ok ([a; b; d; e] :: s)
  end.
(* bvh/__init__.py:127-141 *)
Definition get_edges (b : bbox) : res (list (v3 * v3)) := edges_of (get_corners b) edge_indices.
(* bvh/__init__.py:143-160 *)
Definition get_faces (b : bbox) : res (list (list v3)) := faces_of (get_corners b) face_indices.

(* bvh/__init__.py:192-198 Object3D *)
Record obj (A : Type) := { obox : bbox; value : A }.
Arguments obox {A} _.
Arguments value {A} _.
(* the object of a leaf: one of the given objects, or 382-395 CompoundObject3D  [bvh/__init__.py:192-198] *)
Inductive payload (A : Type) : Type :=
| One (o : obj A)
| Many (b : bbox) (os : list (obj A)).
Arguments One {A} o.
Arguments Many {A} b os.
(* bvh/__init__.py:297-304 BVHNode; max_objects_in_leaf is the same number in every node and is
   only read by bvh_triangle_segment_intersection_one, for which MolModel.v takes it as an argument *)
Inductive bvh (A : Type) : Type :=
| BLeaf (b : bbox) (o : payload A)
| BNode (b : bbox) (l r : bvh A).
Arguments BLeaf {A} b o.
Arguments BNode {A} b l r.

Section S.
Context {A : Type}.
(* bvh/__init__.py:297-304 *)
Definition node_box (t : bvh A) : bbox := match t with BLeaf b _ => b | BNode b _ _ => b end.

(* bvh/__init__.py:356-366: centroids, their extent, np.argmax (the first largest) *)
Definition key (i : nat) (o : obj A) : Qc := (comp (bmin (obox o)) i + comp (bmax (obox o)) i) / Q2Qc (2 # 1).
(* bvh/__init__.py:356-366 *)
Definition col_min (i : nat) (l : list (obj A)) (c : Qc) : Qc := fold_left (fun m o => fmin m (key i o)) l c.
(* bvh/__init__.py:356-366 *)
Definition col_max (i : nat) (l : list (obj A)) (c : Qc) : Qc := fold_left (fun m o => fmax m (key i o)) l c.
(* bvh/__init__.py:356-366 *)
Definition extent (i : nat) (o : obj A) (l : list (obj A)) : Qc := col_max i l (key i o) - col_min i l (key i o).
(* bvh/__init__.py:356-366 *)
Definition split_axis (o : obj A) (l : list (obj A)) : nat :=
  let x := extent 0 o l in let y := extent 1 o l in let z := extent 2 o l in
  if qlt x y then (if qlt y z then 2%nat else 1%nat) else (if qlt x z then 2%nat else 0%nat).
(* bvh/__init__.py:351-378 split_objects: the list after the call and its two halves; numpy's
   minimum of no numbers is a ValueError *)
Definition split_objects (objects : list (obj A)) : res (list (obj A) * (list (obj A) * list (obj A))) :=
  match objects with
  | [] => Err ValueError
  | o :: l =>
      let sorted := RtreeModel.sort_by (key (split_axis o l)) objects in
      let mid := (length sorted / 2)%nat in
      Ok (sorted, (firstn mid sorted, skipn mid sorted))
  end.

(* bvh/__init__.py:382-395 CompoundObject3D *)
Definition rows (b : bbox) : list (list Qc) :=
  let r (v : v3) := [vx v; vy v; vz v] in [r (fst (barr b)); r (snd (barr b))].
(* for compound, bvh/__init__.py:382-395 *)
Definition row3 (l : list Qc) : res v3 :=
  do x <- getR l 0 ; do y <- getR l 1 ; do z <- getR l 2 ; Ok (x, y, z).
(* bvh/__init__.py:382-395 *)
Definition compound (os : list (obj A)) : res (payload A) :=
  match os with
  | [] => Err ValueError
  | _ => do (lo, hi) <- aabb 3 (flat_map (fun o => rows (obox o)) os) None ;
         do a <- row3 lo ; do b <- row3 hi ; Ok (Many (mkbox a b) os)
  end.
(* for build_bvh, bvh/__init__.py:401-423 *)
Definition payload_box (p : payload A) : bbox := match p with One o => obox o | Many b _ => b end.

(* bvh/__init__.py:401-423 build_bvh: the tree and the caller's list after the call (the halves
   are slices, hence new lists) *)
Fixpoint build_bvh (fuel : nat) (objects : list (obj A)) (objects_in_leaf : Z) : res (bvh A * list (obj A)) :=
  match fuel with
  | O => Err OutOfFuel
  | S fuel =>
      let n := Z.of_nat (length objects) in
      match objects, (objects_in_leaf =? 1)%Z with
      | [o], true => Ok (BLeaf (obox o) (One o), objects)
      | _, _ =>
          if (n <=? objects_in_leaf)%Z then
            do co <- compound objects ; Ok (BLeaf (payload_box co) co, objects)
          else
            do (sorted, (lo, ro)) <- split_objects objects ;
            do (l, _) <- build_bvh fuel lo objects_in_leaf ;
            do (r, _) <- build_bvh fuel ro objects_in_leaf ;
            Ok (BNode (merge (node_box l) (node_box r)) l r, sorted)
      end
  end.

(* bvh/__init__.py:593-604 traverse_bvh: the results list after the call *)
Fixpoint traverse_bvh (t : bvh A) (q : bbox) (results : list (payload A)) : list (payload A) :=
  if negb (intersect (node_box t) q) then results
  else match t with
  | BLeaf _ o => results ++ [o]
  | BNode _ l r => traverse_bvh r q (traverse_bvh l q results)
  end.
(* bvh/__init__.py:606-621 traverse_bvh2; None is the object of an internal node *)
Definition traverse_bvh2 (t : bvh A) (q : bbox) (results : list (option (payload A))) : list (option (payload A)) :=
  if negb (intersect (node_box t) q) then results
  else
    let results := match t with BLeaf _ o => results ++ [Some o] | BNode _ _ _ => results end in
    let l := length results in
    let results := match t with
      | BLeaf _ _ => results
      | BNode _ x y => results ++ map Some (traverse_bvh y q (traverse_bvh x q [])) end in
    if (l =? length results)%nat
    then results ++ [match t with BLeaf _ o => Some o | BNode _ _ _ => None end] else results.
(* bvh/__init__.py:623-633 *)
Definition contains_point (t : bvh A) (pt : v3) : list (payload A) := traverse_bvh t (mkbox pt pt) [].
(* bvh/__init__.py:623-633 *)
Definition contains_point2 (t : bvh A) (pt : v3) : list (option (payload A)) := traverse_bvh2 t (mkbox pt pt) [].
(* bvh/__init__.py:635-661 traverse_bvh_point *)
Fixpoint traverse_bvh_point (t : bvh A) (p : v3) : option (bvh A) :=
  if negb (contains (node_box t) p) then None
  else match t with
  | BLeaf _ _ => Some t
  | BNode _ l r =>
      match traverse_bvh_point l p, traverse_bvh_point r p with
      | None, None => Some t
      | None, Some x => Some x
      | Some x, None => Some x
      | Some _, Some _ => Some t
      end
  end.
(* bvh/__init__.py:663-681 traverse_leafs, traverse_all_objects_in_node; 692-700 traverse_all_bbox *)
Fixpoint traverse_leafs (t : bvh A) (result : list (payload A)) : list (payload A) :=
  match t with BLeaf _ o => result ++ [o] | BNode _ l r => traverse_leafs r (traverse_leafs l result) end.
(* bvh/__init__.py:692-700 *)
Fixpoint traverse_all_bbox (t : bvh A) (result : list box3) : list box3 :=
  let result := result ++ [(bmin (node_box t), bmax (node_box t))] in
  match t with BLeaf _ _ => result | BNode _ l r => traverse_all_bbox r (traverse_all_bbox l result) end.

(* bvh/__init__.py:425-467 intersect_bvh_objects; the head of the list is the top of the stack *)
Fixpoint pairs_loop (fuel : nat) (stack : list (bvh A * bvh A)) (out : list (bvh A * bvh A)) : res (list (bvh A * bvh A)) :=
  match fuel with
  | O => Err OutOfFuel
  | S fuel =>
      match stack with
      | [] => Ok out
      | (n1, n2) :: stack =>
          if negb (intersect (node_box n1) (node_box n2)) then pairs_loop fuel stack out
          else match n1, n2 with
          | BLeaf _ _, BLeaf _ _ => pairs_loop fuel stack (out ++ [(n1, n2)])
          | BNode _ l1 r1, BNode _ l2 r2 => pairs_loop fuel ((r1, r2) :: (r1, l2) :: (l1, r2) :: (l1, l2) :: stack) out
          | BNode _ l1 r1, BLeaf _ _ => pairs_loop fuel ((r1, n2) :: (l1, n2) :: stack) out
          | BLeaf _ _, BNode _ l2 r2 => pairs_loop fuel ((n1, r2) :: (n1, l2) :: stack) out
          end
      end
  end.
(* bvh/__init__.py:425-467 *)
Definition intersect_bvh_objects (fuel : nat) (a b : bvh A) : res (list (bvh A * bvh A)) := pairs_loop fuel [(a, b)] [].
(* bvh/__init__.py:469-489 intersect_bvh *)
Definition intersect_bvh (fuel : nat) (a b : bvh A) : res (list (option bbox)) :=
  do l <- intersect_bvh_objects fuel a b ; Ok (map (fun p => intersection (node_box (fst p)) (node_box (snd p))) l).

(* bvh/__init__.py:683-690 sdBox, sd_aabb.  The distance is max(d) when no component of d is
   positive, else the norm of the positive part.  The model returns max(d) in
   the first case and the square of the norm in the second: a strictly
   increasing function of the distance, so every comparison below agrees *)
Definition max3 (v : v3) : Qc := fmax (fmax (vx v) (vy v)) (vz v).
(* bvh/__init__.py:683-690 *)
Definition sd_box (p b : v3) : Qc :=
  let d := (fabs (vx p) - vx b, fabs (vy p) - vy b, fabs (vz p) - vz b) in
  if qle (max3 d) 0 then max3 d
  else fmax (vx d) 0 * fmax (vx d) 0 + fmax (vy d) 0 * fmax (vy d) 0 + fmax (vz d) 0 * fmax (vz d) 0.
(* bvh/__init__.py:683-690 *)
Definition sd_aabb (b : box3) (p : v3) : Qc :=
  let c := vscale (vadd (fst b) (snd b)) half in sd_box (vsub p c) (vsub (snd b) c).
(* bvh/__init__.py:491-547 _find_closest_vicinity *)
Fixpoint find_closest_vicinity (t : bvh A) (p : v3) : option (list (payload A) * Qc) :=
  match t with
  | BLeaf b o => Some ([o], sd_aabb (barr b) p)
  | BNode b l r =>
      if negb (contains b p) then None
      else match contains (node_box l) p, contains (node_box r) p with
      | true, false => find_closest_vicinity l p
      | false, true => find_closest_vicinity r p
      | true, true =>
          match find_closest_vicinity l p, find_closest_vicinity r p with
          | Some (x, dx), Some (y, dy) =>
              if qlt dx dy then Some (x, dx) else if qlt dy dx then Some (y, dy) else Some (x ++ y, dx)
          | None, Some y => Some y
          | Some x, None => Some x
          | None, None => None
          end
      | false, false => None
      end
  end.
(* bvh/__init__.py:549-585 _find_closest_breadth (find_closest with its default) *)
Fixpoint find_closest_breadth (t : bvh A) (p : v3) : list (payload A) * Qc :=
  match t with
  | BLeaf b o => ([o], sd_aabb (barr b) p)
  | BNode _ l r =>
      let dl := sd_aabb (barr (node_box l)) p in
      let dr := sd_aabb (barr (node_box r)) p in
      if qlt dl dr then find_closest_breadth l p
      else if qlt dr dl then find_closest_breadth r p
      else
        let '(x, dx) := find_closest_breadth l p in
        let '(y, dy) := find_closest_breadth r p in
        if qlt dx dy then (x, dx) else if qlt dy dx then (y, dy) else (x ++ y, dx)
  end.

(* bvh/__init__.py:726-756 bvh_segment_intersection; the second component of a stack entry is
   always the whole segment *)
Fixpoint segment_loop (fuel : nat) (seg : v3 * v3) (stack : list (bvh A)) (out : list (payload A * (v3 * v3))) : res (list (payload A * (v3 * v3))) :=
  match fuel with
  | O => Err OutOfFuel
  | S fuel =>
      match stack with
      | [] => Ok out
      | t :: stack =>
          if negb (aabb_intersect_3d (barr (node_box t)) (aabb_segm3d (fst seg) (snd seg))) then segment_loop fuel seg stack out
          else match segment_aabb_clip (barr (node_box t)) seg with
          | None => segment_loop fuel seg stack out
          | Some _ => match t with
              | BLeaf _ o => segment_loop fuel seg stack (out ++ [(o, seg)])
              | BNode _ l r => segment_loop fuel seg (r :: l :: stack) out
              end
          end
      end
  end.
(* bvh/__init__.py:726-756 *)
Definition bvh_segment_intersection (fuel : nat) (t : bvh A) (seg : v3 * v3) := segment_loop fuel seg [t] [].
End S.
