(* Model of mmcore/ds/bkdtree.py (BalancedKDTree).
   Points are lists of exact rationals (int/float coordinates without
   rounding, NaN or infinities).  An out-of-range coordinate cannot occur once
   the dimensions agree; points with no coordinates (depth % 0) are not
   modelled. *)
From Coq Require Import List ZArith Bool QArith Qcanon.
From Verif Require Import Common QcLib.
Import ListNotations.
Local Open Scope nat_scope.

(* for coord, bkdtree.py:29-50 *)
Definition point := list Qc.
(* for insert_key, bkdtree.py:29-50 *)
Definition coord (p : point) (a : nat) : Qc := nth a p 0%Qc.   (* p[a] *)

(* bkdtree.py:60-82 KDNode *)
Inductive kd : Type :=
| Empty                                                   (* None *)
| Node (p : point) (axis : nat) (l r : kd) (size : nat).

(* node.left.size if node.left else 0  [bkdtree.py:60-82] *)
Definition size_of (t : kd) : nat := match t with Empty => 0 | Node _ _ _ _ s => s end.

(* bkdtree.py:7-14 _update_size on a node under construction *)
Definition mk (p : point) (a : nat) (l r : kd) : kd := Node p a l r (size_of l + size_of r + 1).

(* bkdtree.py:17-26 _collect_points *)
Fixpoint collect (t : kd) : list point :=
  match t with Empty => [] | Node p _ l r _ => p :: collect l ++ collect r end.

(* list.sort(key=lambda x: x[axis]): the stable sort by the key, written as
   insertion sort (the result of a stable sort is determined by its input)  [for sort_key, bkdtree.py:29-50] *)
Fixpoint insert_key (a : nat) (x : point) (l : list point) : list point :=
  match l with
  | [] => [x]
  | y :: r => if qle (coord x a) (coord y a) then x :: y :: r else y :: insert_key a x r
  end.
(* for build_fuel, bkdtree.py:29-50 *)
Fixpoint sort_key (a : nat) (l : list point) : list point :=
  match l with [] => [] | x :: r => insert_key a x (sort_key a r) end.

(* bkdtree.py:29-50 _build_balanced; fuel = number of points *)
Fixpoint build_fuel (fuel : nat) (points : list point) (depth : nat) : kd :=
  match fuel, points with
  | S f, p0 :: _ =>
      let k := length p0 in
      let axis := depth mod k in
      let sorted := sort_key axis points in
      let median := length points / 2 in
      let l := build_fuel f (firstn median sorted) (depth + 1) in
      let r := build_fuel f (skipn (median + 1) sorted) (depth + 1) in
      mk (nth median sorted []) axis l r
  | _, _ => Empty
  end.
(* bkdtree.py:29-50 *)
Definition build (points : list point) (depth : nat) : kd := build_fuel (length points) points depth.

(* bkdtree.py:84-96 __init__.  The second component is the caller's list
   after the call: the outermost points.sort works on that very object. *)
Definition kd_new (points : list point) : res (kd * list point) :=
  match points with
  | [] => Ok (Empty, [])
  | p0 :: _ =>
      if forallb (fun p => length p =? length p0) points
      then Ok (build points 0, sort_key (0 mod length p0) points)
      else Err ValueError
  end.

(* bkdtree.py:98-115 _is_unbalanced, alpha = 0.7 taken as exactly 7/10 *)
Definition unbalanced (t : kd) : bool :=
  match t with
  | Empty => false
  | Node _ _ l r s => (7 * s <? 10 * size_of l) || (7 * s <? 10 * size_of r)
  end.

(* bkdtree.py:117-126 _rebalance_subtree *)
Definition rebalance (t : kd) (depth : nat) : kd := build (collect t) depth.

(* bkdtree.py:140-145, 229-234 update the size, rebuild if needed *)
Definition settle (p : point) (a : nat) (l r : kd) (depth : nat) : kd :=
  let t := mk p a l r in
  if unbalanced t then rebalance t depth else t.

(* bkdtree.py:128-146 _insert_rec *)
Fixpoint insert_rec (t : kd) (q : point) (depth : nat) : kd :=
  match t with
  | Empty => Node q (depth mod length q) Empty Empty 1
  | Node p a l r _ =>
      if qle (coord q a) (coord p a)
      then settle p a (insert_rec l q (depth + 1)) r depth
      else settle p a l (insert_rec r q (depth + 1)) depth
  end.

(* bkdtree.py:148-158 insert *)
Definition kd_insert (t : kd) (q : point) : res kd :=
  match t with
  | Empty => Ok (Node q 0 Empty Empty 1)
  | Node p _ _ _ _ => if length q =? length p then Ok (insert_rec t q 0) else Err ValueError
  end.

(* min(candidates, key=...): the first minimal one  [for find_min, bkdtree.py:160-184] *)
Definition min_key (a : nat) (x : point) (y : option point) : point :=
  match y with None => x | Some q => if qlt (coord q a) (coord x a) then q else x end.

(* bkdtree.py:160-184 _find_min (the returned node is only used for its point) *)
Fixpoint find_min (t : kd) (axis : nat) : option point :=
  match t with
  | Empty => None
  | Node p a l r _ =>
      if a =? axis then match l with Empty => Some p | _ => find_min l axis end
      else Some (min_key axis (min_key axis p (find_min l axis)) (find_min r axis))
  end.

(* for delete_rec, bkdtree.py:186-236 *)
Definition point_eqb (p q : point) : bool := if list_eq_dec Qc_eq_dec p q then true else false.

(* bkdtree.py:186-236 _delete_rec *)
Fixpoint delete_rec (t : kd) (q : point) (depth : nat) : kd :=
  match t with
  | Empty => Empty
  | Node p a l r _ =>
      if point_eqb p q then
        match r, l with
        | Node _ _ _ _ _, _ =>
            match find_min r a with
            | Some m => settle m a l (delete_rec r m (depth + 1)) depth
            | None => t
            end
        | Empty, Node _ _ _ _ _ =>
            match find_min l a with
            | Some m => settle m a (delete_rec l m (depth + 1)) r depth
            | None => t
            end
        | Empty, Empty => Empty
        end
      else if qle (coord q a) (coord p a)
      then settle p a (delete_rec l q (depth + 1)) r depth
      else settle p a l (delete_rec r q (depth + 1)) depth
  end.

(* bkdtree.py:238-246 delete *)
Definition kd_delete (t : kd) (q : point) : res kd :=
  match t with
  | Empty => Ok Empty
  | Node p _ _ _ _ => if length q =? length p then Ok (delete_rec t q 0) else Err ValueError
  end.

(* bkdtree.py:248-250 _distance_sq, sum over zip *)
Fixpoint dist2 (p q : point) : Qc :=
  match p, q with
  | a :: p', b :: q' => ((a - b) * (a - b) + dist2 p' q')%Qc
  | _, _ => 0%Qc
  end.

(* (best_node, best_dist_sq); None = (None, inf)  [for closer, bkdtree.py:252-281] *)
Definition best := option (point * Qc).
(* for nearest_rec, bkdtree.py:252-281 *)
Definition closer (d : Qc) (b : best) : bool :=       (* d < best[1] *)
  match b with None => true | Some (_, e) => qlt d e end.

(* bkdtree.py:252-281 _nearest_rec *)
Fixpoint nearest_rec (t : kd) (target : point) (b : best) : best :=
  match t with
  | Empty => b
  | Node p a l r _ =>
      let d := dist2 target p in
      let b1 := if closer d b then Some (p, d) else b in
      let diff := (coord target a - coord p a)%Qc in
      if qle diff 0 then
        let b2 := nearest_rec l target b1 in
        if closer (diff * diff)%Qc b2 then nearest_rec r target b2 else b2
      else
        let b2 := nearest_rec r target b1 in
        if closer (diff * diff)%Qc b2 then nearest_rec l target b2 else b2
  end.

(* bkdtree.py:283-293 nearest_neighbor *)
Definition nearest (t : kd) (q : point) : option point :=
  match t with
  | Empty => None
  | _ => match nearest_rec t q None with Some (p, _) => Some p | None => None end
  end.

(* heapq on (-dist, point) pairs, by its specification: the heap is kept as
   the sorted list of its items, so heap[0] is the head, heappush inserts and
   heapreplace drops the head and inserts.  Tuples compare first by -dist,
   then by the point (lexicographically).  [for item_le, bkdtree.py:295-333] *)
Fixpoint lex_lt (p q : point) : bool :=
  match p, q with
  | [], _ :: _ => true
  | a :: p', b :: q' => if qeq a b then lex_lt p' q' else qlt a b
  | _, _ => false
  end.
(* for item_le, bkdtree.py:295-333 *)
Definition item := (Qc * point)%type.               (* (dist_sq, point), stored as (-dist_sq, point)  [for heap_push, bkdtree.py:295-333] *)
Definition item_le (x y : item) : bool :=           (* (-dx, px) <= (-dy, py) *)
  if qeq (fst x) (fst y) then negb (lex_lt (snd y) (snd x)) else qlt (fst y) (fst x).
(* for knn_rec, bkdtree.py:295-333 *)
Fixpoint heap_push (x : item) (h : list item) : list item :=
  match h with
  | [] => [x]
  | y :: r => if item_le x y then x :: y :: r else y :: heap_push x r
  end.

(* diff * diff < -heap[0][0]; the heap is never empty there (k > 0)  [for knn_rec, bkdtree.py:295-333] *)
Definition heap_closer (d : Qc) (h : list item) : bool :=
  match h with [] => false | x :: _ => qlt d (fst x) end.

(* bkdtree.py:295-333 _k_nearest_rec *)
Fixpoint knn_rec (t : kd) (target : point) (k : nat) (h : list item) : list item :=
  match t with
  | Empty => h
  | Node p a l r _ =>
      let d := dist2 p target in
      let h1 := if length h <? k then heap_push (d, p) h
                else if heap_closer d h then heap_push (d, p) (tl h) else h in
      let diff := (coord target a - coord p a)%Qc in
      if qle diff 0 then
        let h2 := knn_rec l target k h1 in
        if heap_closer (diff * diff)%Qc h2 then knn_rec r target k h2 else h2
      else
        let h2 := knn_rec r target k h1 in
        if heap_closer (diff * diff)%Qc h2 then knn_rec l target k h2 else h2
  end.

(* bkdtree.py:335-357 k_nearest_neighbors: pop everything, then reverse *)
Definition knn (t : kd) (q : point) (k : nat) : list point :=
  match t with
  | Empty => []
  | _ => if k =? 0 then [] else rev (map snd (knn_rec t q k []))
  end.

(* a history of operations on an initially built tree  [a call in a history of calls of the functions above] *)
Inductive kop := OpInsert (p : point) | OpDelete (p : point).
(* calls of the functions above, one after another *)
Definition kd_step (t : kd) (o : kop) : res kd :=
  match o with OpInsert p => kd_insert t p | OpDelete p => kd_delete t p end.
(* calls of the functions above, one after another *)
Fixpoint kd_run (t : kd) (os : list kop) : res kd :=
  match os with [] => Ok t | o :: r => do t' <- kd_step t o ; kd_run t' r end.
