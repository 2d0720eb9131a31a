(* Model of mmcore/geom/polygon.py.  Doubles are exact rationals.  Polygons are
   lists of vertices without the closing vertex unless said otherwise. *)
From Coq Require Import List Arith ZArith Bool QArith Qcanon.
From Verif Require Import Common QcLib ArrZ AabbModel ImplModel RtreeModel.
Import ListNotations.
Local Open Scope Qc_scope.

(* for doty, polygon.py:89-92 *)
Definition px (p : p2) : Qc := fst p.
(* for doty, polygon.py:89-92 *)
Definition py (p : p2) : Qc := snd p.

(* ---- area ---- *)

(* polygon.py:89-92 polygon_area, on a closed list of rows *)
Fixpoint doty (l : list p2) : Qc := match l with a :: (b :: _) as r => py a * px b + doty r | _ => 0 end.
(* for polygon_area, polygon.py:89-92 *)
Fixpoint dotx (l : list p2) : Qc := match l with a :: (b :: _) as r => px a * py b + dotx r | _ => 0 end.
(* polygon.py:89-92 *)
Definition polygon_area (poly : list p2) : Qc := fabs (doty poly - dotx poly) / two.
(* polygon.py:102-110 to_polygon_area: boundary[0] of no row raises *)
Definition to_polygon_area (b : list p2) : res (list p2) := match b with [] => Err IndexError | p :: _ => Ok (b ++ [p]) end.
(* polygon.py:519-520 Polygon.area *)
Definition area (corners : list p2) : res Qc := do c <- to_polygon_area corners ; Ok (polygon_area c).

(* ---- clip, the function (113-142) ---- *)

(* polygon.py:114-115 *)
Definition inside (cp1 cp2 p : p2) : bool :=
  qlt ((py cp2 - py cp1) * (px p - px cp1)) ((px cp2 - px cp1) * (py p - py cp1)).
(* polygon.py:117-123; 1.0 / 0 raises *)
Definition compute_intersection (cp1 cp2 s e : p2) : res p2 :=
  let dcx := px cp1 - px cp2 in let dcy := py cp1 - py cp2 in
  let dpx := px s - px e in let dpy := py s - py e in
  let n1 := px cp1 * py cp2 - py cp1 * px cp2 in
  let n2 := px s * py e - py s * px e in
  let den := dcx * dpy - dcy * dpx in
  if qeq den 0 then Err ZeroDivision else
  let n3 := 1 / den in
  Ok ((n1 * dpx - n2 * dcx) * n3, (n1 * dpy - n2 * dcy) * n3).
(* polygon.py:132-140 *)
Fixpoint clip_edge (cp1 cp2 s : p2) (l : list p2) : res (list p2) :=
  match l with
  | [] => Ok []
  | e :: r =>
    do out <- (if inside cp1 cp2 e then
                 if negb (inside cp1 cp2 s) then do i <- compute_intersection cp1 cp2 s e ; Ok [i; e] else Ok [e]
               else if inside cp1 cp2 s then do i <- compute_intersection cp1 cp2 s e ; Ok [i]
               else Ok []) ;
    do rest <- clip_edge cp1 cp2 e r ;
    Ok (out ++ rest)
  end.
(* inputList[-1]  [for clip_by, polygon.py:127-141] *)
Definition last_of (l : list p2) : res p2 := match l with [] => Err IndexError | p :: r => Ok (last r p) end.
(* polygon.py:127-141 *)
Fixpoint clip_by (cp1 : p2) (cl : list p2) (output : list p2) : res (list p2) :=
  match cl with
  | [] => Ok output
  | cp2 :: r =>
    do s <- last_of output ;
    do out <- clip_edge cp1 cp2 s output ;
    clip_by cp2 r out
  end.
(* polygon.py:127-141 *)
Definition clip (subject clipper : list p2) : res (list p2) :=
  do cp1 <- last_of clipper ; clip_by cp1 clipper subject.

(* ---- intersect (523-548) ---- *)

(* for phase1_inner, polygon.py:427-446 *)
Definition intersect (s1 s2 c1 c2 : p2) : option (p2 * Qc * Qc) :=
  let den := (py c2 - py c1) * (px s2 - px s1) - (px c2 - px c1) * (py s2 - py s1) in
  if qeq den 0 then None else
  let us := ((px c2 - px c1) * (py s1 - py c1) - (py c2 - py c1) * (px s1 - px c1)) / den in
  let uc := ((px s2 - px s1) * (py s1 - py c1) - (py s2 - py s1) * (px s1 - px c1)) / den in
  if (qeq us 0 || qeq us 1) && (qle 0 uc && qle uc 1) || (qeq uc 0 || qeq uc 1) && (qle 0 us && qle us 1) then None
  else if (qlt 0 us && qlt us 1) && (qlt 0 uc && qlt uc 1) then
    Some ((px s1 + us * (px s2 - px s1), py s1 + us * (py s2 - py s1)), us, uc)
  else None.

(* ---- Polygon.clip (402-515) ---- *)

(* A polygon under clipping: its original vertices in order from the head, each
   with the intersection vertices between it and the next original vertex.
   The intersection vertices of one crossing carry the same number in both
   polygons; that is their neighbour link.  [for sides, polygon.py:246-250] *)
Record cut := { cut_at : p2; cut_alpha : Qc; cut_id : nat }.
(* for of_points, polygon.py:246-250 *)
Definition sides := list (p2 * list cut).
(* polygon.py:246-250 __init__ *)
Definition of_points (pts : list p2) : sides := map (fun p => (p, [])) pts.

(* polygon.py:266-286 insert: start is an original vertex with alpha 0.0 and end the next one *)
Fixpoint insert_cut (c : cut) (l : list cut) : list cut :=
  match l with [] => [c] | d :: r => if qlt (cut_alpha d) (cut_alpha c) then d :: insert_cut c r else c :: l end.
(* polygon.py:266-286 *)
Fixpoint insert_at (i : nat) (c : cut) (s : sides) : sides :=
  match s, i with
  | [], _ => []
  | (p, l) :: r, O => (p, insert_cut c l) :: r
  | x :: r, S j => x :: insert_at j c r
  end.

(* consecutive original vertices, cyclically: (q, poly.next(q.next))  [for edges_of, polygon.py:427-446] *)
Fixpoint pairs_from (first : p2) (l : list p2) : list (p2 * p2) :=
  match l with [] => [] | [a] => [(a, first)] | a :: (b :: _) as r => (a, b) :: pairs_from first r end.
(* for phase1, polygon.py:427-446 *)
Definition edges_of (l : list p2) : list (p2 * p2) := match l with [] => [] | a :: _ => pairs_from a l end.

(* polygon.py:427-446 phase one; cs is the clip polygon's edge list with positions *)
Fixpoint phase1_inner (i : nat) (e : p2 * p2) (j : nat) (cs : list (p2 * p2)) (st : sides * sides * nat) : sides * sides * nat :=
  match cs with
  | [] => st
  | f :: r =>
    let '(a, b, k) := st in
    phase1_inner i e (S j) r
      (match intersect (fst e) (snd e) (fst f) (snd f) with
       | None => st
       | Some (p, alphaS, alphaC) =>
         (insert_at i {| cut_at := p; cut_alpha := alphaS; cut_id := k |} a,
          insert_at j {| cut_at := p; cut_alpha := alphaC; cut_id := k |} b, S k)
       end)
  end.
(* polygon.py:427-446 *)
Fixpoint phase1_outer (i : nat) (es cs : list (p2 * p2)) (st : sides * sides * nat) : sides * sides * nat :=
  match es with [] => st | e :: r => phase1_outer (S i) r cs (phase1_inner i e 0 cs st) end.
(* polygon.py:427-446 *)
Definition phase1 (s c : list p2) : sides * sides * nat :=
  phase1_outer 0 (edges_of s) (edges_of c) (of_points s, of_points c, 0%nat).

(* polygon.py:190-206 isInside *)
Definition far : Qc := Q2Qc 1000000.
(* polygon.py:190-206 *)
Definition is_inside (p : p2) (poly : list p2) : bool :=
  Nat.odd (length (filter (fun e => match intersect p (far, py p) (fst e) (snd e) with Some _ => true | None => false end) (edges_of poly))).

(* the circular list from the head; an intersection vertex has its number and entry flag  [for flag_cuts, polygon.py:448-459] *)
Record node := { at_ : p2; xing : option (nat * bool) }.
(* polygon.py:448-459 phase two: entry flags alternate *)
Fixpoint flag_cuts (e : bool) (l : list cut) : list node * bool :=
  match l with
  | [] => ([], e)
  | c :: r => let '(t, e') := flag_cuts (negb e) r in ({| at_ := cut_at c; xing := Some (cut_id c, e) |} :: t, e')
  end.
(* polygon.py:448-459 *)
Fixpoint flag (e : bool) (s : sides) : list node :=
  match s with
  | [] => []
  | (p, l) :: r => let '(t, e') := flag_cuts e l in {| at_ := p; xing := None |} :: t ++ flag e' r
  end.

(* polygon.py:470-482: walk to the next intersection vertex; the vertices passed, the place and number reached *)
Fixpoint walk (fuel : nat) (l : list node) (fwd : bool) (i : nat) : res (list p2 * nat * nat) :=
  match fuel with
  | O => Err OutOfFuel
  | S f =>
    let n := length l in
    let j := if fwd then (if (S i =? n)%nat then 0%nat else S i) else match i with O => (n - 1)%nat | S i' => i' end in
    match nth_error l j with
    | None => Err AttributeError
    | Some nd => match xing nd with
                 | Some (k, _) => Ok ([at_ nd], j, k)
                 | None => do (ps, j', k) <- walk f l fwd j ; Ok (at_ nd :: ps, j', k)
                 end
    end
  end.
(* neighbour  [for trace, polygon.py:464-487] *)
Fixpoint place (k : nat) (l : list node) (i : nat) : option nat :=
  match l with
  | [] => None
  | nd :: r => match xing nd with Some (k', _) => if (k =? k')%nat then Some i else place k r (S i) | None => place k r (S i) end
  end.
(* for trace, polygon.py:464-487 *)
Definition seen (k : nat) (ch : list nat) : bool := existsb (Nat.eqb k) ch.
(* polygon.py:464-487: one result polygon, starting at place i of l; o is the other polygon *)
Fixpoint trace (fuel : nat) (l o : list node) (i : nat) (ch : list nat) : res (list p2 * list nat) :=
  match fuel with
  | O => Err OutOfFuel
  | S f =>
    match nth_error l i with
    | Some {| xing := Some (k, e) |} =>
      let ch := k :: ch in
      do (ps, _, k') <- walk (S (length l)) l e i ;
      if seen k' ch then Ok (ps, ch) else
      match place k' o 0 with
      | None => Err AttributeError
      | Some i' => do (qs, ch') <- trace f o l i' ch ; Ok (ps ++ qs, ch')
      end
    | _ => Err AttributeError
    end
  end.
(* polygon.py:300-306 head_intersect; 318-323 unprocessed *)
Fixpoint first_unchecked (l : list node) (ch : list nat) (i : nat) : option (nat * p2) :=
  match l with
  | [] => None
  | nd :: r => match xing nd with
               | Some (k, _) => if seen k ch then first_unchecked r ch (S i) else Some (i, at_ nd)
               | None => first_unchecked r ch (S i)
               end
  end.
(* polygon.py:461-489 phase three *)
Fixpoint phase3 (fuel : nat) (a b : list node) (ch : list nat) : res (list (list p2)) :=
  match fuel with
  | O => Err OutOfFuel
  | S f =>
    match first_unchecked a ch 0 with
    | None => Ok []
    | Some (i, p) => do (ps, ch') <- trace f a b i ch ; do rest <- phase3 f a b ch' ; Ok ((p :: ps) :: rest)
    end
  end.
(* polygon.py:402-494; head of an empty polygon raises AttributeError *)
Definition poly_clip (fuel : nat) (s c : list p2) (s_entry c_entry : bool) : res (list (list p2)) :=
  match s, c with
  | hs :: _, hc :: _ =>
    let '(a, b, _) := phase1 s c in
    let na := flag (xorb s_entry (is_inside hs c)) a in
    let nb := flag (xorb c_entry (is_inside hc s)) b in
    do l <- phase3 fuel na nb [] ;
    Ok (match l with [] => [map at_ na] | _ => l end)
  | _, _ => Err AttributeError
  end.
(* polygon.py:325-332 *)
Definition poly_union (fuel : nat) (s c : list p2) := poly_clip fuel s c false false.
(* for poly_or, polygon.py:334-341 *)
Definition poly_intersection (fuel : nat) (s c : list p2) := poly_clip fuel s c true true.
(* polygon.py:325-332 *)
Definition poly_difference (fuel : nat) (s c : list p2) := poly_clip fuel s c false true.
(* polygon.py:334-341 __or__; 352-359 __sub__; 370-377 __add__, on polygons *)
Definition poly_or := poly_intersection.
(* polygon.py:334-341 *)
Definition poly_sub := poly_difference.
(* polygon.py:334-341 *)
Definition poly_add := poly_union.

(* ---- segments and point_in_polygon (626-663) ---- *)

(* polygon.py:626-627 *)
Definition ccw (a b c : p2) : bool := qlt ((py b - py a) * (px c - px a)) ((py c - py a) * (px b - px a)).
(* rows of an array; 3 columns for the boxes to have the row's length  [for intersects_segments, polygon.py:630-639] *)
Definition xy (r : list Qc) : res p2 := do x <- rdZ r 0 ; do y <- rdZ r 1 ; Ok (x, y).
(* aabb.py:39-56 aabb_overlap: 2 columns, otherwise the first three *)
Definition aabb_overlap (b1 b2 : box) : res bool :=
  do a0 <- rdZ (fst b1) 0 ; do c1 <- rdZ (snd b2) 0 ;
  if negb (qle a0 c1) then Ok false else
  do a1 <- rdZ (snd b1) 0 ; do c0 <- rdZ (fst b2) 0 ;
  if negb (qle c0 a1) then Ok false else
  do a0 <- rdZ (fst b1) 1 ; do c1 <- rdZ (snd b2) 1 ;
  if negb (qle a0 c1) then Ok false else
  do a1 <- rdZ (snd b1) 1 ; do c0 <- rdZ (fst b2) 1 ;
  if negb (qle c0 a1) then Ok false else
  if Nat.eqb (length (fst b1)) 2 then Ok true else
  do a0 <- rdZ (fst b1) 2 ; do c1 <- rdZ (snd b2) 2 ;
  if negb (qle a0 c1) then Ok false else
  do a1 <- rdZ (snd b1) 2 ; do c0 <- rdZ (fst b2) 2 ;
  Ok (qle c0 a1).
(* polygon.py:630-639; the arrays have K columns *)
Definition intersects_segments (K : Z) (ab cd : list Qc * list Qc) (ab_bbox cd_bbox : option box) : res bool :=
  do bb1 <- match ab_bbox with Some b => Ok b | None => aabb K [fst ab; snd ab] None end ;
  do bb2 <- match cd_bbox with Some b => Ok b | None => aabb K [fst cd; snd cd] None end ;
  do o <- aabb_overlap bb1 bb2 ;
  if negb o then Ok false else
  do a <- xy (fst ab) ; do b <- xy (snd ab) ; do c <- xy (fst cd) ; do d <- xy (snd cd) ;
  Ok (xorb (ccw a c d) (ccw b c d) && xorb (ccw a b c) (ccw a b d)).
(* polygon.py:642-643 with start_index *)
Definition segments_by_loop (n start : Z) : list (Z * Z) :=
  map (fun i => let i := Z.of_nat i in (i + start, (i + 1) mod n + start)%Z) (seq 0 (Z.to_nat n)).
(* np.allclose on two rows  [for allclose, polygon.py:646-663] *)
Definition rtol : Qc := Q2Qc (1 # 100000).
(* for allclose, polygon.py:646-663 *)
Definition atol8 : Qc := Q2Qc (1 # 100000000).
(* for point_in_polygon, polygon.py:646-663 *)
Definition allclose (a b : list Qc) : bool :=
  forallb (fun p => qle (fabs (fst p - snd p)) (atol8 + rtol * fabs (snd p))) (combine a b).
(* row arithmetic; rows of different lengths do not broadcast (a length of 1 does not occur)  [for point_in_polygon, polygon.py:646-663] *)
Definition rowop (f : Qc -> Qc -> Qc) (a b : list Qc) : res (list Qc) :=
  if Nat.eqb (length a) (length b) then Ok (map (fun p => f (fst p) (snd p)) (combine a b)) else Err ValueError.
(* polygon.py:646-663 with the default segments and box *)
Fixpoint count_crossings (K : Z) (points : list (list Qc)) (segs : list (Z * Z)) (segment : list Qc * list Qc) (bb : box) (cnt : nat) : res nat :=
  match segs with
  | [] => Ok cnt
  | (i, j) :: r =>
    do a <- rdZ points i ; do b <- rdZ points j ;
    do h <- intersects_segments K (a, b) segment None (Some bb) ;
    count_crossings K points r segment bb (if h then S cnt else cnt)
  end.
(* polygon.py:646-663 *)
Definition point_in_polygon (K : Z) (points : list (list Qc)) (point : list Qc) : res bool :=
  do bb <- aabb K points None ;
  do inb <- point_in_aabb bb point ;
  if negb inb then Ok false else
  do p0 <- rdZ points 0 ; do pn <- rdZ points (lenZ points - 1) ;
  let points := if allclose p0 pn then tl points else points in
  do e1 <- rowop Qcplus point (snd bb) ; do e <- rowop Qcminus e1 (fst bb) ;
  do sb <- aabb K [point; e] None ;
  do cnt <- count_crossings K points (segments_by_loop (lenZ points) 0) (point, e) sb 0 ;
  Ok (Nat.odd cnt).

(* ---- is_point_in_polygon (669-696) ---- *)

(* python's min and max keep the first of equal arguments, as fmin and fmax do *)
(* one turn of the loop; xi is the local xinters, unbound at first  [polygon.py:646-663] *)
Definition scan_turn (q p1 p2 : p2) (st : option Qc * bool) : res (option Qc * bool) :=
  let '(xi, ins) := st in
  if qlt (fmin (py p1) (py p2)) (py q) then
    if qle (py q) (fmax (py p1) (py p2)) then
      if qle (px q) (fmax (px p1) (px p2)) then
        let xi := if negb (qeq (py p1) (py p2)) then Some ((py q - py p1) * (px p2 - px p1) / (py p2 - py p1) + px p1) else xi in
        if qeq (px p1) (px p2) then Ok (xi, negb ins)
        else match xi with None => Err AttributeError (* UnboundLocalError *) | Some v => Ok (xi, if qle (px q) v then negb ins else ins) end
      else Ok st
    else Ok st
  else Ok st.
(* polygon.py:646-663 *)
Fixpoint scan (q p1 : p2) (l : list p2) (st : option Qc * bool) : res (option Qc * bool) :=
  match l with [] => Ok st | p :: r => do st' <- scan_turn q p1 p st ; scan q p r st' end.
(* polygon[i % n] for i in range(n + 1): every vertex, then the first again  [polygon.py:646-663] *)
Definition is_point_in_polygon (q : p2) (poly : list p2) : res bool :=
  match poly with
  | [] => Err IndexError
  | p :: _ => do (_, ins) <- scan q p (poly ++ [p]) (None, false) ; Ok ins
  end.

(* ---- the bounding volume hierarchy (699-789) ---- *)

(* for intersects_ray, polygon.py:706-708 *)
Record bbox := { x_min : Qc; x_max : Qc; y_min : Qc; y_max : Qc }.
(* polygon.py:706-708 *)
Definition intersects_ray (b : bbox) (x y : Qc) : bool := qle (y_min b) y && qle y (y_max b) && qle x (x_max b).
(* polygon.py:710-717 *)
Definition bunion (a b : bbox) : bbox :=
  {| x_min := fmin (x_min a) (x_min b); x_max := fmax (x_max a) (x_max b); y_min := fmin (y_min a) (y_min b); y_max := fmax (y_max a) (y_max b) |}.
(* polygon.py:720-725 *)
Inductive bvh := Leaf (b : bbox) (e : p2 * p2) | Inner (b : bbox) (l r : bvh).
(* polygon.py:720-725 *)
Definition bb_of (t : bvh) : bbox := match t with Leaf b _ => b | Inner b _ _ => b end.
(* polygon.py:731-743 build_recursive; the recursion never ends on no object at all *)
Fixpoint build_recursive (fuel : nat) (objects : list (bbox * (p2 * p2))) : res bvh :=
  match fuel with
  | O => Err OutOfFuel
  | S f =>
    match objects with
    | [o] => Ok (Leaf (fst o) (snd o))
    | _ =>
      let os := sort_by (fun o => (x_min (fst o) + x_max (fst o)) / two) objects in
      let mid := Nat.div2 (length os) in
      do l <- build_recursive f (firstn mid os) ;
      do r <- build_recursive f (skipn mid os) ;
      Ok (Inner (bunion (bb_of l) (bb_of r)) l r)
    end
  end.
(* for polygon_build_bvh, polygon.py:728-747 *)
Definition edge_box (e : p2 * p2) : bbox :=
  {| x_min := fmin (px (fst e)) (px (snd e)); x_max := fmax (px (fst e)) (px (snd e)); y_min := fmin (py (fst e)) (py (snd e)); y_max := fmax (py (fst e)) (py (snd e)) |}.
(* polygon.py:728-747 *)
Definition polygon_build_bvh (fuel : nat) (poly : list p2) : res bvh :=
  build_recursive fuel (map (fun e => (edge_box e, e)) (edges_of poly)).
(* polygon.py:775-781 *)
Definition leaf_hit (q : p2) (e : p2 * p2) : bool :=
  let '(p1, p2) := e in
  if qlt (fmin (py p1) (py p2)) (py q) && qle (py q) (fmax (py p1) (py p2)) && qle (px q) (fmax (px p1) (px p2)) then
    if negb (qeq (py p1) (py p2)) then qle (px q) ((py q - py p1) * (px p2 - px p1) / (py p2 - py p1) + px p1) else false
  else false.
(* polygon.py:769-786 *)
Fixpoint ray_hits (q : p2) (t : bvh) : nat :=
  if negb (intersects_ray (bb_of t) (px q) (py q)) then 0%nat else
  match t with Leaf _ e => if leaf_hit q e then 1%nat else 0%nat | Inner _ l r => (ray_hits q l + ray_hits q r)%nat end.
(* polygon.py:769-786 *)
Definition is_point_in_polygon_bvh (fuel : nat) (poly : list p2) (q : p2) : res bool :=
  do t <- polygon_build_bvh fuel poly ; Ok (Nat.odd (ray_hits q t)).

(* ---- convex_hull2d (799-880) ---- *)

(* for orientation, polygon.py:813-825 *)
Definition eps9 : Qc := Q2Qc (1 # 1000000000).
(* polygon.py:813-825: 0 collinear, 1 clockwise, 2 counterclockwise *)
Definition orientation (p q r : p2) : nat :=
  let val := (py q - py p) * (px r - px q) - (px q - px p) * (py r - py q) in
  if qlt (fabs val) eps9 then 0%nat else if qlt 0 val then 1%nat else 2%nat.
(* polygon.py:806-810 *)
Definition dist_sq (p q : p2) : Qc := (px p - px q) * (px p - px q) + (py p - py q) * (py p - py q).
(* polygon.py:828-830 polar_angle, as an order on directions: arctan2 runs through
   (-pi, 0), 0 (also for the null vector), (0, pi), pi *)
Definition sector (v : p2) : Z := if qlt (py v) 0 then 0%Z else if qlt 0 (py v) then 2%Z else if qlt (px v) 0 then 3%Z else 1%Z.
(* polygon.py:828-830 *)
Definition angle_lt (v w : p2) : bool :=
  (sector v <? sector w)%Z || ((sector v =? sector w)%Z && (((sector v =? 0)%Z || (sector v =? 2)%Z) && qlt (py v * px w) (px v * py w))).
(* for before, polygon.py:866 *)
Definition vec (p0 p : p2) : p2 := (px p - px p0, py p - py p0).
(* polygon.py:866 np.lexsort((distances, angles)): by angle, then distance, stable *)
Definition before (p0 p q : p2) : bool :=
  angle_lt (vec p0 p) (vec p0 q) || (negb (angle_lt (vec p0 q) (vec p0 p)) && qlt (dist_sq p0 p) (dist_sq p0 q)).
(* polygon.py:866 *)
Fixpoint put_pt (p0 x : p2) (l : list p2) : list p2 :=
  match l with [] => [x] | y :: r => if before p0 y x then y :: put_pt p0 x r else x :: l end.
(* polygon.py:866 *)
Definition sort_pts (p0 : p2) (l : list p2) : list p2 := fold_right (put_pt p0) [] l.
(* polygon.py:849-854: index of the start point *)
Fixpoint lowest (l : list p2) (i : nat) (best : nat * p2) : nat * p2 :=
  match l with
  | [] => best
  | p :: r => lowest r (S i) (if qlt (py p) (py (snd best)) || (qlt (fabs (py p - py (snd best))) eps9 && qlt (px p) (px (snd best))) then (i, p) else best)
  end.
(* polygon.py:874-876: the stack, top first *)
Fixpoint pop_right (p : p2) (stack : list p2) : list p2 :=
  match stack with
  | t :: (u :: _) as r => if (orientation u t p =? 2)%nat then stack else pop_right p r
  | _ => stack
  end.
(* polygon.py:874-876 *)
Definition graham (stack l : list p2) : list p2 := fold_left (fun st p => p :: pop_right p st) l stack.
(* polygon.py:833-880 *)
Definition convex_hull2d (points : list p2) : list p2 :=
  match points with
  | a :: b :: _ :: _ =>
    let '(ymin, p0) := lowest (tl points) 1 (0%nat, a) in
    let others := tl (upd points ymin a) in
    rev (graham [p0] (sort_pts p0 others))
  | _ => points
  end.
