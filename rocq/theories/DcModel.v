(* Dual contouring in the plane: Model of /repo/mmcore/geom/implicit/dc/__init__.py over the quadtrees of
   /repo/mmcore/geom/implicit/tree/collapse2d.py (ImplModel).

   Numbers are exact rationals, a shape is a function from points to numbers.  The feature point of a cell (deriv, feature:
   square roots and numpy.linalg.lstsq) is an argument of the dual edges.  circle and the sample shapes hi, test1-test4 and the
   printing in index are not modelled. *)
From Coq Require Import List Arith ZArith Bool QArith Qcanon.
From Verif Require Import Common QcLib AabbModel ImplModel.
Import ListNotations.
Local Open Scope Qc_scope.

(* for union, dc/__init__.py:94-98 *)
Definition shape := p2 -> Qc.

(* dc/__init__.py:154-167 opUnion, opSubtraction, opIntersection, opXor *)
Definition opUnion (d1 d2 : Qc) : Qc := fmin d1 d2.
Definition opSubtraction (d1 d2 : Qc) : Qc := fmax (- d1) d2.
Definition opIntersection (d1 d2 : Qc) : Qc := fmax d1 d2.
Definition opXor (d1 d2 : Qc) : Qc := fmax (fmin d1 d2) (- fmax d1 d2).
(* dc/__init__.py:62-91 left, right, lower, upper *)
Definition left_of (x0 : Qc) : shape := fun p => fst p - x0.
Definition right_of (x0 : Qc) : shape := fun p => x0 - fst p.
Definition lower_than (y0 : Qc) : shape := fun p => snd p - y0.
Definition upper_than (y0 : Qc) : shape := fun p => y0 - snd p.
(* dc/__init__.py:94-119 union, intersection, inv, substract *)
Definition union (a b : shape) : shape := fun p => opUnion (a p) (b p).
Definition intersection (a b : shape) : shape := fun p => opIntersection (a p) (b p).
Definition inv (a : shape) : shape := fun p => - (1) * a p.
Definition substract (a b : shape) : shape := fun p => opSubtraction (b p) (a p).
(* dc/__init__.py:122-127 rectangle *)
Definition rectangle (lo hi : p2) : shape :=
  intersection (right_of (fst lo)) (intersection (left_of (fst hi)) (intersection (upper_than (snd lo)) (lower_than (snd hi)))).

(* abs; for abs_cmp, dc/__init__.py:14-16 *)
Definition qabs (x : Qc) : Qc := if qlt x 0 then - x else x.
(* dc/__init__.py:14-16 abs_cmp with op = max *)
Definition abs_cmp (a b : Qc) : Qc := if qeq (qabs a) (fmax (qabs a) (qabs b)) then a else b.
(* a number or a one-dimensional array; for nd_max, dc/__init__.py:19-35 *)
Inductive value := Num (x : Qc) | Arr (l : list Qc).
(* a[mask] = b[mask]; for nd_max, dc/__init__.py:22-24 *)
Fixpoint overwrite (a b : list Qc) : list Qc :=
  match a, b with x :: a', y :: b' => (if qlt (qabs x) (qabs y) then y else x) :: overwrite a' b' | _, _ => [] end.
(* dc/__init__.py:19-35 nd_max: the result and the two arguments afterwards; arrays of unequal length cannot be compared *)
Definition nd_max (a b : value) : res (value * value * value) :=
  match a, b with
  | Arr la, Arr lb => if (length la =? length lb)%nat then let r := Arr (overwrite la lb) in Ok (r, r, b) else Err ValueError
  | Arr la, Num y => let r := Arr (map (fun x => if qlt (qabs x) (qabs y) then y else x) la) in Ok (r, r, b)
  | Num x, Arr lb => let r := Arr (map (fun y => if qlt (qabs y) (qabs x) then x else y) lb) in Ok (r, a, r)
  | Num x, Num y => Ok (Num (abs_cmp x y), a, b)
  end.

(* tree/collapse2d.py:11-75 the property children *)
Definition children (t : tree2) : list tree2 :=
  match t with Leaf2 _ => [] | Empty2 n => [n] | Full2 n => [n] | Root2 a b c d => [a; b; c; d] end.
(* dc/__init__.py:173 the default filter *)
Definition leaf_filter (parent child : tree2) : bool := match child with Leaf2 _ => true | _ => false end.
(* dc/__init__.py:170-180 trav: the calls of cb in their order; the recursive call leaves fltr at its default *)
Fixpoint trav_default (t : tree2) : list (tree2 * tree2) :=
  let visit ch := if leaf_filter t ch then [(t, ch)] else trav_default ch in
  match t with
  | Leaf2 _ => []
  | Empty2 n => visit n
  | Full2 n => visit n
  | Root2 a b c d => visit a ++ visit b ++ visit c ++ visit d
  end.
Definition trav (t : tree2) (fltr : tree2 -> tree2 -> bool) : list (tree2 * tree2) :=
  flat_map (fun ch => if fltr t ch then [(t, ch)] else trav_default ch) (children t).

(* dc/__init__.py:181-200 foldTree *)
Fixpoint foldTree (t : tree2) (quad : box2) (root empty full leaf : box2 -> Qc) : Qc :=
  match t with
  | Root2 a b c d =>
      let '((xmin, ymin), (xmax, ymax)) := quad in
      let xmid := (xmin + xmax) / two in
      let ymid := (ymin + ymax) / two in
      root quad + foldTree a ((xmin, ymin), (xmid, ymid)) root empty full leaf
                + foldTree b ((xmid, ymin), (xmax, ymid)) root empty full leaf
                + foldTree c ((xmin, ymid), (xmid, ymax)) root empty full leaf
                + foldTree d ((xmid, ymid), (xmax, ymax)) root empty full leaf
  | Empty2 _ => empty quad
  | Full2 _ => full quad
  | Leaf2 _ => leaf quad
  end.

(* dc/__init__.py:203-210 index *)
Definition index (s : shape) (cell : box2) : nat :=
  let '((xmin, ymin), (xmax, ymax)) := cell in
  let pts := flat_map (fun y => map (fun x => (x, y)) [xmin; xmax]) [ymin; ymax] in
  list_sum (map (fun ip => if qlt (s (snd ip)) 0 then (2 ^ (3 - fst ip))%nat else 0%nat) (combine (seq 0 4) pts)).
(* tree/collapse2d.py:194-198 Side *)
Inductive side := Upper | Lower | Left | Right.
(* dc/__init__.py:396-413 lut *)
Definition lut : list (list (side * side)) :=
  [ [];
    [(Upper, Right)];
    [(Left, Upper)];
    [(Left, Right)];
    [(Right, Lower)];
    [(Upper, Lower)];
    [(Right, Lower); (Left, Upper)];
    [(Left, Lower)];
    [(Lower, Left)];
    [(Lower, Left); (Upper, Right)];
    [(Lower, Upper)];
    [(Lower, Right)];
    [(Right, Left)];
    [(Upper, Left)];
    [(Right, Upper)];
    [] ].
(* dc/__init__.py:213-214 edges *)
Definition edges (s : shape) (cell : box2) : res (list (side * side)) :=
  match nth_error lut (index s cell) with Some l => Ok l | None => Err IndexError end.

(* for zero, dc/__init__.py:228-250 *)
Definition q12 : Qc := Q2Qc (1 # 2).
(* dc/__init__.py:245-248 pos *)
Definition pos (a b : p2) (f : Qc) : p2 := (fst a * (1 - f) + fst b * f, snd a * (1 - f) + snd b * f).
(* dc/__init__.py:236-243 zero_ *)
Fixpoint zero_ (s : shape) (a b : p2) (f step : Qc) (i : nat) : p2 :=
  match i with
  | O => pos a b f
  | S i' => if qlt (s (pos a b f)) 0 then zero_ s a b (f + step) (step / two) i' else zero_ s a b (f - step) (step / two) i'
  end.
(* dc/__init__.py:228-250 zero; the recursion that exchanges the ends takes fuel *)
Fixpoint zero (fuel : nat) (s : shape) (a b : p2) : res p2 :=
  match fuel with
  | O => Err OutOfFuel
  | S fuel' => if qle 0 (s a) then zero fuel' s b a else Ok (zero_ s a b q12 (Q2Qc (1 # 4)) 10)
  end.
(* dc/__init__.py:217-225 pt *)
Definition pt (fuel : nat) (s : shape) (cell : box2) (sd : side) : res p2 :=
  let '((xmin, ymin), (xmax, ymax)) := cell in
  match sd with
  | Left => zero fuel s (xmin, ymin) (xmin, ymax)
  | Right => zero fuel s (xmax, ymin) (xmax, ymax)
  | Lower => zero fuel s (xmin, ymin) (xmax, ymin)
  | Upper => zero fuel s (xmin, ymax) (xmax, ymax)
  end.
(* the list of points of the edges; for contours, dc/__init__.py:253-259 *)
Fixpoint edge_points (fuel : nat) (s : shape) (cell : box2) (l : list (side * side)) : res (list (p2 * p2)) :=
  match l with
  | [] => Ok []
  | (a, b) :: l' => do p <- pt fuel s cell a ; do r <- pt fuel s cell b ; do ps <- edge_points fuel s cell l' ; Ok ((p, r) :: ps)
  end.
(* dc/__init__.py:253-259 contours *)
Definition contours (fuel : nat) (s : shape) (cell : box2) : res (list (p2 * p2)) :=
  do es <- edges s cell ; edge_points fuel s cell es.

(* dc/__init__.py:295-305 interpolate *)
Definition interpolate (s : shape) (cell : box2) (p : p2) : res Qc :=
  let '((xmin, ymin), (xmax, ymax)) := cell in
  if qeq (xmax - xmin) 0 then Err ZeroDivision
  else if qeq (ymax - ymin) 0 then Err ZeroDivision
  else
    let dx := (fst p - xmin) / (xmax - xmin) in
    let dy := (snd p - ymin) / (ymax - ymin) in
    let ab := s (xmin, ymin) * (1 - dx) + s (xmax, ymin) * dx in
    let cd := s (xmin, ymax) * (1 - dx) + s (xmax, ymax) * dx in
    Ok (ab * (1 - dy) + cd * dy).
(* dc/__init__.py:308-309 score *)
Definition score (s : shape) (cell : box2) (p : p2) : res Qc := do v <- interpolate s cell p ; Ok (qabs (v - s p)).
(* the list of scores; for merge, dc/__init__.py:277 *)
Fixpoint scores (s : shape) (cell : box2) (ps : list p2) : res (list Qc) :=
  match ps with [] => Ok [] | p :: ps' => do v <- score s cell p ; do vs <- scores s cell ps' ; Ok (v :: vs) end.
(* dc/__init__.py:263-284 _merge *)
Definition merge_four (s : shape) (a b c d : tree2) : res tree2 :=
  match a, b, c, d with
  | Leaf2 da, Leaf2 db, Leaf2 dc, Leaf2 dd =>
      let lo := fst da in
      let hi := snd dd in
      do vs <- scores s (lo, hi) [snd da; fst db; snd db; fst dc; snd dc] ;
      Ok (if forallb (fun v => qlt v (Q2Qc (1 # 1000))) vs then Leaf2 (lo, hi) else Root2 a b c d)
  | _, _, _, _ => Ok (Root2 a b c d)
  end.
(* dc/__init__.py:262-292 merge *)
Fixpoint merge (s : shape) (t : tree2) : res tree2 :=
  match t with
  | Root2 ta tb tc td =>
      do a <- merge s ta ; do b <- merge s tb ; do c <- merge s tc ; do d <- merge s td ; merge_four s a b c d
  | _ => Ok t
  end.

Section Dual.
Context {A : Type}.
Variable feature : box2 -> A.
(* dc/__init__.py:362-376 edgeProcH *)
Fixpoint edgeProcH (t1 : tree2) : tree2 -> list (A * A) :=
  fix inner (t2 : tree2) : list (A * A) :=
    match t1, t2 with
    | Leaf2 d1, Leaf2 d2 => [(feature d1, feature d2)]
    | Leaf2 _, Root2 a _ c _ => inner a ++ inner c
    | Root2 _ b _ d, Leaf2 _ => edgeProcH b t2 ++ edgeProcH d t2
    | Root2 _ b _ d, Root2 a _ c _ => edgeProcH b a ++ edgeProcH d c
    | _, _ => []
    end.
(* dc/__init__.py:379-393 edgeProcV *)
Fixpoint edgeProcV (t1 : tree2) : tree2 -> list (A * A) :=
  fix inner (t2 : tree2) : list (A * A) :=
    match t1, t2 with
    | Leaf2 d1, Leaf2 d2 => [(feature d1, feature d2)]
    | Leaf2 _, Root2 _ _ c d => inner c ++ inner d
    | Root2 a b _ _, Leaf2 _ => edgeProcV a t2 ++ edgeProcV b t2
    | Root2 a b _ _, Root2 _ _ c d => edgeProcV a c ++ edgeProcV b d
    | _, _ => []
    end.
(* dc/__init__.py:347-359 faceProc and 343-344 dc *)
Fixpoint faceProc (t : tree2) : list (A * A) :=
  match t with
  | Root2 a b c d => (faceProc a ++ faceProc b ++ faceProc c ++ faceProc d) ++ edgeProcH a b ++ edgeProcH c d ++ edgeProcV a c ++ edgeProcV b d
  | _ => []
  end.
Definition dc (t : tree2) : list (A * A) := faceProc t.
End Dual.
