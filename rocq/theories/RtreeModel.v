(* Model of mmcore/ds/tree/rtree.py: Box, Rectangle, RStarTree.

   The tree only uses a few methods of its rectangles, so they are a record;
   the two classes of the file are its instances.  Node objects are compared by
   identity in the source; here insertion returns the changed node and the node
   split off from it, which is enough because only a leaf or the root is ever
   split (see _find_parent below).  Coordinates are exact rationals. *)
From Coq Require Import List Arith ZArith Bool QArith Qcanon.
From Verif Require Import Common QcLib.
Import ListNotations.
Open Scope Qc_scope.

(* what RStarTree uses of a rectangle class  [for Box, rtree.py:3-34] *)
Record shape := { rect : Type; minx : rect -> Qc; miny : rect -> Qc; area : rect -> Qc; perimeter : rect -> Qc;
  union : rect -> rect -> rect; meets : rect -> rect -> bool }.

(* for Box, rtree.py:3-34 *)
Definition qmin (a b : Qc) : Qc := if qlt b a then b else a.
(* for Box, rtree.py:3-34 *)
Definition qmax (a b : Qc) : Qc := if qlt a b then b else a.
(* rtree.py:3-34 Box *)
Record box3 := { bx0 : Qc; by0 : Qc; bz0 : Qc; bx1 : Qc; by1 : Qc; bz1 : Qc }.
(* rtree.py:3-34 *)
Definition Box : shape := {| rect := box3; minx := bx0; miny := by0;
  area := fun b => (bx1 b - bx0 b) * (by1 b - by0 b) * (bz1 b - bz0 b);
  perimeter := fun b => Q2Qc 2 * (bx1 b - bx0 b + by1 b - by0 b + bz1 b - bz0 b);
  union := fun a b => {| bx0 := qmin (bx0 a) (bx0 b); by0 := qmin (by0 a) (by0 b); bz0 := qmin (bz0 a) (bz0 b);
                         bx1 := qmax (bx1 a) (bx1 b); by1 := qmax (by1 a) (by1 b); bz1 := qmax (bz1 a) (bz1 b) |};
  meets := fun a b => negb (qlt (bx1 b) (bx0 a) || qlt (by1 a) (by0 b) || qlt (bx1 a) (bx0 b) || qlt (by1 b) (by0 a) || qlt (bz1 b) (bz0 a) || qlt (bz1 a) (bz0 b)) |}.
(* rtree.py:166-191 Rectangle *)
Record rect2 := { rx0 : Qc; ry0 : Qc; rx1 : Qc; ry1 : Qc }.
(* rtree.py:166-191 *)
Definition Rectangle : shape := {| rect := rect2; minx := rx0; miny := ry0;
  area := fun b => (rx1 b - rx0 b) * (ry1 b - ry0 b);
  perimeter := fun b => Q2Qc 2 * (rx1 b - rx0 b + ry1 b - ry0 b);
  union := fun a b => {| rx0 := qmin (rx0 a) (rx0 b); ry0 := qmin (ry0 a) (ry0 b); rx1 := qmax (rx1 a) (rx1 b); ry1 := qmax (ry1 a) (ry1 b) |};
  meets := fun a b => negb (qlt (rx1 b) (rx0 a) || qlt (ry1 a) (ry0 b) || qlt (rx1 a) (rx0 b) || qlt (ry1 b) (ry0 a)) |}.

(* rtree.py:35-53 Node.  A node with is_leaf whose children are entries (themselves nodes
   carrying a rectangle), or a node whose children are nodes; mbr may be None *)
Inductive rtree (R : Type) : Type :=
| Leaf (mbr : option R) (es : list R)
| Inner (mbr : option R) (cs : list (rtree R)).
Arguments Leaf {R} mbr es.
Arguments Inner {R} mbr cs.

Section S.
Context (sh : shape).
Notation R := (rect sh).

(* child.mbr.<anything>: AttributeError when mbr is None  [rtree.py:35-53] *)
Definition mbr_of (t : rtree R) : res R :=
  match (match t with Leaf m _ => m | Inner m _ => m end) with Some r => Ok r | None => Err AttributeError end.
(* rtree.py:35-53 *)
Fixpoint mbrs_of (l : list (rtree R)) : res (list (R * rtree R)) :=
  match l with [] => Ok [] | c :: l' => do m <- mbr_of c ; do r <- mbrs_of l' ; Ok ((m, c) :: r) end.

(* rtree.py:136-140 _compute_mbr (and the loop of 46-51 update_mbr) *)
Definition compute_mbr {A} (l : list (R * A)) : res R :=
  match l with [] => Err IndexError | c :: r => Ok (fold_left (fun m x => union sh m (fst x)) r (fst c)) end.
(* rtree.py:136-140 *)
Definition update_mbr {A} (l : list (R * A)) : option R := match compute_mbr l with Ok m => Some m | Err _ => None end.

(* children.sort(key=...): stable  [for sort_by, rtree.py:81-106] *)
Fixpoint put {A} (key : A -> Qc) (x : A) (l : list A) : list A :=
  match l with [] => [x] | y :: r => if qlt (key y) (key x) then y :: put key x r else x :: l end.
(* for split_children, rtree.py:81-106 *)
Definition sort_by {A} (key : A -> Qc) (l : list A) : list A := fold_right (put key) [] l.

(* range(min_children, k - min_children + 1)  [for split_children, rtree.py:81-106] *)
Definition cuts (mn k : nat) : list nat := seq mn (k + 1 - mn - mn).
(* rtree.py:126-134 _compute_margin, on sorted children *)
Fixpoint margins {A} (l : list (R * A)) (is : list nat) (acc : Qc) : res Qc :=
  match is with
  | [] => Ok acc
  | i :: r => do a <- compute_mbr (firstn i l) ; do b <- compute_mbr (skipn i l) ; margins l r (acc + (perimeter sh a + perimeter sh b))
  end.
(* rtree.py:88-99 *)
Fixpoint distribution {A} (l : list (R * A)) (is : list nat) (best : option (nat * Qc)) : res (option (nat * Qc)) :=
  match is with
  | [] => Ok best
  | i :: r =>
      do a <- compute_mbr (firstn i l) ; do b <- compute_mbr (skipn i l) ;
      let g := area sh a + area sh b in
      distribution l r (match best with None => Some (i, g) | Some (_, m) => if qlt g m then Some (i, g) else best end)
  end.
(* rtree.py:81-106 and 120-124: the two halves; TypeError when there is no distribution *)
Definition split_children {A} (mn : nat) (l : list (R * A)) : res (list (R * A) * list (R * A)) :=
  let lx := sort_by (fun c => minx sh (fst c)) l in
  do gx <- margins lx (cuts mn (length l)) 0 ;
  let ly := sort_by (fun c => miny sh (fst c)) lx in
  do gy <- margins ly (cuts mn (length l)) 0 ;
  let ls := if qle gx gy then sort_by (fun c => minx sh (fst c)) ly else sort_by (fun c => miny sh (fst c)) ly in
  do d <- distribution ls (cuts mn (length l)) None ;
  match d with None => Err TypeError | Some (i, _) => Ok (firstn i ls, skipn i ls) end.

(* rtree.py:72-78: index of the first child with the least enlargement *)
Fixpoint least_enlargement (ms : list R) (r : R) (i : nat) (best : option (nat * Qc)) : option nat :=
  match ms with
  | [] => option_map fst best
  | m :: ms' =>
      let e := area sh (union sh m r) - area sh m in
      least_enlargement ms' r (S i) (match best with None => Some (i, e) | Some (_, b) => if qlt e b then Some (i, e) else best end)
  end.

(* for insert_down, rtree.py:62-79 *)
Definition leaf_pairs (es : list R) : list (R * R) := map (fun e => (e, e)) es.
(* for insert_down, rtree.py:62-79 *)
Definition make_leaf (l : list (R * R)) : rtree R := Leaf (update_mbr l) (map snd l).
(* for insert, rtree.py:101-118 *)
Definition make_inner (l : list (R * rtree R)) : rtree R := Inner (update_mbr l) (map snd l).

(* rtree.py:62-79: descend, append, split the leaf if it is too long; the box of an inner
   node on the way is not touched.  Second component: the node split off *)
Fixpoint insert_down (mx mn : nat) (r : R) (t : rtree R) : res (rtree R * option (rtree R)) :=
  match t with
  | Leaf _ es =>
      let es' := es ++ [r] in
      if (mx <? length es')%nat then
        do (a, b) <- split_children mn (leaf_pairs es') ; Ok (make_leaf a, Some (make_leaf b))
      else Ok (make_leaf (leaf_pairs es'), None)
  | Inner m cs =>
      do ps <- mbrs_of cs ;
      match least_enlargement (map fst ps) r 0 None with
      | None => Err AttributeError
      | Some i =>
          (fix go (l : list (rtree R)) (j : nat) : res (rtree R * option (rtree R)) :=
             match l, j with
             | [], _ => Err IndexError
             | c :: _, O => do (c', s) <- insert_down mx mn r c ; Ok (Inner m (upd cs i c'), s)
             | _ :: l', S j' => go l' j'
             end) cs i
      end
  end.
(* rtree.py:101-118.  _find_parent (142-148) returns the node it was called on as soon as
   the target is anywhere below it, so called on the root it returns the root:
   a node split off is always added to the root *)
Definition insert (mx mn : nat) (t : rtree R) (r : R) : res (rtree R) :=
  do (t', s) <- insert_down mx mn r t ;
  match s with
  | None => Ok t'
  | Some n =>
      match t' with
      | Leaf _ _ => Ok (Inner None [t'; n])
      | Inner m cs =>
          do ps <- mbrs_of (cs ++ [n]) ;
          if (mx <? length ps)%nat then
            do (a, b) <- split_children mn ps ; Ok (Inner None [make_inner a; make_inner b])
          else Ok (make_inner ps)
      end
  end.
(* rtree.py:101-118 *)
Fixpoint insert_all (mx mn : nat) (t : rtree R) (l : list R) : res (rtree R) :=
  match l with [] => Ok t | r :: l' => do t' <- insert mx mn t r ; insert_all mx mn t' l' end.
(* rtree.py:57-60 *)
Definition empty_tree : rtree R := Leaf None [].

(* rtree.py:150-163 search *)
Fixpoint search (q : R) (t : rtree R) : res (list R) :=
  match t with
  | Leaf _ es => Ok (filter (fun e => meets sh e q) es)
  | Inner _ cs =>
      (fix go (l : list (rtree R)) : res (list R) :=
         match l with
         | [] => Ok []
         | c :: l' => do m <- mbr_of c ; do a <- (if meets sh m q then search q c else Ok []) ; do b <- go l' ; Ok (a ++ b)
         end) cs
  end.
End S.
Arguments mbr_of {sh}. Arguments mbrs_of {sh}. Arguments search {sh}. Arguments insert_down {sh}. Arguments insert {sh}. Arguments insert_all {sh}.
