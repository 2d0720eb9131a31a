(* Specification vocabulary for dual contouring, independent of the code. *)
From Coq Require Import List Arith ZArith Bool QArith Qcanon.
From Verif Require Import Common QcLib ImplModel DcModel.
Import ListNotations.
Local Open Scope Qc_scope.

Definition inside (s : shape) (p : p2) : Prop := s p < 0.
Definition x0 (c : box2) : Qc := fst (fst c).
Definition y0 (c : box2) : Qc := snd (fst c).
Definition x1 (c : box2) : Qc := fst (snd c).
Definition y1 (c : box2) : Qc := snd (snd c).
Definition proper (c : box2) : Prop := x0 c < x1 c /\ y0 c < y1 c.
(* the two ends of a side of a cell *)
Definition side_ends (c : box2) (sd : side) : p2 * p2 :=
  match sd with
  | Left => ((x0 c, y0 c), (x0 c, y1 c))
  | Right => ((x1 c, y0 c), (x1 c, y1 c))
  | Lower => ((x0 c, y0 c), (x1 c, y0 c))
  | Upper => ((x0 c, y1 c), (x1 c, y1 c))
  end.
(* exactly one of the two ends is inside *)
Definition changes (s : shape) (a b : p2) : Prop := (inside s a /\ ~ inside s b) \/ (~ inside s a /\ inside s b).
Definition crossed (s : shape) (c : box2) (sd : side) : Prop := changes s (fst (side_ends c sd)) (snd (side_ends c sd)).
(* the point of a segment at a fraction f of its length *)
Definition along (a b : p2) (f : Qc) : p2 := (fst a + f * (fst b - fst a), snd a + f * (snd b - snd a)).
Definition eps : Qc := Q2Qc (1 # 2048).
(* p lies on the segment and within eps (as a fraction of the segment) of a change from inside to outside *)
Definition near_zero (s : shape) (u v p : p2) : Prop :=
  exists f, eps <= f /\ f <= 1 - eps /\ p = along u v f /\ inside s (along u v (f - eps)) /\ ~ inside s (along u v (f + eps)).
Definition near_change (s : shape) (a b p : p2) : Prop := near_zero s a b p \/ near_zero s b a p.
(* the corner on the left of who enters, or leaves, the cell through a side *)
Definition left_entering (c : box2) (sd : side) : p2 :=
  match sd with Lower => (x0 c, y0 c) | Upper => (x1 c, y1 c) | Left => (x0 c, y1 c) | Right => (x1 c, y0 c) end.
Definition left_leaving (c : box2) (sd : side) : p2 :=
  match sd with Lower => (x1 c, y0 c) | Upper => (x0 c, y1 c) | Left => (x0 c, y0 c) | Right => (x1 c, y1 c) end.
(* how often a side is the start or the end of an edge *)
Definition side_eqb (a b : side) : bool :=
  match a, b with Upper, Upper | Lower, Lower | Left, Left | Right, Right => true | _, _ => false end.
Definition uses (l : list (side * side)) (sd : side) : nat :=
  length (filter (side_eqb sd) (flat_map (fun e => [fst e; snd e]) l)).

(* the cells of a quadtree fit the square it stands for *)
Definition mid (a b : Qc) : Qc := (a + b) / Q2Qc 2.
Definition quarters (q : box2) : box2 * box2 * box2 * box2 :=
  let xm := mid (x0 q) (x1 q) in let ym := mid (y0 q) (y1 q) in
  (((x0 q, y0 q), (xm, ym)), ((xm, y0 q), (x1 q, ym)), ((x0 q, ym), (xm, y1 q)), ((xm, ym), (x1 q, y1 q))).
Fixpoint tiled (t : tree2) (q : box2) : Prop :=
  match t with
  | Leaf2 d => d = q
  | Empty2 _ | Full2 _ => True
  | Root2 a b c d => let '(qa, qb, qc, qd) := quarters q in tiled a qa /\ tiled b qb /\ tiled c qc /\ tiled d qd
  end.
(* the cells on the border of the shape *)
Fixpoint leaves (t : tree2) : list box2 :=
  match t with Leaf2 d => [d] | Empty2 _ | Full2 _ => [] | Root2 a b c d => leaves a ++ leaves b ++ leaves c ++ leaves d end.
(* all cells, also those inside an empty or a full part *)
Fixpoint all_leaves (t : tree2) : list box2 :=
  match t with Leaf2 d => [d] | Empty2 n | Full2 n => all_leaves n | Root2 a b c d => all_leaves a ++ all_leaves b ++ all_leaves c ++ all_leaves d end.
(* the cells below a node, without the node itself *)
Definition below (t : tree2) : list box2 := match t with Leaf2 _ => [] | _ => all_leaves t end.
(* c2 is the right neighbour of c1: they share a piece of a vertical line *)
Definition beside (c1 c2 : box2) : Prop := x1 c1 = x0 c2 /\ y0 c1 < y1 c2 /\ y0 c2 < y1 c1.
(* c2 is the upper neighbour of c1 *)
Definition stacked (c1 c2 : box2) : Prop := y1 c1 = y0 c2 /\ x0 c1 < x1 c2 /\ x0 c2 < x1 c1.

(* the shape differs at the centre and at the middles of the sides by less than 0.001 from the mean of the corners *)
Definition within (a b : Qc) : Prop := - Q2Qc (1 # 1000) < a - b /\ a - b < Q2Qc (1 # 1000).
Definition flat (s : shape) (c : box2) : Prop :=
  let xm := mid (x0 c) (x1 c) in let ym := mid (y0 c) (y1 c) in
  let a := s (x0 c, y0 c) in let b := s (x1 c, y0 c) in let c' := s (x0 c, y1 c) in let d := s (x1 c, y1 c) in
  within (mid (mid a b) (mid c' d)) (s (xm, ym)) /\ within (mid a b) (s (xm, y0 c)) /\ within (mid b d) (s (x1 c, ym)) /\
  within (mid a c') (s (x0 c, ym)) /\ within (mid c' d) (s (xm, y1 c)).
(* no four cells with a common parent could be replaced by one flat cell *)
Definition four_leaves (a b c d : tree2) : Prop := match a, b, c, d with Leaf2 _, Leaf2 _, Leaf2 _, Leaf2 _ => True | _, _, _, _ => False end.
Fixpoint no_flat (s : shape) (t : tree2) (q : box2) : Prop :=
  match t with
  | Root2 a b c d => (four_leaves a b c d -> ~ flat s q) /\
      let '(qa, qb, qc, qd) := quarters q in no_flat s a qa /\ no_flat s b qb /\ no_flat s c qc /\ no_flat s d qd
  | _ => True
  end.
Definition is_root (t : tree2) : Prop := match t with Root2 _ _ _ _ => True | _ => False end.
(* the absolute value *)
Definition absq (x : Qc) : Qc := if Qclt_le_dec x 0 then - x else x.
(* the one of two numbers with the larger absolute value, the first of two with the same *)
Definition larger (x y : Qc) : Qc := if Qclt_le_dec (absq x) (absq y) then y else x.
