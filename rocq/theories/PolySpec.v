(* Specification vocabulary for polygons in the plane. *)
From Coq Require Import List Arith ZArith Bool QArith Qcanon.
From Verif Require Import Common QcLib AabbModel ImplModel.
Import ListNotations.
Local Open Scope Qc_scope.

(* twice the signed area of the triangle a b p: positive when p is to the left of a -> b *)
Definition orient (a b p : p2) : Qc := (fst b - fst a) * (snd p - snd a) - (snd b - snd a) * (fst p - fst a).
(* strictly inside a triangle of either orientation *)
Definition in_triangle (p a b c : p2) : Prop :=
  (0 < orient a b p /\ 0 < orient b c p /\ 0 < orient c a p) \/ (orient a b p < 0 /\ orient b c p < 0 /\ orient c a p < 0).

(* consecutive vertices, the last followed by the first *)
Definition edge (l : list p2) (a b : p2) : Prop :=
  (exists u v, l = u ++ a :: b :: v) \/ (exists u v, l = b :: u /\ l = v ++ [a]).
(* the triangles from the first vertex to each following edge *)
Fixpoint fan (o : p2) (l : list p2) : list (p2 * p2 * p2) :=
  match l with a :: (b :: _) as r => (o, a, b) :: fan o r | _ => [] end.
Definition triangles (poly : list p2) : list (p2 * p2 * p2) := match poly with [] => [] | o :: r => fan o r end.
(* how many members of a list satisfy a predicate *)
Inductive counted {A} (P : A -> Prop) : list A -> nat -> Prop :=
| counted_nil : counted P [] 0
| counted_yes a l n : P a -> counted P l n -> counted P (a :: l) (S n)
| counted_no a l n : ~ P a -> counted P l n -> counted P (a :: l) n.
(* the even-odd rule: in an odd number of the triangles the polygon is the sum of *)
Definition even_odd_inside (q : p2) (poly : list p2) : Prop :=
  exists n, counted (fun t => in_triangle q (fst (fst t)) (snd (fst t)) (snd t)) (triangles poly) n /\ Nat.odd n = true.
(* q is on no line through two distinct vertices of such a triangle *)
Definition off_line (q a b : p2) : Prop := a = b \/ orient a b q <> 0.
Definition generic (q : p2) (poly : list p2) : Prop :=
  Forall (fun t => off_line q (fst (fst t)) (snd (fst t)) /\ off_line q (snd (fst t)) (snd t) /\ off_line q (snd t) (fst (fst t))) (triangles poly).

(* points of segments *)
Definition lerp (t : Qc) (a b : p2) : p2 := (fst a + t * (fst b - fst a), snd a + t * (snd b - snd a)).
Definition on_segment (p a b : p2) : Prop := exists t, 0 <= t /\ t <= 1 /\ p = lerp t a b.
(* the least convex set containing the given points *)
Inductive hull (P : p2 -> Prop) : p2 -> Prop :=
| hull_in p : P p -> hull P p
| hull_seg a b p : hull P a -> hull P b -> on_segment p a b -> hull P p.

(* plane maps *)
Definition moved (d : p2) (p : p2) : p2 := (fst p + fst d, snd p + snd d).
Record lin := { la : Qc; lb : Qc; lc : Qc; ld : Qc }.
Definition mapped (m : lin) (p : p2) : p2 := (la m * fst p + lb m * snd p, lc m * fst p + ld m * snd p).
Definition det (m : lin) : Qc := la m * ld m - lb m * lc m.

(* sum of the signed doubled areas of those triangles *)
Fixpoint total (l : list (p2 * p2 * p2)) : Qc := match l with [] => 0 | (o, a, b) :: r => orient o a b + total r end.
Definition signed_area2 (poly : list p2) : Qc := total (triangles poly).
(* end points strictly on opposite sides *)
Definition opposite (x y : Qc) : Prop := (x < 0 /\ 0 < y) \/ (y < 0 /\ 0 < x).
Definition cross_properly (s1 s2 c1 c2 : p2) : Prop :=
  opposite (orient c1 c2 s1) (orient c1 c2 s2) /\ opposite (orient s1 s2 c1) (orient s1 s2 c2).

(* the crossings of two outlines, as pairs of edges *)
Definition crosses (ef : (p2 * p2) * (p2 * p2)) : Prop := cross_properly (fst (fst ef)) (snd (fst ef)) (fst (snd ef)) (snd (snd ef)).
Definition outline (l : list p2) : list (p2 * p2) := match l with [] => [] | o :: r => combine l (r ++ [o]) end.

(* lo and hi are the corners of the least upright box around the points *)
Definition bounding (l : list p2) (lo hi : p2) : Prop :=
  (forall v, In v l -> fst lo <= fst v /\ fst v <= fst hi /\ snd lo <= snd v /\ snd v <= snd hi) /\
  (exists v, In v l /\ fst v = fst lo) /\ (exists v, In v l /\ fst v = fst hi) /\ (exists v, In v l /\ snd v = snd lo) /\ (exists v, In v l /\ snd v = snd hi).

(* distinct heights and non-zero areas are not below the tolerance 1e-9 *)
Definition coarse (l : list p2) : Prop :=
  (forall a b, In a l -> In b l -> snd a = snd b \/ Q2Qc (1 # 1000000000) <= fabs (snd a - snd b)) /\
  (forall a b c, In a l -> In b l -> In c l -> orient a b c = 0 \/ Q2Qc (1 # 1000000000) <= fabs (orient a b c)).
(* consecutive vertices in threes, cyclically *)
Fixpoint threes (l : list p2) : list (p2 * p2 * p2) := match l with a :: (b :: c :: _) as r => (a, b, c) :: threes r | _ => [] end.
Definition corners (l : list p2) : list (p2 * p2 * p2) := match l with a :: b :: r => threes (l ++ [a; b]) | _ => [] end.
(* where an edge of one outline properly crosses an edge of another *)
Definition crossing_point (es cs : list (p2 * p2)) (p : p2) : Prop :=
  exists e f u v, In e es /\ In f cs /\ 0 < u /\ u < 1 /\ 0 < v /\ v < 1 /\ p = lerp u (fst e) (snd e) /\ p = lerp v (fst f) (snd f).

(* points as array rows: in the plane, and in space at a common height *)
Definition row2 (p : p2) : list Qc := [fst p; snd p].
Definition row3 (z : Qc) (p : p2) : list Qc := [fst p; snd p; z].
(* lowest, then leftmost *)
Definition lower_left (a b : p2) : Prop := snd a < snd b \/ (snd a = snd b /\ fst a <= fst b).
(* differing in a coordinate by more than 1e-8 plus 1e-5 of the second's size *)
Definition apart (a b : p2) : Prop :=
  Q2Qc (1 # 100000000) + Q2Qc (1 # 100000) * fabs (fst b) < fabs (fst a - fst b) \/
  Q2Qc (1 # 100000000) + Q2Qc (1 # 100000) * fabs (snd b) < fabs (snd a - snd b).

(* x is on no line through two vertices of an edge or a fan triangle *)
Definition clear_of (x : p2) (poly : list p2) : Prop := generic x poly /\ Forall (fun ab => off_line x (fst ab) (snd ab)) (outline poly).
(* from a to b along an edge of s, in either direction; the points between are inside c, or outside *)
Definition along (s c : list p2) (inner : bool) (ab : p2 * p2) : Prop :=
  exists e ta tb, In e (outline s) /\ (0 <= ta /\ ta <= 1) /\ (0 <= tb /\ tb <= 1) /\ fst ab = lerp ta (fst e) (snd e) /\ snd ab = lerp tb (fst e) (snd e) /\
  forall t, (ta < t /\ t < tb) \/ (tb < t /\ t < ta) -> clear_of (lerp t (fst e) (snd e)) c -> (even_odd_inside (lerp t (fst e) (snd e)) c <-> inner = true).
(* no vertex of c on the line of an edge of s, vertices of s clear of c; the first vertex of s
   level with no vertex of c, and everything left of x = 1e6 *)
Definition general (s c : list p2) : Prop :=
  (forall e w, In e (outline s) -> In w c -> orient (fst e) (snd e) w <> 0) /\ (forall v, In v s -> clear_of v c) /\
  (forall v w, hd_error s = Some v -> In w c -> snd w <> snd v /\ fst w < Q2Qc 1000000 /\ fst v < Q2Qc 1000000).
(* each with the next *)
Definition successive (l : list p2) : list (p2 * p2) := combine l (tl l).
