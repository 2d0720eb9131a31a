(* What the properties of the collision test and of the triangle distance mean. *)
From Coq Require Import List ZArith Bool QArith Qcanon.
From Verif Require Import Common QcLib NurbsModel DerModel PlnModel PlnSpec.
Import ListNotations.
Local Open Scope Qc_scope.

(* the convex hull: the smallest convex set with these points *)
Inductive hull (P : v3 -> Prop) : v3 -> Prop :=
| hull_point : forall p, P p -> hull P p
| hull_between : forall p q t, hull P p -> hull P q -> 0 <= t -> t <= 1 -> hull P (along p t (minus3 q p)).
(* two shapes have a common point *)
Definition meet (A B : list v3) : Prop := exists x, hull (fun p => In p A) x /\ hull (fun p => In p B) x.
(* a plane lies strictly between the shapes *)
Definition separated (A B : list v3) : Prop :=
  exists d, forall a b, In a A -> In b B -> dot3 a d < dot3 b d.
(* the differences of a vertex of one shape and a vertex of the other *)
Definition diffs (A B : list v3) (p : v3) : Prop := exists a b, In a A /\ In b B /\ p = minus3 a b.
(* the origin is not outside the three planes through a of the tetrahedron a b c e *)
Definition around (a b c e : v3) : Prop := 0 <= det3 a b c /\ 0 <= det3 a c e /\ 0 <= det3 a e b.
(* the shape moved by t *)
Definition moved (t : v3) (A : list v3) : list v3 := map (fun p => along p 1 t) A.

(* the points of a triangle *)
Definition in_triangle (a b c x : v3) : Prop :=
  exists r s t, 0 <= r /\ 0 <= s /\ 0 <= t /\ r + s + t = 1 /\
  x = mkv (r * vx a + s * vx b + t * vx c) (r * vy a + s * vy b + t * vy c) (r * vz a + s * vz b + t * vz c).
(* D is the smallest squared distance from p to the triangle *)
Definition nearest2 (p a b c : v3) (D : Qc) : Prop :=
  (exists x, in_triangle a b c x /\ dist2 p x = D) /\ (forall x, in_triangle a b c x -> D <= dist2 p x).
