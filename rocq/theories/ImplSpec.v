(* Specification vocabulary for implicit shapes and their cell trees. *)
From Coq Require Import List Arith ZArith Bool QArith Qcanon.
From Verif Require Import Common QcLib SumLib AabbModel AabbSpec ImplModel.
Import ListNotations.
Local Open Scope Qc_scope.

(* closed and open rectangles *)
Definition in2 (p : p2) (b : box2) : Prop :=
  (fst (fst b) <= fst p /\ fst p <= fst (snd b)) /\ (snd (fst b) <= snd p /\ snd p <= snd (snd b)).
Definition inside2 (p : p2) (b : box2) : Prop :=
  (fst (fst b) < fst p /\ fst p < fst (snd b)) /\ (snd (fst b) < snd p /\ snd p < snd (snd b)).
Definition inside3 (p : v3) (b : box3) : Prop :=
  (vx (fst b) < vx p /\ vx p < vx (snd b)) /\ (vy (fst b) < vy p /\ vy p < vy (snd b)) /\ (vz (fst b) < vz p /\ vz p < vz (snd b)).
Definition proper2 (b : box2) : Prop := fst (fst b) <= fst (snd b) /\ snd (fst b) <= snd (snd b).

(* what an expression should mean: strictly inside and strictly outside *)
Section M.
Context {S P : Type} (value : S -> P -> Qc).
Fixpoint within (e : expr S) (p : P) : Prop :=
  match e with
  | Prim s => value s p < 0
  | And a b => within a p /\ within b p
  | Minus a b => within a p /\ without b p
  | Add a b | Or a b => within a p \/ within b p
  end
with without (e : expr S) (p : P) : Prop :=
  match e with
  | Prim s => 0 < value s p
  | And a b => without a p \/ without b p
  | Minus a b => without a p \/ within b p
  | Add a b | Or a b => without a p /\ without b p
  end.
Fixpoint no_minus (e : expr S) : Prop :=
  match e with Prim _ => True | Minus _ _ => False | And a b | Add a b | Or a b => no_minus a /\ no_minus b end.
Fixpoint no_and (e : expr S) : Prop :=
  match e with Prim _ => True | And _ _ => False | Minus a b | Add a b | Or a b => no_and a /\ no_and b end.
(* operands of every - swapped *)
Fixpoint swapped (e : expr S) : expr S :=
  match e with
  | Prim s => Prim s
  | And a b => And (swapped a) (swapped b)
  | Minus a b => Minus (swapped b) (swapped a)
  | Add a b => Add (swapped a) (swapped b)
  | Or a b => Or (swapped a) (swapped b)
  end.
Fixpoint prims (e : expr S) : list S :=
  match e with Prim s => [s] | And a b | Minus a b | Add a b | Or a b => prims a ++ prims b end.
End M.
(* the bounds hold every point that is inside or on the boundary *)
Definition bounded2 (s : shape2) : Prop := forall p, impl2 s p <= 0 -> in2 p (bounds2 s).
Definition bounded3 (s : shape3) : Prop := forall p, impl3 s p <= 0 -> in_box3 p (bounds3 s).

(* the k-th of the ticks that cut [lo, hi] into 2^j equal parts *)
Definition tick (lo hi : Qc) (j k : nat) : Qc := lo + (hi - lo) * zq (Z.of_nat k) / zq (2 ^ Z.of_nat j).
(* cell (k, l) of the grid of 2^j by 2^j equal cells *)
Definition grid2 (b : box2) (j k l : nat) : box2 :=
  let '((x0, y0), (x1, y1)) := b in
  ((tick x0 x1 j k, tick y0 y1 j l), (tick x0 x1 j (S k), tick y0 y1 j (S l))).
Definition grid3 (b : box3) (j k l m : nat) : box3 :=
  let '((x0, y0, z0), (x1, y1, z1)) := b in
  ((tick x0 x1 j k, tick y0 y1 j l, tick z0 z1 j m), (tick x0 x1 j (S k), tick y0 y1 j (S l), tick z0 z1 j (S m))).
(* one step of a coarse grid is n steps of the fine one *)
Definition part_of (n K k : nat) : Prop := (K * n <= k < S K * n)%nat.

Definition vertex2 (b : box2) (p : p2) : Prop :=
  (fst p = fst (fst b) \/ fst p = fst (snd b)) /\ (snd p = snd (fst b) \/ snd p = snd (snd b)).
Definition vertex3 (b : box3) (p : v3) : Prop :=
  (vx p = vx (fst b) \/ vx p = vx (snd b)) /\ (vy p = vy (fst b) \/ vy p = vy (snd b)) /\ (vz p = vz (fst b) \/ vz p = vz (snd b)).
(* sampled corners below zero; at or above zero; of both kinds *)
Inductive sign := Neg | Nonneg.
Definition has (s : sign) (v : Qc) : Prop := match s with Neg => v < 0 | Nonneg => 0 <= v end.
(* all corners of all cells of depth d below cell (K, L) of depth j have the sign *)
Definition all2 (f : p2 -> Qc) (b : box2) (d : nat) (s : sign) (j K L : nat) : Prop :=
  forall k l p, part_of (2 ^ (d - j)) K k -> part_of (2 ^ (d - j)) L l -> vertex2 (grid2 b d k l) p -> has s (f p).
Definition all3 (f : v3 -> Qc) (b : box3) (d : nat) (s : sign) (j K L M : nat) : Prop :=
  forall k l m p, part_of (2 ^ (d - j)) K k -> part_of (2 ^ (d - j)) L l -> part_of (2 ^ (d - j)) M m -> vertex3 (grid3 b d k l m) p -> has s (f p).
Definition reported {B} (s : sign) (c : cells B) : list B := match s with Neg => full c | Nonneg => empty c end.
Definition every {B} (c : cells B) : list B := full c ++ empty c ++ border c.

(* the cells cover exactly b and overlap at most on their sides *)
Definition tiles2 (b : box2) (cs : list box2) : Prop :=
  (forall p, in2 p b <-> exists c, In c cs /\ in2 p c) /\ ForallOrdPairs (fun c d => forall p, inside2 p c -> ~ inside2 p d) cs.
Definition tiles3 (b : box3) (cs : list box3) : Prop :=
  (forall p, in_box3 p b <-> exists c, In c cs /\ in_box3 p c) /\ ForallOrdPairs (fun c d => forall p, inside3 p c -> ~ inside3 p d) cs.

(* quadratic functions of the plane, with their gradient *)
Definition quadratic (a b c d e g : Qc) (p : p2) : Qc :=
  let '(x, y) := p in a * x * x + b * x * y + c * y * y + d * x + e * y + g.
