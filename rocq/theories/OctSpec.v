(* Tilings of a box. *)
From Coq Require Import List Arith ZArith Bool QArith Qcanon Lia.
From Verif Require Import Common QcLib SumLib AabbModel OctModel.
Import ListNotations.
Local Open Scope Qc_scope.

Definition within (b : box3) (p : v3) : Prop :=
  vx (fst b) <= vx p /\ vx p <= vx (snd b) /\ vy (fst b) <= vy p /\ vy p <= vy (snd b) /\ vz (fst b) <= vz p /\ vz p <= vz (snd b).
Definition inside (b : box3) (p : v3) : Prop :=
  vx (fst b) < vx p /\ vx p < vx (snd b) /\ vy (fst b) < vy p /\ vy p < vy (snd b) /\ vz (fst b) < vz p /\ vz p < vz (snd b).
Definition proper (b : box3) : Prop := vx (fst b) <= vx (snd b) /\ vy (fst b) <= vy (snd b) /\ vz (fst b) <= vz (snd b).
(* together they are the box, and a point inside one is in no other *)
Definition apart (a b : box3) : Prop := forall p, ~ (inside a p /\ within b p) /\ ~ (within a p /\ inside b p).
Definition tile (b : box3) (l : list box3) : Prop := (forall p, within b p <-> exists x, In x l /\ within x p) /\ ForallOrdPairs apart l.
(* the boxes of the nodes without children *)
Fixpoint leaves (n : node) : list box3 := match n with Node b [] _ => [b] | Node b ks _ => flat_map leaves ks end.

Definition within2 (b : q2 * q2) (p : q2) : Prop := fst (fst b) <= fst p /\ fst p <= fst (snd b) /\ snd (fst b) <= snd p /\ snd p <= snd (snd b).
Definition inside2 (b : q2 * q2) (p : q2) : Prop := fst (fst b) < fst p /\ fst p < fst (snd b) /\ snd (fst b) < snd p /\ snd p < snd (snd b).
Definition apart2 (a b : q2 * q2) : Prop := forall p, ~ (inside2 a p /\ within2 b p) /\ ~ (within2 a p /\ inside2 b p).

(* trees a program can hold: built, then divided further any number of times *)
Inductive tree : node -> Prop :=
| Built fuel b target t : proper b -> create_octree fuel b target = Ok t -> tree t
| Divided t : tree t -> tree (traverse t).
(* half of the last decimal kept by round(x, 4) *)
Definition slack : Qc := Q2Qc (1 # 20000).
