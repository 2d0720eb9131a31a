(* Specification vocabulary for boxes and segments. *)
From Coq Require Import List ZArith Bool QArith Qcanon.
From Verif Require Import Common QcLib ArrZ AabbModel.
Import ListNotations.
Local Open Scope Qc_scope.

(* closed box in three dimensions *)
Definition in_box3 (p : v3) (b : box3) : Prop :=
  (vx (fst b) <= vx p /\ vx p <= vx (snd b)) /\
  (vy (fst b) <= vy p /\ vy p <= vy (snd b)) /\
  (vz (fst b) <= vz p /\ vz p <= vz (snd b)).
Definition proper3 (b : box3) : Prop :=
  vx (fst b) <= vx (snd b) /\ vy (fst b) <= vy (snd b) /\ vz (fst b) <= vz (snd b).

(* closed box given by its two rows, any number of columns *)
Inductive in_box : list Qc -> list Qc -> list Qc -> Prop :=
| in_nil : in_box [] [] []
| in_cons p lo hi ps los his : lo <= p -> p <= hi -> in_box ps los his -> in_box (p :: ps) (lo :: los) (hi :: his).
Definition proper (b : box) : Prop := Forall2 Qcle (fst b) (snd b).

Definition shape (K : nat) (points : list (list Qc)) : Prop := Forall (fun r => length r = K) points.

(* the point at parameter t of origin + t * direction *)
Definition ray_at (o d : v3) (t : Qc) : v3 := (vx o + t * vx d, vy o + t * vy d, vz o + t * vz d).
(* the point at parameter t of the segment *)
Definition seg_at (s : v3 * v3) (t : Qc) : v3 :=
  ((1 - t) * vx (fst s) + t * vx (snd s), (1 - t) * vy (fst s) + t * vy (snd s), (1 - t) * vz (fst s) + t * vz (snd s)).

(* no direction component is non-zero yet smaller than 1e-15 *)
Definition plain (x : Qc) : Prop := x = 0 \/ tiny <= x \/ x <= - tiny.
Definition plain3 (d : v3) : Prop := plain (vx d) /\ plain (vy d) /\ plain (vz d).
