(* Specification vocabulary for the searches. *)
From Coq Require Import List Arith ZArith QArith Qcanon.
From Verif Require Import Common QcLib SumLib.
Import ListNotations.
Open Scope Qc_scope.

(* f strictly decreases on [a, s] and strictly increases on [s, b] *)
Definition valley (f : Qc -> Qc) (a b s : Qc) : Prop :=
  a <= s /\ s <= b /\
  (forall x y, a <= x -> x < y -> y <= s -> f y < f x) /\
  (forall x y, s <= x -> x < y -> y <= b -> f x < f y).
(* the mirror image *)
Definition peak (f : Qc -> Qc) (a b s : Qc) : Prop := valley (fun x => - f x) a b s.
(* x is strictly within d of s *)
Definition within (d x s : Qc) : Prop := s - d < x /\ x < s + d.
(* the point x lies in the box r *)
Definition in_box (x : list Qc) (r : list (Qc * Qc)) : Prop := Forall2 (fun v lh => fst lh <= v /\ v <= snd lh) x r.
Definition proper_box (r : list (Qc * Qc)) : Prop := Forall (fun lh => fst lh <= snd lh) r.
(* x is no further from a than y is *)
Definition nearer (a x y : Qc) : Prop := (x - a) * (x - a) < (y - a) * (y - a).
Definition not_farther (a x y : Qc) : Prop := (x - a) * (x - a) <= (y - a) * (y - a).
(* moving either coordinate closer to (a, b) lowers f *)
Definition bowl (f : list Qc -> Qc) (a b : Qc) : Prop :=
  (forall x x' y, nearer a x x' -> f [x; y] < f [x'; y]) /\ (forall x y y', nearer b y y' -> f [x; y] < f [x; y']).

(* the k-th sample of a scan *)
Definition sample (start step : Qc) (k : nat) : Qc := start + Q2Qc (inject_Z (Z.of_nat k)) * step.
(* a zero at sample k, or a change between positive and not positive since the sample before *)
Definition crossing (f : Qc -> Qc) (start step : Qc) (k : nat) : Prop :=
  f (sample start step k) = 0 \/
  ((0 < k)%nat /\ ~ (0 < f (sample start step k) <-> 0 < f (sample start step (k - 1)))).
(* the i-th of n evenly spaced values from a to b *)
Definition lin (a b : Qc) (n i : nat) : Qc := a + zq (Z.of_nat i) * ((b - a) / zq (Z.of_nat (n - 1))).
