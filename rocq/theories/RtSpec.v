(* Specification vocabulary for the array routines, independent of the code. *)
From Coq Require Import List Arith ZArith Bool QArith Qcanon Sorting.Sorted.
From Verif Require Import Common QcLib RtModel.
Import ListNotations.
Local Open Scope Qc_scope.

(* element i of a number (the same for all i) or of an array *)
Definition at_ (v : nval) (i : nat) : Qc := match v with Num x => x | Arr l => nth i l 0 end.
(* a number, or an array of n elements *)
Definition sized (n : nat) (v : nval) : Prop := match v with Num _ => True | Arr l => length l = n end.
(* all choices of one element per list, the last position changing fastest *)
Fixpoint choices {T} (ls : list (list T)) : list (list T) :=
  match ls with [] => [[]] | l :: r => flat_map (fun x => map (cons x) (choices r)) l end.
(* all pairs, the second component changing fastest *)
Definition pairs (u v : list Qc) : list (Qc * Qc) := flat_map (fun a => map (fun b => (a, b)) v) u.
(* a well-formed array with positive dimensions *)
Definition wf {T} (a : arr T) : Prop := zsize (snd a) = Z.of_nat (length (fst a)) /\ Forall (fun d => 0 < d)%Z (snd a).
Definition total (l : list nat) : nat := fold_right Nat.add 0%nat l.
(* the point at ratio t between two numbers *)
Definition lerp (a b t : Qc) : Qc := a + t * (b - a).
Definition casteljau (p0 p1 p2 p3 t : Qc) : Qc :=
  lerp (lerp (lerp p0 p1 t) (lerp p1 p2 t) t) (lerp (lerp p1 p2 t) (lerp p2 p3 t) t) t.
(* neighbours differ by more than tol *)
Fixpoint spread (tol : Qc) (l : list Qc) : Prop :=
  match l with x :: ((y :: _) as r) => tol < y - x /\ spread tol r | _ => True end.
(* neighbours differ by at most tol and do not decrease *)
Fixpoint chained (tol : Qc) (l : list Qc) : Prop :=
  match l with x :: ((y :: _) as r) => x <= y /\ y - x <= tol /\ chained tol r | _ => True end.
(* the last of a group and the first of the next differ by more than tol *)
Fixpoint apart (tol : Qc) (gs : list (list Qc)) : Prop :=
  match gs with g :: ((h :: _) as r) => tol < hd 0 h - last g 0 /\ apart tol r | _ => True end.
Definition qsum (l : list Qc) : Qc := fold_right Qcplus 0 l.
(* a piece is inside when the number of different crossings is odd *)
Definition inside {seg} (hits : seg -> list Qc) (s : seg) : bool := match crossings (hits s) with Ok n => Nat.odd n | Err _ => false end.
