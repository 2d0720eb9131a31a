(* Tessellation parameters: vocabulary of the properties. *)
From Coq Require Import List Arith ZArith Bool QArith Qcanon.
From Verif Require Import RtModel TessModel.
Import ListNotations.
Local Open Scope list_scope.
Local Open Scope Qc_scope.

(* the loops lie one after the other at the head of the vertices, and the segments close each of them up:
   the i-th point of a loop is joined to the next one, the last to the first *)
Definition loops_closed_up {A} (loops : list (list A)) (vs : list A) (segs : list (nat * nat)) : Prop :=
  length segs = length (concat loops) /\
  forall pre l post, loops = pre ++ l :: post -> forall i, (i < length l)%nat ->
    nth_error vs (length (concat pre) + i) = nth_error l i /\
    nth_error segs (length (concat pre) + i) = Some ((length (concat pre) + i)%nat, (length (concat pre) + (if (i =? length l - 1)%nat then 0 else i + 1))%nat).
(* every segment joins existing vertices *)
Definition indices_exist {A} (vs : list A) (segs : list (nat * nat)) : Prop :=
  forall a b, In (a, b) segs -> (a < length vs)%nat /\ (b < length vs)%nat.
(* the first and the last point of a loop *)
Definition ends {A} (l : list A) (x y : A) : Prop := nth_error l 0 = Some x /\ nth_error l (length l - 1) = Some y.
(* the loop does not repeat its first point at its end *)
Definition open_loop {A} (close : A -> A -> bool) (l : list A) : Prop := exists x y, ends l x y /\ close x y = false.
(* on the boundary of the rectangle *)
Definition on_rectangle (b : (Qc * Qc) * (Qc * Qc)) (p : Qc * Qc) : Prop :=
  let '((u0, v0), (u1, v1)) := b in
  ((fst p = u0 \/ fst p = u1) /\ v0 <= snd p <= v1) \/ ((snd p = v0 \/ snd p = v1) /\ u0 <= fst p <= u1).
(* a half-plane *)
Definition half_plane (a b c : Qc) (p : Qc * Qc) : Prop := a * fst p + b * snd p <= c.
(* near a line u = const or v = const *)
Definition near (tol x y : Qc) : Prop := - tol <= x - y <= tol.
(* both ends near the same side of the rectangle *)
Definition same_side (tol : Qc) (b : (Qc * Qc) * (Qc * Qc)) (p q : Qc * Qc) : Prop :=
  let '((u0, v0), (u1, v1)) := b in
  (near tol (fst p) u0 /\ near tol (fst q) u0) \/ (near tol (fst p) u1 /\ near tol (fst q) u1) \/
  (near tol (snd p) v0 /\ near tol (snd q) v0) \/ (near tol (snd p) v1 /\ near tol (snd q) v1).
(* k points of a trim, equally spaced in its parameter *)
Definition polygon_of (t : trim) (k : nat) : list pt := map (t_curve t) (linspace (t_lo t) (t_hi t) k).
