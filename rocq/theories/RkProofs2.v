(* Right-hand sides given by polynomials. *)
From Coq Require Import List Arith ZArith Bool QArith Qcanon Lia.
From Verif Require Import Common QcLib ListLib SumLib RkModel RkSpec.
Import ListNotations.
Local Open Scope Qc_scope.

(* identities of polynomials with rational coefficients *)
Lemma to_eq a b x y : this a == x -> this b == y -> (x == y)%Q -> a = b.
Proof. intros A B E. apply Qc_is_canon. rewrite A, B. exact E. Qed.
Lemma to_add a b x y : this a == x -> this b == y -> this (a + b) == (x + y)%Q.
Proof. intros A B. rewrite this_add, A, B. reflexivity. Qed.
Lemma to_mul a b x y : this a == x -> this b == y -> this (a * b) == (x * y)%Q.
Proof. intros A B. rewrite this_mul, A, B. reflexivity. Qed.
Lemma to_sub a b x y : this a == x -> this b == y -> this (a - b) == (x - y)%Q.
Proof. intros A B. rewrite this_sub, A, B. reflexivity. Qed.
Lemma to_fr a b : this (fr a b) == (a # b)%Q.
Proof. apply this_Q2Qc. Qed.
Lemma to_1 : this 1 == 1%Q. Proof. reflexivity. Qed.
Lemma to_opp a x : this a == x -> this (- a) == (- x)%Q.
Proof. intro A. rewrite this_opp, A. reflexivity. Qed.
Lemma to_0 : this 0 == 0%Q. Proof. reflexivity. Qed.
Ltac to_q := lazymatch goal with
  | |- this (fr _ _) == _ => apply to_fr
  | |- this (_ + _) == _ => eapply to_add; [to_q|to_q]
  | |- this (_ * _) == _ => eapply to_mul; [to_q|to_q]
  | |- this (_ - _) == _ => eapply to_sub; [to_q|to_q]
  | |- this (Q2Qc 0) == _ => apply to_0
  | |- this (Q2Qc 1) == _ => apply to_1
  | |- this (- _) == _ => eapply to_opp; to_q
  | |- _ => apply Qeq_refl
  end.
Ltac q_ring := eapply to_eq; [to_q|to_q|ring].

(* one coordinate of a step for a right-hand side without the state *)
Definition coord4 (p : list Qc) (t a h : Qc) : Qc :=
  a + fr 25 216 * (h * peval p t) + fr 1408 2565 * (h * peval p (t + fr 3 8 * h)) + fr 2197 4104 * (h * peval p (t + fr 12 13 * h)) - fr 1 5 * (h * peval p (t + h)).
Definition coord5 (p : list Qc) (t a h : Qc) : Qc :=
  a + fr 16 135 * (h * peval p t) + fr 6656 12825 * (h * peval p (t + fr 3 8 * h)) + fr 28561 56430 * (h * peval p (t + fr 12 13 * h))
    - fr 9 50 * (h * peval p (t + h)) + fr 2 55 * (h * peval p (t + fr 1 2 * h)).
Lemma poly_step ps : forall y t h,
  rk_step (poly_rhs ps) t y h = (map (fun q => coord4 (fst q) t (snd q) h) (combine ps y), map (fun q => coord5 (fst q) t (snd q) h) (combine ps y)).
Proof.
  induction ps as [|p ps IH]; intros [|a y] t h; try reflexivity. specialize (IH y t h). injection IH as I4 I5. cbn [combine map fst snd]. rewrite <- I4, <- I5. reflexivity.
Qed.
Lemma coord4_exact p t a h : (length p <= 4)%nat -> coord4 p t a h = a + integral p t (t + h).
Proof.
  intro L. unfold coord4, integral. destruct p as [|p0 [|p1 [|p2 [|p3 [|p4 p]]]]]; cbn [length] in L; try lia; unfold peval; cbn; q_ring.
Qed.
Lemma coord5_exact p t a h : (length p <= 5)%nat -> coord5 p t a h = a + integral p t (t + h).
Proof.
  intro L. unfold coord5, integral. destruct p as [|p0 [|p1 [|p2 [|p3 [|p4 [|p5 p]]]]]]; cbn [length] in L; try lia; unfold peval; cbn; q_ring.
Qed.
Lemma coord_error p t a h : (length p <= 5)%nat -> coord5 p t a h - coord4 p t a h = fr 1 2080 * nth 4 p 0 * (h * h * h * h * h).
Proof.
  intro L. unfold coord5, coord4. destruct p as [|p0 [|p1 [|p2 [|p3 [|p4 [|p5 p]]]]]]; cbn [length] in L; try lia; unfold peval; cbn; q_ring.
Qed.
