(* Derivatives of functions on Qc, stated with a quadratic error bound. *)
From Coq Require Import List Arith ZArith Bool QArith Qcanon Qcabs Lia.
From Verif Require Import Common QcLib SumLib.
Import ListNotations.
Open Scope Qc_scope.

(* g is the derivative of f at t: near t the error of the linear approximation
   is at most a constant times the square of the distance *)
Definition is_deriv (f : Qc -> Qc) (t g : Qc) : Prop :=
  exists C d, 0 <= C /\ 0 < d /\ forall h, Qcabs h <= d -> Qcabs (f (t + h) - f t - h * g) <= C * (h * h).

Lemma abs_le a b : Qcabs a <= b <-> - b <= a /\ a <= b.
Proof. apply Qcabs_Qcle_condition. Qed.
Lemma abs_pos a : 0 <= Qcabs a. Proof. apply Qcabs_nonneg. Qed.
Lemma abs_self a : a <= Qcabs a /\ - a <= Qcabs a.
Proof. assert (Qcabs a <= Qcabs a) by apply Qcle_refl. apply abs_le in H. destruct H. split; qlra. Qed.
Lemma abs_mul a b : Qcabs (a * b) = Qcabs a * Qcabs b.
Proof. apply Qcabs_Qcmult. Qed.
Lemma abs_sq h : 0 <= h * h.
Proof. qnra. Qed.

Lemma deriv_ext f g t a : (forall x, f x = g x) -> is_deriv f t a -> is_deriv g t a.
Proof. intros E [C [d [H0 [H1 H]]]]. exists C, d. split; auto. split; auto. intros h Hh. rewrite <- !E. auto. Qed.
Lemma deriv_const c t : is_deriv (fun _ => c) t 0.
Proof.
  exists 0, 1. split; [qlra|]. split; [qlra|]. intros h _. replace (c - c - h * 0) with 0 by ring. replace (0 * (h * h)) with 0 by ring. apply abs_le. split; qlra.
Qed.
Lemma deriv_id t : is_deriv (fun x => x) t 1.
Proof.
  exists 0, 1. split; [qlra|]. split; [qlra|]. intros h _. replace (t + h - t - h * 1) with 0 by ring. replace (0 * (h * h)) with 0 by ring. apply abs_le. split; qlra.
Qed.
Definition qmin2 (a b : Qc) : Qc := if qle a b then a else b.
Lemma qmin2_l a b : qmin2 a b <= a.
Proof. unfold qmin2. destruct (qle a b) eqn:E; [apply Qcle_refl|]. apply qle_false in E. apply Qclt_le_weak. auto. Qed.
Lemma qmin2_r a b : qmin2 a b <= b.
Proof. unfold qmin2. destruct (qle a b) eqn:E; [apply qle_true in E; auto|apply Qcle_refl]. Qed.
Lemma qmin2_pos a b : 0 < a -> 0 < b -> 0 < qmin2 a b.
Proof. unfold qmin2. destruct (qle a b); auto. Qed.

Lemma deriv_add f g t a b : is_deriv f t a -> is_deriv g t b -> is_deriv (fun x => f x + g x) t (a + b).
Proof.
  intros [C [d [C0 [d0 H]]]] [C' [d' [C0' [d0' H']]]]. exists (C + C'), (qmin2 d d'). split; [qlra|]. split; [apply qmin2_pos; auto|].
  intros h Hh. pose proof (qmin2_l d d'). pose proof (qmin2_r d d').
  assert (A := H h (Qcle_trans _ _ _ Hh H0)). assert (B := H' h (Qcle_trans _ _ _ Hh H1)). apply abs_le in A. apply abs_le in B. apply abs_le.
  destruct A as [A1 A2]. destruct B as [B1 B2]. clear Hh H H' H0 H1 d0 d0'. split; qlra.
Qed.
Lemma deriv_scale f t a c : is_deriv f t a -> is_deriv (fun x => c * f x) t (c * a).
Proof.
  intros [C [d [C0 [d0 H]]]]. exists (Qcabs c * C), d. split; [apply qc_mul_nonneg; auto; apply abs_pos|]. split; auto.
  intros h Hh. replace (c * f (t + h) - c * f t - h * (c * a)) with (c * (f (t + h) - f t - h * a)) by ring. rewrite abs_mul.
  rewrite <- Qcmult_assoc. rewrite !(Qcmult_comm (Qcabs c)). apply Qcmult_le_compat_r; auto. apply abs_pos.
Qed.
Lemma deriv_mul f g t a b : is_deriv f t a -> is_deriv g t b -> is_deriv (fun x => f x * g x) t (a * g t + f t * b).
Proof.
  intros [C [d [C0 [d0 H]]]] [C' [d' [C0' [d0' H']]]].
  set (F := Qcabs (f t)). set (G := Qcabs (g t)). set (A := Qcabs a). set (B := Qcabs b).
  exists (A * B + C * (G + B + C') + C' * (F + A)), (qmin2 1 (qmin2 d d')).
  assert (F0 : 0 <= F) by apply abs_pos. assert (G0 : 0 <= G) by apply abs_pos. assert (A0 : 0 <= A) by apply abs_pos. assert (B0 : 0 <= B) by apply abs_pos.
  split. { assert (0 <= A * B) by (apply qc_mul_nonneg; auto). assert (0 <= C * (G + B + C')) by (apply qc_mul_nonneg; auto; qlra).
    assert (0 <= C' * (F + A)) by (apply qc_mul_nonneg; auto; qlra). qlra. }
  split; [apply qmin2_pos; [qlra|apply qmin2_pos; auto]|].
  intros h Hh. assert (h1 : Qcabs h <= 1) by (eapply Qcle_trans; [exact Hh|apply qmin2_l]).
  assert (hd : Qcabs h <= d) by (eapply Qcle_trans; [exact Hh|eapply Qcle_trans; [apply qmin2_r|apply qmin2_l]]).
  assert (hd' : Qcabs h <= d') by (eapply Qcle_trans; [exact Hh|eapply Qcle_trans; [apply qmin2_r|apply qmin2_r]]).
  specialize (H h hd). specialize (H' h hd'). set (e := f (t + h) - f t - h * a) in *. set (e' := g (t + h) - g t - h * b) in *.
  replace (f (t + h) * g (t + h) - f t * g t - h * (a * g t + f t * b)) with (h * h * (a * b) + e * (g t + h * b + e') + e' * (f t + h * a)) by (unfold e, e'; ring).
  set (q := h * h) in *. assert (q0 : 0 <= q) by (unfold q; apply abs_sq).
  assert (q1 : q <= 1). { unfold q. apply abs_le in h1. destruct h1. qnra. }
  assert (T1 : Qcabs (q * (a * b)) <= q * (A * B)).
  { rewrite !abs_mul. rewrite (Qcabs_pos q q0). apply Qcle_refl. }
  assert (TH : forall x, Qcabs (h * x) <= Qcabs x).
  { intro x. rewrite abs_mul. rewrite <- (Qcmult_1_l (Qcabs x)) at 2. apply Qcmult_le_compat_r; auto. apply abs_pos. }
  assert (e'1 : Qcabs e' <= C'). { eapply Qcle_trans; [exact H'|]. qnra. }
  assert (U : Qcabs (g t + h * b + e') <= G + B + C').
  { eapply Qcle_trans; [apply Qcabs_triangle|]. apply Qcplus_le_compat; auto. eapply Qcle_trans; [apply Qcabs_triangle|]. apply Qcplus_le_compat; [apply Qcle_refl|apply TH]. }
  assert (U' : Qcabs (f t + h * a) <= F + A).
  { eapply Qcle_trans; [apply Qcabs_triangle|]. apply Qcplus_le_compat; [apply Qcle_refl|apply TH]. }
  assert (MM : forall x y x' y', 0 <= x -> 0 <= y -> x <= x' -> y <= y' -> x * y <= x' * y').
  { intros x y x' y' P1 P2 P3 P4. apply Qcle_trans with (x * y'). rewrite !(Qcmult_comm x). apply Qcmult_le_compat_r; auto. apply Qcmult_le_compat_r; auto. eapply Qcle_trans; eauto. }
  assert (T2 : Qcabs (e * (g t + h * b + e')) <= C * q * (G + B + C')) by (rewrite abs_mul; apply MM; auto; apply abs_pos).
  assert (T3 : Qcabs (e' * (f t + h * a)) <= C' * q * (F + A)) by (rewrite abs_mul; apply MM; auto; apply abs_pos).
  eapply Qcle_trans; [apply Qcabs_triangle|]. eapply Qcle_trans; [apply Qcplus_le_compat; [apply Qcabs_triangle|exact T3]|].
  eapply Qcle_trans; [apply Qcplus_le_compat; [apply Qcplus_le_compat; [exact T1|exact T2]|apply Qcle_refl]|].
  replace ((A * B + C * (G + B + C') + C' * (F + A)) * q) with (q * (A * B) + C * q * (G + B + C') + C' * q * (F + A)) by ring. apply Qcle_refl.
Qed.
Lemma deriv_pow t n : is_deriv (fun x => x ^ n) t (zq (Z.of_nat n) * t ^ (n - 1)).
Proof.
  induction n as [|n IH].
  - apply deriv_ext with (f := fun _ => 1); [reflexivity|]. replace (zq (Z.of_nat 0) * t ^ (0 - 1)) with 0 by (change (Z.of_nat 0) with 0%Z; rewrite zq_0; ring). apply deriv_const.
  - apply deriv_ext with (f := fun x => x * x ^ n); [reflexivity|].
    replace (zq (Z.of_nat (S n)) * t ^ (S n - 1)) with (1 * t ^ n + t * (zq (Z.of_nat n) * t ^ (n - 1))).
    + apply deriv_mul; auto. apply deriv_id.
    + replace (Z.of_nat (S n)) with (Z.of_nat n + 1)%Z by lia. rewrite zq_add, zq_1. replace (S n - 1)%nat with n by lia.
      destruct n as [|n]; [change (Z.of_nat 0) with 0%Z; rewrite zq_0; cbn; ring|]. replace (S n - 1)%nat with n by lia. rewrite pow_S. ring.
Qed.
Lemma deriv_sumn n (f : nat -> Qc -> Qc) (g : nat -> Qc) t : (forall i, (i < n)%nat -> is_deriv (f i) t (g i)) -> is_deriv (fun x => sumn n (fun i => f i x)) t (sumn n g).
Proof.
  induction n as [|n IH]; intro H; cbn [sumn]; [apply deriv_const|]. apply deriv_add; [apply IH; auto|apply H; auto].
Qed.
Lemma deriv_unique f t a b : is_deriv f t a -> is_deriv f t b -> a = b.
Proof.
  intros [C [d [C0 [d0 H]]]] [C' [d' [C0' [d0' H']]]].
  destruct (Qc_eq_dec a b) as [|NE]; auto. exfalso.
  set (D := Qcabs (a - b)). assert (DP : 0 < D).
  { destruct (Qcle_lt_or_eq _ _ (abs_pos (a - b))) as [|E]; auto. exfalso. apply NE. symmetry in E.
    assert (X : Qcabs (a - b) <= 0) by (rewrite E; apply Qcle_refl). apply abs_le in X. destruct X. qlra. }
  set (k := C + C' + 1). assert (kp : 0 < k) by (unfold k; qlra).
  set (h := qmin2 (qmin2 d d') (D / (k + k))).
  assert (hp : 0 < h). { apply qmin2_pos; [apply qmin2_pos; auto|]. apply qc_div_pos; qlra. }
  assert (h1 : h <= d) by (eapply Qcle_trans; [apply qmin2_l|apply qmin2_l]). assert (h2 : h <= d') by (eapply Qcle_trans; [apply qmin2_l|apply qmin2_r]).
  assert (h3 : h * (k + k) <= D).
  { assert (X : h <= D / (k + k)) by apply qmin2_r. apply Qcmult_le_compat_r with (z := k + k) in X; [|qlra].
    replace (D / (k + k) * (k + k)) with D in X; auto. field. intro E. qlra. }
  assert (ah : Qcabs h = h) by (apply Qcabs_pos; qlra).
  assert (X := H h ltac:(rewrite ah; auto)). assert (Y := H' h ltac:(rewrite ah; auto)).
  assert (Z : Qcabs (h * (a - b)) <= (C + C') * (h * h)).
  { replace (h * (a - b)) with ((f (t + h) - f t - h * b) + - (f (t + h) - f t - h * a)) by ring.
    eapply Qcle_trans; [apply Qcabs_triangle|]. rewrite Qcabs_opp. replace ((C + C') * (h * h)) with (C' * (h * h) + C * (h * h)) by ring. apply Qcplus_le_compat; auto. }
  rewrite abs_mul, ah in Z. fold D in Z.
  assert (W : h * D < h * (h * (k + k))).
  { eapply Qcle_lt_trans; [exact Z|]. replace (h * (h * (k + k))) with ((k + k) * (h * h)) by ring.
    assert (0 < h * h) by (apply qc_mul_pos; auto). apply Qcmult_lt_compat_r; auto. unfold k. qlra. }
  assert (V : h * (h * (k + k)) <= h * D).
  { apply Qcmult_le_compat_r with (z := h) in h3; [|qlra]. rewrite (Qcmult_comm h D), (Qcmult_comm h (h * (k + k))). auto. }
  exact (Qclt_not_le _ _ W V).
Qed.
