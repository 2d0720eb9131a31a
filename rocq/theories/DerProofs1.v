(* Derivatives of the polynomial pieces of B-splines.  No model content. *)
From Coq Require Import List ZArith Lia Bool QArith Qcanon.
From Verif Require Import Common QcLib SumLib DerivLib SplineTheory.
Import ListNotations.
Local Open Scope Z_scope.
Local Open Scope Qc_scope.

Lemma qdiv0 (a b : Qc) : b = 0 -> a / b = 0.
Proof. intros ->. unfold Qcdiv. change (/ 0) with 0. ring. Qed.

(* slopes of the recursion: N / (knot difference) *)
Definition Q (U : Z -> Qc) (s : Z) (t : Qc) (q : nat) (i : Z) : Qc :=
  Bs U s t q i / (U (i + Z.of_nat q + 1)%Z - U i).

Lemma Bs_Q U s t q i : Bs U s t (S q) i = (t - U i) * Q U s t q i + (U (i + Z.of_nat (S q) + 1)%Z - t) * Q U s t q (i + 1).
Proof.
  unfold Q. cbn [Bs]. replace (i + Z.of_nat (S q))%Z with (i + Z.of_nat q + 1)%Z by lia.
  replace (i + 1 + Z.of_nat q + 1)%Z with (i + Z.of_nat q + 1 + 1)%Z by lia. unfold Qcdiv. ring.
Qed.

Lemma Q_zero U s t q i : ~ (s - Z.of_nat q <= i <= s)%Z -> Q U s t q i = 0.
Proof. intro H. unfold Q. rewrite Bs_support by auto. unfold Qcdiv. ring. Qed.

(* the slope of degree q+1 is a combination of slopes of degree q *)
Lemma Q_left U s t q i : ndg U s (S (S q)) ->
  Q U s t (S q) i = (t - U i) / (U (i + Z.of_nat (S q) + 1)%Z - U i) * Q U s t q i
    + (1 - (t - U i) / (U (i + Z.of_nat (S q) + 1)%Z - U i)) * Q U s t q (i + 1).
Proof.
  intro N. unfold Q at 1. rewrite Bs_Q. destruct (Qc_eq_dec (U (i + Z.of_nat (S q) + 1)%Z - U i) 0) as [E|E].
  - rewrite !(qdiv0 _ _ E). rewrite (Q_zero U s t q (i + 1)); [ring|]. intro H. apply (N i (Z.of_nat (S q) + 1)%Z); try lia.
    replace (i + (Z.of_nat (S q) + 1))%Z with (i + Z.of_nat (S q) + 1)%Z by lia. clear - E. qlra.
  - field. auto.
Qed.
Lemma Q_right U s t q i : ndg U s (S (S q)) ->
  Q U s t (S q) i = (1 - (U (i + Z.of_nat (S q) + 1)%Z - t) / (U (i + Z.of_nat (S q) + 1)%Z - U i)) * Q U s t q i
    + (U (i + Z.of_nat (S q) + 1)%Z - t) / (U (i + Z.of_nat (S q) + 1)%Z - U i) * Q U s t q (i + 1).
Proof.
  intro N. unfold Q at 1. rewrite Bs_Q. destruct (Qc_eq_dec (U (i + Z.of_nat (S q) + 1)%Z - U i) 0) as [E|E].
  - rewrite !(qdiv0 _ _ E). rewrite (Q_zero U s t q i); [ring|]. intro H. apply (N i (Z.of_nat (S q) + 1)%Z); try lia.
    replace (i + (Z.of_nat (S q) + 1))%Z with (i + Z.of_nat (S q) + 1)%Z by lia. clear - E. qlra.
  - field. auto.
Qed.

Lemma deriv_eq f t a b : is_deriv f t a -> a = b -> is_deriv f t b.
Proof. now intros H <-. Qed.
Lemma deriv_lin a b t : is_deriv (fun x => a * x + b) t a.
Proof.
  apply deriv_eq with (a := a * 1 + 0); [|ring]. apply deriv_add; [|apply deriv_const]. apply deriv_scale. apply deriv_id.
Qed.

Lemma Bs_deriv U s : forall q, ndg U s (S q) -> forall i t,
  is_deriv (fun x => Bs U s x (S q) i) t (zq (Z.of_nat (S q)) * (Q U s t q i - Q U s t q (i + 1))).
Proof.
  induction q as [|q IH]; intros N i t.
  - set (a := / (U (i + 1)%Z - U i)). set (b := / (U (i + 1 + 1)%Z - U (i + 1)%Z)).
    set (e := Bs U s 0 0 i). set (g := Bs U s 0 0 (i + 1)).
    apply deriv_ext with (f := fun x => (a * e - b * g) * x + (b * g * U (i + 1 + 1)%Z - a * e * U i)).
    { intro x. cbn [Bs]. change (Z.of_nat 1) with 1%Z. unfold a, b, e, g, Qcdiv. cbn [Bs]. ring. }
    eapply deriv_eq; [apply deriv_lin|]. unfold Q. cbn [Bs]. change (Z.of_nat 1) with 1%Z. change (Z.of_nat 0) with 0%Z.
    replace (i + 0 + 1)%Z with (i + 1)%Z by lia. replace (i + 1 + 0 + 1)%Z with (i + 1 + 1)%Z by lia.
    unfold a, b, e, g, Qcdiv. cbn [Bs]. rewrite zq_1. ring.
  - set (p := S q) in *. set (a := / (U (i + Z.of_nat (S p))%Z - U i)).
    set (b := / (U (i + Z.of_nat (S p) + 1)%Z - U (i + 1)%Z)).
    assert (Na : ndg U s p) by (apply (ndg_le _ _ (S p)); auto).
    apply deriv_ext with (f := fun x => (a * x + - a * U i) * Bs U s x p i + (- b * x + b * U (i + Z.of_nat (S p) + 1)%Z) * Bs U s x p (i + 1)).
    { intro x. cbn [Bs]. unfold a, b, Qcdiv. ring. }
    eapply deriv_eq.
    { exact (deriv_add _ _ _ _ _ (deriv_mul (fun x => a * x + - a * U i) (fun x => Bs U s x p i) t _ _ (deriv_lin _ _ _) (IH Na i t))
        (deriv_mul (fun x => - b * x + b * U (i + Z.of_nat (S p) + 1)%Z) (fun x => Bs U s x p (i + 1)) t _ _ (deriv_lin _ _ _) (IH Na (i + 1)%Z t))). }
    cbv beta. pose proof (Q_left U s t q i N) as QL. pose proof (Q_right U s t q (i + 1) N) as QR. fold p in QL, QR.
    replace (i + 1 + Z.of_nat p + 1)%Z with (i + Z.of_nat (S p) + 1)%Z in QR by lia.
    replace (i + Z.of_nat p + 1)%Z with (i + Z.of_nat (S p))%Z in QL by lia.
    assert (W1 : Q U s t p i = a * Bs U s t p i).
    { unfold Q, a, Qcdiv. replace (i + Z.of_nat p + 1)%Z with (i + Z.of_nat (S p))%Z by lia. ring. }
    assert (W2 : Q U s t p (i + 1) = b * Bs U s t p (i + 1)).
    { unfold Q, b, Qcdiv. replace (i + 1 + Z.of_nat p + 1)%Z with (i + Z.of_nat (S p) + 1)%Z by lia. ring. }
    rewrite <- (Qcplus_0_r (_ + _)).
    replace (zq (Z.of_nat (S p))) with (zq (Z.of_nat p) + 1).
    2:{ rewrite <- zq_1, <- zq_add. f_equal. lia. }
    set (m := zq (Z.of_nat p)). set (A0 := Q U s t q i) in *. set (A1 := Q U s t q (i + 1)) in *. set (A2 := Q U s t q (i + 1 + 1)) in *.
    transitivity (a * Bs U s t p i - b * Bs U s t p (i + 1) + m * (Q U s t p i - Q U s t p (i + 1))).
    + rewrite QL, QR. unfold a, b, Qcdiv. ring.
    + rewrite W1, W2. ring.
Qed.

Lemma deriv_sum_n c : forall lo (f : Z -> Qc -> Qc) (g : Z -> Qc) t,
  (forall i, (lo <= i < lo + Z.of_nat c)%Z -> is_deriv (f i) t (g i)) ->
  is_deriv (fun x => sum_n c lo (fun i => f i x)) t (sum_n c lo g).
Proof.
  induction c as [|c IH]; intros lo f g t H; cbn [sum_n]; [apply deriv_const|].
  apply deriv_add; [apply H; lia|]. apply IH. intros; apply H; lia.
Qed.

(* a spline piece and the coefficients of its derivative *)
Definition piece (U : Z -> Qc) (s : Z) (q : nat) (d : Z -> Qc) (t : Qc) : Qc :=
  sum_n (S q) (s - Z.of_nat q) (fun i => Bs U s t q i * d i).
Definition dstep (U : Z -> Qc) (q : nat) (d : Z -> Qc) (i : Z) : Qc :=
  zq (Z.of_nat q) * (d i - d (i - 1)%Z) / (U (i + Z.of_nat q)%Z - U i).

Lemma piece_deriv U s q d t : ndg U s (S q) -> is_deriv (piece U s (S q) d) t (piece U s q (dstep U (S q) d) t).
Proof.
  intro N. unfold piece. set (m := zq (Z.of_nat (S q))).
  eapply deriv_eq.
  - apply (deriv_sum_n (S (S q)) (s - Z.of_nat (S q)) (fun i x => Bs U s x (S q) i * d i)
       (fun i => d i * (m * (Q U s t q i - Q U s t q (i + 1))))).
    intros i _. apply deriv_ext with (f := fun x => d i * Bs U s x (S q) i); [intro; ring|]. apply deriv_scale. apply Bs_deriv; auto.
  - transitivity (sum_n (S (S q)) (s - Z.of_nat (S q)) (fun i => m * d i * Q U s t q i)
      + sum_n (S (S q)) (s - Z.of_nat (S q)) (fun i => - m * d (i + 1 - 1)%Z * Q U s t q (i + 1))).
    { rewrite <- sum_n_add. apply sum_n_ext. intros i _. replace (i + 1 - 1)%Z with i by lia. ring. }
    rewrite (sum_n_shift (S (S q)) (s - Z.of_nat (S q)) (fun j => - m * d (j - 1)%Z * Q U s t q j) 1).
    rewrite (sum_n_last (S q) (s - Z.of_nat (S q) + 1)). rewrite (Q_zero U s t q (s - Z.of_nat (S q) + 1 + _)) by lia.
    change (sum_n (S (S q)) (s - Z.of_nat (S q)) (fun i => m * d i * Q U s t q i)) with
      (m * d (s - Z.of_nat (S q))%Z * Q U s t q (s - Z.of_nat (S q)) + sum_n (S q) (s - Z.of_nat (S q) + 1) (fun i => m * d i * Q U s t q i)).
    rewrite (Q_zero U s t q (s - Z.of_nat (S q))) by lia.
    replace (s - Z.of_nat (S q) + 1)%Z with (s - Z.of_nat q)%Z by lia.
    transitivity (sum_n (S q) (s - Z.of_nat q) (fun i => m * d i * Q U s t q i + - m * d (i - 1)%Z * Q U s t q i)).
    { rewrite sum_n_add. ring. }
    apply sum_n_ext. intros i _. unfold dstep, Q, m. replace (i + Z.of_nat (S q))%Z with (i + Z.of_nat q + 1)%Z by lia. unfold Qcdiv. ring.
Qed.

Lemma piece0_deriv U s d t : is_deriv (piece U s 0 d) t 0.
Proof.
  apply deriv_ext with (f := fun _ => Bs U s 0 0 (s - 0) * d (s - 0)%Z + 0); [intro x; reflexivity|]. apply deriv_const.
Qed.

(* coefficients of the k-th derivative of a piece of degree p *)
Fixpoint dcoef (U : Z -> Qc) (p : nat) (k : nat) (d : Z -> Qc) : Z -> Qc :=
  match k with O => d | S k' => dstep U (p - k') (dcoef U p k' d) end.

Definition dpiece (U : Z -> Qc) (s : Z) (p : nat) (d : Z -> Qc) (k : nat) (t : Qc) : Qc :=
  if (k <=? p)%nat then piece U s (p - k) (dcoef U p k d) t else 0.

Lemma dpiece_chain U s p d k t : ndg U s p -> is_deriv (dpiece U s p d k) t (dpiece U s p d (S k) t).
Proof.
  intro N. unfold dpiece. destruct (Nat.leb_spec k p) as [L|L].
  - destruct (Nat.leb_spec (S k) p) as [L'|L'].
    + cbn [dcoef]. replace (p - k)%nat with (S (p - S k)) by lia. apply piece_deriv. apply (ndg_le _ _ p); auto. lia.
    + replace (p - k)%nat with O by lia. apply piece0_deriv.
  - destruct (Nat.leb_spec (S k) p) as [L'|L']; [lia|]. apply deriv_const.
Qed.

Lemma dpiece_zero U s p d t : dpiece U s p d 0 t = piece U s p d t.
Proof. unfold dpiece. cbn [Nat.leb dcoef]. now rewrite Nat.sub_0_r. Qed.
