(* Finite sums over Qc, binomial coefficients and the binomial theorem. *)
From Coq Require Import List Arith ZArith Bool QArith Qcanon Lia.
From Verif Require Import Common QcLib.
Import ListNotations.
Open Scope Qc_scope.

Definition zq (k : Z) : Qc := Q2Qc (inject_Z k).
Lemma zq_0 : zq 0 = 0. Proof. apply Qc_is_canon. reflexivity. Qed.
Lemma zq_1 : zq 1 = 1. Proof. apply Qc_is_canon. reflexivity. Qed.
Lemma zq_add a b : zq (a + b) = zq a + zq b.
Proof. unfold zq. rewrite qc_eq_Q, this_add, !this_Q2Qc. now rewrite inject_Z_plus. Qed.
Lemma zq_mul a b : zq (a * b) = zq a * zq b.
Proof. unfold zq. rewrite qc_eq_Q, this_mul, !this_Q2Qc. now rewrite inject_Z_mult. Qed.
Lemma zq_opp a : zq (- a) = - zq a.
Proof. unfold zq. rewrite qc_eq_Q, this_opp, !this_Q2Qc. now rewrite inject_Z_opp. Qed.
Lemma zq_le a b : (a <= b)%Z -> zq a <= zq b.
Proof. intro H. unfold zq. rewrite qc_le_Q, !this_Q2Qc. rewrite <- Zle_Qle. auto. Qed.
Lemma zq_lt a b : (a < b)%Z -> zq a < zq b.
Proof. intro H. unfold zq. rewrite qc_lt_Q, !this_Q2Qc. rewrite <- Zlt_Qlt. auto. Qed.
Lemma zq_pos a : (0 < a)%Z -> 0 < zq a.
Proof. intro H. rewrite <- zq_0. apply zq_lt. auto. Qed.
Lemma zq_inj a b : zq a = zq b -> a = b.
Proof.
  intro E. destruct (Z.lt_trichotomy a b) as [L|[L|L]]; auto; apply zq_lt in L; rewrite E in L; exfalso; exact (Qclt_not_eq _ _ L eq_refl).
Qed.

(* f 0 + ... + f (n-1) *)
Fixpoint sumn (n : nat) (f : nat -> Qc) : Qc := match n with O => 0 | S m => sumn m f + f m end.

Lemma sumn_S n f : sumn (S n) f = sumn n f + f n. Proof. reflexivity. Qed.
Lemma sumn_ext n f g : (forall i, (i < n)%nat -> f i = g i) -> sumn n f = sumn n g.
Proof. induction n as [|n IH]; intro E; cbn; auto. rewrite IH, E; auto. Qed.
Lemma sumn_add n f g : sumn n (fun i => f i + g i) = sumn n f + sumn n g.
Proof. induction n as [|n IH]; cbn; [ring|]. rewrite IH. ring. Qed.
Lemma sumn_sub n f g : sumn n (fun i => f i - g i) = sumn n f - sumn n g.
Proof. induction n as [|n IH]; cbn; [ring|]. rewrite IH. ring. Qed.
Lemma sumn_scale n f c : sumn n (fun i => c * f i) = c * sumn n f.
Proof. induction n as [|n IH]; cbn; [ring|]. rewrite IH. ring. Qed.
Lemma sumn_scale_r n f c : sumn n (fun i => f i * c) = sumn n f * c.
Proof. induction n as [|n IH]; cbn; [ring|]. rewrite IH. ring. Qed.
Lemma sumn_zero n f : (forall i, (i < n)%nat -> f i = 0) -> sumn n f = 0.
Proof. induction n as [|n IH]; intro E; cbn; auto. rewrite IH by auto. rewrite E by auto. ring. Qed.
Lemma sumn_first n f : sumn (S n) f = f 0%nat + sumn n (fun i => f (S i)).
Proof. induction n as [|n IH]; [cbn; ring|]. rewrite sumn_S, IH. cbn [sumn]. ring. Qed.
Lemma sumn_app a b f : sumn (a + b) f = sumn a f + sumn b (fun i => f (a + i)%nat).
Proof.
  induction b as [|b IH]; [rewrite Nat.add_0_r; cbn; ring|]. rewrite Nat.add_succ_r, !sumn_S, IH. ring.
Qed.
Lemma sumn_swap n m f : sumn n (fun i => sumn m (fun j => f i j)) = sumn m (fun j => sumn n (fun i => f i j)).
Proof.
  induction n as [|n IH]; cbn; [now rewrite sumn_zero|]. rewrite IH. now rewrite <- sumn_add.
Qed.
Lemma sumn_one n k f : (k < n)%nat -> (forall i, (i < n)%nat -> i <> k -> f i = 0) -> sumn n f = f k.
Proof.
  intros L E. replace n with (k + (1 + (n - k - 1)))%nat by lia. rewrite !sumn_app. rewrite (sumn_zero k) by (intros; apply E; lia).
  rewrite (sumn_zero (n - k - 1)) by (intros; apply E; lia). cbn. rewrite Nat.add_0_r. ring.
Qed.
Lemma sumn_mul n m f g : sumn n f * sumn m g = sumn n (fun i => sumn m (fun j => f i * g j)).
Proof. rewrite <- sumn_scale_r. apply sumn_ext. intros i _. symmetry. apply sumn_scale. Qed.
(* extend the range by zeros *)
Lemma sumn_extend n m f : (n <= m)%nat -> (forall i, (n <= i < m)%nat -> f i = 0) -> sumn m f = sumn n f.
Proof. intros L E. replace m with (n + (m - n))%nat by lia. rewrite sumn_app. rewrite (sumn_zero (m - n)) by (intros; apply E; lia). ring. Qed.
(* shift the start *)
Lemma sumn_shift k n f : (forall i, (i < k)%nat -> f i = 0) -> sumn (k + n) f = sumn n (fun i => f (k + i)%nat).
Proof. intro E. rewrite sumn_app. rewrite (sumn_zero k) by auto. ring. Qed.
Lemma sumn_nonneg n f : (forall i, (i < n)%nat -> 0 <= f i) -> 0 <= sumn n f.
Proof.
  induction n as [|n IH]; intro E; cbn [sumn]; [qlra|]. assert (0 <= sumn n f) by (apply IH; auto). assert (0 <= f n) by auto. qlra.
Qed.
Lemma sumn_le n f g : (forall i, (i < n)%nat -> f i <= g i) -> sumn n f <= sumn n g.
Proof.
  induction n as [|n IH]; intro E; cbn [sumn]; [qlra|]. assert (sumn n f <= sumn n g) by (apply IH; auto). assert (f n <= g n) by auto. qlra.
Qed.

(* Pascal's triangle *)
Fixpoint bin (n k : nat) : Z :=
  match n, k with
  | _, O => 1
  | O, S _ => 0
  | S m, S j => bin m j + bin m (S j)
  end.
Lemma bin_0 n : bin n 0 = 1%Z. Proof. destruct n; reflexivity. Qed.
Lemma bin_S n k : bin (S n) (S k) = (bin n k + bin n (S k))%Z. Proof. reflexivity. Qed.
Lemma bin_gt n : forall k, (n < k)%nat -> bin n k = 0%Z.
Proof. induction n as [|n IH]; intros [|k] L; try lia; auto. cbn [bin]. rewrite !IH by lia. auto. Qed.
Lemma bin_diag n : bin n n = 1%Z.
Proof. induction n as [|n IH]; auto. cbn [bin]. rewrite IH, bin_gt by lia. auto. Qed.
Lemma bin_pos n : forall k, (k <= n)%nat -> (0 < bin n k)%Z.
Proof.
  induction n as [|n IH]; intros [|k] L; try lia; cbn [bin]; try lia. assert (0 < bin n k)%Z by (apply IH; lia).
  destruct (Nat.eq_dec k n) as [->|]; [rewrite (bin_gt n (S n)) by lia; lia|]. assert (0 < bin n (S k))%Z by (apply IH; lia). lia.
Qed.
Fixpoint zfact (n : nat) : Z := match n with O => 1 | S m => Z.of_nat (S m) * zfact m end.
Lemma zfact_pos n : (0 < zfact n)%Z. Proof. induction n; cbn [zfact]; lia. Qed.
Lemma bin_fact n : forall k, (k <= n)%nat -> (bin n k * (zfact k * zfact (n - k)) = zfact n)%Z.
Proof.
  induction n as [|n IH]; intros k L.
  - assert (k = 0)%nat by lia. subst. reflexivity.
  - destruct k as [|k]; [rewrite bin_0; cbn [zfact Nat.sub]; lia|]. rewrite bin_S. cbn [Nat.sub].
    destruct (Nat.eq_dec k n) as [->|NE].
    + rewrite bin_diag, bin_gt by lia. rewrite Nat.sub_diag. cbn [zfact]. lia.
    + assert (A := IH k ltac:(lia)). assert (B := IH (S k) ltac:(lia)).
      assert (E : zfact (n - k) = (Z.of_nat (n - k) * zfact (n - S k))%Z). { replace (n - k)%nat with (S (n - S k)) by lia. reflexivity. }
      rewrite E in *. change (zfact (S k)) with (Z.of_nat (S k) * zfact k)%Z in *. change (zfact (S n)) with (Z.of_nat (S n) * zfact n)%Z.
      replace (Z.of_nat (S n)) with (Z.of_nat (S k) + Z.of_nat (n - k))%Z by lia.
      rewrite (Z.mul_add_distr_r _ _ (zfact n)). rewrite <- A at 1. rewrite <- B. ring.
Qed.
Lemma bin_trinomial n j k : (k <= j <= n)%nat -> (bin n j * bin j k = bin n k * bin (n - k) (j - k))%Z.
Proof.
  intros L. assert (A := bin_fact n j ltac:(lia)). assert (B := bin_fact j k ltac:(lia)). assert (C := bin_fact n k ltac:(lia)).
  assert (D := bin_fact (n - k) (j - k) ltac:(lia)). replace (n - k - (j - k))%nat with (n - j)%nat in D by lia.
  pose proof (zfact_pos k). pose proof (zfact_pos (j - k)). pose proof (zfact_pos (n - j)).
  apply Z.mul_reg_r with (p := (zfact k * zfact (j - k) * zfact (n - j))%Z); [nia|].
  transitivity (zfact n).
  - rewrite <- A, <- B. ring.
  - rewrite <- C, <- D. ring.
Qed.

Definition bq (n k : nat) : Qc := zq (bin n k).
Lemma bq_0 n : bq n 0 = 1. Proof. unfold bq. rewrite bin_0. apply zq_1. Qed.
Lemma bq_S n k : bq (S n) (S k) = bq n k + bq n (S k). Proof. unfold bq. rewrite bin_S. apply zq_add. Qed.
Lemma bq_gt n k : (n < k)%nat -> bq n k = 0. Proof. intro L. unfold bq. rewrite bin_gt by auto. apply zq_0. Qed.
Lemma bq_diag n : bq n n = 1. Proof. unfold bq. rewrite bin_diag. apply zq_1. Qed.
Lemma bq_pos n k : (k <= n)%nat -> 0 < bq n k. Proof. intro L. apply zq_pos, bin_pos. auto. Qed.
Lemma bq_nz n k : (k <= n)%nat -> bq n k <> 0.
Proof. intros L E. pose proof (bq_pos n k L) as P. rewrite E in P. exact (Qclt_not_eq _ _ P eq_refl). Qed.
Lemma bq_tri n j k : (k <= j <= n)%nat -> bq n j * bq j k = bq n k * bq (n - k) (j - k).
Proof. intro L. unfold bq. rewrite <- !zq_mul. f_equal. apply bin_trinomial. auto. Qed.

Lemma pow_S (x : Qc) n : x ^ S n = x * x ^ n. Proof. reflexivity. Qed.
Lemma pow_add (x : Qc) a b : x ^ (a + b) = x ^ a * x ^ b.
Proof. induction a as [|a IH]; [cbn; ring|]. cbn [Nat.add]. rewrite !pow_S, IH. ring. Qed.
Lemma pow_mul_base (x y : Qc) n : (x * y) ^ n = x ^ n * y ^ n.
Proof. induction n as [|n IH]; [cbn; ring|]. rewrite !pow_S, IH. ring. Qed.
Lemma pow_one n : 1 ^ n = 1. Proof. induction n as [|n IH]; [reflexivity|]. rewrite pow_S, IH. ring. Qed.
Lemma pow_zero n : (0 < n)%nat -> 0 ^ n = 0. Proof. destruct n; [lia|]. intros _. rewrite pow_S. ring. Qed.

Lemma binomial_theorem a b n : sumn (S n) (fun k => bq n k * a ^ k * b ^ (n - k)) = (a + b) ^ n.
Proof.
  induction n as [|n IH].
  - cbn [sumn Nat.sub]. rewrite bq_0. cbn. ring.
  - rewrite pow_S, <- IH. rewrite sumn_first. rewrite bq_0.
    rewrite sumn_ext with (g := fun i => a * (bq n i * a ^ i * b ^ (n - i)) + bq n (S i) * a ^ (S i) * b ^ (n - i)).
    2:{ intros i L. cbn [Nat.sub]. rewrite bq_S, pow_S. ring. }
    rewrite sumn_add, sumn_scale. set (T := sumn (S n) (fun k => bq n k * a ^ k * b ^ (n - k))).
    assert (E : b * T = 1 * a ^ 0 * b ^ (S n - 0) + sumn (S n) (fun i => bq n (S i) * a ^ (S i) * b ^ (n - i))).
    { unfold T. rewrite <- sumn_scale. rewrite sumn_first. rewrite bq_0. f_equal.
      - replace (S n - 0)%nat with (S (n - 0)) by lia. rewrite (pow_S b). ring.
      - rewrite sumn_S. rewrite (bq_gt n (S n)) by lia. rewrite <- (Qcplus_0_r (sumn n _)). f_equal; [|ring].
        apply sumn_ext. intros i L. replace (n - i)%nat with (S (n - S i)) by lia. rewrite (pow_S b). ring. }
    rewrite Qcmult_plus_distr_l. rewrite E. ring.
Qed.
