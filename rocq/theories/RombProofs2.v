(* Extrapolation, and the loops of romberg1d. *)
From Coq Require Import List ZArith Lia Bool QArith Qcanon Qcabs PeanoNat.
From Verif Require Import Common ListLib QcLib ArrZ SumLib NurbsModel NurbsProofs RombModel RombSpec RombProofs1.
Import ListNotations.
Local Open Scope Z_scope.
Local Open Scope Qc_scope.

Definition q4 : Qc := zq 4.
Definition r4 : Qc := 1 / q4.
Lemma q4_r4 : q4 * r4 = 1. Proof. apply Qc_is_canon. reflexivity. Qed.
Lemma q4_pow n : zq (4 ^ Z.of_nat n) = q4 ^ n.
Proof. induction n as [|n IH]; [reflexivity|]. rewrite Nat2Z.inj_succ, Z.pow_succ_r by lia. rewrite zq_mul, IH. reflexivity. Qed.
Lemma q4_pow_gt n : (0 < n)%nat -> q4 ^ n - 1 <> 0.
Proof.
  intros H E. rewrite <- q4_pow, <- zq_1 in E. assert (zq (4 ^ Z.of_nat n) = zq 1). { transitivity (zq (4 ^ Z.of_nat n) - zq 1 + zq 1); [ring|rewrite E; ring]. }
  apply zq_inj in H0. assert (1 < 4 ^ Z.of_nat n)%Z by (apply Z.pow_gt_1; lia). lia.
Qed.
Lemma r4_pow k i : (0 < i)%nat -> (r4 ^ k) ^ (i - 1) = q4 ^ k * (r4 ^ k) ^ i.
Proof.
  intro H. destruct i as [|i]; [lia|]. replace (S i - 1)%nat with i by lia. rewrite pow_S, Qcmult_assoc, <- pow_mul_base, q4_r4, pow_one. ring.
Qed.

Lemma extrapolate_ev T v m c : (forall i, T i = v + sumn m (fun k => c k * (r4 ^ S k) ^ i)) ->
  forall j, exists c', (forall i, (j <= i)%nat -> extrapolate T j i = v + sumn m (fun k => c' k * (r4 ^ S k) ^ i)) /\
    forall k, (k < j)%nat -> c' k = 0.
Proof.
  intros HT. induction j as [|j [c' [IH Z]]].
  - exists c. split; [intros; apply HT|intros; lia].
  - exists (fun k => c' k * ((q4 ^ S j - q4 ^ S k) / (q4 ^ S j - 1))). split.
    + intros i Hi. cbn [extrapolate]. rewrite !IH by lia. rewrite q4_pow. pose proof (q4_pow_gt (S j) ltac:(lia)) as N.
      set (Q := q4 ^ S j) in *.
      rewrite (sumn_ext m (fun k => c' k * (r4 ^ S k) ^ (i - 1)) (fun k => c' k * (q4 ^ S k * (r4 ^ S k) ^ i))).
      2:{ intros k Hk. rewrite r4_pow by lia. auto. }
      transitivity ((Q * v - v + (Q * sumn m (fun k => c' k * (r4 ^ S k) ^ i) - sumn m (fun k => c' k * (q4 ^ S k * (r4 ^ S k) ^ i)))) / (Q - 1)); [f_equal; ring|].
      rewrite <- sumn_scale, <- sumn_sub.
      transitivity (v + (1 / (Q - 1)) * sumn m (fun i0 => Q * (c' i0 * (r4 ^ S i0) ^ i) - c' i0 * (q4 ^ S i0 * (r4 ^ S i0) ^ i))); [field; auto|].
      f_equal. rewrite <- sumn_scale. apply sumn_ext. intros k Hk. field. auto.
    + intros k Hk. destruct (Nat.eq_dec k j) as [->|]; [unfold Qcdiv; ring|rewrite Z by lia; ring].
Qed.

Lemma extrapolate_exact T v m c : (forall i, T i = v + sumn m (fun k => c k * (r4 ^ S k) ^ i)) ->
  forall j i, (m <= j)%nat -> (j <= i)%nat -> extrapolate T j i = v.
Proof.
  intros H j i H1 H2. destruct (extrapolate_ev T v m c H j) as [c' [E Z]]. rewrite E by auto.
  rewrite sumn_zero; [ring|]. intros k Hk. rewrite Z by lia. ring.
Qed.

Lemma pow2_nz i : (2 ^ i <> 0)%nat. Proof. apply Nat.pow_nonzero. lia. Qed.
Lemma wid_pow a b i : X a b (2 ^ i) = X a b 1 * r4 ^ i.
Proof.
  induction i as [|i IH]; [cbn; ring|]. rewrite pow_S. transitivity (X a b (2 ^ i) * r4); [|rewrite IH; ring].
  assert (W : wid a b (2 ^ S i) = wid a b (2 ^ i) / zq 2).
  { unfold wid. assert (E : (2 * Z.of_nat (2 ^ S i) = 2 * (2 * Z.of_nat (2 ^ i)))%Z) by (cbn [Nat.pow]; lia).
    rewrite E, (zq_mul 2 (2 * Z.of_nat (2 ^ i))). field. pose proof (pow2_nz i). split; apply zq_nz; lia. }
  unfold X. rewrite W. unfold r4, q4. replace (zq 4) with (zq 2 * zq 2) by (apply Qc_is_canon; reflexivity). field. apply zq_nz. lia.
Qed.

Theorem romberg_exact cs a b m i : (length cs <= 2 * S m)%nat -> (m <= i)%nat -> romberg_value (poly_at cs) a b i = poly_integral cs a b.
Proof.
  intros H Hi. destruct (poly_ev a b cs m H) as [c E]. unfold romberg_value.
  apply (extrapolate_exact _ _ m (fun k => c k * X a b 1 ^ S k)); auto. intro n. rewrite E by (pose proof (pow2_nz n); lia).
  f_equal. apply sumn_ext. intros k Hk. rewrite wid_pow, pow_mul_base. rewrite !pow_comp. replace (n * S k)%nat with (S k * n)%nat by lia. ring.
Qed.

(* ---- refinement of the trapezoidal rule ---- *)
Lemma sumn_pairs n (g : nat -> Qc) : sumn (2 * n) g = sumn n (fun j => g (2 * j)%nat + g (2 * j + 1)%nat).
Proof.
  induction n as [|n IH]; [reflexivity|]. replace (2 * S n)%nat with (S (S (2 * n))) by lia. rewrite !sumn_S, IH.
  replace (2 * n + 1)%nat with (S (2 * n)) by lia. ring.
Qed.
Lemma refine f a b n : (0 < n)%nat -> let h := (b - a) / zq (Z.of_nat (2 * n)) in
  trapezoid f a b (2 * n) = h * sumn n (fun j => f (a + zq (2 * Z.of_nat j + 1) * h)) + 1 / zq 2 * trapezoid f a b n.
Proof.
  intros Hn h. unfold trapezoid. fold h. rewrite sumn_pairs, <- !sumn_scale, <- sumn_add. apply sumn_ext. intros j Hj.
  assert (E : (b - a) / zq (Z.of_nat n) = (1 + 1) * h).
  { unfold h. rewrite Nat2Z.inj_mul. change (Z.of_nat 2) with 2%Z. rewrite zq_mul, zq_2. field. split; first [discriminate|apply zq_nz; lia]. }
  rewrite E.
  replace (a + zq (Z.of_nat j) * ((1 + 1) * h)) with (a + zq (Z.of_nat (2 * j)) * h).
  2:{ rewrite Nat2Z.inj_mul. change (Z.of_nat 2) with 2%Z. rewrite zq_mul, zq_2. ring. }
  replace (a + zq (Z.of_nat (S j)) * ((1 + 1) * h)) with (a + zq (Z.of_nat (S (2 * j + 1))) * h).
  2:{ replace (Z.of_nat (S (2 * j + 1))) with (2 * Z.of_nat (S j))%Z by lia. rewrite zq_mul, zq_2. ring. }
  replace (2 * Z.of_nat j + 1)%Z with (Z.of_nat (S (2 * j))) by lia.
  replace (2 * j + 1)%nat with (S (2 * j)) by lia.
  rewrite zq_2. generalize (f (a + zq (Z.of_nat (S (2 * j))) * h)). intro. field. discriminate.
Qed.

Section Loop.
Variables (f : Qc -> Qc) (a b acc : Qc) (ms : Z).
Hypothesis Hms : (1 <= ms)%Z.
Let T (i : nat) : Qc := trapezoid f a b (2 ^ i).
Let R (i j : Z) : Qc := extrapolate T (Z.to_nat j) (Z.to_nat i).
Definition hh (i : Z) : Qc := (b - a) / zq (2 ^ i).

Lemma nodes_ok h ep : (0 <= ep)%Z -> romb_nodes f a h ep = Ok (sumn (Z.to_nat ep) (fun j => f (a + zq (2 * Z.of_nat j + 1) * h))).
Proof.
  intro H. unfold romb_nodes.
  destruct (forZ_inv (fun j c => c = sumn (Z.to_nat (j - 1)) (fun j => f (a + zq (2 * Z.of_nat j + 1) * h)))
    (fun j c => Ok (c + f (a + zq (2 * j - 1) * h))) 1 (ep + 1) 0) as [x [E ->]]; try lia.
  - reflexivity.
  - intros j c Hj ->. eexists. split; [reflexivity|]. replace (Z.to_nat (j + 1 - 1)) with (S (Z.to_nat (j - 1))) by lia. rewrite sumn_S. f_equal.
    replace (2 * Z.of_nat (Z.to_nat (j - 1)) + 1)%Z with (2 * j - 1)%Z by lia. auto.
  - rewrite E. f_equal. f_equal. lia.
Qed.

Lemma row_ok i Rp Rc : (1 <= i < ms)%Z -> lenZ Rp = ms -> lenZ Rc = ms ->
  (forall j, (0 <= j < i)%Z -> atZ 0 Rp j = R (i - 1) j) -> atZ 0 Rc 0 = R i 0 ->
  exists Rc', romb_row i Rp Rc = Ok Rc' /\ lenZ Rc' = ms /\ forall j, (0 <= j <= i)%Z -> atZ 0 Rc' j = R i j.
Proof.
  intros Hi LP LC HP H0. unfold romb_row.
  destruct (forZ_inv (fun k Rc => lenZ Rc = ms /\ forall j, (0 <= j < k)%Z -> atZ 0 Rc j = R i j)
    (fun j Rc => let nk := zq (4 ^ j) in do x <- rdZ Rc (j - 1) ; do y <- rdZ Rp (j - 1) ; do q <- divR (nk * x - y) (nk - 1) ; wrZ Rc j q)
    1 (i + 1) Rc) as [Rc' [E [L H]]]; try lia.
  - split; auto. intros j Hj. replace j with 0%Z by lia. auto.
  - intros k S Hk [L H]. cbv zeta. rewrite !(rdZ_ok 0) by lia. cbn [bind]. rewrite H, HP by lia.
    assert (N : zq (4 ^ k) - 1 <> 0). { replace k with (Z.of_nat (Z.to_nat k)) by lia. rewrite q4_pow. apply q4_pow_gt. lia. }
    rewrite divR_ok by auto. cbn [bind]. rewrite wrZ_ok by lia. eexists. split; [reflexivity|]. rewrite lenZ_upd. split; auto.
    intros j Hj. destruct (Z.eq_dec j k) as [->|].
    + rewrite atZ_upd_eq by lia. unfold R. replace (Z.to_nat k) with (Datatypes.S (Z.to_nat (k - 1))) by lia. cbn [extrapolate].
      replace (Z.of_nat (Datatypes.S (Z.to_nat (k - 1)))) with k by lia. replace (Z.to_nat (i - 1)) with (Z.to_nat i - 1)%nat by lia. auto.
    + rewrite atZ_upd_neq by lia. apply H. lia.
  - exists Rc'. split; auto. split; auto. intros j Hj. apply H. lia.
Qed.

Definition D (k : Z) : Qc := R (k - 1) (k - 1) - R k k.
Lemma loop_ok : forall n i Rp Rc, (1 <= i)%Z -> (i + Z.of_nat n = ms)%Z -> lenZ Rp = ms -> lenZ Rc = ms ->
  (forall j, (0 <= j < i)%Z -> atZ 0 Rp j = R (i - 1) j) ->
  exists k, romb_loop f n i a (hh (i - 1)) acc Rp Rc ms = Ok (R k k) /\ (i - 1 <= k < ms)%Z /\
    (k = (ms - 1)%Z \/ (2 <= k)%Z /\ Qcabs (D k) < acc) /\ forall k', (2 <= k')%Z -> (i <= k' < k)%Z -> acc <= Qcabs (D k').
Proof.
  induction n as [|n IH]; intros i Rp Rc Hi Hn LP LC HP; cbn [romb_loop].
  - exists (ms - 1)%Z. rewrite (rdZ_ok 0) by lia. replace i with ms in * by lia. rewrite HP by lia. split; auto. split; [lia|]. split; [auto|intros; lia].
  - cbv zeta. assert (HH : hh (i - 1) / zq 2 = hh i).
    { unfold hh. replace i with (i - 1 + 1)%Z at 2 by lia. rewrite Z.pow_add_r by lia. rewrite zq_mul. change (2 ^ 1)%Z with 2%Z. field.
      split; apply zq_nz; [lia|]. pose proof (Z.pow_pos_nonneg 2 (i - 1)). lia. }
    rewrite HH. rewrite nodes_ok by (apply Z.pow_nonneg; lia). cbn [bind]. rewrite (rdZ_ok 0) by lia. cbn [bind]. rewrite wrZ_ok by lia. cbn [bind].
    set (Rc1 := upd _ _ _).
    destruct (row_ok i Rp Rc1) as [Rc2 [E2 [L2 H2]]]; auto; try lia.
    { unfold Rc1. rewrite lenZ_upd. auto. }
    { unfold Rc1. change (Z.to_nat 0) with (Z.to_nat 0). rewrite atZ_upd_eq by lia. rewrite HP by lia.
      unfold R. cbn [extrapolate Z.to_nat]. unfold T. replace (Z.to_nat i) with (S (Z.to_nat (i - 1))) by lia.
      change (2 ^ S (Z.to_nat (i - 1)))%nat with (2 * 2 ^ Z.to_nat (i - 1))%nat.
      rewrite (refine f a b (2 ^ Z.to_nat (i - 1))) by (pose proof (pow2_nz (Z.to_nat (i - 1))); lia).
      assert (P1 : Z.to_nat (2 ^ (i - 1)) = (2 ^ Z.to_nat (i - 1))%nat). { apply Nat2Z.inj. rewrite Nat2Z.inj_pow. rewrite !Z2Nat.id; try lia. }
      rewrite P1. assert (P2 : (b - a) / zq (Z.of_nat (2 * 2 ^ Z.to_nat (i - 1))) = hh i).
      { unfold hh. f_equal. f_equal. rewrite Nat2Z.inj_mul, Nat2Z.inj_pow. rewrite Z2Nat.id by lia. change (Z.of_nat 2) with 2%Z. rewrite <- Z.pow_succ_r by lia. f_equal. lia. }
      rewrite P2. auto. }
    rewrite E2. cbn [bind]. rewrite !(rdZ_ok 0) by lia. cbn [bind]. rewrite HP, H2 by lia.
    assert (AB : forall x : Qc, (if qlt x 0 then - x else x) = Qcabs x).
    { intro x. destruct (qlt x 0) eqn:Q; [apply qlt_true in Q; symmetry; apply Qcabs_neg, Qclt_le_weak; auto|apply qlt_false in Q; symmetry; apply Qcabs_pos; auto]. }
    rewrite AB. fold (D i).
    destruct ((1 <? i)%Z && qlt (Qcabs (D i)) acc) eqn:Q.
    + apply andb_true_iff in Q. destruct Q as [Q1 Q2]. apply Z.ltb_lt in Q1. apply qlt_true in Q2.
      exists i. split; auto. split; [lia|]. split; [right; split; [lia|auto]|intros; lia].
    + destruct (IH (i + 1)%Z Rc2 Rp) as [k [E [B [C W]]]]; auto; try lia.
      { intros j Hj. replace (i + 1 - 1)%Z with i by lia. apply H2. lia. }
      replace (i + 1 - 1)%Z with i in * by lia.
      exists k. split; auto. split; [lia|]. split; auto. intros k' K1 K2.
      destruct (Z.eq_dec k' i) as [->|]; [|apply W; lia].
      apply andb_false_iff in Q. destruct Q as [Q|Q]; [apply Z.ltb_ge in Q; lia|apply qlt_false in Q; auto].
Qed.
End Loop.

Theorem romberg_ok f a b ms acc : (1 <= ms)%Z -> exists k,
  romberg1d f a b ms acc = Ok (romberg_value f a b k) /\ (Z.of_nat k < ms)%Z /\
  (Z.of_nat k = (ms - 1)%Z \/ (2 <= k)%nat /\ Qcabs (romberg_value f a b (k - 1) - romberg_value f a b k) < acc) /\
  forall k', (2 <= k' < k)%nat -> acc <= Qcabs (romberg_value f a b (k' - 1) - romberg_value f a b k').
Proof.
  intro H. unfold romberg1d. rewrite wrZ_ok by (rewrite lenZ_repeat; lia). cbn [bind].
  assert (E0 : hh a b (1 - 1) = b - a).
  { unfold hh. change (2 ^ (1 - 1))%Z with 1%Z. rewrite zq_1. field. discriminate. }
  destruct (loop_ok f a b acc ms) with (n := Z.to_nat (ms - 1)) (i := 1%Z)
    (Rp := upd (repeat (0:Qc) (Z.to_nat ms)) (Z.to_nat 0) (1 / zq 2 * (b - a) * (f a + f b))) (Rc := repeat (0:Qc) (Z.to_nat ms))
    as [k [E [B [C W]]]]; try lia.
  - rewrite lenZ_upd, lenZ_repeat. lia.
  - rewrite lenZ_repeat. lia.
  - intros j Hj. replace j with 0%Z by lia. rewrite atZ_upd_eq by (rewrite lenZ_repeat; lia). cbn [extrapolate Z.to_nat Nat.pow Z.sub].
    change (2 ^ Z.to_nat (1 - 1))%nat with 1%nat. unfold trapezoid. cbn [sumn]. change (Z.of_nat 1) with 1%Z. change (Z.of_nat 0) with 0%Z. rewrite zq_1, zq_0.
    replace ((b - a) / 1) with (b - a) by (field; discriminate).
    replace (a + 0 * (b - a)) with a by ring. replace (a + 1 * (b - a)) with b by ring. field. apply zq_nz. lia.
  - unfold D in *. exists (Z.to_nat k).
    assert (RV : forall k, extrapolate (fun i => trapezoid f a b (2 ^ i)) (Z.to_nat k) (Z.to_nat k) = romberg_value f a b (Z.to_nat k)) by reflexivity.
    rewrite !RV in *. rewrite E0 in E. split; [exact E|]. split; [lia|]. split.
    + destruct C as [C|[C1 C2]]; [left; lia|right]. split; [lia|]. replace (Z.to_nat k - 1)%nat with (Z.to_nat (k - 1)) by lia. exact C2.
    + intros k' Hk'. specialize (W (Z.of_nat k') ltac:(lia) ltac:(lia)). rewrite !RV in W. replace (k' - 1)%nat with (Z.to_nat (Z.of_nat k' - 1)) by lia.
      rewrite Nat2Z.id in W. exact W.
Qed.
