(* The error of the trapezoidal rule on a polynomial is a polynomial in h^2. *)
From Coq Require Import List ZArith Lia Bool QArith Qcanon PeanoNat.
From Verif Require Import Common ListLib QcLib ArrZ SumLib RombModel RombSpec.
Import ListNotations.
Local Open Scope Z_scope.
Local Open Scope Qc_scope.

Lemma zq_nz n : (n <> 0)%Z -> zq n <> 0.
Proof. intros H E. apply H. apply zq_inj. rewrite E. symmetry. apply zq_0. Qed.
Lemma zq_2 : zq 2 = 1 + 1. Proof. apply Qc_is_canon. reflexivity. Qed.
Lemma pow_neg_even (w : Qc) i : (- w) ^ (2 * i) = (w * w) ^ i.
Proof. induction i as [|i IH]; [reflexivity|]. replace (2 * S i)%nat with (S (S (2 * i))) by lia. rewrite !pow_S, IH. ring. Qed.
Lemma pow_even (w : Qc) i : w ^ (2 * i) = (w * w) ^ i.
Proof. induction i as [|i IH]; [reflexivity|]. replace (2 * S i)%nat with (S (S (2 * i))) by lia. rewrite !pow_S, IH. ring. Qed.
Lemma pow_comp (x : Qc) a b : (x ^ a) ^ b = x ^ (a * b).
Proof. induction b as [|b IH]; [now rewrite Nat.mul_0_r|]. rewrite pow_S, IH, <- pow_add. f_equal. lia. Qed.
Lemma sumn_tele n (f : nat -> Qc) : sumn n (fun j => f (S j) - f j) = f n - f 0%nat.
Proof. induction n as [|n IH]; cbn [sumn]; [ring|]. rewrite IH. ring. Qed.

(* ---- polynomials in X without constant term besides v ---- *)
Section Even.
Variable X : nat -> Qc.
Definition isev (m : nat) (v : Qc) (g : nat -> Qc) : Prop :=
  exists c, forall n, (0 < n)%nat -> g n = v + sumn m (fun k => c k * X n ^ S k).

Lemma isev_ext m v g g' : (forall n, (0 < n)%nat -> g n = g' n) -> isev m v g -> isev m v g'.
Proof. intros H [c E]. exists c. intros n Hn. rewrite <- H by auto. auto. Qed.
Lemma isev_const m v : isev m v (fun _ => v).
Proof. exists (fun _ => 0). intros n Hn. rewrite sumn_zero; [ring|]. intros; ring. Qed.
Lemma isev_add m v v' g g' : isev m v g -> isev m v' g' -> isev m (v + v') (fun n => g n + g' n).
Proof.
  intros [c E] [c' E']. exists (fun k => c k + c' k). intros n Hn. rewrite E, E' by auto.
  rewrite (sumn_ext m (fun k => (c k + c' k) * X n ^ S k) (fun k => c k * X n ^ S k + c' k * X n ^ S k)) by (intros; ring).
  rewrite sumn_add. ring.
Qed.
Lemma isev_scale m v s g : isev m v g -> isev m (s * v) (fun n => s * g n).
Proof.
  intros [c E]. exists (fun k => s * c k). intros n Hn. rewrite E by auto.
  rewrite (sumn_ext m (fun k => s * c k * X n ^ S k) (fun k => s * (c k * X n ^ S k))) by (intros; ring).
  rewrite sumn_scale. ring.
Qed.
Lemma isev_scale0 m s g : isev m 0 g -> isev m 0 (fun n => s * g n).
Proof. intro H. replace (0 : Qc) with (s * 0) by ring. apply isev_scale; auto. Qed.
Lemma isev_mono m m' v g : (m <= m')%nat -> isev m v g -> isev m' v g.
Proof.
  intros L [c E]. exists (fun k => if (k <? m)%nat then c k else 0). intros n Hn. rewrite E by auto. f_equal.
  rewrite (sumn_extend m m'); [|exact L|intros i Hi; destruct (Nat.ltb_spec i m); [lia|ring]].
  apply sumn_ext. intros i Hi. destruct (Nat.ltb_spec i m); [auto|lia].
Qed.
Lemma isev_times m v g : isev m v g -> isev (S m) 0 (fun n => X n * g n).
Proof.
  intros [c E]. exists (fun k => match k with O => v | S k' => c k' end). intros n Hn. rewrite E by auto.
  rewrite sumn_first. rewrite (sumn_ext m (fun i => c i * X n ^ S (S i)) (fun i => X n * (c i * X n ^ S i))) by (intros; rewrite (pow_S _ (S i)); ring).
  rewrite sumn_scale, (pow_S (X n) 0). change (X n ^ 0) with 1. ring.
Qed.
Lemma isev_pow i m v g : (0 < i)%nat -> isev m v g -> isev (i + m) 0 (fun n => X n ^ i * g n).
Proof.
  intros Hi H. induction i as [|i IH]; [lia|]. destruct i as [|i].
  - apply (isev_ext _ _ (fun n => X n * g n)); [intros; cbn [Qcpower]; ring|]. apply (isev_times _ v); auto.
  - apply (isev_ext _ _ (fun n => X n * (X n ^ S i * g n))); [intros; rewrite (pow_S _ (S i)); ring|].
    change (S (S i) + m)%nat with (S (S i + m)). apply (isev_times _ 0). apply IH. lia.
Qed.
Lemma isev_sum m (N : nat) (v : nat -> Qc) (g : nat -> nat -> Qc) :
  (forall i, (i < N)%nat -> isev m (v i) (g i)) -> isev m (sumn N v) (fun n => sumn N (fun i => g i n)).
Proof.
  induction N as [|N IH]; intro H; cbn [sumn]; [apply isev_const|].
  apply (isev_add m (sumn N v) (v N)); [apply IH; intros; apply H; lia|apply H; lia].
Qed.
End Even.

Section Trap.
Variables a b : Qc.
Definition wid (n : nat) : Qc := (b - a) / zq (2 * Z.of_nat n).
Definition mid (n j : nat) : Qc := a + zq (2 * Z.of_nat j + 1) * wid n.
Definition msum (d n : nat) : Qc := sumn n (fun j => (1 + 1) * wid n * mid n j ^ d).
Definition X (n : nat) : Qc := wid n * wid n.
Definition intd (d : nat) : Qc := (b ^ S d - a ^ S d) / zq (Z.of_nat (S d)).

Lemma mid_r n j : mid n j + wid n = a + zq (Z.of_nat (S j)) * ((1 + 1) * wid n).
Proof. unfold mid. replace (2 * Z.of_nat j + 1)%Z with (2 * Z.of_nat (S j) + (-1))%Z by lia. rewrite zq_add, zq_mul, zq_2. replace (zq (-1)) with (- (1)) by (apply Qc_is_canon; reflexivity). ring. Qed.
Lemma mid_l n j : mid n j - wid n = a + zq (Z.of_nat j) * ((1 + 1) * wid n).
Proof. unfold mid. rewrite zq_add, zq_mul, zq_2, zq_1. ring. Qed.
Lemma wid_n n : (0 < n)%nat -> zq (Z.of_nat n) * ((1 + 1) * wid n) = b - a.
Proof. intro H. unfold wid. rewrite zq_mul, zq_2. field. split; [apply zq_nz; lia|discriminate]. Qed.

(* sum over the panels of a difference *)
Lemma panels d n : (0 < n)%nat -> sumn n (fun j => (mid n j + wid n) ^ d - (mid n j - wid n) ^ d) = b ^ d - a ^ d.
Proof.
  intro H. pose (F := fun j : nat => (a + zq (Z.of_nat j) * ((1 + 1) * wid n)) ^ d).
  transitivity (sumn n (fun j => F (S j) - F j)).
  { apply sumn_ext. intros j Hj. unfold F. rewrite mid_r, mid_l. auto. }
  rewrite sumn_tele. unfold F. rewrite wid_n by auto. cbn [Z.of_nat]. rewrite zq_0. f_equal; [f_equal; ring|f_equal; f_equal; ring].
Qed.

Lemma binom_pm d y w (s : Qc) : (y + w) ^ d + s * (y - w) ^ d = sumn (S d) (fun k => bq d k * (w ^ k + s * (- w) ^ k) * y ^ (d - k)).
Proof.
  replace (y + w) with (w + y) by ring. replace (y - w) with (- w + y) by ring. rewrite <- !binomial_theorem.
  rewrite <- sumn_scale, <- sumn_add. apply sumn_ext. intros; ring.
Qed.

Lemma odd_sum d n : (0 < n)%nat ->
  b ^ S d - a ^ S d = sumn (S (S d)) (fun k => bq (S d) k * ((wid n ^ k - (- wid n) ^ k) * sumn n (fun j => mid n j ^ (S d - k)))).
Proof.
  intro H. rewrite <- (panels (S d) n H).
  rewrite (sumn_ext n _ (fun j => sumn (S (S d)) (fun k => bq (S d) k * (wid n ^ k + - (1) * (- wid n) ^ k) * mid n j ^ (S d - k)))).
  2:{ intros j Hj. rewrite <- binom_pm. ring. }
  rewrite sumn_swap. apply sumn_ext. intros k Hk. rewrite sumn_scale. ring.
Qed.

Lemma msum_ev : forall d, isev X (d / 2) (intd d) (msum d).
Proof.
  induction d as [d IH] using lt_wf_ind.
  assert (N0 : zq (Z.of_nat (S d)) <> 0) by (apply zq_nz; lia).
  set (N := zq (Z.of_nat (S d))) in *.
  (* the other odd terms *)
  set (R := fun n => sumn d (fun i => bq (S d) (S (S i)) * ((wid n ^ S (S i) - (- wid n) ^ S (S i)) * sumn n (fun j => mid n j ^ (S d - S (S i)))))).
  apply (isev_ext X _ _ (fun n => intd d + - (1 / N) * R n)).
  - intros n Hn. unfold intd. fold N. rewrite (odd_sum d n Hn). rewrite sumn_first, sumn_first. fold (R n).
    cbn [Qcpower]. rewrite bq_0. replace (bq (S d) 1) with N.
    2:{ unfold N. clear. induction d as [|d IH]; [apply Qc_is_canon; reflexivity|]. rewrite bq_S, bq_0, <- IH. rewrite <- zq_1, <- zq_add. f_equal. lia. }
    replace (S d - 1)%nat with d by lia. unfold msum. rewrite sumn_scale. field. auto.
  - replace (intd d) with (intd d + - (1 / N) * sumn d (fun _ => 0)) at 1 by (rewrite sumn_zero by auto; ring).
    apply isev_add; [apply isev_const|]. apply isev_scale. unfold R. apply isev_sum. intros i Hi.
    destruct (Nat.Even_or_Odd i) as [[k ->]|[k ->]].
    + apply (isev_ext X _ _ (fun _ => 0)); [|apply isev_const]. intros n Hn.
      replace (S (S (2 * k))) with (2 * S k)%nat by lia. rewrite pow_neg_even, pow_even. ring.
    + apply isev_scale0.
      apply (isev_ext X _ _ (fun n => X n ^ S k * msum (d - 2 * S k) n)).
      * intros n Hn. replace (S (S (2 * k + 1))) with (S (2 * S k)) by lia. rewrite (pow_S (wid n) (2 * S k)), (pow_S (- wid n) (2 * S k)), pow_neg_even, pow_even.
        replace (S d - S (2 * S k))%nat with (d - 2 * S k)%nat by lia. unfold msum. rewrite sumn_scale. unfold X. ring.
      * apply (isev_mono X (S k + (d - 2 * S k) / 2)).
        -- replace d with ((d - 2 * S k) + S k * 2)%nat at 2 by lia. rewrite Nat.div_add by lia. lia.
        -- apply (isev_pow X (S k) _ (intd (d - 2 * S k))); [lia|]. apply IH. lia.
Qed.

Definition trapd (d n : nat) : Qc := trapezoid (fun x => x ^ d) a b n.
Lemma trapd_mid (f : Qc -> Qc) n : (0 < n)%nat ->
  trapezoid f a b n = sumn n (fun j => wid n * (f (mid n j + wid n) + f (mid n j - wid n))).
Proof.
  intro H. unfold trapezoid. apply sumn_ext. intros j Hj. rewrite mid_r, mid_l.
  assert (E : (b - a) / zq (Z.of_nat n) = (1 + 1) * wid n). { unfold wid. rewrite zq_mul, zq_2. field. split; first [discriminate|apply zq_nz; lia]. }
  rewrite E, zq_2. field. discriminate.
Qed.
Lemma trapd_ev d : isev X (d / 2) (intd d) (trapd d).
Proof.
  apply (isev_ext X _ _ (fun n => sumn (S d) (fun k => bq d k * ((wid n ^ k + (- wid n) ^ k) * (wid n * sumn n (fun j => mid n j ^ (d - k))))))).
  - intros n Hn. unfold trapd. rewrite trapd_mid by auto. rewrite sumn_scale.
    rewrite (sumn_ext n (fun i => (mid n i + wid n) ^ d + (mid n i - wid n) ^ d) (fun j => sumn (S d) (fun k => bq d k * (wid n ^ k + 1 * (- wid n) ^ k) * mid n j ^ (d - k)))).
    2:{ intros j Hj. rewrite <- binom_pm. ring. }
    rewrite sumn_swap, <- sumn_scale. apply sumn_ext. intros k Hk. rewrite sumn_scale. ring.
  - replace (intd d) with (sumn (S d) (fun k => match k with O => intd d | _ => 0 end)).
    2:{ rewrite sumn_first, sumn_zero by auto. ring. }
    apply isev_sum. intros i Hi. destruct i as [|i].
    + apply (isev_ext X _ _ (msum d)); [|apply msum_ev]. intros n Hn. unfold msum. rewrite sumn_scale, bq_0, Nat.sub_0_r. cbn [Qcpower]. ring.
    + destruct (Nat.Even_or_Odd (S i)) as [[k E]|[k E]]; rewrite E.
      * apply isev_scale0.
        apply (isev_ext X _ _ (fun n => X n ^ k * msum (d - 2 * k) n)).
        -- intros n Hn. rewrite pow_neg_even, pow_even. unfold msum. rewrite sumn_scale. unfold X. ring.
        -- apply (isev_mono X (k + (d - 2 * k) / 2)).
           ++ replace d with ((d - 2 * k) + k * 2)%nat at 2 by lia. rewrite Nat.div_add by lia. lia.
           ++ apply (isev_pow X k _ (intd (d - 2 * k))); [lia|apply msum_ev].
      * apply (isev_ext X _ _ (fun _ => 0)); [|apply isev_const]. intros n Hn.
        replace (2 * k + 1)%nat with (S (2 * k)) by lia. rewrite (pow_S (wid n) (2 * k)), (pow_S (- wid n) (2 * k)), pow_neg_even, pow_even. ring.
Qed.

(* polynomials *)
Fixpoint pat (cs : list Qc) (k : nat) (x : Qc) : Qc := match cs with [] => 0 | c :: r => c * x ^ k + pat r (S k) x end.
Lemma pat_poly cs : forall k x, pat cs k x = x ^ k * poly_at cs x.
Proof. induction cs as [|c r IH]; intros k x; cbn [pat poly_at]; [ring|]. rewrite IH, pow_S. ring. Qed.
Lemma trapezoid_add f g n : trapezoid (fun x => f x + g x) a b n = trapezoid f a b n + trapezoid g a b n.
Proof. unfold trapezoid. cbv zeta. rewrite <- sumn_add. apply sumn_ext. intros. rewrite zq_2. generalize ((b - a) / zq (Z.of_nat n)); intro h. field. discriminate. Qed.
Lemma trapezoid_scale f c n : trapezoid (fun x => c * f x) a b n = c * trapezoid f a b n.
Proof. unfold trapezoid. cbv zeta. rewrite <- sumn_scale. apply sumn_ext. intros. rewrite zq_2. generalize ((b - a) / zq (Z.of_nat n)); intro h. field. discriminate. Qed.
Lemma trapezoid_zero n : trapezoid (fun _ => 0) a b n = 0.
Proof. unfold trapezoid. apply sumn_zero. intros. rewrite zq_2. generalize ((b - a) / zq (Z.of_nat n)); intro h. field. discriminate. Qed.
Lemma trapezoid_ext f g n : (forall x, f x = g x) -> trapezoid f a b n = trapezoid g a b n.
Proof. intro H. unfold trapezoid. apply sumn_ext. intros. now rewrite !H. Qed.

Lemma pat_ev cs : forall k m, (k + length cs <= 2 * S m)%nat ->
  isev X m (poly_prim cs k b - poly_prim cs k a) (fun n => trapezoid (pat cs k) a b n).
Proof.
  induction cs as [|c r IH]; intros k m H; cbn [poly_prim pat length] in *.
  - replace (0 - 0) with (0:Qc) by ring. apply (isev_ext X _ _ (fun _ => 0)); [intros; symmetry; apply trapezoid_zero|apply isev_const].
  - replace (c / zq (Z.of_nat (S k)) * b ^ S k + poly_prim r (S k) b - (c / zq (Z.of_nat (S k)) * a ^ S k + poly_prim r (S k) a))
      with (c * intd k + (poly_prim r (S k) b - poly_prim r (S k) a)) by (unfold intd; field; apply zq_nz; lia).
    apply (isev_ext X _ _ (fun n => c * trapd k n + trapezoid (pat r (S k)) a b n)).
    { intros n Hn. rewrite trapezoid_add. f_equal. unfold trapd. now rewrite <- trapezoid_scale. }
    apply isev_add; [|apply IH; lia]. apply isev_scale. apply (isev_mono X (k / 2)); [|apply trapd_ev].
    assert (k / 2 < S m)%nat by (apply Nat.div_lt_upper_bound; lia). lia.
Qed.
Lemma poly_ev cs m : (length cs <= 2 * S m)%nat -> isev X m (poly_integral cs a b) (fun n => trapezoid (poly_at cs) a b n).
Proof.
  intro H. apply (isev_ext X _ _ (fun n => trapezoid (pat cs 0) a b n)); [|apply pat_ev; auto].
  intros n Hn. apply trapezoid_ext. intro x. rewrite pat_poly. cbn [Qcpower]. ring.
Qed.
End Trap.
