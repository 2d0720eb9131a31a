(* Derivatives of products and quotients: Leibniz tables in one and two
   variables. *)
From Coq Require Import List ZArith Lia Bool QArith Qcanon Qcabs.
From Verif Require Import Common ListLib QcLib ArrZ SumLib DerivLib DerProofs1.
Import ListNotations.
Local Open Scope Qc_scope.

Lemma abs_nz (x : Qc) : x <> 0 -> 0 < Qcabs x.
Proof.
  intro H. pose proof (abs_pos x) as P. destruct (Qcle_lt_or_eq _ _ P) as [|Y]; auto. exfalso. apply H.
  assert (Z0 : Qcabs x <= 0) by (rewrite <- Y; apply Qcle_refl). apply abs_le in Z0. destruct Z0. apply Qcle_antisym; qlra.
Qed.

Lemma mul_le (a b c d : Qc) : 0 <= a -> a <= b -> 0 <= c -> c <= d -> a * c <= b * d.
Proof.
  intros H1 H2 H3 H4. apply Qcle_trans with (b * c); [apply Qcmult_le_compat_r; auto|].
  rewrite (Qcmult_comm b c), (Qcmult_comm b d). apply Qcmult_le_compat_r; auto. qlra.
Qed.

Lemma deriv_inv f t g : is_deriv f t g -> f t <> 0 -> is_deriv (fun x => / f x) t (- g / (f t * f t)).
Proof.
  intros [C [d [C0 [d0 H]]]] NZ. set (w := f t) in *. set (m := Qcabs w). set (G := Qcabs g).
  assert (Pm : 0 < m) by (apply abs_nz; auto). assert (PG : 0 <= G) by apply abs_pos.
  set (k := G + C * d + 1). assert (Cd : 0 <= C * d) by (apply qc_mul_nonneg; auto; apply Qclt_le_weak; auto).
  assert (Pk : 0 < k) by (unfold k; qlra).
  set (dd := DerivLib.qmin2 d (m / (k + k))). assert (Pdd : 0 < dd).
  { apply DerivLib.qmin2_pos; auto. apply qc_div_pos; auto. qlra. }
  pose proof (DerivLib.qmin2_l d (m / (k + k))) as M1. pose proof (DerivLib.qmin2_r d (m / (k + k))) as M2. fold dd in M1, M2.
  set (B := (m * C + G * G + G * (C * d)) * ((1 + 1) / m) * (/ (m * m))).
  assert (PB : 0 <= B).
  { unfold B. apply qc_mul_nonneg; [apply qc_mul_nonneg|].
    - assert (0 <= m * C) by (apply qc_mul_nonneg; auto; qlra). assert (0 <= G * G) by (apply qc_mul_nonneg; auto).
      assert (0 <= G * (C * d)) by (apply qc_mul_nonneg; auto). qlra.
    - apply Qclt_le_weak, qc_div_pos; auto. reflexivity.
    - apply Qclt_le_weak, qc_inv_pos, qc_mul_pos; auto. }
  exists B, dd. split; auto. split; auto. intros h Hh. specialize (H h (Qcle_trans _ _ _ Hh M1)). set (y := Qcabs h) in *. assert (Py : 0 <= y) by apply abs_pos.
  set (wh := f (t + h)) in *. set (e := wh - w - h * g) in *.
  assert (HH : h * h = y * y).
  { unfold y. rewrite <- abs_mul. pose proof (abs_self (h * h)) as [Y _]. apply Qcle_antisym; auto. apply abs_le. pose proof (abs_sq h). split; qlra. }
  rewrite HH in *. assert (Ye : Qcabs e <= y * (C * d)).
  { apply Qcle_trans with (C * (y * y)); auto. replace (C * (y * y)) with (y * (C * y)) by ring.
    apply mul_le; auto; try apply Qcle_refl. apply qc_mul_nonneg; auto. rewrite (Qcmult_comm C y), (Qcmult_comm C d). apply Qcmult_le_compat_r; auto. qlra. }
  assert (Dh : Qcabs (h * g + e) <= y * (G + C * d)).
  { eapply Qcle_trans; [apply Qcabs_triangle|]. rewrite abs_mul. fold y G. replace (y * (G + C * d)) with (y * G + y * (C * d)) by ring. qlra. }
  assert (HALF : y * (G + C * d) + y * (G + C * d) <= m).
  { assert (Q1 : y * k <= m / (k + k) * k) by (apply Qcmult_le_compat_r; qlra).
    assert (Q2 : m / (k + k) * k + m / (k + k) * k = m) by (field; intro X; clear - X Pk; qlra).
    assert (Q3 : y * (G + C * d) <= y * k).
    { apply mul_le; auto; try apply Qcle_refl. qlra. unfold k. qlra. }
    qlra. }
  assert (WH : wh = w + (h * g + e)) by (unfold e; ring).
  assert (Lw : m <= Qcabs wh + Qcabs wh).
  { assert (T : m <= Qcabs wh + Qcabs (h * g + e)).
    { unfold m. replace w with (wh + - (h * g + e)) by (rewrite WH; ring). eapply Qcle_trans; [apply Qcabs_triangle|]. rewrite Qcabs_opp. apply Qcle_refl. }
    qlra. }
  assert (NW : wh <> 0).
  { intro X. rewrite X in Lw. assert (Z0 : Qcabs 0 = 0) by (apply Qc_is_canon; reflexivity). rewrite Z0 in Lw. clear - Lw Pm. qlra. }
  set (r := / wh). assert (R1 : Qcabs r * Qcabs wh = 1). { rewrite <- abs_mul. replace (r * wh) with 1 by (unfold r; field; auto). apply Qc_is_canon; reflexivity. }
  assert (R2 : Qcabs r <= (1 + 1) / m).
  { assert (Qcabs r * m <= 1 + 1).
    { apply Qcle_trans with (Qcabs r * (Qcabs wh + Qcabs wh)); [apply mul_le; auto; try apply Qcle_refl; try apply abs_pos; qlra|].
      replace (Qcabs r * (Qcabs wh + Qcabs wh)) with (Qcabs r * Qcabs wh + Qcabs r * Qcabs wh) by ring. rewrite R1. apply Qcle_refl. }
    assert (E : Qcabs r = Qcabs r * m * / m) by (field; intro X; clear - X Pm; qlra).
    rewrite E. unfold Qcdiv. apply Qcmult_le_compat_r; auto. apply Qclt_le_weak, qc_inv_pos; auto. }
  change (Qcabs (/ wh - / w - h * (- g / (w * w))) <= B * (y * y)).
  replace (/ wh - / w - h * (- g / (w * w))) with ((- (w * e) + h * g * (h * g) + h * g * e) * r * / (w * w)).
  2:{ unfold r, e. field. auto. }
  rewrite !abs_mul.
  assert (IW : Qcabs (/ (w * w)) = / (m * m)).
  { assert (X : Qcabs (/ (w * w)) * (m * m) = 1).
    { unfold m. rewrite <- !abs_mul. replace (/ (w * w) * (w * w)) with 1 by (field; auto). apply Qc_is_canon; reflexivity. }
    assert (NM : m <> 0) by (intro Y; rewrite Y in Pm; discriminate Pm).
    transitivity (Qcabs (/ (w * w)) * (m * m) * / (m * m)); [field; auto|]. rewrite X. field. auto. }
  rewrite IW. unfold B.
  assert (NB : Qcabs (- (w * e) + h * g * (h * g) + h * g * e) <= (m * C + G * G + G * (C * d)) * (y * y)).
  { eapply Qcle_trans; [apply Qcabs_triangle|].
    assert (T1 : Qcabs (- (w * e) + h * g * (h * g)) <= m * Qcabs e + y * G * (y * G)).
    { eapply Qcle_trans; [apply Qcabs_triangle|]. rewrite Qcabs_opp, !abs_mul. apply Qcle_refl. }
    assert (T2 : Qcabs (h * g * e) = y * G * Qcabs e) by (rewrite !abs_mul; auto). rewrite T2.
    assert (T3 : m * Qcabs e <= m * (C * (y * y))) by (apply mul_le; auto; try apply Qcle_refl; try apply abs_pos; qlra).
    assert (T4 : y * G * Qcabs e <= y * G * (y * (C * d))) by (apply mul_le; auto; try apply Qcle_refl; try apply abs_pos; apply qc_mul_nonneg; auto).
    replace ((m * C + G * G + G * (C * d)) * (y * y)) with (m * (C * (y * y)) + y * G * (y * G) + y * G * (y * (C * d))) by ring. qlra. }
  replace ((m * C + G * G + G * (C * d)) * ((1 + 1) / m) * / (m * m) * (y * y))
    with ((m * C + G * G + G * (C * d)) * (y * y) * ((1 + 1) / m) * / (m * m)) by ring.
  apply Qcmult_le_compat_r; [|apply Qclt_le_weak, qc_inv_pos, qc_mul_pos; auto].
  apply mul_le; auto; apply abs_pos.
Qed.

Lemma deriv_sub f g t a b : is_deriv f t a -> is_deriv g t b -> is_deriv (fun x => f x - g x) t (a - b).
Proof.
  intros H1 H2. apply deriv_eq with (a := a + - (1) * b); [|ring].
  apply deriv_ext with (f := fun x => f x + - (1) * g x); [intro; ring|]. apply deriv_add; auto. apply deriv_scale; auto.
Qed.

Lemma deriv_div f g t a b : is_deriv f t a -> is_deriv g t b -> g t <> 0 ->
  is_deriv (fun x => f x / g x) t ((a - f t / g t * b) / g t).
Proof.
  intros H1 H2 NZ. apply deriv_eq with (a := a * / g t + f t * (- b / (g t * g t))); [|field; auto].
  exact (deriv_mul f (fun x => / g x) t a (- b / (g t * g t)) H1 (deriv_inv g t b H2 NZ)).
Qed.

(* a sequence of functions, each the derivative of the one before *)
Definition chain_on (D : Qc -> Prop) (c : nat -> Qc -> Qc) : Prop := forall k x, D x -> is_deriv (c k) x (c (S k) x).

Definition leib (a b : nat -> Qc -> Qc) (k : nat) (x : Qc) : Qc := sumn (S k) (fun i => bq k i * (a i x * b (k - i)%nat x)).

Lemma leib_alg (a b : nat -> Qc) k :
  sumn (S k) (fun i => bq k i * (a (S i) * b (k - i)%nat + a i * b (S (k - i)))) = sumn (S (S k)) (fun i => bq (S k) i * (a i * b (S k - i)%nat)).
Proof.
  rewrite (sumn_first (S k)). rewrite bq_0.
  rewrite (sumn_ext (S k) (fun i => bq (S k) (S i) * (a (S i) * b (S k - S i)%nat)) (fun i => bq k i * (a (S i) * b (k - i)%nat) + bq k (S i) * (a (S i) * b (k - i)%nat))).
  2:{ intros i Hi. cbn [Nat.sub]. rewrite bq_S. ring. }
  rewrite sumn_add.
  rewrite (sumn_ext (S k) (fun i => bq k i * (a (S i) * b (k - i)%nat + a i * b (S (k - i)))) (fun i => bq k i * (a (S i) * b (k - i)%nat) + bq k i * (a i * b (S (k - i))))).
  2:{ intros; ring. }
  rewrite sumn_add.
  assert (E : sumn (S k) (fun i => bq k i * (a i * b (S (k - i)))) = a 0%nat * b (S k) + sumn (S k) (fun i => bq k (S i) * (a (S i) * b (k - i)%nat))).
  { rewrite sumn_first, bq_0. rewrite (sumn_S k (fun i => bq k (S i) * _)). rewrite (bq_gt k (S k)) by lia.
    rewrite Nat.sub_0_r. rewrite (sumn_ext k (fun i => bq k (S i) * (a (S i) * b (S (k - S i)))) (fun i => bq k (S i) * (a (S i) * b (k - i)%nat))).
    - ring.
    - intros i Hi. replace (S (k - S i)) with (k - i)%nat by lia. auto. }
  rewrite E. rewrite Nat.sub_0_r. ring.
Qed.

Lemma leib_chain D a b : chain_on D a -> chain_on D b -> chain_on D (leib a b).
Proof.
  intros Ha Hb k x Dx. unfold leib.
  apply deriv_eq with (a := sumn (S k) (fun i => bq k i * (a (S i) x * b (k - i)%nat x + a i x * b (S (k - i)) x))); [|exact (leib_alg (fun i => a i x) (fun i => b i x) k)].
  apply (deriv_sumn (S k) (fun i x => bq k i * (a i x * b (k - i)%nat x))). intros i Hi.
  apply (deriv_scale (fun x => a i x * b (k - i)%nat x)). exact (deriv_mul (a i) (b (k - i)%nat) x _ _ (Ha i x Dx) (Hb (k - i)%nat x Dx)).
Qed.

(* the quotient of two sequences *)
Fixpoint qtab (a w : nat -> Qc -> Qc) (n : nat) (k : nat) (x : Qc) : Qc :=
  match n with
  | O => 0
  | S n' => if (k <? n')%nat then qtab a w n' k x
            else (a n' x - sumn n' (fun i => bq n' (S i) * (w (S i) x * qtab a w n' (n' - S i) x))) / w 0%nat x
  end.
Definition quot (a w : nat -> Qc -> Qc) (k : nat) (x : Qc) : Qc := qtab a w (S k) k x.

Lemma qtab_quot a w x : forall n k, (k < n)%nat -> qtab a w n k x = quot a w k x.
Proof.
  induction n as [|n IH]; intros k Hk; [lia|]. cbn [qtab]. destruct (Nat.ltb_spec k n); [apply IH; auto|].
  assert (k = n) by lia. subst k. unfold quot. cbn [qtab]. now rewrite Nat.ltb_irrefl.
Qed.
Lemma quot_eq a w k x : quot a w k x = (a k x - sumn k (fun i => bq k (S i) * (w (S i) x * quot a w (k - S i) x))) / w 0%nat x.
Proof.
  unfold quot at 1. cbn [qtab]. rewrite Nat.ltb_irrefl. f_equal. f_equal. apply sumn_ext. intros i Hi. rewrite qtab_quot by lia. auto.
Qed.
Lemma quot_leib a w k x : w 0%nat x <> 0 -> leib w (quot a w) k x = a k x.
Proof.
  intro NZ. unfold leib. rewrite sumn_first, bq_0, Nat.sub_0_r, (quot_eq a w k x). field. auto.
Qed.
Lemma quot_unique a w f x : w 0%nat x <> 0 -> (forall k, leib w f k x = a k x) -> forall k, f k x = quot a w k x.
Proof.
  intros NZ H. induction k as [k IH] using lt_wf_ind. rewrite quot_eq. rewrite <- (H k). unfold leib. rewrite sumn_first, bq_0, Nat.sub_0_r.
  rewrite (sumn_ext k _ (fun i => bq k (S i) * (w (S i) x * quot a w (k - S i) x))); [field; auto|].
  intros i Hi. rewrite IH by lia. auto.
Qed.

Lemma quot_chain D a w : chain_on D a -> chain_on D w -> (forall x, D x -> w 0%nat x <> 0) -> chain_on D (quot a w).
Proof.
  intros Ha Hw NZ k. induction k as [k IH] using lt_wf_ind. intros x Dx.
  set (r := fun x => a k x - sumn k (fun i => bq k (S i) * (w (S i) x * quot a w (k - S i) x))).
  apply deriv_ext with (f := fun x => r x / w 0%nat x); [intro; symmetry; apply quot_eq|].
  set (r' := a (S k) x - sumn k (fun i => bq k (S i) * (w (S (S i)) x * quot a w (k - S i) x + w (S i) x * quot a w (S (k - S i)) x))).
  apply deriv_eq with (a := (r' - r x / w 0%nat x * w 1%nat x) / w 0%nat x).
  - apply deriv_div; auto. apply (deriv_sub (a k)); auto.
    apply (deriv_sumn k (fun i x => bq k (S i) * (w (S i) x * quot a w (k - S i) x))). intros i Hi.
    apply (deriv_scale (fun x => w (S i) x * quot a w (k - S i) x)).
    exact (deriv_mul (w (S i)) (quot a w (k - S i)) x _ _ (Hw (S i) x Dx) (IH (k - S i)%nat ltac:(lia) x Dx)).
  - assert (E0 : r x / w 0%nat x = quot a w k x) by (symmetry; apply quot_eq). rewrite E0.
    pose proof (quot_leib a w (S k) x (NZ x Dx)) as L. unfold leib in L.
    rewrite <- (leib_alg (fun i => w i x) (fun i => quot a w i x) k) in L. rewrite sumn_first, bq_0, Nat.sub_0_r in L.
    unfold r'. rewrite <- L. field. auto.
Qed.

(* ---- two variables: tables A k l, each column a sequence in k ---- *)

Fixpoint ftab (A W : nat -> nat -> Qc -> Qc) (n : nat) (l : nat) : nat -> Qc -> Qc :=
  match n with
  | O => fun _ _ => 0
  | S n' => if (l <? n')%nat then ftab A W n' l
            else quot (fun k x => A k n' x - sumn n' (fun j => bq n' (S j) * leib (fun i => W i (S j)) (ftab A W n' (n' - S j)) k x)) (fun k => W k 0%nat)
  end.
Definition quot2 (A W : nat -> nat -> Qc -> Qc) (l : nat) : nat -> Qc -> Qc := ftab A W (S l) l.

Lemma leib_ext a b b' k x : (forall i, b i x = b' i x) -> leib a b k x = leib a b' k x.
Proof. intro H. unfold leib. apply sumn_ext. intros. now rewrite H. Qed.
Lemma quot_ext a a' w x : (forall k, a k x = a' k x) -> forall k, quot a w k x = quot a' w k x.
Proof.
  intro H. induction k as [k IH] using lt_wf_ind. rewrite !quot_eq, H. f_equal. f_equal. apply sumn_ext. intros. rewrite IH by lia. auto.
Qed.

Lemma ftab_quot2 A W : forall n l, (l < n)%nat -> ftab A W n l = quot2 A W l.
Proof.
  induction n as [|n IH]; intros l Hl; [lia|]. cbn [ftab]. destruct (Nat.ltb_spec l n); [apply IH; auto|].
  assert (l = n) by lia. subst l. unfold quot2. cbn [ftab]. now rewrite Nat.ltb_irrefl.
Qed.
Definition num2 (A W : nat -> nat -> Qc -> Qc) (l k : nat) (x : Qc) : Qc :=
  A k l x - sumn l (fun j => bq l (S j) * leib (fun i => W i (S j)) (quot2 A W (l - S j)) k x).
Lemma quot2_eq A W l k x : quot2 A W l k x = quot (num2 A W l) (fun k => W k 0%nat) k x.
Proof.
  unfold quot2. cbn [ftab]. rewrite Nat.ltb_irrefl. apply quot_ext. intro k'. unfold num2. f_equal. apply sumn_ext. intros j Hj.
  now rewrite ftab_quot2 by lia.
Qed.
Lemma quot2_chain D A W : (forall l, chain_on D (fun k => A k l)) -> (forall l, chain_on D (fun k => W k l)) ->
  (forall x, D x -> W 0%nat 0%nat x <> 0) -> forall l, chain_on D (quot2 A W l).
Proof.
  intros HA HW NZ l. induction l as [l IH] using lt_wf_ind.
  assert (CN : chain_on D (num2 A W l)).
  { intros k x Dx. unfold num2. apply (deriv_sub (A k l)); [apply (HA l k x Dx)|].
    apply (deriv_sumn l (fun j x => bq l (S j) * leib (fun i => W i (S j)) (quot2 A W (l - S j)) k x)). intros j Hj.
    apply (deriv_scale (fun x => leib (fun i => W i (S j)) (quot2 A W (l - S j)) k x)).
    apply (leib_chain D (fun i => W i (S j)) (quot2 A W (l - S j)) (HW (S j)) (IH (l - S j)%nat ltac:(lia)) k x Dx). }
  intros k x Dx. rewrite quot2_eq. apply deriv_ext with (f := quot (num2 A W l) (fun k => W k 0%nat) k); [intro; symmetry; apply quot2_eq|].
  apply (quot_chain D (num2 A W l) (fun k => W k 0%nat) CN (HW 0%nat) NZ k x Dx).
Qed.
(* the two-dimensional product rule *)
Lemma quot2_leib A W l k x : W 0%nat 0%nat x <> 0 ->
  sumn (S l) (fun j => bq l j * leib (fun i => W i j) (quot2 A W (l - j)) k x) = A k l x.
Proof.
  intro NZ. rewrite sumn_first, bq_0, Nat.sub_0_r.
  rewrite (leib_ext _ (quot2 A W l) (quot (num2 A W l) (fun k => W k 0%nat))) by (intro; apply quot2_eq).
  rewrite (quot_leib (num2 A W l) (fun k => W k 0%nat)) by auto. unfold num2. ring.
Qed.
(* ... determines the table *)
Lemma quot2_unique A W (F : nat -> nat -> Qc) n m x : W 0%nat 0%nat x <> 0 ->
  (forall k l, (k <= n)%nat -> (l <= m)%nat -> sumn (S l) (fun j => bq l j * sumn (S k) (fun i => bq k i * (W i j x * F (k - i)%nat (l - j)%nat))) = A k l x) ->
  forall l k, (l <= m)%nat -> (k <= n)%nat -> F k l = quot2 A W l k x.
Proof.
  intros NZ H. induction l as [l IHl] using lt_wf_ind. intro k. induction k as [k IHk] using lt_wf_ind. intros Hl Hk.
  pose proof (H k l Hk Hl) as E. pose proof (quot2_leib A W l k x NZ) as E'. rewrite <- E' in E. clear E'. unfold leib in E.
  rewrite !(sumn_first l) in E.
  rewrite (sumn_ext l _ (fun j => bq l (S j) * sumn (S k) (fun i => bq k i * (W i (S j) x * quot2 A W (l - S j) (k - i)%nat x)))) in E.
  2:{ intros j Hj. f_equal. apply sumn_ext. intros i Hi. rewrite IHl by lia. auto. }
  rewrite !bq_0, !Nat.sub_0_r in E. rewrite !(sumn_first k) in E. rewrite !bq_0, !Nat.sub_0_r in E.
  rewrite (sumn_ext k _ (fun i => bq k (S i) * (W (S i) 0%nat x * quot2 A W l (k - S i)%nat x))) in E.
  2:{ intros i Hi. rewrite IHk by lia. auto. }
  set (s1 := sumn k _) in E. set (s2 := sumn l _) in E.
  assert (E2 : W 0%nat 0%nat x * F k l = W 0%nat 0%nat x * quot2 A W l k x) by qlra.
  transitivity (W 0%nat 0%nat x * F k l / W 0%nat 0%nat x); [field; auto|]. rewrite E2. field. auto.
Qed.
