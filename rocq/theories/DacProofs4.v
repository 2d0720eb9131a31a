(* The sampling minimiser: proofs. *)
From Coq Require Import List Arith ZArith Bool QArith Qcanon Lia Lqa.
From Verif Require Import Common ListLib QcLib SumLib BezModel BezProofs BezProofs2 DacModel DacSpec DacProofs DacProofs2 DacProofs3.
Import ListNotations.
Open Scope Qc_scope.

Lemma q_abs_spec x : (0 <= x /\ q_abs x = x) \/ (x < 0 /\ q_abs x = - x).
Proof. unfold q_abs. destruct (qlt x 0) eqn:E; [apply qlt_true in E; right; auto|apply qlt_false in E; left; auto]. Qed.
Lemma q_abs_nonneg x : 0 <= q_abs x.
Proof. destruct (q_abs_spec x) as [[S ->]|[S ->]]; qlra. Qed.
Lemma linspace_get a b n i : (i < n)%nat -> getR (linspace a b n) i = Ok (lin a b n i).
Proof. intro L. unfold linspace. rewrite (getR_nth 0) by (rewrite tab_len; auto). rewrite nth_tab by auto. reflexivity. Qed.
Lemma linspace_get_out a b n i : (n <= i)%nat -> getR (linspace a b n) i = Err IndexError.
Proof. intro L. unfold getR. replace (nth_error (linspace a b n) i) with (@None Qc); auto. symmetry. apply nth_error_None. unfold linspace. rewrite tab_len. auto. Qed.
Lemma first_index_spec {A} (p : A -> bool) l : forall i, match first_index p l i with
   | None => forall x, In x l -> p x = false
   | Some j => (i <= j)%nat /\ exists x, nth_error l (j - i) = Some x /\ p x = true /\ forall k y, (k < j - i)%nat -> nth_error l k = Some y -> p y = false end.
Proof.
  induction l as [|x l IH]; intro i; cbn [first_index]; [intros ? []|]. destruct (p x) eqn:P.
  - split; auto. exists x. replace (i - i)%nat with 0%nat by lia. split; [reflexivity|]. split; auto. intros; lia.
  - specialize (IH (S i)). destruct (first_index p l (S i)) as [j|].
    + destruct IH as [L [y [E [Py M]]]]. split; [lia|]. exists y. replace (j - i)%nat with (S (j - S i)) by lia. split; auto. split; auto. intros [|k] z Lk Ez; [inversion Ez; subst; auto|]. apply (M k z); auto. lia.
    + intros z [->|I]; auto.
Qed.
Lemma list_min_spec l : forall m, (list_min m l = m \/ In (list_min m l) l) /\ list_min m l <= m /\ forall x, In x l -> list_min m l <= x.
Proof.
  induction l as [|y l IH]; intro m; cbn [list_min]; [split; [auto|]; split; [apply Qcle_refl|intros ? []]|]. destruct (IH (if qlt y m then y else m)) as [A [B C]]. destruct (qlt y m) eqn:Q.
  - apply qlt_true in Q. split; [destruct A as [A|A]; right; [left; auto|right; auto]|]. split; [qlra|]. intros x [->|I]; auto.
  - apply qlt_false in Q. split; [destruct A as [A|A]; [left; auto|right; right; auto]|]. split; auto. intros x [->|I]; auto. qlra.
Qed.
Lemma isclose_refl m : isclose m m = true.
Proof. unfold isclose. apply qle_true. assert (A := q_abs_nonneg m). replace (q_abs (m - m)) with (0 : Qc); [|replace (m - m) with (0 : Qc) by ring; vm_compute; apply Qc_is_canon; reflexivity]. qlra. Qed.
Lemma lin_gap a b n : (2 <= n)%nat -> q_abs (lin a b n 0 - lin a b n 1) = q_abs (b - a) / zq (Z.of_nat (n - 1)).
Proof.
  intro L. unfold lin. change (Z.of_nat 0) with 0%Z. change (Z.of_nat 1) with 1%Z. rewrite zq_0, zq_1.
  assert (P : 0 < zq (Z.of_nat (n - 1))) by (apply zq_pos; lia). set (w := zq _) in *. clearbody w.
  assert (NZ : w <> 0) by (intro X; rewrite X in P; qlra).
  replace (a + 0 * ((b - a) / w) - (a + 1 * ((b - a) / w))) with (- ((b - a) / w)) by ring.
  assert (I := qc_inv_pos w P). unfold Qcdiv. set (v := / w) in *. clearbody v. clear NZ P.
  destruct (q_abs_spec (b - a)) as [[S ->]|[S ->]]; destruct (q_abs_spec (- ((b - a) * v))) as [[T ->]|[T ->]]; qnra.
Qed.
Lemma lin_between a b n i lo hi : (2 <= n)%nat -> (i < n)%nat -> lo <= a -> a <= hi -> lo <= b -> b <= hi -> lo <= lin a b n i /\ lin a b n i <= hi.
Proof.
  intros L Li A1 A2 B1 B2. unfold lin. assert (P : 0 < zq (Z.of_nat (n - 1))) by (apply zq_pos; lia).
  assert (K : zq (Z.of_nat i) <= zq (Z.of_nat (n - 1))) by (apply zq_le; lia). assert (K0 : 0 <= zq (Z.of_nat i)) by (rewrite <- zq_0; apply zq_le; lia).
  set (w := zq (Z.of_nat (n - 1))) in *. set (k := zq (Z.of_nat i)) in *. clearbody w k.
  assert (NZ : w <> 0) by (intro X; rewrite X in P; qlra).
  assert (T0 : 0 <= k / w) by (apply qc_div_nonneg; auto). assert (T1 : k / w <= 1).
  { assert (E : k = k / w * w) by (field; auto). set (t := k / w) in *. clearbody t. destruct (Qclt_le_dec 1 t) as [C|C]; auto. exfalso. assert (0 < (t - 1) * w) by (apply qc_mul_pos; auto; qlra). qlra. }
  replace (a + k * ((b - a) / w)) with (a + (k / w) * (b - a)) by (field; auto). set (t := k / w) in *. clearbody t. 
  assert (0 <= t * (b - lo)) by (apply qc_mul_nonneg; auto; qlra). assert (0 <= (1 - t) * (a - lo)) by (apply qc_mul_nonneg; qlra).
  assert (0 <= t * (hi - b)) by (apply qc_mul_nonneg; auto; qlra). assert (0 <= (1 - t) * (hi - a)) by (apply qc_mul_nonneg; qlra). split; qlra.
Qed.
Lemma zq_sub a b : zq (a - b) = zq a - zq b.
Proof. unfold Z.sub. rewrite zq_add, zq_opp. reflexivity. Qed.
Lemma lin_shrink a b n i j : (4 <= n)%nat -> (Z.abs (Z.of_nat j - Z.of_nat i) <= Z.of_nat (n - 2))%Z ->
  q_abs (lin a b n j - lin a b n i) <= q_abs (b - a) * (zq (Z.of_nat (n - 2)) / zq (Z.of_nat (n - 1))).
Proof.
  intros L D. unfold lin. assert (P : 0 < zq (Z.of_nat (n - 1))) by (apply zq_pos; lia).
  assert (D1 : zq (Z.of_nat j) - zq (Z.of_nat i) <= zq (Z.of_nat (n - 2))) by (rewrite <- zq_sub; apply zq_le; lia).
  assert (D2 : - zq (Z.of_nat (n - 2)) <= zq (Z.of_nat j) - zq (Z.of_nat i)) by (rewrite <- zq_sub, <- zq_opp; apply zq_le; lia).
  set (w := zq (Z.of_nat (n - 1))) in *. set (kj := zq (Z.of_nat j)) in *. set (ki := zq (Z.of_nat i)) in *. set (c := zq (Z.of_nat (n - 2))) in *. clearbody w kj ki c.
  assert (I := qc_inv_pos w P). unfold Qcdiv. set (v := / w) in *. clearbody v.
  replace (a + kj * ((b - a) * v) - (a + ki * ((b - a) * v))) with ((kj - ki) * (b - a) * v) by ring. set (k := kj - ki) in *. clearbody k.
  replace (q_abs (b - a) * (c * v)) with (q_abs (b - a) * c * v) by ring.
  assert (B : - (q_abs (b - a) * c) <= k * (b - a) /\ k * (b - a) <= q_abs (b - a) * c).
  { destruct (q_abs_spec (b - a)) as [[S ->]|[S ->]]; set (d := b - a) in *; clearbody d.
    - assert (0 <= (c - k) * d) by (apply qc_mul_nonneg; auto; qlra). assert (0 <= (c + k) * d) by (apply qc_mul_nonneg; auto; qlra). split; qlra.
    - assert (0 <= (c - k) * (- d)) by (apply qc_mul_nonneg; qlra). assert (0 <= (c + k) * (- d)) by (apply qc_mul_nonneg; qlra). split; qlra. }
  destruct B as [B1 B2]. set (e := q_abs (b - a) * c) in *. set (z := k * (b - a)) in *. clearbody e z.
  assert (0 <= (e - z) * v) by (apply qc_mul_nonneg; qlra). assert (0 <= (e + z) * v) by (apply qc_mul_nonneg; qlra).
  destruct (q_abs_spec (z * v)) as [[S ->]|[S ->]]; qlra.
Qed.
Lemma map_lin_get (f : Qc -> Qc) a b n i : nth_error (map f (linspace a b n)) i = if (i <? n)%nat then Some (f (lin a b n i)) else None.
Proof.
  rewrite nth_error_map. destruct (i <? n)%nat eqn:E.
  - apply Nat.ltb_lt in E. assert (G := linspace_get a b n i E). unfold getR in G. destruct (nth_error (linspace a b n) i) as [x|]; [|discriminate]. inversion G. reflexivity.
  - apply Nat.ltb_ge in E. replace (nth_error (linspace a b n) i) with (@None Qc); auto. symmetry. apply nth_error_None. unfold linspace. rewrite tab_len. auto.
Qed.
(* the sample chosen *)
Lemma choice (f : Qc -> Qc) a b n : (2 <= n)%nat -> exists r0 rs i, map f (linspace a b n) = r0 :: rs /\ (i < n)%nat /\ first_index (fun x => isclose x (list_min r0 rs)) (r0 :: rs) 0 = Some i /\ isclose (f (lin a b n i)) (list_min r0 rs) = true /\ (forall k, (k < i)%nat -> isclose (f (lin a b n k)) (list_min r0 rs) = false) /\ (exists k, (k < n)%nat /\ list_min r0 rs = f (lin a b n k)) /\ (forall k, (k < n)%nat -> list_min r0 rs <= f (lin a b n k)).
Proof.
  intro L. destruct (map f (linspace a b n)) as [|r0 rs] eqn:E; [apply (f_equal (@length Qc)) in E; rewrite map_length in E; unfold linspace in E; rewrite tab_len in E; cbn in E; lia|].
  exists r0, rs. destruct (list_min_spec rs r0) as [M1 [M2 M3]].
  assert (IN : In (list_min r0 rs) (r0 :: rs)) by (destruct M1 as [->|M1]; [left; auto|right; auto]).
  assert (G : forall i, nth_error (r0 :: rs) i = if (i <? n)%nat then Some (f (lin a b n i)) else None) by (intro i; rewrite <- E; apply map_lin_get).
  assert (FI := first_index_spec (fun x => isclose x (list_min r0 rs)) (r0 :: rs) 0). destruct (first_index _ (r0 :: rs) 0) as [i|].
  - destruct FI as [_ [x [Ex [Px B]]]]. replace (i - 0)%nat with i in * by lia. rewrite G in Ex. destruct (i <? n)%nat eqn:Li; [|discriminate]. apply Nat.ltb_lt in Li. assert (Ex' : f (lin a b n i) = x) by congruence. rewrite <- Ex' in Px. exists i. split; auto. split; auto. split; auto. split; auto. split; [|split].
    + intros k Lk. apply (B k); auto. rewrite G. replace (k <? n)%nat with true; auto. symmetry. apply Nat.ltb_lt. lia.
    + apply In_nth_error in IN. destruct IN as [k Ek]. rewrite G in Ek. destruct (k <? n)%nat eqn:Lk; [|discriminate]. apply Nat.ltb_lt in Lk. exists k. split; auto. congruence.
    + intros k Lk. assert (Ek : nth_error (r0 :: rs) k = Some (f (lin a b n k))) by (rewrite G; replace (k <? n)%nat with true; auto; symmetry; apply Nat.ltb_lt; auto).
      apply nth_error_In in Ek. destruct Ek as [<-|I]; auto.
  - exfalso. specialize (FI _ IN). cbn beta in FI. rewrite isclose_refl in FI. discriminate.
Qed.
Lemma scalar_min_step f step n a b fuel : (2 <= n)%nat -> exists i, (i < n)%nat /\ scalar_min_1d (S fuel) f a b step n = if qle (q_abs (b - a) / zq (Z.of_nat (n - 1))) step then Ok (lin a b n i)
    else if (S i <? n)%nat then scalar_min_1d fuel f (lin a b n (last_index i n)) (lin a b n (S i)) step n else Err IndexError.
Proof.
  intro L. destruct (choice f a b n L) as [r0 [rs [i [E [Li [F _]]]]]]. exists i. split; auto. cbn [scalar_min_1d]. rewrite E. cbn zeta. rewrite F.
  rewrite !linspace_get by lia. cbn [bind]. rewrite lin_gap by lia. destruct (qle _ step); [reflexivity|].
  rewrite linspace_get by (unfold last_index; destruct i; lia). cbn [bind]. replace (i + 1)%nat with (S i) by lia. destruct (S i <? n)%nat eqn:Q.
  - apply Nat.ltb_lt in Q. rewrite linspace_get by auto. reflexivity.
  - apply Nat.ltb_ge in Q. rewrite linspace_get_out by auto. reflexivity.
Qed.
Lemma scalar_min_loop f step n lo hi : (4 <= n)%nat -> 0 < step -> forall k a b, lo <= a -> a <= hi -> lo <= b -> b <= hi -> q_abs (b - a) * (zq (Z.of_nat (n - 2)) / zq (Z.of_nat (n - 1))) ^ k <= step ->
  forall fuel, (k < fuel)%nat -> (exists x, scalar_min_1d fuel f a b step n = Ok x /\ lo <= x /\ x <= hi) \/ scalar_min_1d fuel f a b step n = Err IndexError.
Proof.
  intros L HS. assert (P : 1 <= zq (Z.of_nat (n - 1))) by (rewrite <- zq_1; apply zq_le; lia). assert (P0 : 0 < zq (Z.of_nat (n - 1))) by qlra. assert (IP := qc_inv_pos _ P0).
  assert (R0 : 0 <= zq (Z.of_nat (n - 2)) / zq (Z.of_nat (n - 1))) by (apply qc_div_nonneg; auto; rewrite <- zq_0; apply zq_le; lia).
  induction k as [|k IH]; intros a b A1 A2 B1 B2 W fuel F; (destruct fuel as [|fuel]; [lia|]); destruct (scalar_min_step f step n a b fuel ltac:(lia)) as [i [Li E]]; rewrite E; clear E.
  - assert (Q : qle (q_abs (b - a) / zq (Z.of_nat (n - 1))) step = true).
    { apply qle_true. cbn [Qcpower] in W. assert (N := q_abs_nonneg (b - a)). set (d := q_abs (b - a)) in *. set (w := zq (Z.of_nat (n - 1))) in *. clearbody d w.
      assert (NZ : w <> 0) by (intro X; rewrite X in P0; qlra). assert (E : d = d / w * w) by (field; auto). assert (0 <= d / w) by (apply qc_div_nonneg; auto). set (z := d / w) in *. clearbody z. assert (0 <= z * (w - 1)) by (apply qc_mul_nonneg; auto; qlra). qlra. }
    rewrite Q. left. eexists. split; [reflexivity|]. apply lin_between; auto; lia.
  - destruct (qle _ step); [left; eexists; split; [reflexivity|]; apply lin_between; auto; lia|]. destruct (S i <? n)%nat eqn:Q; [|right; auto]. apply Nat.ltb_lt in Q.
    assert (LI : (last_index i n < n)%nat) by (unfold last_index; destruct i; lia).
    destruct (lin_between a b n (last_index i n) lo hi ltac:(lia) LI A1 A2 B1 B2). destruct (lin_between a b n (S i) lo hi ltac:(lia) Q A1 A2 B1 B2).
    apply IH; auto; [|lia]. rewrite pow_S in W.
    assert (SH := lin_shrink a b n (last_index i n) (S i) L ltac:(unfold last_index; destruct i; lia)). set (r := zq (Z.of_nat (n - 2)) / zq (Z.of_nat (n - 1))) in *. clearbody r.
    assert (PN := pow_nonneg r k R0). set (p := r ^ k) in *. clearbody p. set (u := q_abs (lin a b n (S i) - lin a b n (last_index i n))) in *. clearbody u. assert (0 <= (q_abs (b - a) * r - u) * p) by (apply qc_mul_nonneg; auto; qlra). qlra.
Qed.
Lemma scalar_min_mon f step n : forall k m a b r, (k <= m)%nat -> scalar_min_1d k f a b step n = r -> r <> Err OutOfFuel -> scalar_min_1d m f a b step n = r.
Proof.
  induction k as [|k IH]; intros m a b r Lm E NO; [cbn in E; congruence|]. destruct m as [|m]; [lia|]. cbn [scalar_min_1d] in *. cbn zeta in *. destruct (map f (linspace a b n)) as [|r0 rs]; auto.
  destruct (first_index _ _ _) as [i|]; auto. destruct (getR _ 0); cbn [bind] in *; auto. destruct (getR _ 1); cbn [bind] in *; auto. destruct (qle _ _); auto.
  destruct (getR _ (last_index i n)); cbn [bind] in *; auto. destruct (getR _ (i + 1)); cbn [bind] in *; auto. apply IH; auto. lia.
Qed.
Lemma scalar_min_ok f a b step n : (4 <= n)%nat -> 0 < step -> a <= b -> exists k,
  (exists x, (forall fuel, (k < fuel)%nat -> scalar_min_1d fuel f a b step n = Ok x) /\ a <= x /\ x <= b) \/
  (forall fuel, (k < fuel)%nat -> scalar_min_1d fuel f a b step n = Err IndexError).
Proof.
  intros L HS LE. assert (P0 : 0 < zq (Z.of_nat (n - 1))) by (apply zq_pos; lia).
  assert (R0 : 0 <= zq (Z.of_nat (n - 2)) / zq (Z.of_nat (n - 1))) by (apply qc_div_nonneg; auto; rewrite <- zq_0; apply zq_le; lia).
  assert (R1 : zq (Z.of_nat (n - 2)) / zq (Z.of_nat (n - 1)) < 1).
  { assert (Z : zq (Z.of_nat (n - 2)) < zq (Z.of_nat (n - 1))) by (apply zq_lt; lia). set (c := zq (Z.of_nat (n - 2))) in *. set (w := zq (Z.of_nat (n - 1))) in *. clearbody c w.
    assert (NZ : w <> 0) by (intro X; rewrite X in P0; qlra). assert (E : c = c / w * w) by (field; auto). set (t := c / w) in *. clearbody t. destruct (Qclt_le_dec t 1) as [C|C]; auto. exfalso. assert (0 <= (t - 1) * w) by (apply qc_mul_nonneg; qlra). qlra. }
  destruct (shrinks (q_abs (b - a)) _ step R0 R1 HS) as [k W]. exists k.
  destruct (scalar_min_loop f step n a b L HS k a b (Qcle_refl _) LE LE (Qcle_refl _) (Qclt_le_weak _ _ W) (S k) ltac:(lia)) as [[x [E [X1 X2]]]|E].
  - left. exists x. split; auto. intros fuel F. apply (scalar_min_mon f step n (S k)); auto. discriminate.
  - right. intros fuel F. apply (scalar_min_mon f step n (S k)); auto. discriminate.
Qed.
Lemma scalar_min_last f a b step n fuel : (2 <= n)%nat -> step * zq (Z.of_nat (n - 1)) < b - a ->
  (forall k, (k < n - 1)%nat -> isclose (f (lin a b n k)) (f b) = false /\ f b <= f (lin a b n k)) ->
  scalar_min_1d (S fuel) f a b step n = Err IndexError.
Proof.
  intros L G H. assert (P0 : 0 < zq (Z.of_nat (n - 1))) by (apply zq_pos; lia).
  assert (LB : lin a b n (n - 1) = b). { unfold lin. set (w := zq (Z.of_nat (n - 1))) in *. clearbody w. field. intro X. rewrite X in P0. qlra. }
  destruct (choice f a b n L) as [r0 [rs [i [E [Li [F [C1 [C2 [[k [Lk Ek]] C3]]]]]]]]].
  assert (M : list_min r0 rs = f b).
  { destruct (Nat.eq_dec k (n - 1)) as [->|NE]; [rewrite Ek, LB; auto|]. destruct (H k ltac:(lia)) as [_ H2]. assert (A := C3 (n - 1)%nat ltac:(lia)). rewrite LB in A. apply Qcle_antisym; auto. rewrite Ek. auto. }
  assert (I : i = (n - 1)%nat). { destruct (Nat.eq_dec i (n - 1)) as [|NE]; auto. exfalso. destruct (H i ltac:(lia)) as [H1 _]. rewrite M in C1. congruence. }
  cbn [scalar_min_1d]. rewrite E. cbn zeta. rewrite F. rewrite !linspace_get by lia. cbn [bind]. rewrite lin_gap by lia.
  assert (Q : qle (q_abs (b - a) / zq (Z.of_nat (n - 1))) step = false).
  { apply qle_false. destruct (q_abs_spec (b - a)) as [[S ->]|[S ->]].
    - set (w := zq (Z.of_nat (n - 1))) in *. clearbody w. assert (NZ : w <> 0) by (intro X; rewrite X in P0; qlra). assert (E' : b - a = (b - a) / w * w) by (field; auto). set (t := (b - a) / w) in *. clearbody t.
      destruct (Qclt_le_dec step t) as [C|C]; auto. exfalso. assert (0 <= (step - t) * w) by (apply qc_mul_nonneg; qlra). qlra.
    - set (w := zq (Z.of_nat (n - 1))) in *. clearbody w. destruct (Qclt_le_dec step (- (b - a) / w)) as [C|C]; auto. exfalso. assert (0 <= - (b - a) / w) by (apply qc_div_nonneg; auto; qlra). assert (0 <= step) by qlra. assert (0 <= step * w) by (apply qc_mul_nonneg; qlra). qlra. }
  rewrite Q. rewrite linspace_get by (unfold last_index; destruct i; lia). cbn [bind]. rewrite linspace_get_out by lia. reflexivity.
Qed.
Lemma scalar_min_last2 f a b step n fuel : (2 <= n)%nat -> step * zq (Z.of_nat (n - 1)) < b - a ->
  (forall k, (k < n - 1)%nat -> Q2Qc (1 # 100000000) + Q2Qc (1 # 100000) * q_abs (f b) < f (lin a b n k) - f b) ->
  scalar_min_1d (S fuel) f a b step n = Err IndexError.
Proof.
  intros L G H. apply scalar_min_last; auto. intros k Lk. specialize (H k Lk). assert (A := q_abs_nonneg (f b)). split; [|qlra].
  unfold isclose. apply qle_false. rewrite (q_abs_pos (f (lin a b n k) - f b)) by qlra. auto.
Qed.
(* the smallest sample is the first: the window goes from the last sample to the second *)
Lemma lin_0 a b n : lin a b n 0 = a.
Proof. unfold lin. change (Z.of_nat 0) with 0%Z. rewrite zq_0. ring. Qed.
Lemma lin_last a b n : (2 <= n)%nat -> lin a b n (n - 1) = b.
Proof. intro L. assert (P0 : 0 < zq (Z.of_nat (n - 1))) by (apply zq_pos; lia). unfold lin. set (w := zq (Z.of_nat (n - 1))) in *. clearbody w. field. intro X. rewrite X in P0. qlra. Qed.
Lemma scalar_min_first f a b step n : (4 <= n)%nat -> 0 < step -> step * zq (Z.of_nat (n - 1)) < b - a ->
  (forall k, (k < n)%nat -> f a <= f (lin a b n k)) -> exists K,
  (exists x, (forall fuel, (K < fuel)%nat -> scalar_min_1d fuel f a b step n = Ok x) /\ lin a b n 1 <= x /\ x <= b) \/
  (forall fuel, (K < fuel)%nat -> scalar_min_1d fuel f a b step n = Err IndexError).
Proof.
  intros L HS G H. assert (P0 : 0 < zq (Z.of_nat (n - 1))) by (apply zq_pos; lia).
  assert (AB : a < b) by (assert (0 < step * zq (Z.of_nat (n - 1))) by (apply qc_mul_pos; auto); qlra).
  destruct (lin_between a b n 1 a b ltac:(lia) ltac:(lia) ltac:(qlra) ltac:(qlra) ltac:(qlra) ltac:(qlra)) as [U1 U2].
  assert (R0 : 0 <= zq (Z.of_nat (n - 2)) / zq (Z.of_nat (n - 1))) by (apply qc_div_nonneg; auto; rewrite <- zq_0; apply zq_le; lia).
  assert (R1 : zq (Z.of_nat (n - 2)) / zq (Z.of_nat (n - 1)) < 1).
  { assert (Z : zq (Z.of_nat (n - 2)) < zq (Z.of_nat (n - 1))) by (apply zq_lt; lia). set (c := zq (Z.of_nat (n - 2))) in *. set (w := zq (Z.of_nat (n - 1))) in *. clearbody c w.
    assert (NZ : w <> 0) by (intro X; rewrite X in P0; qlra). assert (E : c = c / w * w) by (field; auto). set (t := c / w) in *. clearbody t. destruct (Qclt_le_dec t 1) as [C|C]; auto. exfalso. assert (0 <= (t - 1) * w) by (apply qc_mul_nonneg; qlra). qlra. }
  assert (E : forall fuel, scalar_min_1d (S fuel) f a b step n = scalar_min_1d fuel f b (lin a b n 1) step n).
  { intro fuel. destruct (choice f a b n ltac:(lia)) as [r0 [rs [i [E [Li [F [C1 [C2 [[k [Lk Ek]] C3]]]]]]]]].
    assert (M : list_min r0 rs = f a) by (apply Qcle_antisym; [assert (A := C3 0%nat ltac:(lia)); rewrite lin_0 in A; auto|rewrite Ek; auto]).
    assert (I : i = 0%nat). { destruct i as [|i]; auto. exfalso. assert (A := C2 0%nat ltac:(lia)). rewrite lin_0, M, isclose_refl in A. discriminate. }
    cbn [scalar_min_1d]. rewrite E. cbn zeta. rewrite F. rewrite !linspace_get by lia. cbn [bind]. rewrite lin_gap by lia.
    assert (Q : qle (q_abs (b - a) / zq (Z.of_nat (n - 1))) step = false).
    { apply qle_false. rewrite q_abs_pos by qlra. set (w := zq (Z.of_nat (n - 1))) in *. clearbody w. assert (NZ : w <> 0) by (intro X; rewrite X in P0; qlra). assert (E' : b - a = (b - a) / w * w) by (field; auto). set (t := (b - a) / w) in *. clearbody t.
      destruct (Qclt_le_dec step t) as [C|C]; auto. exfalso. assert (0 <= (step - t) * w) by (apply qc_mul_nonneg; qlra). qlra. }
    rewrite Q, I. cbn [last_index Nat.add]. rewrite linspace_get by lia. cbn [bind]. rewrite linspace_get by lia. cbn [bind]. rewrite lin_last by lia. reflexivity. }
  destruct (shrinks (q_abs (lin a b n 1 - b)) _ step R0 R1 HS) as [k W]. exists (S k).
  destruct (scalar_min_loop f step n (lin a b n 1) b L HS k b (lin a b n 1) U2 (Qcle_refl _) (Qcle_refl _) U2 (Qclt_le_weak _ _ W) (S k) ltac:(lia)) as [[x [E2 [X1 X2]]]|E2].
  - left. exists x. split; auto. intros fuel F. destruct fuel as [|fuel]; [lia|]. rewrite E. apply (scalar_min_mon f step n (S k)); auto; [lia|discriminate].
  - right. intros fuel F. destruct fuel as [|fuel]; [lia|]. rewrite E. apply (scalar_min_mon f step n (S k)); auto; [lia|discriminate].
Qed.
