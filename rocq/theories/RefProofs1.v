(* Inserting one knot by Boehm's rule keeps every column. *)
From Coq Require Import List ZArith Lia Bool QArith Qcanon Permutation.
From Verif Require Import Common ListLib QcLib ArrZ SplineTheory NurbsModel NurbsSpec NurbsProofs NurbsProofs2 NurbsEditModel NurbsEditSpec NurbsInsert NurbsEditProofs.
Import ListNotations.
Local Open Scope Z_scope.
Local Open Scope Qc_scope.

Lemma one_after_valid p n U u i V : valid_knots p n U -> (p <= i <= n)%Z -> knot U i <= u -> u <= knot U (i + 1) -> u < knot U (n + 1) ->
  kv_after U u i 1 V -> valid_knots p (n + 1) V.
Proof.
  intros [Hp [LU [M N]]] Hs H1 H2 H3 [LV [A [B C]]].
  assert (Lo : forall k, (0 <= k <= i)%Z -> knot U k <= u). { intros. eapply Qcle_trans; [apply M|apply H1]; lia. }
  assert (Hi : forall k, (i < k < lenZ U)%Z -> u <= knot U k). { intros. eapply Qcle_trans; [apply H2|apply M]; lia. }
  split; [lia|]. split; [lia|]. split.
  - intros k j Hi0 Hij Hj. rewrite LV in Hj.
    destruct (Z_le_dec j i). { rewrite !A by lia. apply M; lia. }
    destruct (Z_le_dec j (i + 1)).
    { rewrite (B j) by lia. destruct (Z_le_dec k i). rewrite A by lia. apply Lo; lia. rewrite B by lia. apply Qcle_refl. }
    rewrite (C j) by lia. destruct (Z_le_dec k i). { rewrite A by lia. apply M; lia. }
    destruct (Z_le_dec k (i + 1)). { rewrite B by lia. apply Hi; lia. }
    rewrite C by lia. apply M; lia.
  - rewrite (C (n + 1 + 1)%Z) by lia. replace (n + 1 + 1 - 1)%Z with (n + 1)%Z by lia.
    destruct (Z.eq_dec i n) as [->|].
    + rewrite B by lia. auto.
    + rewrite C by lia. replace (n + 1 - 1)%Z with n by lia. auto.
Qed.

Lemma one_span p n U u i V t sn : valid_knots p n U -> (p <= i <= n)%Z -> knot U i <= u -> u <= knot U (i + 1) -> u < knot U (n + 1) ->
  kv_after U u i 1 V -> span_of p (n + 1) V t sn ->
  exists so, span_of p n U t so /\ (((sn <= i)%Z /\ so = sn) \/ ((i + 1 <= sn)%Z /\ so = (sn - 1)%Z)).
Proof.
  intros VU Hs H1 H2 H3 KV S. pose proof VU as [Hp [LU [M N]]]. pose proof (one_after_valid p n U u i V VU Hs H1 H2 H3 KV) as VV.
  pose proof KV as [LV [A [B C]]]. pose proof (span_of_pos p (n+1) V t sn VV S) as Pos. pose proof S as [S1 [S2 S3]].
  assert (Top : knot V (n + 1 + 1) = knot U (n + 1)). { rewrite C by lia. f_equal. lia. }
  rewrite Top in *.
  destruct (Z_le_dec sn i) as [L|L].
  - exists sn. split; [|left; auto]. split; [lia|]. split.
    + intro X. destruct (S2 X) as [T1 T2]. rewrite A in T1 by lia. split; auto.
      destruct (Z.eq_dec sn i) as [->|].
      * rewrite B in T2 by lia. qlra.
      * rewrite A in T2 by lia. auto.
    + intro X. apply S3 in X. lia.
  - exists (sn - 1)%Z. split; [|right; split; [lia|auto]]. split; [lia|]. split.
    + intro X. destruct (S2 X) as [T1 T2]. rewrite C in T2 by lia. replace (sn + 1 - 1)%Z with (sn - 1 + 1)%Z in T2 by lia. split; auto.
      destruct (Z.eq_dec sn (i + 1)) as [->|].
      * replace (i + 1 - 1)%Z with i by lia. rewrite B in T1 by lia. qlra.
      * rewrite C in T1 by lia. auto.
    + intro X. apply S3 in X. lia.
Qed.

(* the rows after the insertion of u behind knot i *)
Definition boehm_rows (p i : Z) (U : list Qc) (P : list pt) (u : Qc) (R : list pt) : Prop :=
  (forall m, (0 <= m <= i - p)%Z -> ctrl R m = ctrl P m) /\
  (forall m, (i - p < m <= i)%Z -> ctrl R m = if qeq (knot U (m + p)) u then ctrl P m else
      lerp ((knot U (m + p) - u) / (knot U (m + p) - knot U m)) (ctrl P (m - 1)) (ctrl P m)) /\
  (forall m, (i < m <= lenZ P)%Z -> ctrl R m = ctrl P (m - 1)).

Lemma boehm_keeps p n U u i V P R f t : valid_knots p n U -> (p <= i <= n)%Z -> knot U i <= u -> u <= knot U (i + 1) -> u < knot U (n + 1) ->
  kv_after U u i 1 V -> lenZ P = (n + 1)%Z -> boehm_rows p i U P u R -> coord f -> knot U p <= t ->
  sum_to (n + 1) (fun m => cox_de_boor V (n + 1) (Z.to_nat p) m t * f (ctrl R m))
  = sum_to n (fun m => cox_de_boor U n (Z.to_nat p) m t * f (ctrl P m)).
Proof.
  intros VU Hs H1 H2 H3 KV LP (RA & RB & RC) Cf Ht. pose proof VU as [Hp [LU [M N]]].
  pose proof (one_after_valid p n U u i V VU Hs H1 H2 H3 KV) as VV. pose proof KV as [LV [A [B C]]].
  assert (Ht' : knot V p <= t) by (rewrite A by lia; auto).
  destruct (find_span_span_of p (n + 1) V t VV Ht') as [sn [_ SN]].
  destruct (one_span p n U u i V t sn VU Hs H1 H2 H3 KV SN) as [so [SO Hc]].
  rewrite (cdb_sum_chain p (n+1) V t sn _ VV SN), (cdb_sum_chain p n U t so _ VU SO).
  pose proof (span_ndg p n U t so VU SO) as Nd. set (d := fun m => f (ctrl P m)). set (pn := Z.to_nat p).
  pose proof (chain_blossom (knot U) so pn d Nd) as BL. pose proof BL as [Sy _].
  rewrite (blossom_chain pn (fun ts => chain (knot U) so ts d) (knot V) sn) with (rest := []).
  { rewrite app_nil_r. reflexivity. }
  { exact BL. }
  { apply (span_ndg p (n+1) V t); auto. }
  { rewrite repeat_length. simpl. unfold pn. lia. }
  intros m Hm. rewrite repeat_length in *. rewrite app_nil_r. fold pn.
  pose proof SN as [SN1 _]. pose proof SO as [SO1 _]. unfold pn in Hm. rewrite Z2Nat.id in Hm by lia.
  destruct (Z_le_dec m (i - p)) as [L1|L1]; [|destruct (Z_le_dec m i) as [L2|L2]].
  - (* left *)
    rewrite (kn_ext (knot V) (knot U) pn m m). 2:{ intros k Hk. apply A. unfold pn in Hk. lia. }
    rewrite chain_dual by (auto; unfold pn; lia). unfold d. rewrite RA by lia. auto.
  - (* blended *)
    assert (W : (so - p <= m - 1)%Z /\ (m <= so)%Z) by (destruct Hc as [[Q1 Q2]|[Q1 Q2]]; lia).
    assert (NE : knot U m < knot U (m + p)).
    { pose proof (span_of_pos p n U t so VU SO). assert (knot U m <= knot U so) by (apply M; lia). assert (knot U (so + 1) <= knot U (m + p)) by (apply M; lia). qlra. }
    set (a := Z.to_nat (i - m)). set (b := Z.to_nat (m + p - 1 - i)).
    assert (E1 : kn (knot V) m pn = kn (knot U) m a ++ [u] ++ kn (knot U) i b).
    { replace pn with (a + (1 + b))%nat by (unfold pn, a, b; lia). rewrite kn_app, kn_app. f_equal; [|f_equal].
      - apply kn_ext. intros k Hk. apply A. unfold a in Hk. lia.
      - cbn [kn]. f_equal. apply B. unfold a. lia.
      - apply kn_ext. intros k Hk. rewrite C by (unfold a, b in *; lia). f_equal. unfold a. lia. }
    assert (E2 : kn (knot U) m (pn - 1) = kn (knot U) m a ++ kn (knot U) i b).
    { replace (pn - 1)%nat with (a + b)%nat by (unfold pn, a, b; lia). rewrite kn_app. do 2 f_equal. unfold a. lia. }
    assert (L : length (kn (knot U) m (pn - 1)) = Nat.pred pn) by (rewrite kn_length; unfold pn; lia).
    assert (E3 : chain (knot U) so (kn (knot V) m pn) d = chain (knot U) so (u :: kn (knot U) m (pn - 1)) d).
    { apply Sy; [apply kn_length|]. rewrite E1, E2. symmetry. apply Permutation_middle. }
    assert (E4 : chain (knot U) so (knot U (m + p) :: kn (knot U) m (pn - 1)) d = d m).
    { rewrite <- (chain_dual (knot U) so pn d m Nd) by (unfold pn; lia). apply Sy; [cbn [length]; rewrite kn_length; unfold pn; lia|].
      replace pn with (S (pn - 1)) at 2 by (unfold pn; lia). rewrite kn_snoc.
      replace (m + Z.of_nat (S (pn - 1)))%Z with (m + p)%Z by (unfold pn; lia). apply Permutation_cons_append. }
    assert (E5 : chain (knot U) so (knot U m :: kn (knot U) m (pn - 1)) d = d (m - 1)%Z).
    { rewrite <- (chain_dual (knot U) so pn d (m - 1) Nd) by (unfold pn; lia). f_equal.
      replace pn with (S (pn - 1)) at 2 by (unfold pn; lia). cbn [kn]. replace (m - 1 + 1)%Z with m by lia. auto. }
    cbv beta. rewrite E3. rewrite RB by lia.
    destruct (qeq (knot U (m + p)) u) eqn:QE.
    + apply qeq_true in QE. rewrite <- QE, E4. reflexivity.
    + rewrite Cf. rewrite <- (blossom_combine pn _ BL (knot U m) (knot U (m + p)) u _ L) by (intro X; rewrite X in NE; qlra).
      cbv beta. rewrite E4, E5. unfold d. field. intro X. assert (knot U (m + p) = knot U m) by qlra. rewrite H in NE. qlra.
  - (* right *)
    rewrite (kn_ext (knot V) (knot U) pn m (m - 1)).
    2:{ intros k Hk. unfold pn in Hk. rewrite C by lia. f_equal. lia. }
    rewrite chain_dual by (auto; unfold pn; lia). unfold d. rewrite RC by lia. auto.
Qed.
