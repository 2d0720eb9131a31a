(* The loops of knot_refinement insert one knot after another by Boehm's rule. *)
From Coq Require Import List ZArith Lia Bool QArith Qcanon Permutation.
From Verif Require Import Common ListLib QcLib ArrZ SplineTheory NurbsModel NurbsSpec NurbsProofs NurbsProofs2 NurbsEditModel NurbsEditSpec NurbsInsert NurbsEditProofs RefModel RefSpec RefProofs1.
Import ListNotations.
Local Open Scope Z_scope.
Local Open Scope Qc_scope.

Definition tab {A} (len : Z) (g : Z -> A) : list A := map (fun i => g (Z.of_nat i)) (seq 0 (Z.to_nat len)).
Lemma tab_len {A} len (g : Z -> A) : (0 <= len)%Z -> lenZ (tab len g) = len.
Proof. intro H. unfold tab, lenZ. rewrite map_length, seq_length. lia. Qed.
Lemma tab_at {A} (d : A) len g i : (0 <= i < len)%Z -> atZ d (tab len g) i = g i.
Proof.
  intro H. unfold tab, atZ. rewrite (nth_indep _ d (g (Z.of_nat 0))) by (rewrite map_length, seq_length; lia).
  rewrite (map_nth (fun j => g (Z.of_nat j))). f_equal. rewrite seq_nth by lia. lia.
Qed.
Lemma knot_in U i : (0 <= i < lenZ U)%Z -> In (knot U i) U.
Proof. intro H. unfold knot, atZ. apply nth_In. unfold lenZ in H. lia. Qed.
Lemma rd_ctrl P i : (0 <= i < lenZ P)%Z -> rdZ P i = Ok (ctrl P i).
Proof. intro H. unfold ctrl. apply rdZ_ok. auto. Qed.
Lemma rdk U i : (0 <= i < lenZ U)%Z -> rdZ U i = Ok (knot U i).
Proof. intro H. unfold knot. apply rdZ_ok. auto. Qed.
Lemma qabs_0 : qabs 0 = 0. Proof. reflexivity. Qed.

Section Loop.
Variables (p n : Z) (U : list Qc) (P : list pt) (X : list Qc) (a : Z).
Hypothesis VU : valid_knots p n U.
Hypothesis LP : lenZ P = (n + 1)%Z.
Hypothesis Hp : (1 <= p)%Z.
Hypothesis Sep : forall x y, In x X -> In y (X ++ U) -> qabs (y - x) < ref_tol -> y = x.
Hypothesis Xs : forall i j, (0 <= i)%Z -> (i <= j)%Z -> (j < lenZ X)%Z -> knot X i <= knot X j.
Hypothesis Xin : forall i, (0 <= i < lenZ X)%Z -> knot U a <= knot X i /\ knot X i < knot U (n + 1).
Hypothesis Ha : (p <= a <= n)%Z.

Definition same_curve (nc : Z) (V : list Qc) (Pc : list pt) : Prop :=
  forall f t, coord f -> knot U p <= t ->
  sum_to nc (fun m => cox_de_boor V nc (Z.to_nat p) m t * f (ctrl Pc m)) = sum_to n (fun m => cox_de_boor U n (Z.to_nat p) m t * f (ctrl P m)).

Record Cur (c : Z) (V : list Qc) (Pc : list pt) : Prop := mkCur {
  c_valid : valid_knots p (n + (lenZ X - c)) V;
  c_len : lenZ Pc = (n + (lenZ X - c) + 1)%Z;
  c_perm : Permutation V (skipn (Z.to_nat c) X ++ U);
  c_same : same_curve (n + (lenZ X - c)) V Pc;
  c_top : knot V (n + (lenZ X - c) + 1) = knot U (n + 1) }.

Record Inv (c i k : Z) (kv : list Qc) (Q : list pt) (V : list Qc) (Pc : list pt) : Prop := mkInv {
  v_k : k = (i + c)%Z;
  v_i : (a <= i <= n + p)%Z;
  v_lkv : lenZ kv = (n + p + 2 + lenZ X)%Z;
  v_lQ : lenZ Q = (n + 1 + lenZ X)%Z;
  v_V : forall q, (0 <= q <= i)%Z -> knot V q = knot U q;
  v_kv : forall q, (i < q < n + p + 2 + (lenZ X - c))%Z -> knot kv (q + c) = knot V q;
  v_Pc : forall q, (0 <= q <= i - p)%Z -> ctrl Pc q = ctrl P q;
  v_Q : forall q, (i - p <= q < n + 1 + (lenZ X - c))%Z -> ctrl Q (q + c) = ctrl Pc q;
  v_kv0 : forall q, (0 <= q <= a)%Z -> knot kv q = knot U q;
  v_Q0 : forall q, (0 <= q <= a - p)%Z -> ctrl Q q = ctrl P q;
  v_ge : forall q, (1 <= c)%Z -> (i < q < n + p + 2 + (lenZ X - c))%Z -> knot X (c - 1) <= knot V q }.

Lemma shift_ok c V Pc : (1 <= c <= lenZ X)%Z -> lenZ V = (n + p + 2 + (lenZ X - c))%Z -> lenZ Pc = (n + (lenZ X - c) + 1)%Z -> forall fuel i k kv Q,
  Inv c i k kv Q V Pc -> (Z.to_nat (i - a) < fuel)%nat ->
  exists kv' Q' i' k', ref_shift fuel p a U P (knot X (c - 1)) kv Q i k = Ok (kv', Q', i', k') /\ Inv c i' k' kv' Q' V Pc /\
    (i' = a \/ knot U i' < knot X (c - 1)).
Proof.
  intros Hc LV LPc. pose proof VU as [Hpn [LU [M _]]]. induction fuel as [|fuel IH]; intros i k kv Q I Hf; [lia|].
  pose proof I as [K1 K2 K3 K4 K5 K6 K7 K8 K9 K10 K11]. cbn [ref_shift]. rewrite rdk by lia. cbn [bind].
  destruct (qle (knot X (c - 1)) (knot U i) && (a <? i)%Z) eqn:E.
  - apply andb_true_iff in E. destruct E as [E1 E2]. apply qle_true in E1. apply Z.ltb_lt in E2.
    rewrite rd_ctrl by lia. cbn [bind]. rewrite wrZ_ok by lia. cbn [bind]. rewrite wrZ_ok by lia. cbn [bind].
    apply IH; [|lia]. split.
    + lia.
    + lia.
    + rewrite lenZ_upd. auto.
    + rewrite lenZ_upd. auto.
    + intros q Hq. apply K5. lia.
    + intros q Hq. unfold knot. destruct (Z.eq_dec q i) as [->|Ne].
      * replace (i + c)%Z with k by lia. rewrite atZ_upd_eq by lia. change (atZ 0 V i) with (knot V i). rewrite K5 by lia. auto.
      * rewrite atZ_upd_neq by lia. apply K6. lia.
    + intros q Hq. apply K7. lia.
    + intros q Hq. unfold ctrl. destruct (Z.eq_dec q (i - p - 1)) as [->|Ne].
      * replace (i - p - 1 + c)%Z with (k - p - 1)%Z by lia. rewrite atZ_upd_eq by lia. change (atZ pt0 Pc (i - p - 1)) with (ctrl Pc (i - p - 1)). rewrite K7 by lia. auto.
      * rewrite atZ_upd_neq by lia. apply K8. lia.
    + intros q Hq. unfold knot. rewrite atZ_upd_neq by lia. apply K9. lia.
    + intros q Hq. unfold ctrl. destruct (Z.eq_dec q (k - p - 1)) as [->|Ne].
      * lia.
      * rewrite atZ_upd_neq by lia. apply K10. lia.
    + intros q H1 H2. destruct (Z.eq_dec q i) as [->|Ne]; [rewrite K5 by lia; auto|apply K11; lia].
  - exists kv, Q, i, k. split; [reflexivity|]. split; [exact I|]. apply andb_false_iff in E. destruct E as [E|E].
    + right. apply qle_false in E. auto.
    + left. apply Z.ltb_ge in E. lia.
Qed.

Definition boehm_at (i : Z) (V : list Qc) (Pc : list pt) (x : Qc) (m : Z) : pt :=
  if (m <=? i - p)%Z then ctrl Pc m else if (m <=? i)%Z then
    (if qeq (knot V (m + p)) x then ctrl Pc m else lerp ((knot V (m + p) - x) / (knot V (m + p) - knot V m)) (ctrl Pc (m - 1)) (ctrl Pc m))
  else ctrl Pc (m - 1).

Lemma insert_ok c V Pc i k kv Q : (1 <= c <= lenZ X)%Z -> Cur c V Pc -> Inv c i k kv Q V Pc -> (i = a \/ knot U i < knot X (c - 1)) ->
  exists V' Pc' kv' Q', Cur (c - 1) V' Pc' /\ Inv (c - 1) i (k - 1) kv' Q' V' Pc' /\
   (do q <- rdZ Q (k - p) ; do Q1 <- wrZ Q (k - p - 1) q ; do Q2 <- forZ 1 (p + 1) Q1 (ref_blend p U (knot X (c - 1)) kv i k) ; do kv1 <- wrZ kv k (knot X (c - 1)) ; Ok (kv1, Q2)) = Ok (kv', Q').
Proof.
  intros Hc C I Hx. pose proof VU as [Hpn [LU [M _]]]. set (x := knot X (c - 1)) in *.
  pose proof C as [VV LPc PM SM TP]. pose proof VV as [Hpn' [LV [MV _]]]. pose proof I as [K1 K2 K3 K4 K5 K6 K7 K8 K9 K10 K11].
  set (nc := (n + (lenZ X - c))%Z) in *.
  destruct (Xin (c - 1) ltac:(lia)) as (Xlo & Xhi). fold x in Xlo, Xhi.
  assert (Ui : knot U i <= x). { destruct Hx as [->|Hx]; [auto|apply Qclt_le_weak; auto]. }
  assert (Hin : (i <= n)%Z). { destruct (Z_le_gt_dec i n); auto. exfalso. assert (knot U (n + 1) <= knot U i) by (apply M; lia). qlra. }
  assert (Vi : knot V i <= x) by (rewrite K5 by lia; auto).
  assert (Vi1 : x <= knot V (i + 1)) by (apply K11; lia).
  assert (Vt : x < knot V (nc + 1)) by (rewrite TP; auto).
  assert (Hinc : (p <= i <= nc)%Z) by (unfold nc; lia).
  destruct (knot_insertion_kv_ok V x i 1 ltac:(lia) ltac:(lia)) as (V' & _ & KV). pose proof KV as [LV' [A [B D]]].
  set (Pc' := tab (nc + 2) (boehm_at i V Pc x)).
  assert (LPc' : lenZ Pc' = (nc + 2)%Z) by (apply tab_len; lia).
  assert (PA : forall m, (0 <= m < nc + 2)%Z -> ctrl Pc' m = boehm_at i V Pc x m) by (intros; apply tab_at; auto).
  assert (BR : boehm_rows p i V Pc x Pc').
  { split; [|split]; intros m Hm; rewrite PA by lia; unfold boehm_at.
    - destruct (Z.leb_spec m (i - p)); [auto|lia].
    - destruct (Z.leb_spec m (i - p)); [lia|]. destruct (Z.leb_spec m i); [auto|lia].
    - destruct (Z.leb_spec m (i - p)); [lia|]. destruct (Z.leb_spec m i); [lia|auto]. }
  assert (XI : In x X) by (apply knot_in; lia).
  assert (SEP : forall m, (0 <= m < lenZ V)%Z -> qlt (qabs (knot V m - x)) ref_tol = qeq (knot V m) x).
  { intros m Hm. destruct (qeq (knot V m) x) eqn:E.
    - apply qeq_true in E. rewrite E. replace (x - x) with 0 by ring. reflexivity.
    - destruct (qlt (qabs (knot V m - x)) ref_tol) eqn:E2; auto. apply qlt_true in E2. apply Sep in E2; auto.
      + rewrite E2 in E. assert (qeq x x = true) by (apply qeq_true; auto). congruence.
      + assert (IV : In (knot V m) V) by (apply knot_in; auto). apply (Permutation_in _ PM) in IV. apply in_app_or in IV. apply in_or_app.
        destruct IV as [IV|IV]; [left|right; auto]. apply in_skipn in IV || idtac. clear -IV. rewrite <- (firstn_skipn (Z.to_nat c) X). apply in_or_app. auto. }
  rewrite rd_ctrl by lia. cbn [bind]. rewrite wrZ_ok by lia. cbn [bind].
  set (Q1 := upd Q (Z.to_nat (k - p - 1)) (ctrl Q (k - p))).
  assert (LQ1 : lenZ Q1 = lenZ Q) by (apply lenZ_upd).
  destruct (forZ_inv (fun l R => lenZ R = lenZ Q /\ (forall y, (k - p - 1 <= y < k - p + l - 1)%Z -> ctrl R y = ctrl Pc' (y - (c - 1))) /\
     (forall y, (0 <= y < k - p - 1)%Z -> ctrl R y = ctrl Q y) /\ (forall y, (k - p + l - 1 <= y)%Z -> ctrl R y = ctrl Q y))
    (ref_blend p U x kv i k) 1 (p + 1) Q1) as (Q2 & EQ & LQ2 & R1 & R2 & R3).
  { lia. }
  { split; [auto|]. split; [|split].
    - intros y Hy. assert (y = (k - p - 1)%Z) by lia. subst y. unfold ctrl at 1, Q1. rewrite atZ_upd_eq by lia.
      replace (k - p)%Z with (i - p + c)%Z by lia. rewrite K8 by lia. destruct BR as [BR _]. rewrite BR by lia. f_equal. lia.
    - intros y Hy. unfold ctrl, Q1. rewrite atZ_upd_neq by lia. auto.
    - intros y Hy. unfold ctrl, Q1. rewrite atZ_upd_neq by lia. auto. }
  { intros l R Hl (LR & I1 & I2 & I3). unfold ref_blend. cbv zeta. set (m := (i - p + l)%Z).
    assert (Y : knot kv (k + l) = knot V (m + p)). { replace (k + l)%Z with (m + p + c)%Z by (unfold m; lia). apply K6. unfold m. lia. }
    rewrite rdk by lia. cbn [bind]. rewrite Y, SEP by (unfold m; lia).
    assert (MM : ctrl Pc' m = if qeq (knot V (m + p)) x then ctrl Pc m else lerp ((knot V (m + p) - x) / (knot V (m + p) - knot V m)) (ctrl Pc (m - 1)) (ctrl Pc m)).
    { destruct BR as [_ [BR _]]. apply BR. unfold m. lia. }
    assert (R0 : ctrl R (k - p + l - 1) = ctrl Pc (m - 1)). { rewrite I3 by lia. replace (k - p + l - 1)%Z with (m - 1 + c)%Z by (unfold m; lia). apply K8. unfold m. lia. }
    assert (R1 : ctrl R (k - p + l) = ctrl Pc m). { rewrite I3 by lia. replace (k - p + l)%Z with (m + c)%Z by (unfold m; lia). apply K8. unfold m. lia. }
    assert (FIN : forall v, v = ctrl Pc' m -> exists st', wrZ R (k - p + l - 1) v = Ok st' /\ lenZ st' = lenZ Q /\
       (forall y, (k - p - 1 <= y < k - p + (l + 1) - 1)%Z -> ctrl st' y = ctrl Pc' (y - (c - 1))) /\
       (forall y, (0 <= y < k - p - 1)%Z -> ctrl st' y = ctrl Q y) /\ (forall y, (k - p + (l + 1) - 1 <= y)%Z -> ctrl st' y = ctrl Q y)).
    { intros v ->. rewrite wrZ_ok by lia. eexists. split; [reflexivity|]. split; [rewrite lenZ_upd; auto|]. split; [|split]; intros y Hy.
      - destruct (Z.eq_dec y (k - p + l - 1)) as [->|Ne].
        + unfold ctrl at 1. rewrite atZ_upd_eq by lia. f_equal. unfold m. lia.
        + unfold ctrl at 1. rewrite atZ_upd_neq by lia. apply I1. lia.
      - unfold ctrl at 1. rewrite atZ_upd_neq by lia. apply I2. lia.
      - unfold ctrl at 1. rewrite atZ_upd_neq by lia. apply I3. lia. }
    destruct (qeq (knot V (m + p)) x) eqn:QE.
    - rewrite rd_ctrl by lia. cbn [bind]. rewrite R1. apply FIN. rewrite MM. auto.
    - rewrite rdk by lia. cbn [bind].
      assert (ZU : knot U m = knot V m) by (rewrite K5 by (unfold m; lia); auto). rewrite ZU.
      assert (GE : x <= knot V (m + p)) by (apply K11; unfold m; lia).
      assert (LE : knot V m <= x) by (eapply Qcle_trans; [apply (MV m i); unfold m; lia|auto]).
      assert (NE : knot V (m + p) <> x). { intro E. assert (qeq (knot V (m + p)) x = true) by (apply qeq_true; auto). congruence. }
      assert (NZ : knot V (m + p) - knot V m <> 0). { intro E. apply NE. qlra. }
      unfold divR. destruct (qeq (knot V (m + p) - knot V m) 0) eqn:QZ; [apply qeq_true in QZ; congruence|]. cbn [bind].
      rewrite !rd_ctrl by lia. cbn [bind]. rewrite R0, R1. apply FIN. rewrite MM. auto. }
  rewrite EQ. cbn [bind]. rewrite wrZ_ok by lia. cbn [bind].
  exists V', Pc', (upd kv (Z.to_nat k) x), Q2.
  assert (NC : (n + (lenZ X - (c - 1)) = nc + 1)%Z) by (unfold nc; lia).
  split; [|split; [|reflexivity]].
  - split; rewrite ?NC.
    + apply (one_after_valid p nc V x i V'); auto.
    + lia.
    + pose proof (kv_after_perm V x i 1 V') as KP. etransitivity; [apply KP; auto; lia|]. cbn [Z.to_nat Pos.to_nat repeat app].
      replace (Z.to_nat 1) with 1%nat by lia. cbn [repeat app].
      assert (SK : skipn (Z.to_nat (c - 1)) X = x :: skipn (Z.to_nat c) X).
      { unfold x, knot, atZ. replace (Z.to_nat c) with (S (Z.to_nat (c - 1))) by lia. assert (HL : (Z.to_nat (c - 1) < length X)%nat) by (unfold lenZ in Hc; lia).
        clear -HL. revert HL. generalize (Z.to_nat (c - 1)). clear. induction X as [|y l IH]; intros k HL; [cbn in HL; lia|]. destruct k; cbn; [auto|]. apply IH. cbn in HL. lia. }
      rewrite SK. cbn [app]. apply perm_skip. auto.
    + intros f t Cf Ht. rewrite (boehm_keeps p nc V x i V' Pc Pc' f t VV Hinc Vi Vi1 Vt KV); auto.
      rewrite K5 by lia. auto.
    + rewrite <- TP. rewrite D by lia. f_equal. lia.
  - split.
    + lia.
    + lia.
    + rewrite lenZ_upd. auto.
    + lia.
    + intros q Hq. rewrite A by lia. apply K5. lia.
    + intros q Hq. unfold knot at 1. destruct (Z.eq_dec q (i + 1)) as [->|Ne].
      * replace (i + 1 + (c - 1))%Z with k by lia. rewrite atZ_upd_eq by lia. rewrite B by lia. auto.
      * rewrite atZ_upd_neq by lia. replace (q + (c - 1))%Z with (q - 1 + c)%Z by lia. change (atZ 0 kv (q - 1 + c)) with (knot kv (q - 1 + c)). rewrite K6 by lia. rewrite D by lia. auto.
    + intros q Hq. destruct BR as [BR _]. rewrite BR by lia. apply K7. lia.
    + intros q Hq. destruct (Z_le_gt_dec q i) as [L|L].
      * rewrite R1 by lia. f_equal. lia.
      * rewrite R3 by lia. replace (q + (c - 1))%Z with (q - 1 + c)%Z by lia. rewrite K8 by lia. destruct BR as [_ [_ BR]]. rewrite BR by lia. auto.
    + intros q Hq. unfold knot. rewrite atZ_upd_neq by lia. apply K9. lia.
    + intros q Hq. destruct (Z_lt_le_dec q (k - p - 1)) as [L|L].
      * rewrite R2 by lia. apply K10. lia.
      * assert (Eq : q = (k - p - 1)%Z) by lia. rewrite R1 by lia. destruct BR as [BR _]. rewrite BR by lia. rewrite K7 by lia. f_equal. lia.
    + intros q H1 H2. assert (X1 : knot X (c - 1 - 1) <= x) by (apply Xs; lia).
      destruct (Z.eq_dec q (i + 1)) as [->|Ne]; [rewrite B by lia; auto|].
      rewrite D by lia. eapply Qcle_trans; [apply X1|]. apply K11; lia.
Qed.

Lemma loop_ok : forall c i k kv Q V Pc, (Z.of_nat c <= lenZ X)%Z -> Cur (Z.of_nat c) V Pc -> Inv (Z.of_nat c) i k kv Q V Pc ->
  (c = 0%nat -> i = a) -> (forall q, (a < q < n + p + 2)%Z -> knot X 0 <= knot U q) -> 
  exists V' Pc' kv' Q' k', ref_loop c p a U P X kv Q i k = Ok (kv', Q') /\ Cur 0 V' Pc' /\ Inv 0 a k' kv' Q' V' Pc'.
Proof.
  pose proof VU as [Hpn [LU [M _]]].
  induction c as [|c IH]; intros i k kv Q V Pc Hc C I Hi X0.
  - exists V, Pc, kv, Q, k. split; [reflexivity|]. split; [exact C|]. rewrite <- (Hi eq_refl). exact I.
  - cbn [ref_loop]. rewrite rdk by lia. cbn [bind]. replace (Z.of_nat c) with (Z.of_nat (S c) - 1)%Z by lia.
    pose proof C as [VV LPc _ _ _]. pose proof VV as [_ [LV _]].
    destruct (shift_ok (Z.of_nat (S c)) V Pc ltac:(lia) ltac:(lia) ltac:(lia) (S (Z.to_nat (i - a))) i k kv Q I ltac:(lia)) as (kv1 & Q1 & i1 & k1 & E1 & I1 & Hx).
    rewrite E1. cbn [bind].
    destruct (insert_ok (Z.of_nat (S c)) V Pc i1 k1 kv1 Q1 ltac:(lia) C I1 Hx) as (V2 & Pc2 & kv2 & Q2 & C2 & I2 & E2).
    replace (Z.of_nat (S c) - 1)%Z with (Z.of_nat c) in * by lia.
    destruct (rdZ Q1 (k1 - p)) as [q0|]; cbn [bind] in E2 |- *; [|discriminate E2].
    destruct (wrZ Q1 (k1 - p - 1) q0) as [Q1'|]; cbn [bind] in E2 |- *; [|discriminate E2].
    destruct (forZ 1 (p + 1) Q1' (ref_blend p U (knot X (Z.of_nat c)) kv1 i1 k1)) as [Q1''|]; cbn [bind] in E2 |- *; [|discriminate E2].
    destruct (wrZ kv1 k1 (knot X (Z.of_nat c))) as [kv1'|]; cbn [bind] in E2 |- *; [|discriminate E2].
    injection E2 as -> ->. apply (IH i1 (k1 - 1)%Z kv2 Q2 V2 Pc2); auto; [lia|].
    intros ->. destruct Hx as [Hx|Hx]; [auto|]. change (Z.of_nat 0) with 0%Z in Hx. pose proof I1 as [_ B1 _ _ _ _ _ _ _ _ _].
    destruct (Z.eq_dec i1 a); auto. exfalso. assert (knot X 0 <= knot U i1) by (apply X0; lia). qlra.
Qed.
End Loop.
