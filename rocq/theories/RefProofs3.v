(* knot_refinement as a whole. *)
From Coq Require Import List ZArith Lia Bool QArith Qcanon Permutation Sorted.
From Verif Require Import Common ListLib QcLib ArrZ SplineTheory SortModel SortSpec SortProofs NurbsModel NurbsSpec NurbsProofs NurbsProofs2 NurbsEditModel NurbsEditSpec NurbsInsert NurbsEditProofs RefModel RefSpec RefProofs1 RefProofs2.
Import ListNotations.
Local Open Scope Z_scope.
Local Open Scope Qc_scope.

Lemma column_coord f : column f -> coord f.
Proof. intros [->|[->|[->| ->]]]; [apply coord_px|apply coord_py|apply coord_pz|apply coord_pw]. Qed.

Lemma refine_with_ok p U P X per : valid_knots p (lenZ P - 1) U -> (1 <= p)%Z -> X <> [] ->
  StronglySorted Qcle X -> (forall x, In x X -> inside p U P x) -> spread ref_tol (X ++ U) ->
  exists R W, refine_with p U P X per = Ok (R, W) /\ lenZ R = (lenZ P + lenZ X)%Z /\ valid_knots p (lenZ R - 1) W /\
    Permutation W (X ++ U) /\ same_splines p (knot U p) U P W R /\ knot W (lenZ R) = knot U (lenZ P).
Proof.
  intros VU Hp NX SX IX SP. set (n := (lenZ P - 1)%Z) in *. assert (LP : lenZ P = (n + 1)%Z) by (unfold n; lia).
  pose proof VU as [Hpn [LU [M _]]].
  assert (N1 : (1 <= lenZ X)%Z) by (destruct X; [congruence|unfold lenZ; cbn; lia]).
  assert (Xs : forall i j, (0 <= i)%Z -> (i <= j)%Z -> (j < lenZ X)%Z -> knot X i <= knot X j).
  { intros i j Hi Hj Hl. unfold knot, atZ. unfold lenZ in Hl. assert (E1 : (Z.to_nat i <= Z.to_nat j)%nat) by lia. assert (E2 : (Z.to_nat j < length X)%nat) by lia.
    revert E1 E2. generalize (Z.to_nat i) (Z.to_nat j). clear -SX. induction SX as [|x l SX IH F]; intros i j H1 H2; [cbn in H2; lia|].
    destruct i, j; cbn in *; [apply Qcle_refl| |lia|apply IH; lia]. rewrite Forall_forall in F. apply F. apply nth_In. lia. }
  assert (Xin0 : forall i, (0 <= i < lenZ X)%Z -> knot U p <= knot X i /\ knot X i < knot U (n + 1)).
  { intros i Hi. destruct (IX (knot X i)) as (A & B); [apply knot_in; auto|]. rewrite LP in B. auto. }
  unfold refine_with. fold n. replace (lenZ X =? 0)%Z with false by (symmetry; apply Z.eqb_neq; lia). cbv zeta.
  rewrite !rdk by lia. cbn [bind].
  destruct (Xin0 0%Z ltac:(lia)) as (L0 & H0). destruct (Xin0 (lenZ X - 1)%Z ltac:(lia)) as (L1 & H1).
  destruct (find_span_any p n U (knot X 0) per VU L0 (Qclt_le_weak _ _ H0)) as (a & Ea & Ha & Sa & _). destruct (Sa H0) as (Sa1 & Sa2).
  destruct (find_span_any p n U (knot X (lenZ X - 1)) per VU L1 (Qclt_le_weak _ _ H1)) as (s & Es & Hs & Ss & _). destruct (Ss H1) as (Ss1 & Ss2).
  rewrite Ea. cbn [bind]. rewrite Es. cbn [bind].
  assert (As : (a <= s)%Z). { destruct (Z_le_gt_dec a s); auto. exfalso. assert (knot U (s + 1) <= knot U a) by (apply M; lia). assert (knot X 0 <= knot X (lenZ X - 1)) by (apply Xs; lia). qlra. }
  set (N := lenZ X) in *.
  destruct (copy_rows_ok pt0 0 (a - p + 1) 0 0 P (repeat (mkpt 0 0 0 0) (Z.to_nat (n + (N - 1) + 2)))) as (Q1 & EQ1 & LQ1 & CQ1 & _).
  { intros i Hi. rewrite lenZ_repeat by lia. lia. }
  rewrite EQ1. cbn [bind]. rewrite lenZ_repeat in LQ1 by lia.
  destruct (copy_rows_ok pt0 (s + 1 - 1) (n + 1) (N - 1 + 1) 0 P Q1) as (Q2 & EQ2 & LQ2 & CQ2 & KQ2).
  { intros i Hi. lia. }
  rewrite EQ2. cbn [bind].
  destruct (copy_rows_ok 0 0 (a + 1) 0 0 U (repeat (0 : Qc) (Z.to_nat (n + p + 1 + (N - 1) + 2)))) as (kv1 & Ek1 & Lk1 & Ck1 & _).
  { intros i Hi. rewrite lenZ_repeat by lia. lia. }
  rewrite Ek1. cbn [bind]. rewrite lenZ_repeat in Lk1 by lia.
  destruct (copy_rows_ok 0 (s + 1 + p) (n + p + 1 + 1) (N - 1 + 1) 0 U kv1) as (kv2 & Ek2 & Lk2 & Ck2 & Kk2).
  { intros i Hi. lia. }
  rewrite Ek2. cbn [bind].
  destruct (loop_ok p n U P X a VU LP Hp) with (c := Z.to_nat (N - 1 + 1)) (i := (s + 1 + p - 1)%Z) (k := (s + 1 + p + (N - 1))%Z) (kv := kv2) (Q := Q2) (V := U) (Pc := P)
    as (V' & Pc' & kv' & Q' & k' & EL & C & I).
  - intros x y Hx Hy Hd. apply SP; auto. apply in_or_app; auto.
  - exact Xs.
  - intros i Hi. split; [|apply Xin0; auto]. eapply Qcle_trans; [exact Sa1|]. apply Xs; lia.
  - auto.
  - lia.
  - replace (Z.of_nat (Z.to_nat (N - 1 + 1))) with N by lia. split; fold N.
    + replace (n + (N - N))%Z with n by lia. auto.
    + lia.
    + unfold N, lenZ. rewrite Nat2Z.id, skipn_all. cbn [app]. apply Permutation_refl.
    + replace (n + (N - N))%Z with n by lia. intros f t _ _. auto.
    + replace (n + (N - N))%Z with n by lia. auto.
  - replace (Z.of_nat (Z.to_nat (N - 1 + 1))) with N by lia. split; fold N.
    + lia.
    + lia.
    + lia.
    + lia.
    + auto.
    + intros q Hq. unfold knot. replace (q + N)%Z with (q + (N - 1 + 1))%Z by lia. rewrite Ck2 by lia. f_equal. lia.
    + auto.
    + intros q Hq. unfold ctrl. replace (q + N)%Z with (q + (N - 1 + 1))%Z by lia. rewrite CQ2 by lia. f_equal. lia.
    + intros q Hq. unfold knot. rewrite Kk2 by lia. replace q with (q + 0)%Z at 1 by lia. rewrite Ck1 by lia. f_equal. lia.
    + intros q Hq. unfold ctrl. rewrite KQ2 by lia. replace q with (q + 0)%Z at 1 by lia. rewrite CQ1 by lia. f_equal. lia.
    + intros q _ Hq. eapply Qcle_trans; [apply Qclt_le_weak; exact Ss2|]. apply M; lia.
  - lia.
  - intros q Hq. eapply Qcle_trans; [apply Qclt_le_weak; exact Sa2|]. apply M; lia.
  - rewrite EL. cbn [bind]. exists Q', kv'. split; [reflexivity|].
    destruct C as [C1 C2 C3 C4 C5]. destruct I as [I1 I2 I3 I4 I5 I6 I7 I8 I9 I10 _]. fold N in C1, C2, C4, C5, I3, I4, I6, I8.
    pose proof C1 as [_ [LV' _]].
    assert (EV : kv' = V').
    { apply (list_ext_atZ 0); [lia|]. intros q Hq. change (knot kv' q = knot V' q). destruct (Z_le_gt_dec q a).
      - rewrite I9, I5 by lia. auto.
      - replace q with (q + 0)%Z at 1 by lia. apply I6. lia. }
    assert (EP : Q' = Pc').
    { apply (list_ext_atZ pt0); [lia|]. intros q Hq. change (ctrl Q' q = ctrl Pc' q). destruct (Z_le_gt_dec q (a - p)).
      - rewrite I10, I7 by lia. auto.
      - replace q with (q + 0)%Z at 1 by lia. apply I8. lia. }
    subst kv' Q'. assert (EN : (lenZ Pc' - 1 = n + (N - 0))%Z) by lia.
    split; [lia|]. split; [rewrite EN; auto|]. split; [exact C3|]. split.
    + intros f t Hf Ht. unfold spline. rewrite EN. replace (lenZ P - 1)%Z with n by lia. apply C4; auto. apply column_coord; auto.
    + replace (lenZ Pc') with (n + (N - 0) + 1)%Z by lia. rewrite C5, LP. auto.
Qed.

Lemma knots_to_insert_ok p U kl : (forall x, In x kl -> separated x U) -> knots_to_insert p U kl = Ok (missing p U kl).
Proof.
  induction kl as [|x l IH]; intro H; [reflexivity|]. cbn [knots_to_insert]. rewrite find_multiplicity_count by (apply H; cbn; auto). cbn [bind].
  rewrite IH by (intros; apply H; cbn; auto). reflexivity.
Qed.
Lemma in_missing p U l x : In x (missing p U l) <-> In x l /\ (multiplicity U x < p)%Z.
Proof.
  unfold missing. rewrite in_flat_map. split.
  - intros (y & Hy & Hx). assert (x = y) by (apply repeat_spec in Hx; auto). subst y. split; auto.
    destruct (Z_lt_le_dec (multiplicity U x) p); auto. replace (Z.to_nat (p - multiplicity U x)) with 0%nat in Hx by lia. destruct Hx.
  - intros (Hl & Hm). exists x. split; auto. destruct (Z.to_nat (p - multiplicity U x)) eqn:E; [lia|]. cbn. auto.
Qed.
Lemma missing_sorted p U l : strictly_ascending l -> StronglySorted Qcle (missing p U l).
Proof.
  induction 1 as [|x l S IH F]; [constructor|]. unfold missing. cbn [flat_map]. fold (missing p U l).
  induction (Z.to_nat (p - multiplicity U x)) as [|k IHk]; [exact IH|]. cbn [repeat app]. constructor; [exact IHk|].
  rewrite Forall_forall in F |- *. intros y Hy. apply in_app_or in Hy. destruct Hy as [Hy|Hy].
  - apply repeat_spec in Hy. subst. apply Qcle_refl.
  - apply in_missing in Hy. apply Qclt_le_weak. apply F. tauto.
Qed.
Lemma density_one usz nl kl : density_loop (Z.to_nat (1 - 1)) usz nl kl = Ok kl.
Proof. reflexivity. Qed.

Lemma ascending_nodup l : strictly_ascending l -> NoDup l.
Proof. induction 1 as [|x l S IH F]; constructor; auto. intro K. rewrite Forall_forall in F. apply F in K. apply (Qclt_not_eq _ _ K). auto. Qed.
Lemma refine_list_ok p U P l per : valid_knots p (lenZ P - 1) U -> (1 <= p)%Z -> strictly_ascending l ->
  (forall x, In x l -> separated x U /\ (inside p U P x \/ (p <= multiplicity U x)%Z)) ->
  spread ref_tol (l ++ U) -> (exists x, In x l /\ (multiplicity U x < p)%Z) ->
  exists R W, (do X <- knots_to_insert p U l ; refine_with p U P X per) = Ok (R, W) /\
    lenZ R = (lenZ P + lenZ (missing p U l))%Z /\ valid_knots p (lenZ R - 1) W /\ Permutation W (missing p U l ++ U) /\
    same_splines p (knot U p) U P W R /\ knot W (lenZ R) = knot U (lenZ P).
Proof.
  intros VU Hp AS HA SP (x0 & X0 & X0m). rewrite knots_to_insert_ok by (intros x Hx; apply HA; auto). cbn [bind].
  apply refine_with_ok; auto.
  - intro E0. assert (I0 : In x0 (missing p U l)) by (apply in_missing; auto). rewrite E0 in I0. destruct I0.
  - apply missing_sorted; auto.
  - intros x Hx. apply in_missing in Hx. destruct Hx as (Hx & Hm). destruct (HA x Hx) as (_ & [A|A]); [auto|lia].
  - intros x y Hx Hy. apply SP; apply in_or_app.
    + apply in_app_or in Hx. destruct Hx as [Hx|Hx]; [|auto]. apply in_missing in Hx. tauto.
    + apply in_app_or in Hy. destruct Hy as [Hx'|Hx']; [|auto]. apply in_missing in Hx'. tauto.
Qed.
Lemma ascending_unique : forall l1 l2, strictly_ascending l1 -> strictly_ascending l2 -> same_values l1 l2 -> l1 = l2.
Proof.
  induction l1 as [|x l1 IH]; intros [|y l2] S1 S2 SV; auto.
  - exfalso. apply (proj2 (SV y)). cbn. auto.
  - exfalso. apply (proj1 (SV x)). cbn. auto.
  - inversion S1 as [|? ? S1' F1]; subst. inversion S2 as [|? ? S2' F2]; subst. rewrite Forall_forall in F1, F2.
    assert (E : x = y).
    { destruct (proj1 (SV x) (or_introl eq_refl)) as [E|E]; auto. destruct (proj2 (SV y) (or_introl eq_refl)) as [E'|E']; auto.
      exfalso. apply F1 in E'. apply F2 in E. qlra. }
    subst y. f_equal. apply IH; auto. intro z. split; intro Hz.
    + destruct (proj1 (SV z) (or_intror Hz)) as [E|E]; auto. subst z. apply F1 in Hz. exfalso. qlra.
    + destruct (proj2 (SV z) (or_intror Hz)) as [E|E]; auto. subst z. apply F2 in Hz. exfalso. qlra.
Qed.
Lemma knot_refinement_eq p U P kl akl density per l : strictly_ascending l -> same_values l (asked p U kl akl) -> l <> [] ->
  knot_refinement p U P kl akl density per =
    (do kl' <- density_loop (Z.to_nat (density - 1)) (lenZ (asked p U kl akl)) (lenZ l) l ;
     do (R, W) <- (do X <- knots_to_insert p U kl' ; refine_with p U P X per) ;
     Ok (R, W, match kl, akl with Some k, None => Some (qsort k) | o, _ => o end)).
Proof.
  intros AS SV NE. unfold knot_refinement. cbv zeta.
  assert (EF : match akl with Some l => match kl with Some k => k | None => inner_knots p U end ++ l | None => match kl with Some k => k | None => inner_knots p U end end = asked p U kl akl).
  { unfold asked, inner_knots. destruct akl; auto. rewrite app_nil_r. auto. }
  rewrite EF. destruct (uniqueSorted_ok (asked p U kl akl)) as (out & E & AS' & SV'). rewrite E. cbn [bind].
  assert (out = l). { apply ascending_unique; auto. intro z. rewrite (SV' z). symmetry. apply SV. }
  subst out. replace (lenZ l =? 0)%Z with false by (symmetry; apply Z.eqb_neq; destruct l; [congruence|unfold lenZ; cbn; lia]).
  destruct (density_loop _ _ _ _); cbn [bind]; auto. destruct (knots_to_insert p U a); cbn [bind]; auto.
  destruct (refine_with p U P a0 per) as [[R W]|]; cbn [bind]; auto.
  unfold asked. destruct kl, akl; rewrite ?app_nil_r; auto.
Qed.

Lemma refinement_ok p U P kl akl per l : valid_knots p (lenZ P - 1) U -> (1 <= p)%Z ->
  strictly_ascending l -> same_values l (asked p U kl akl) ->
  (forall x, In x l -> separated x U /\ (inside p U P x \/ (p <= multiplicity U x)%Z)) ->
  spread ref_tol (l ++ U) -> (exists x, In x l /\ (multiplicity U x < p)%Z) ->
  exists R W rest, knot_refinement p U P kl akl 1 per = Ok (R, W, rest) /\ 
    lenZ R = (lenZ P + lenZ (missing p U l))%Z /\ valid_knots p (lenZ R - 1) W /\ Permutation W (missing p U l ++ U) /\
    same_splines p (knot U p) U P W R /\ knot W (lenZ R) = knot U (lenZ P).
Proof.
  intros VU Hp AS SV HA SP EX. rewrite (knot_refinement_eq p U P kl akl 1 per l AS SV) by (destruct EX as (x & Hx & _); intros ->; destruct Hx).
  rewrite density_one. cbn [bind]. destruct (refine_list_ok p U P l per VU Hp AS HA SP EX) as (R & W & E & Rest). rewrite E. cbn [bind]. eauto.
Qed.

(* ---- density ---- *)
Lemma wm_len : forall l, l <> [] -> lenZ (with_middles l) = (2 * lenZ l - 1)%Z.
Proof.
  induction l as [|x l IH]; intro H; [congruence|]. destruct l as [|y l]; [reflexivity|].
  change (with_middles (x :: y :: l)) with (x :: x + (y - x) / (1 + 1) :: with_middles (y :: l)). specialize (IH ltac:(discriminate)).
  unfold lenZ in *. cbn [length] in *. lia.
Qed.
Lemma wm_even : forall l i, (0 <= i < lenZ l)%Z -> knot (with_middles l) (2 * i) = knot l i.
Proof.
  induction l as [|x l IH]; intros i Hi; [unfold lenZ in Hi; cbn in Hi; lia|]. destruct l as [|y l].
  - assert (i = 0%Z) by (unfold lenZ in Hi; cbn in Hi; lia). subst. reflexivity.
  - change (with_middles (x :: y :: l)) with (x :: x + (y - x) / (1 + 1) :: with_middles (y :: l)).
    destruct (Z.eq_dec i 0) as [->|Ne]; [reflexivity|]. specialize (IH (i - 1)%Z). unfold knot, atZ in *.
    replace (Z.to_nat (2 * i)) with (S (S (Z.to_nat (2 * (i - 1))))) by lia. replace (Z.to_nat i) with (S (Z.to_nat (i - 1))) by lia.
    cbn [nth]. apply IH. unfold lenZ in *. cbn [length] in *. lia.
Qed.
Lemma wm_odd : forall l i, (0 <= i < lenZ l - 1)%Z -> knot (with_middles l) (2 * i + 1) = knot l i + (knot l (i + 1) - knot l i) / (1 + 1).
Proof.
  induction l as [|x l IH]; intros i Hi; [unfold lenZ in Hi; cbn in Hi; lia|]. destruct l as [|y l]; [unfold lenZ in Hi; cbn in Hi; lia|].
  change (with_middles (x :: y :: l)) with (x :: x + (y - x) / (1 + 1) :: with_middles (y :: l)).
  destruct (Z.eq_dec i 0) as [->|Ne]; [reflexivity|]. specialize (IH (i - 1)%Z). unfold knot, atZ in *.
  replace (Z.to_nat (2 * i + 1)) with (S (S (Z.to_nat (2 * (i - 1) + 1)))) by lia. replace (Z.to_nat i) with (S (Z.to_nat (i - 1))) by lia.
  replace (Z.to_nat (i + 1)) with (S (Z.to_nat (i - 1 + 1))) by lia.
  cbn [nth]. apply IH. unfold lenZ in *. cbn [length] in *. lia.
Qed.
Lemma density_pass_ok l : l <> [] -> density_pass (lenZ l) (lenZ l) l = Ok (with_middles l).
Proof.
  intro NE. assert (L1 : (1 <= lenZ l)%Z) by (destruct l; [congruence|unfold lenZ; cbn; lia]). unfold density_pass. cbv zeta.
  replace (lenZ l * 2 - 1 <? 0)%Z with false by (symmetry; apply Z.ltb_ge; lia).
  set (sz := (lenZ l * 2 - 1)%Z). 
  destruct (forZ_inv (fun i rk => lenZ rk = sz /\ forall q, (0 <= q < 2 * i)%Z -> knot rk q = knot (with_middles l) q)
    (fun i rk => do x <- rdZ l i ; do y <- rdZ l (i + 1) ; do rk <- wrZ rk (2 * i) x ; wrZ rk (2 * i + 1) (x + (y - x) / (1 + 1))) 0 (lenZ l - 1) (repeat 0 (Z.to_nat sz)))
    as (rk & E & LR & HR).
  - lia.
  - split; [rewrite lenZ_repeat; unfold sz; lia|intros; lia].
  - intros i rk Hi (LR & HR). rewrite !rdk by lia. cbn [bind]. rewrite wrZ_ok by (unfold sz in LR; lia). cbn [bind]. rewrite wrZ_ok by (rewrite lenZ_upd; unfold sz in LR; lia).
    eexists. split; [reflexivity|]. split; [rewrite !lenZ_upd; auto|]. intros q Hq. unfold knot at 1.
    destruct (Z.eq_dec q (2 * i + 1)) as [->|N1]; [rewrite atZ_upd_eq by (rewrite lenZ_upd; unfold sz in LR; lia); rewrite wm_odd by lia; auto|].
    rewrite atZ_upd_neq by lia. destruct (Z.eq_dec q (2 * i)) as [->|N2]; [rewrite atZ_upd_eq by (unfold sz in LR; lia); rewrite wm_even by lia; auto|].
    rewrite atZ_upd_neq by lia. apply HR. lia.
  - rewrite E. cbn [bind]. rewrite rdk by lia. cbn [bind]. rewrite wrZ_ok by (unfold sz in LR; lia). f_equal.
    apply (list_ext_atZ 0); [rewrite lenZ_upd, wm_len by auto; unfold sz in LR; lia|]. rewrite lenZ_upd, LR. intros q Hq. unfold sz in Hq.
    destruct (Z.eq_dec q (sz - 1)) as [->|Ne].
    + rewrite atZ_upd_eq by (unfold sz in *; lia). change (knot l (lenZ l - 1) = knot (with_middles l) (sz - 1)).
      replace (sz - 1)%Z with (2 * (lenZ l - 1))%Z by (unfold sz; lia). rewrite wm_even by lia. auto.
    + rewrite atZ_upd_neq by (unfold sz in *; lia). apply HR. unfold sz in Ne. lia.
Qed.
Lemma wm_ascending l : strictly_ascending l -> strictly_ascending (with_middles l).
Proof.
  induction 1 as [|x l SL IH F]; [constructor|]. destruct l as [|y l]; [constructor; constructor|].
  change (with_middles (x :: y :: l)) with (x :: x + (y - x) / (1 + 1) :: with_middles (y :: l)).
  assert (Hxy : x < y) by (rewrite Forall_forall in F; apply F; cbn; auto).
  assert (GE : forall z, In z (with_middles (y :: l)) -> y <= z).
  { intros z Hz. destruct l as [|y' l']. { destruct Hz as [->|[]]. apply Qcle_refl. }
    change (with_middles (y :: y' :: l')) with (y :: y + (y' - y) / (1 + 1) :: with_middles (y' :: l')) in *.
    destruct Hz as [->|Hz]; [apply Qcle_refl|]. inversion IH as [|? ? ? F']; subst. rewrite Forall_forall in F'. apply Qclt_le_weak. apply F'. auto. }
  assert (HH : (y - x) / (1 + 1) + (y - x) / (1 + 1) = y - x) by (field; discriminate). set (h := (y - x) / (1 + 1)) in *.
  assert (M1 : x < x + h) by qlra. assert (M2 : x + h < y) by qlra.
  constructor; [constructor; [exact IH|]|]; rewrite Forall_forall.
  - intros z Hz. apply GE in Hz. qlra.
  - intros z [<-|Hz]; [auto|]. apply GE in Hz. qlra.
Qed.
Lemma ascending_length l l' : strictly_ascending l -> same_values l l' -> NoDup l' -> lenZ l = lenZ l'.
Proof.
  intros AS SV ND. unfold lenZ. f_equal. apply Permutation_length. apply NoDup_Permutation; auto. apply ascending_nodup. auto.
Qed.
Lemma density_two_ok p U P kl akl per l : valid_knots p (lenZ P - 1) U -> (1 <= p)%Z ->
  strictly_ascending l -> same_values l (asked p U kl akl) -> NoDup (asked p U kl akl) ->
  (forall x, In x (with_middles l) -> separated x U /\ (inside p U P x \/ (p <= multiplicity U x)%Z)) ->
  spread ref_tol (with_middles l ++ U) -> (exists x, In x (with_middles l) /\ (multiplicity U x < p)%Z) ->
  exists R W rest, knot_refinement p U P kl akl 2 per = Ok (R, W, rest) /\ 
    lenZ R = (lenZ P + lenZ (missing p U (with_middles l)))%Z /\ valid_knots p (lenZ R - 1) W /\ Permutation W (missing p U (with_middles l) ++ U) /\
    same_splines p (knot U p) U P W R /\ knot W (lenZ R) = knot U (lenZ P).
Proof.
  intros VU Hp AS SV ND HA SP EX. assert (NE : l <> []) by (destruct EX as (x & Hx & _); intros ->; destruct Hx).
  rewrite (knot_refinement_eq p U P kl akl 2 per l AS SV NE). rewrite <- (ascending_length _ _ AS SV ND).
  change (Z.to_nat (2 - 1)) with 1%nat. cbn [density_loop]. rewrite density_pass_ok by auto. cbn [bind].
  destruct (refine_list_ok p U P (with_middles l) per VU Hp (wm_ascending _ AS) HA SP EX) as (R & W & E & Rest). rewrite E. cbn [bind]. eauto.
Qed.
Lemma forZ_err_at {A} lo hi (st : A) body e : (lo < hi)%Z -> body lo st = Err e -> forZ lo hi st body = Err e.
Proof. intros H E. unfold forZ. replace (Z.to_nat (hi - lo)) with (S (Z.to_nat (hi - lo - 1))) by lia. cbn [for_n]. rewrite E. auto. Qed.
Lemma forZ_next {A} lo hi (st st' : A) body : (lo < hi)%Z -> body lo st = Ok st' -> forZ lo hi st body = forZ (lo + 1) hi st' body.
Proof. intros H E. unfold forZ. replace (Z.to_nat (hi - lo)) with (S (Z.to_nat (hi - (lo + 1)))) by lia. cbn [for_n]. rewrite E. auto. Qed.
Lemma forZ_err {A} (body : Z -> A -> res A) (Inv : Z -> A -> Prop) lo k hi st e : (lo <= k < hi)%Z -> Inv lo st ->
  (forall i s, (lo <= i < k)%Z -> Inv i s -> exists s', body i s = Ok s' /\ Inv (i + 1)%Z s') -> (forall s, Inv k s -> body k s = Err e) ->
  forZ lo hi st body = Err e.
Proof.
  intros Hk H0 Hs He. revert st H0 Hs. remember (Z.to_nat (k - lo)) as d eqn:Ed. revert lo Hk Ed. induction d as [|d IH]; intros lo Hk Ed st H0 Hs.
  - assert (lo = k) by lia. subst lo. apply forZ_err_at; [lia|auto].
  - destruct (Hs lo st ltac:(lia) H0) as (s' & Es & I'). rewrite (forZ_next lo hi st s') by (auto; lia). apply IH; [lia|lia|auto|]. intros; apply Hs; auto. lia.
Qed.
Lemma density_repeats_fail p U P kl akl density per : (2 <= density)%Z -> asked p U kl akl <> [] -> ~ NoDup (asked p U kl akl) ->
  knot_refinement p U P kl akl density per = Err IndexError.
Proof.
  intros Hd NE ND. destruct (uniqueSorted_ok (asked p U kl akl)) as (l & _ & AS & SV).
  assert (NL : l <> []). { intros ->. destruct (asked p U kl akl) as [|x r]; [congruence|]. apply (proj2 (SV x)). cbn. auto. }
  assert (LT : (lenZ l < lenZ (asked p U kl akl))%Z).
  { assert (LE : (length l <= length (asked p U kl akl))%nat) by (apply NoDup_incl_length; [apply ascending_nodup; auto|intros z; apply SV]).
    destruct (Nat.eq_dec (length l) (length (asked p U kl akl))) as [E|E]; [|unfold lenZ; lia]. exfalso. apply ND.
    apply (NoDup_incl_NoDup (ascending_nodup l AS)); [lia|intros z; apply SV]. }
  assert (L1 : (1 <= lenZ l)%Z) by (destruct l; [congruence|unfold lenZ; cbn; lia]).
  rewrite (knot_refinement_eq p U P kl akl density per l AS SV NL). destruct (Z.to_nat (density - 1)) as [|c] eqn:Ec; [lia|]. cbn [density_loop].
  set (us := lenZ (asked p U kl akl)) in *. unfold density_pass. cbv zeta. replace (us * 2 - 1 <? 0)%Z with false by (symmetry; apply Z.ltb_ge; lia).
  rewrite (forZ_err _ (fun i rk => lenZ rk = (us * 2 - 1)%Z) 0 (lenZ l - 1) (us - 1) _ IndexError); [reflexivity|lia|rewrite lenZ_repeat; lia| |].
  - intros i rk Hi LR. rewrite !rdk by lia. cbn [bind]. rewrite wrZ_ok by lia. cbn [bind]. rewrite wrZ_ok by (rewrite lenZ_upd; lia). eexists. split; [reflexivity|]. rewrite !lenZ_upd. auto.
  - intros rk LR. rewrite rdk by lia. cbn [bind]. replace (lenZ l - 1 + 1)%Z with (lenZ l) by lia.
    rewrite rdZ_out by lia. reflexivity.
Qed.

Lemma count_missing p U l x : NoDup l -> In x l -> count_occ Qc_eq_dec (missing p U l) x = Z.to_nat (p - multiplicity U x).
Proof.
  assert (R : forall k y, count_occ Qc_eq_dec (repeat y k) x = if Qc_eq_dec y x then k else 0%nat).
  { induction k; intro y; cbn; [destruct (Qc_eq_dec y x); auto|]. rewrite IHk. destruct (Qc_eq_dec y x); auto. }
  assert (Z0 : forall l', ~ In x l' -> count_occ Qc_eq_dec (missing p U l') x = 0%nat).
  { intros l' H. apply count_occ_not_In. intro K. apply in_missing in K. tauto. }
  induction 1 as [|y l' Hn ND IH]; intro HI; [destruct HI|]. unfold missing. cbn [flat_map]. fold (missing p U l'). rewrite count_occ_app, R.
  destruct (Qc_eq_dec y x) as [->|Ne].
  - rewrite Z0 by auto. lia.
  - destruct HI as [->|HI]; [congruence|]. rewrite IH by auto. lia.
Qed.

Lemma refinement_multiplicities p U l W x : strictly_ascending l -> Permutation W (missing p U l ++ U) -> 
  (In x l -> multiplicity W x = Z.max p (multiplicity U x)) /\ (~ In x l -> multiplicity W x = multiplicity U x).
Proof.
  intros AS PW. assert (E : multiplicity W x = (Z.of_nat (count_occ Qc_eq_dec (missing p U l) x) + multiplicity U x)%Z).
  { unfold multiplicity. rewrite (Permutation_count_occ Qc_eq_dec) in PW. rewrite (PW x), count_occ_app. lia. }
  split; intro H.
  - rewrite E, count_missing by (auto using ascending_nodup). lia.
  - rewrite E. replace (count_occ Qc_eq_dec (missing p U l) x) with 0%nat; [lia|]. symmetry. apply count_occ_not_In. intro K. apply in_missing in K. tauto.
Qed.

(* the list given by the caller is sorted *)
Lemma refinement_sorts p U P kl density per R W rest : knot_refinement p U P (Some kl) None density per = Ok (R, W, rest) -> rest = Some (qsort kl).
Proof.
  unfold knot_refinement. cbv zeta. destruct (uniqueSorted_ok kl) as (out & E & _). rewrite E. cbn [bind].
  destruct (lenZ out =? 0)%Z; [discriminate|]. destruct (density_loop (Z.to_nat (density - 1)) (lenZ kl) (lenZ out) out); cbn [bind]; [|discriminate].
  destruct (knots_to_insert p U a); cbn [bind]; [|discriminate]. destruct (refine_with p U P a0 per) as [[R' W']|]; cbn [bind]; [|discriminate].
  intro K. injection K as _ _ <-. reflexivity.
Qed.
Lemma refinement_keeps p U P kl akl density per R W rest : akl <> None \/ kl = None -> knot_refinement p U P kl akl density per = Ok (R, W, rest) -> rest = kl.
Proof.
  intros H. unfold knot_refinement. cbv zeta. set (full := match akl with Some l => _ | None => _ end). destruct (uniqueSorted_ok full) as (out & E & _). rewrite E. cbn [bind].
  destruct (lenZ out =? 0)%Z; [discriminate|]. destruct (density_loop (Z.to_nat (density - 1)) (lenZ full) (lenZ out) out); cbn [bind]; [|discriminate].
  destruct (knots_to_insert p U a); cbn [bind]; [|discriminate]. destruct (refine_with p U P a0 per) as [[R' W']|]; cbn [bind]; [|discriminate].
  intro K. injection K as _ _ <-. destruct kl, akl; auto. destruct H; congruence.
Qed.
(* nothing to insert *)
Lemma refinement_nothing p U P kl akl per : (forall x, In x (asked p U kl akl) -> separated x U /\ (p <= multiplicity U x)%Z) ->
  knot_refinement p U P kl akl 1 per = Err ValueError.
Proof.
  intro HA. unfold knot_refinement. cbv zeta.
  assert (EF : match akl with Some l => match kl with Some k => k | None => inner_knots p U end ++ l | None => match kl with Some k => k | None => inner_knots p U end end = asked p U kl akl).
  { unfold asked, inner_knots. destruct akl; auto. rewrite app_nil_r. auto. }
  rewrite EF. destruct (uniqueSorted_ok (asked p U kl akl)) as (out & E & AS & SV). rewrite E. cbn [bind].
  destruct (lenZ out =? 0)%Z; [reflexivity|]. rewrite density_one. cbn [bind]. rewrite knots_to_insert_ok by (intros x Hx; apply HA; apply SV; auto). cbn [bind].
  assert (E0 : missing p U out = []).
  { destruct (missing p U out) as [|y l] eqn:Em; auto. exfalso. assert (Hy : In y (missing p U out)) by (rewrite Em; cbn; auto). apply in_missing in Hy.
    destruct Hy as (Hy & Hm). apply SV in Hy. apply HA in Hy. lia. }
  rewrite E0. reflexivity.
Qed.
