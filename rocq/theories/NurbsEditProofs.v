(* Curve level statements: knot insertion. *)
From Coq Require Import List ZArith Lia Bool QArith Qcanon Permutation.
From Verif Require Import Common ListLib QcLib ArrZ SplineTheory SplineTheory2 NurbsModel NurbsSpec NurbsProofs NurbsProofs2 NurbsProofs3 NurbsEditModel NurbsEditSpec NurbsInsert.
Import ListNotations.
Local Open Scope Z_scope.
Local Open Scope Qc_scope.

Lemma column_coord f : column f -> coord f.
Proof. intros [->|[->|[->| ->]]]; [apply coord_px|apply coord_py|apply coord_pz|apply coord_pw]. Qed.

(* ---- polynomial curves ---------------------------------------------- *)

Lemma ctrl_In P i : (0 <= i < lenZ P)%Z -> In (ctrl P i) P.
Proof. intro H. unfold ctrl, atZ. apply nth_In. unfold lenZ in H. lia. Qed.

Lemma cdb_one p n U u : valid_knots p n U -> knot U p <= u ->
  sum_to n (fun i => cox_de_boor U n (Z.to_nat p) i u) = 1.
Proof.
  intros V H. destruct (find_span_span_of p n U u V H) as [s [_ S]].
  transitivity (sum_to n (fun i => cox_de_boor U n (Z.to_nat p) i u * 1)).
  { unfold sum_to. apply sum_n_ext. intros. ring. }
  rewrite (cdb_sum_chain p n U u s (fun _ => 1) V S). apply chain_const.
  - rewrite repeat_length. apply (span_ndg p n U u); auto.
  - auto.
Qed.

Lemma rational_equal p n U P f u w : valid_knots p n U -> knot U p <= u -> lenZ P = (n + 1)%Z ->
  w <> 0 -> (forall q, In q P -> pw q = w) ->
  den U n p P u = w /\
  rational U n p P f u = sum_to n (fun i => cox_de_boor U n (Z.to_nat p) i u * f (ctrl P i)).
Proof.
  intros V Hu LP Hw HW.
  assert (E1 : sum_to n (fun i => cox_de_boor U n (Z.to_nat p) i u * pw (ctrl P i)) = w).
  { transitivity (sum_to n (fun i => w * cox_de_boor U n (Z.to_nat p) i u)).
    - unfold sum_to. apply sum_n_ext. intros i Hi. rewrite (HW (ctrl P i)). ring. apply ctrl_In. lia.
    - unfold sum_to. rewrite sum_n_scal. fold (sum_to n (fun i => cox_de_boor U n (Z.to_nat p) i u)).
      rewrite (cdb_one p n U u V Hu). ring. }
  split; [exact E1|]. unfold rational. rewrite E1.
  transitivity (w * sum_to n (fun i => cox_de_boor U n (Z.to_nat p) i u * f (ctrl P i)) / w); [|field; auto].
  f_equal. unfold sum_to. rewrite <- sum_n_scal. apply sum_n_ext. intros i Hi.
  rewrite (HW (ctrl P i)). ring. apply ctrl_In. lia.
Qed.

Lemma evaluate_equal c u : valid_curve c -> in_domain c u -> equal_weights c ->
  evaluate c u = Ok (column_value c px u, column_value c py u, column_value c pz u).
Proof.
  intros V D [w [Hw HW]]. pose proof D as [D1 D2].
  assert (L : lenZ (c_pts c) = (last_ix c + 1)%Z) by (unfold last_ix; lia).
  rewrite evaluate_ok; auto.
  - unfold nurbs_point, column_value.
    do 2 f_equal; [f_equal|]; eapply rational_equal; eauto.
  - destruct (rational_equal (c_deg c) (last_ix c) (c_knots c) (c_pts c) px u w V D1 L Hw HW) as [E _].
    rewrite E. auto.
Qed.

(* ---- multiplicity --------------------------------------------------- *)

Lemma firstn_S_atZ (l : list Qc) k : (k < length l)%nat -> firstn (S k) l = firstn k l ++ [nth k l 0].
Proof.
  revert k. induction l as [|x l IH]; intros k H; [simpl in H; lia|].
  destruct k; [reflexivity|]. change (firstn (S (S k)) (x :: l)) with (x :: firstn (S k) l).
  rewrite IH by (simpl in H; lia). reflexivity.
Qed.

Lemma find_multiplicity_count u U : separated u U -> find_multiplicity u U = Ok (multiplicity U u).
Proof.
  intros Sep. unfold find_multiplicity.
  destruct (forZ_inv (fun i m => m = multiplicity (firstn (Z.to_nat i) U) u)
    (fun i mult => do x <- rdZ U i; Ok (if qle (qabs (u - x)) (calc_epsilon x) then (mult + 1)%Z else mult))
    0 (lenZ U) 0%Z) as [m [E I]].
  - unfold lenZ; lia.
  - reflexivity.
  - intros i m Hi ->. rewrite rd_knot by lia. cbn [bind]. eexists. split; [reflexivity|].
    replace (Z.to_nat (i + 1)) with (S (Z.to_nat i)) by lia.
    rewrite firstn_S_atZ by (unfold lenZ in Hi; lia). fold (atZ 0 U i). fold (knot U i).
    unfold multiplicity. rewrite count_occ_app. cbn [count_occ].
    assert (HIn : In (knot U i) U). { unfold knot, atZ. apply nth_In. unfold lenZ in Hi. lia. }
    destruct (Qc_eq_dec (knot U i) u) as [Eq|Ne].
    + rewrite Eq. replace (u - u) with 0 by ring.
      assert (Q : qle (qabs 0) (calc_epsilon u) = true).
      { apply qle_true. change (qabs 0) with 0. apply calc_epsilon_nonneg. }
      rewrite Q. lia.
    + destruct (Sep _ HIn) as [|G]; [contradiction|].
      assert (Q : qle (qabs (u - knot U i)) (calc_epsilon (knot U i)) = false) by (apply qle_false; auto).
      rewrite Q. lia.
  - rewrite E, I. unfold lenZ. rewrite Nat2Z.id, firstn_all. auto.
Qed.

(* ---- the knot vector as a list -------------------------------------- *)

Lemma atZ_skipn {A} (d : A) l k i : (0 <= i)%Z -> atZ d (skipn k l) i = atZ d l (i + Z.of_nat k).
Proof.
  intro H. unfold atZ. replace (Z.to_nat (i + Z.of_nat k)) with (k + Z.to_nat i)%nat by lia.
  clear H. generalize (Z.to_nat i) as j. revert l. induction k as [|k IH]; intros l j; auto.
  destruct l; [destruct j; reflexivity|]. simpl. apply IH.
Qed.
Lemma lenZ_skipn {A} k (l : list A) : (Z.of_nat k <= lenZ l)%Z -> lenZ (skipn k l) = (lenZ l - Z.of_nat k)%Z.
Proof. unfold lenZ. intro. rewrite skipn_length. lia. Qed.

Lemma kv_after_list U u span r V : (0 <= r)%Z -> (0 <= span < lenZ U)%Z -> kv_after U u span r V ->
  V = firstn (Z.to_nat (span + 1)) U ++ repeat u (Z.to_nat r) ++ skipn (Z.to_nat (span + 1)) U.
Proof.
  intros Hr Hs [L [A [B C]]].
  set (a := firstn (Z.to_nat (span + 1)) U). set (b := skipn (Z.to_nat (span + 1)) U).
  assert (La : lenZ a = (span + 1)%Z) by (unfold a; rewrite lenZ_firstn; lia).
  assert (Lb : lenZ b = (lenZ U - (span + 1))%Z) by (unfold b; rewrite lenZ_skipn; lia).
  apply (list_ext_atZ 0). { rewrite !lenZ_app, lenZ_repeat. lia. }
  intros i Hi. fold (knot V i). destruct (Z_le_dec i span).
  - rewrite A by lia. rewrite atZ_app1 by lia. unfold a. rewrite atZ_firstn by lia. reflexivity.
  - rewrite atZ_app2 by lia. rewrite La. destruct (Z_le_dec i (span + r)).
    + rewrite B by lia. rewrite atZ_app1 by (rewrite lenZ_repeat; lia). rewrite atZ_repeat_in by lia. auto.
    + rewrite C by lia. rewrite atZ_app2 by (rewrite lenZ_repeat; lia). rewrite lenZ_repeat. unfold b.
      rewrite atZ_skipn by lia. unfold knot. f_equal. lia.
Qed.

Lemma kv_after_perm U u span r V : (0 <= r)%Z -> (0 <= span < lenZ U)%Z -> kv_after U u span r V ->
  Permutation V (repeat u (Z.to_nat r) ++ U).
Proof.
  intros H1 H2 H. rewrite (kv_after_list U u span r V H1 H2 H).
  rewrite <- (firstn_skipn (Z.to_nat (span + 1)) U) at 3.
  rewrite !app_assoc. apply Permutation_app_tail. apply Permutation_app_comm.
Qed.

(* ---- insert_knot ---------------------------------------------------- *)

Lemma span_of_mult p n U u s : valid_knots p n U -> span_of p n U u s -> u < knot U (n + 1) -> knot U p <= u ->
  knot U s <= u /\ u < knot U (s + 1).
Proof. intros V [_ [S _]] H _. auto. Qed.

(* everything the later arguments need about the result *)
Lemma insert_knot_raw c t count junk :
  valid_curve c -> knot (c_knots c) (c_deg c) <= t -> t < knot (c_knots c) (last_ix c + 1) ->
  separated t (c_knots c) -> (0 <= count)%Z ->
  (count + multiplicity (c_knots c) t <= c_deg c)%Z ->
  lenZ junk = (lenZ (c_pts c) + count)%Z ->
  exists c' span, insert_knot c t count junk = Ok c' /\
    c_deg c' = c_deg c /\ c_per c' = c_per c /\ c_grev c' = c_grev c /\
    (c_deg c <= span <= last_ix c)%Z /\
    mult_at (c_knots c) t span (multiplicity (c_knots c) t) /\
    kv_after (c_knots c) t span count (c_knots c') /\
    rows_after (c_knots c) (c_pts c) (c_deg c) t count (multiplicity (c_knots c) t) span (c_pts c') /\
    find_span (last_ix c) (c_deg c) t (c_knots c) false = Ok span /\
    update_interval (c_knots c') = Ok (c_int c').
Proof.
  intros V H1 H2 Sep Hc Hm LJ. pose proof V as [Hp [LU [Mo NN]]].
  destruct (find_span_span_of _ _ _ t V H1) as [span [E1 S]]. pose proof S as [Hs [S2 _]].
  destruct (S2 H2) as [T1 T2].
  destruct (find_multiplicity_ok (c_knots c) t span Mo ltac:(lia) ltac:(lia) T1 T2 Sep) as [s [E2 M]].
  rewrite (find_multiplicity_count t (c_knots c) Sep) in E2. inversion E2. subst s. clear E2.
  destruct (knot_insertion_kv_ok (c_knots c) t span count Hc ltac:(lia)) as [kv [E3 KV]].
  pose proof M as [M0 _].
  assert (L : lenZ (c_pts c) = (last_ix c + 1)%Z) by (unfold last_ix; lia).
  destruct (knot_insertion_ok (c_deg c) (last_ix c) (c_knots c) (c_pts c) t count (multiplicity (c_knots c) t) span junk)
    as [R [E4 RA]]; auto; try lia. { qlra. }
  unfold insert_knot. fold (last_ix c). rewrite E1. cbn [bind]. rewrite E3. cbn [bind].
  rewrite (find_multiplicity_count t (c_knots c) Sep). cbn [bind]. rewrite E4. cbn [bind].
  pose proof KV as [LV _].
  destruct (update_interval kv) as [iv|] eqn:E5.
  2:{ unfold update_interval in E5. rewrite !rd_knot in E5 by lia. discriminate. }
  cbn [bind]. eexists. exists span. split; [reflexivity|]. cbn [c_deg c_per c_grev c_knots c_pts c_int].
  auto 12.
Qed.

Lemma rows_last c t count s span c' : (0 <= count)%Z ->
  rows_after (c_knots c) (c_pts c) (c_deg c) t count s span (c_pts c') ->
  last_ix c' = (last_ix c + count)%Z.
Proof. intros H [L _]. unfold last_ix. lia. Qed.

Lemma insert_knot_ok c t count junk :
  valid_curve c -> knot (c_knots c) (c_deg c) <= t -> t < knot (c_knots c) (last_ix c + 1) ->
  separated t (c_knots c) -> (0 <= count)%Z ->
  (count + multiplicity (c_knots c) t <= c_deg c)%Z ->
  lenZ junk = (lenZ (c_pts c) + count)%Z ->
  exists c', insert_knot c t count junk = Ok c' /\
    c_deg c' = c_deg c /\ valid_curve c' /\
    lenZ (c_pts c') = (lenZ (c_pts c) + count)%Z /\
    Permutation (c_knots c') (repeat t (Z.to_nat count) ++ c_knots c) /\
    (forall u, in_domain c' u <-> in_domain c u) /\
    (forall f u, column f -> in_domain c u -> column_value c' f u = column_value c f u).
Proof.
  intros V H1 H2 Sep Hc Hm LJ. pose proof V as [Hp [LU [Mo NN]]].
  destruct (insert_knot_raw c t count junk V H1 H2 Sep Hc Hm LJ) as [c' [span [E [Dg [_ [_ [Hs [M [KV [RA [_ _]]]]]]]]]]].
  exists c'. split; [auto|]. split; [auto|].
  pose proof (rows_last c t count _ span c' Hc RA) as LI.
  pose proof M as [M0 [M1 [M2 M3]]]. pose proof KV as [LV [A [B C]]].
  assert (T1 : knot (c_knots c) span <= t).
  { destruct (Z_le_dec (multiplicity (c_knots c) t) 0). apply Qclt_le_weak, M2; lia. rewrite M1 by lia. apply Qcle_refl. }
  assert (T2 : t < knot (c_knots c) (span + 1)) by (apply M3; lia).
  assert (VC : valid_curve c').
  { unfold valid_curve. rewrite Dg, LI. apply (kv_after_valid _ _ (c_knots c) t span count); auto. }
  split; [auto|]. split. { destruct RA as [L _]. auto. }
  split. { apply (kv_after_perm _ _ span); auto; lia. }
  assert (K1 : knot (c_knots c') (c_deg c) = knot (c_knots c) (c_deg c)) by (apply A; lia).
  assert (K2 : knot (c_knots c') (last_ix c' + 1) = knot (c_knots c) (last_ix c + 1)).
  { rewrite LI, C by lia. f_equal. lia. }
  split. { intro u. unfold in_domain. rewrite Dg, K1, K2. tauto. }
  intros f u Cf [D1 D2]. unfold column_value. rewrite Dg, LI.
  apply (insertion_keeps_coord (c_deg c) (last_ix c) (c_knots c) (c_knots c') (c_pts c) (c_pts c') t count
           (multiplicity (c_knots c) t) span); auto;
    try (unfold last_ix; lia); now apply column_coord.
Qed.

(* rows all have weight w -> so have the rows of the refined curve *)
Lemma T_weight U p span u P w : (forall i, (span - p <= i <= span)%Z -> pw (P i) = w) ->
  forall j i, (0 <= i)%Z -> (i + Z.of_nat j <= p)%Z -> pw (T U p span u P j i) = w.
Proof.
  intros H. induction j as [|j IH]; intros i H1 H2; cbn [T].
  - apply H. lia.
  - unfold lerp. cbn [pw]. rewrite !IH by lia. ring.
Qed.

Lemma In_ctrl P q : In q P -> exists i, (0 <= i < lenZ P)%Z /\ q = ctrl P i.
Proof.
  intro H. apply (In_nth _ _ pt0) in H. destruct H as [k [H1 H2]].
  exists (Z.of_nat k). split. { unfold lenZ. lia. } unfold ctrl, atZ. rewrite Nat2Z.id. auto.
Qed.

Lemma rows_weight p n U P u num s span R w : valid_knots p n U -> lenZ P = (n + 1)%Z ->
  (0 <= num)%Z -> (0 <= s)%Z -> (num + s <= p)%Z -> (p <= span <= n)%Z ->
  rows_after U P p u num s span R -> (forall q, In q P -> pw q = w) -> forall q, In q R -> pw q = w.
Proof.
  intros V LP Hn Hs Hns Hsp [L [A [B [Lf [Rt Md]]]]] HW q Hq. pose proof V as [Hp _].
  assert (HP : forall i, (0 <= i < lenZ P)%Z -> pw (ctrl P i) = w) by (intros; apply HW, ctrl_In; auto).
  assert (HT : forall j i, (0 <= i)%Z -> (i + Z.of_nat j <= p)%Z -> pw (T (knot U) p span u (ctrl P) j i) = w).
  { apply T_weight. intros. apply HP. lia. }
  destruct (In_ctrl R q Hq) as [i [Hi ->]].
  destruct (Z_le_dec i (span - p)). { rewrite A by lia. apply HP; lia. }
  destruct (Z_le_dec (span - s + num) i). { rewrite B by lia. apply HP; lia. }
  destruct (Z_le_dec i (span - p + num)).
  { replace i with (span - p + (i - (span - p)))%Z by lia. rewrite Lf by lia. apply HT; lia. }
  destruct (Z_le_dec (span - s) i).
  { replace i with (span - s + num - (span - s + num - i))%Z by lia. rewrite Rt by lia. apply HT; lia. }
  rewrite Md by lia. apply HT; lia.
Qed.

Lemma insert_knot_evaluate c t count junk :
  valid_curve c -> equal_weights c ->
  knot (c_knots c) (c_deg c) <= t -> t < knot (c_knots c) (last_ix c + 1) ->
  separated t (c_knots c) -> (0 <= count)%Z ->
  (count + multiplicity (c_knots c) t <= c_deg c)%Z ->
  lenZ junk = (lenZ (c_pts c) + count)%Z ->
  exists c', insert_knot c t count junk = Ok c' /\ valid_curve c' /\ equal_weights c' /\
    (forall u, in_domain c u -> evaluate c' u = evaluate c u).
Proof.
  intros V [w [Hw HW]] H1 H2 Sep Hc Hm LJ. pose proof V as [Hp _].
  destruct (insert_knot_ok c t count junk V H1 H2 Sep Hc Hm LJ) as [c' [E [Dg [VC [LP [_ [Dm CV]]]]]]].
  destruct (insert_knot_raw c t count junk V H1 H2 Sep Hc Hm LJ) as [c2 [span [E' [_ [_ [_ [Hs [M [KV [RA _]]]]]]]]]].
  rewrite E in E'. inversion E'; subst c2; clear E'.
  assert (EW : equal_weights c').
  { exists w. split; auto. apply (rows_weight (c_deg c) (last_ix c) (c_knots c) (c_pts c) t count (multiplicity (c_knots c) t) span); auto;
      try (unfold last_ix; lia). destruct M; lia. }
  exists c'. split; [auto|]. split; [auto|]. split; [auto|].
  intros u D. rewrite !evaluate_equal; auto.
  - rewrite !CV; auto; unfold column; auto.
  - exists w; auto.
  - now apply Dm.
Qed.
