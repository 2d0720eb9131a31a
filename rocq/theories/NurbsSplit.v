(* Splitting a curve at a parameter. *)
From Coq Require Import List ZArith Lia Bool QArith Qcanon Permutation.
From Verif Require Import Common ListLib QcLib ArrZ SplineTheory SplineTheory2 NurbsModel NurbsSpec NurbsProofs NurbsProofs2 NurbsProofs3 NurbsEditModel NurbsEditSpec NurbsInsert NurbsEditProofs NurbsEditProofs2 NurbsReverse.
Import ListNotations.
Local Open Scope Z_scope.
Local Open Scope Qc_scope.

(* the span search called with one index too many still finds the span *)
Lemma find_span_over p n U u sp : valid_knots p n U -> (1 <= p)%Z -> knot U p <= u -> u < knot U (n + 1) ->
  (p <= sp <= n)%Z -> knot U sp <= u -> u < knot U (sp + 1) -> find_span (n + 1) p u U false = Ok sp.
Proof.
  intros [Hp [L [M _]]] Hp1 Hu Hn Hsp A B. unfold find_span, find_span_fuel.
  rewrite !rd_knot by lia. cbn [bind].
  assert (knot U (n + 1) <= knot U (n + 1 + 1)) by (apply M; lia).
  destruct (qle (knot U (n + 1 + 1)) u) eqn:E1. { apply qle_true in E1. qlra. }
  rewrite ?rd_knot by lia. cbn [bind].
  assert (knot U 0 <= knot U p) by (apply M; lia).
  destruct (qlt u (knot U 0)) eqn:E2. { apply qlt_true in E2. qlra. }
  destruct (qeq u (knot U (n+1+1))) eqn:E3. { apply qeq_true in E3. subst. qlra. }
  destruct (span_search_ok u U (span_fuel (n+1) p u U) p (n+1+1)) as [s [S1 [S2 [S3 S4]]]]; auto; try lia.
  { qlra. }
  { pose proof (span_fuel_ge (n+1) p u U). lia. }
  rewrite S1. f_equal.
  destruct (Z_lt_le_dec s sp). { assert (knot U (s + 1) <= knot U sp) by (apply M; lia). qlra. }
  destruct (Z_lt_le_dec sp s). { assert (knot U (sp + 1) <= knot U s) by (apply M; lia). qlra. }
  lia.
Qed.

Lemma new_curve_open P p U : (1 <= p)%Z -> (p + 1 <= lenZ U)%Z ->
  exists g, new_curve P p (Some U) false = Ok (mkcurve P p U false (knot U 0, knot U (lenZ U - 1)) g).
Proof.
  intros H1 H2. unfold new_curve, knots_update_hook, update_interval. cbn [c_knots c_deg c_pts c_per].
  rewrite !rd_knot by lia. cbn [bind].
  destruct (greville_ok U p H1 H2) as [g [E _]]. rewrite E. cbn [bind]. eauto.
Qed.

Lemma split_guard t t0 t1 tol : 0 <= tol -> t0 + tol < t -> t + tol < t1 ->
  (qle t t0 || qle t1 t || qle (qabs (t - t0)) tol || qle (qabs (t - t1)) tol)%bool = false.
Proof.
  intros H0 H1 H2. unfold qabs.
  destruct (qle t t0) eqn:A; [apply qle_true in A; qlra|].
  destruct (qle t1 t) eqn:B; [apply qle_true in B; qlra|].
  destruct (qlt (t - t0) 0) eqn:X; [apply qlt_true in X; qlra|].
  destruct (qle (t - t0) tol) eqn:X2; [apply qle_true in X2; qlra|].
  destruct (qlt (t - t1) 0) eqn:Y; [apply qlt_true in Y|apply qlt_false in Y; qlra].
  destruct (qle (- (t - t1)) tol) eqn:Y2; [apply qle_true in Y2; qlra|]. reflexivity.
Qed.

(* The two pieces cut out of a curve (V, R) in which t occurs exactly p times,
   at the indices d+1 .. d+p. *)
Section Pieces.
Variables (p n d : Z) (V : list Qc) (R : list pt) (t : Qc).
Hypothesis (VV : valid_knots p n V) (Hp1 : (1 <= p)%Z) (LR : lenZ R = (n + 1)%Z).
Hypothesis (Hd : (p <= d)%Z) (Hdn : (d + p <= n)%Z).
Hypothesis (Kt : forall i, (d < i <= d + p)%Z -> knot V i = t).
Hypothesis (Klo : knot V d < t) (Khi : t < knot V (d + p + 1)).

Definition piece1_knots := slice_to V (d + p + 1) ++ [t].
Definition piece1_pts := slice_to R (d + 1).
Definition piece2_knots := repeat t (Z.to_nat (p + 1)) ++ slice_from V (d + p + 1).
Definition piece2_pts := slice_from R d.

Lemma piece1_len : lenZ piece1_knots = (d + p + 2)%Z.
Proof.
  destruct VV as [Hp [L _]]. unfold piece1_knots, slice_to. rewrite lenZ_app, lenZ_firstn by lia.
  unfold lenZ. simpl length. lia.
Qed.
Lemma piece1_at i : (0 <= i <= d + p)%Z -> knot piece1_knots i = knot V i.
Proof.
  intro H. destruct VV as [Hp [L _]]. unfold piece1_knots, slice_to, knot.
  rewrite atZ_app1 by (rewrite lenZ_firstn; lia). rewrite atZ_firstn; auto. lia.
Qed.
Lemma piece1_last : knot piece1_knots (d + p + 1) = t.
Proof.
  destruct VV as [Hp [L _]]. unfold piece1_knots, slice_to, knot.
  rewrite atZ_app2 by (rewrite lenZ_firstn; lia). rewrite lenZ_firstn by lia.
  replace (d + p + 1 - Z.of_nat (Z.to_nat (d + p + 1)))%Z with 0%Z by lia. reflexivity.
Qed.
Lemma piece1_plen : lenZ piece1_pts = (d + 1)%Z.
Proof. unfold piece1_pts, slice_to. rewrite lenZ_firstn; lia. Qed.
Lemma piece1_ctrl i : (0 <= i <= d)%Z -> ctrl piece1_pts i = ctrl R i.
Proof. intro. unfold piece1_pts, slice_to, ctrl. rewrite atZ_firstn; auto. lia. Qed.

Lemma piece1_sorted_t i : (0 <= i <= d + p + 1)%Z -> knot piece1_knots i <= t.
Proof.
  intro H. pose proof VV as [Hp [L [M N]]].
  destruct (Z.eq_dec i (d + p + 1)) as [->|]. { rewrite piece1_last. apply Qcle_refl. }
  rewrite piece1_at by lia. rewrite <- (Kt (d + p)) by lia. apply M; lia.
Qed.

Lemma piece1_valid : valid_knots p d piece1_knots.
Proof.
  pose proof VV as [Hp [L [M N]]]. split; [lia|]. split; [apply piece1_len|]. split.
  - intros i j H1 H2 H3. rewrite piece1_len in H3.
    destruct (Z.eq_dec j (d + p + 1)) as [->|]. { rewrite piece1_last. apply piece1_sorted_t; lia. }
    rewrite !piece1_at by lia. apply M; lia.
  - rewrite !piece1_at by lia. rewrite (Kt (d + 1)) by lia. auto.
Qed.

Lemma kn_rep_t U : (forall i, (d < i <= d + p)%Z -> knot U i = t) ->
  kn (knot U) d (Z.to_nat p) = repeat t (Z.to_nat p).
Proof. intro H. apply kn_const. intros k Hk. apply H. lia. Qed.

(* the value at t is a control point *)
Lemma value_at_t s e : span_of p n V t s -> chain (knot V) s (repeat t (Z.to_nat p)) e = e d.
Proof.
  intros S. pose proof VV as [Hp [L [M N]]]. pose proof S as [Hs [S1 S2]].
  assert (Lt : t < knot V (n + 1)). { assert (knot V (d + p + 1) <= knot V (n + 1)) by (apply M; lia). qlra. }
  destruct (S1 Lt) as [A B].
  assert (s = d + p)%Z.
  { destruct (Z_lt_le_dec s (d + p)). { assert (knot V (s + 1) <= knot V (d + p)) by (apply M; lia). rewrite (Kt (d + p)) in H by lia. qlra. }
    destruct (Z_lt_le_dec (d + p) s). { assert (knot V (d + p + 1) <= knot V s) by (apply M; lia). qlra. } lia. }
  rewrite <- (kn_rep_t V Kt). apply chain_dual. { apply (span_ndg p n V t); auto. } lia.
Qed.

Lemma piece1_point x : knot V p <= x -> x <= t ->
  nurbs_point piece1_knots d p piece1_pts x = nurbs_point V n p R x.
Proof.
  intros H1 H2. pose proof VV as [Hp [L [M N]]].
  destruct (find_span_span_of p n V x VV H1) as [s [_ S]].
  assert (G1 : knot piece1_knots p <= x) by (rewrite piece1_at by lia; auto).
  destruct (find_span_span_of p d piece1_knots x piece1_valid G1) as [z [_ Z']].
  apply (nurbs_point_eq p n V R x s p d _ _ _ z); auto. { apply piece1_valid. }
  intro g. pose proof S as [Hs [S1 S2]]. pose proof Z' as [Hz [Z1 Z2]].
  rewrite piece1_at in Z1, Z2 by lia. rewrite (Kt (d + 1)) in Z1, Z2 by lia.
  assert (Lt : x < knot V (n + 1)). { assert (knot V (d + p + 1) <= knot V (n + 1)) by (apply M; lia). qlra. }
  destruct (S1 Lt) as [A B].
  destruct (Qclt_le_dec x t) as [Lx|Gx].
  - destruct (Z1 Lx) as [A' B']. rewrite piece1_at in A', B' by lia.
    assert (z = s).
    { destruct (Z_lt_le_dec s z). { assert (knot V (s + 1) <= knot V z) by (apply M; lia). qlra. }
      destruct (Z_lt_le_dec z s). { assert (knot V (z + 1) <= knot V s) by (apply M; lia). qlra. } lia. }
    subst z. apply chain_ext2; rewrite repeat_length.
    + intros i Hi. apply piece1_at. lia.
    + intros i Hi. cbv beta. rewrite piece1_ctrl; auto. lia.
  - assert (x = t) by (apply Qcle_antisym; auto). subst x.
    rewrite (value_at_t s (fun i => g (ctrl R i)) S).
    rewrite Z2 by auto. rewrite <- (kn_rep_t piece1_knots).
    2:{ intros i Hi. rewrite piece1_at by lia. apply Kt. lia. }
    rewrite chain_dual. { now rewrite piece1_ctrl by lia. }
    { apply (span_ndg p d piece1_knots t); [apply piece1_valid|]. rewrite (Z2 Gx) in Z'. exact Z'. }
    lia.
Qed.

Lemma piece2_len : lenZ piece2_knots = (n - d + p + 2)%Z.
Proof.
  destruct VV as [Hp [L _]]. unfold piece2_knots, slice_from. rewrite lenZ_app, lenZ_skipn, lenZ_repeat by lia. lia.
Qed.
Lemma piece2_at i : (1 <= i <= n - d + p + 1)%Z -> knot piece2_knots i = knot V (i + d).
Proof.
  intro H. destruct VV as [Hp [L _]]. unfold piece2_knots, slice_from, knot.
  destruct (Z_le_dec i p).
  - rewrite atZ_app1 by (rewrite lenZ_repeat; lia). rewrite atZ_repeat_in by lia.
    fold (knot V (i + d)). symmetry. apply Kt. lia.
  - rewrite atZ_app2 by (rewrite lenZ_repeat; lia). rewrite lenZ_repeat. rewrite atZ_skipn by lia. f_equal. lia.
Qed.
Lemma piece2_first : knot piece2_knots 0 = t.
Proof.
  destruct VV as [Hp [L _]]. unfold piece2_knots, knot. rewrite atZ_app1 by (rewrite lenZ_repeat; lia).
  now rewrite atZ_repeat_in by lia.
Qed.
Lemma piece2_plen : lenZ piece2_pts = (n - d + 1)%Z.
Proof. unfold piece2_pts, slice_from. rewrite lenZ_skipn; lia. Qed.
Lemma piece2_ctrl i : (0 <= i)%Z -> ctrl piece2_pts i = ctrl R (i + d).
Proof. intro. unfold piece2_pts, slice_from, ctrl. rewrite atZ_skipn; auto. f_equal. lia. Qed.

Lemma piece2_valid : valid_knots p (n - d) piece2_knots.
Proof.
  pose proof VV as [Hp [L [M N]]]. split; [lia|]. split; [apply piece2_len|]. split.
  - intros i j H1 H2 H3. rewrite piece2_len in H3.
    destruct (Z.eq_dec j 0) as [->|]. { replace i with 0%Z by lia. apply Qcle_refl. }
    rewrite (piece2_at j) by lia.
    destruct (Z.eq_dec i 0) as [->|].
    + rewrite piece2_first. rewrite <- (Kt (d + 1)) by lia. apply M; lia.
    + rewrite piece2_at by lia. apply M; lia.
  - rewrite !piece2_at by lia. replace (n - d + d)%Z with n by lia.
    replace (n - d + 1 + d)%Z with (n + 1)%Z by lia. auto.
Qed.

Lemma piece2_point x : t <= x -> x <= knot V (n + 1) ->
  nurbs_point piece2_knots (n - d) p piece2_pts x = nurbs_point V n p R x.
Proof.
  intros H1 H2. pose proof VV as [Hp [L [M N]]].
  assert (G0 : knot V p <= x). { assert (knot V p <= knot V d) by (apply M; lia). qlra. }
  destruct (find_span_span_of p n V x VV G0) as [s [_ S]].
  assert (G1 : knot piece2_knots p <= x). { rewrite piece2_at by lia. rewrite Kt by lia. auto. }
  destruct (find_span_span_of p (n - d) piece2_knots x piece2_valid G1) as [z [_ Z']].
  apply (nurbs_point_eq p n V R x s p (n - d) _ _ _ z); auto. { apply piece2_valid. }
  intro g. pose proof S as [Hs [S1 S2]]. pose proof Z' as [Hz [Z1 Z2]].
  assert (s = z + d)%Z.
  { rewrite piece2_at in Z1, Z2 by lia. replace (n - d + 1 + d)%Z with (n + 1)%Z in Z1, Z2 by lia.
    destruct (Qclt_le_dec x (knot V (n + 1))) as [Lt|Ge].
    - destruct (S1 Lt) as [A B]. destruct (Z1 Lt) as [A' B']. rewrite piece2_at in A', B' by lia.
      replace (z + 1 + d)%Z with (z + d + 1)%Z in B' by lia.
      destruct (Z_lt_le_dec s (z + d)). { assert (knot V (s + 1) <= knot V (z + d)) by (apply M; lia). qlra. }
      destruct (Z_lt_le_dec (z + d) s). { assert (knot V (z + d + 1) <= knot V s) by (apply M; lia). qlra. } lia.
    - rewrite (S2 Ge). pose proof (Z2 Ge). lia. }
  subst s. rewrite chain_shift. apply chain_ext2; rewrite repeat_length.
  - intros i Hi. rewrite piece2_at by lia. reflexivity.
  - intros i Hi. cbv beta. rewrite piece2_ctrl; auto. lia.
Qed.
End Pieces.

Lemma in_firstn {A} k (l : list A) x : In x (firstn k l) -> In x l.
Proof. intro H. rewrite <- (firstn_skipn k l). apply in_or_app. auto. Qed.
Lemma in_skipn {A} k (l : list A) x : In x (skipn k l) -> In x l.
Proof. intro H. rewrite <- (firstn_skipn k l). apply in_or_app. auto. Qed.

Lemma split_raw c t tol junk :
  valid_curve c -> (1 <= c_deg c)%Z -> equal_weights c ->
  update_interval (c_knots c) = Ok (c_int c) ->
  0 <= tol -> knot (c_knots c) 0 + tol < t -> t + tol < knot (c_knots c) (lenZ (c_knots c) - 1) ->
  knot (c_knots c) (c_deg c) < t -> t < knot (c_knots c) (last_ix c + 1) ->
  separated t (c_knots c) -> (multiplicity (c_knots c) t <= c_deg c)%Z ->
  lenZ junk = (lenZ (c_pts c) + (c_deg c - multiplicity (c_knots c) t))%Z ->
  exists c1 c2, split_curve c t tol false junk = Ok (c1, c2) /\
    split_curve c t tol true junk = (do d1 <- normalize_knots c1 ; do d2 <- normalize_knots c2 ; Ok (d1, d2)) /\
    valid_curve c1 /\ valid_curve c2 /\ equal_weights c1 /\ equal_weights c2 /\
    c_deg c1 = c_deg c /\ c_deg c2 = c_deg c /\
    update_interval (c_knots c1) = Ok (c_int c1) /\ update_interval (c_knots c2) = Ok (c_int c2) /\
    c_int c1 = (fst (c_int c), t) /\ c_int c2 = (t, snd (c_int c)) /\
    (forall x, in_domain c1 x <-> in_domain c x /\ x <= t) /\
    (forall x, in_domain c2 x <-> in_domain c x /\ t <= x) /\
    (forall x, in_domain c1 x -> evaluate c1 x = evaluate c x) /\
    (forall x, in_domain c2 x -> evaluate c2 x = evaluate c x).
Proof.
  intros V Hp1 EW EI Ht0 Hlo Hhi H1 H2 Sep Hm LJ. pose proof V as [Hp [LU [Mo NN]]].
  set (m := multiplicity (c_knots c) t) in *.
  assert (EI' : c_int c = (knot (c_knots c) 0, knot (c_knots c) (lenZ (c_knots c) - 1))).
  { unfold update_interval in EI. rewrite !rd_knot in EI by lia. cbn [bind] in EI. congruence. }
  assert (H1' : knot (c_knots c) (c_deg c) <= t) by qlra.
  destruct (insert_knot_raw c t (c_deg c - m) junk V H1' H2 Sep) as [tmp [span [E [Dg [_ [_ [Hs [M [KV [RA [FS EI2]]]]]]]]]]];
    fold m; try lia. fold m in M, RA.
  destruct (insert_knot_evaluate c t (c_deg c - m) junk V EW H1' H2 Sep) as [tmp' [E' [VT [EWT EV]]]];
    fold m; try lia. rewrite E in E'. inversion E'. subst tmp'. clear E'.
  pose proof (rows_last c t (c_deg c - m) m span tmp ltac:(lia) RA) as LI.
  pose proof M as [M0 [M1 [M2 M3]]]. pose proof KV as [LV [KA [KB KC]]].
  assert (T1 : knot (c_knots c) span <= t).
  { destruct (Z_le_dec m 0). apply Qclt_le_weak, M2; lia. rewrite M1 by lia. apply Qcle_refl. }
  assert (T2 : t < knot (c_knots c) (span + 1)) by (apply M3; lia).
  assert (Hd : (c_deg c <= span - m)%Z).
  { destruct (Z_le_dec (c_deg c) (span - m)); auto. assert (knot (c_knots c) (c_deg c) = t) by (apply M1; lia).
    rewrite H in H1. qlra. }
  set (p := c_deg c) in *. set (n := last_ix c) in *. set (U := c_knots c) in *. set (W := c_knots tmp) in *.
  set (d := (span - m)%Z) in *. assert (Dd : d = (span - m)%Z) by reflexivity.
  assert (VT' : valid_knots p (n + (p - m)) W). { unfold valid_curve in VT. rewrite Dg, LI in VT. exact VT. }
  assert (LR : lenZ (c_pts tmp) = (n + (p - m) + 1)%Z). { unfold last_ix in LI. lia. }
  assert (Kt : forall i, (d < i <= d + p)%Z -> knot W i = t).
  { intros i Hi. destruct (Z_le_dec i span). rewrite KA by lia. apply M1; lia. apply KB; lia. }
  assert (Klo : knot W d < t). { rewrite KA by lia. apply M2; lia. }
  assert (Khi : t < knot W (d + p + 1)).
  { rewrite KC by lia. replace (d + p + 1 - (p - m))%Z with (span + 1)%Z by lia. auto. }
  assert (Hdn : (d + p <= n + (p - m))%Z) by lia.
  assert (FS1 : find_span (lenZ (c_pts c)) p t U false = Ok span).
  { replace (lenZ (c_pts c)) with (n + 1)%Z by (unfold n, last_ix; lia). apply find_span_over; auto. }
  assert (Lt' : t < knot W (n + (p - m) + 1)).
  { rewrite KC by lia. replace (n + (p - m) + 1 - (p - m))%Z with (n + 1)%Z by lia. auto. }
  assert (FS2 : find_span (lenZ (c_pts tmp)) p t W false = Ok (d + p)%Z).
  { rewrite LR. apply find_span_over; auto; try lia.
    - rewrite KA by lia. auto.
    - rewrite Kt by lia. apply Qcle_refl. }
  assert (EM : find_multiplicity t U = Ok m) by (apply find_multiplicity_count; auto).
  destruct (new_curve_open (piece1_pts d (c_pts tmp)) p (piece1_knots p d W t) Hp1) as [g1 G1].
  { rewrite (piece1_len p (n + (p - m))) by auto. lia. }
  destruct (new_curve_open (piece2_pts d (c_pts tmp)) p (piece2_knots p d W t) Hp1) as [g2 G2].
  { rewrite (piece2_len p (n + (p - m)) d W t) by auto. lia. }
  set (c1 := mkcurve (piece1_pts d (c_pts tmp)) p (piece1_knots p d W t) false _ g1) in G1.
  set (c2 := mkcurve (piece2_pts d (c_pts tmp)) p (piece2_knots p d W t) false _ g2) in G2.
  exists c1, c2.
  assert (ES : forall nb, split_curve c t tol nb junk
     = if nb then (do d1 <- normalize_knots c1 ; do d2 <- normalize_knots c2 ; Ok (d1, d2)) else Ok (c1, c2)).
  { intro nb. unfold split_curve. rewrite EI'. rewrite split_guard by auto.
    fold p U. rewrite FS1. cbn [bind]. rewrite EM. cbn [bind]. rewrite E. cbn [bind]. fold W.
    rewrite FS2. cbn [bind].
    replace (span - p + 1 + (p - m))%Z with (d + 1)%Z by lia.
    replace (d + 1 - 1)%Z with d by lia.
    change (slice_to W (d + p + 1) ++ [t]) with (piece1_knots p d W t).
    change (slice_to (c_pts tmp) (d + 1)) with (piece1_pts d (c_pts tmp)).
    change (repeat t (Z.to_nat (p + 1)) ++ slice_from W (d + p + 1)) with (piece2_knots p d W t).
    change (slice_from (c_pts tmp) d) with (piece2_pts d (c_pts tmp)).
    rewrite G1. cbn [bind]. rewrite G2. cbn [bind]. destruct nb; auto. }
  assert (V1 : valid_curve c1).
  { unfold valid_curve, last_ix. cbn [c_deg c_pts c_knots c1]. rewrite (piece1_plen p (n + (p - m))) by (auto; lia).
    replace (d + 1 - 1)%Z with d by lia. eapply piece1_valid; eauto. }
  assert (V2 : valid_curve c2).
  { unfold valid_curve, last_ix. cbn [c_deg c_pts c_knots c2]. rewrite (piece2_plen p (n + (p - m))) by (auto; lia).
    replace (n + (p - m) - d + 1 - 1)%Z with (n + (p - m) - d)%Z by lia. eapply piece2_valid; eauto. }
  assert (W1 : equal_weights c1).
  { destruct EWT as [w [Hw HW]]. exists w. split; auto. intros q Hq. apply HW. unfold c1, piece1_pts, slice_to in Hq. cbn [c_pts] in Hq. exact (in_firstn _ _ _ Hq). }
  assert (W2 : equal_weights c2).
  { destruct EWT as [w [Hw HW]]. exists w. split; auto. intros q Hq. apply HW. unfold c2, piece2_pts, slice_from in Hq. cbn [c_pts] in Hq. exact (in_skipn _ _ _ Hq). }
  assert (L1 : last_ix c1 = d).
  { unfold last_ix. cbn [c_pts c1]. rewrite (piece1_plen p (n + (p - m))) by (auto; lia). lia. }
  assert (L2 : last_ix c2 = (n + (p - m) - d)%Z).
  { unfold last_ix. cbn [c_pts c2]. rewrite (piece2_plen p (n + (p - m))) by (auto; lia). lia. }
  assert (D1 : forall x, in_domain c1 x <-> in_domain c x /\ x <= t).
  { intro x. unfold in_domain. rewrite L1. cbn [c_knots c_deg c1].
    rewrite !(piece1_at p (n + (p - m))) by (auto; lia). rewrite (Kt (d + 1)%Z) by lia. fold p n U.
    rewrite KA by lia. split; [intros [X Y]|intros [[X Y] Z']]; repeat split; try assumption; qlra. }
  assert (D2 : forall x, in_domain c2 x <-> in_domain c x /\ t <= x).
  { intro x. unfold in_domain. rewrite L2. cbn [c_knots c_deg c2].
    rewrite !(piece2_at p (n + (p - m))) by (auto; lia). rewrite (Kt (p + d)%Z) by lia. fold p n U.
    replace (n + (p - m) - d + 1 + d)%Z with (n + (p - m) + 1)%Z by lia.
    rewrite KC by lia. replace (n + (p - m) + 1 - (p - m))%Z with (n + 1)%Z by lia.
    split; [intros [X Y]|intros [[X Y] Z']]; repeat split; auto; qlra. }
  assert (DT : forall x, in_domain c x -> in_domain tmp x).
  { intros x [X Y]. unfold in_domain. rewrite Dg, LI. fold p n U W in X, Y |- *. rewrite KA, KC by lia.
    replace (n + (p - m) + 1 - (p - m))%Z with (n + 1)%Z by lia. auto. }
  split; [apply (ES false)|]. split; [apply (ES true)|].
  split; [auto|]. split; [auto|]. split; [auto|]. split; [auto|]. split; [auto|]. split; [auto|].
  assert (UI : forall c0, valid_curve c0 -> (0 < lenZ (c_knots c0))%Z -> update_interval (c_knots c0)
     = Ok (knot (c_knots c0) 0, knot (c_knots c0) (lenZ (c_knots c0) - 1))).
  { intros c0 _ H. unfold update_interval. rewrite !rd_knot by lia. auto. }
  split. { apply (UI c1); auto. unfold c1. cbn [c_knots]. rewrite (piece1_len p (n + (p - m))) by auto. lia. }
  split. { apply (UI c2); auto. unfold c2. cbn [c_knots]. rewrite (piece2_len p (n + (p - m)) d W t) by auto. lia. }
  split. { unfold c1. cbn [c_int]. rewrite (piece1_len p (n + (p - m))) by auto.
    rewrite (piece1_at p (n + (p - m))) by (auto; lia). replace (d + p + 2 - 1)%Z with (d + p + 1)%Z by lia.
    rewrite (piece1_last p (n + (p - m))) by auto. rewrite EI'. cbn [fst]. rewrite KA by lia. auto. }
  split. { unfold c2. cbn [c_int]. rewrite (piece2_len p (n + (p - m))) by auto.
    rewrite (piece2_first p (n + (p - m))) by auto. rewrite (piece2_at p (n + (p - m))) by (auto; lia).
    rewrite EI'. cbn [snd]. rewrite KC by lia. do 2 f_equal. lia. }
  split; [auto|]. split; [auto|]. split.
  - intros x Dx. pose proof (proj1 (D1 x) Dx) as [Dc Lx]. rewrite <- EV by auto.
    rewrite !evaluate_equal_point by auto. f_equal. rewrite L1, LI, Dg. cbn [c_knots c_deg c_pts c1].
    eapply piece1_point; eauto. rewrite KA by lia. apply Dc.
  - intros x Dx. pose proof (proj1 (D2 x) Dx) as [Dc Lx]. rewrite <- EV by auto.
    rewrite !evaluate_equal_point by auto. f_equal. rewrite L2, LI, Dg. cbn [c_knots c_deg c_pts c2].
    eapply piece2_point; eauto. rewrite KC by lia.
    replace (n + (p - m) + 1 - (p - m))%Z with (n + 1)%Z by lia. apply Dc.
Qed.

Lemma split_normalized c t tol junk :
  valid_curve c -> (1 <= c_deg c)%Z -> equal_weights c ->
  update_interval (c_knots c) = Ok (c_int c) ->
  0 <= tol -> knot (c_knots c) 0 + tol < t -> t + tol < knot (c_knots c) (lenZ (c_knots c) - 1) ->
  knot (c_knots c) (c_deg c) < t -> t < knot (c_knots c) (last_ix c + 1) ->
  separated t (c_knots c) -> (multiplicity (c_knots c) t <= c_deg c)%Z ->
  lenZ junk = (lenZ (c_pts c) + (c_deg c - multiplicity (c_knots c) t))%Z ->
  let (a, b) := c_int c in
  exists d1 d2, split_curve c t tol true junk = Ok (d1, d2) /\
    valid_curve d1 /\ valid_curve d2 /\ c_int d1 = (0, 1) /\ c_int d2 = (0, 1) /\
    (forall x, in_domain c x -> x <= t -> evaluate d1 ((x - a) / (t - a)) = evaluate c x) /\
    (forall x, in_domain c x -> t <= x -> evaluate d2 ((x - t) / (b - t)) = evaluate c x).
Proof.
  intros V Hp1 EW EI Ht0 Hlo Hhi H1 H2 Sep Hm LJ.
  destruct (split_raw c t tol junk V Hp1 EW EI Ht0 Hlo Hhi H1 H2 Sep Hm LJ)
    as [c1 [c2 [_ [E [V1 [V2 [W1 [W2 [G1 [G2 [U1 [U2 [I1 [I2 [D1 [D2 [X1 X2]]]]]]]]]]]]]]]]].
  destruct (c_int c) as [a b] eqn:Ei. cbn [fst snd] in *. rewrite I1 in U1. rewrite I2 in U2.
  assert (N1 : (1 <= c_deg c1)%Z) by lia. assert (N2 : (1 <= c_deg c2)%Z) by lia.
  assert (UI : forall U x y, (0 < lenZ U)%Z -> update_interval U = Ok (x, y) -> knot U 0 = x /\ knot U (lenZ U - 1) = y).
  { intros U x y HL H. unfold update_interval in H. rewrite !rd_knot in H by lia. cbn [bind] in H. inversion H. auto. }
  destruct (UI (c_knots c1) _ _ ltac:(destruct V1 as [? [? _]]; lia) U1) as [A1 B1].
  destruct (UI (c_knots c2) _ _ ltac:(destruct V2 as [? [? _]]; lia) U2) as [A2 B2].
  destruct (normalize_knots_ok c1 V1 N1) as [L1 [d1 [E1 [VD1 [_ [_ [_ [_ [J1 [_ F1]]]]]]]]]].
  destruct (normalize_knots_ok c2 V2 N2) as [L2 [d2 [E2 [VD2 [_ [_ [_ [_ [J2 [_ F2]]]]]]]]]].
  rewrite A1, B1 in F1. rewrite A2, B2 in F2.
  exists d1, d2. rewrite E, E1. cbn [bind]. rewrite E2. cbn [bind]. split; [auto|]. split; [auto|]. split; [auto|].
  split; [auto|]. split; [auto|]. split.
  - intros x Dx Lx. assert (D : in_domain c1 x) by (apply D1; auto). rewrite <- X1 by auto. apply F1; auto.
  - intros x Dx Lx. assert (D : in_domain c2 x) by (apply D2; auto). rewrite <- X2 by auto. apply F2; auto.
Qed.

Lemma split_plain c t tol junk :
  valid_curve c -> (1 <= c_deg c)%Z -> equal_weights c ->
  update_interval (c_knots c) = Ok (c_int c) ->
  0 <= tol -> knot (c_knots c) 0 + tol < t -> t + tol < knot (c_knots c) (lenZ (c_knots c) - 1) ->
  knot (c_knots c) (c_deg c) < t -> t < knot (c_knots c) (last_ix c + 1) ->
  separated t (c_knots c) -> (multiplicity (c_knots c) t <= c_deg c)%Z ->
  lenZ junk = (lenZ (c_pts c) + (c_deg c - multiplicity (c_knots c) t))%Z ->
  exists c1 c2, split_curve c t tol false junk = Ok (c1, c2) /\
    valid_curve c1 /\ valid_curve c2 /\
    c_int c1 = (fst (c_int c), t) /\ c_int c2 = (t, snd (c_int c)) /\
    (forall x, in_domain c1 x <-> in_domain c x /\ x <= t) /\
    (forall x, in_domain c2 x <-> in_domain c x /\ t <= x) /\
    (forall x, in_domain c1 x -> evaluate c1 x = evaluate c x) /\
    (forall x, in_domain c2 x -> evaluate c2 x = evaluate c x).
Proof.
  intros V Hp1 EW EI Ht0 Hlo Hhi H1 H2 Sep Hm LJ.
  destruct (split_raw c t tol junk V Hp1 EW EI Ht0 Hlo Hhi H1 H2 Sep Hm LJ)
    as [c1 [c2 [E [_ [V1 [V2 [_ [_ [_ [_ [_ [_ [I1 [I2 [D1 [D2 [X1 X2]]]]]]]]]]]]]]]]].
  exists c1, c2. auto 12.
Qed.
