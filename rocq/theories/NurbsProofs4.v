(* Statements of NurbsProps.v assembled from the lemmas, and the witnesses of
   the refutations. *)
From Coq Require Import List ZArith Lia Bool QArith Qcanon Qround.
From Verif Require Import Common ListLib QcLib ArrZ SplineTheory SplineTheory2 NurbsModel NurbsSpec NurbsProofs NurbsProofs2 NurbsProofs3.
Import ListNotations.
Local Open Scope Z_scope.
Local Open Scope Qc_scope.

Lemma find_span_periodic_any p n U u : valid_knots p n U ->
  exists k s, let v := u + Q2Qc (inject_Z k) * (knot U (n + 1) - knot U p) in
    find_span n p u U true = Ok s /\ knot U p <= v <= knot U (n + 1) /\ (p <= s <= n)%Z /\
    (v < knot U (n + 1) -> knot U s <= v /\ v < knot U (s + 1)) /\
    (knot U (n + 1) <= v -> s = n).
Proof.
  intros V. destruct (find_span_periodic p n U u V) as [k [s [E [B [S1 [S2 S3]]]]]].
  exists k, s. cbv zeta. fold (zq k). auto.
Qed.

Lemma basis_partition p n U u per buf : valid_knots p n U -> knot U p <= u -> u <= knot U (n + 1) ->
  lenZ buf = (p + 1)%Z ->
  exists s N, find_span n p u U per = Ok s /\ basis_funs s u p U buf = Ok N /\ lenZ N = (p + 1)%Z /\
    (forall r, (0 <= r <= p)%Z ->
       atZ 0 N r = cox_de_boor U n (Z.to_nat p) (s - p + r) u /\ 0 <= atZ 0 N r) /\
    sum_to p (fun r => atZ 0 N r) = 1 /\
    (forall i, (0 <= i <= n)%Z -> ~ (s - p <= i <= s)%Z -> cox_de_boor U n (Z.to_nat p) i u = 0).
Proof.
  intros V H1 H2 HB. destruct (find_span_any p n U u per V H1 H2) as [s [E SP]].
  pose proof V as [Hp [LU [M _]]]. pose proof SP as [Hs _].
  pose proof (span_ndg p n U u s V SP) as Nd.
  destruct (basis_funs_ok p s u U buf) as [N [B1 [B2 B3]]]; auto; try lia.
  destruct (span_of_bounds p n U u s V SP H2) as [T1 T2].
  exists s, N. split; [auto|]. split; [auto|]. split; [auto|]. split; [|split].
  - intros r Hr. rewrite B3 by lia. split.
    + symmetry. apply (cdb_Bs p n U u s); auto; lia.
    + apply Bs_nonneg; auto.
      * intros. rewrite Z2Nat.id in * by lia. apply (valid_window p n U s V); lia.
      * apply (span_of_pos p n U u); auto.
  - unfold sum_to. replace (Z.to_nat (p + 1)) with (S (Z.to_nat p)) by lia.
    rewrite (sum_n_ext _ _ _ (fun r => Bs (knot U) s u (Z.to_nat p) (r + (s - p)))).
    + rewrite (sum_n_shift _ 0 (Bs (knot U) s u (Z.to_nat p)) (s - p)).
      replace (0 + (s - p))%Z with (s - Z.of_nat (Z.to_nat p))%Z by lia. apply Bs_sum; auto.
    + intros r Hr. rewrite B3 by lia. f_equal. lia.
  - intros i Hi Hn. rewrite (cdb_Bs p n U u s) by (auto; lia). apply Bs_support. lia.
Qed.

Lemma bbox_weights_refuted : exists c u b v, valid_curve c /\ in_domain c u /\ positive_weights c /\
  bbox c = Ok b /\ evaluate c u = Ok v /\ ~ in_box3 b v.
Proof.
  set (c := mkcurve [mkpt 1 0 0 (zq 2); mkpt 1 0 0 (zq 2)] 1 (map zq [0; 0; 1; 1]%Z) false (0, 1) []).
  assert (V : valid_curve c) by (apply valid_knotsb_ok; vm_compute; auto).
  assert (Dm : in_domain c 0) by (split; vm_compute; discriminate).
  assert (PW : positive_weights c) by (repeat constructor).
  exists c, 0. destruct (bbox c) as [b|] eqn:Eb; [|vm_compute in Eb; discriminate].
  rewrite evaluate_pos by auto. exists b. eexists. split; [auto|]. split; [auto|]. split; [auto|].
  split; [auto|]. split; [reflexivity|].
  unfold nurbs_point. destruct b as [[[a0 a1] a2] [[b0 b1] b2]]. cbn [in_box3]. intros [[_ H] _].
  assert (B0 : this b0 = (1 # 2)%Q).
  { transitivity (this (match bbox c with Ok (_, ((b, _), _)) => b | Err _ => 0 end)). now rewrite Eb. vm_compute. auto. }
  rewrite qc_le_Q, B0 in H. vm_compute in H. apply H. auto.
Qed.

Lemma greville_all p n U : (1 <= p)%Z -> valid_knots p n U ->
  exists g, greville_abscissae U p = Ok g /\ lenZ g = (n + 1)%Z /\
    (forall i j, (0 <= i)%Z -> (i <= j)%Z -> (j <= n)%Z -> atZ 0 g i <= atZ 0 g j) /\
    (forall i, (0 <= i <= n)%Z -> knot U (i + 1) <= atZ 0 g i <= knot U (i + p)) /\
    (forall u, knot U p <= u <= knot U (n + 1) ->
       sum_to n (fun i => cox_de_boor U n (Z.to_nat p) i u * atZ 0 g i) = u).
Proof.
  intros Hp V. pose proof V as [Hpn [LU [M _]]].
  destruct (greville_ok U p Hp ltac:(lia)) as [g [E [Lg Ag]]]. rewrite LU in Lg.
  exists g. split; [auto|]. split; [lia|]. split; [|split].
  - intros i j Hi Hij Hj. rewrite !Ag by lia.
    assert (G : forall k, (i + Z.of_nat k <= n)%Z -> grev U p i <= grev U p (i + Z.of_nat k)).
    { induction k as [|k IH]; intro Hk.
      - replace (i + Z.of_nat 0)%Z with i by lia. apply Qcle_refl.
      - eapply Qcle_trans; [apply IH; lia|].
        replace (i + Z.of_nat (S k))%Z with (i + Z.of_nat k + 1)%Z by lia. apply grev_mono; auto; lia. }
    specialize (G (Z.to_nat (j - i))). replace (i + Z.of_nat (Z.to_nat (j - i)))%Z with j in G by lia. apply G. lia.
  - intros i Hi. rewrite Ag by lia. apply grev_bounds; auto. intros k Hk. split; apply M; lia.
  - intros u [H1 H2]. destruct (find_span_any p n U u false V H1 H2) as [s [_ S]].
    transitivity (sum_to n (fun i => cox_de_boor U n (Z.to_nat p) i u * grev U p i)); [|now apply (greville_identity p n U u s Hp V S)].
    unfold sum_to. apply sum_n_ext.
    intros i Hi. rewrite Ag by lia. auto.
Qed.

Lemma evaluate_multi_pos c us : valid_curve c -> Forall (in_domain c) us -> positive_weights c ->
  evaluate_multi c us = Ok (map (nurbs_point (c_knots c) (last_ix c) (c_deg c) (c_pts c)) us).
Proof.
  intros V H W. induction us as [|u us IH]; cbn [evaluate_multi map]; auto.
  inversion H; subst. rewrite evaluate_pos by auto. cbn [bind]. rewrite IH by auto. auto.
Qed.

Lemma evaluation_loops c u : valid_curve c -> (1 <= c_deg c)%Z -> c_per c = false ->
  knot (c_knots c) 0 <= u -> u < knot (c_knots c) (c_deg c) ->
  update_interval (c_knots c) = Ok (knot (c_knots c) 0, knot (c_knots c) (last_ix c + c_deg c + 1)) /\
  evaluate c u = Err OutOfFuel /\
  forall fuel, find_span_fuel fuel (last_ix c) (c_deg c) u (c_knots c) (c_per c) = Err OutOfFuel.
Proof.
  intros V Hp Per H1 H2.
  assert (F : forall fuel, find_span_fuel fuel (last_ix c) (c_deg c) u (c_knots c) (c_per c) = Err OutOfFuel).
  { intro. rewrite Per. apply find_span_diverges; auto. }
  split; [|split; auto].
  - destruct V as [Hn [LU _]]. unfold update_interval. rewrite !rd_knot by lia. cbn [bind].
    do 2 f_equal. f_equal. lia.
  - unfold evaluate, curve_point, find_span. fold (last_ix c). rewrite F. auto.
Qed.

Lemma clamped_interval c u a b : valid_curve c -> positive_weights c ->
  clamped (c_deg c) (last_ix c) (c_knots c) ->
  update_interval (c_knots c) = Ok (a, b) -> a <= u <= b ->
  exists v, evaluate c u = Ok v.
Proof.
  intros V W [C1 C2] I [Ha Hb]. pose proof V as [Hp [LU _]].
  unfold update_interval in I. rewrite !rd_knot in I by lia. cbn [bind] in I. inversion I; subst a b; clear I.
  eexists. apply evaluate_pos; auto. split.
  - rewrite C1 by lia. auto.
  - rewrite (C2 (last_ix c + 1)%Z) by lia. eapply Qcle_trans; [apply Hb|]. rewrite LU.
    replace (last_ix c + c_deg c + 2 - 1)%Z with (last_ix c + c_deg c + 1)%Z by lia. apply Qcle_refl.
Qed.

(* p = 2, rows A B C B: the last two rows B... compared with the first two: A<>C, B=B *)
Definition open_pts : list pt := [mkpt 0 0 0 1; mkpt 1 0 0 1; mkpt 1 1 0 1; mkpt 1 0 0 1].

Lemma make_periodic_refuted : exists c, valid_curve c /\ positive_weights c /\
  is_periodic (c_pts c) (c_deg c) = true /\ make_periodic c = Ok c /\
  exists v w, evaluate c (knot (c_knots c) (c_deg c)) = Ok v /\
              evaluate c (knot (c_knots c) (last_ix c + 1)) = Ok w /\ v <> w.
Proof.
  set (c := mkcurve open_pts 2 (map zq [0; 0; 0; 1; 2; 2; 2]%Z) false (0, zq 2) []). exists c.
  assert (V : valid_curve c) by (apply valid_knotsb_ok; vm_compute; auto).
  assert (PW : positive_weights c) by (repeat constructor).
  split; [auto|]. split; [auto|]. split; [vm_compute; auto|]. split; [reflexivity|].
  rewrite !evaluate_pos; auto; try (split; vm_compute; discriminate).
  do 2 eexists. split; [reflexivity|]. split; [reflexivity|].
  intro X. assert (Y : out3 (Ok (nurbs_point (c_knots c) (last_ix c) (c_deg c) (c_pts c) (knot (c_knots c) (c_deg c))))
    = out3 (Ok (nurbs_point (c_knots c) (last_ix c) (c_deg c) (c_pts c) (knot (c_knots c) (last_ix c + 1))))) by now rewrite X.
  vm_compute in Y. discriminate.
Qed.

Lemma periodic_repeats_refuted : exists c c' u v w, new_curve (c_pts c) (c_deg c) None true = Ok c' /\
  c_per c' = true /\ in_domain c' u /\ positive_weights c' /\
  evaluate c' u = Ok v /\
  evaluate c' (u + (knot (c_knots c') (last_ix c' + 1) - knot (c_knots c') (c_deg c'))) = Ok w /\ v <> w.
Proof.
  set (c := mkcurve [mkpt 0 0 0 1; mkpt 1 0 0 1; mkpt 1 1 0 1] 1 [] false (0, 0) []).
  destruct (new_curve (c_pts c) (c_deg c) None true) as [c'|] eqn:E; [|vm_compute in E; discriminate].
  set (u := zq 1).
  destruct (evaluate c' u) as [v|] eqn:E1.
  2:{ exfalso. assert (X : out3 match new_curve (c_pts c) (c_deg c) None true with Ok k => evaluate k u | Err e => Err e end = out3 (Err e)) by (rewrite E, E1; auto).
      vm_compute in X. discriminate. }
  set (u' := u + (knot (c_knots c') (last_ix c' + 1) - knot (c_knots c') (c_deg c'))).
  destruct (evaluate c' u') as [w|] eqn:E2.
  2:{ exfalso. assert (X : out3 match new_curve (c_pts c) (c_deg c) None true with Ok k => evaluate k (u + (knot (c_knots k) (last_ix k + 1) - knot (c_knots k) (c_deg k))) | Err e => Err e end = out3 (Err e)).
      { rewrite E. fold u'. rewrite E2. auto. }
      vm_compute in X. discriminate. }
  exists c, c', u, v, w. split; [auto|].
  assert (P : forall T (f : curve -> T), f c' = match new_curve (c_pts c) (c_deg c) None true with Ok k => f k | Err _ => f c end).
  { intros. now rewrite E. }
  split. { rewrite (P _ c_per). vm_compute. auto. }
  split. { split.
    - rewrite qc_le_Q. rewrite (P _ (fun k => this (knot (c_knots k) (c_deg k)))). vm_compute. discriminate.
    - rewrite qc_le_Q. rewrite (P _ (fun k => this (knot (c_knots k) (last_ix k + 1)))). vm_compute. discriminate. }
  split. { unfold positive_weights. rewrite (P _ (fun k => c_pts k)). cbn. repeat constructor. }
  split; [auto|]. split; [auto|].
  intro X. assert (Y : out3 (evaluate c' u) = out3 (evaluate c' u')) by now rewrite E1, E2, X.
  unfold u' in Y. rewrite (P _ (fun k => out3 (evaluate k u))) in Y.
  rewrite (P _ (fun k => out3 (evaluate k (u + (knot (c_knots k) (last_ix k + 1) - knot (c_knots k) (c_deg k)))))) in Y.
  vm_compute in Y. discriminate.
Qed.
