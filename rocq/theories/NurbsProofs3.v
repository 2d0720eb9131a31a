(* Periodic curves: the span search with wrapping, closure of the curve built
   by make_periodic.  Also a decision procedure used by the examples. *)
From Coq Require Import List ZArith Lia Bool QArith Qcanon Qround.
From Verif Require Import Common ListLib QcLib ArrZ SplineTheory SplineTheory2 NurbsModel NurbsSpec NurbsProofs NurbsProofs2.
Import ListNotations.
Local Open Scope Z_scope.
Local Open Scope Qc_scope.

(* ---- decision procedures -------------------------------------------- *)

Fixpoint sortedb (l : list Qc) : bool :=
  match l with
  | [] => true
  | a :: r => match r with [] => true | b :: _ => qle a b && sortedb r end
  end.

Lemma sortedb_ok l : sortedb l = true -> sorted_knots l.
Proof.
  intros H i j Hi Hij Hj. unfold knot, atZ. unfold lenZ in Hj.
  assert (G : forall (l : list Qc) a b, sortedb l = true -> (a <= b)%nat -> (b < length l)%nat -> nth a l 0 <= nth b l 0).
  { clear. induction l as [|x l IH]; intros a b H Hab Hb; [simpl in Hb; lia|].
    assert (T : sortedb l = true). { destruct l; auto. cbn [sortedb] in H. apply andb_true_iff in H. tauto. }
    destruct b as [|b]. { assert (a = O) by lia. subst. apply Qcle_refl. }
    destruct a as [|a]; [|cbn [nth]; apply IH; auto; simpl in Hb; lia].
    destruct l as [|y l]; [simpl in Hb; lia|]. cbn [sortedb] in H. apply andb_true_iff in H. destruct H as [H _].
    apply qle_true in H. eapply Qcle_trans; [exact H|]. apply (IH O b); auto; [lia|simpl in *; lia]. }
  apply G; auto; lia.
Qed.

Definition valid_knotsb (p n : Z) (U : list Qc) : bool :=
  (0 <=? p)%Z && (p <=? n)%Z && (lenZ U =? n + p + 2)%Z && sortedb U && qlt (knot U n) (knot U (n + 1)).

Lemma valid_knotsb_ok p n U : valid_knotsb p n U = true -> valid_knots p n U.
Proof.
  unfold valid_knotsb. rewrite !andb_true_iff, !Z.leb_le, Z.eqb_eq. intros [[[[A B] C] E] F].
  repeat split; auto. now apply sortedb_ok. now apply qlt_true.
Qed.

(* plain rationals out of a point, for examples *)
Definition out3 (r : res (Qc * Qc * Qc)) : res (Q * Q * Q) :=
  match r with Ok (x, y, z) => Ok (this x, this y, this z) | Err e => Err e end.

(* ---- wrapping ------------------------------------------------------- *)

Lemma zq_S k : zq (Z.of_nat (S k)) = zq (Z.of_nat k) + 1.
Proof. rewrite <- zq_1, <- zq_add. f_equal. lia. Qed.

Lemma wrap_up_ok umin per : 0 < per -> forall fuel u, umin - u <= zq (Z.of_nat fuel) * per ->
  exists k, wrap_up fuel u umin per = Ok (u + zq (Z.of_nat k) * per) /\
    umin <= u + zq (Z.of_nat k) * per /\ (k <> O -> u + zq (Z.of_nat k) * per < umin + per).
Proof.
  intros Hp. induction fuel as [|f IH]; intros u H; cbn [wrap_up].
  - change (Z.of_nat 0) with 0%Z in H. rewrite zq_0 in H.
    assert (umin <= u). { assert (X : 0 * per = 0) by ring. rewrite X in H. qlra. }
    destruct (qlt u umin) eqn:E. { apply qlt_true in E. qlra. }
    exists O. change (Z.of_nat 0) with 0%Z. rewrite zq_0. assert (X : u + 0 * per = u) by ring. rewrite X. split; auto. split; auto. congruence.
  - destruct (qlt u umin) eqn:E.
    + apply qlt_true in E. destruct (IH (u + per)) as [k [K1 [K2 K3]]].
      { rewrite zq_S in H. assert (X : (zq (Z.of_nat f) + 1) * per = zq (Z.of_nat f) * per + per) by ring. rewrite X in H. qlra. }
      exists (S k). rewrite zq_S. assert (X : u + (zq (Z.of_nat k) + 1) * per = u + per + zq (Z.of_nat k) * per) by ring.
      rewrite X. split; auto. split; auto. intros _. destruct k as [|k].
      * change (Z.of_nat 0) with 0%Z. rewrite zq_0. assert (Y : u + per + 0 * per = u + per) by ring. rewrite Y. qlra.
      * apply K3. auto.
    + apply qlt_false in E. exists O. change (Z.of_nat 0) with 0%Z. rewrite zq_0. assert (X : u + 0 * per = u) by ring. rewrite X. split; auto. split; auto. congruence.
Qed.

Lemma wrap_down_ok umax per : 0 < per -> forall fuel u, u - umax <= zq (Z.of_nat fuel) * per ->
  exists k, wrap_down fuel u umax per = Ok (u - zq (Z.of_nat k) * per) /\
    u - zq (Z.of_nat k) * per <= umax /\ (k <> O -> umax - per < u - zq (Z.of_nat k) * per).
Proof.
  intros Hp. induction fuel as [|f IH]; intros u H; cbn [wrap_down].
  - change (Z.of_nat 0) with 0%Z in H. rewrite zq_0 in H.
    assert (u <= umax). { assert (X : 0 * per = 0) by ring. rewrite X in H. qlra. }
    destruct (qlt umax u) eqn:E. { apply qlt_true in E. qlra. }
    exists O. change (Z.of_nat 0) with 0%Z. rewrite zq_0. assert (X : u - 0 * per = u) by ring. rewrite X. split; auto. split; auto. congruence.
  - destruct (qlt umax u) eqn:E.
    + apply qlt_true in E. destruct (IH (u - per)) as [k [K1 [K2 K3]]].
      { rewrite zq_S in H. assert (X : (zq (Z.of_nat f) + 1) * per = zq (Z.of_nat f) * per + per) by ring. rewrite X in H. qlra. }
      exists (S k). rewrite zq_S. assert (X : u - (zq (Z.of_nat k) + 1) * per = u - per - zq (Z.of_nat k) * per) by ring.
      rewrite X. split; auto. split; auto. intros _. destruct k as [|k].
      * change (Z.of_nat 0) with 0%Z. rewrite zq_0. assert (Y : u - per - 0 * per = u - per) by ring. rewrite Y. qlra.
      * apply K3. auto.
    + apply qlt_false in E. exists O. change (Z.of_nat 0) with 0%Z. rewrite zq_0. assert (X : u - 0 * per = u) by ring. rewrite X. split; auto. split; auto. congruence.
Qed.

Lemma ceil_bound x per m : 0 < per -> (Qceiling (this (x / per)) <= m)%Z -> x <= zq m * per.
Proof.
  intros Hp H. assert (x / per <= zq m).
  { rewrite qc_le_Q. eapply Qle_trans; [apply Qle_ceiling|]. unfold zq. rewrite this_Q2Qc. rewrite <- Zle_Qle. auto. }
  assert (Hn : per <> 0) by (intro X; rewrite X in Hp; qlra).
  assert (E : x = x / per * per) by (field; auto). rewrite E. apply Qcmult_le_compat_r; auto. qlra.
Qed.

(* every parameter, however far outside, gets the span of a parameter of the
   domain that differs from it by a whole number of periods *)
Lemma span_fuel_wrap n p u U : (0 <= n)%Z ->
  (1 + Qceiling (this ((knot U p - u) / (knot U (n + 1) - knot U p))) <= Z.of_nat (span_fuel n p u U))%Z /\
  (1 + Qceiling (this ((u - knot U (n + 1)) / (knot U (n + 1) - knot U p))) <= Z.of_nat (span_fuel n p u U))%Z.
Proof. intro. unfold span_fuel, wrap_steps, knot. split; lia. Qed.

Lemma find_span_periodic p n U u : valid_knots p n U ->
  exists k s, let v := u + zq k * (knot U (n + 1) - knot U p) in
    find_span n p u U true = Ok s /\ knot U p <= v <= knot U (n + 1) /\ span_of p n U v s.
Proof.
  intros V. pose proof V as [Hp [L [M N]]].
  assert (PP : knot U p <= knot U n) by (apply M; lia).
  pose proof (span_fuel_ge n p u U) as G0. destruct (span_fuel_wrap n p u U ltac:(lia)) as [G1 G2].
  set (per := knot U (n+1) - knot U p) in *.
  assert (Hper : 0 < per) by (unfold per; qlra).
  unfold find_span, find_span_fuel. rewrite !rd_knot by lia. cbn [bind]. fold per.
  set (fuel := span_fuel n p u U) in *. clearbody fuel.
  destruct (wrap_up_ok (knot U p) per Hper fuel u) as [k1 [W1 [W2 W3]]].
  { apply ceil_bound; auto. lia. }
  rewrite W1. cbn [bind]. set (u1 := u + zq (Z.of_nat k1) * per) in *.
  destruct (wrap_down_ok (knot U (n+1)) per Hper fuel u1) as [k2 [X1 [X2 X3]]].
  { destruct k1 as [|k1].
    - apply ceil_bound; auto. unfold u1. change (Z.of_nat 0) with 0%Z. rewrite zq_0.
      replace (u + 0 * per) with u by ring. lia.
    - assert (u1 < knot U p + per) by (apply W3; auto).
      assert (0 <= zq (Z.of_nat fuel) * per).
      { apply qc_mul_nonneg; [|qlra]. rewrite <- zq_0. apply zq_le. lia. }
      unfold per in *. qlra. }
  rewrite X1. cbn [bind]. set (u2 := u1 - zq (Z.of_nat k2) * per) in *.
  assert (B : knot U p <= u2).
  { destruct k2 as [|k2].
    - unfold u2. change (Z.of_nat 0) with 0%Z. rewrite zq_0. replace (u1 - 0 * per) with u1 by ring. auto.
    - assert (knot U (n+1) - per < u2) by (apply X3; auto). unfold per in *. qlra. }
  assert (Ev : u + zq (Z.of_nat k1 - Z.of_nat k2) * per = u2).
  { unfold u2, u1. assert (Z1 : zq (Z.of_nat k1) = zq (Z.of_nat k1 - Z.of_nat k2) + zq (Z.of_nat k2)).
    { rewrite <- zq_add. f_equal. lia. } rewrite Z1. ring. }
  exists (Z.of_nat k1 - Z.of_nat k2)%Z. cbv zeta. rewrite Ev.
  destruct (qeq u2 (knot U (n+1))) eqn:E.
  - apply qeq_true in E. exists n. split; auto. split; [auto|]. split; [lia|]. split; auto. intro. rewrite E in H. qlra.
  - apply qeq_false in E. assert (u2 < knot U (n+1)). { destruct (Qclt_le_dec u2 (knot U (n+1))); auto. exfalso. apply E. apply Qcle_antisym; auto. }
    destruct (span_search_ok u2 U fuel p (n+1)) as [s [S1 [S2 [S3 S4]]]]; auto; try lia.
    exists s. split; auto. split; [auto|]. split; [lia|]. split; auto. intro. qlra.
Qed.

(* ---- make_periodic closes the curve --------------------------------- *)

Lemma atZ_firstn {A} (d : A) k l i : (0 <= i < Z.of_nat k)%Z -> atZ d (firstn k l) i = atZ d l i.
Proof.
  intros H. unfold atZ. assert (G : forall (l : list A) k j, (j < k)%nat -> nth j (firstn k l) d = nth j l d).
  { induction l0 as [|x l0 IH]; intros k0 j Hj. { now rewrite firstn_nil. }
    destruct k0; [lia|]. destruct j; auto. simpl. apply IH. lia. }
  apply G. lia.
Qed.
Lemma lenZ_firstn {A} k (l : list A) : (Z.of_nat k <= lenZ l)%Z -> lenZ (firstn k l) = Z.of_nat k.
Proof. unfold lenZ. intro. rewrite firstn_length. lia. Qed.

Lemma wrapped_ctrl P p i : (0 <= p <= lenZ P)%Z -> (0 <= i < p)%Z ->
  ctrl (P ++ firstn (Z.to_nat p) P) (i + lenZ P) = ctrl (P ++ firstn (Z.to_nat p) P) i.
Proof.
  intros Hp Hi. unfold ctrl. rewrite atZ_app2 by lia. rewrite atZ_app1 by lia.
  rewrite atZ_firstn by lia. f_equal. lia.
Qed.

Lemma map_repeat {A B} (f : A -> B) x k : map f (repeat x k) = repeat (f x) k.
Proof. induction k; simpl; congruence. Qed.

Lemma periodic_chain P p f : (1 <= p <= lenZ P)%Z ->
  let Q := P ++ firstn (Z.to_nat p) P in
  let n := (lenZ Q - 1)%Z in
  let U := generate_knots_periodic (lenZ Q) p in
  chain (knot U) p (repeat (knot U p) (Z.to_nat p)) (fun i => f (ctrl Q i))
  = chain (knot U) n (repeat (knot U (n + 1)) (Z.to_nat p)) (fun i => f (ctrl Q i)).
Proof.
  intros Hp Q n U. assert (LQ : lenZ Q = (lenZ P + p)%Z).
  { unfold Q. rewrite lenZ_app, lenZ_firstn; lia. }
  destruct (generate_knots_periodic_valid (lenZ Q) p ltac:(lia)) as [V A]. fold U in V, A.
  set (m := lenZ P) in *. set (K := fun i : Z => zq (i - p)).
  set (g := fun i : Z => f (ctrl Q i)).
  set (g' := fun i : Z => if (i <=? n)%Z then g i else g (i - m)%Z).
  assert (En : n = (m + p - 1)%Z) by (unfold n; lia).
  rewrite !A by lia.
  rewrite (chain_ext2 (knot U) K n (repeat (zq (n + 1 - p)) (Z.to_nat p)) g g').
  2:{ intros i Hi. rewrite repeat_length in Hi. apply A. lia. }
  2:{ intros i Hi. unfold g'. destruct (Z.leb_spec i n); auto. lia. }
  rewrite (chain_continuous K n 1 (Z.to_nat p) (zq (n + 1 - p)) g').
  2: lia.
  2:{ intros i j _ Hij _. unfold K. apply zq_le. lia. }
  2:{ unfold K. apply zq_lt. lia. }
  2:{ unfold K. apply zq_lt. lia. }
  2:{ intros i Hi. unfold K. f_equal. lia. }
  replace (n + Z.of_nat 1)%Z with (p + m)%Z by lia.
  rewrite chain_shift.
  replace (zq (n + 1 - p)) with ((fun t => 1 * t + zq m) (zq (p - p))).
  2:{ cbv beta. replace (p - p)%Z with 0%Z by lia. rewrite zq_0. replace (n + 1 - p)%Z with m by lia. ring. }
  rewrite <- (map_repeat (fun t => 1 * t + zq m)).
  rewrite (chain_knots_ext (fun i => K (i + m)%Z) (fun i => 1 * K i + zq m)).
  2:{ intros i _. unfold K. replace (i + m - p)%Z with (i - p + m)%Z by lia. rewrite zq_add. ring. }
  assert (N1 : (1:Qc) <> 0) by (intro X; discriminate X).
  rewrite (chain_rescale K 1 (zq m)); auto.
  2:{ intros i j Hj Hi X. unfold K in X. assert (zq (i - p) < zq (i + j - p)) by (apply zq_lt; lia). rewrite X in H. qlra. }
  apply chain_ext2.
  - intros i Hi. rewrite repeat_length in Hi. apply A. lia.
  - intros i Hi. rewrite repeat_length in Hi. unfold g'. destruct (Z.leb_spec (i + m) n).
    + unfold g. f_equal. unfold Q, m. rewrite wrapped_ctrl by (unfold m in *; lia). auto.
    + replace (i + m - m)%Z with i by lia. auto.
Qed.

Lemma rational_chain p n U P f u s : valid_knots p n U -> span_of p n U u s ->
  rational U n p P f u =
  chain (knot U) s (repeat u (Z.to_nat p)) (fun i => pw (ctrl P i) * f (ctrl P i))
  / chain (knot U) s (repeat u (Z.to_nat p)) (fun i => pw (ctrl P i)).
Proof.
  intros V S. unfold rational.
  rewrite <- (cdb_sum_chain p n U u s (fun i => pw (ctrl P i) * f (ctrl P i)) V S).
  rewrite <- (cdb_sum_chain p n U u s (fun i => pw (ctrl P i)) V S).
  f_equal. apply sum_n_ext. intros. ring.
Qed.

(* the rows and knots stored by make_periodic *)
Lemma periodic_closed P p : (1 <= p <= lenZ P)%Z -> Forall (fun q => 0 < pw q) P ->
  let Q := P ++ firstn (Z.to_nat p) P in
  let U := generate_knots_periodic (lenZ Q) p in
  forall iv g per, let c := mkcurve Q p U per iv g in
  exists v, evaluate c (knot U p) = Ok v /\ evaluate c (knot U (lenZ Q)) = Ok v.
Proof.
  intros Hp W Q U iv g per c.
  assert (LQ : lenZ Q = (lenZ P + p)%Z).
  { unfold Q. rewrite lenZ_app, lenZ_firstn; lia. }
  destruct (generate_knots_periodic_valid (lenZ Q) p ltac:(lia)) as [V A]. fold U in V, A.
  assert (VC : valid_curve c) by exact V.
  assert (PW : positive_weights c).
  { unfold positive_weights, c. cbn [c_pts]. unfold Q. apply Forall_app. split; auto.
    rewrite <- (firstn_skipn (Z.to_nat p) P) in W. apply Forall_app in W. tauto. }
  assert (Le : knot U p <= knot U (lenZ Q)). { rewrite !A by lia. apply zq_le. lia. }
  assert (LI : last_ix c = (lenZ Q - 1)%Z) by reflexivity.
  assert (D1 : in_domain c (knot U p)).
  { split; cbn [c_knots c c_deg]; [apply Qcle_refl|]. rewrite LI. replace (lenZ Q - 1 + 1)%Z with (lenZ Q) by lia. auto. }
  assert (D2 : in_domain c (knot U (lenZ Q))).
  { split; cbn [c_knots c c_deg]; [auto|]. rewrite LI. replace (lenZ Q - 1 + 1)%Z with (lenZ Q) by lia. apply Qcle_refl. }
  rewrite !evaluate_pos by auto. eexists. split; [reflexivity|]. f_equal.
  cbn [c_knots c c_deg c_pts]. rewrite LI. set (n := (lenZ Q - 1)%Z) in *.
  assert (S1 : span_of p n U (knot U p) p).
  { split; [lia|]. split.
    - intros _. split; [apply Qcle_refl|]. rewrite !A by lia. apply zq_lt. lia.
    - intro X. exfalso. rewrite !A in X by lia. assert (zq (p - p) < zq (n + 1 - p)) by (apply zq_lt; lia). qlra. }
  assert (S2 : span_of p n U (knot U (lenZ Q)) n).
  { replace (lenZ Q) with (n + 1)%Z by lia. split; [lia|]. split; auto. intro X. qlra. }
  unfold nurbs_point. rewrite !(rational_chain p n U Q _ _ _ V S1), !(rational_chain p n U Q _ _ _ V S2).
  replace (lenZ Q) with (n + 1)%Z by lia.
  pose proof (periodic_chain P p pw Hp) as E0.
  pose proof (periodic_chain P p (fun q => pw q * px q) Hp) as E1.
  pose proof (periodic_chain P p (fun q => pw q * py q) Hp) as E2.
  pose proof (periodic_chain P p (fun q => pw q * pz q) Hp) as E3.
  cbv beta zeta in E0, E1, E2, E3. fold Q in E0, E1, E2, E3. fold n U in E0, E1, E2, E3.
  rewrite E0, E1, E2, E3. auto.
Qed.

Lemma knots_update_ok c : (1 <= c_deg c)%Z -> (c_deg c + 1 <= lenZ (c_knots c))%Z ->
  exists iv g, knots_update_hook c = Ok (mkcurve (c_pts c) (c_deg c) (c_knots c) (c_per c) iv g).
Proof.
  intros H1 H2. unfold knots_update_hook, update_interval. rewrite !rd_knot by lia. cbn [bind].
  destruct (greville_ok (c_knots c) (c_deg c) H1 H2) as [g [E _]]. rewrite E. cbn [bind]. eauto.
Qed.

Lemma make_periodic_closed c : (1 <= c_deg c <= lenZ (c_pts c))%Z -> positive_weights c ->
  is_periodic (c_pts c) (c_deg c) = false ->
  exists c' v, make_periodic c = Ok c' /\
    c_per c' = true /\ valid_curve c' /\
    lenZ (c_pts c') = (lenZ (c_pts c) + c_deg c)%Z /\
    evaluate c' (knot (c_knots c') (c_deg c')) = Ok v /\
    evaluate c' (knot (c_knots c') (last_ix c' + 1)) = Ok v.
Proof.
  intros Hp W NP. unfold make_periodic. rewrite NP. destruct c as [P p K per iv g]. cbn [c_pts c_deg c_knots] in *.
  set (Q := P ++ firstn (Z.to_nat p) P).
  assert (LQ : lenZ Q = (lenZ P + p)%Z).
  { unfold Q. rewrite lenZ_app, lenZ_firstn; lia. }
  destruct (generate_knots_periodic_valid (lenZ Q) p ltac:(lia)) as [V A].
  set (U := generate_knots_periodic (lenZ Q) p) in *.
  pose proof V as [_ [LU _]].
  destruct (knots_update_ok (mkcurve Q p U per iv g)) as [iv' [g' E]]; cbn [c_deg c_knots]; try lia.
  cbn [c_pts c_deg c_knots c_per c_int c_grev] in *. rewrite E. cbn [bind c_pts c_deg c_knots c_per c_int c_grev].
  destruct (periodic_closed P p Hp W iv' g' true) as [v [E1 E2]]. fold Q in E1, E2. fold U in E1, E2.
  eexists. exists v. split; [reflexivity|]. cbn [c_pts c_deg c_knots c_per].
  split; [auto|]. split; [exact V|]. split; [lia|]. split; [auto|].
  unfold last_ix. cbn [c_pts]. replace (lenZ Q - 1 + 1)%Z with (lenZ Q) by lia. auto.
Qed.
