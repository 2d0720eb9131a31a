(* Reversal of a curve. *)
From Coq Require Import List ZArith Lia Bool QArith Qcanon Permutation.
From Verif Require Import Common ListLib QcLib ArrZ SplineTheory SplineTheory2 NurbsModel NurbsSpec NurbsProofs NurbsProofs2 NurbsProofs3 NurbsEditModel NurbsEditSpec NurbsInsert NurbsEditProofs NurbsEditProofs2.
Import ListNotations.
Local Open Scope Z_scope.
Local Open Scope Qc_scope.

Lemma nth_ext_Z {A} (d : A) l l' : lenZ l = lenZ l' ->
  (forall i, (0 <= i < lenZ l)%Z -> atZ d l i = atZ d l' i) -> l = l'.
Proof.
  intros H1 H2. apply (nth_ext l l' d d). { unfold lenZ in H1. lia. }
  intros k Hk. specialize (H2 (Z.of_nat k)). unfold atZ in H2. rewrite Nat2Z.id in H2.
  apply H2. unfold lenZ. lia.
Qed.

Lemma count_block U t a m : (0 <= a)%Z -> (0 <= m)%Z -> (a + m <= lenZ U)%Z ->
  (forall i, (a <= i < a + m)%Z -> knot U i = t) -> (m <= multiplicity U t)%Z.
Proof.
  intros H1 H2 H3 H.
  assert (E : firstn (Z.to_nat m) (skipn (Z.to_nat a) U) = repeat t (Z.to_nat m)).
  { assert (LS : lenZ (skipn (Z.to_nat a) U) = (lenZ U - a)%Z) by (rewrite lenZ_skipn; lia).
    apply (nth_ext_Z 0).
    - rewrite lenZ_firstn by lia. unfold lenZ. rewrite repeat_length. lia.
    - rewrite lenZ_firstn by lia. intros i Hi.
      rewrite atZ_firstn by lia. rewrite atZ_skipn by lia.
      rewrite Z2Nat.id by lia. fold (knot U (i + a)). rewrite H by lia.
      symmetry. apply atZ_repeat_in. lia. }
  unfold multiplicity. rewrite <- (firstn_skipn (Z.to_nat a) U).
  rewrite <- (firstn_skipn (Z.to_nat m) (skipn (Z.to_nat a) U)). rewrite E.
  rewrite !count_occ_app, count_occ_repeat. lia.
Qed.

Lemma lenZ_rev {A} (l : list A) : lenZ (rev l) = lenZ l.
Proof. unfold lenZ. now rewrite rev_length. Qed.
Lemma atZ_rev {A} (d : A) l i : (0 <= i < lenZ l)%Z -> atZ d (rev l) i = atZ d l (lenZ l - 1 - i).
Proof.
  intro H. unfold atZ, lenZ in *. rewrite rev_nth by lia. f_equal. lia.
Qed.

Definition rev_knots (U : list Qc) : list Qc :=
  map (fun k => knot U 0 + knot U (lenZ U - 1) - k) (rev U).

Lemma rev_knots_len U : lenZ (rev_knots U) = lenZ U.
Proof. unfold rev_knots. now rewrite lenZ_map, lenZ_rev. Qed.
Lemma rev_knots_at U i : (0 <= i < lenZ U)%Z ->
  knot (rev_knots U) i = knot U 0 + knot U (lenZ U - 1) - knot U (lenZ U - 1 - i).
Proof.
  intro H. unfold rev_knots. rewrite knot_map by (rewrite lenZ_rev; auto).
  unfold knot at 3. rewrite atZ_rev by auto. reflexivity.
Qed.

Lemma rev_knots_twice U : (0 < lenZ U)%Z -> rev_knots (rev_knots U) = U.
Proof.
  intro H. apply (nth_ext_Z 0).
  - now rewrite !rev_knots_len.
  - rewrite !rev_knots_len. intros i Hi. fold (knot (rev_knots (rev_knots U)) i). fold (knot U i).
    rewrite rev_knots_at by (rewrite rev_knots_len; lia). rewrite !rev_knots_len.
    rewrite !rev_knots_at by lia.
    replace (lenZ U - 1 - (lenZ U - 1))%Z with 0%Z by lia.
    replace (lenZ U - 1 - 0)%Z with (lenZ U - 1)%Z by lia.
    replace (lenZ U - 1 - (lenZ U - 1 - i))%Z with i by lia. ring.
Qed.

Lemma rev_knots_loop U : (0 < lenZ U)%Z ->
  forZ 0 (lenZ U) (repeat (0 : Qc) (length U))
    (fun i kv => do k <- rdZ U (lenZ U - (i + 1)) ; wrZ kv i (knot U 0 + knot U (lenZ U - 1) - k))
  = Ok (rev_knots U).
Proof.
  intro H.
  destruct (forZ_inv (fun k kv => lenZ kv = lenZ U /\ forall i, (0 <= i < k)%Z -> atZ 0 kv i = knot (rev_knots U) i)
    (fun i kv => do k <- rdZ U (lenZ U - (i + 1)) ; wrZ kv i (knot U 0 + knot U (lenZ U - 1) - k))
    0 (lenZ U) (repeat (0 : Qc) (length U))) as [kv [E [L I]]].
  - lia.
  - split. { rewrite lenZ_repeat. reflexivity. } intros; lia.
  - intros i kv Hi [L I]. rewrite rd_knot by lia. cbn [bind]. rewrite wrZ_ok by lia.
    eexists. split; [reflexivity|]. rewrite lenZ_upd. split; [auto|].
    intros j Hj. destruct (Z.eq_dec j i) as [->|Hne].
    + rewrite atZ_upd_eq by lia. rewrite rev_knots_at by lia. replace (lenZ U - (i + 1))%Z with (lenZ U - 1 - i)%Z by lia. reflexivity.
    + rewrite atZ_upd_neq by lia. apply I. lia.
  - rewrite E. f_equal. apply (nth_ext_Z 0). { now rewrite rev_knots_len. } intros i Hi. apply I. lia.
Qed.

Lemma rev_valid p n U : valid_knots p n U -> knot U p < knot U (p + 1) -> valid_knots p n (rev_knots U).
Proof.
  intros [Hp [L [M N]]] F. split; [auto|]. split; [now rewrite rev_knots_len|]. split.
  - intros i j H1 H2 H3. rewrite rev_knots_len in H3. rewrite !rev_knots_at by lia.
    assert (knot U (lenZ U - 1 - j) <= knot U (lenZ U - 1 - i)) by (apply M; lia). qlra.
  - rewrite !rev_knots_at by lia.
    replace (lenZ U - 1 - n)%Z with (p + 1)%Z by lia. replace (lenZ U - 1 - (n + 1))%Z with p by lia. qlra.
Qed.

(* the chain of the left span of t equals that of its right span *)
Lemma left_right_span p n U t s1 s d : valid_knots p n U ->
  (forall x, knot U p < x -> x < knot U (n + 1) -> (multiplicity U x <= p)%Z) ->
  (p <= s1 <= n)%Z -> knot U s1 < t -> t <= knot U (s1 + 1) -> span_of p n U t s ->
  chain (knot U) s1 (repeat t (Z.to_nat p)) d = chain (knot U) s (repeat t (Z.to_nat p)) d.
Proof.
  intros V Hm Hs1 H1 H2 [Hs [S1 S2]]. pose proof V as [Hp [L [M N]]].
  destruct (Qclt_le_dec t (knot U (n + 1))) as [Lt|Ge].
  - destruct (S1 Lt) as [A B].
    assert (s1 <= s)%Z.
    { destruct (Z_le_gt_dec s1 s); auto. assert (knot U (s + 1) <= knot U s1) by (apply M; lia). qlra. }
    destruct (Z.eq_dec s1 s) as [->|Hne]; auto.
    assert (K : forall i, (s1 < i <= s)%Z -> knot U i = t).
    { intros i Hi. assert (knot U (s1 + 1) <= knot U i) by (apply M; lia).
      assert (knot U i <= knot U s) by (apply M; lia). apply Qcle_antisym; qlra. }
    assert (Q : (s - s1 <= p)%Z).
    { assert (s - s1 <= multiplicity U t)%Z.
      { apply (count_block U t (s1 + 1)); try lia. intros i Hi. apply K. lia. }
      assert (multiplicity U t <= p)%Z; [|lia].
      apply Hm; auto. assert (knot U p <= knot U s1) by (apply M; lia). qlra. }
    transitivity (chain (knot U) (s1 + Z.of_nat (Z.to_nat (s - s1))) (repeat t (Z.to_nat p)) d).
    2:{ f_equal. lia. }
    apply chain_continuous; try lia.
    + intros i j Q1 Q2 Q3. apply M; lia.
    + auto.
    + rewrite Z2Nat.id by lia. replace (s1 + (s - s1) + 1)%Z with (s + 1)%Z by lia. auto.
    + intros i Hi. apply K. lia.
  - assert (s1 = n).
    { destruct (Z.eq_dec s1 n); auto. assert (knot U (s1 + 1) <= knot U n) by (apply M; lia). qlra. }
    rewrite S2 by auto. congruence.
Qed.

Lemma rev_point p n U P t : valid_knots p n U -> knot U p < knot U (p + 1) -> lenZ P = (n + 1)%Z ->
  (forall x, knot U p < x -> x < knot U (n + 1) -> (multiplicity U x <= p)%Z) ->
  knot U p <= t -> t <= knot U (n + 1) ->
  nurbs_point (rev_knots U) n p (rev P) (knot U 0 + knot U (lenZ U - 1) - t) = nurbs_point U n p P t.
Proof.
  intros V F LP Hm H1 H2. pose proof V as [Hp [L [M N]]].
  pose proof (rev_valid p n U V F) as V'.
  set (c := knot U 0 + knot U (lenZ U - 1)).
  destruct (find_span_span_of p n U t V H1) as [s [_ S]].
  assert (G : knot (rev_knots U) p <= c - t).
  { rewrite rev_knots_at by lia. fold c. replace (lenZ U - 1 - p)%Z with (n + 1)%Z by lia. qlra. }
  destruct (find_span_span_of p n (rev_knots U) (c - t) V' G) as [z [_ Z']].
  apply (nurbs_point_eq p n U P t s p n _ _ _ z); auto.
  intro g. pose proof Z' as [Hz [Z1 Z2]].
  transitivity (chain (knot U) (lenZ U - 1 - 1 - z) (repeat t (Z.to_nat p)) (fun i => g (ctrl P i))).
  - rewrite <- (chain_reverse (knot U) c (repeat t (Z.to_nat p)) (lenZ U - 1) z (fun i => g (ctrl P i))).
    rewrite map_repeat. rewrite repeat_length. apply chain_ext2; rewrite repeat_length.
    + intros i Hi. rewrite rev_knots_at by lia. reflexivity.
    + intros i Hi. cbv beta. f_equal. unfold ctrl. rewrite atZ_rev by lia. f_equal. lia.
  - destruct (Qclt_le_dec (c - t) (knot (rev_knots U) (n + 1))) as [Lt|Ge].
    + destruct (Z1 Lt) as [A B]. rewrite rev_knots_at in A, B by lia. fold c in A, B.
      apply (left_right_span p n); auto; try lia.
      * replace (lenZ U - 1 - 1 - z)%Z with (lenZ U - 1 - (z + 1))%Z by lia. qlra.
      * replace (lenZ U - 1 - 1 - z + 1)%Z with (lenZ U - 1 - z)%Z by lia. qlra.
    + assert (E : t = knot U p).
      { rewrite rev_knots_at in Ge by lia. fold c in Ge.
        replace (lenZ U - 1 - (n + 1))%Z with p in Ge by lia. apply Qcle_antisym; qlra. }
      rewrite Z2 by auto. replace (lenZ U - 1 - 1 - n)%Z with p by lia.
      destruct S as [Hs [S1 S2]].
      assert (Lt : t < knot U (n + 1)). { assert (knot U (p + 1) <= knot U (n + 1)) by (apply M; lia). rewrite E. qlra. }
      destruct (S1 Lt) as [A B].
      assert (s = p). { destruct (Z.eq_dec s p); auto. assert (knot U (p + 1) <= knot U s) by (apply M; lia). rewrite E in A. qlra. }
      now subst s.
Qed.

Lemma row_eqb_refl q : row_eqb q q = true.
Proof. unfold row_eqb. rewrite !(proj2 (qeq_true _ _) eq_refl). reflexivity. Qed.
Lemma is_periodic_same P p : firstn (Z.to_nat p) P = skipn (length P - Z.to_nat p) P -> is_periodic P p = true.
Proof.
  intro H. unfold is_periodic. rewrite <- H. generalize (firstn (Z.to_nat p) P). intro l.
  assert (G : forall l, fold_left (fun _ ab => row_eqb (fst ab) (snd ab)) (combine l l) true = true).
  { clear. induction l; cbn [combine fold_left]; auto. cbn [fst snd]. now rewrite row_eqb_refl. }
  apply G.
Qed.
Lemma firstn_rev_skipn {A} (l : list A) k : (k <= length l)%nat ->
  firstn k l = skipn (length l - k) l -> firstn k (rev l) = skipn (length (rev l) - k) (rev l).
Proof.
  intros H E. rewrite firstn_rev, skipn_rev, rev_length.
  replace (length l - (length l - k))%nat with k by lia. now rewrite E.
Qed.

Lemma reverse_ok c : valid_curve c -> (1 <= c_deg c)%Z -> first_span c -> wrapped c ->
  exists c', reverse_curve c = Ok c' /\ valid_curve c' /\ first_span c' /\ wrapped c' /\
    c_pts c' = rev (c_pts c) /\ c_deg c' = c_deg c /\ c_per c' = c_per c /\
    c_knots c' = rev_knots (c_knots c) /\
    c_int c' = (knot (c_knots c) 0, knot (c_knots c) (lenZ (c_knots c) - 1)).
Proof.
  intros V Hp1 F W. pose proof V as [Hp [L [M N]]]. unfold reverse_curve.
  rewrite !rd_knot by lia. cbn [bind]. rewrite rev_knots_loop by lia. cbn [bind].
  unfold new_curve. unfold knots_update_hook at 1. cbn [c_knots c_deg c_pts c_per].
  unfold update_interval. rewrite !rd_knot by (rewrite rev_knots_len; lia). cbn [bind].
  destruct (greville_ok (rev_knots (c_knots c)) (c_deg c)) as [g [Eg _]]; auto. { rewrite rev_knots_len; lia. }
  rewrite Eg. cbn [bind].
  set (c' := mkcurve (rev (c_pts c)) (c_deg c) (rev_knots (c_knots c)) (c_per c) _ g).
  assert (LP : (Z.to_nat (c_deg c) <= length (c_pts c))%nat).
  { unfold last_ix, lenZ in Hp. lia. }
  assert (W' : wrapped c').
  { intro H. unfold c'. cbn [c_deg c_pts]. apply firstn_rev_skipn; auto. }
  exists c'. split; [|split; [|split; [|split; [|split; [|split; [|split; [|split]]]]]]]; auto.
  - destruct (c_per c) eqn:E; auto. unfold make_periodic. 
    rewrite (is_periodic_same (c_pts c') (c_deg c')); auto.
  - unfold valid_curve, last_ix. cbn [c_deg c_pts c_knots c']. rewrite lenZ_rev. apply rev_valid; auto.
  - unfold first_span. cbn [c_deg c_knots c']. rewrite !rev_knots_at by lia.
    replace (lenZ (c_knots c) - 1 - c_deg c)%Z with (last_ix c + 1)%Z by lia.
    replace (lenZ (c_knots c) - 1 - (c_deg c + 1))%Z with (last_ix c)%Z by lia. qlra.
  - unfold c'. cbn [c_int]. rewrite rev_knots_len, !rev_knots_at by lia. 
    replace (lenZ (c_knots c) - 1 - (lenZ (c_knots c) - 1))%Z with 0%Z by lia.
    replace (lenZ (c_knots c) - 1 - 0)%Z with (lenZ (c_knots c) - 1)%Z by lia. f_equal; ring.
Qed.

Lemma reverse_evaluate c : valid_curve c -> (1 <= c_deg c)%Z -> first_span c -> wrapped c ->
  positive_weights c -> inner_multiplicities c ->
  exists c', reverse_curve c = Ok c' /\
    forall t, in_domain c t ->
      let t' := knot (c_knots c) 0 + knot (c_knots c) (lenZ (c_knots c) - 1) - t in
      in_domain c' t' /\ evaluate c' t' = evaluate c t.
Proof.
  intros V Hp1 F W PW IM. pose proof V as [Hp [L [M N]]].
  destruct (reverse_ok c V Hp1 F W) as [c' [E [V' [F' [W' [EP [ED [EPer [EK EI]]]]]]]]].
  exists c'. split; auto. intros t D t'. pose proof D as [D1 D2].
  assert (EL : last_ix c' = last_ix c) by (unfold last_ix; rewrite EP, lenZ_rev; auto).
  assert (D' : in_domain c' t').
  { unfold in_domain. rewrite EL, ED, EK. rewrite !rev_knots_at by lia.
    replace (lenZ (c_knots c) - 1 - c_deg c)%Z with (last_ix c + 1)%Z by lia.
    replace (lenZ (c_knots c) - 1 - (last_ix c + 1))%Z with (c_deg c)%Z by lia. unfold t'. split; qlra. }
  split; auto. rewrite !evaluate_pos; auto.
  - f_equal. rewrite EL, ED, EK, EP. apply rev_point; auto. unfold last_ix; lia.
  - unfold positive_weights. rewrite EP. apply Forall_rev. auto.
Qed.

Lemma reverse_twice c : valid_curve c -> (1 <= c_deg c)%Z -> first_span c -> wrapped c ->
  exists c' c'', reverse_curve c = Ok c' /\ reverse_curve c' = Ok c'' /\
    c_pts c'' = c_pts c /\ c_deg c'' = c_deg c /\ c_knots c'' = c_knots c /\ c_per c'' = c_per c.
Proof.
  intros V Hp1 F W. pose proof V as [Hp [L [M N]]].
  destruct (reverse_ok c V Hp1 F W) as [c' [E [V' [F' [W' [EP [ED [EPer [EK EI]]]]]]]]].
  destruct (reverse_ok c' V' ltac:(lia) F' W') as [d [E2 [V2 [F2 [W2 [EP2 [ED2 [EPer2 [EK2 EI2]]]]]]]]].
  exists c', d. split; auto. split; auto. rewrite EP2, EP, rev_involutive. split; auto.
  split; [congruence|]. split; [|congruence]. rewrite EK2, EK. apply rev_knots_twice. lia.
Qed.

(* ---- flip ----------------------------------------------------------- *)

(* for every curve the knot vector produced by flip runs downwards *)
Lemma flip_refuted c : valid_curve c -> (1 <= c_deg c)%Z ->
  exists c', flip c = Ok c' /\ ~ sorted_knots (c_knots c') /\ c_per c' = false /\
    knot (c_knots c') (lenZ (c_knots c') - 1) < knot (c_knots c') 0.
Proof.
  intros V Hp1. pose proof V as [Hp [L [M N]]]. unfold flip.
  rewrite list_max_sorted by (auto; lia). cbn [bind]. rewrite list_min_sorted by (auto; lia). cbn [bind].
  unfold new_curve.
  destruct (knots_update_ok (mkcurve (rev (c_pts c)) (c_deg c)
    (map (fun k => knot (c_knots c) (lenZ (c_knots c) - 1) - k + knot (c_knots c) 0) (c_knots c)) false (0, 0) []))
    as [iv [g E]]; cbn [c_deg c_knots]; auto. { rewrite lenZ_map. lia. }
  rewrite E. cbn [bind]. cbn [c_pts c_deg c_knots c_per]. eexists. split; [reflexivity|]. cbn [c_knots c_per].
  set (K := map _ _).
  assert (LT : knot K (lenZ K - 1) < knot K 0).
  { unfold K. rewrite lenZ_map, !knot_map by lia.
    assert (knot (c_knots c) 0 <= knot (c_knots c) (last_ix c)) by (apply M; lia).
    assert (knot (c_knots c) (last_ix c + 1) <= knot (c_knots c) (lenZ (c_knots c) - 1)) by (apply M; lia). qlra. }
  split; [|split; auto]. intro SK.
  assert (knot K 0 <= knot K (lenZ K - 1)). { apply SK; unfold K; rewrite ?lenZ_map; lia. } qlra.
Qed.

Lemma reverse_full c : valid_curve c -> (1 <= c_deg c)%Z -> first_span c -> wrapped c ->
  positive_weights c -> inner_multiplicities c ->
  exists c', reverse_curve c = Ok c' /\ valid_curve c' /\
    c_int c' = (knot (c_knots c) 0, knot (c_knots c) (lenZ (c_knots c) - 1)) /\
    forall t, in_domain c t ->
      let t' := knot (c_knots c) 0 + knot (c_knots c) (lenZ (c_knots c) - 1) - t in
      in_domain c' t' /\ evaluate c' t' = evaluate c t.
Proof.
  intros V Hp F W PW IM.
  destruct (reverse_ok c V Hp F W) as [c' [E [V' [_ [_ [_ [_ [_ [_ EI]]]]]]]]].
  destruct (reverse_evaluate c V Hp F W PW IM) as [d [E2 H]].
  rewrite E in E2. inversion E2; subst d. exists c'. auto.
Qed.
