(* Curve level statements: multiplicity raising, knot normalisation,
   reversal. *)
From Coq Require Import List ZArith Lia Bool QArith Qcanon Permutation.
From Verif Require Import Common ListLib QcLib ArrZ SplineTheory SplineTheory2 NurbsModel NurbsSpec NurbsProofs NurbsProofs2 NurbsProofs3 NurbsEditModel NurbsEditSpec NurbsInsert NurbsEditProofs.
Import ListNotations.
Local Open Scope Z_scope.
Local Open Scope Qc_scope.

(* ---- multiply_knot -------------------------------------------------- *)

Lemma count_occ_repeat (t : Qc) k : count_occ Qc_eq_dec (repeat t k) t = k.
Proof. induction k; simpl; auto. destruct (Qc_eq_dec t t); [congruence|contradiction]. Qed.

Lemma multiply_knot_ok c t junk :
  valid_curve c -> knot (c_knots c) (c_deg c) <= t -> t < knot (c_knots c) (last_ix c + 1) ->
  separated t (c_knots c) -> (multiplicity (c_knots c) t <= c_deg c)%Z ->
  lenZ junk = (lenZ (c_pts c) + (c_deg c - multiplicity (c_knots c) t))%Z ->
  exists c', multiply_knot c t junk = Ok (c', c_deg c - multiplicity (c_knots c) t)%Z /\
    valid_curve c' /\ multiplicity (c_knots c') t = c_deg c /\
    (forall f u, column f -> in_domain c u -> column_value c' f u = column_value c f u) /\
    (equal_weights c -> forall u, in_domain c u -> evaluate c' u = evaluate c u).
Proof.
  intros V H1 H2 Sep Hm LJ. unfold multiply_knot. rewrite find_multiplicity_count by auto. cbn [bind].
  set (m := multiplicity (c_knots c) t) in *.
  destruct (Z.ltb_spec 0 (c_deg c - m)) as [L|L].
  - destruct (insert_knot_ok c t (c_deg c - m) junk V H1 H2 Sep) as [c' [E [Dg [VC [LP [Pm [Dm CV]]]]]]]; fold m; try lia.
    rewrite E. cbn [bind]. exists c'. split; [auto|]. split; [auto|]. split; [|split; auto].
    + unfold multiplicity. rewrite (proj1 (Permutation_count_occ Qc_eq_dec _ _) Pm t).
      rewrite count_occ_app, count_occ_repeat. rewrite Nat2Z.inj_add. fold (multiplicity (c_knots c) t). fold m. lia.
    + intros EW u D. destruct (insert_knot_evaluate c t (c_deg c - m) junk V EW H1 H2 Sep) as [c2 [E2 [_ [_ X]]]]; fold m; try lia.
      rewrite E in E2. inversion E2; subst c2. auto.
  - exists c. split; [auto|]. split; [auto|]. split; [fold m; lia|]. split; auto.
Qed.

(* ---- minimum and maximum -------------------------------------------- *)

Lemma fold_qmin l : forall x, let m := fold_left (fun m a => qmin2 a m) l x in
  (m = x \/ In m l) /\ m <= x /\ forall y, In y l -> m <= y.
Proof.
  induction l as [|a l IH]; intros x; cbn [fold_left].
  - split; [auto|]. split; [apply Qcle_refl|]. intros y [].
  - destruct (IH (qmin2 a x)) as [I1 [I2 I3]].
    set (m := fold_left (fun m a => qmin2 a m) l (qmin2 a x)) in *.
    assert (Q : qmin2 a x <= x /\ qmin2 a x <= a /\ (qmin2 a x = a \/ qmin2 a x = x)).
    { unfold qmin2. destruct (qlt a x) eqn:E; [apply qlt_true in E|apply qlt_false in E]; repeat split; auto; qlra. }
    destruct Q as [Q1 [Q2 Q3]]. split; [|split].
    + destruct I1 as [->|]; [|right; right; auto]. destruct Q3 as [->| ->]; [right; left|left]; auto.
    + qlra.
    + intros y [<-|Hy]; auto. qlra.
Qed.
Lemma fold_qmax l : forall x, let m := fold_left (fun m a => qmax2 a m) l x in
  (m = x \/ In m l) /\ x <= m /\ forall y, In y l -> y <= m.
Proof.
  induction l as [|a l IH]; intros x; cbn [fold_left].
  - split; [auto|]. split; [apply Qcle_refl|]. intros y [].
  - destruct (IH (qmax2 a x)) as [I1 [I2 I3]].
    set (m := fold_left (fun m a => qmax2 a m) l (qmax2 a x)) in *.
    assert (Q : x <= qmax2 a x /\ a <= qmax2 a x /\ (qmax2 a x = a \/ qmax2 a x = x)).
    { unfold qmax2. destruct (qlt x a) eqn:E; [apply qlt_true in E|apply qlt_false in E]; repeat split; auto; qlra. }
    destruct Q as [Q1 [Q2 Q3]]. split; [|split].
    + destruct I1 as [->|]; [|right; right; auto]. destruct Q3 as [->| ->]; [right; left|left]; auto.
    + qlra.
    + intros y [<-|Hy]; auto. qlra.
Qed.

Lemma In_knot U x : In x U -> exists i, (0 <= i < lenZ U)%Z /\ x = knot U i.
Proof.
  intro H. apply (In_nth _ _ 0) in H. destruct H as [k [H1 H2]].
  exists (Z.of_nat k). split. { unfold lenZ. lia. } unfold knot, atZ. rewrite Nat2Z.id. auto.
Qed.
Lemma knot_In U i : (0 <= i < lenZ U)%Z -> In (knot U i) U.
Proof. intro H. unfold knot, atZ. apply nth_In. unfold lenZ in H. lia. Qed.

Lemma list_min_sorted U : sorted_knots U -> (0 < lenZ U)%Z -> list_min U = Ok (knot U 0).
Proof.
  intros M H. destruct U as [|x r]; [unfold lenZ in H; simpl in H; lia|]. cbn [list_min].
  destruct (fold_qmin r x) as [I1 [I2 I3]]. set (m := fold_left (fun m a => qmin2 a m) r x) in *.
  f_equal. change (knot (x :: r) 0) with x. apply Qcle_antisym; auto.
  destruct I1 as [->|I1]; [apply Qcle_refl|].
  destruct (In_knot (x :: r) m (or_intror I1)) as [i [Hi Em]]. rewrite Em.
  change x with (knot (x :: r) 0) at 1. apply M; lia.
Qed.
Lemma list_max_sorted U : sorted_knots U -> (0 < lenZ U)%Z -> list_max U = Ok (knot U (lenZ U - 1)).
Proof.
  intros M H. destruct U as [|x r]; [unfold lenZ in H; simpl in H; lia|]. cbn [list_max].
  destruct (fold_qmax r x) as [I1 [I2 I3]]. set (m := fold_left (fun m a => qmax2 a m) r x) in *.
  f_equal. apply Qcle_antisym.
  - assert (HIn : In m (x :: r)) by (destruct I1 as [->|]; [left|right]; auto).
    destruct (In_knot _ m HIn) as [i [Hi Em]]. rewrite Em. apply M; lia.
  - destruct (knot_In (x :: r) (lenZ (x :: r) - 1) ltac:(lia)) as [Eq|HIn].
    + rewrite <- Eq. auto.
    + auto.
Qed.

(* ---- transport of points between curves ----------------------------- *)

Lemma nurbs_point_eq p n U P t s p' n' U' P' t' s' :
  valid_knots p n U -> span_of p n U t s -> valid_knots p' n' U' -> span_of p' n' U' t' s' ->
  (forall g, chain (knot U') s' (repeat t' (Z.to_nat p')) (fun i => g (ctrl P' i))
           = chain (knot U) s (repeat t (Z.to_nat p)) (fun i => g (ctrl P i))) ->
  nurbs_point U' n' p' P' t' = nurbs_point U n p P t.
Proof.
  intros V S V' S' H. unfold nurbs_point.
  rewrite !(rational_chain p n U P _ _ _ V S), !(rational_chain p' n' U' P' _ _ _ V' S').
  rewrite (H pw), (H (fun q => pw q * px q)), (H (fun q => pw q * py q)), (H (fun q => pw q * pz q)). auto.
Qed.

Lemma in_domain_span c u : valid_curve c -> in_domain c u ->
  exists s, span_of (c_deg c) (last_ix c) (c_knots c) u s.
Proof. intros V [H _]. destruct (find_span_span_of _ _ _ u V H) as [s [_ S]]. eauto. Qed.

(* ---- normalize_knots ------------------------------------------------ *)

Lemma knot_map f U i : (0 <= i < lenZ U)%Z -> knot (map f U) i = f (knot U i).
Proof.
  intro H. unfold knot, atZ. unfold lenZ in H. apply nth_error_nth. rewrite nth_error_map.
  rewrite (nth_error_nth' U 0) by lia. auto.
Qed.
Lemma lenZ_map {A B} (f : A -> B) l : lenZ (map f l) = lenZ l.
Proof. unfold lenZ. now rewrite map_length. Qed.

Lemma count_occ_map_inj (f : Qc -> Qc) l t : (forall x y, f x = f y -> x = y) ->
  count_occ Qc_eq_dec (map f l) (f t) = count_occ Qc_eq_dec l t.
Proof.
  intro H. induction l as [|a l IH]; cbn [map count_occ]; auto.
  destruct (Qc_eq_dec (f a) (f t)) as [E|E], (Qc_eq_dec a t) as [E'|E']; auto.
  - exfalso. auto.
  - exfalso. apply E. congruence.
Qed.

Definition affine (k a x : Qc) : Qc := (x - a) * k.

Lemma affine_lt k a x y : 0 < k -> x < y -> affine k a x < affine k a y.
Proof.
  intros Hk H. unfold affine. assert (0 < (y - x) * k) by (apply qc_mul_pos; qlra).
  assert (E : (y - a) * k - (x - a) * k = (y - x) * k) by ring. qlra.
Qed.
Lemma affine_le k a x y : 0 < k -> x <= y -> affine k a x <= affine k a y.
Proof.
  intros Hk H. unfold affine. assert (0 <= (y - x) * k) by (apply qc_mul_nonneg; qlra).
  assert (E : (y - a) * k - (x - a) * k = (y - x) * k) by ring. qlra.
Qed.
Lemma affine_inj k a x y : 0 < k -> affine k a x = affine k a y -> x = y.
Proof.
  intros Hk H. destruct (Qc_dec x y) as [[L|L]|L]; auto.
  - pose proof (affine_lt k a _ _ Hk L). rewrite H in H0. qlra.
  - pose proof (affine_lt k a _ _ Hk L). rewrite H in H0. qlra.
Qed.

Lemma affine_valid p n U k a : 0 < k -> valid_knots p n U -> valid_knots p n (map (affine k a) U).
Proof.
  intros Hk [Hp [L [M N]]]. split; [auto|]. split; [now rewrite lenZ_map|]. split.
  - intros i j H1 H2 H3. rewrite lenZ_map in H3. rewrite !knot_map by lia. apply affine_le; auto.
  - rewrite !knot_map by lia. apply affine_lt; auto.
Qed.

Lemma affine_span p n U k a t s : 0 < k -> valid_knots p n U -> span_of p n U t s ->
  span_of p n (map (affine k a) U) (affine k a t) s.
Proof.
  intros Hk [Hp [L [M N]]] [S1 [S2 S3]]. split; [auto|]. rewrite !knot_map by lia. split.
  - intro H. destruct (Qclt_le_dec t (knot U (n+1))) as [L1|L1].
    + destruct (S2 L1). split; [apply affine_le|apply affine_lt]; auto.
    + pose proof (affine_le k a _ _ Hk L1). qlra.
  - intro H. destruct (Qclt_le_dec t (knot U (n+1))) as [L1|L1]; auto.
    pose proof (affine_lt k a _ _ Hk L1). qlra.
Qed.

Lemma affine_chain p n U k a t s d : 0 < k -> valid_knots p n U -> span_of p n U t s ->
  chain (knot (map (affine k a) U)) s (repeat (affine k a t) (Z.to_nat p)) d
  = chain (knot U) s (repeat t (Z.to_nat p)) d.
Proof.
  intros Hk V S. pose proof V as [Hp [L _]]. pose proof S as [Hs _].
  assert (Hk0 : k <> 0) by (intro X; rewrite X in Hk; qlra).
  rewrite <- (chain_rescale (knot U) k (- a * k) Hk0 (repeat t (Z.to_nat p)) s d).
  2:{ rewrite repeat_length. apply (span_ndg p n U t); auto. }
  rewrite map_repeat. unfold affine at 2. replace ((t - a) * k) with (k * t + - a * k) by ring.
  apply chain_knots_ext. intros i Hi. rewrite repeat_length in Hi. rewrite knot_map by lia. unfold affine. ring.
Qed.

Lemma affine_point p n U P k a t : 0 < k -> valid_knots p n U -> knot U p <= t ->
  nurbs_point (map (affine k a) U) n p P (affine k a t) = nurbs_point U n p P t.
Proof.
  intros Hk V H. destruct (find_span_span_of p n U t V H) as [s [_ S]].
  apply (nurbs_point_eq p n U P t s p n _ P _ s); auto.
  - apply affine_valid; auto.
  - apply affine_span; auto.
  - intro g. apply (affine_chain p n); auto.
Qed.

Lemma evaluate_equal_point c u : valid_curve c -> in_domain c u -> equal_weights c ->
  evaluate c u = Ok (nurbs_point (c_knots c) (last_ix c) (c_deg c) (c_pts c) u).
Proof.
  intros V D [w [Hw HW]]. apply evaluate_ok; auto.
  destruct (rational_equal (c_deg c) (last_ix c) (c_knots c) (c_pts c) px u w) as [E _]; auto.
  - apply D.
  - unfold last_ix; lia.
  - rewrite E. auto.
Qed.

Lemma normalize_knots_ok c : valid_curve c -> (1 <= c_deg c)%Z ->
  let a := knot (c_knots c) 0 in
  let b := knot (c_knots c) (lenZ (c_knots c) - 1) in
  a < b /\
  exists c', normalize_knots c = Ok c' /\ valid_curve c' /\
    c_pts c' = c_pts c /\ c_deg c' = c_deg c /\ c_per c' = c_per c /\
    c_knots c' = map (fun k => (k - a) / (b - a)) (c_knots c) /\
    c_int c' = (0, 1) /\
    (forall k, multiplicity (c_knots c') ((k - a) / (b - a)) = multiplicity (c_knots c) k) /\
    (positive_weights c \/ equal_weights c -> forall t, in_domain c t ->
       in_domain c' ((t - a) / (b - a)) /\ evaluate c' ((t - a) / (b - a)) = evaluate c t).
Proof.
  intros V Hp1 a b. pose proof V as [Hp [LU [M N]]].
  assert (Hab : a < b).
  { assert (knot (c_knots c) 0 <= knot (c_knots c) (last_ix c)) by (apply M; lia).
    assert (knot (c_knots c) (last_ix c + 1) <= knot (c_knots c) (lenZ (c_knots c) - 1)) by (apply M; lia).
    unfold a, b. qlra. }
  split; [auto|]. unfold normalize_knots.
  rewrite list_min_sorted by (auto; lia). cbn [bind]. rewrite list_max_sorted by (auto; lia). cbn [bind].
  fold a b. assert (Hd : b - a <> 0) by (intro X; qlra).
  rewrite divR_ok by auto. cbn [bind].
  set (k := 1 / (b - a)). assert (Hk : 0 < k).
  { unfold k. apply qc_div_pos; [vm_compute; auto|qlra]. }
  assert (EF : forall x, (x - a) / (b - a) = affine k a x) by (intro x; unfold affine, k; field; auto).
  change (fun k0 => (k0 - a) * k) with (affine k a).
  set (c1 := mkcurve (c_pts c) (c_deg c) (map (affine k a) (c_knots c)) (c_per c) (c_int c) (c_grev c)).
  assert (V1 : valid_knots (c_deg c) (last_ix c) (map (affine k a) (c_knots c))) by (apply affine_valid; auto).
  unfold knots_update_hook, update_interval. cbn [c_knots c_deg c_pts c_per c1].
  rewrite !rd_knot by (rewrite lenZ_map; lia). cbn [bind].
  destruct (greville_ok (map (affine k a) (c_knots c)) (c_deg c)) as [g [Eg _]]; auto. { rewrite lenZ_map; lia. }
  rewrite Eg. cbn [bind]. eexists. split; [reflexivity|]. cbn [c_knots c_deg c_pts c_per c_int].
  split; [exact V1|]. split; [auto|]. split; [auto|]. split; [auto|].
  split. { apply map_ext. intro x. now rewrite EF. }
  split. { rewrite lenZ_map, !knot_map by lia. fold a b. f_equal; unfold affine, k; field; auto. }
  split. { intro x. rewrite EF. unfold multiplicity. f_equal. apply count_occ_map_inj.
           intros; eapply affine_inj; eauto. }
  intros W t D. rewrite EF.
  assert (D' : in_domain (mkcurve (c_pts c) (c_deg c) (map (affine k a) (c_knots c)) (c_per c)
     (knot (map (affine k a) (c_knots c)) 0, knot (map (affine k a) (c_knots c)) (lenZ (map (affine k a) (c_knots c)) - 1)) g) (affine k a t)).
  { destruct D as [D1 D2]. unfold in_domain, last_ix. cbn [c_knots c_deg c_pts]. fold (last_ix c).
    rewrite !knot_map by lia. split; apply affine_le; auto. }
  split; [exact D'|].
  assert (EV : forall c0, (positive_weights c0 \/ equal_weights c0) -> valid_curve c0 -> forall u, in_domain c0 u ->
    evaluate c0 u = Ok (nurbs_point (c_knots c0) (last_ix c0) (c_deg c0) (c_pts c0) u)).
  { intros c0 [X|X] Y u Z; [apply evaluate_pos|apply evaluate_equal_point]; auto. }
  rewrite !EV; auto. f_equal.
  unfold last_ix. cbn [c_knots c_deg c_pts]. fold (last_ix c). apply affine_point; auto. apply D.
Qed.

(* insert_knot leaves the Greville abscissae as they were *)
Lemma greville_stale c t count junk :
  valid_curve c -> knot (c_knots c) (c_deg c) <= t -> t < knot (c_knots c) (last_ix c + 1) ->
  separated t (c_knots c) -> (1 <= count)%Z ->
  (count + multiplicity (c_knots c) t <= c_deg c)%Z ->
  lenZ junk = (lenZ (c_pts c) + count)%Z ->
  greville_abscissae (c_knots c) (c_deg c) = Ok (c_grev c) ->
  exists c', insert_knot c t count junk = Ok c' /\
    greville_abscissae (c_knots c') (c_deg c') <> Ok (c_grev c').
Proof.
  intros V H1 H2 Sep Hc Hm LJ EG. pose proof V as [Hp [LU _]].
  destruct (insert_knot_raw c t count junk V H1 H2 Sep ltac:(lia) Hm LJ)
    as [c' [span [E [Dg [_ [Gr [_ [_ [[LV _] _]]]]]]]]].
  exists c'. split; [auto|]. rewrite Gr, Dg. intro X.
  assert (P1 : (1 <= c_deg c)%Z). { unfold multiplicity in Hm. lia. }
  destruct (greville_ok (c_knots c) (c_deg c) P1 ltac:(lia)) as [g [A [B _]]].
  destruct (greville_ok (c_knots c') (c_deg c) P1 ltac:(lia)) as [g' [A' [B' _]]].
  rewrite EG in A. inversion A; subst g. rewrite X in A'. inversion A'; subst g'. lia.
Qed.
