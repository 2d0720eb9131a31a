From Coq Require Import List ZArith Lia Bool QArith Qcanon Qround Permutation.
From Verif Require Import Common ListLib QcLib ArrZ SplineTheory NurbsModel NurbsSpec NurbsProofs.
Import ListNotations.
Local Open Scope Z_scope.
Local Open Scope Qc_scope.

(* ---- clamped ends --------------------------------------------------- *)

Lemma repeat_kn U c i p : (forall k, (1 <= k <= Z.of_nat p)%Z -> U (i + k)%Z = c) -> repeat c p = kn U i p.
Proof. intro H. symmetry. apply kn_const; auto. Qed.

Lemma rational_single c u s k f : valid_curve c ->
  span_of (c_deg c) (last_ix c) (c_knots c) u s -> (s - c_deg c <= k <= s)%Z ->
  (forall j, (1 <= j <= c_deg c)%Z -> knot (c_knots c) (k + j) = u) ->
  pw (ctrl (c_pts c) k) <> 0 ->
  rational (c_knots c) (last_ix c) (c_deg c) (c_pts c) f u = f (ctrl (c_pts c) k)
  /\ den (c_knots c) (last_ix c) (c_deg c) (c_pts c) u = pw (ctrl (c_pts c) k).
Proof.
  intros V S Hk HK Hw. pose proof V as [Hp _].
  set (U := c_knots c) in *. set (n := last_ix c) in *. set (p := c_deg c) in *. set (P := c_pts c) in *.
  assert (X : forall g, sum_to n (fun i => cox_de_boor U n (Z.to_nat p) i u * g i) = g k).
  { intro g. rewrite (cdb_sum_chain p n U u s) by auto.
    rewrite (repeat_kn (knot U) u k) by (intros; apply HK; lia).
    apply chain_dual. apply (span_ndg p n U u); auto. lia. }
  unfold den. rewrite (X (fun i => pw (ctrl P i))). split; auto.
  unfold rational. rewrite (X (fun i => pw (ctrl P i))).
  assert (Y : sum_to n (fun i => cox_de_boor U n (Z.to_nat p) i u * pw (ctrl P i) * f (ctrl P i)) = pw (ctrl P k) * f (ctrl P k)).
  { rewrite <- (X (fun i => pw (ctrl P i) * f (ctrl P i))). unfold sum_to. apply sum_n_ext. intros; ring. }
  rewrite Y. field. auto.
Qed.

Lemma clamped_start c : valid_curve c -> clamped (c_deg c) (last_ix c) (c_knots c) ->
  knot (c_knots c) (c_deg c) < knot (c_knots c) (c_deg c + 1) ->
  pw (ctrl (c_pts c) 0) <> 0 ->
  evaluate c (knot (c_knots c) 0) = Ok (xyz (ctrl (c_pts c) 0)).
Proof.
  intros V [C1 C2] L W. pose proof V as [Hp [LU [M N]]].
  assert (E0 : knot (c_knots c) (c_deg c) = knot (c_knots c) 0) by (apply C1; lia).
  assert (Mx : knot (c_knots c) (c_deg c + 1) <= knot (c_knots c) (last_ix c + 1)) by (apply M; lia).
  assert (D : in_domain c (knot (c_knots c) 0)). { split. rewrite E0. apply Qcle_refl. rewrite <- E0. qlra. }
  assert (S : span_of (c_deg c) (last_ix c) (c_knots c) (knot (c_knots c) 0) (c_deg c)).
  { split; [lia|]. rewrite <- E0. split. intro; split; auto. apply Qcle_refl. intro. qlra. }
  assert (R : forall f, rational (c_knots c) (last_ix c) (c_deg c) (c_pts c) f (knot (c_knots c) 0) = f (ctrl (c_pts c) 0)
    /\ den (c_knots c) (last_ix c) (c_deg c) (c_pts c) (knot (c_knots c) 0) = pw (ctrl (c_pts c) 0)).
  { intro f. apply (rational_single c _ (c_deg c)); auto; try lia. intros j Hj. apply C1. lia. }
  rewrite evaluate_ok; auto.
  - unfold nurbs_point, xyz. now rewrite (proj1 (R px)), (proj1 (R py)), (proj1 (R pz)).
  - rewrite (proj2 (R px)). auto.
Qed.

Lemma clamped_end c : valid_curve c -> clamped (c_deg c) (last_ix c) (c_knots c) ->
  pw (ctrl (c_pts c) (last_ix c)) <> 0 ->
  evaluate c (knot (c_knots c) (lenZ (c_knots c) - 1)) = Ok (xyz (ctrl (c_pts c) (last_ix c))).
Proof.
  intros V [C1 C2] W. pose proof V as [Hp [LU [M N]]]. rewrite LU.
  set (n := last_ix c) in *. set (p := c_deg c) in *. set (U := c_knots c) in *.
  replace (n + p + 2 - 1)%Z with (n + p + 1)%Z by lia.
  assert (E0 : knot U (n + 1) = knot U (n + p + 1)) by (apply C2; lia).
  assert (Mx : knot U p <= knot U (n + 1)) by (apply M; lia).
  assert (D : in_domain c (knot U (n + p + 1))). { rewrite <- E0. split; auto. apply Qcle_refl. }
  assert (S : span_of p n U (knot U (n + p + 1)) n).
  { split; [lia|]. rewrite <- E0. split; auto. intro. qlra. }
  assert (R : forall f, rational U n p (c_pts c) f (knot U (n + p + 1)) = f (ctrl (c_pts c) n)
    /\ den U n p (c_pts c) (knot U (n + p + 1)) = pw (ctrl (c_pts c) n)).
  { intro f. apply (rational_single c _ n); fold p; auto; try lia. intros j Hj. apply C2. lia. }
  rewrite evaluate_ok; fold U n p; auto.
  - unfold nurbs_point, xyz. now rewrite (proj1 (R px)), (proj1 (R py)), (proj1 (R pz)).
  - rewrite (proj2 (R px)). auto.
Qed.

(* ---- bounding box --------------------------------------------------- *)

Lemma qmin2_le p m : qmin2 p m <= p /\ qmin2 p m <= m.
Proof. unfold qmin2. destruct (qlt p m) eqn:E; [apply qlt_true in E|apply qlt_false in E]; split; qlra. Qed.
Lemma qmax2_le p m : p <= qmax2 p m /\ m <= qmax2 p m.
Proof. unfold qmax2. destruct (qlt m p) eqn:E; [apply qlt_true in E|apply qlt_false in E]; split; qlra. Qed.

Definition box_le (b b' : box3) : Prop :=
  let '((a0, a1, a2), (b0, b1, b2)) := b in
  let '((c0, c1, c2), (d0, d1, d2)) := b' in
  c0 <= a0 /\ c1 <= a1 /\ c2 <= a2 /\ b0 <= d0 /\ b1 <= d1 /\ b2 <= d2.

Lemma box_le_refl b : box_le b b.
Proof. destruct b as [[[a0 a1] a2] [[b0 b1] b2]]. simpl. repeat split; apply Qcle_refl. Qed.
Lemma box_le_trans a b c : box_le a b -> box_le b c -> box_le a c.
Proof.
  destruct a as [[[a0 a1] a2] [[a3 a4] a5]], b as [[[b0 b1] b2] [[b3 b4] b5]], c as [[[c0 c1] c2] [[c3 c4] c5]].
  simpl. intuition; eapply Qcle_trans; eauto.
Qed.
Lemma box_le_in b b' v : box_le b b' -> in_box3 b v -> in_box3 b' v.
Proof.
  destruct b as [[[a0 a1] a2] [[b0 b1] b2]], b' as [[[c0 c1] c2] [[d0 d1] d2]], v as [[x y] z].
  simpl. intuition; eapply Qcle_trans; eauto.
Qed.
Lemma bbox_step_le b v : box_le b (bbox_step b v).
Proof.
  destruct b as [[[a0 a1] a2] [[b0 b1] b2]], v as [[x y] z]. simpl.
  repeat split; try apply qmin2_le; try apply qmax2_le.
Qed.
Lemma bbox_step_in b v : in_box3 (bbox_step b v) v.
Proof.
  destruct b as [[[a0 a1] a2] [[b0 b1] b2]], v as [[x y] z]. simpl.
  repeat split; try apply qmin2_le; try apply qmax2_le.
Qed.

Lemma bbox_row_unit q : pw q = 1 -> bbox_row q = Ok (xyz q).
Proof.
  intro H. unfold bbox_row. rewrite H. assert (H1 : (1:Qc) <> 0) by (intro X; discriminate X).
  rewrite !divR_ok by auto. cbn [bind]. unfold xyz. f_equal. f_equal; [f_equal|]; field; auto.
Qed.

(* the box of unit-weight rows contains every row *)
Lemma bbox_loop_ok : forall rows b, (forall q, In q rows -> pw q = 1) ->
  exists b', bbox_loop b rows = Ok b' /\ box_le b b' /\ (forall q, In q rows -> in_box3 b' (xyz q)).
Proof.
  induction rows as [|q r IH]; intros b H.
  - exists b. split; auto. split; [apply box_le_refl|]. intros q [].
  - cbn [bbox_loop]. rewrite bbox_row_unit by (apply H; left; auto). cbn [bind].
    destruct (IH (bbox_step b (xyz q))) as [b' [E [L I]]]. { intros; apply H; right; auto. }
    exists b'. split; auto. split.
    + eapply box_le_trans; [apply bbox_step_le|apply L].
    + intros q' [->|Hq]; auto. eapply box_le_in; [exact L|apply bbox_step_in].
Qed.

Lemma bbox_ok c : c_pts c <> [] -> (forall q, In q (c_pts c) -> pw q = 1) ->
  exists b, bbox c = Ok b /\ forall q, In q (c_pts c) -> in_box3 b (xyz q).
Proof.
  intros Hne H. unfold bbox. destruct (c_pts c) as [|q r]; [contradiction|].
  rewrite bbox_row_unit by (apply H; left; auto). cbn [bind].
  destruct (bbox_loop_ok r (xyz q, xyz q)) as [b [E [L I]]]. { intros; apply H; right; auto. }
  exists b. split; auto. intros q' [->|Hq]; auto.
  eapply box_le_in; [exact L|]. unfold xyz. simpl. repeat split; apply Qcle_refl.
Qed.

Lemma evaluate_in_box c u b v : valid_curve c -> in_domain c u -> positive_weights c ->
  (forall q, In q (c_pts c) -> in_box3 b (xyz q)) ->
  evaluate c u = Ok v -> in_box3 b v.
Proof.
  intros V D W H E. rewrite evaluate_pos in E by auto. inversion E; subst v; clear E.
  destruct b as [[[a0 a1] a2] [[b0 b1] b2]]. unfold nurbs_point. cbn [in_box3].
  assert (F : forall f lo hi, (forall q, In q (c_pts c) -> lo <= f q <= hi) -> lo <= rational (c_knots c) (last_ix c) (c_deg c) (c_pts c) f u <= hi).
  { intros f lo hi Hf. apply rational_bounds; auto. now apply Forall_forall. }
  split; [|split]; apply F; intros q Hq; specialize (H q Hq); unfold xyz in H; cbn [in_box3] in H; tauto.
Qed.

Lemma curve_in_bbox c u : valid_curve c -> in_domain c u -> (forall q, In q (c_pts c) -> pw q = 1) ->
  exists b v, bbox c = Ok b /\ evaluate c u = Ok v /\ in_box3 b v.
Proof.
  intros V D W.
  assert (PW : positive_weights c). { apply Forall_forall. intros q Hq. rewrite (W q Hq). vm_compute. auto. }
  destruct (bbox_ok c) as [b [Eb Ib]]; auto.
  { intro X. destruct V as [Hp [_ _]]. unfold last_ix in Hp. rewrite X in Hp. unfold lenZ in Hp. simpl in Hp. lia. }
  exists b. eexists. split; [exact Eb|]. rewrite evaluate_pos by auto. split; [reflexivity|].
  eapply evaluate_in_box; eauto. now rewrite evaluate_pos.
Qed.

(* ---- generated knot vectors ----------------------------------------- *)

Definition zq (k : Z) : Qc := Q2Qc (inject_Z k).

Lemma zq_le a b : (a <= b)%Z -> zq a <= zq b.
Proof. intro H. unfold zq. rewrite qc_le_Q, !this_Q2Qc. rewrite <- Zle_Qle. auto. Qed.
Lemma zq_lt a b : (a < b)%Z -> zq a < zq b.
Proof. intro H. unfold zq. rewrite qc_lt_Q, !this_Q2Qc. rewrite <- Zlt_Qlt. auto. Qed.
Lemma zq_0 : zq 0 = 0. Proof. apply Qc_is_canon. reflexivity. Qed.
Lemma zq_1 : zq 1 = 1. Proof. apply Qc_is_canon. reflexivity. Qed.
Lemma zq_add a b : zq (a + b) = zq a + zq b.
Proof. unfold zq. rewrite qc_eq_Q, this_add, !this_Q2Qc. now rewrite inject_Z_plus. Qed.

Lemma atZ_app1 {A} (d : A) l1 l2 i : (0 <= i < lenZ l1)%Z -> atZ d (l1 ++ l2) i = atZ d l1 i.
Proof. unfold atZ, lenZ. intro. apply app_nth1. lia. Qed.
Lemma atZ_app2 {A} (d : A) l1 l2 i : (lenZ l1 <= i)%Z -> atZ d (l1 ++ l2) i = atZ d l2 (i - lenZ l1).
Proof. unfold atZ, lenZ. intro. rewrite app_nth2 by lia. f_equal. lia. Qed.
Lemma atZ_repeat_in {A} (d a : A) n i : (0 <= i < Z.of_nat n)%Z -> atZ d (repeat a n) i = a.
Proof. unfold atZ. intro. apply nth_error_nth. apply nth_error_repeat. lia. Qed.
Lemma lenZ_app {A} (l1 l2 : list A) : lenZ (l1 ++ l2) = (lenZ l1 + lenZ l2)%Z.
Proof. unfold lenZ. rewrite app_length. lia. Qed.
Lemma lenZ_arange a b : (a <= b)%Z -> lenZ (arange a b) = (b - a)%Z.
Proof. unfold lenZ, arange. rewrite map_length, seq_length. lia. Qed.
Lemma atZ_map_seq (f : nat -> Qc) n i : (0 <= i < Z.of_nat n)%Z -> atZ 0 (map f (seq 0 n)) i = f (Z.to_nat i).
Proof.
  intro H. unfold atZ. apply nth_error_nth. rewrite nth_error_map, nth_error_seq by lia. simpl. auto.
Qed.
Lemma atZ_arange a b i : (a <= b)%Z -> (0 <= i < b - a)%Z -> atZ 0 (arange a b) i = zq (a + i).
Proof. intros H1 H2. unfold arange. rewrite atZ_map_seq by lia. unfold zq. do 2 f_equal. lia. Qed.

Lemma generate_knots_len n p : (0 <= p < n)%Z -> lenZ (generate_knots n p) = (n + p + 1)%Z.
Proof.
  intro H. unfold generate_knots. rewrite !lenZ_app, !lenZ_repeat, lenZ_arange by lia. lia.
Qed.

(* the i-th generated knot is i-p cut off to [0, n-p] *)
Lemma generate_knots_at n p i : (0 <= p < n)%Z -> (0 <= i <= n + p)%Z ->
  knot (generate_knots n p) i = zq (Z.max 0 (Z.min (i - p) (n - p))).
Proof.
  intros H Hi. unfold knot, generate_knots.
  destruct (Z_lt_dec i (p + 1)).
  - rewrite atZ_app1 by (rewrite lenZ_repeat; lia). rewrite atZ_repeat_in by lia.
    rewrite <- zq_0. f_equal. lia.
  - rewrite atZ_app2 by (rewrite lenZ_repeat; lia). rewrite lenZ_repeat.
    destruct (Z_lt_dec i n).
    + rewrite atZ_app1 by (rewrite lenZ_arange; lia). rewrite atZ_arange by lia. f_equal. lia.
    + rewrite atZ_app2 by (rewrite lenZ_arange; lia). rewrite lenZ_arange by lia.
      rewrite atZ_repeat_in by lia. fold (zq (n - p)). f_equal. lia.
Qed.

Lemma generate_knots_valid n p : (0 <= p < n)%Z ->
  valid_knots p (n - 1) (generate_knots n p) /\ clamped p (n - 1) (generate_knots n p) /\
  knot (generate_knots n p) p < knot (generate_knots n p) (p + 1).
Proof.
  intro H. pose proof (generate_knots_len n p H) as L.
  repeat split.
  - lia.
  - lia.
  - lia.
  - intros i j H1 H2 H3. rewrite L in H3. rewrite !generate_knots_at by lia. apply zq_le. lia.
  - rewrite !generate_knots_at by lia. apply zq_lt. lia.
  - intros i Hi. rewrite !generate_knots_at by lia. f_equal. lia.
  - intros i Hi. rewrite !generate_knots_at by lia. f_equal. lia.
  - rewrite !generate_knots_at by lia. apply zq_lt. lia.
Qed.

Lemma generate_knots_periodic_valid n p : (0 <= p < n)%Z ->
  valid_knots p (n - 1) (generate_knots_periodic n p) /\
  (forall i, (0 <= i <= n + p)%Z -> knot (generate_knots_periodic n p) i = zq (i - p)).
Proof.
  intro H.
  assert (L : lenZ (generate_knots_periodic n p) = (n + p + 1)%Z).
  { unfold generate_knots_periodic, lenZ. rewrite map_length, seq_length. lia. }
  assert (A : forall i, (0 <= i <= n + p)%Z -> knot (generate_knots_periodic n p) i = zq (i - p)).
  { intros i Hi. unfold knot, generate_knots_periodic. rewrite atZ_map_seq by lia. unfold zq. do 2 f_equal. lia. }
  split; auto. repeat split.
  - lia.
  - lia.
  - lia.
  - intros i j H1 H2 H3. rewrite L in H3. rewrite !A by lia. apply zq_le. lia.
  - rewrite !A by lia. apply zq_lt. lia.
Qed.

(* ---- Greville abscissae --------------------------------------------- *)

(* (U_{i+1} + ... + U_{i+p}) / p *)
Definition grev (U : list Qc) (p i : Z) : Qc := sum_n (Z.to_nat p) (i + 1) (knot U) / zq p.

Lemma greville_ok U p : (1 <= p)%Z -> (p + 1 <= lenZ U)%Z ->
  exists g, greville_abscissae U p = Ok g /\ lenZ g = (lenZ U - p - 1)%Z /\
    forall i, (0 <= i < lenZ g)%Z -> atZ 0 g i = grev U p i.
Proof.
  intros Hp HL. unfold greville_abscissae. set (n := (lenZ U - p - 1)%Z).
  set (body := fun i g => _).
  destruct (forZ_inv (fun k g => lenZ g = n /\ forall i, (0 <= i < k)%Z -> atZ 0 g i = grev U p i)
              body 0 n (repeat (0:Qc) (Z.to_nat n))) as [g [E [L I]]].
  - lia.
  - split. rewrite lenZ_repeat; lia. intros; lia.
  - intros i g Hi [L I]. unfold body.
    destruct (forZ_inv (fun k t => t = sum_n (Z.to_nat k) (i + 1) (knot U))
       (fun k temp => do a <- rdZ U (i + 1 + k); Ok (temp + a)) 0 p 0) as [t [Et It]].
    + lia.
    + reflexivity.
    + intros k t Hk ->. rewrite rd_knot by lia. cbn [bind]. eexists. split; [reflexivity|].
      replace (Z.to_nat (k + 1)) with (S (Z.to_nat k)) by lia. rewrite sum_n_last. rewrite Z2Nat.id by lia. auto.
    + rewrite Et. cbn [bind]. fold (zq p).
      assert (zq p <> 0). { intro X. pose proof (zq_lt 0 p ltac:(lia)). rewrite X, zq_0 in H. qlra. }
      rewrite divR_ok by auto. cbn [bind]. rewrite wrZ_ok by lia. eexists. split; [reflexivity|].
      split; [now rewrite lenZ_upd|]. intros k Hk. destruct (Z.eq_dec k i) as [->|].
      * rewrite atZ_upd_eq by lia. rewrite It. auto.
      * rewrite atZ_upd_neq by lia. apply I; lia.
  - exists g. split; auto. split; auto. intros i Hi. apply I. lia.
Qed.

Lemma grev_bounds U p i lo hi : (1 <= p)%Z ->
  (forall k, (i + 1 <= k <= i + p)%Z -> lo <= knot U k <= hi) -> lo <= grev U p i <= hi.
Proof.
  intros Hp H. unfold grev. assert (P : 0 < zq p) by (rewrite <- zq_0; apply zq_lt; lia).
  assert (C : forall c k, sum_n c k (fun _ => 1) = zq (Z.of_nat c)).
  { induction c as [|c IH]; intro k. { change (Z.of_nat 0) with 0%Z. now rewrite zq_0. } cbn [sum_n]. rewrite IH.
    rewrite <- zq_1, <- zq_add. f_equal. lia. }
  assert (E : forall x, x * zq p = sum_n (Z.to_nat p) (i + 1) (fun _ => x)).
  { intro x. rewrite (sum_n_ext _ _ _ (fun _ => x * 1)) by (intros; ring). rewrite sum_n_scal, C.
    rewrite Z2Nat.id by lia. auto. }
  split.
  - apply qc_le_div; auto. rewrite E. apply sum_n_le. intros. apply H. lia.
  - apply qc_div_le; auto. rewrite E. apply sum_n_le. intros. apply H. lia.
Qed.

Lemma grev_mono U p i : (1 <= p)%Z -> sorted_knots U -> (0 <= i)%Z -> (i + p + 1 < lenZ U)%Z ->
  grev U p i <= grev U p (i + 1).
Proof.
  intros Hp M Hi HL. unfold grev. assert (P : 0 < zq p) by (rewrite <- zq_0; apply zq_lt; lia).
  assert (sum_n (Z.to_nat p) (i + 1) (knot U) <= sum_n (Z.to_nat p) (i + 1 + 1) (knot U)).
  { rewrite <- (sum_n_shift _ (i+1) (knot U) 1). apply sum_n_le. intros. apply M; lia. }
  apply qc_div_le; auto. unfold Qcdiv. rewrite <- Qcmult_assoc, (Qcmult_comm (/ zq p)), Qcmult_inv_r. qlra.
  intro X. rewrite X in P. qlra.
Qed.

(* sum of a list *)
Fixpoint lsum (l : list Qc) : Qc := match l with [] => 0 | x :: r => x + lsum r end.
Lemma lsum_perm l l' : Permutation l l' -> lsum l = lsum l'.
Proof. induction 1; simpl; auto; [now rewrite IHPermutation|ring|congruence]. Qed.
Lemma lsum_kn U p : forall i, lsum (kn U i p) = sum_n p (i + 1) U.
Proof. induction p as [|p IH]; intro i; simpl; auto. now rewrite IH. Qed.
Lemma lsum_repeat c p : lsum (repeat c p) = zq (Z.of_nat p) * c.
Proof.
  induction p as [|p IH]. { change (Z.of_nat 0) with 0%Z. rewrite zq_0. simpl. ring. }
  cbn [repeat lsum]. rewrite IH. replace (Z.of_nat (S p)) with (Z.of_nat p + 1)%Z by lia.
  rewrite zq_add, zq_1. ring.
Qed.

Lemma mean_blossom p : (1 <= p)%nat -> blossom p (fun ts => lsum ts / zq (Z.of_nat p)).
Proof.
  intro Hp. split.
  - intros l l' _ P. now rewrite (lsum_perm _ _ P).
  - intros a x y l L. cbn [lsum]. unfold Qcdiv. ring.
Qed.

(* linear precision: control values at the Greville abscissae give the identity *)
Lemma greville_identity p n U u s : (1 <= p)%Z -> valid_knots p n U -> span_of p n U u s ->
  sum_to n (fun i => cox_de_boor U n (Z.to_nat p) i u * grev U p i) = u.
Proof.
  intros Hp V S. rewrite (cdb_sum_chain p n U u s) by auto.
  rewrite (blossom_chain (Z.to_nat p) (fun ts => lsum ts / zq (Z.of_nat (Z.to_nat p))) (knot U) s) with (rest := []).
  - rewrite app_nil_r, lsum_repeat. field. intro X.
    assert (0 < zq (Z.of_nat (Z.to_nat p))) by (rewrite <- zq_0; apply zq_lt; lia). rewrite X in H. qlra.
  - apply mean_blossom. lia.
  - apply (span_ndg p n U u); auto.
  - rewrite repeat_length. simpl. lia.
  - intros i Hi. rewrite repeat_length, app_nil_r, lsum_kn. unfold grev. rewrite Z2Nat.id by lia. auto.
Qed.
