(* Proofs for iso curves and boundaries. *)
From Coq Require Import List ZArith Bool QArith Qcanon Lia.
From Verif Require Import Common QcLib ArrZ SplineTheory NurbsModel NurbsSpec NurbsProofs NurbsProofs2 SurfModel SurfSpec SurfProofs1 SurfProofs3
  NurbsEditProofs PickleProofs BrepModel BrepSpec BrepProofs2.
Import ListNotations.
Local Open Scope Z_scope.
Local Open Scope Qc_scope.

Lemma new_curve_ok P p n U : valid_knots p n U -> (1 <= p)%Z -> exists c, new_curve P p (Some U) false = Ok c /\
  c_pts c = P /\ c_deg c = p /\ c_knots c = U /\ c_per c = false /\ c_int c = (knot U 0, knot U (n + p + 1)).
Proof.
  intros V Hp. unfold new_curve, knots_update_hook. cbn [c_knots c_deg c_pts c_per]. rewrite (interval_ok _ _ _ V). cbn [bind].
  destruct (greville_ok U p) as [g [E _]]; [auto|destruct V as [V [L _]]; lia|]. rewrite E. cbn [bind]. eexists. split; [reflexivity|]. cbn. auto.
Qed.

Lemma rows_u s u : valid_surface s -> knot (s_ku s) (s_du s) <= u -> exists sp N P,
  find_span (s_nu s - 1) (s_du s) u (s_ku s) false = Ok sp /\
  basis_funs sp u (s_du s) (s_ku s) (repeat (0 : Qc) (Z.to_nat (s_du s + 1))) = Ok N /\
  mapR (fun i => temp_entry sp (s_du s) i (s_pts s) N) (ixs (s_nv s)) = Ok P /\ lenZ P = s_nv s /\
  forall j f, (0 <= j < s_nv s)%Z -> linear f -> f (ctrl P j) = spl (s_ku s) (s_nu s - 1) (s_du s) u (fun i => f (entry (s_pts s) i j)).
Proof.
  intros [Sh [VU VV]] Hu. pose proof VU as [Hp [LU _]]. pose proof VV as [Hq _].
  destruct (find_span_span_of _ _ _ u VU Hu) as [sp [E Sp]]. pose proof Sp as [Hs _].
  destruct (basis_funs_ok (s_du s) sp u (s_ku s) (repeat (0:Qc) (Z.to_nat (s_du s + 1)))) as [N [EN [LN HN]]]; try lia.
  { rewrite lenZ_repeat; lia. } { apply (span_ndg (s_du s) (s_nu s - 1) (s_ku s) u); auto. }
  exists sp, N.
  destruct (mapR_ixs pt0 (s_nv s) (fun i => temp_entry sp (s_du s) i (s_pts s) N)
    (fun j e => forall f, linear f -> f e = spl (s_ku s) (s_nu s - 1) (s_du s) u (fun i => f (entry (s_pts s) i j)))) as [P [EP [LP HP]]]; [lia| |].
  - intros j Hj. unfold temp_entry.
    destruct (accumulate (s_du s + 1) (fun k => atZ 0 N k) (fun k => entry (s_pts s) (sp - s_du s + k) j)
      (fun k acc => do nk <- rdZ N k ; do c <- rd2 (s_pts s) (sp - s_du s + k) j ; Ok (padd acc (pscale nk c)))) as [e [Ee He]].
    + lia.
    + intros i acc Hi. rewrite (rdZ_ok 0) by lia. cbn [bind]. rewrite (rd2_ok (s_nu s) (s_nv s)) by (auto; lia). reflexivity.
    + exists e. split; [exact Ee|]. intros f Lf. rewrite He by auto. unfold spl.
      rewrite (cdb_sum (s_du s) (s_nu s - 1) (s_ku s) u sp) by auto. replace (Z.to_nat (s_du s + 1)) with (Datatypes.S (Z.to_nat (s_du s))) by lia.
      rewrite (sum_n_from0 _ (sp - s_du s)). apply sum_n_ext.
      intros i Hi. rewrite HN by lia. replace (sp - s_du s + i)%Z with (i + (sp - s_du s))%Z by lia. auto.
  - exists P. split; [auto|]. split; [auto|]. split; [auto|]. split; [auto|]. intros j f Hj Lf. unfold ctrl. now apply HP.
Qed.
Lemma rows_v s v : valid_surface s -> knot (s_kv s) (s_dv s) <= v -> exists sp N P,
  find_span (s_nv s - 1) (s_dv s) v (s_kv s) false = Ok sp /\
  basis_funs sp v (s_dv s) (s_kv s) (repeat (0 : Qc) (Z.to_nat (s_dv s + 1))) = Ok N /\
  mapR (fun i => row_entry sp (s_dv s) i (s_pts s) N) (ixs (s_nu s)) = Ok P /\ lenZ P = s_nu s /\
  forall i f, (0 <= i < s_nu s)%Z -> linear f -> f (ctrl P i) = spl (s_kv s) (s_nv s - 1) (s_dv s) v (fun j => f (entry (s_pts s) i j)).
Proof.
  intros [Sh [VU VV]] Hv. pose proof VU as [Hp _]. pose proof VV as [Hq [LV _]].
  destruct (find_span_span_of _ _ _ v VV Hv) as [sp [E Sp]]. pose proof Sp as [Hs _].
  destruct (basis_funs_ok (s_dv s) sp v (s_kv s) (repeat (0:Qc) (Z.to_nat (s_dv s + 1)))) as [N [EN [LN HN]]]; try lia.
  { rewrite lenZ_repeat; lia. } { apply (span_ndg (s_dv s) (s_nv s - 1) (s_kv s) v); auto. }
  exists sp, N.
  destruct (mapR_ixs pt0 (s_nu s) (fun i => row_entry sp (s_dv s) i (s_pts s) N)
    (fun i e => forall f, linear f -> f e = spl (s_kv s) (s_nv s - 1) (s_dv s) v (fun j => f (entry (s_pts s) i j)))) as [P [EP [LP HP]]]; [lia| |].
  - intros i Hi. unfold row_entry.
    destruct (accumulate (s_dv s + 1) (fun k => atZ 0 N k) (fun k => entry (s_pts s) i (sp - s_dv s + k))
      (fun k acc => do nk <- rdZ N k ; do c <- rd2 (s_pts s) i (sp - s_dv s + k) ; Ok (padd acc (pscale nk c)))) as [e [Ee He]].
    + lia.
    + intros k acc Hk. rewrite (rdZ_ok 0) by lia. cbn [bind]. rewrite (rd2_ok (s_nu s) (s_nv s)) by (auto; lia). reflexivity.
    + exists e. split; [exact Ee|]. intros f Lf. rewrite He by auto. unfold spl.
      rewrite (cdb_sum (s_dv s) (s_nv s - 1) (s_kv s) v sp) by auto. replace (Z.to_nat (s_dv s + 1)) with (Datatypes.S (Z.to_nat (s_dv s))) by lia.
      rewrite (sum_n_from0 _ (sp - s_dv s)). apply sum_n_ext.
      intros k Hk. rewrite HN by lia. replace (sp - s_dv s + k)%Z with (k + (sp - s_dv s))%Z by lia. auto.
  - exists P. split; [auto|]. split; [auto|]. split; [auto|]. split; [auto|]. intros j f Hj Lf. unfold ctrl. now apply HP.
Qed.

Lemma in_range iv t : fst iv <= t <= snd iv -> out_of_range iv t = false.
Proof.
  intros [A B]. unfold out_of_range. apply orb_false_iff. split; apply qlt_false; auto.
Qed.
Lemma out_range_true iv t : t < fst iv \/ snd iv < t -> out_of_range iv t = true.
Proof. intro H. unfold out_of_range. apply orb_true_iff. rewrite !qlt_true. exact H. Qed.

(* what an iso curve is: its parts *)
Lemma iso_u_parts s u : valid_surface s -> (1 <= s_dv s)%Z -> fst (fst (s_int s)) <= u <= snd (fst (s_int s)) -> knot (s_ku s) (s_du s) <= u ->
  exists c, isocurve_u s u = Ok c /\ c_deg c = s_dv s /\ c_knots c = s_kv s /\ c_per c = false /\ last_ix c = (s_nv s - 1)%Z /\
    c_int c = (knot (s_kv s) 0, knot (s_kv s) (s_nv s + s_dv s)) /\
    forall j f, (0 <= j < s_nv s)%Z -> linear f -> f (ctrl (c_pts c) j) = spl (s_ku s) (s_nu s - 1) (s_du s) u (fun i => f (entry (s_pts s) i j)).
Proof.
  intros V D R Hu. unfold isocurve_u. rewrite in_range by auto. destruct (rows_u s u V Hu) as [sp [N [P [E1 [E2 [E3 [L H]]]]]]].
  rewrite E1. cbn [bind]. rewrite E2. cbn [bind]. rewrite E3. cbn [bind]. destruct V as [_ [_ VV]].
  destruct (new_curve_ok P _ _ _ VV D) as [c [E [A1 [A2 [A3 [A4 A5]]]]]]. exists c. split; auto. split; auto. split; auto. split; auto.
  split; [unfold last_ix; rewrite A1, L; auto|]. split; [rewrite A5; do 2 f_equal; lia|]. rewrite A1. auto.
Qed.
Lemma iso_v_parts s v : valid_surface s -> (1 <= s_du s)%Z -> fst (snd (s_int s)) <= v <= snd (snd (s_int s)) -> knot (s_kv s) (s_dv s) <= v ->
  exists c, isocurve_v s v = Ok c /\ c_deg c = s_du s /\ c_knots c = s_ku s /\ c_per c = false /\ last_ix c = (s_nu s - 1)%Z /\
    c_int c = (knot (s_ku s) 0, knot (s_ku s) (s_nu s + s_du s)) /\
    forall i f, (0 <= i < s_nu s)%Z -> linear f -> f (ctrl (c_pts c) i) = spl (s_kv s) (s_nv s - 1) (s_dv s) v (fun j => f (entry (s_pts s) i j)).
Proof.
  intros V D R Hv. unfold isocurve_v. rewrite in_range by auto. destruct (rows_v s v V Hv) as [sp [N [P [E1 [E2 [E3 [L H]]]]]]].
  rewrite E1. cbn [bind]. rewrite E2. cbn [bind]. rewrite E3. cbn [bind]. destruct V as [_ [VU _]].
  destruct (new_curve_ok P _ _ _ VU D) as [c [E [A1 [A2 [A3 [A4 A5]]]]]]. exists c. split; auto. split; auto. split; auto. split; auto.
  split; [unfold last_ix; rewrite A1, L; auto|]. split; [rewrite A5; do 2 f_equal; lia|]. rewrite A1. auto.
Qed.

(* ---- constant weights ---- *)
Lemma spl_const p n U u k g : valid_knots p n U -> knot U p <= u <= knot U (n + 1) -> (forall i, (0 <= i <= n)%Z -> g i = k) -> spl U n p u g = k.
Proof.
  intros V [H1 H2] G. rewrite (spl_ext _ _ _ _ g (fun _ => k * 1)) by (intros; rewrite G by auto; ring).
  rewrite spl_scal. enough (X : spl U n p u (fun _ => 1) = 1) by (rewrite X; ring).
  etransitivity; [|apply (cdb_one p n U u V H1)]. unfold spl, sum_to. apply sum_n_ext. intros. ring.
Qed.
Lemma weight_entry s w i j : valid_surface s -> weight_all s w -> (0 <= i < s_nu s)%Z -> (0 <= j < s_nv s)%Z -> pw (entry (s_pts s) i j) = w.
Proof.
  intros [Sh _] W Hi Hj. unfold weight_all in W. rewrite Forall_forall in W. pose proof (shaped_row _ _ _ i Sh Hi) as L.
  assert (R : In (atZ [] (s_pts s) i) (s_pts s)) by (unfold atZ; apply nth_In; destruct Sh as [LG _]; unfold lenZ in LG; lia).
  specialize (W _ R). rewrite Forall_forall in W. apply W. unfold entry. unfold atZ at 1. apply nth_In. unfold lenZ in L. lia.
Qed.
Lemma weight_pos s w : 0 < w -> weight_all s w -> weights_positive s.
Proof. intros P W. unfold weight_all in W. unfold weights_positive. eapply Forall_impl; [|exact W]. intros r R. eapply Forall_impl; [|exact R]. intros q Q. cbv beta in *. now rewrite Q. Qed.
Lemma tensor_weight s w u v : valid_surface s -> weight_all s w -> in_dom s u v -> tensor s pw u v = w.
Proof.
  intros V W [Du Dv]. pose proof V as [_ [VU VV]]. rewrite tensor_spl. unfold dom_u, dom_v in *.
  apply spl_const; auto. { now replace (s_nu s - 1 + 1)%Z with (s_nu s) by lia. } intros i Hi.
  apply spl_const; auto. { now replace (s_nv s - 1 + 1)%Z with (s_nv s) by lia. } intros j Hj. apply weight_entry; auto; lia.
Qed.
(* a curve all of whose weights are w *)
Lemma evaluate_const c t w : valid_curve c -> in_domain c t -> 0 < w -> (forall j, (0 <= j <= last_ix c)%Z -> pw (ctrl (c_pts c) j) = w) ->
  evaluate c t = Ok (spl (c_knots c) (last_ix c) (c_deg c) t (fun j => px (ctrl (c_pts c) j)),
                     spl (c_knots c) (last_ix c) (c_deg c) t (fun j => py (ctrl (c_pts c) j)),
                     spl (c_knots c) (last_ix c) (c_deg c) t (fun j => pz (ctrl (c_pts c) j))).
Proof.
  intros V D P W.
  assert (X : den (c_knots c) (last_ix c) (c_deg c) (c_pts c) t = w) by (apply spl_const; auto).
  rewrite evaluate_ok; auto. 2:{ rewrite X. intro Z. rewrite Z in P. discriminate P. }
  assert (N : w <> 0) by (intro Z; rewrite Z in P; discriminate P).
  assert (R : forall f, rational (c_knots c) (last_ix c) (c_deg c) (c_pts c) f t = spl (c_knots c) (last_ix c) (c_deg c) t (fun j => f (ctrl (c_pts c) j))).
  { intro f. unfold rational. fold (den (c_knots c) (last_ix c) (c_deg c) (c_pts c) t). rewrite X.
    transitivity (spl (c_knots c) (last_ix c) (c_deg c) t (fun j => w * f (ctrl (c_pts c) j)) / w).
    - f_equal. unfold spl, sum_to. apply sum_n_ext. intros i Hi. rewrite W by lia. ring.
    - rewrite spl_scal. field. auto. }
  unfold nurbs_point. now rewrite !R.
Qed.

Lemma iso_u_eval s w u v : valid_surface s -> (1 <= s_dv s)%Z -> 0 < w -> weight_all s w -> range_u s u -> in_dom s u v ->
  exists c p, isocurve_u s u = Ok c /\ c_int c = (knot (s_kv s) 0, knot (s_kv s) (s_nv s + s_dv s)) /\
    evaluate_surface s u v = Ok p /\ evaluate c v = Ok (tscale w p).
Proof.
  intros V Dv P W R D. pose proof D as [[D1 D2] [D3 D4]]. pose proof V as [_ [VU VV]].
  destruct (iso_u_parts s u V Dv R D1) as [c [E [A1 [A2 [A3 [A4 [A5 A6]]]]]]]. exists c, (nurbs_surface_point s u v).
  split; auto. split; auto. split; [apply evaluate_surface_pos; auto; apply (weight_pos s w); auto|].
  assert (Hw : forall j, (0 <= j <= last_ix c)%Z -> pw (ctrl (c_pts c) j) = w).
  { intros j Hj. rewrite A4 in Hj. rewrite (A6 j pw) by (auto using pw_linear; lia). apply spl_const; auto.
    - now replace (s_nu s - 1 + 1)%Z with (s_nu s) by lia.
    - intros i Hi. apply weight_entry; auto; lia. }
  rewrite (evaluate_const c v w); auto.
  - assert (T : forall f, linear f -> spl (c_knots c) (last_ix c) (c_deg c) v (fun j => f (ctrl (c_pts c) j)) = w * (tensor s f u v / tensor s pw u v)).
    { intros f Lf. rewrite (tensor_weight s w u v) by auto. transitivity (tensor s f u v); [|field; intro Z; rewrite Z in P; discriminate P].
      rewrite tensor_spl2, A1, A2, A4. apply spl_ext. intros j Hj. apply A6; auto; lia. }
    rewrite (T px px_linear), (T py py_linear), (T pz pz_linear). reflexivity.
  - unfold valid_curve. now rewrite A1, A2, A4.
  - unfold in_domain. rewrite A1, A2, A4. replace (s_nv s - 1 + 1)%Z with (s_nv s) by lia. auto.
Qed.
Lemma iso_v_eval s w u v : valid_surface s -> (1 <= s_du s)%Z -> 0 < w -> weight_all s w -> range_v s v -> in_dom s u v ->
  exists c p, isocurve_v s v = Ok c /\ c_int c = (knot (s_ku s) 0, knot (s_ku s) (s_nu s + s_du s)) /\
    evaluate_surface s u v = Ok p /\ evaluate c u = Ok (tscale w p).
Proof.
  intros V Du P W R D. pose proof D as [[D1 D2] [D3 D4]]. pose proof V as [_ [VU VV]].
  destruct (iso_v_parts s v V Du R D3) as [c [E [A1 [A2 [A3 [A4 [A5 A6]]]]]]]. exists c, (nurbs_surface_point s u v).
  split; auto. split; auto. split; [apply evaluate_surface_pos; auto; apply (weight_pos s w); auto|].
  assert (Hw : forall j, (0 <= j <= last_ix c)%Z -> pw (ctrl (c_pts c) j) = w).
  { intros i Hi. rewrite A4 in Hi. rewrite (A6 i pw) by (auto using pw_linear; lia). apply spl_const; auto.
    - now replace (s_nv s - 1 + 1)%Z with (s_nv s) by lia.
    - intros j Hj. apply weight_entry; auto; lia. }
  rewrite (evaluate_const c u w); auto.
  - assert (T : forall f, linear f -> spl (c_knots c) (last_ix c) (c_deg c) u (fun j => f (ctrl (c_pts c) j)) = w * (tensor s f u v / tensor s pw u v)).
    { intros f Lf. rewrite (tensor_weight s w u v) by auto. transitivity (tensor s f u v); [|field; intro Z; rewrite Z in P; discriminate P].
      rewrite tensor_spl, A1, A2, A4. apply spl_ext. intros i Hi. apply A6; auto; lia. }
    rewrite (T px px_linear), (T py py_linear), (T pz pz_linear). reflexivity.
  - unfold valid_curve. now rewrite A1, A2, A4.
  - unfold in_domain. rewrite A1, A2, A4. replace (s_nu s - 1 + 1)%Z with (s_nu s) by lia. auto.
Qed.
Lemma tscale_1 p : tscale 1 p = p.
Proof. destruct p as [[x y] z]. unfold tscale. cbn [fst snd]. f_equal; [f_equal|]; ring. Qed.
Lemma iso_range_u s u : u < fst (fst (s_int s)) \/ snd (fst (s_int s)) < u -> isocurve_u s u = Err ValueError.
Proof. intro H. unfold isocurve_u. now rewrite out_range_true. Qed.
Lemma iso_range_v s v : v < fst (snd (s_int s)) \/ snd (snd (s_int s)) < v -> isocurve_v s v = Err ValueError.
Proof. intro H. unfold isocurve_v. now rewrite out_range_true. Qed.
Lemma tscale_eq k p : tscale k p = p -> k = 1 \/ p = (0, 0, 0).
Proof.
  destruct p as [[x y] z]. unfold tscale. cbn [fst snd]. intro E.
  pose proof (f_equal (fun t => fst (fst t)) E) as E1. pose proof (f_equal (fun t => snd (fst t)) E) as E2. pose proof (f_equal snd E) as E3. cbn in E1, E2, E3.
  destruct (Qc_eq_dec k 1) as [K|K]; auto. right.
  assert (H : forall t, k * t = t -> t = 0). { intros t T. assert (X : (k - 1) * t = 0) by (transitivity (k * t - t); [ring|rewrite T; ring]).
    apply Qcmult_integral in X. destruct X as [X|X]; auto. destruct K. qlra. }
  now rewrite (H x E1), (H y E2), (H z E3).
Qed.

(* ---- the four boundaries ---- *)
Lemma regular_dom s : regular s -> u_lo s < u_hi s /\ v_lo s < v_hi s.
Proof.
  intros [[_ [[A1 [A2 [A3 A4]]] [B1 [B2 [B3 B4]]]]] _]. unfold u_lo, u_hi, v_lo, v_hi.
  replace (s_nu s - 1 + 1)%Z with (s_nu s) in A4 by lia. replace (s_nv s - 1 + 1)%Z with (s_nv s) in B4 by lia.
  split; [eapply Qcle_lt_trans; [|exact A4]|eapply Qcle_lt_trans; [|exact B4]]; [apply A3|apply B3]; lia.
Qed.
Lemma regular_ends s : regular s -> knot (s_ku s) 0 = u_lo s /\ knot (s_ku s) (s_nu s + s_du s) = u_hi s /\
  knot (s_kv s) 0 = v_lo s /\ knot (s_kv s) (s_nv s + s_dv s) = v_hi s.
Proof.
  intros [V [Du [Dv [_ [Cu Cv]]]]]. destruct Cu as [C1 C2], Cv as [C3 C4]. pose proof V as [_ [[A1 _] [B1 _]]].
  unfold u_lo, u_hi, v_lo, v_hi. split; [symmetry; apply C1; lia|]. split.
  { rewrite (C2 (s_nu s)) by lia. f_equal. lia. } split; [symmetry; apply C3; lia|]. rewrite (C4 (s_nv s)) by lia. f_equal. lia.
Qed.
Lemma boundaries_eval s w : regular s -> 0 < w -> weight_all s w -> exists c0 c1 c2 c3,
  surface_boundaries s = Ok [c0; c1; c2; c3] /\
  c_int c0 = (v_lo s, v_hi s) /\ c_int c1 = (v_lo s, v_hi s) /\ c_int c2 = (u_lo s, u_hi s) /\ c_int c3 = (u_lo s, u_hi s) /\
  (forall v, v_lo s <= v <= v_hi s -> (exists p, evaluate_surface s (u_lo s) v = Ok p /\ evaluate c0 v = Ok (tscale w p)) /\
     exists p, evaluate_surface s (u_hi s) v = Ok p /\ evaluate c1 v = Ok (tscale w p)) /\
  (forall u, u_lo s <= u <= u_hi s -> (exists p, evaluate_surface s u (v_lo s) = Ok p /\ evaluate c2 u = Ok (tscale w p)) /\
     exists p, evaluate_surface s u (v_hi s) = Ok p /\ evaluate c3 u = Ok (tscale w p)).
Proof.
  intros G P W. pose proof (regular_dom s G) as [Du Dv]. destruct (regular_ends s G) as [E1 [E2 [E3 E4]]].
  pose proof G as [V [Hu [Hv [I _]]]].
  assert (Rl : range_u s (u_lo s) /\ range_u s (u_hi s) /\ range_v s (v_lo s) /\ range_v s (v_hi s)).
  { unfold range_u, range_v. rewrite I. cbn [fst snd]. repeat split; qlra. }
  destruct Rl as [R1 [R2 [R3 R4]]].
  assert (Dm : forall u v, u_lo s <= u <= u_hi s -> v_lo s <= v <= v_hi s -> in_dom s u v) by (intros; split; auto).
  assert (Lu : u_lo s <= u_lo s <= u_hi s) by (split; qlra). assert (Lu' : u_lo s <= u_hi s <= u_hi s) by (split; qlra).
  assert (Lv : v_lo s <= v_lo s <= v_hi s) by (split; qlra). assert (Lv' : v_lo s <= v_hi s <= v_hi s) by (split; qlra).
  destruct (iso_u_eval s w (u_lo s) (v_lo s) V Hv P W R1 (Dm _ _ Lu Lv)) as [c0 [_ [B0 [J0 _]]]].
  destruct (iso_u_eval s w (u_hi s) (v_lo s) V Hv P W R2 (Dm _ _ Lu' Lv)) as [c1 [_ [B1 [J1 _]]]].
  destruct (iso_v_eval s w (u_lo s) (v_lo s) V Hu P W R3 (Dm _ _ Lu Lv)) as [c2 [_ [B2 [J2 _]]]].
  destruct (iso_v_eval s w (u_lo s) (v_hi s) V Hu P W R4 (Dm _ _ Lu Lv')) as [c3 [_ [B3 [J3 _]]]].
  rewrite E3, E4 in J0, J1. rewrite E1, E2 in J2, J3.
  exists c0, c1, c2, c3. split. { unfold surface_boundaries. rewrite I. rewrite B0. cbn [bind]. rewrite B1. cbn [bind]. rewrite B2. cbn [bind]. rewrite B3. reflexivity. }
  split; [auto|]. split; [auto|]. split; [auto|]. split; [auto|]. split.
  - intros v Hv'. destruct (iso_u_eval s w (u_lo s) v V Hv P W R1 (Dm _ _ Lu Hv')) as [c [p [X [_ [Y Z]]]]].
    destruct (iso_u_eval s w (u_hi s) v V Hv P W R2 (Dm _ _ Lu' Hv')) as [d [q [X' [_ [Y' Z']]]]].
    assert (c = c0) by congruence. assert (d = c1) by congruence. subst. eauto 10.
  - intros u Hu'. destruct (iso_v_eval s w u (v_lo s) V Hu P W R3 (Dm _ _ Hu' Lv)) as [c [p [X [_ [Y Z]]]]].
    destruct (iso_v_eval s w u (v_hi s) V Hu P W R4 (Dm _ _ Hu' Lv')) as [d [q [X' [_ [Y' Z']]]]].
    assert (c = c2) by congruence. assert (d = c3) by congruence. subst. eauto 10.
Qed.

(* the corner vertices and the edges of a surface without weights *)
Lemma surf_to_brep_corners s A B C D : regular s -> weight_all s 1 ->
  evaluate_surface s (u_lo s) (v_lo s) = Ok A -> evaluate_surface s (u_lo s) (v_hi s) = Ok B ->
  evaluate_surface s (u_hi s) (v_lo s) = Ok C -> evaluate_surface s (u_hi s) (v_hi s) = Ok D -> NoDup [A; B; C; D] ->
  surf_to_brep s = Ok ([A; B; C; D], [(0, 1); (2, 3); (0, 2); (1, 3)]%nat).
Proof.
  intros G W HA HB HC HD N. destruct (boundaries_eval s 1 G ltac:(reflexivity) W) as [c0 [c1 [c2 [c3 [E [J0 [J1 [J2 [J3 [F1 F2]]]]]]]]]].
  pose proof (regular_dom s G) as [Du Dv].
  assert (Lu : u_lo s <= u_lo s <= u_hi s) by (split; qlra). assert (Lu' : u_lo s <= u_hi s <= u_hi s) by (split; qlra).
  assert (Lv : v_lo s <= v_lo s <= v_hi s) by (split; qlra). assert (Lv' : v_lo s <= v_hi s <= v_hi s) by (split; qlra).
  destruct (F1 _ Lv) as [[p1 [P1 Q1]] [p2 [P2 Q2]]]. destruct (F1 _ Lv') as [[p3 [P3 Q3]] [p4 [P4 Q4]]].
  destruct (F2 _ Lu) as [[p5 [P5 Q5]] [p6 [P6 Q6]]]. destruct (F2 _ Lu') as [[p7 [P7 Q7]] [p8 [P8 Q8]]].
  rewrite tscale_1 in *. unfold surf_to_brep. rewrite E. cbn [bind mapR]. unfold curve_ends.
  rewrite J0, J1, J2, J3. cbn [fst snd].
  assert (p1 = A) by congruence. assert (p2 = C) by congruence. assert (p3 = B) by congruence. assert (p4 = D) by congruence.
  assert (p5 = A) by congruence. assert (p6 = B) by congruence. assert (p7 = C) by congruence. assert (p8 = D) by congruence. subst.
  rewrite Q1. cbn [bind]. rewrite Q3. cbn [bind]. rewrite Q2. cbn [bind]. rewrite Q4. cbn [bind]. rewrite Q5. cbn [bind]. rewrite Q7. cbn [bind].
  rewrite Q6. cbn [bind]. rewrite Q8. cbn [bind]. f_equal. apply to_brep_corners. auto.
Qed.

(* parameters recovered from the number of the boundary *)
Lemma boundary_params s bs i c t p : regular s -> weight_all s 1 -> surface_boundaries s = Ok bs -> nth_error bs i = Some c ->
  fst (c_int c) <= t <= snd (c_int c) -> evaluate c t = Ok p ->
  let uv := index_to_params (Z.of_nat i) t (s_int s) in
  evaluate_surface s (fst uv) (snd uv) = Ok p /\ on_side (s_int s) (Z.of_nat i) t uv /\ in_dom s (fst uv) (snd uv).
Proof.
  intros G W E N T V. destruct (boundaries_eval s 1 G ltac:(reflexivity) W) as [c0 [c1 [c2 [c3 [E' [J0 [J1 [J2 [J3 [F1 F2]]]]]]]]]].
  rewrite E in E'. injection E' as ->. pose proof (regular_dom s G) as [Du Dv].
  assert (Dm : forall u v, u_lo s <= u <= u_hi s -> v_lo s <= v <= v_hi s -> in_dom s u v) by (intros; split; auto).
  pose proof G as [_ [_ [_ [I _]]]]. rewrite I. unfold index_to_params, on_side.
  destruct i as [|[|[|[|i]]]]; cbn in N; try (destruct i; discriminate); injection N as <-; rewrite ?J0, ?J1, ?J2, ?J3 in T; cbn [fst snd] in T; cbn [Z.of_nat Z.eqb fst snd].
  - destruct (F1 t T) as [[q [A B]] _]. rewrite tscale_1 in B. split; [congruence|]. split; [auto|]. cbn. apply Dm; auto; split; qlra.
  - destruct (F1 t T) as [_ [q [A B]]]. rewrite tscale_1 in B. split; [cbn; congruence|]. split; [cbn; auto|]. cbn. apply Dm; auto; split; qlra.
  - destruct (F2 t T) as [[q [A B]] _]. rewrite tscale_1 in B. split; [cbn; congruence|]. split; [cbn; auto|]. cbn. apply Dm; auto; split; qlra.
  - destruct (F2 t T) as [_ [q [A B]]]. rewrite tscale_1 in B. split; [cbn; congruence|]. split; [cbn; auto 6|]. cbn. apply Dm; auto; split; qlra.
Qed.
