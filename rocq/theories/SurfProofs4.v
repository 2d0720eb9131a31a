(* Bounding box, boundary, normalisation and subdivision of surfaces. *)
From Coq Require Import List ZArith Lia Bool QArith Qcanon Permutation.
From Verif Require Import Common ListLib QcLib ArrZ SplineTheory SplineTheory2 NurbsModel NurbsSpec NurbsProofs NurbsProofs2 NurbsProofs3 NurbsEditModel NurbsEditSpec NurbsInsert NurbsEditProofs NurbsEditProofs2 NurbsSplit SurfModel SurfSpec SurfProofs1 SurfProofs2 SurfProofs3.
Import ListNotations.
Local Open Scope Z_scope.
Local Open Scope Qc_scope.

(* ---- bounding box --------------------------------------------------------- *)
Lemma bbox_row_pos q : 0 < pw q -> bbox_row q = Ok (to_space q).
Proof.
  intro H. unfold bbox_row, to_space. assert (X : pw q <> 0) by (intro X; rewrite X in H; qlra).
  rewrite !divR_ok by auto. reflexivity.
Qed.
Lemma bbox_loop_pos : forall rows b, (forall q, In q rows -> 0 < pw q) ->
  exists b', bbox_loop b rows = Ok b' /\ box_le b b' /\ (forall q, In q rows -> in_box3 b' (to_space q)).
Proof.
  induction rows as [|q r IH]; intros b H.
  - exists b. split; auto. split; [apply box_le_refl|]. intros q [].
  - cbn [bbox_loop]. rewrite bbox_row_pos by (apply H; left; auto). cbn [bind].
    destruct (IH (bbox_step b (to_space q))) as [b' [E [L I]]]. { intros; apply H; right; auto. }
    exists b'. split; auto. split.
    + eapply box_le_trans; [apply bbox_step_le|apply L].
    + intros q' [->|Hq]; auto. eapply box_le_in; [exact L|apply bbox_step_in].
Qed.

Lemma entry_in s i j : valid_surface s -> (0 <= i < s_nu s)%Z -> (0 <= j < s_nv s)%Z -> In (entry (s_pts s) i j) (concat (s_pts s)).
Proof.
  intros [Sh _] Hi Hj. pose proof (shaped_row _ _ _ i Sh Hi) as L. apply in_concat.
  exists (atZ [] (s_pts s) i). split.
  - unfold atZ. apply nth_In. unfold s_nu, lenZ in Hi. lia.
  - unfold entry, atZ at 1. apply nth_In. unfold lenZ in L. lia.
Qed.

Lemma ratio_bounds s f lo hi u v : valid_surface s -> weights_positive s -> in_dom s u v ->
  (forall q, In q (concat (s_pts s)) -> lo <= f q / pw q <= hi) ->
  lo <= tensor s f u v / tensor s pw u v <= hi.
Proof.
  intros V W D H. pose proof (tensor_weight_pos s u v V W D) as TP. pose proof V as [Sh [VU VV]].
  destruct D as [Du Dv]. unfold dom_u, dom_v in *.
  replace (s_nu s) with (s_nu s - 1 + 1)%Z in Du by lia. replace (s_nv s) with (s_nv s - 1 + 1)%Z in Dv by lia.
  assert (K : forall k, tensor s (fun q => k * pw q) u v = k * tensor s pw u v).
  { intro k. rewrite !tensor_spl. rewrite <- spl_scal. apply spl_ext. intros i Hi. apply spl_scal. }
  assert (G : forall i j, (0 <= i <= s_nu s - 1)%Z -> (0 <= j <= s_nv s - 1)%Z ->
    lo * pw (entry (s_pts s) i j) <= f (entry (s_pts s) i j) /\ f (entry (s_pts s) i j) <= hi * pw (entry (s_pts s) i j)).
  { intros i j Hi Hj. destruct (H (entry (s_pts s) i j)) as [A B]. { apply entry_in; auto; lia. }
    assert (Wp : 0 < pw (entry (s_pts s) i j)) by (apply entry_weight; auto; lia).
    set (w := pw (entry (s_pts s) i j)) in *. set (x := f (entry (s_pts s) i j)) in *.
    assert (E : x = x / w * w). { field. intro X. rewrite X in Wp. qlra. }
    set (y := x / w) in *. rewrite E. split; qnra. }
  assert (L1 : tensor s (fun q => lo * pw q) u v <= tensor s f u v).
  { rewrite !tensor_spl. apply spl_le; auto. intros i Hi. apply spl_le; auto. intros j Hj. apply G; auto. }
  assert (L2 : tensor s f u v <= tensor s (fun q => hi * pw q) u v).
  { rewrite !tensor_spl. apply spl_le; auto. intros i Hi. apply spl_le; auto. intros j Hj. apply G; auto. }
  rewrite K in L1, L2. set (w := tensor s pw u v) in *. set (x := tensor s f u v) in *.
  assert (E : x = x / w * w). { field. intro X. rewrite X in TP. qlra. }
  set (y := x / w) in *. clearbody x y w. subst x.
  split; apply Qcnot_lt_le; intro C; qnra.
Qed.

Lemma surface_in_bbox s u v : valid_surface s -> weights_positive s -> in_dom s u v ->
  exists b p, surface_bbox s = Ok b /\ evaluate_surface s u v = Ok p /\ in_box3 b p /\
    (forall q, In q (concat (s_pts s)) -> in_box3 b (to_space q)).
Proof.
  intros V W D. pose proof V as [Sh [VU VV]].
  assert (Wc : forall q, In q (concat (s_pts s)) -> 0 < pw q).
  { intros q Hq. apply in_concat in Hq. destruct Hq as [r [Hr Hq]]. unfold weights_positive in W.
    rewrite Forall_forall in W. specialize (W r Hr). rewrite Forall_forall in W. auto. }
  assert (Hb : exists b, surface_bbox s = Ok b /\ forall q, In q (concat (s_pts s)) -> in_box3 b (to_space q)).
  { unfold surface_bbox. destruct (concat (s_pts s)) as [|q r] eqn:E.
    - exfalso. assert (X : In (entry (s_pts s) 0 0) (concat (s_pts s))).
      { apply entry_in; auto; [destruct VU as [X _]|destruct VV as [X _]]; lia. } rewrite E in X. destruct X.
    - rewrite bbox_row_pos by (apply Wc; left; auto). cbn [bind].
      destruct (bbox_loop_pos r (to_space q, to_space q)) as [b [Eb [L I]]]. { intros; apply Wc; right; auto. }
      exists b. split; auto. intros q' [->|Hq]; auto. eapply box_le_in; [exact L|]. unfold to_space. simpl. repeat split; apply Qcle_refl. }
  destruct Hb as [b [Eb Ib]]. exists b, (nurbs_surface_point s u v). split; auto. split. { now apply evaluate_surface_pos. }
  split; auto. destruct b as [[[a0 a1] a2] [[b0 b1] b2]]. unfold nurbs_surface_point. cbn [in_box3].
  split; [|split]; apply ratio_bounds; auto; intros q Hq; specialize (Ib q Hq); unfold to_space in Ib; cbn [in_box3] in Ib; tauto.
Qed.

(* ---- boundary ------------------------------------------------------------- *)
Lemma spl_at p n U u s k g : valid_knots p n U -> span_of p n U u s -> (s - p <= k <= s)%Z ->
  (forall j, (1 <= j <= p)%Z -> knot U (k + j) = u) -> spl U n p u g = g k.
Proof.
  intros V S Hk HK. pose proof V as [Hp _]. rewrite (spl_chain p n U u s) by auto.
  rewrite (repeat_kn (knot U) u k) by (intros; apply HK; lia).
  apply chain_dual. apply (span_ndg p n U u); auto. lia.
Qed.

Lemma spl_start p n U g : valid_knots p n U -> clamped p n U -> knot U p < knot U (p + 1) -> spl U n p (knot U 0) g = g 0%Z.
Proof.
  intros V [C1 C2] L. pose proof V as [Hp [LU [M N]]].
  assert (E0 : knot U p = knot U 0) by (apply C1; lia).
  assert (Mx : knot U (p + 1) <= knot U (n + 1)) by (apply M; lia).
  apply (spl_at p n U _ p); auto; try lia.
  - split; [lia|]. rewrite <- E0. split. intro; split; auto. apply Qcle_refl. intro. qlra.
  - intros j Hj. apply C1. lia.
Qed.
Lemma spl_end p n U g : valid_knots p n U -> clamped p n U -> spl U n p (knot U (n + p + 1)) g = g n.
Proof.
  intros V [C1 C2]. pose proof V as [Hp [LU [M N]]].
  assert (E0 : knot U (n + 1) = knot U (n + p + 1)) by (apply C2; lia).
  apply (spl_at p n U _ n); auto; try lia.
  - split; [lia|]. rewrite <- E0. split; auto. intro. qlra.
  - intros j Hj. apply C2. lia.
Qed.

Lemma clamped_dom p n U : valid_knots p n U -> clamped p n U -> knot U p < knot U (p + 1) ->
  (knot U p <= knot U 0 <= knot U (n + 1)) /\ (knot U p <= knot U (n + p + 1) <= knot U (n + 1)).
Proof.
  intros [Hp [LU [M N]]] [C1 C2] L.
  assert (E0 : knot U p = knot U 0) by (apply C1; lia).
  assert (E1 : knot U (n + 1) = knot U (n + p + 1)) by (apply C2; lia).
  assert (knot U 0 <= knot U (n + 1)) by (apply M; lia).
  rewrite E0, <- E1. repeat split; auto; qlra.
Qed.

Lemma row_pos p n U row x : valid_knots p n U -> knot U p <= x <= knot U (n + 1) ->
  (forall i, (0 <= i <= n)%Z -> 0 < pw (row i)) -> 0 < row_sum U n p row pw x.
Proof. intros V D H. apply (spl_pos p n U x (fun i => pw (row i))); auto. Qed.

Lemma evaluate_from_sums s u v X Y Z0 W : valid_surface s -> knot (s_ku s) (s_du s) <= u -> knot (s_kv s) (s_dv s) <= v ->
  tensor s px u v = X -> tensor s py u v = Y -> tensor s pz u v = Z0 -> tensor s pw u v = W -> 0 < W ->
  evaluate_surface s u v = Ok (X / W, Y / W, Z0 / W).
Proof.
  intros V Hu Hv <- <- <- <- P. rewrite evaluate_eq by auto. rewrite divide_ok; [reflexivity|]. intro E. rewrite E in P. qlra.
Qed.

(* the four boundary curves *)
Lemma boundary_u s v : valid_surface s -> weights_positive s -> clamped_u s -> knot (s_ku s) (s_du s) < knot (s_ku s) (s_du s + 1) ->
  dom_v s v ->
  evaluate_surface s (knot (s_ku s) 0) v
    = Ok (row_point (s_kv s) (s_nv s - 1) (s_dv s) (fun j => entry (s_pts s) 0 j) v) /\
  evaluate_surface s (knot (s_ku s) (s_nu s + s_du s)) v
    = Ok (row_point (s_kv s) (s_nv s - 1) (s_dv s) (fun j => entry (s_pts s) (s_nu s - 1) j) v).
Proof.
  intros V W C L [D1 D2]. pose proof V as [Sh [VU VV]]. pose proof VU as [Hp _].
  destruct (clamped_dom _ _ _ VU C L) as [[A1 A2] [B1 B2]].
  replace (s_nu s - 1 + s_du s + 1)%Z with (s_nu s + s_du s)%Z in B1, B2 by lia.
  assert (D : knot (s_kv s) (s_dv s) <= v <= knot (s_kv s) (s_nv s - 1 + 1)).
  { replace (s_nv s - 1 + 1)%Z with (s_nv s) by lia. auto. }
  split.
  - apply evaluate_from_sums; auto; try (rewrite tensor_spl; apply spl_start; auto).
    apply row_pos; auto. intros j Hj. apply entry_weight; auto; lia.
  - apply evaluate_from_sums; auto; try (rewrite tensor_spl; replace (s_nu s + s_du s)%Z with (s_nu s - 1 + s_du s + 1)%Z by lia; apply spl_end; auto).
    apply row_pos; auto. intros j Hj. apply entry_weight; auto; lia.
Qed.
Lemma boundary_v s u : valid_surface s -> weights_positive s -> clamped_v s -> knot (s_kv s) (s_dv s) < knot (s_kv s) (s_dv s + 1) ->
  dom_u s u ->
  evaluate_surface s u (knot (s_kv s) 0)
    = Ok (row_point (s_ku s) (s_nu s - 1) (s_du s) (fun i => entry (s_pts s) i 0) u) /\
  evaluate_surface s u (knot (s_kv s) (s_nv s + s_dv s))
    = Ok (row_point (s_ku s) (s_nu s - 1) (s_du s) (fun i => entry (s_pts s) i (s_nv s - 1)) u).
Proof.
  intros V W C L [D1 D2]. pose proof V as [Sh [VU VV]]. pose proof VV as [Hp _].
  destruct (clamped_dom _ _ _ VV C L) as [[A1 A2] [B1 B2]].
  replace (s_nv s - 1 + s_dv s + 1)%Z with (s_nv s + s_dv s)%Z in B1, B2 by lia.
  assert (D : knot (s_ku s) (s_du s) <= u <= knot (s_ku s) (s_nu s - 1 + 1)).
  { replace (s_nu s - 1 + 1)%Z with (s_nu s) by lia. auto. }
  split.
  - apply evaluate_from_sums; auto; try (rewrite tensor_spl2; apply spl_start; auto).
    apply row_pos; auto. intros j Hj. apply entry_weight; auto; lia.
  - apply evaluate_from_sums; auto; try (rewrite tensor_spl2; replace (s_nv s + s_dv s)%Z with (s_nv s - 1 + s_dv s + 1)%Z by lia; apply spl_end; auto).
    apply row_pos; auto. intros j Hj. apply entry_weight; auto; lia.
Qed.

Lemma corners s : valid_surface s -> weights_positive s -> clamped_u s -> clamped_v s ->
  knot (s_ku s) (s_du s) < knot (s_ku s) (s_du s + 1) -> knot (s_kv s) (s_dv s) < knot (s_kv s) (s_dv s + 1) ->
  let u0 := knot (s_ku s) 0 in let u1 := knot (s_ku s) (s_nu s + s_du s) in
  let v0 := knot (s_kv s) 0 in let v1 := knot (s_kv s) (s_nv s + s_dv s) in
  let P i j := to_space (entry (s_pts s) i j) in
  evaluate_surface s u0 v0 = Ok (P 0 0)%Z /\ evaluate_surface s u0 v1 = Ok (P 0 (s_nv s - 1))%Z /\
  evaluate_surface s u1 v0 = Ok (P (s_nu s - 1) 0)%Z /\ evaluate_surface s u1 v1 = Ok (P (s_nu s - 1) (s_nv s - 1))%Z.
Proof.
  intros V W C C' L L' u0 u1 v0 v1 P. pose proof V as [Sh [VU VV]].
  destruct (clamped_dom _ _ _ VV C' L') as [A B].
  replace (s_nv s - 1 + 1)%Z with (s_nv s) in A, B by lia. replace (s_nv s - 1 + s_dv s + 1)%Z with (s_nv s + s_dv s)%Z in B by lia.
  destruct (boundary_u s v0 V W C L A) as [E1 E2]. destruct (boundary_u s v1 V W C L B) as [E3 E4].
  fold u0 u1 in E1, E2, E3, E4. rewrite E1, E2, E3, E4.
  assert (R0 : forall row, row_point (s_kv s) (s_nv s - 1) (s_dv s) row v0 = to_space (row 0%Z)).
  { intro row. assert (R : forall f, row_sum (s_kv s) (s_nv s - 1) (s_dv s) row f v0 = f (row 0%Z)).
    { intro f. exact (spl_start (s_dv s) (s_nv s - 1) (s_kv s) (fun j => f (row j)) VV C' L'). }
    unfold row_point, to_space. now rewrite !R. }
  assert (R1 : forall row, row_point (s_kv s) (s_nv s - 1) (s_dv s) row v1 = to_space (row (s_nv s - 1)%Z)).
  { intro row. assert (R : forall f, row_sum (s_kv s) (s_nv s - 1) (s_dv s) row f v1 = f (row (s_nv s - 1)%Z)).
    { intro f. unfold v1. replace (s_nv s + s_dv s)%Z with (s_nv s - 1 + s_dv s + 1)%Z by lia.
      exact (spl_end (s_dv s) (s_nv s - 1) (s_kv s) (fun j => f (row j)) VV C'). }
    unfold row_point, to_space. now rewrite !R. }
  rewrite !R0, !R1. repeat split.
Qed.

(* ---- construction ----------------------------------------------------------- *)
Lemma new_surface_ok G nu nv du dv : shaped nu nv G -> (0 <= du < nu)%Z -> (0 <= dv < nv)%Z ->
  exists s, new_surface G du dv None None = Ok s /\ s_pts s = G /\ s_du s = du /\ s_dv s = dv /\
    valid_surface s /\ interval_current s /\ clamped_u s /\ clamped_v s /\
    s_int s = ((zq 0, zq (nu - du)), (zq 0, zq (nv - dv))) /\
    (forall i, (0 <= i <= nu + du)%Z -> knot (s_ku s) i = zq (Z.max 0 (Z.min (nu - du) (i - du)))) /\
    (forall j, (0 <= j <= nv + dv)%Z -> knot (s_kv s) j = zq (Z.max 0 (Z.min (nv - dv) (j - dv)))).
Proof.
  intros Sh Hu Hv. destruct (generate_knots_valid nu du Hu) as [A1 [A2 _]]. destruct (generate_knots_valid nv dv Hv) as [B1 [B2 _]].
  destruct (update_surface_ok nu nv G du dv _ _ Sh A1 B1) as [s [E [F1 [F2 [F3 [F4 [F5 [F6 [F7 [F8 [F9 F10]]]]]]]]]]].
  exists s. unfold new_surface. rewrite (proj1 Sh), (shaped_nv nu nv G Sh) by lia. split; auto.
  repeat (split; [solve [auto]|]).
  split. { unfold clamped_u. rewrite F2, F4, F6. auto. } split. { unfold clamped_v. rewrite F3, F5, F7. auto. }
  split. { rewrite F10. rewrite !generate_knots_at by lia.
    assert (Q : forall a b c d a' b' c' d' : Z, a = a' -> b = b' -> c = c' -> d = d' ->
      ((zq a, zq b), (zq c, zq d)) = ((zq a', zq b'), (zq c', zq d'))) by (intros; subst; auto).
    apply Q; lia. }
  split; intros; [rewrite F4|rewrite F5]; rewrite generate_knots_at by lia; f_equal; lia.
Qed.

(* ---- normalisation ------------------------------------------------------------ *)
Lemma normalize_ok s : valid_surface s ->
  let hu := unit_map (s_ku s) (s_du s) (s_nu s - 1) in let hv := unit_map (s_kv s) (s_dv s) (s_nv s - 1) in
  exists s', normalize_surface s = Ok s' /\ valid_surface s' /\ interval_current s' /\
    s_int s' = ((0, 1), (0, 1)) /\ s_pts s' = s_pts s /\ s_du s' = s_du s /\ s_dv s' = s_dv s /\
    s_ku s' = map hu (s_ku s) /\ s_kv s' = map hv (s_kv s) /\
    (forall u v, in_dom s u v -> in_dom s' (hu u) (hv v) /\ evaluate_surface s' (hu u) (hv v) = evaluate_surface s u v).
Proof.
  intros V hu hv. pose proof V as [Sh [VU VV]]. pose proof VU as [Hp [LU _]]. pose proof VV as [Hq [LV _]].
  assert (NU : forall p n U, valid_knots p n U -> let h := unit_map U p n in
    normalize_kv U = Ok (map h U) /\ valid_knots p n (map h U) /\ knot (map h U) 0 = 0 /\ knot (map h U) (n + p + 1) = 1 /\
    (forall x y, x <= y -> h x <= h y) /\ (forall x g, knot U p <= x -> spl (map h U) n p (h x) g = spl U n p x g)).
  { intros p n U VK h. exact (proj2 (normalize_dir p n U VK)). }
  destruct (NU _ _ _ VU) as [A2 [A3 [A4 [A5 [A6 A7]]]]]. destruct (NU _ _ _ VV) as [B2 [B3 [B4 [B5 [B6 B7]]]]].
  destruct (update_surface_ok (s_nu s) (s_nv s) (s_pts s) (s_du s) (s_dv s) _ _ Sh A3 B3) as [s' [E [F1 [F2 [F3 [F4 [F5 [F6 [F7 [F8 [F9 F10]]]]]]]]]]].
  exists s'. unfold normalize_surface. rewrite A2. cbn [bind]. rewrite B2. cbn [bind]. split; auto.
  repeat (split; [solve [auto]|]).
  split. { rewrite F10. replace (s_nu s + s_du s)%Z with (s_nu s - 1 + s_du s + 1)%Z by lia.
    replace (s_nv s + s_dv s)%Z with (s_nv s - 1 + s_dv s + 1)%Z by lia. now rewrite A4, A5, B4, B5. }
  repeat (split; [solve [auto]|]).
  intros u v [[D1 D2] [D3 D4]].
  assert (D' : in_dom s' (hu u) (hv v)).
  { unfold in_dom, dom_u, dom_v. rewrite F2, F3, F4, F5, F6, F7. rewrite !knot_map by lia. repeat split; auto. }
  split; auto. apply evaluate_same; auto; try apply D'.
  intros f _. rewrite !tensor_spl. rewrite F1, F2, F3, F4, F5, F6, F7. etransitivity; [apply A7; auto|].
  apply spl_ext. intros i Hi. apply B7. auto.
Qed.

(* ---- subdivision ----------------------------------------------------------------- *)
Lemma cut_u_pieces s t s1 s2 : cut_u s t s1 s2 -> piece_of s s1 (fun u _ => u <= t) /\ piece_of s s2 (fun u _ => t <= u).
Proof. unfold cut_u, piece_of. tauto. Qed.
Lemma cut_v_pieces s t s1 s2 : cut_v s t s1 s2 -> piece_of s s1 (fun _ v => v <= t) /\ piece_of s s2 (fun _ v => t <= v).
Proof. unfold cut_v, piece_of. tauto. Qed.
Lemma piece_trans s q r R S : piece_of s q R -> piece_of q r S -> piece_of s r (fun u v => R u v /\ S u v).
Proof.
  intros [A1 [A2 [A3 [A4 [A5 A6]]]]] [B1 [B2 [B3 [B4 [B5 B6]]]]].
  split; auto. split; auto. split; [congruence|]. split; [congruence|]. split.
  - intros u v. rewrite B5, A5. tauto.
  - intros u v D. rewrite B6 by auto. apply A6. apply B5 in D. tauto.
Qed.

Lemma split_u_ok s t tol junk : valid_surface s -> interval_current s -> 0 <= tol -> cuttable (s_du s) (s_nu s) (s_ku s) t tol ->
  exists s1 s2, split_surface_u s t tol junk = Ok (s1, s2) /\ cut_u s t s1 s2 /\
    s_int s1 = ((fst (fst (s_int s)), t), snd (s_int s)) /\ s_int s2 = ((t, snd (fst (s_int s))), snd (s_int s)).
Proof.
  intros V I T [C1 [C2 [C3 [C4 [C5 [C6 C7]]]]]].
  destruct (split_u_raw s t tol junk) as [s1 [s2 [sp [E [C [I1 [I2 _]]]]]]]; auto. exists s1, s2. auto.
Qed.
Lemma split_v_ok s t tol junk : valid_surface s -> interval_current s -> 0 <= tol -> cuttable (s_dv s) (s_nv s) (s_kv s) t tol ->
  exists s1 s2, split_surface_v s t tol junk = Ok (s1, s2) /\ cut_v s t s1 s2 /\
    s_int s1 = (fst (s_int s), (fst (snd (s_int s)), t)) /\ s_int s2 = (fst (s_int s), (t, snd (snd (s_int s)))).
Proof.
  intros V I T [C1 [C2 [C3 [C4 [C5 [C6 C7]]]]]].
  destruct (split_v_raw s t tol junk) as [s1 [s2 [sp [E [C [I1 [I2 _]]]]]]]; auto. exists s1, s2. auto.
Qed.

Lemma subdivide_ok s u v tol j1 j2 j3 : valid_surface s -> interval_current s -> 0 <= tol ->
  cuttable (s_du s) (s_nu s) (s_ku s) u tol -> cuttable (s_dv s) (s_nv s) (s_kv s) v tol ->
  exists s11 s12 s21 s22, subdivide_surface s u v tol false j1 j2 j3 = Ok (s11, s12, s21, s22) /\
    piece_of s s11 (fun x y => x <= u /\ y <= v) /\ piece_of s s12 (fun x y => x <= u /\ v <= y) /\
    piece_of s s21 (fun x y => u <= x /\ y <= v) /\ piece_of s s22 (fun x y => u <= x /\ v <= y).
Proof.
  intros V I T Cu Cv. destruct (split_u_ok s u tol j1 V I T Cu) as [a [b [E [C _]]]].
  destruct (cut_u_pieces _ _ _ _ C) as [PA PB].
  destruct C as [Va [Vb [Ia [Ib [_ [Da [_ [Db [Ka [Kb [Na [Nb _]]]]]]]]]]]].
  destruct (split_v_ok a v tol j2 Va Ia T) as [a1 [a2 [Ea [Ca _]]]]. { rewrite Da, Ka, Na. auto. }
  destruct (split_v_ok b v tol j3 Vb Ib T) as [b1 [b2 [Eb [Cb _]]]]. { rewrite Db, Kb, Nb. auto. }
  destruct (cut_v_pieces _ _ _ _ Ca) as [P1 P2]. destruct (cut_v_pieces _ _ _ _ Cb) as [P3 P4].
  exists a1, a2, b1, b2. unfold subdivide_surface. rewrite E. cbn [bind]. rewrite Ea. cbn [bind]. rewrite Eb. cbn [bind].
  split; auto. split; [apply (piece_trans s a); auto|]. split; [apply (piece_trans s a); auto|]. split; apply (piece_trans s b); auto.
Qed.

(* with normalize_knots the v parameter is no longer a parameter of the halves *)
Lemma subdivide_normalized_fails s u v tol j1 j2 j3 : valid_surface s -> interval_current s -> 0 <= tol ->
  cuttable (s_du s) (s_nu s) (s_ku s) u tol -> v <= 0 \/ 1 <= v ->
  subdivide_surface s u v tol true j1 j2 j3 = Err ValueError.
Proof.
  intros V I T Cu Hv. destruct (split_u_ok s u tol j1 V I T Cu) as [a [b [E [C _]]]].
  destruct C as [Va [Vb _]].
  destruct (normalize_ok a Va) as [a' [Na [_ [_ [Ia _]]]]]. destruct (normalize_ok b Vb) as [b' [Nb _]].
  unfold subdivide_surface. rewrite E. cbn [bind]. rewrite Na. cbn [bind]. rewrite Nb. cbn [bind].
  unfold split_surface_v at 1. rewrite Ia. cbn [snd]. unfold at_edge. cbn [fst snd].
  destruct (qle v 0) eqn:E1; [reflexivity|]. destruct (qle 1 v) eqn:E2; [reflexivity|].
  apply qle_false in E1. apply qle_false in E2. exfalso. destruct Hv; qlra.
Qed.

(* ---- the control points in space --------------------------------------------------- *)
Lemma euclid_pos q : 0 < pw q -> euclid q = Ok (to_space q).
Proof.
  intro H. assert (X : pw q <> 0) by (intro X; rewrite X in H; qlra). unfold euclid. destruct (qeq (pw q) 1) eqn:E.
  - apply qeq_true in E. unfold to_space. rewrite E. f_equal. assert (Z1 : (1:Qc) <> 0) by (intro Y; discriminate Y).
    f_equal; [f_equal|]; field; auto.
  - rewrite !divR_ok by auto. reflexivity.
Qed.
Lemma control_points_ok s : weights_positive s -> control_points s = Ok (map (map to_space) (s_pts s)).
Proof.
  intro W. unfold control_points. apply mapR_map. intros r Hr. apply mapR_map. intros q Hq. apply euclid_pos.
  unfold weights_positive in W. rewrite Forall_forall in W. specialize (W r Hr). rewrite Forall_forall in W. auto.
Qed.

(* ---- the stored interval -------------------------------------------------------------- *)
Lemma set_knots_u_ok s k : valid_surface s -> valid_knots (s_du s) (s_nu s - 1) k ->
  exists s', set_knots_u s k = Ok s' /\ valid_surface s' /\ interval_current s' /\ s_ku s' = k /\ s_kv s' = s_kv s /\ s_pts s' = s_pts s.
Proof.
  intros [Sh [VU VV]] K. destruct (update_surface_ok _ _ _ (s_du s) (s_dv s) k (s_kv s) Sh K VV) as [s' [E [F1 [F2 [F3 [F4 [F5 [F6 [F7 [F8 [F9 F10]]]]]]]]]]].
  exists s'. repeat (split; [solve [auto]|]). auto.
Qed.
Lemma set_knots_v_ok s k : valid_surface s -> valid_knots (s_dv s) (s_nv s - 1) k ->
  exists s', set_knots_v s k = Ok s' /\ valid_surface s' /\ interval_current s' /\ s_kv s' = k /\ s_ku s' = s_ku s /\ s_pts s' = s_pts s.
Proof.
  intros [Sh [VU VV]] K. destruct (update_surface_ok _ _ _ (s_du s) (s_dv s) (s_ku s) k Sh VU K) as [s' [E [F1 [F2 [F3 [F4 [F5 [F6 [F7 [F8 [F9 F10]]]]]]]]]]].
  exists s'. repeat (split; [solve [auto]|]). auto.
Qed.

Lemma zq_inj a b : zq a = zq b -> a = b.
Proof.
  intro H. destruct (Z_lt_dec a b) as [L|L]; [|destruct (Z_lt_dec b a) as [L'|L']; [|lia]].
  - apply zq_lt in L. rewrite H in L. exfalso. qlra.
  - apply zq_lt in L'. rewrite H in L'. exfalso. qlra.
Qed.

Lemma set_degree_stale G nu nv du dv du' dv' : shaped nu nv G -> (0 <= du < nu)%Z -> (0 <= dv < nv)%Z ->
  (0 <= du' < nu)%Z -> (0 <= dv' < nv)%Z -> (du', dv') <> (du, dv) ->
  exists s, new_surface G du dv None None = Ok s /\ interval_current s /\
    valid_surface (set_degree s du' dv') /\ ~ interval_current (set_degree s du' dv').
Proof.
  intros Sh Hu Hv Hu' Hv' Ne. destruct (new_surface_ok G nu nv du dv Sh Hu Hv) as [s [E [F1 [F2 [F3 [V [I [_ [_ [EI _]]]]]]]]]].
  assert (N1 : s_nu s = nu) by (unfold s_nu; rewrite F1; apply Sh).
  assert (N2 : s_nv s = nv) by (unfold s_nv; rewrite F1; apply (shaped_nv nu); auto; lia).
  destruct (generate_knots_valid nu du' Hu') as [A1 _]. destruct (generate_knots_valid nv dv' Hv') as [B1 _].
  assert (N1' : s_nu (set_degree s du' dv') = nu) by exact N1.
  assert (N2' : s_nv (set_degree s du' dv') = nv) by exact N2.
  assert (K1 : s_ku (set_degree s du' dv') = generate_knots nu du') by (rewrite <- N1; reflexivity).
  assert (K2 : s_kv (set_degree s du' dv') = generate_knots nv dv') by (rewrite <- N2; reflexivity).
  assert (V' : valid_surface (set_degree s du' dv')).
  { unfold valid_surface. rewrite N1', N2', K1, K2. change (s_pts (set_degree s du' dv')) with (s_pts s). rewrite F1. auto. }
  exists s. split; auto. split; auto. split; auto. intro C. apply interval_current_eq in C; auto.
  rewrite K1, K2, N1', N2' in C. change (s_int (set_degree s du' dv')) with (s_int s) in C.
  change (s_du (set_degree s du' dv')) with du' in C. change (s_dv (set_degree s du' dv')) with dv' in C.
  rewrite EI in C. rewrite !generate_knots_at in C by lia.
  assert (Q1 : zq (nu - du) = zq (Z.max 0 (Z.min (nu + du' - du') (nu - du')))) by (apply (f_equal (fun z => snd (fst z))) in C; exact C).
  assert (Q2 : zq (nv - dv) = zq (Z.max 0 (Z.min (nv + dv' - dv') (nv - dv')))) by (apply (f_equal (fun z => snd (snd z))) in C; exact C).
  apply zq_inj in Q1. apply zq_inj in Q2. apply Ne. f_equal; lia.
Qed.

(* ---- edges of the domain -------------------------------------------------------------------- *)
Lemma split_u_edge s t tol junk : t <= fst (fst (s_int s)) \/ snd (fst (s_int s)) <= t \/
  qabs (t - fst (fst (s_int s))) <= tol \/ qabs (t - snd (fst (s_int s))) <= tol -> split_surface_u s t tol junk = Err ValueError.
Proof.
  intro H. unfold split_surface_u, at_edge.
  assert (E : (qle t (fst (fst (s_int s))) || qle (snd (fst (s_int s))) t || qle (qabs (t - fst (fst (s_int s)))) tol
    || qle (qabs (t - snd (fst (s_int s)))) tol)%bool = true) by (rewrite !orb_true_iff, !qle_true; tauto).
  now rewrite E.
Qed.
Lemma split_v_edge s t tol junk : t <= fst (snd (s_int s)) \/ snd (snd (s_int s)) <= t \/
  qabs (t - fst (snd (s_int s))) <= tol \/ qabs (t - snd (snd (s_int s))) <= tol -> split_surface_v s t tol junk = Err ValueError.
Proof.
  intro H. unfold split_surface_v, at_edge.
  assert (E : (qle t (fst (snd (s_int s))) || qle (snd (snd (s_int s))) t || qle (qabs (t - fst (snd (s_int s)))) tol
    || qle (qabs (t - snd (snd (s_int s)))) tol)%bool = true) by (rewrite !orb_true_iff, !qle_true; tauto).
  now rewrite E.
Qed.
