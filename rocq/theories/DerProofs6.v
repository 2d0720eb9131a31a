(* The derivative methods, frames, tangents and curvature. *)
From Coq Require Import List ZArith Lia Bool QArith Qcanon Qcabs.
From Verif Require Import Common ListLib QcLib ArrZ SumLib DerivLib SplineTheory NurbsModel NurbsSpec NurbsProofs SurfModel DerModel DerSpec DerProofs1 DerProofs2 DerProofs3 DerProofs4 DerProofs5.
Import ListNotations.
Local Open Scope Z_scope.
Local Open Scope Qc_scope.

Lemma derivatives1_ok c t d : valid_curve c -> in_domain c t -> (0 <= d)%Z ->
  exists R, derivatives1 c t d = Ok R /\ lenZ R = (Z.min d (c_deg c) + 1)%Z /\
    forall k, (0 <= k < lenZ R)%Z -> curve_deriv (unit_weights c) (Z.to_nat k) t (atZ v30 R k).
Proof.
  intros V B Hd. pose proof V as [Hp _]. unfold derivatives1.
  destruct (cder1_ok c t d (Z.to_nat (Z.min d (c_deg c) + 1))) as [R [E [L K]]]; auto; try lia. { split; auto. }
  exists R. split; auto. split; [lia|]. intros k Hk. apply K. lia.
Qed.
Lemma derivatives2_ok c t d : valid_curve c -> in_domain c t -> (0 <= d)%Z ->
  exists R, derivatives2 c t d = Ok R /\ lenZ R = (Z.min d (c_deg c) + 1)%Z /\
    forall k, (0 <= k < lenZ R)%Z -> curve_deriv (unit_weights c) (Z.to_nat k) t (atZ v30 R k).
Proof.
  intros V B Hd. pose proof V as [Hp _]. unfold derivatives2.
  destruct (cder2_ok c t d (Z.to_nat (Z.min d (c_deg c) + 1))) as [R [E [L K]]]; auto; try lia. { split; auto. }
  exists R. split; auto. split; [lia|]. intros k Hk. apply K. lia.
Qed.
Lemma derivative_ok c t : valid_curve c -> in_domain c t ->
  exists v, derivative c t = Ok v /\ curve_deriv (unit_weights c) 1 t v.
Proof.
  intros V B. pose proof V as [Hp _]. unfold derivative.
  destruct (cder2_ok c t 1 2) as [R [E [L K]]]; auto; try lia. { split; auto. }
  rewrite E. cbn [bind]. rewrite (rdZ_ok v30) by lia. eexists. split; [reflexivity|]. apply (K 1%Z). lia.
Qed.
Lemma second_derivative_ok c t : valid_curve c -> in_domain c t ->
  exists v, second_derivative c t = Ok v /\ curve_deriv (unit_weights c) 2 t v.
Proof.
  intros V B. pose proof V as [Hp _]. unfold second_derivative.
  destruct (cder2_ok c t 2 3) as [R [E [L K]]]; auto; try lia. { split; auto. }
  rewrite E. cbn [bind]. rewrite (rdZ_ok v30) by lia. eexists. split; [reflexivity|]. apply (K 2%Z). lia.
Qed.
Lemma first_three c t : valid_curve c -> in_domain c t -> exists d0 d1 d2,
  cderivatives2 c t 2 (repeat v30 3) = Ok [d0; d1; d2] /\
  curve_deriv (unit_weights c) 0 t d0 /\ curve_deriv (unit_weights c) 1 t d1 /\ curve_deriv (unit_weights c) 2 t d2.
Proof.
  intros V B. pose proof V as [Hp _].
  destruct (cder2_ok c t 2 3) as [R [E [L K]]]; auto; try lia. { split; auto. }
  destruct R as [|d0 [|d1 [|d2 [|? ?]]]]; unfold lenZ in L; cbn in L; try lia.
  exists d0, d1, d2. split; auto. split; [apply (K 0%Z); lia|]. split; [apply (K 1%Z); lia|apply (K 2%Z); lia].
Qed.

(* the weights play no part *)
Lemma derivatives_ignore_weights c c' t d :
  map row3 (c_pts c) = map row3 (c_pts c') -> c_deg c = c_deg c' -> c_knots c = c_knots c' -> c_per c = c_per c' ->
  derivatives1 c t d = derivatives1 c' t d.
Proof.
  intros H1 H2 H3 H4. unfold derivatives1, cderivatives1. rewrite H1, H2, H3, H4.
  assert (L : lenZ (c_pts c) = lenZ (c_pts c')) by (unfold lenZ; rewrite <- (map_length row3 (c_pts c)), H1, map_length; auto).
  now rewrite L.
Qed.

(* derivative_control_points always copies four columns into three *)
Lemma derivative_control_points_fails c t d : valid_curve c -> in_domain c t -> (0 <= d)%Z ->
  derivative_control_points c t d = Err ValueError.
Proof.
  intros V B Hd. pose proof V as [Hp _]. unfold derivative_control_points.
  destruct (find_span_any (c_deg c) (last_ix c) (c_knots c) t (c_per c) V) as [s [Fs S]]; try apply B. pose proof S as [Hs _].
  unfold last_ix in *. rewrite Fs. cbn [bind]. unfold curve_deriv_cpts.
  unfold forZ. replace (Z.to_nat (s - (s - c_deg c) + 1 - 0)) with (Datatypes.S (Z.to_nat (c_deg c))) by lia. cbn [for_n].
  rewrite (rdZ_ok pt0) by lia. reflexivity.
Qed.

(* ---- vectors ---- *)

Ltac v3d := repeat match goal with v : v3 |- _ => destruct v end.

Lemma dot_nonneg a : 0 <= dot a a.
Proof. destruct a as [x y z]. unfold dot. cbn. pose proof (abs_sq x). pose proof (abs_sq y). pose proof (abs_sq z). qlra. Qed.

Lemma sq_zero (x : Qc) : x * x = 0 -> x = 0.
Proof. intro H. destruct (Qcmult_integral _ _ H); auto. Qed.

Lemma root_nz sqrt x : root_of sqrt x -> x <> 0 -> sqrt x <> 0 /\ 0 < sqrt x.
Proof.
  intros [H1 H2] H. assert (N : sqrt x <> 0) by (intro E; apply H; rewrite <- H2, E; ring).
  split; auto. destruct (Qcle_lt_or_eq _ _ H1) as [|E]; auto. congruence.
Qed.

Section Sqrt.
Variable sqrt : Qc -> Qc.

Lemma tangent_dir d1 : root_of sqrt (dot d1 d1) -> dot d1 d1 <> 0 ->
  let k := / sqrt (dot d1 d1) in
  vdiv d1 (scalar_norm sqrt d1) = Ok (comb k d1 0 v30) /\ 0 < k /\ unit_vec (comb k d1 0 v30).
Proof.
  intros R NZ k. destruct (root_nz _ _ R NZ) as [N1 N2]. unfold scalar_norm. change (vdot d1 d1) with (dot d1 d1).
  rewrite vdiv_ok by auto. split; [|split].
  - f_equal. unfold comb, k. cbn. apply v3_eq; cbn; field; auto.
  - apply qc_inv_pos; auto.
  - unfold unit_vec, comb, dot. cbn. replace ((k * vx d1 + 0 * 0) * (k * vx d1 + 0 * 0) + (k * vy d1 + 0 * 0) * (k * vy d1 + 0 * 0) + (k * vz d1 + 0 * 0) * (k * vz d1 + 0 * 0))
      with (k * k * dot d1 d1) by (unfold dot; ring).
    destruct R as [_ R]. transitivity (k * k * (sqrt (dot d1 d1) * sqrt (dot d1 d1))); [now rewrite R|]. unfold k. field. auto.
Qed.

Lemma dot_comb a x b y c z : dot (comb a x b y) (comb c z 0 v30) = c * (a * dot x z + b * dot y z).
Proof. unfold dot, comb. cbn. ring. Qed.
Lemma dot_combs a x b y : dot (comb a x b y) (comb a x b y) = a * a * dot x x + (1 + 1) * (a * b) * dot x y + b * b * dot y y.
Proof. unfold dot, comb. cbn. ring. Qed.
Lemma dot_sym a b : dot a b = dot b a.
Proof. unfold dot. ring. Qed.

(* the second vector of the frame *)
Lemma normal_dir d1 d2 : root_of sqrt (dot d1 d1) -> dot d1 d1 <> 0 ->
  let k := / sqrt (dot d1 d1) in
  let T := comb k d1 0 v30 in
  let g := gram_schmidt T d2 in
  g = comb 1 d2 (- (dot d1 d2 / dot d1 d1)) d1 /\ dot g g = perp2 d1 d2 /\ dot g d1 = 0.
Proof.
  intros R NZ k T g. destruct (root_nz _ _ R NZ) as [N1 N2]. destruct R as [R0 R1].
  assert (KK : k * k = / dot d1 d1). { transitivity (/ (sqrt (dot d1 d1) * sqrt (dot d1 d1))); [unfold k; field; auto|now rewrite R1]. }
  assert (G : g = comb 1 d2 (- (dot d1 d2 / dot d1 d1)) d1).
  { unfold g, gram_schmidt, T. change (vdot d2 (comb k d1 0 v30)) with (dot d2 (comb k d1 0 v30)).
    assert (D : dot d2 (comb k d1 0 v30) = k * dot d1 d2) by (unfold dot, comb; cbn; ring). rewrite D.
    apply v3_eq; unfold vsub, vscale, comb; cbn [vx vy vz v30]; unfold Qcdiv; rewrite <- KK; ring. }
  split; auto. split.
  - rewrite G, dot_combs. unfold perp2. rewrite (dot_sym d2 d1). field. auto.
  - rewrite G. unfold dot, comb. cbn. fold (dot d1 d2). unfold dot in NZ |- *. field. auto.
Qed.

Lemma plane_at_ok c t d1 d2 : valid_curve c -> in_domain c t ->
  curve_deriv (unit_weights c) 1 t d1 -> curve_deriv (unit_weights c) 2 t d2 ->
  root_of sqrt (dot d1 d1) -> root_of sqrt (perp2 d1 d2) -> dot d1 d1 <> 0 -> perp2 d1 d2 <> 0 ->
  exists P T N B, plane_at sqrt c t = Ok [P; T; N; B] /\ curve_deriv (unit_weights c) 0 t P /\
    unit_vec T /\ unit_vec N /\ unit_vec B /\ orthogonal T N /\ orthogonal T B /\ orthogonal N B /\ det3 T N B = 1 /\
    (exists k, 0 < k /\ T = comb k d1 0 v30) /\ (exists k m, 0 < k /\ N = comb k d2 m d1).
Proof.
  intros V B C1 C2 R1 R2 N1 N2. unfold plane_at, cplane.
  destruct (first_three c t V B) as [e0 [e1 [e2 [E [K0 [K1 K2]]]]]]. rewrite E. cbn [bind].
  assert (OK : curve_ok (unit_weights c) t).
  { split; [apply valid_unit; auto|]. unfold in_domain, last_ix in *. cbn. rewrite (lenZ_map unit_pt). auto. }
  assert (e1 = d1) by (eapply curve_deriv_unique; eauto). assert (e2 = d2) by (eapply curve_deriv_unique; eauto). subst e1 e2.
  rewrite !(rdZ_ok v30) by (unfold lenZ; cbn; lia). cbn [bind].
  change (atZ v30 [e0; d1; d2] 1) with d1. change (atZ v30 [e0; d1; d2] 2) with d2. change (atZ v30 [e0; d1; d2] 0) with e0.
  destruct (tangent_dir d1 R1 N1) as [T1 [T2 T3]]. rewrite T1. cbn [bind].
  destruct (normal_dir d1 d2 R1 N1) as [G1 [G2 G3]].
  set (k := / sqrt (dot d1 d1)) in *. set (T := comb k d1 0 v30) in *. set (g := gram_schmidt T d2) in *.
  assert (Rg : root_of sqrt (dot g g)) by (rewrite G2; auto). assert (Ng : dot g g <> 0) by (rewrite G2; auto).
  destruct (tangent_dir g Rg Ng) as [M1 [M2 M3]]. rewrite M1. cbn [bind].
  set (k2 := / sqrt (dot g g)) in *. set (N := comb k2 g 0 v30) in *.
  change (Z.to_nat (4 - 3)) with 1%nat. rewrite wrZ_ok by (unfold lenZ; cbn; lia).
  exists e0, T, N, (vcross T N). split; [reflexivity|]. split; auto.
  assert (O1 : orthogonal T N).
  { unfold orthogonal. transitivity (k * k2 * dot g d1); [|rewrite G3; ring].
    clearbody g k2 k. unfold N, T, comb, dot. cbn [vx vy vz v30]. ring. }
  split; auto. split; auto.
  assert (UB : unit_vec (vcross T N)).
  { unfold unit_vec. transitivity (dot T T * dot N N - dot T N * dot T N); [unfold dot, vcross; cbn; ring|].
    rewrite T3, M3, O1. ring. }
  split; auto. split; auto. split; [unfold orthogonal, dot, vcross; cbn; ring|]. split; [unfold orthogonal, dot, vcross; cbn; ring|].
  split. { transitivity (dot (vcross T N) (vcross T N)); [|exact UB]. unfold det3, dot, vcross. cbn. ring. }
  split; [exists k; auto|]. exists k2, (k2 * (- (dot d1 d2 / dot d1 d1))). split; auto.
  unfold N. rewrite G1. apply v3_eq; unfold comb; cbn; ring.
Qed.

(* the frame is not defined where the speed is zero *)
Lemma plane_at_zero_speed c t d1 : valid_curve c -> in_domain c t -> curve_deriv (unit_weights c) 1 t d1 ->
  sqrt (dot d1 d1) = 0 -> plane_at sqrt c t = Err ZeroDivision.
Proof.
  intros V B C1 R. unfold plane_at, cplane.
  destruct (first_three c t V B) as [e0 [e1 [e2 [E [K0 [K1 K2]]]]]]. rewrite E. cbn [bind].
  assert (OK : curve_ok (unit_weights c) t).
  { split; [apply valid_unit; auto|]. unfold in_domain, last_ix in *. cbn. rewrite (lenZ_map unit_pt). auto. }
  assert (e1 = d1) by (eapply curve_deriv_unique; eauto). subst e1.
  rewrite !(rdZ_ok v30) by (unfold lenZ; cbn; lia). cbn [bind].
  change (atZ v30 [e0; d1; e2] 1) with d1. unfold scalar_norm at 1. change (vdot d1 d1) with (dot d1 d1). rewrite R.
  unfold vdiv. rewrite divR_zero. reflexivity.
Qed.

(* cnormal hands three rows to cplane *)
Lemma normal_fails c t v : normal sqrt c t <> Ok v.
Proof.
  unfold normal, cplane. intro H.
  destruct (cderivatives2 c t 2 (repeat v30 3)) as [R|] eqn:E; cbn [bind] in H; [|discriminate].
  destruct (rdZ R 1) as [d1|]; cbn [bind] in H; [|discriminate]. destruct (rdZ R 2) as [d2|]; cbn [bind] in H; [|discriminate].
  destruct (vdiv d1 _) as [T|]; cbn [bind] in H; [|discriminate]. destruct (vdiv (gram_schmidt T d2) _) as [N|]; cbn [bind] in H; [|discriminate].
  destruct (rdZ R 0) as [d0|]; cbn [bind] in H; [|discriminate].
  change (Z.to_nat (3 - 3)) with 0%nat in H. rewrite wrZ_out in H by (unfold lenZ; cbn; lia). discriminate.
Qed.

Lemma tangent_ok c t d1 : valid_curve c -> in_domain c t -> curve_deriv (unit_weights c) 1 t d1 ->
  root_of sqrt (dot d1 d1) -> Q2Qc (1 # (10 ^ 15)) < sqrt (dot d1 d1) ->
  exists T k, tangent sqrt c t = Ok T /\ unit_vec T /\ 0 < k /\ T = comb k d1 0 v30.
Proof.
  intros V B C1 R1 L. unfold tangent.
  destruct (first_three c t V B) as [e0 [e1 [e2 [E [K0 [K1 K2]]]]]]. rewrite E. cbn [bind].
  assert (OK : curve_ok (unit_weights c) t).
  { split; [apply valid_unit; auto|]. unfold in_domain, last_ix in *. cbn. rewrite (lenZ_map unit_pt). auto. }
  assert (e1 = d1) by (eapply curve_deriv_unique; eauto). subst e1.
  rewrite !(rdZ_ok v30) by (unfold lenZ; cbn; lia). cbn [bind].
  change (atZ v30 [e0; d1; e2] 1) with d1. unfold evaluate_tangent. cbv zeta.
  assert (P : 0 < sqrt (dot d1 d1)) by (eapply Qclt_trans; [|exact L]; reflexivity).
  assert (NZ : dot d1 d1 <> 0). { destruct R1 as [_ R1]. rewrite <- R1. intro X. apply sq_zero in X. rewrite X in P. discriminate P. }
  unfold scalar_norm at 1 2 3. change (vdot d1 d1) with (dot d1 d1).
  assert (Q1 : qlt (sqrt (dot d1 d1)) 0 = false) by (apply qlt_false; apply Qclt_le_weak; auto). rewrite Q1.
  assert (Q2 : qle (sqrt (dot d1 d1)) (Q2Qc (1 # 10 ^ 15)) = false) by (apply qle_false; auto). rewrite Q2.
  destruct (tangent_dir d1 R1 NZ) as [T1 [T2 T3]]. unfold scalar_norm in T1. exists (comb (/ sqrt (dot d1 d1)) d1 0 v30), (/ sqrt (dot d1 d1)). split; [exact T1|]. split; auto.
Qed.

Lemma curvature_ok c t d1 d2 : valid_curve c -> in_domain c t ->
  curve_deriv (unit_weights c) 1 t d1 -> curve_deriv (unit_weights c) 2 t d2 ->
  root_of sqrt (dot d1 d1) -> dot d1 d1 <> 0 ->
  exists K, curvature sqrt c t = Ok K /\ orthogonal K d1 /\
    dot K K * (dot d1 d1 * dot d1 d1) = perp2 d1 d2 /\
    (exists m, comb (dot d1 d1) K 0 v30 = comb 1 d2 m d1).
Proof.
  intros V B C1 C2 R1 NZ. unfold curvature.
  destruct (first_three c t V B) as [e0 [e1 [e2 [E [K0 [K1 K2]]]]]]. rewrite E. cbn [bind].
  assert (OK : curve_ok (unit_weights c) t).
  { split; [apply valid_unit; auto|]. unfold in_domain, last_ix in *. cbn. rewrite (lenZ_map unit_pt). auto. }
  assert (e1 = d1) by (eapply curve_deriv_unique; eauto). assert (e2 = d2) by (eapply curve_deriv_unique; eauto). subst e1 e2.
  rewrite !(rdZ_ok v30) by (unfold lenZ; cbn; lia). cbn [bind].
  change (atZ v30 [e0; d1; d2] 1) with d1. change (atZ v30 [e0; d1; d2] 2) with d2. unfold evaluate_curvature. cbv zeta.
  destruct (root_nz _ _ R1 NZ) as [N1 N2]. destruct (tangent_dir d1 R1 NZ) as [T1 [T2 T3]].
  assert (Q1 : qeq (scalar_norm sqrt d1) 0 = false).
  { destruct (qeq (scalar_norm sqrt d1) 0) eqn:Q; auto. apply qeq_true in Q. exfalso. apply N1. exact Q. }
  rewrite Q1, T1. cbn [bind]. unfold scalar_norm. change (vdot d1 d1) with (dot d1 d1). pose proof R1 as [_ RR]. rewrite RR.
  rewrite divR_ok by auto. cbn [bind].
  destruct (normal_dir d1 d2 R1 NZ) as [G1 [G2 G3]]. set (k := / sqrt (dot d1 d1)) in *. set (T := comb k d1 0 v30) in *.
  assert (EG : vadd d2 (vscale (- vdot d2 T) T) = gram_schmidt T d2).
  { unfold gram_schmidt. apply v3_eq; unfold vadd, vsub, vscale; cbn; ring. }
  rewrite EG. set (g := gram_schmidt T d2) in *. set (w := dot d1 d1) in *.
  eexists. split; [reflexivity|]. split; [|split].
  - unfold orthogonal. transitivity (1 / w * dot g d1); [unfold dot, vscale; cbn; ring|]. rewrite G3. ring.
  - rewrite <- G2. transitivity (1 / w * (1 / w) * dot g g * (w * w)); [unfold dot, vscale; cbn; ring|]. field. auto.
  - exists (- (dot d1 d2 / w)). rewrite <- G1. apply v3_eq; unfold comb, vscale; cbn; field; auto.
Qed.
End Sqrt.
