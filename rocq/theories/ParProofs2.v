(* Default derivatives of curves and surfaces, frames, finite differences of a callback. *)
From Coq Require Import List ZArith Lia Bool QArith Qcanon.
From Verif Require Import Common ListLib QcLib ArrZ SumLib NurbsModel DerModel PlnModel PlnSpec PlnProofs2 PlnProofs4 ParModel ParSpec ParProofs1.
Import ListNotations.
Local Open Scope Z_scope.
Local Open Scope Qc_scope.

Lemma H_pos : 0 < H. Proof. reflexivity. Qed.
Lemma H_nz : H <> 0. Proof. discriminate. Qed.
Lemma H_small : H + H + H + H < 1. Proof. reflexivity. Qed.
Lemma half_eq : half = 1 / (1 + 1). Proof. apply Qc_is_canon; reflexivity. Qed.
Lemma two_ne : 1 + 1 <> 0 :> Qc. Proof. discriminate. Qed.
Lemma H_ne1 : H * H <> 1. Proof. discriminate. Qed.

Ltac vd := repeat match goal with |- context [vdot ?a ?b] => change (vdot a b) with (dot3 a b) end.
(* ---- default derivatives of a curve ---- *)
Lemma curve_derivative_scaled a b c t : curve_derivative (quadratic a b c) t = vscale (H * H) (quadratic' a b c t).
Proof.
  unfold curve_derivative, quadratic, quadratic', times. generalize H. intro h.
  apply v3_ext; cbn [vsub vadd vscale vx vy vz]; rewrite half_eq; field; discriminate.
Qed.
Lemma curve_second_scaled a b c t : curve_second (curve_derivative (quadratic a b c)) t = vscale (H * H * (H * H)) (quadratic'' a b c t).
Proof.
  unfold curve_second. rewrite !curve_derivative_scaled. unfold quadratic', quadratic'', times. generalize H. intro h.
  apply v3_ext; cbn [vsub vadd vscale vx vy vz]; rewrite half_eq; field; discriminate.
Qed.
Lemma vscale_fix k d : k <> 1 -> vscale k d = d -> d = zero3.
Proof.
  intros K E. apply v3_inv in E. destruct E as (X & Y & Z). cbn [vscale vx vy vz] in *.
  assert (K' : k - 1 <> 0) by (intro W; apply K; qlra).
  apply v3_ext; cbn [zero3 vx vy vz]; apply (mul_zero (k - 1)); auto; [transitivity (k * vx d - vx d)|transitivity (k * vy d - vy d)|transitivity (k * vz d - vz d)];
  try ring; [rewrite X|rewrite Y|rewrite Z]; ring.
Qed.
Lemma curve_derivative_wrong a b c t : vderiv (quadratic a b c) t (curve_derivative (quadratic a b c) t) -> quadratic' a b c t = zero3.
Proof.
  intro W. pose proof (vderiv_unique _ _ _ _ W (quadratic_deriv a b c t)) as E. rewrite curve_derivative_scaled in E.
  apply (vscale_fix (H * H)); [apply H_ne1|exact E].
Qed.

(* ---- frames ---- *)
Section S.
Variable sqrt : Qc -> Qc.

Lemma along_scale k u : along zero3 k u = vscale k u.
Proof. apply v3_ext; v3d; ring. Qed.
Lemma vscale_zero k v : k <> 0 -> vscale k v = zero3 -> v = zero3.
Proof.
  intros K E. apply v3_inv in E. destruct E as (X & Y & Z). cbn [vscale zero3 vx vy vz] in *. apply v3_ext; cbn [zero3 vx vy vz]; eapply mul_zero; eauto.
Qed.
Lemma dot_scale k a b : dot3 (vscale k a) b = k * dot3 a b. Proof. v3d; ring. Qed.
Lemma dot_scale_r k a b : dot3 a (vscale k b) = k * dot3 a b. Proof. v3d; ring. Qed.
Lemma cross_nz_l a b : cross3 a b <> zero3 -> a <> zero3.
Proof. intros N E. apply N. subst a. apply v3_ext; v3d; ring. Qed.

Lemma gs_square k d T : dot3 (vsub d (vscale k T)) (vsub d (vscale k T)) = dot3 d d - (1 + 1) * (k * dot3 d T) + k * k * dot3 T T.
Proof. v3d; ring. Qed.
Lemma gs_across k d T : dot3 T (vsub d (vscale k T)) = dot3 T d - k * dot3 T T.
Proof. v3d; ring. Qed.
(* T and the part of d2 across T *)
Lemma gs_length T d1 d2 s : d1 = vscale s T -> dot3 T T = 1 -> 0 < s ->
  dot3 (gram_schmidt T d2) (gram_schmidt T d2) = dot3 (cross3 d1 d2) (cross3 d1 d2) / dot3 d1 d1.
Proof.
  intros -> U P. assert (N : s <> 0) by (intro K; rewrite K in P; discriminate P).
  assert (A : dot3 (vscale s T) (vscale s T) = s * s) by (rewrite dot_scale, dot_scale_r, U; ring). rewrite A.
  assert (B : dot3 (cross3 (vscale s T) d2) (cross3 (vscale s T) d2) = s * s * (dot3 T T * dot3 d2 d2 - dot3 T d2 * dot3 T d2)) by (v3d; ring).
  rewrite B, U. unfold gram_schmidt. change (vdot d2 T) with (dot3 d2 T).
  transitivity (dot3 d2 d2 - dot3 T d2 * dot3 T d2).
  - transitivity (dot3 d2 d2 - (1 + 1) * (dot3 d2 T * dot3 d2 T) + dot3 d2 T * dot3 d2 T * dot3 T T).
    + apply gs_square.
    + rewrite U, (dot_comm d2 T). ring.
  - field. auto.
Qed.
Lemma frame_ok d1 d2 : cross3 d1 d2 <> zero3 -> exact sqrt (dot3 d1 d1) -> exact sqrt (dot3 (cross3 d1 d2) (cross3 d1 d2) / dot3 d1 d1) ->
  exists T N, vdiv d1 (scalar_norm sqrt d1) = Ok T /\ vdiv (gram_schmidt T d2) (scalar_norm sqrt (gram_schmidt T d2)) = Ok N /\
    curve_frame d1 d2 T N (cross3 T N).
Proof.
  intros NZ S1 S2. pose proof (cross_nz_l _ _ NZ) as N1.
  destruct (unit_ok sqrt d1 N1 S1) as (T & ET & UT & PT & DT). rewrite along_scale in DT.
  exists T. fold (scalar_unit sqrt d1). fold (scalar_unit sqrt (gram_schmidt T d2)).
  set (s := sqrt (dot3 d1 d1)) in *. set (g := gram_schmidt T d2).
  assert (LG : dot3 g g = dot3 (cross3 d1 d2) (cross3 d1 d2) / dot3 d1 d1) by (eapply gs_length; eauto).
  assert (NG : g <> zero3).
  { intro K. assert (Z : dot3 g g = 0) by (rewrite K; v3d; ring). rewrite LG in Z.
    assert (ND : dot3 d1 d1 <> 0) by (intro W; apply N1, dot_self_zero, W).
    apply NZ, dot_self_zero. transitivity (dot3 (cross3 d1 d2) (cross3 d1 d2) / dot3 d1 d1 * dot3 d1 d1); [field; auto|rewrite Z; ring]. }
  destruct (unit_ok sqrt g NG) as (N & EN & UN & PN & DN); [rewrite LG; exact S2|]. rewrite along_scale in DN.
  exists N. split; [exact ET|]. split; [exact EN|]. set (m := sqrt (dot3 g g)) in *.
  assert (TN : dot3 T N = 0).
  { assert (E : dot3 T g = 0).
    { unfold g, gram_schmidt. change (vdot d2 T) with (dot3 d2 T). rewrite gs_across, UT, (dot_comm d2 T). ring. }
    rewrite DN, dot_scale_r in E. apply (mul_zero m); auto. intro K. rewrite K in PN. discriminate PN. }
  split; [|split; [reflexivity|split]].
  - assert (K : dot3 (cross3 T N) (cross3 T N) = 1).
    { transitivity (dot3 T T * dot3 N N - dot3 T N * dot3 T N); [v3d; ring|rewrite UT, UN, TN; ring]. }
    repeat split; auto; v3d; ring.
  - exists s. auto.
  - exists (dot3 d2 T), m. split; [auto|]. rewrite <- DN. unfold g, gram_schmidt. change (vdot d2 T) with (dot3 d2 T). set (k := dot3 d2 T). clearbody k.
    apply v3_ext; v3d; ring.
Qed.
Lemma pc_frame c t : cross3 (e1 c t) (e2 c t) <> zero3 -> exact sqrt (dot3 (e1 c t) (e1 c t)) ->
  exact sqrt (dot3 (cross3 (e1 c t) (e2 c t)) (cross3 (e1 c t) (e2 c t)) / dot3 (e1 c t) (e1 c t)) ->
  exists T N, pc_plane_at sqrt c t = Ok [e0 c t; T; N; cross3 T N] /\ pc_normal sqrt c t = Ok N /\
    curve_frame (e1 c t) (e2 c t) T N (cross3 T N).
Proof.
  intros A B C. destruct (frame_ok _ _ A B C) as (T & N & ET & EN & F). exists T, N.
  unfold pc_plane_at, pc_normal. rewrite ET. cbn [bind]. cbv zeta. rewrite EN. cbn [bind]. rewrite vcross_cross. auto.
Qed.
Lemma pc_tangent_ok c t : exact sqrt (dot3 (e1 c t) (e1 c t)) -> Q2Qc (1 # 10 ^ 30) < dot3 (e1 c t) (e1 c t) ->
  exists T k, pc_tangent sqrt c t = Ok T /\ dot3 T T = 1 /\ 0 < k /\ e1 c t = vscale k T.
Proof.
  intros S1 B. set (d := e1 c t) in *.
  assert (N1 : d <> zero3). { intro K. rewrite K in B. replace (dot3 zero3 zero3) with 0 in B by (v3d; ring). discriminate B. }
  destruct (unit_ok sqrt d N1 S1) as (T & ET & UT & PT & DT). rewrite along_scale in DT.
  exists T, (sqrt (dot3 d d)). split; [|auto]. unfold pc_tangent. fold d. unfold evaluate_tangent. cbv zeta.
  change (scalar_norm sqrt d) with (sqrt (dot3 d d)). set (s := sqrt (dot3 d d)) in *.
  destruct (qlt s 0) eqn:E; [apply qlt_true in E; qlra|].
  destruct (qle s (Q2Qc (1 # 10 ^ 15))) eqn:E2; [|exact ET]. exfalso. apply qle_true in E2. destruct S1 as [S0 SS]. fold s in S0, SS.
  set (e := Q2Qc (1 # 10 ^ 15)) in *.
  assert (EE : Q2Qc (1 # 10 ^ 30) = e * e) by (apply Qc_is_canon; reflexivity). rewrite EE, <- SS in B. clearbody e.
  assert (0 <= (e - s) * (e + s)) by (apply qc_mul_nonneg; qlra). qlra.
Qed.

Lemma pc_curvature_ok c t d1 d2 k : 0 < k -> e1 c t = vscale k d1 -> e2 c t = vscale (k * k) d2 -> d1 <> zero3 ->
  exact sqrt (dot3 (e1 c t) (e1 c t)) -> exists w, pc_curvature sqrt c t = Ok w /\ curvature_vector d1 d2 w.
Proof.
  intros K E1 E2 N1 S1. unfold pc_curvature. rewrite E1, E2. rewrite E1 in S1.
  assert (NK : k <> 0) by (intro Z; rewrite Z in K; discriminate K).
  assert (N2 : vscale k d1 <> zero3) by (intro Z; apply N1; apply (vscale_zero k); auto).
  set (v := vscale k d1) in *. destruct (unit_ok sqrt v N2 S1) as (T & ET & UT & PT & DT). rewrite along_scale in DT.
  unfold evaluate_curvature. cbv zeta. change (scalar_norm sqrt v) with (sqrt (dot3 v v)). unfold scalar_unit in ET. change (scalar_norm sqrt v) with (sqrt (dot3 v v)) in ET.
  set (s := sqrt (dot3 v v)) in *. assert (NS : s <> 0) by (intro Z; rewrite Z in PT; discriminate PT).
  destruct (qeq s 0) eqn:Q; [exfalso; apply qeq_true in Q; auto|]. rewrite ET. cbn [bind].
  rewrite divR_ok_ by (intro Z; apply sq_zero in Z; auto). cbn [bind]. eexists. split; [reflexivity|].
  unfold curvature_vector. destruct S1 as [_ SS]. fold s in SS. vd.
  assert (D1 : d1 = vscale (s / k) T).
  { apply v3_inv in DT. unfold v in DT. destruct DT as (X & Y & Z). cbn [vscale vx vy vz] in X, Y, Z.
    apply v3_ext; cbn [vscale vx vy vz]; [transitivity (k * vx d1 / k)|transitivity (k * vy d1 / k)|transitivity (k * vz d1 / k)]; try (field; auto); [rewrite X|rewrite Y|rewrite Z]; field; auto. }
  assert (DD : dot3 d1 d1 = s * s / (k * k)). { rewrite D1, dot_scale, dot_scale_r, UT. field. auto. }
  rewrite DD. rewrite dot_scale. rewrite D1, dot_scale_r. set (q := dot3 d2 T). clearbody q.
  apply v3_ext; cbn [vsub vadd vscale vx vy vz]; field; auto.
Qed.
Lemma plain_curvature a b c t : quadratic' a b c t <> zero3 ->
  exact sqrt (H * H * (H * H) * dot3 (quadratic' a b c t) (quadratic' a b c t)) ->
  exists w, pc_curvature sqrt (plain_curve (quadratic a b c)) t = Ok w /\ curvature_vector (quadratic' a b c t) (quadratic'' a b c t) w.
Proof.
  intros N S1. apply (pc_curvature_ok _ t _ _ (H * H)); auto; unfold plain_curve; cbn [e1 e2].
  - reflexivity.
  - apply curve_derivative_scaled.
  - apply curve_second_scaled.
  - rewrite curve_derivative_scaled, dot_scale, dot_scale_r. rewrite Qcmult_assoc. exact S1.
Qed.

Lemma surf_plane_ok f du dv u v : cross3 (du u v) (dv u v) <> zero3 -> exact sqrt (dot3 (du u v) (du u v)) ->
  exact sqrt (dot3 (cross3 (du u v) (dv u v)) (cross3 (du u v) (dv u v)) / dot3 (du u v) (du u v)) ->
  exists x y n, surf_plane_at sqrt f du dv u v = Ok [f u v; x; y; n] /\ curve_frame (du u v) (dv u v) x y n.
Proof.
  intros NZ S1 S2. unfold surf_plane_at. set (a := du u v) in *. set (b := dv u v) in *. pose proof (cross_nz_l _ _ NZ) as N1.
  destruct (unit_ok sqrt a N1 S1) as (x & EX & UX & PX & DX). rewrite along_scale in DX. rewrite EX. cbn [bind].
  set (s := sqrt (dot3 a a)) in *. assert (NS : s <> 0) by (intro Z; rewrite Z in PX; discriminate PX).
  rewrite vcross_cross. set (c := cross3 x b).
  assert (CE : cross3 a b = vscale s c) by (unfold c; rewrite DX; apply v3_ext; v3d; ring).
  assert (AA : dot3 a a = s * s) by (rewrite DX, dot_scale, dot_scale_r, UX; ring).
  assert (LC : dot3 c c = dot3 (cross3 a b) (cross3 a b) / dot3 a a). { rewrite CE, AA, dot_scale, dot_scale_r. field. auto. }
  assert (NC : c <> zero3). { intro K. apply NZ. rewrite CE, K. apply v3_ext; v3d; ring. }
  destruct (unit_ok sqrt c NC) as (n & EN & UN & PN & DN); [rewrite LC; exact S2|]. rewrite along_scale in DN.
  rewrite EN. cbn [bind]. rewrite vcross_cross. set (m := sqrt (dot3 c c)) in *. assert (NM : m <> 0) by (intro Z; rewrite Z in PN; discriminate PN).
  assert (XN : dot3 n x = 0). { apply (mul_zero m); auto. rewrite <- dot_scale, <- DN. unfold c. v3d; ring. }
  destruct (frame3 n x UN UX XN) as (O & RH).
  exists x, (cross3 n x), n. split; [reflexivity|]. split; [exact O|]. split; [exact RH|]. split; [exists s; auto|].
  (* b = (b.x) x + m y, as x x b = m n and so m (n x x) = (x x b) x x = b - (x.b) x *)
  exists (dot3 x b), m. split; [auto|].
  assert (Y : vscale m (cross3 n x) = cross3 c x) by (rewrite DN; apply v3_ext; v3d; ring). rewrite Y. unfold c.
  set (k := dot3 x b). apply v3_ext; cbn [vadd vscale vx vy vz].
  - transitivity (k * vx x + (dot3 x x * vx b - dot3 x b * vx x)); [rewrite UX; fold k; ring|clearbody k; v3d; ring].
  - transitivity (k * vy x + (dot3 x x * vy b - dot3 x b * vy x)); [rewrite UX; fold k; ring|clearbody k; v3d; ring].
  - transitivity (k * vz x + (dot3 x x * vz b - dot3 x b * vz x)); [rewrite UX; fold k; ring|clearbody k; v3d; ring].
Qed.
End S.

(* ---- default derivatives of a surface ---- *)
Lemma q2H_nz : q2 * H <> 0. Proof. discriminate. Qed.
Lemma difference_mid g x : H <= x <= 1 - H -> difference g x = over (vsub (g (x + H)) (g (x - H))) (q2 * H).
Proof.
  intros [A B]. unfold difference. rewrite (proj2 (qle_true x (1 - H)) B), (proj2 (qle_true H x) A). reflexivity.
Qed.
Lemma difference_lo g x : x < H -> difference g x = over (vsub (g (x + H)) (g x)) H.
Proof.
  intros A. unfold difference. rewrite (proj2 (qle_false H x) A), andb_false_r, (proj2 (qlt_true x H) A). reflexivity.
Qed.
Lemma difference_hi g x : 1 - H < x -> difference g x = over (vsub (g x) (g (x - H))) H.
Proof.
  intros A. unfold difference. rewrite (proj2 (qle_false x (1 - H)) A). cbn [andb]. pose proof H_small as Hs. pose proof H_pos as Hp.
  rewrite (proj2 (qlt_false x H)) by qlra. reflexivity.
Qed.
Lemma over_mid a b c x : over (vsub (quadratic a b c (x + H)) (quadratic a b c (x - H))) (q2 * H) = quadratic' a b c x.
Proof.
  pose proof H_nz as N. rewrite q2_eq. revert N. generalize H. intros h N. unfold quadratic, quadratic', over.
  apply v3_ext; cbn [vsub vadd vscale vx vy vz]; field; repeat split; auto; try discriminate.
Qed.
Lemma over_lo a b c x : over (vsub (quadratic a b c (x + H)) (quadratic a b c x)) H = vadd (quadratic' a b c x) (vscale H c).
Proof.
  pose proof H_nz as N. revert N. generalize H. intros h N. unfold quadratic, quadratic', over.
  apply v3_ext; cbn [vsub vadd vscale vx vy vz]; field; repeat split; auto; try discriminate.
Qed.
Lemma over_hi a b c x : over (vsub (quadratic a b c x) (quadratic a b c (x - H))) H = vsub (quadratic' a b c x) (vscale H c).
Proof.
  pose proof H_nz as N. revert N. generalize H. intros h N. unfold quadratic, quadratic', over.
  apply v3_ext; cbn [vsub vadd vscale vx vy vz]; field; repeat split; auto; try discriminate.
Qed.
Lemma difference_ok a b c x : H <= x <= 1 - H -> vderiv (quadratic a b c) x (difference (quadratic a b c) x).
Proof. intro B. rewrite difference_mid, over_mid by auto. apply quadratic_deriv. Qed.
Lemma difference_line a b x : vderiv (quadratic a b zero3) x (difference (quadratic a b zero3) x).
Proof.
  assert (E : difference (quadratic a b zero3) x = quadratic' a b zero3 x).
  { destruct (Qclt_le_dec x H) as [L|L]; [rewrite difference_lo, over_lo by auto; apply v3_ext; v3d; unfold quadratic'; v3d; ring|].
    destruct (Qclt_le_dec (1 - H) x) as [M|M]; [rewrite difference_hi, over_hi by auto; apply v3_ext; unfold quadratic'; v3d; ring|].
    rewrite difference_mid, over_mid by auto. reflexivity. }
  rewrite E. apply quadratic_deriv.
Qed.
Lemma vadd_fix d e : vadd d e = d -> e = zero3.
Proof. intro E. apply v3_inv in E. destruct E as (X & Y & Z). cbn [vadd vx vy vz] in *. apply v3_ext; cbn [zero3 vx vy vz]; qlra. Qed.
Lemma vsub_fix d e : vsub d e = d -> e = zero3.
Proof. intro E. apply v3_inv in E. destruct E as (X & Y & Z). cbn [vsub vx vy vz] in *. apply v3_ext; cbn [zero3 vx vy vz]; qlra. Qed.
Lemma difference_wrong a b c x : x < H \/ 1 - H < x -> c <> zero3 -> ~ vderiv (quadratic a b c) x (difference (quadratic a b c) x).
Proof.
  intros B N W. pose proof (vderiv_unique _ _ _ _ W (quadratic_deriv a b c x)) as E. apply N. apply (vscale_zero H); [apply H_nz|].
  destruct B as [B|B].
  - rewrite difference_lo, over_lo in E by auto. eapply vadd_fix; eauto.
  - rewrite difference_hi, over_hi in E by auto. eapply vsub_fix; eauto.
Qed.
(* the second difference *)
Lemma second_mid a b c x : H + H <= x <= 1 - (H + H) -> difference (difference (quadratic a b c)) x = vscale (1 + 1) c.
Proof.
  intros [A B]. pose proof H_pos as Hp. rewrite difference_mid by (split; qlra). rewrite !difference_mid, !over_mid by (split; qlra).
  clear - a. pose proof H_nz as N. rewrite q2_eq. revert N. generalize H. intros h N. unfold quadratic', over.
  apply v3_ext; cbn [vsub vadd vscale vx vy vz]; field; repeat split; auto; try discriminate.
Qed.
Lemma second_lo a b c x : 0 <= x /\ x < H -> difference (difference (quadratic a b c)) x = c.
Proof.
  intros [A B]. pose proof H_pos as Hp. pose proof H_small as Hs. rewrite difference_lo by auto. rewrite (difference_lo _ x) by auto. rewrite difference_mid by (split; qlra).
  rewrite over_mid, over_lo. clear - a. pose proof H_nz as N. revert N. generalize H. intros h N. unfold quadratic', over.
  apply v3_ext; cbn [vsub vadd vscale vx vy vz]; field; repeat split; auto; try discriminate.
Qed.
Lemma second_hi a b c x : 1 - H < x /\ x <= 1 -> difference (difference (quadratic a b c)) x = c.
Proof.
  intros [A B]. pose proof H_pos as Hp. pose proof H_small as Hs. rewrite difference_hi by auto. rewrite (difference_hi _ x) by auto. rewrite difference_mid by (split; qlra).
  rewrite over_mid, over_hi. clear - a. pose proof H_nz as N. revert N. generalize H. intros h N. unfold quadratic', over.
  apply v3_ext; cbn [vsub vadd vscale vx vy vz]; field; repeat split; auto; try discriminate.
Qed.

Lemma surf_uu_eq f u v : surf_uu (surf_u f) u v = difference (difference (fun x => f x v)) u. Proof. reflexivity. Qed.
Lemma surf_vv_eq f u v : surf_vv (surf_v f) u v = difference (difference (fun y => f u y)) v. Proof. reflexivity. Qed.
Lemma difference_ext f g x : (forall y, f y = g y) -> difference f x = difference g x.
Proof. intro E. unfold difference. rewrite !E. reflexivity. Qed.
Lemma surf_uv_ok a b0 b1 b2 c0 c1 c2 u v : H <= u <= 1 - H -> H <= v <= 1 - H ->
  let f := in_u a (quadratic b0 b1 b2) (quadratic c0 c1 c2) in
  vderiv (fun y => surf_u f u y) v (surf_uv (surf_u f) u v) /\ (forall y, vderiv (fun x => f x y) u (surf_u f u y)).
Proof.
  intros U V. cbv zeta.
  assert (Y : forall y, vderiv (fun x => in_u a (quadratic b0 b1 b2) (quadratic c0 c1 c2) x y) u (surf_u (in_u a (quadratic b0 b1 b2) (quadratic c0 c1 c2)) u y))
    by (intro y; exact (difference_ok _ _ _ u U)).
  split; [|exact Y].
  set (k := (1 + 1) * u).
  assert (E : forall y, surf_u (in_u a (quadratic b0 b1 b2) (quadratic c0 c1 c2)) u y =
     quadratic (vadd b0 (vscale k c0)) (vadd b1 (vscale k c1)) (vadd b2 (vscale k c2)) y).
  { intro y. unfold surf_u. rewrite difference_mid by auto. unfold in_u. rewrite over_mid. fold k. unfold quadratic', quadratic. fold k. clearbody k. apply v3_ext; cbn [vadd vscale vx vy vz]; ring. }
  unfold surf_uv. erewrite difference_ext; [|exact E]. eapply vderiv_ext; [intro y; symmetry; apply E|]. apply difference_ok. auto.
Qed.

(* ---- which parameters are evaluated ---- *)
Lemma difference_local f g x : 0 <= x <= 1 -> (forall y, 0 <= y <= 1 -> f y = g y) -> difference f x = difference g x.
Proof.
  intros [A B] E. pose proof H_pos as Hp. pose proof H_small as Hs.
  destruct (Qclt_le_dec x H) as [L|L]; [rewrite !difference_lo by auto; rewrite !E by (split; qlra); reflexivity|].
  destruct (Qclt_le_dec (1 - H) x) as [M|M]; [rewrite !difference_hi by auto; rewrite !E by (split; qlra); reflexivity|].
  rewrite !difference_mid by auto. rewrite !E by (split; qlra). reflexivity.
Qed.
Lemma surf_local f g u v : agree 0 1 0 1 f g -> 0 <= u <= 1 -> 0 <= v <= 1 ->
  surf_u f u v = surf_u g u v /\ surf_v f u v = surf_v g u v /\ surf_uu (surf_u f) u v = surf_uu (surf_u g) u v /\
  surf_vv (surf_v f) u v = surf_vv (surf_v g) u v /\ surf_uv (surf_u f) u v = surf_uv (surf_u g) u v.
Proof.
  intros E U V. unfold surf_uu, surf_vv, surf_uv, surf_u, surf_v.
  split; [|split; [|split; [|split]]]; apply difference_local; auto; intros y Y; try (apply E; auto);
  apply difference_local; auto; intros z Z; apply E; auto.
Qed.
Definition e_x : v3 := mkv 1 0 0.
Lemma vsub_bump a b k : k <> 0 -> over (vsub a (vadd b e_x)) k <> over (vsub a b) k.
Proof.
  intros K E. apply v3_inv in E. destruct E as (X & _ & _). unfold over, e_x in X. cbn [vsub vadd vx vy vz] in X.
  assert (Y : (vx a - (vx b + 1)) / k * k = (vx a - vx b) / k * k) by (rewrite X; reflexivity).
  assert (Y1 : (vx a - (vx b + 1)) / k * k = vx a - vx b - 1) by (field; auto). assert (Y2 : (vx a - vx b) / k * k = vx a - vx b) by (field; auto).
  rewrite Y1, Y2 in Y. qlra.
Qed.
Lemma derivatives_outside f u v : 0 <= u /\ u < H -> exists g, agree 0 1 0 1 f g /\ fst (surf_derivatives g u v) <> fst (surf_derivatives f u v).
Proof.
  intros [A B]. exists (fun x y => if qlt x 0 then vadd (f x y) e_x else f x y). split.
  - intros x y [X _] _. rewrite (proj2 (qlt_false x 0)) by auto. reflexivity.
  - unfold surf_derivatives. cbn [fst]. pose proof H_pos as Hp. rewrite (proj2 (qlt_false (u + H) 0)) by qlra. rewrite (proj2 (qlt_true (u - H) 0)) by qlra.
    apply vsub_bump. apply q2H_nz.
Qed.
Lemma surf_u_outside f a b c d v : H <= a -> exists g, agree a b c d f g /\ surf_u g a v <> surf_u f a v.
Proof.
  intros A. exists (fun x y => if qlt x a then vadd (f x y) e_x else f x y). pose proof H_pos as Hp. split.
  - intros x y [X _] _. rewrite (proj2 (qlt_false x a)) by auto. reflexivity.
  - unfold surf_u. destruct (Qclt_le_dec (1 - H) a) as [M|M].
    + rewrite !difference_hi by auto. rewrite (proj2 (qlt_false a a)) by apply Qcle_refl. rewrite (proj2 (qlt_true (a - H) a)) by qlra. apply vsub_bump. apply H_nz.
    + rewrite !difference_mid by auto. rewrite (proj2 (qlt_false (a + H) a)) by qlra. rewrite (proj2 (qlt_true (a - H) a)) by qlra. apply vsub_bump. apply q2H_nz.
Qed.

(* ---- differences of a callback ---- *)
Lemma ev_u_ok a b c u v : vderiv (fun x => in_u a b c x v) u (ev_u (in_u a b c) u v).
Proof. unfold ev_u, in_u. rewrite over_mid. apply quadratic_deriv. Qed.
Lemma ev_v_ok a b c u v : vderiv (fun y => in_v a b c u y) v (ev_v (in_v a b c) u v).
Proof. unfold ev_v, in_v. rewrite over_mid. apply quadratic_deriv. Qed.
Lemma ev_uu_ok a b c u v : vderiv (fun x => ev_u (in_u a b c) x v) u (ev_uu (in_u a b c) u v).
Proof.
  apply (vderiv_ext (quadratic' (a v) (b v) (c v))); [intro x; unfold ev_u, in_u; rewrite over_mid; reflexivity|].
  assert (E : ev_uu (in_u a b c) u v = quadratic'' (a v) (b v) (c v) u).
  { unfold ev_uu, in_u. rewrite q2_eq. pose proof H_nz as N. revert N. generalize H. intros h N. unfold quadratic, quadratic'', over.
    apply v3_ext; cbn [vsub vadd vscale vx vy vz Qcpower]; field; repeat split; auto; try discriminate. }
  rewrite E. apply quadratic_deriv2.
Qed.
Lemma ev_vv_ok a b c u v : vderiv (fun y => ev_v (in_v a b c) u y) v (ev_vv (in_v a b c) u v).
Proof.
  apply (vderiv_ext (quadratic' (a u) (b u) (c u))); [intro x; unfold ev_v, in_v; rewrite over_mid; reflexivity|].
  assert (E : ev_vv (in_v a b c) u v = quadratic'' (a u) (b u) (c u) v).
  { unfold ev_vv, in_v. rewrite q2_eq. pose proof H_nz as N. revert N. generalize H. intros h N. unfold quadratic, quadratic'', over.
    apply v3_ext; cbn [vsub vadd vscale vx vy vz Qcpower]; field; repeat split; auto; try discriminate. }
  rewrite E. apply quadratic_deriv2.
Qed.
Lemma ev_uv_ok a b0 b1 b2 c0 c1 c2 u v : let f := in_u a (quadratic b0 b1 b2) (quadratic c0 c1 c2) in
  vderiv (fun y => ev_u f u y) v (ev_uv f u v).
Proof.
  cbv zeta. set (k := (1 + 1) * u).
  assert (E : forall y, ev_u (in_u a (quadratic b0 b1 b2) (quadratic c0 c1 c2)) u y =
     quadratic (vadd b0 (vscale k c0)) (vadd b1 (vscale k c1)) (vadd b2 (vscale k c2)) y).
  { intro y. unfold ev_u, in_u. rewrite over_mid. unfold quadratic', quadratic. fold k. clearbody k. apply v3_ext; cbn [vadd vscale vx vy vz]; ring. }
  eapply vderiv_ext; [intro y; symmetry; apply E|].
  assert (W : ev_uv (in_u a (quadratic b0 b1 b2) (quadratic c0 c1 c2)) u v = quadratic' (vadd b0 (vscale k c0)) (vadd b1 (vscale k c1)) (vadd b2 (vscale k c2)) v).
  { unfold ev_uv, in_u, k. clear. rewrite n4. pose proof H_nz as N. revert N. generalize H. intros h N. unfold quadratic, quadratic', over.
    generalize (a (v + h)), (a (v - h)). intros a1 a2.
    apply v3_ext; cbn [vsub vadd vscale vx vy vz Qcpower]; field; repeat split; auto; try discriminate. }
  rewrite W. apply quadratic_deriv.
Qed.
Lemma ev_normal_ok sqrt f u v : let a := ev_u f u v in let b := ev_v f u v in
  exact sqrt (dot3 (cross3 a b) (cross3 a b)) ->
  (cross3 a b <> zero3 -> exists n k, ev_normal sqrt f u v = Ok [a; b; n] /\ dot3 n n = 1 /\ dot3 n a = 0 /\ dot3 n b = 0 /\ 0 < k /\ cross3 a b = vscale k n) /\
  (cross3 a b = zero3 -> ev_normal sqrt f u v = Err ZeroDivision).
Proof.
  cbv zeta. set (a := ev_u f u v). set (b := ev_v f u v). intro S1. unfold ev_normal. cbv zeta. fold a b. change (vcross a b) with (cross3 a b). vd. split; intro N.
  - destruct (unit_ok sqrt _ N S1) as (n & EN & UN & PN & DN). rewrite along_scale in DN.
    change (vdiv (cross3 a b) (sqrt (dot3 (cross3 a b) (cross3 a b))) = Ok n) in EN. rewrite EN. cbn [bind].
    set (k := sqrt (dot3 (cross3 a b) (cross3 a b))) in *. assert (NK : k <> 0) by (intro Z; rewrite Z in PN; discriminate PN).
    exists n, k. split; [reflexivity|]. split; [auto|]. split; [|split; [|auto]]; apply (mul_zero k); auto; rewrite <- dot_scale, <- DN; v3d; ring.
  - rewrite N in *. replace (dot3 zero3 zero3) with 0 in * by (v3d; ring). rewrite (sqrt_zero sqrt S1). unfold vdiv. rewrite divR_zero_. reflexivity.
Qed.

(* ---- calls and samples ---- *)
Lemma call_seq c l : (2 <= length l)%nat -> exists r, call c (Seq l) = Ok r /\ length r = length l /\ forall i, (i < length l)%nat -> nth i r zero3 = e0 c (nth i l 0).
Proof.
  intro L. unfold call, lenZ. destruct (Z.ltb_spec 1 (Z.of_nat (length l))) as [_|K]; [|lia]. eexists. split; [reflexivity|]. split; [apply map_length|].
  intros i Hi. rewrite (nth_indep _ zero3 (e0 c 0)) by (rewrite map_length; auto). apply map_nth.
Qed.
Lemma call_short c l : (length l < 2)%nat -> call c (Seq l) = Err TypeError.
Proof. intro L. unfold call, lenZ. destruct (Z.ltb_spec 1 (Z.of_nat (length l))) as [K|_]; [lia|reflexivity]. Qed.
Lemma number_nz n : (0 < n)%nat -> number n <> 0.
Proof.
  intros P E. unfold number in E. apply (f_equal this) in E. cbn [this Q2Qc] in E.
  assert (Q : Qeq (Qred (inject_Z (Z.of_nat n))) (Qred 0)) by (rewrite E; reflexivity). rewrite !Qred_correct in Q.
  unfold Qeq, inject_Z in Q. cbn in Q. lia.
Qed.
Lemma number_sub m i : (i <= m)%nat -> number (m - i) = number m - number i.
Proof.
  intro L. unfold number. apply Qc_is_canon. rewrite Nat2Z.inj_sub by auto. unfold Qcminus, Qcplus, Qcopp. cbn [this Q2Qc]. rewrite !Qred_correct.
  unfold Zminus. rewrite inject_Z_plus, inject_Z_opp. reflexivity.
Qed.
Lemma points_ok c n : (2 <= n)%nat -> length (points c n) = n /\
  forall i, (i < n)%nat -> nth i (points c n) zero3 = e0 c (spread (lo c) (hi c) n i).
Proof.
  intro L. unfold points, linspace. split; [rewrite !map_length, seq_length; reflexivity|]. intros i Hi.
  rewrite map_map. set (h := fun x => _). rewrite (nth_indep _ zero3 (h O)) by (rewrite map_length, seq_length; auto). rewrite map_nth, seq_nth by auto. cbn [Nat.add].
  unfold h. destruct (Nat.eqb_spec n 1) as [?|_]; [lia|]. f_equal. unfold spread. fold (number i). fold (number (n - 1)).
  rewrite (number_sub (n - 1) i) by lia. pose proof (number_nz (n - 1) ltac:(lia)) as N. field. exact N.
Qed.
Lemma spread_ends a b n : (2 <= n)%nat -> spread a b n 0 = a /\ spread a b n (n - 1) = b.
Proof.
  intro L. pose proof (number_nz (n - 1) ltac:(lia)) as N. unfold spread. rewrite Nat.sub_0_r, Nat.sub_diag. replace (number 0) with 0 by (apply Qc_is_canon; reflexivity).
  split; field; exact N.
Qed.
