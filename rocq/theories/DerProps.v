(* Theorems about derivatives: basis functions, curves, frames and surfaces. *)
From Coq Require Import List ZArith Lia Bool QArith Qcanon Qcabs.
From Verif Require Import Common ListLib QcLib ArrZ SumLib DerivLib SplineTheory NurbsModel NurbsSpec NurbsProofs NurbsProofs2 NurbsProofs3 NurbsProps NurbsEditProps SurfModel SurfSpec SurfProofs1 SurfProps DerModel DerSpec DerProofs2 DerProofs4 DerProofs5 DerProofs6 DerProofs7 DerProofs9.
Import ListNotations.
Local Open Scope Z_scope.
Local Open Scope Qc_scope.

Definition out_v (r : res v3) : list Q := match r with Ok v => [this (vx v); this (vy v); this (vz v)] | Err _ => [] end.
Definition out_vs (r : res (list v3)) : list (list Q) :=
  match r with Ok l => map (fun v => [this (vx v); this (vy v); this (vz v)]) l | Err _ => [] end.
Definition out_m (r : res mat) : list (list Q) := match r with Ok m => map (map this) m | Err _ => [] end.

(* ---- C165: the derivatives of the basis functions ---- *)
Theorem C165_basis_derivatives : forall p n U u d s ders0,
  valid_knots p n U -> knot U p <= u <= knot U (n + 1) -> (0 <= d <= p)%Z ->
  find_span n p u U false = Ok s -> rect (d + 1) (p + 1) ders0 ->
  exists M, ders_basis_funs s u p d U ders0 = Ok M /\ rect (d + 1) (p + 1) M /\
    forall k j, (0 <= k <= d)%Z -> (0 <= j <= p)%Z ->
      nth_deriv_on (span_at p n U u) (Z.to_nat k) (cox_de_boor U n (Z.to_nat p) (s - p + j)) u (cell 0 M k j).
Proof. exact ders_basis_funs_deriv. Qed.
Print Assumptions C165_basis_derivatives.
(* the derivative on a knot span is unique, so the table is determined *)
Theorem C165_derivatives_unique : forall p n U u k f a b,
  valid_knots p n U -> knot U p <= u <= knot U (n + 1) ->
  nth_deriv_on (span_at p n U u) k f u a -> nth_deriv_on (span_at p n U u) k f u b -> a = b.
Proof.
  intros p n U u k f a b V B H1 H2. apply (nth_unique _ (span_at_thick p n U u V B) k f f u); auto. apply span_at_refl; auto.
Qed.
Print Assumptions C165_derivatives_unique.
Lemma sample_valid : valid_curve sample.
Proof. apply valid_knotsb_ok. vm_compute. auto. Qed.
(* ---- C166: curves whose weights are all equal to one ---- *)
Theorem C166_curve_derivatives : forall c t d, valid_curve c -> in_domain c t -> (0 <= d)%Z ->
  (exists R, derivatives1 c t d = Ok R /\ lenZ R = (Z.min d (c_deg c) + 1)%Z /\
    forall k, (0 <= k < lenZ R)%Z -> curve_deriv (unit_weights c) (Z.to_nat k) t (atZ v30 R k)) /\
  (exists R, derivatives2 c t d = Ok R /\ lenZ R = (Z.min d (c_deg c) + 1)%Z /\
    forall k, (0 <= k < lenZ R)%Z -> curve_deriv (unit_weights c) (Z.to_nat k) t (atZ v30 R k)).
Proof. intros c t d V B H. split; [apply derivatives1_ok|apply derivatives2_ok]; auto. Qed.
Print Assumptions C166_curve_derivatives.
Theorem C166_first_and_second : forall c t, valid_curve c -> in_domain c t ->
  (exists v, derivative c t = Ok v /\ curve_deriv (unit_weights c) 1 t v) /\
  (exists v, second_derivative c t = Ok v /\ curve_deriv (unit_weights c) 2 t v).
Proof. intros c t V B. split; [apply derivative_ok|apply second_derivative_ok]; auto. Qed.
Print Assumptions C166_first_and_second.
Theorem C166_unweighted : forall c, Forall (fun q => pw q = 1) (c_pts c) -> unit_weights c = c.
Proof.
  intros [P d U per int g] H. unfold unit_weights. cbn in *. f_equal. induction H as [|q P H _ IH]; cbn; auto. rewrite IH. f_equal.
  destruct q; cbn in *. subst. reflexivity.
Qed.
Print Assumptions C166_unweighted.
Theorem C166_unique : forall c t k v w, valid_curve c -> in_domain c t -> curve_deriv c k t v -> curve_deriv c k t w -> v = w.
Proof. intros c t k v w V B. apply curve_deriv_unique. split; auto. Qed.
Print Assumptions C166_unique.
(* the two algorithms agree *)
Theorem C166_algorithms_agree : forall c t d, valid_curve c -> in_domain c t -> (0 <= d)%Z -> derivatives1 c t d = derivatives2 c t d.
Proof.
  intros c t d V B H. destruct (derivatives1_ok c t d V B H) as [R [E1 [L1 H1]]]. destruct (derivatives2_ok c t d V B H) as [R' [E2 [L2 H2]]].
  rewrite E1, E2. f_equal. apply (list_ext_atZ v30); [lia|]. intros i Hi. apply (curve_deriv_unique (unit_weights c) t (Z.to_nat i)).
  - split; [apply valid_unit; auto|]. unfold in_domain, last_ix in *. cbn. rewrite (lenZ_map unit_pt). auto.
  - apply H1; lia.
  - apply H2; lia.
Qed.
Print Assumptions C166_algorithms_agree.
Definition plain : curve := unit_weights sample.
Example C165_case : valid_knots 3 4 sample_knots /\ knot sample_knots 3 <= qz 1 <= knot sample_knots (4 + 1) /\
  find_span 4 3 (qz 1) sample_knots false = Ok 3%Z /\ rect (2 + 1) (3 + 1) (zerosM (qz 7) 3 4) /\
  out_m (ders_basis_funs 3 (qz 1) 3 2 sample_knots (zerosM (qz 7) 3 4)) =
    [[1 # 8; 129 # 200; 21 # 100; 1 # 50]; [-3 # 8; -3 # 200; 33 # 100; 3 # 50]; [3 # 4; -93 # 100; 3 # 50; 3 # 25]]%Q.
Proof.
  split; [exact sample_valid|]. split; [split; apply qle_true; vm_compute; reflexivity|].
  split; [vm_compute; reflexivity|]. split; [apply shape_zeros; lia|]. vm_compute. reflexivity.
Qed.
Lemma plain_dom t : qle 0 t && qle t (qz 5) = true -> in_domain plain t.
Proof. intro H. apply andb_true_iff in H. destruct H. split; apply qle_true; auto. Qed.
Example C166_case : valid_curve plain /\ in_domain plain (qz 1) /\ Forall (fun q => pw q = 1) (c_pts plain) /\ c_pts plain <> c_pts sample /\
  out_vs (derivatives1 plain (qz 1) 2) = [[271 # 200; 97 # 50; 31 # 100]; [243 # 200; 51 # 50; 63 # 100]; [-27 # 100; -39 # 25; 33 # 50]]%Q /\
  out_v (derivative plain (qz 1)) = [243 # 200; 51 # 50; 63 # 100]%Q.
Proof.
  split; [apply valid_unit, sample_valid|]. split; [apply plain_dom; reflexivity|]. split; [repeat constructor|].
  split; [|split; vm_compute; reflexivity]. intro H. apply (f_equal (map (fun q => this (pw q)))) in H. vm_compute in H. discriminate.
Qed.

(* ---- C167: curves with weights ---- *)
(* the weights do not influence the derivatives *)
Theorem C167_weights_ignored : forall c c' t d,
  map row3 (c_pts c) = map row3 (c_pts c') -> c_deg c = c_deg c' -> c_knots c = c_knots c' -> c_per c = c_per c' ->
  derivatives1 c t d = derivatives1 c' t d.
Proof. exact derivatives_ignore_weights. Qed.
Print Assumptions C167_weights_ignored.

(* a segment with weights 1 and 2: x = 2 t / (1 + t) *)
Definition bent : curve := mkcurve [row 0 0 0 1; row 1 0 0 2] 1 (map qz [0; 0; 1; 1]%Z) false (qz 0, qz 1) [].
Lemma bent_valid : valid_curve bent.
Proof. apply valid_knotsb_ok. vm_compute. auto. Qed.
Lemma bent_dom : in_domain bent 0.
Proof. split; apply qle_true; vm_compute; reflexivity. Qed.
Lemma bent_at x : span_at 1 1 (c_knots bent) 0 x -> 0 <= x <= 1 /\ rational (c_knots bent) 1 1 (c_pts bent) px x * (1 + x) = (1 + 1) * x.
Proof.
  intros Dx. assert (V : valid_knots 1 1 (c_knots bent)) by exact bent_valid.
  assert (S : span_of 1 1 (c_knots bent) x 1).
  { apply (span_at_of 1 1 _ 0); auto. split; [lia|]. split; auto. intros _. split; [apply Qcle_refl|reflexivity]. }
  destruct Dx as [[B1 B2] _].
  assert (B : 0 <= x <= 1). { split; [exact B1|]. eapply Qcle_trans; [exact B2|]. apply qle_true. reflexivity. }
  split; auto. unfold rational.
  replace (sum_to 1 (fun i => cox_de_boor (c_knots bent) 1 (Z.to_nat 1) i x * pw (ctrl (c_pts bent) i) * px (ctrl (c_pts bent) i)))
    with (sum_to 1 (fun i => cox_de_boor (c_knots bent) 1 (Z.to_nat 1) i x * (pw (ctrl (c_pts bent) i) * px (ctrl (c_pts bent) i))))
    by (unfold sum_to; apply sum_n_ext; intros; ring).
  rewrite (cdb_sum 1 1 _ x 1 (fun i => pw (ctrl (c_pts bent) i) * px (ctrl (c_pts bent) i)) V S).
  rewrite (cdb_sum 1 1 _ x 1 (fun i => pw (ctrl (c_pts bent) i)) V S).
  assert (K0 : knot (c_knots bent) 0 = 0) by (apply Qc_is_canon; reflexivity).
  assert (K1 : knot (c_knots bent) 1 = 0) by (apply Qc_is_canon; reflexivity).
  assert (K2 : knot (c_knots bent) 2 = 1) by (apply Qc_is_canon; reflexivity).
  assert (K3 : knot (c_knots bent) 3 = 1) by (apply Qc_is_canon; reflexivity).
  assert (W0 : pw (ctrl (c_pts bent) 0) = 1) by (apply Qc_is_canon; reflexivity).
  assert (W1 : pw (ctrl (c_pts bent) 1) = 1 + 1) by (apply Qc_is_canon; reflexivity).
  assert (X0 : px (ctrl (c_pts bent) 0) = 0) by (apply Qc_is_canon; reflexivity).
  assert (X1 : px (ctrl (c_pts bent) 1) = 1) by (apply Qc_is_canon; reflexivity).
  change (Z.to_nat 1) with 1%nat. cbn [sum_n Bs]. change (1 - 1)%Z with 0%Z. change (0 + 1)%Z with 1%Z.
  change (Z.of_nat 1) with 1%Z. change (0 + 1)%Z with 1%Z. change (1 + 1)%Z with 2%Z. change (2 + 1)%Z with 3%Z.
  change (0 =? 1)%Z with false. change (1 =? 1)%Z with true. change (2 =? 1)%Z with false. cbn beta iota.
  rewrite W0, W1, X0, X1, K0, K1, K2, K3.
  replace (((x - 0) / (0 - 0) * 0 + (1 - x) / (1 - 0) * 1) * 1 + (((x - 0) / (1 - 0) * 1 + (1 - x) / (1 - 1) * 0) * (1 + 1) + 0)) with (1 + x).
  2:{ rewrite !Qcmult_0_r. replace (1 - 0) with 1 by ring. replace ((1 - x) / 1) with (1 - x) by (field; discriminate). replace ((x - 0) / 1) with x by (field; discriminate). ring. }
  replace (((x - 0) / (0 - 0) * 0 + (1 - x) / (1 - 0) * 1) * (1 * 0) + (((x - 0) / (1 - 0) * 1 + (1 - x) / (1 - 1) * 0) * ((1 + 1) * 1) + 0)) with ((1 + 1) * x).
  2:{ rewrite !Qcmult_0_r. replace (1 - 0) with 1 by ring. replace ((1 - x) / 1) with (1 - x) by (field; discriminate). replace ((x - 0) / 1) with x by (field; discriminate). ring. }
  assert (N : 1 + x <> 0). { destruct B as [B _]. assert (0 < 1 + x) by qlra. intro E. rewrite E in H. revert H. apply Qcle_not_lt, Qcle_refl. }
  revert N. generalize (1 + x), ((1 + 1) * x). intros w a N. field. exact N.
Qed.
Lemma bent_deriv : deriv_on (span_at 1 1 (c_knots bent) 0) (rational (c_knots bent) 1 1 (c_pts bent) px) 0 (1 + 1).
Proof.
  exists (1 + 1), 1. split; [qlra|]. split; [qlra|]. intros h Dh _.
  destruct (bent_at _ Dh) as [Bh Eh]. destruct (bent_at 0) as [_ E0]; [apply span_at_refl, bent_dom|].
  set (f := rational _ _ _ _ _) in *. replace (0 + h) with h in * by ring.
  assert (F0 : f 0 = 0) by (transitivity (f 0 * (1 + 0)); [ring|rewrite E0; ring]). rewrite F0.
  destruct Bh as [Hh _]. set (y := f h) in *.
  assert (Y0 : 0 <= y). { destruct (Qclt_le_dec y 0) as [L|]; auto. exfalso. assert (y * (1 + h) < 0) by qnra. assert (0 <= (1 + 1) * h) by qlra. rewrite Eh in *. apply (Qclt_not_le _ _ H). auto. }
  assert (EQ : y - 0 - h * (1 + 1) = - (y * h)). { replace (h * (1 + 1)) with ((1 + 1) * h) by ring. rewrite <- Eh. ring. }
  rewrite EQ, Qcabs_opp, Qcabs_pos by qnra.
  assert (y <= (1 + 1) * h). { rewrite <- Eh. assert (0 <= y * h) by qnra. assert (y * (1 + h) = y + y * h) by ring. rewrite H0. qlra. }
  assert (0 <= ((1 + 1) * h - y) * h) by qnra. replace ((1 + 1) * (h * h)) with ((1 + 1) * h * h) by ring.
  replace (((1 + 1) * h - y) * h) with ((1 + 1) * h * h - y * h) in H0 by ring. qlra.
Qed.
(* the derivative of a rational curve is not what is returned *)
Theorem C167_rational_curve_refuted :
  exists c t v, valid_curve c /\ positive_weights c /\ in_domain c t /\ derivative c t = Ok v /\ ~ curve_deriv c 1 t v.
Proof.
  destruct (derivative_ok bent 0 bent_valid bent_dom) as [v [E _]].
  exists bent, 0, v. split; [exact bent_valid|]. split; [repeat constructor; vm_compute; reflexivity|]. split; [exact bent_dom|]. split; auto.
  intros [[g [G1 G2]] _]. cbn [nth_deriv_on] in G2.
  change (c_deg bent) with 1%Z in *. change (last_ix bent) with 1%Z in *.
  assert (B : knot (c_knots bent) 1 <= 0 <= knot (c_knots bent) (1 + 1)) by exact bent_dom.
  assert (V : valid_knots 1 1 (c_knots bent)) by exact bent_valid.
  pose proof (G1 0 (span_at_refl _ _ _ _ B)) as D0.
  pose proof (deriv_on_unique _ _ _ _ _ (span_at_thick _ _ _ _ V B) (span_at_refl _ _ _ _ B) D0 bent_deriv) as X.
  rewrite X in G2. assert (Y : this (vx v) = 1%Q).
  { assert (Z : out_v (derivative bent 0) = [1%Q; 0%Q; 0%Q]) by (vm_compute; reflexivity). rewrite E in Z. cbn [out_v] in Z. congruence. }
  rewrite <- G2 in Y. vm_compute in Y. discriminate.
Qed.
Print Assumptions C167_rational_curve_refuted.
(* a quarter circle: the derivative at the end is (-1, 0), not (-2, 0) *)
Definition quarter : curve := mkcurve [row 1 0 0 1; row 1 1 0 1; row 0 1 0 2] 2 (map qz [0; 0; 0; 1; 1; 1]%Z) false (qz 0, qz 1) [].
Example C167_case : valid_curve quarter /\ positive_weights quarter /\ in_domain quarter 1 /\
  out_v (derivative quarter 1) = [-2 # 1; 0; 0]%Q /\
  map row3 (c_pts quarter) = map row3 (c_pts (unit_weights quarter)).
Proof.
  split; [apply valid_knotsb_ok; vm_compute; auto|]. split; [repeat constructor; vm_compute; reflexivity|].
  split; [split; apply qle_true; vm_compute; reflexivity|]. split; vm_compute; reflexivity.
Qed.

(* ---- C168: the control points of the derivative curves ---- *)
Theorem C168_derivative_control_points_refuted : forall c t d, valid_curve c -> in_domain c t -> (0 <= d)%Z ->
  derivative_control_points c t d = Err ValueError.
Proof. exact derivative_control_points_fails. Qed.
Print Assumptions C168_derivative_control_points_refuted.
Example C168_case : valid_curve plain /\ in_domain plain (qz 1) /\ derivative_control_points plain (qz 1) 1 = Err ValueError.
Proof. split; [apply valid_unit, sample_valid|]. split; [apply plain_dom; reflexivity|]. vm_compute. reflexivity. Qed.

(* ---- C169: the frame ---- *)
Theorem C169_plane_at_partial : forall sqrt c t d1 d2, valid_curve c -> in_domain c t ->
  curve_deriv (unit_weights c) 1 t d1 -> curve_deriv (unit_weights c) 2 t d2 ->
  root_of sqrt (dot d1 d1) -> root_of sqrt (perp2 d1 d2) -> dot d1 d1 <> 0 -> perp2 d1 d2 <> 0 ->
  exists P T N B, plane_at sqrt c t = Ok [P; T; N; B] /\ curve_deriv (unit_weights c) 0 t P /\
    unit_vec T /\ unit_vec N /\ unit_vec B /\ orthogonal T N /\ orthogonal T B /\ orthogonal N B /\ det3 T N B = 1 /\
    (exists k, 0 < k /\ T = comb k d1 0 v30) /\ (exists k m, 0 < k /\ N = comb k d2 m d1).
Proof. exact plane_at_ok. Qed.
Print Assumptions C169_plane_at_partial.
Theorem C169_zero_speed_refuted : forall sqrt c t d1, valid_curve c -> in_domain c t -> curve_deriv (unit_weights c) 1 t d1 ->
  sqrt (dot d1 d1) = 0 -> plane_at sqrt c t = Err ZeroDivision.
Proof. exact plane_at_zero_speed. Qed.
Print Assumptions C169_zero_speed_refuted.
Theorem C169_normal_refuted : forall sqrt c t v, normal sqrt c t <> Ok v.
Proof. exact normal_fails. Qed.
Print Assumptions C169_normal_refuted.
(* a parabola at its vertex *)
Definition parabola : curve := mkcurve [row 0 0 0 1; row 1 0 0 1; row 2 1 0 1] 2 (map qz [0; 0; 0; 1; 1; 1]%Z) false (qz 0, qz 1) [].
Definition sqrt4 (x : Qc) : Qc := if qeq x (qz 4) then qz 2 else 0.
Lemma parabola_valid : valid_curve parabola.
Proof. apply valid_knotsb_ok; vm_compute; auto. Qed.
Lemma parabola_dom : in_domain parabola 0.
Proof. split; apply qle_true; vm_compute; reflexivity. Qed.
Lemma parabola_derivs : curve_deriv (unit_weights parabola) 1 0 (mkv (qz 2) 0 0) /\ curve_deriv (unit_weights parabola) 2 0 (mkv 0 (qz 2) 0).
Proof.
  destruct (derivative_ok parabola 0 parabola_valid parabola_dom) as [v [E H]].
  destruct (second_derivative_ok parabola 0 parabola_valid parabola_dom) as [w [E' H']].
  assert (Z : out_v (derivative parabola 0) = [2%Q; 0%Q; 0%Q]) by (vm_compute; reflexivity). rewrite E in Z. cbn [out_v] in Z.
  assert (Z' : out_v (second_derivative parabola 0) = [0%Q; 2%Q; 0%Q]) by (vm_compute; reflexivity). rewrite E' in Z'. cbn [out_v] in Z'.
  assert (v = mkv (qz 2) 0 0). { injection Z as Z1 Z2 Z3. apply v3_eq; apply Qc_is_canon; cbn [vx vy vz]; rewrite ?Z1, ?Z2, ?Z3; reflexivity. }
  assert (w = mkv 0 (qz 2) 0). { injection Z' as Z1 Z2 Z3. apply v3_eq; apply Qc_is_canon; cbn [vx vy vz]; rewrite ?Z1, ?Z2, ?Z3; reflexivity. }
  subst. auto.
Qed.
Lemma parabola_roots : root_of sqrt4 (dot (mkv (qz 2) 0 0) (mkv (qz 2) 0 0)) /\ root_of sqrt4 (perp2 (mkv (qz 2) 0 0) (mkv 0 (qz 2) 0)) /\
  dot (mkv (qz 2) 0 0) (mkv (qz 2) 0 0) = qz 4 /\ perp2 (mkv (qz 2) 0 0) (mkv 0 (qz 2) 0) = qz 4.
Proof.
  assert (E1 : dot (mkv (qz 2) 0 0) (mkv (qz 2) 0 0) = qz 4) by (apply Qc_is_canon; vm_compute; reflexivity).
  assert (E2 : perp2 (mkv (qz 2) 0 0) (mkv 0 (qz 2) 0) = qz 4) by (apply Qc_is_canon; vm_compute; reflexivity).
  rewrite E1, E2. assert (R : root_of sqrt4 (qz 4)). { split; [apply qle_true; vm_compute; reflexivity|apply Qc_is_canon; vm_compute; reflexivity]. }
  auto.
Qed.
Example C169_case : exists P T N B, plane_at sqrt4 parabola 0 = Ok [P; T; N; B] /\ unit_vec T /\ unit_vec N /\ orthogonal T N /\ det3 T N B = 1 /\
  out_vs (plane_at sqrt4 parabola 0) = [[0; 0; 0]; [1; 0; 0]; [0; 1; 0]; [0; 0; 1]]%Q.
Proof.
  destruct parabola_derivs as [D1 D2]. destruct parabola_roots as [R1 [R2 [E1 E2]]].
  destruct (C169_plane_at_partial sqrt4 parabola 0 _ _ parabola_valid parabola_dom D1 D2 R1 R2) as [P [T [N [B [E [_ [H1 [H2 [_ [H3 [_ [_ [H4 _]]]]]]]]]]]]].
  - rewrite E1. discriminate.
  - rewrite E2. discriminate.
  - exists P, T, N, B. split; [exact E|]. split; [exact H1|]. split; [exact H2|]. split; [exact H3|]. split; [exact H4|]. vm_compute. reflexivity.
Qed.
Example C169_zero_case : exists d1, curve_deriv (unit_weights (mkcurve [row 1 1 1 1; row 1 1 1 1] 1 (map qz [0; 0; 1; 1]%Z) false (qz 0, qz 1) [])) 1 0 d1 /\
  sqrt4 (dot d1 d1) = 0.
Proof.
  set (c := mkcurve _ _ _ _ _ _). assert (V : valid_curve c) by (apply valid_knotsb_ok; vm_compute; auto).
  assert (D : in_domain c 0) by (split; apply qle_true; vm_compute; reflexivity).
  destruct (derivative_ok c 0 V D) as [v [E H]]. exists v. split; auto.
  assert (Z : out_v (derivative c 0) = [0%Q; 0%Q; 0%Q]) by (vm_compute; reflexivity). rewrite E in Z. cbn [out_v] in Z.
  assert (v = v30). { injection Z as Z1 Z2 Z3. apply v3_eq; apply Qc_is_canon; cbn [vx vy vz]; rewrite ?Z1, ?Z2, ?Z3; reflexivity. }
  subst v. apply Qc_is_canon. vm_compute. reflexivity.
Qed.

(* ---- C170: tangent and curvature ---- *)
Theorem C170_tangent_partial : forall sqrt c t d1, valid_curve c -> in_domain c t -> curve_deriv (unit_weights c) 1 t d1 ->
  root_of sqrt (dot d1 d1) -> Q2Qc (1 # (10 ^ 15)) < sqrt (dot d1 d1) ->
  exists T k, tangent sqrt c t = Ok T /\ unit_vec T /\ 0 < k /\ T = comb k d1 0 v30.
Proof. exact tangent_ok. Qed.
Print Assumptions C170_tangent_partial.
Theorem C170_curvature_partial : forall sqrt c t d1 d2, valid_curve c -> in_domain c t ->
  curve_deriv (unit_weights c) 1 t d1 -> curve_deriv (unit_weights c) 2 t d2 ->
  root_of sqrt (dot d1 d1) -> dot d1 d1 <> 0 ->
  exists K, curvature sqrt c t = Ok K /\ orthogonal K d1 /\
    dot K K * (dot d1 d1 * dot d1 d1) = perp2 d1 d2 /\
    (exists m, comb (dot d1 d1) K 0 v30 = comb 1 d2 m d1).
Proof. exact curvature_ok. Qed.
Print Assumptions C170_curvature_partial.
Example C170_case : out_v (tangent sqrt4 parabola 0) = [1; 0; 0]%Q /\ out_v (curvature sqrt4 parabola 0) = [0; 1 # 2; 0]%Q /\
  Q2Qc (1 # (10 ^ 15)) < sqrt4 (dot (mkv (qz 2) 0 0) (mkv (qz 2) 0 0)).
Proof. split; [vm_compute; reflexivity|]. split; [vm_compute; reflexivity|]. apply qlt_true. vm_compute. reflexivity. Qed.

(* ---- C171: surfaces before the division ---- *)
Theorem C171_surface_derivatives_partial : forall sf u v order ju jv,
  valid_surface sf -> (1 <= s_du sf)%Z -> (1 <= s_dv sf)%Z -> (0 <= order)%Z ->
  knot (s_ku sf) (s_du sf) <= u -> u < knot (s_ku sf) (s_nu sf) ->
  knot (s_kv sf) (s_dv sf) <= v -> v < knot (s_kv sf) (s_nv sf) ->
  rect (Z.min (s_du sf) order + 1) (s_du sf + 1) ju -> rect (Z.min (s_dv sf) order + 1) (s_dv sf + 1) jv ->
  exists SKL, surface_derivatives (s_du sf) (s_dv sf) (s_ku sf) (s_kv sf) (concat (s_pts sf)) (s_nu sf) (s_nv sf) u v order ju jv = Ok SKL /\
    rect (order + 1) (order + 1) SKL /\
    forall k l, (0 <= k <= order)%Z -> (0 <= l <= order)%Z -> tensor_deriv sf (Z.to_nat k) (Z.to_nat l) u v (entry SKL k l).
Proof. exact surface_derivatives_inside. Qed.
Print Assumptions C171_surface_derivatives_partial.
Theorem C171_upper_end_refuted : forall sf u v order ju jv,
  valid_surface sf -> (1 <= s_du sf)%Z -> u = knot (s_ku sf) (s_nu sf) -> knot (s_ku sf) (s_nu sf + 1) = u ->
  surface_derivatives (s_du sf) (s_dv sf) (s_ku sf) (s_kv sf) (concat (s_pts sf)) (s_nu sf) (s_nv sf) u v order ju jv = Err ZeroDivision.
Proof. exact surface_derivatives_end_u. Qed.
Print Assumptions C171_upper_end_refuted.
Definition ju2 : mat := zerosM (qz 9) 2 3.
Definition jv2 : mat := zerosM (qz 8) 2 2.
Definition out_g (r : res grid) : list (list (list Q)) :=
  match r with Ok g => map (map (fun q => [this (px q); this (py q); this (pz q); this (pw q)])) g | Err _ => [] end.
Example C171_case : valid_surface patch /\ (s_du patch = 2 /\ s_dv patch = 1)%Z /\
  rect (Z.min 2 1 + 1) (2 + 1) ju2 /\ rect (Z.min 1 1 + 1) (1 + 1) jv2 /\
  out_g (surface_derivatives 2 1 (s_ku patch) (s_kv patch) (concat patch_pts) 4 3 (qf 1 2) (qf 1 2) 1 ju2 jv2) <> [] /\
  surface_derivatives 2 1 (s_ku patch) (s_kv patch) (concat patch_pts) 4 3 (qz 2) (qf 1 2) 1 ju2 jv2 = Err ZeroDivision.
Proof.
  split; [exact patch_valid|]. split; [split; reflexivity|]. split; [apply shape_zeros; lia|]. split; [apply shape_zeros; lia|].
  split; [vm_compute; discriminate|]. vm_compute. reflexivity.
Qed.

(* ---- C172: rational surfaces ---- *)
Theorem C172_rational_surface_partial : forall sf u v order ju jv S0,
  valid_surface sf -> weights_positive sf -> (1 <= s_du sf)%Z -> (1 <= s_dv sf)%Z -> (0 <= order <= 30)%Z ->
  knot (s_ku sf) (s_du sf) <= u -> u < knot (s_ku sf) (s_nu sf) ->
  knot (s_kv sf) (s_dv sf) <= v -> v < knot (s_kv sf) (s_nv sf) ->
  rect (Z.min (s_du sf) order + 1) (s_du sf + 1) ju -> rect (Z.min (s_dv sf) order + 1) (s_dv sf + 1) jv ->
  rect (order + 1) (order + 1) S0 ->
  exists SKL S, surface_derivatives (s_du sf) (s_dv sf) (s_ku sf) (s_kv sf) (concat (s_pts sf)) (s_nu sf) (s_nv sf) u v order ju jv = Ok SKL /\
    rat_surface_derivs SKL order S0 = Ok S /\ rect (order + 1) (order + 1) S /\
    forall k l, (0 <= k <= order)%Z -> (0 <= l <= order)%Z -> point_deriv sf (Z.to_nat k) (Z.to_nat l) u v (entry3 S k l).
Proof. exact rational_inside. Qed.
Print Assumptions C172_rational_surface_partial.
Theorem C172_unique : forall sf k l u v a b, valid_surface sf -> in_dom sf u v ->
  point_deriv sf k l u v a -> point_deriv sf k l u v b -> a = b.
Proof. exact point_deriv_unique. Qed.
Print Assumptions C172_unique.
Theorem C172_zero_weight : forall A order S0, (0 <= order)%Z -> shaped (order + 1) (order + 1) A -> pw (entry A 0 0) = 0 ->
  rat_surface_derivs A order S0 = Err ZeroDivision.
Proof. exact rat_zero. Qed.
Print Assumptions C172_zero_weight.
Definition out_g3 (r : res (list (list v3))) : list (list (list Q)) :=
  match r with Ok g => map (map (fun q => [this (vx q); this (vy q); this (vz q)])) g | Err _ => [] end.
Example C172_case : valid_surface patch /\ weights_positive patch /\ rect (1 + 1) (1 + 1) (zerosM v30 2 2) /\
  out_g3 (do A <- surface_derivatives 2 1 (s_ku patch) (s_kv patch) (concat patch_pts) 4 3 (qf 1 2) (qf 1 2) 1 ju2 jv2 ;
          rat_surface_derivs A 1 (zerosM v30 2 2)) =
    [[[1; 15 # 23; 40 # 23]; [4 # 23; 480 # 529; 728 # 529]];
     [[32 # 23; 96 # 529; -112 # 529]; [-128 # 529; -2688 # 12167; -29248 # 12167]]]%Q.
Proof.
  split; [exact patch_valid|]. split; [exact patch_weights|]. split; [apply shape_zeros; lia|]. vm_compute. reflexivity.
Qed.
Example C172_zero_case : shaped (0 + 1) (0 + 1) ((row 3 1 2 0 :: nil) :: nil) /\ rat_surface_derivs ((row 3 1 2 0 :: nil) :: nil) 0 ((v30 :: nil) :: nil) = Err ZeroDivision.
Proof. split; [split; [reflexivity|repeat constructor]|]. vm_compute. reflexivity. Qed.
