(* The parametric cylinder; gradients by central differences. *)
From Coq Require Import List ZArith Lia Bool QArith Qcanon.
From Verif Require Import Common ListLib QcLib ArrZ SumLib NurbsModel DerModel PlnModel PlnSpec PlnProofs2 PlnProofs4 PrmModel PrmSpec PrmProofs1 PrmProofs2 PrmProofs3.
Import ListNotations.
Local Open Scope Z_scope.
Local Open Scope Qc_scope.

Lemma close_true x y : close x y = true -> fabs (x - y) <= Q2Qc (1 # 10 ^ 8) + Q2Qc (1 # 10 ^ 5) * fabs y.
Proof. apply qle_true. Qed.
Lemma allclose_x d : allclose3 d (mkv 1 0 0) = true -> vx d <> 0.
Proof.
  unfold allclose3. cbn [vx vy vz]. intros H K. apply andb_prop in H. destruct H as [H _]. apply andb_prop in H. destruct H as [H _].
  rewrite K in H. vm_compute in H. discriminate.
Qed.

(* an orthonormal frame spans the space *)
Lemma frame_expand D U x : dot3 D D = 1 -> dot3 U U = 1 -> dot3 D U = 0 ->
  x = vadd (vadd (along zero3 (dot3 x D) D) (along zero3 (dot3 x U) U)) (along zero3 (dot3 x (cross3 D U)) (cross3 D U)).
Proof.
  intros HD HU HO. destruct (frame3 D U HD HU HO) as [O _]. destruct O as (_ & VV & _ & UV & UD & VD).
  set (V := cross3 D U) in *.
  set (y := minus3 x (vadd (vadd (along zero3 (dot3 x D) D) (along zero3 (dot3 x U) U)) (along zero3 (dot3 x V) V))).
  assert (Y : y = zero3).
  { assert (YE : forall z, dot3 y z = dot3 x z - dot3 x D * dot3 D z - dot3 x U * dot3 U z - dot3 x V * dot3 V z).
    { intro z. unfold y. set (a := dot3 x D). set (b := dot3 x U). set (c := dot3 x V). clearbody a b c V. clear. v3d. ring. }
    assert (YD : dot3 y D = 0) by (rewrite YE, HD, UD, VD; ring).
    assert (YU : dot3 y U = 0) by (rewrite YE, HU, HO, (dot_comm V U), UV; ring).
    assert (YV : dot3 y V = 0) by (rewrite YE, VV, UV, (dot_comm D V), VD; ring).
    clearbody y. apply dot_self_zero. transitivity (dot3 y y * dot3 V V); [rewrite VV; ring|].
    assert (C : cross3 y V = zero3).
    { unfold V. apply v3_ext.
      - transitivity (vx D * dot3 y U - vx U * dot3 y D); [clear; v3d; ring|rewrite YU, YD; unfold zero3; cbn [vx]; ring].
      - transitivity (vy D * dot3 y U - vy U * dot3 y D); [clear; v3d; ring|rewrite YU, YD; unfold zero3; cbn [vy]; ring].
      - transitivity (vz D * dot3 y U - vz U * dot3 y D); [clear; v3d; ring|rewrite YU, YD; unfold zero3; cbn [vz]; ring]. }
    transitivity (dot3 (cross3 y V) (cross3 y V) + dot3 y V * dot3 y V); [clear; clearbody V; v3d; ring|]. rewrite C, YV. unfold dot3, zero3; cbn [vx vy vz]. ring. }
  unfold y in Y. apply v3_inv in Y. destruct Y as (A & B & C). cbn [zero3 minus3 vx vy vz] in A, B, C.
  set (w := vadd _ _) in *. clearbody w. apply v3_ext; [clear - A|clear - B|clear - C]; qlra.
Qed.

Section P.
Variable sqrt : Qc -> Qc.

(* what the constructor establishes *)
Definition good (s e : v3) (r : Qc) (c : cylinder) : Prop :=
  exists n D U, c = mkpc (icyl_init sqrt s e r None) s e r D n U (cross3 D U) /\ 0 < n /\ n * n = dist2 e s /\
    minus3 e s = along zero3 n D /\ dot3 D D = 1 /\ dot3 U U = 1 /\ dot3 D U = 0.

Lemma cylinder_init_ok s e r : s <> e -> not_minus_x s e -> frame_roots sqrt s e ->
  exists c, cylinder_init sqrt s e r = Ok c /\ good s e r c.
Proof.
  intros N NX (K & Ky & Kx). pose proof (dd_nz _ _ N) as DD. unfold cylinder_init. rewrite vsub_minus. set (d := minus3 e s) in *.
  assert (d0 : d <> zero3) by (intro Z; apply DD; rewrite Z; unfold dot3, zero3; cbn [vx vy vz]; ring).
  destruct (unit_ok sqrt d d0 K) as (D & HD & UD & S0 & A & B & C). rewrite HD. cbn [bind]. rewrite (norm3d_eq sqrt d) in *.
  unfold exact_sqrt, dist2 in K, Ky, Kx. unfold good, dist2. fold d in K, Ky, Kx. fold d. set (n := sqrt (dot3 d d)) in *.
  destruct K as [P Q]. assert (NP : 0 < n). { destruct (Qclt_le_dec 0 n); auto. exfalso. apply S0. clear - P q. qlra. }
  set (w := if allclose3 D (mkv 1 0 0) then mkv 0 1 0 else mkv 1 0 0).
  assert (CW : vcross D w = cross3 D w) by reflexivity. rewrite CW.
  assert (nn : n * n <> 0) by (rewrite Q; exact DD).
  assert (W : cross3 D w <> zero3 /\ is_sqrt (sqrt (dot3 (cross3 D w) (cross3 D w))) (dot3 (cross3 D w) (cross3 D w))).
  { unfold w. destruct (allclose3 D (mkv 1 0 0)) eqn:AC.
    - apply allclose_x in AC. split.
      + intro Z. apply AC. apply v3_inv in Z. destruct Z as (_ & _ & Z). unfold cross3, zero3 in Z; cbn [vx vy vz] in Z. clear - Z. qlra.
      + replace (dot3 (cross3 D (mkv 0 1 0)) (cross3 D (mkv 0 1 0))) with ((vx d * vx d + vz d * vz d) / dot3 d d); [exact Ky|].
        rewrite A, C, <- Q. unfold dot3, cross3; cbn [vx vy vz]. field. auto.
    - split.
      + intro Z. apply v3_inv in Z. unfold cross3, zero3 in Z; cbn [vx vy vz] in Z. destruct Z as (_ & Z1 & Z2).
        assert (DY : vy D = 0) by (clear - Z2; qlra). assert (DZ : vz D = 0) by (clear - Z1; qlra).
        assert (DX : vx D * vx D = 1). { rewrite <- UD. unfold dot3. rewrite DY, DZ. ring. }
        assert (DX' : (vx D - 1) * (vx D + 1) = 0). { transitivity (vx D * vx D - 1); [ring|rewrite DX; ring]. }
        apply Qcmult_integral in DX'. destruct DX' as [X|X].
        * assert (X' : vx D = 1) by (clear - X; qlra). unfold allclose3 in AC. rewrite X', DY, DZ in AC. cbn [vx vy vz] in AC.
          vm_compute in AC. discriminate.
        * assert (X' : vx D = - (1)) by (clear - X; qlra). apply NX. rewrite DY in B. rewrite DZ in C. rewrite X' in A. unfold d in A, B, C. cbn [minus3 vx vy vz] in A, B, C.
          clear - A B C NP. split; [|split]; qlra.
      + replace (dot3 (cross3 D (mkv 1 0 0)) (cross3 D (mkv 1 0 0))) with ((vy d * vy d + vz d * vz d) / dot3 d d); [exact Kx|].
        rewrite B, C, <- Q. unfold dot3, cross3; cbn [vx vy vz]. field. auto. }
  destruct W as [W0 WS]. destruct (unit_ok sqrt _ W0 WS) as (U & HU & UU & SU & A' & B' & C'). rewrite HU. cbn [bind].
  eexists. split; [reflexivity|]. exists n, D, U. split; [reflexivity|]. split; [exact NP|]. split; [exact Q|].
  split; [apply v3_ext; unfold along, zero3; cbn [vx vy vz]; [rewrite A|rewrite B|rewrite C]; ring|].
  split; [exact UD|]. split; [exact UU|].
  set (m := norm3d sqrt (cross3 D w)) in *. clearbody m. apply (mul_zero m); [exact SU|].
  transitivity (dot3 D (cross3 D w)); [unfold dot3; rewrite A', B', C'; ring|clear; clearbody w; v3d; ring].
Qed.

Lemma minus_x_fails s k r : 0 < k -> exact_sqrt sqrt (k * k) -> exact_sqrt sqrt 0 ->
  cylinder_init sqrt s (mkv (vx s - k) (vy s) (vz s)) r = Err ZeroDivision.
Proof.
  intros K H H0. unfold cylinder_init. set (d := vsub _ s).
  assert (E : d = mkv (- k) 0 0) by (apply v3_ext; unfold d, vsub; cbn [vx vy vz]; ring). rewrite E.
  assert (SK : norm3d sqrt (mkv (- k) 0 0) = k).
  { rewrite norm3d_eq. replace (dot3 (mkv (- k) 0 0) (mkv (- k) 0 0)) with (k * k) by (unfold dot3; cbn [vx vy vz]; ring).
    apply (is_sqrt_unique _ _ (k * k)); [exact H|split; [clear - K; qlra|auto]]. }
  rewrite SK. assert (k0 : k <> 0) by (intro Z; rewrite Z in K; clear - K; qlra). rewrite div3_ok by auto. cbn [bind vx vy vz].
  replace (- k / k) with (- (1)) by (field; auto). replace (0 / k) with 0 by (field; auto).
  assert (AC : allclose3 (mkv (- (1)) 0 0) (mkv 1 0 0) = false) by (vm_compute; reflexivity). rewrite AC.
  assert (CZ : vcross (mkv (- (1)) 0 0) (mkv 1 0 0) = zero3) by (apply v3_ext; unfold vcross, zero3; cbn [vx vy vz]; ring). rewrite CZ.
  rewrite unit_zero_ by exact H0. reflexivity.
Qed.

(* ---- points of the surface ---- *)
Lemma eval_vec D U s r n e cu su v : let c := mkpc (icyl_init sqrt s e r None) s e r D n U (cross3 D U) in
  cylinder_evaluate c cu su v = vadd (along s v D) (along zero3 r (vadd (along zero3 cu U) (along zero3 su (cross3 D U)))).
Proof. cbv zeta. apply v3_ext; unfold cylinder_evaluate, along, vadd, zero3; cbn [p_start p_dhat p_uhat p_v p_radius vx vy vz]; ring. Qed.

Lemma eval_perp s e r c cu su v : s <> e -> good s e r c -> cu * cu + su * su = 1 ->
  exists g, dot3 g g = 1 /\ dot3 g (minus3 e s) = 0 /\ g = vadd (along zero3 cu (p_uhat c)) (along zero3 su (p_v c)) /\
    perp s (minus3 e s) (cylinder_evaluate c cu su v) = along zero3 r g /\
    fpar s (minus3 e s) (cylinder_evaluate c cu su v) = v / p_dnorm c.
Proof.
  intros N (n & D & U & -> & NP & NN & E & DD & UU & DU) CS. pose proof (dd_nz _ _ N) as D0.
  destruct (frame3 D U DD UU DU) as [(_ & VV & _ & UV & UD & VD) _]. rewrite eval_vec. cbn [p_uhat p_v p_dnorm].
  set (V := cross3 D U) in *. clearbody V. set (g := vadd (along zero3 cu U) (along zero3 su V)).
  assert (G1 : dot3 g g = 1).
  { transitivity (cu * cu * dot3 U U + (1 + 1) * cu * su * dot3 U V + su * su * dot3 V V); [unfold g; clear; v3d; ring|].
    rewrite UU, UV, VV. transitivity (cu * cu + su * su); [ring|exact CS]. }
  assert (GD : dot3 g D = 0). { transitivity (cu * dot3 U D + su * dot3 V D); [unfold g; clear; v3d; ring|rewrite UD, VD; ring]. }
  exists g. split; [exact G1|].
  assert (GE : dot3 g (minus3 e s) = 0). { rewrite E. transitivity (n * dot3 g D); [clearbody g; clear; v3d; ring|rewrite GD; ring]. }
  split; [exact GE|]. split; [reflexivity|].
  assert (n0 : n <> 0) by (intro Z; rewrite Z in NP; clear - NP; qlra).
  assert (F : fpar s (minus3 e s) (vadd (along s v D) (along zero3 r g)) = v / n).
  { unfold fpar. rewrite E. clearbody g.
    transitivity ((v * n * dot3 D D + r * n * dot3 g D) / (n * n * dot3 D D)).
    - f_equal; clear; v3d; ring.
    - rewrite DD, GD. field. auto. }
  split; [|exact F]. unfold perp. rewrite F, E. clearbody g.
  apply v3_ext; unfold minus3, vadd, along, zero3; cbn [vx vy vz]; field; auto.
Qed.

Lemma eval_distance s e r c cu su v : s <> e -> good s e r c -> cu * cu + su * su = 1 -> 0 <= r ->
  line_distance s e (cylinder_evaluate c cu su v) r.
Proof.
  intros N G CS R. destruct (eval_perp s e r c cu su v N G CS) as (g & G1 & GE & _ & P & _).
  apply line_distance_perp; auto. split; [auto|]. rewrite P. transitivity (r * r * dot3 g g); [rewrite G1; ring|clear; v3d; ring].
Qed.

Lemma good_prim s e r c : good s e r c -> p_prim c = run_icyl sqrt (icyl_init sqrt s e r None) [] /\ p_radius c = r /\ p_start c = s.
Proof. intros (n & D & U & -> & _). auto. Qed.

Lemma eval_zero s e r c cu su v : s <> e -> good s e r c -> cu * cu + su * su = 1 -> 0 <= r -> exact_sqrt sqrt (r * r) ->
  cylinder_implicit sqrt c (cylinder_evaluate c cu su v) = Ok 0.
Proof.
  intros N G CS R H. unfold cylinder_implicit. destruct (good_prim _ _ _ _ G) as (-> & _).
  rewrite (icyl_at_distance sqrt s e r None [] _ r N); auto; [|apply eval_distance; auto].
  change (last_radius r []) with r. f_equal. ring.
Qed.

Lemma eval_gradient s e r c cu su v : s <> e -> good s e r c -> cu * cu + su * su = 1 -> 0 < r -> exact_sqrt sqrt (r * r) ->
  cylinder_gradient sqrt c (cylinder_evaluate c cu su v) = Ok (vadd (along zero3 cu (p_uhat c)) (along zero3 su (p_v c))).
Proof.
  intros N G CS R H. destruct (eval_perp s e r c cu su v N G CS) as (g & G1 & GE & <- & P & _).
  unfold cylinder_gradient. destruct (good_prim _ _ _ _ G) as (-> & _). 
  change (run_icyl sqrt (icyl_init sqrt s e r None) []) with (icyl_init sqrt s e r None).
  unfold icyl_gradient, icyl_init, calc_bounds, calc_direction. cbn [c_t c_o c_e c_d c_r c_b]. rewrite vsub_minus.
  unfold cyl_gradient. rewrite normal_ok by (cbn [c_d]; apply dd_nz; auto). cbn [bind c_d c_o]. rewrite P, norm3d_eq.
  assert (E : dot3 (along zero3 r g) (along zero3 r g) = r * r).
  { transitivity (r * r * dot3 g g); [clear; v3d; ring|rewrite G1; ring]. }
  rewrite E. assert (Q : sqrt (r * r) = r) by (apply (is_sqrt_unique _ _ (r * r)); [exact H|split; [clear - R; qlra|auto]]). rewrite Q.
  assert (r0 : r <> 0) by (intro Z; rewrite Z in R; clear - R; qlra).
  rewrite div3_ok by auto. f_equal. apply v3_ext; unfold along, zero3; cbn [vx vy vz]; field; auto.
Qed.

Lemma eval_bounds s e r c cu su v : s <> e -> good s e r c -> cu * cu + su * su = 1 -> 0 <= r -> aabb_roots sqrt s e ->
  0 <= v <= p_dnorm c -> exists b, cylinder_bounds c = Some b /\ in_box b (cylinder_evaluate c cu su v).
Proof.
  intros N G CS R K V. unfold cylinder_bounds. destruct (eval_perp s e r c cu su v N G CS) as (g & G1 & GE & _ & P & F).
  assert (NP : 0 < p_dnorm c). { destruct G as (n & D & U & -> & NP & _). exact NP. }
  destruct (good_prim _ _ _ _ G) as (-> & _).
  destruct (icyl_bounds_tight sqrt s e r None [] N) as (b & B & T).
  { change (last_radius r []) with r. clear - R. qlra. } { exact K. }
  exists b. split; [exact B|]. destruct T as (T & _). apply T.
  change (last_radius r []) with r. change (last_start s []) with s. change (last_end e []) with e.
  exists (v / p_dnorm c). split.
  - split; [apply qc_div_nonneg; auto; clear - V; destruct V; auto|]. apply qc_div_le; auto. destruct V. clear - H0. qlra.
  - cbv zeta. unfold dist2. unfold perp in P. rewrite F in P. rewrite P. split.
    + transitivity (r * dot3 g (minus3 e s)); [clear; generalize (minus3 e s); intro; v3d; ring|rewrite GE; ring].
    + replace (r + 0) with r by ring. assert (Z : dot3 (along zero3 r g) (along zero3 r g) = r * r); [|rewrite Z; apply Qcle_refl]. transitivity (r * r * dot3 g g); [clear; v3d; ring|rewrite G1; ring].
Qed.

Lemma eval_surjective s e r c p : s <> e -> good s e r c -> 0 < r -> line_distance s e p r ->
  exists cu su v, cu * cu + su * su = 1 /\ cylinder_evaluate c cu su v = p /\ 
    (solid s e r p -> 0 <= v <= p_dnorm c).
Proof.
  intros N (n & D & U & -> & NP & NN & E & DD & UU & DU) R L. pose proof (dd_nz _ _ N) as D0.
  destruct (frame3 D U DD UU DU) as [(_ & VV & _ & UV & UD & VD) _].
  apply line_distance_sq in L; auto. destruct L as [_ L]. 
  assert (n0 : n <> 0) by (intro Z; rewrite Z in NP; clear - NP; qlra).
  assert (r0 : r <> 0) by (intro Z; rewrite Z in R; clear - R; qlra).
  pose proof (perp_orth s (minus3 e s) p D0) as O.
  set (w := perp s (minus3 e s) p) in *. set (f := fpar s (minus3 e s) p).
  assert (WD : dot3 w D = 0). { apply (mul_zero n); auto. rewrite <- O, E. clear. clearbody w. v3d. ring. }
  pose proof (frame_expand D U w DD UU DU) as X. rewrite WD in X.
  exists (dot3 w U / r), (dot3 w (cross3 D U) / r), (f * n). cbn [p_dnorm]. split; [|split].
  - transitivity ((dot3 w U * dot3 w U + dot3 w (cross3 D U) * dot3 w (cross3 D U)) / (r * r)); [field; auto|].
    assert (S2 : dot3 w U * dot3 w U + dot3 w (cross3 D U) * dot3 w (cross3 D U) = r * r).
    { rewrite L. set (a := dot3 w U) in *. set (b := dot3 w (cross3 D U)) in *. clearbody a b. set (V := cross3 D U) in *. clearbody V.
      rewrite X. transitivity (a * a * dot3 U U + (1 + 1) * a * b * dot3 U V + b * b * dot3 V V); [rewrite UU, UV, VV; ring|clear; v3d; ring]. }
    rewrite S2. field. auto.
  - rewrite eval_vec. assert (PW : p = vadd (along s f (minus3 e s)) w).
    { unfold w, perp. fold f. clear. generalize (minus3 e s). intro d. clearbody f. apply v3_ext; v3d; ring. }
    rewrite PW, E. rewrite X at 3. set (a := dot3 w U). set (b := dot3 w (cross3 D U)). set (V := cross3 D U). clearbody a b V f. clear - r0.
    apply v3_ext; unfold vadd, along, zero3; cbn [vx vy vz]; field; auto.
  - intros (t & T & T1 & _).
    assert (f = t).
    { unfold f, fpar. assert (M : dot3 (minus3 p s) (minus3 e s) = t * dot3 (minus3 e s) (minus3 e s)).
      { transitivity (dot3 (minus3 p (along s t (minus3 e s))) (minus3 e s) + t * dot3 (minus3 e s) (minus3 e s)).
        - clear. generalize (minus3 e s). intro d. v3d. ring.
        - cbv zeta in T1. rewrite T1. ring. }
      rewrite M. field. auto. }
    subst t. destruct T as [Ta Tb]. clear - Ta Tb NP. split.
    + apply qc_mul_nonneg; auto. qlra.
    + assert (0 <= (1 - f) * n) by (apply qc_mul_nonneg; qlra). qlra.
Qed.

(* ---- assignments to the public fields ---- *)
Lemma stale_radius s e r c r2 cu su v : s <> e -> good s e r c -> cu * cu + su * su = 1 -> 0 <= r2 -> exact_sqrt sqrt (r2 * r2) ->
  let c' := assign_radius c r2 in
  cylinder_implicit sqrt c' (cylinder_evaluate c' cu su v) = Ok (r2 - r) /\ cylinder_bounds c' = cylinder_bounds c.
Proof.
  intros N G CS R H. cbv zeta. split; [|reflexivity].
  destruct (good_prim _ _ _ _ G) as (P & _). unfold cylinder_implicit. change (p_prim (assign_radius c r2)) with (p_prim c). rewrite P.
  destruct G as (n & D & U & -> & NP & NN & E & DD & UU & DU).
  assert (G2 : good s e r2 (mkpc (icyl_init sqrt s e r2 None) s e r2 D n U (cross3 D U))) by (exists n, D, U; auto 10).
  pose proof (eval_distance s e r2 _ cu su v N G2 CS R) as L.
  assert (EQ : cylinder_evaluate (assign_radius (mkpc (icyl_init sqrt s e r None) s e r D n U (cross3 D U)) r2) cu su v =
    cylinder_evaluate (mkpc (icyl_init sqrt s e r2 None) s e r2 D n U (cross3 D U)) cu su v) by reflexivity.
  rewrite EQ. rewrite (icyl_at_distance sqrt s e r None [] _ r2 N L H). reflexivity.
Qed.

(* ---- central differences ---- *)
Lemma quad_gradient f p : exact_sqrt sqrt (dot3 (quad_grad f p) (quad_grad f p)) ->
  exists g, base_gradient sqrt (fun q => Ok (quad_at f q)) p = Ok g /\
    (quad_grad f p = zero3 -> g = zero3) /\
    (quad_grad f p <> zero3 -> dot3 g g = 1 /\ exists k, 0 < k /\ quad_grad f p = along zero3 k g).
Proof.
  intro H. pose proof h3_nz as NH. pose proof two_nz as NT.
  apply (base_gradient_of sqrt _ p (vx (quad_grad f p)) (vy (quad_grad f p)) (vz (quad_grad f p))).
  - unfold central. cbn [bind]. f_equal. unfold quad_at, quad_grad, dot3, vadd, vsub. cbn [vx vy vz].
    set (h := h3) in *. clearbody h. rewrite two_eq in *. field. split; auto.
  - unfold central. cbn [bind]. f_equal. unfold quad_at, quad_grad, dot3, vadd, vsub. cbn [vx vy vz].
    set (h := h3) in *. clearbody h. rewrite two_eq in *. field. split; auto.
  - unfold central. cbn [bind]. f_equal. unfold quad_at, quad_grad, dot3, vadd, vsub. cbn [vx vy vz].
    set (h := h3) in *. clearbody h. rewrite two_eq in *. field. split; auto.
  - exact H.
Qed.
End P.
