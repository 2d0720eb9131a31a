(* Vectors, matrices and collections of the object API. *)
From Coq Require Import List ZArith Lia Bool QArith Qcanon.
From Verif Require Import Common QcLib ArrZ SumLib NurbsModel DerModel PlnModel ApiModel ApiSpec ApiProofs1.
Import ListNotations.
Local Open Scope Z_scope.
Local Open Scope Qc_scope.

Lemma v3_ext a b : vx a = vx b -> vy a = vy b -> vz a = vz b -> a = b.
Proof. destruct a, b. cbn. intros -> -> ->. reflexivity. Qed.
Lemma fabs_cases x : (0 <= x /\ fabs x = x) \/ (x < 0 /\ fabs x = - x).
Proof. unfold fabs. destruct (qlt x 0) eqn:E; [apply qlt_true in E|apply qlt_false in E]; auto. Qed.
Lemma fabs_nonneg x : 0 <= fabs x.
Proof. destruct (fabs_cases x) as [(H & ->)|(H & ->)]; qlra. Qed.
Lemma square_nonneg (x : Qc) : 0 <= x * x.
Proof. qnra. Qed.
Lemma vdot_pos v : v <> v30 -> 0 < vdot v v.
Proof.
  intros NE. destruct v as [x y z]. unfold vdot. cbn [vx vy vz].
  pose proof (square_nonneg x). pose proof (square_nonneg y). pose proof (square_nonneg z).
  destruct (Qclt_le_dec 0 (x * x + y * y + z * z)) as [L|L]; [exact L|exfalso].
  apply NE. unfold v30. f_equal; apply Qcmult_integral_l with (2 := _) || idtac.
  - destruct (Qc_eq_dec x 0) as [E|E]; [exact E|exfalso]. assert (x * x = 0) by qlra. destruct (Qcmult_integral _ _ H2); contradiction.
  - destruct (Qc_eq_dec y 0) as [E|E]; [exact E|exfalso]. assert (y * y = 0) by qlra. destruct (Qcmult_integral _ _ H2); contradiction.
  - destruct (Qc_eq_dec z 0) as [E|E]; [exact E|exfalso]. assert (z * z = 0) by qlra. destruct (Qcmult_integral _ _ H2); contradiction.
Qed.
Lemma vdot_self0 v : vdot v v = 0 -> v = v30.
Proof.
  intros E. destruct v as [x y z]. unfold vdot in E. cbn [vx vy vz] in E.
  pose proof (square_nonneg x). pose proof (square_nonneg y). pose proof (square_nonneg z).
  assert (E1 : x * x = 0) by qlra. assert (E2 : y * y = 0) by qlra. assert (E3 : z * z = 0) by qlra.
  apply Qcmult_integral in E1. apply Qcmult_integral in E2. apply Qcmult_integral in E3. unfold v30. f_equal; tauto.
Qed.
Lemma lagrange a b : vdot (vcross a b) (vcross a b) = vdot a a * vdot b b - vdot a b * vdot a b.
Proof. unfold vdot, vcross. cbn [vx vy vz]. ring. Qed.

(* ---- parallel ---- *)

Definition eps : Qc := atol + rtol.
Lemma eps_1 : atol + rtol * fabs 1 = eps.
Proof. apply Qc_is_canon. reflexivity. Qed.
Lemma eps_0 : atol + rtol * fabs 0 = atol.
Proof. apply Qc_is_canon. reflexivity. Qed.
Lemma eps_pos : 0 < eps. Proof. reflexivity. Qed.
Lemma eps_small : eps < 1. Proof. reflexivity. Qed.
Lemma atol_pos : 0 < atol. Proof. reflexivity. Qed.
Lemma isclose_1 x : isclose x 1 = true <-> 1 - eps <= x /\ x <= 1 + eps.
Proof.
  unfold isclose. rewrite qle_true, eps_1.
  destruct (fabs_cases (x - 1)) as [(H & ->)|(H & ->)]; (split; [intros L; split; qlra|intros (A & B); qlra]).
Qed.
Lemma isclose_0 x : isclose x 0 = true <-> fabs x <= atol.
Proof. unfold isclose. rewrite qle_true, eps_0. replace (x - 0) with x by ring. reflexivity. Qed.
Lemma bfalse (b : bool) : (b = true -> False) -> b = false.
Proof. destruct b; tauto. Qed.

Lemma parallel_scaled_missed v : v <> v30 -> exists k, 0 < k /\ v3_is_parallel v (vscale k v) = false.
Proof.
  intros NE. apply vdot_pos in NE. exists ((1 + 1) / vdot v v). split; [apply qc_div_pos; [reflexivity|exact NE]|].
  assert (N : vdot v v <> 0) by (intros E; rewrite E in NE; discriminate NE).
  assert (E : vdot v (vscale ((1 + 1) / vdot v v) v) = 1 + 1).
  { transitivity ((1 + 1) / vdot v v * vdot v v); [|field; exact N]. set (k := (1 + 1) / vdot v v). unfold vdot, vscale. cbn [vx vy vz]. ring. }
  apply bfalse. unfold v3_is_parallel. rewrite E, isclose_1. intros (_ & H). vm_compute in H. apply H. reflexivity.
Qed.
Lemma perp_exists v : exists u, u <> v30 /\ vdot v u = 0.
Proof.
  destruct (Qc_eq_dec (vx v) 0) as [E|E].
  - exists (mkv 1 0 0). split; [intros C; apply (f_equal vx) in C; discriminate C|]. unfold vdot. cbn [vx vy vz]. rewrite E. ring.
  - exists (mkv (- vy v) (vx v) 0). split; [intros C; apply (f_equal vy) in C; cbn in C; contradiction|]. unfold vdot. cbn [vx vy vz]. ring.
Qed.
Lemma parallel_wrong v : v <> v30 -> exists w, ~ parallel v w /\ v3_is_parallel v w = true.
Proof.
  intros NE. pose proof (vdot_pos v NE) as P. destruct (perp_exists v) as (u & U1 & U2). apply vdot_pos in U1.
  assert (N : vdot v v <> 0) by (intros E; rewrite E in P; discriminate P).
  exists (vadd (vscale (1 / vdot v v) v) u). set (k := 1 / vdot v v).
  assert (E : vdot v (vadd (vscale k v) u) = 1).
  { transitivity (k * vdot v v + vdot v u); [unfold vdot, vscale, vadd; cbn [vx vy vz]; ring|]. rewrite U2. unfold k. field. exact N. }
  split.
  - intros C. unfold parallel in C.
    assert (F : vdot v v * vdot u u = 0).
    { transitivity (vdot (vcross v (vadd (vscale k v) u)) (vcross v (vadd (vscale k v) u))).
      - transitivity (vdot (vcross v u) (vcross v u)); [rewrite lagrange, U2; ring|]. unfold vdot, vscale, vadd, vcross; cbn [vx vy vz]; ring.
      - rewrite C. apply Qc_is_canon. reflexivity. }
    apply Qcmult_integral in F. destruct F as [F|F]; [contradiction|rewrite F in U1; discriminate U1].
  - unfold v3_is_parallel. rewrite E. reflexivity.
Qed.
Lemma parallel_unit a b : unit3 a -> unit3 b ->
  (parallel a b -> v3_is_parallel a b = true) /\
  (v3_is_parallel a b = true -> vdot (vcross a b) (vcross a b) <= (1 + 1) * (atol + rtol)).
Proof.
  unfold unit3, parallel, v3_is_parallel. intros A B. pose proof (lagrange a b) as L. rewrite A, B in L. rewrite isclose_1.
  pose proof eps_pos as EP. pose proof eps_small as ES. set (d := vdot a b) in *. fold eps. split.
  - intros C. rewrite C in L. replace (vdot v30 v30) with 0 in L by (apply Qc_is_canon; reflexivity).
    assert (D : (d - 1) * (d + 1) = 0) by (replace ((d - 1) * (d + 1)) with (- (1 * 1 - d * d)) by ring; rewrite <- L; ring).
    apply Qcmult_integral in D. assert (F : fabs d = 1).
    { destruct (fabs_cases d) as [(H & ->)|(H & ->)]; destruct D as [D|D]; qlra. }
    rewrite F. split; qlra.
  - intros (H1 & H2). rewrite L. assert (F : d * d = fabs d * fabs d) by (destruct (fabs_cases d) as [(H & ->)|(H & ->)]; ring).
    rewrite F. set (x := fabs d) in *. clearbody x. clear F L. clearbody d. clear d. revert H1 EP ES. generalize eps. intros e H1 EP ES.
    assert (0 <= (x - (1 - e)) * (x + (1 - e))) by (apply qc_mul_nonneg; qlra).
    assert (0 <= e * e) by apply square_nonneg. qlra.
Qed.
Lemma parallel_2d_opposite a b : v2_is_parallel a b = true -> v2_is_parallel a (opp2 b) = false.
Proof.
  unfold v2_is_parallel. intros H. apply isclose_1 in H. destruct H as (H & _). apply bfalse. rewrite isclose_1. intros (K & _).
  pose proof eps_small. replace (dot2 a (opp2 b)) with (- dot2 a b) in K by (unfold dot2, opp2; cbn [fst snd]; ring). qlra.
Qed.

Lemma perp_true a b : vdot a b = 0 -> v3_is_perpendicular a b = true.
Proof. intros E. unfold v3_is_perpendicular. rewrite E. reflexivity. Qed.
Lemma perp_bound a b : v3_is_perpendicular a b = true <-> fabs (vdot a b) <= atol.
Proof. apply isclose_0. Qed.
Lemma perp_short a b : exists k, 0 < k /\ v3_is_perpendicular (vscale k a) b = true.
Proof.
  pose proof (fabs_nonneg (vdot a b)) as N. exists (atol / (fabs (vdot a b) + 1)).
  assert (P : 0 < fabs (vdot a b) + 1) by qlra.
  set (k := atol / (fabs (vdot a b) + 1)). assert (K : 0 < k) by (apply qc_div_pos; [exact atol_pos|exact P]).
  split; [exact K|]. apply perp_bound.
  replace (vdot (vscale k a) b) with (k * vdot a b) by (unfold vdot, vscale; cbn [vx vy vz]; ring).
  assert (E : k * (fabs (vdot a b) + 1) = atol).
  { assert (NZ : fabs (vdot a b) + 1 <> 0) by (intros C; rewrite C in P; discriminate P). unfold k. field. exact NZ. }
  clearbody k. set (d := vdot a b) in *. clearbody d.
  assert (F : fabs (k * d) = k * fabs d).
  { destruct (fabs_cases d) as [(H & ->)|(H & ->)]; destruct (fabs_cases (k * d)) as [(G & ->)|(G & ->)]; try ring.
    - exfalso. pose proof (qc_mul_nonneg k d). assert (0 <= k * d) by (apply H0; qlra). qlra.
    - assert (0 <= k * - d) by (apply qc_mul_nonneg; qlra). replace (k * - d) with (- (k * d)) in * by ring. qlra. }
  rewrite F. rewrite <- E. qlra.
Qed.

(* ---- matrices ---- *)

Ltac v3eq := apply v3_ext; cbn [vx vy vz]; try ring.
Lemma apply_compose a b v : affine4 b -> m4_apply (m4_matmul a b) v = m4_apply a (m4_apply b v).
Proof.
  intros (B & C). destruct b as [[b0 b1 b2] tb bb cb]. cbn in B, C. subst bb cb. destruct a as [[a0 a1 a2] ta ba ca].
  unfold m4_matmul, m4_transform, m4_apply, mm, mv, vm, madd_outer, col0, col1, col2, vdot, vadd, vscale, v30. cbn [lin trans bot corner r0 r1 r2 vx vy vz]. f_equal; ring.
Qed.
Lemma affine_compose a b : affine4 a -> affine4 b -> affine4 (m4_matmul a b).
Proof.
  intros (A & C) (B & D). destruct a as [[a0 a1 a2] ta ba ca]. destruct b as [[b0 b1 b2] tb bb cb]. cbn in A, B, C, D. subst.
  split; unfold m4_matmul, m4_transform, vm, vdot, vadd, vscale, v30; cbn [lin trans bot corner r0 r1 r2 vx vy vz col0 col1 col2].
  - f_equal; ring.
  - ring.
Qed.
Lemma apply_translation v p : m4_apply (v3_to_translation v) p = vadd p v.
Proof. unfold m4_apply, v3_to_translation, m4_set_translation, m4_identity, eye3, mv, vdot, vadd. cbn [lin trans r0 r1 r2 vx vy vz]. f_equal; ring. Qed.
Lemma apply_identity p : m4_apply m4_identity p = p.
Proof. destruct p as [a b c]. unfold m4_apply, m4_identity, eye3, mv, vdot, vadd. cbn [lin trans r0 r1 r2 vx vy vz]. f_equal; ring. Qed.
Lemma apply_compose2 a b v : affine3 b -> m3_apply (m3_transform a b) v = m3_apply a (m3_apply b v).
Proof.
  intros (B & C). destruct b as [b0 b1 tb bb cb]. cbn in B, C. subst bb cb. destruct a as [a0 a1 ta ba ca].
  unfold m3_transform, m3_apply, dot2. cbn [q0 q1 trans2 bot2 corner2 fst snd]. f_equal; ring.
Qed.
Lemma apply_translation2 v p : m3_apply (v2_to_translation v) p = (fst p + fst v, snd p + snd v).
Proof. unfold m3_apply, v2_to_translation, dot2. cbn [q0 q1 trans2 fst snd]. f_equal; ring. Qed.

Lemma frame_3d m o x y z :
  m4_get_coordinate_system (fst (m4_set_coordinate_system m o x y z)) =
  (v30, mkv (vx x) (vx y) (vx z), mkv (vy x) (vy y) (vy z), mkv (vz x) (vz y) (vz z)).
Proof. reflexivity. Qed.
Lemma frame_3d_same m o x y z :
  m4_get_coordinate_system (fst (m4_set_coordinate_system m o x y z)) = (o, x, y, z) <->
  o = v30 /\ vx y = vy x /\ vx z = vz x /\ vy z = vz y.
Proof.
  rewrite frame_3d. destruct x as [x1 x2 x3], y as [y1 y2 y3], z as [z1 z2 z3]. cbn [vx vy vz]. split.
  - intros E. pose proof (f_equal (fun q => fst (fst (fst q))) E) as E1. pose proof (f_equal (fun q => snd (fst (fst q))) E) as E2.
    pose proof (f_equal (fun q => snd (fst q)) E) as E3. cbn [fst snd] in E1, E2, E3.
    pose proof (f_equal vy E2) as E4. pose proof (f_equal vz E2) as E5. pose proof (f_equal vz E3) as E6. cbn [vy vz] in *. auto.
  - intros (-> & -> & -> & ->). reflexivity.
Qed.
Lemma frame_2d_same m o x y :
  m3_get_coordinate_system (fst (m3_set_coordinate_system m o x y)) = (o, x, y) <-> o = (0, 0) /\ fst y = snd x.
Proof.
  unfold m3_get_coordinate_system, m3_set_coordinate_system. cbn [fst snd q0 q1 trans2]. destruct x as [x1 x2], y as [y1 y2]. cbn [fst snd]. split.
  - intros E. pose proof (f_equal (fun q => fst (fst q)) E) as E1. pose proof (f_equal (fun q => snd (fst q)) E) as E2. cbn [fst snd] in E1, E2.
    apply (f_equal snd) in E2. cbn [snd] in E2. auto.
  - intros (-> & ->). reflexivity.
Qed.
Lemma align_3d m fo fx fy fz o tx ty tz :
  m4_align m fo fx fy fz o tx ty tz = (fst (m4_set_coordinate_system m o tx ty tz), Err ValueError).
Proof. reflexivity. Qed.
Lemma align_2d m fo fx fy o tx ty : m3_align m fo fx fy o tx ty = (fst (m3_set_coordinate_system m o tx ty), Err ValueError).
Proof. reflexivity. Qed.

Lemma two_mul0 (s x : Qc) : (1 + 1) * s * x = 0 -> s = 0 \/ x = 0.
Proof.
  intros E. apply Qcmult_integral in E. destruct E as [E|E]; [|auto]. apply Qcmult_integral in E. destruct E as [E|E]; [discriminate E|auto].
Qed.
Lemma rotation_2d_about m t o : is_angle t ->
  (m3_apply (fst (m3_set_to_rotation m t (Some o))) o = o <-> snd t = 0 \/ o = (0, 0)).
Proof.
  intros _. destruct t as [c s], o as [x y]. unfold m3_apply, m3_set_to_rotation, row_times, dot2. cbn [fst snd q0 q1 trans2]. split.
  - intros E. pose proof (f_equal fst E) as E1. pose proof (f_equal snd E) as E2. cbn [fst snd] in E1, E2.
    assert (F1 : (1 + 1) * s * y = 0) by (transitivity (x - (c * x + - s * y + (x - (x * c + y * s)))); [ring|rewrite E1; ring]).
    assert (F2 : (1 + 1) * s * x = 0) by (transitivity ((s * x + c * y + (y - (x * - s + y * c))) - y); [ring|rewrite E2; ring]).
    apply two_mul0 in F1. apply two_mul0 in F2. destruct F1 as [F1|F1], F2 as [F2|F2]; auto. right. subst. reflexivity.
  - intros [->|E]; [f_equal; ring|]. injection E. intros. pose proof (f_equal fst E) as E1. pose proof (f_equal snd E) as E2. cbn [fst snd] in E1, E2. subst. f_equal; ring.
Qed.
Lemma rotation_2d_zero m t v : m3_apply (fst (m3_set_to_rotation m t (Some (0, 0)))) v = turned t v.
Proof. destruct t as [c s], v as [x y]. unfold m3_apply, m3_set_to_rotation, row_times, dot2, turned. cbn [fst snd q0 q1 trans2]. f_equal; ring. Qed.
Lemma rotation_2d_none m t v : m3_apply (fst (m3_set_to_rotation m t None)) v = (fst (turned t v) + fst (trans2 m), snd (turned t v) + snd (trans2 m)).
Proof. destruct t as [c s], v as [x y]. unfold m3_apply, m3_set_to_rotation, dot2, turned. cbn [fst snd q0 q1 trans2]. f_equal; ring. Qed.
Lemma rotate_to_2d sqrt m f t : f <> (0, 0) -> t <> (0, 0) ->
  rooted sqrt (dot2 f t * dot2 f t + (fst f * snd t - snd f * fst t) * (fst f * snd t - snd f * fst t)) ->
  snd (m3_set_to_rotate_to sqrt m f t) = true /\
  exists k, 0 < k /\ m3_apply (fst (m3_set_to_rotate_to sqrt m f t)) f = (k * fst t, k * snd t) /\
    k * k * dot2 t t = dot2 f f.
Proof.
  intros NF NT (R0 & R). split; [reflexivity|]. unfold m3_set_to_rotate_to. cbn [fst].
  set (d := dot2 f t) in *. set (e := fst f * snd t - snd f * fst t) in *. set (n := sqrt (d * d + e * e)) in *.
  assert (Q : d * d + e * e = dot2 f f * dot2 t t) by (unfold d, e, dot2; ring).
  assert (PF : 0 < dot2 f f).
  { destruct f as [x y]. unfold dot2. cbn [fst snd]. pose proof (square_nonneg x). pose proof (square_nonneg y).
    destruct (Qclt_le_dec 0 (x * x + y * y)) as [L|L]; [exact L|exfalso]. assert (A : x * x = 0) by qlra. assert (B : y * y = 0) by qlra.
    apply Qcmult_integral in A. apply Qcmult_integral in B. apply NF. f_equal; tauto. }
  assert (PT : 0 < dot2 t t).
  { destruct t as [x y]. unfold dot2. cbn [fst snd]. pose proof (square_nonneg x). pose proof (square_nonneg y).
    destruct (Qclt_le_dec 0 (x * x + y * y)) as [L|L]; [exact L|exfalso]. assert (A : x * x = 0) by qlra. assert (B : y * y = 0) by qlra.
    apply Qcmult_integral in A. apply Qcmult_integral in B. apply NT. f_equal; tauto. }
  assert (PP : 0 < dot2 f f * dot2 t t) by (apply qc_mul_pos; assumption).
  assert (NZ : n <> 0) by (intros E; rewrite E, Q in R; replace (0 * 0) with 0 in R by ring; rewrite <- R in PP; discriminate PP).
  assert (NP : 0 < n) by (destruct (Qc_dec n 0) as [[L|L]|L]; [exfalso; qlra|exact L|contradiction]).
  rewrite (proj2 (qeq_false n 0) NZ), rotation_2d_zero. exists (dot2 f f / n).
  split; [apply qc_div_pos; assumption|]. split.
  - unfold turned. cbn [fst snd]. f_equal; unfold d, e, dot2; field; exact NZ.
  - transitivity (dot2 f f * (dot2 f f * dot2 t t) / (n * n)); [field; exact NZ|]. rewrite R, Q. field.
    split; intros E; [rewrite E in PT; discriminate PT|rewrite E in PF; discriminate PF].
Qed.

Lemma rotate_to_3d_far rotvec arccos m f t axis : above_tol (vcross f t) -> m4_set_to_rotate_to rotvec arccos m f t axis = (m, false).
Proof.
  intros H. unfold m4_set_to_rotate_to. replace (allclose0 (vcross f t)) with false; [reflexivity|]. symmetry. apply bfalse.
  unfold allclose0. rewrite !andb_true_iff, !isclose_0. intros ((A & B) & C). destruct H as [H|[H|H]]; qlra.
Qed.
Lemma vscale0 k : vscale k v30 = v30.
Proof. unfold vscale, v30. cbn [vx vy vz]. f_equal; ring. Qed.
Lemma mv_eye v : mv eye3 v = v.
Proof. destruct v as [a b c]. unfold mv, eye3, vdot. cbn [r0 r1 r2 vx vy vz]. f_equal; ring. Qed.
Lemma vcross_scaled f k : vcross f (vscale k f) = v30.
Proof. unfold vcross, vscale, v30. cbn [vx vy vz]. f_equal; ring. Qed.
Lemma rotate_to_3d_scaled rotvec arccos m f k : rotvec v30 = eye3 -> trans m = v30 ->
  snd (m4_set_to_rotate_to rotvec arccos m f (vscale k f) None) = true /\
  m4_apply (fst (m4_set_to_rotate_to rotvec arccos m f (vscale k f) None)) f = f.
Proof.
  intros E T. unfold m4_set_to_rotate_to. rewrite vcross_scaled. change (allclose0 v30) with true. cbv iota. split; [reflexivity|].
  cbn [fst]. unfold m4_apply. cbn [lin trans]. rewrite vscale0, E, mv_eye, T. destruct f as [a b c]. unfold vadd, v30. cbn [vx vy vz]. f_equal; ring.
Qed.
Lemma rotation_3d_about rotvec radians m angle axis o : isometry (rotvec (vscale (radians angle) axis)) ->
  (m4_apply (fst (m4_set_to_rotation rotvec radians m angle axis o)) o = o <-> o = v30).
Proof.
  intros ISO. unfold m4_set_to_rotation, m4_apply. cbn [fst lin trans]. set (R := rotvec _) in *. split.
  - intros E. assert (Z : mv R o = v30).
    { apply v3_ext; [apply (f_equal vx) in E|apply (f_equal vy) in E|apply (f_equal vz) in E]; unfold vadd in E; cbn [vx vy vz] in E; cbn [v30 vx vy vz]; qlra. }
    apply vdot_self0. rewrite <- ISO, Z. apply Qc_is_canon. reflexivity.
  - intros ->. unfold mv, vdot, vadd, v30. cbn [vx vy vz]. f_equal; ring.
Qed.
Lemma rotation_3d_zero rotvec radians m angle axis v :
  m4_apply (fst (m4_set_to_rotation rotvec radians m angle axis v30)) v = mv (rotvec (vscale (radians angle) axis)) v.
Proof. unfold m4_set_to_rotation, m4_apply. cbn [fst lin trans]. set (w := mv _ v). destruct w as [a b c]. unfold vadd, v30. cbn [vx vy vz]. f_equal; ring. Qed.

Lemma oc_run_same {A} (ops : list (op A)) : forall l, oc_run l ops = l.
Proof. induction ops as [|o r IH]; intros l; [reflexivity|]. cbn [oc_run]. rewrite IH. destruct o; reflexivity. Qed.
