(* Cylinders and tubes after any assignments; the gradient of a tube. *)
From Coq Require Import List ZArith Lia Bool QArith Qcanon.
From Verif Require Import Common ListLib QcLib ArrZ SumLib NurbsModel DerModel PlnModel PlnSpec PlnProofs2 PlnProofs4 PrmModel PrmSpec PrmProofs1 PrmProofs2.
Import ListNotations.
Local Open Scope Z_scope.
Local Open Scope Qc_scope.

Lemma fabs_le a b : fabs a <= b <-> - b <= a <= b.
Proof. unfold fabs. destruct (qlt a 0) eqn:E; [apply qlt_true in E|apply qlt_false in E]; split; [intro; split; qlra|intros [? ?]; qlra|intro; split; qlra|intros [? ?]; qlra]. Qed.
Lemma fabs_sym a b : fabs (a - b) = fabs (b - a).
Proof.
  unfold fabs. destruct (qlt (a - b) 0) eqn:E; destruct (qlt (b - a) 0) eqn:F;
  try apply qlt_true in E; try apply qlt_true in F; try apply qlt_false in E; try apply qlt_false in F; qlra.
Qed.
Lemma fabs_diff_sq a b : (fabs a - fabs b) * (fabs a - fabs b) <= (a - b) * (a - b).
Proof.
  replace ((fabs a - fabs b) * (fabs a - fabs b)) with (fabs a * fabs a + fabs b * fabs b - (1 + 1) * (fabs a * fabs b)) by ring.
  rewrite !fabs_sq. replace ((a - b) * (a - b)) with (a * a + b * b - (1 + 1) * (a * b)) by ring.
  assert (a * b <= fabs a * fabs b); [|qlra].
  unfold fabs. destruct (qlt a 0) eqn:E; destruct (qlt b 0) eqn:F;
  try apply qlt_true in E; try apply qlt_true in F; try apply qlt_false in E; try apply qlt_false in F; qnra.
Qed.

Lemma line_distance_sq s e p n : s <> e -> line_distance s e p n -> is_sqrt n (dot3 (perp s (minus3 e s) p) (perp s (minus3 e s) p)).
Proof.
  intros N (P & (t & T) & M). split; [auto|]. apply dd_nz in N.
  pose proof (perp_min s (minus3 e s) p t N) as L. rewrite <- T in L. pose proof (M (fpar s (minus3 e s) p)) as L'. rewrite <- perp_dist in L'.
  apply Qcle_antisym; auto.
Qed.

Section P.
Variable sqrt : Qc -> Qc.

Lemma same_ends_dd s : dot3 (minus3 s s) (minus3 s s) = 0.
Proof. v3d. ring. Qed.

Lemma icyl_at_distance s e r t l p n : let c := run_icyl sqrt (icyl_init sqrt s e r t) l in
  last_start s l <> last_end e l -> line_distance (last_start s l) (last_end e l) p n -> exact_sqrt sqrt (n * n) ->
  icyl_implicit sqrt c p = Ok (match t with None => n - last_radius r l | Some t => fabs (n - last_radius r l) - t / (1 + 1) end).
Proof.
  cbv zeta. rewrite run_icyl_eq. set (S := last_start s l). set (E := last_end e l). set (R := last_radius r l). clearbody S E R.
  intros N D H. pose proof (line_distance_sq _ _ _ _ N D) as [P Q].
  assert (X : sqrt (dot3 (perp S (minus3 E S) p) (perp S (minus3 E S) p)) = n).
  { rewrite <- Q. apply (is_sqrt_unique _ _ (n * n)); [exact H|split; auto]. }
  apply dd_nz in N. unfold icyl_implicit, icyl_init, calc_bounds, calc_direction. cbn [c_t c_o c_e c_d c_r c_b]. destruct t as [t|].
  - rewrite tube_implicit_eq by exact N. cbn [c_t c_o c_e c_d c_r c_b]. rewrite vsub_minus, X, two_eq, fabs_sym. reflexivity.
  - rewrite cyl_implicit_eq by exact N. cbn [c_t c_o c_e c_d c_r c_b]. rewrite vsub_minus, X. reflexivity.
Qed.
Lemma icyl_degenerate s e r t l p : let c := run_icyl sqrt (icyl_init sqrt s e r t) l in
  last_start s l = last_end e l -> icyl_implicit sqrt c p = Err ZeroDivision /\ icyl_gradient sqrt c p = Err ZeroDivision /\ c_b c = None.
Proof.
  cbv zeta. rewrite run_icyl_eq. intro E. rewrite E. set (S := last_end e l). set (R := last_radius r l). clearbody S R.
  unfold icyl_implicit, icyl_gradient, icyl_init, calc_bounds, calc_direction. cbn [c_t c_o c_e c_d c_r c_b]. rewrite vsub_minus.
  pose proof (same_ends_dd S) as Z.
  split; [|split].
  - destruct t as [t|].
    + unfold tube_implicit. cbn [c_d c_o c_r]. rewrite bn_eq, Z, divR_zero_. reflexivity.
    + unfold cyl_implicit. rewrite normal_zero by exact Z. reflexivity.
  - destruct t as [t|].
    + unfold tube_gradient. cbn [c_d c_o c_r]. rewrite bn_eq, Z, divR_zero_. reflexivity.
    + unfold cyl_gradient. rewrite normal_zero by exact Z. reflexivity.
  - unfold cylinder_aabb. change (vx (minus3 S S) * vx (minus3 S S) + vy (minus3 S S) * vy (minus3 S S) + vz (minus3 S S) * vz (minus3 S S))
    with (dot3 (minus3 S S) (minus3 S S)). rewrite Z. reflexivity.
Qed.

Lemma icyl_bounds_tight s e r t l : let c := run_icyl sqrt (icyl_init sqrt s e r t) l in
  let R := last_radius r l + match t with None => 0 | Some t => t / (1 + 1) end in
  last_start s l <> last_end e l -> 0 <= R -> aabb_roots sqrt (last_start s l) (last_end e l) ->
  exists b, c_b c = Some b /\ tight b (solid (last_start s l) (last_end e l) R).
Proof.
  cbv zeta. rewrite run_icyl_eq. set (S := last_start s l). set (E := last_end e l). set (R := last_radius r l). clearbody S E R.
  intros N H K. unfold icyl_init, calc_bounds, calc_direction. cbn [c_t c_o c_e c_d c_r c_b]. rewrite vsub_minus.
  replace (match t with Some t0 => R + t0 / two | None => R end) with (R + match t with Some t0 => t0 / (1 + 1) | None => 0 end).
  - apply cylinder_aabb_tight; auto.
  - destruct t; [rewrite two_eq; reflexivity|ring].
Qed.

(* ---- gradient of a cylinder ---- *)
Lemma perp_zero_axis o d p : dot3 (perp o d p) (perp o d p) = 0 -> perp o d p = zero3.
Proof. apply dot_self_zero. Qed.

Lemma cyl_gradient_spec s e r l p n : let c := run_icyl sqrt (icyl_init sqrt s e r None) l in
  last_start s l <> last_end e l -> line_distance (last_start s l) (last_end e l) p n -> exact_sqrt sqrt (n * n) ->
  (n = 0 -> icyl_gradient sqrt c p = Err ZeroDivision) /\
  (n <> 0 -> exists g, icyl_gradient sqrt c p = Ok g /\ dot3 g g = 1 /\ dot3 g (minus3 (last_end e l) (last_start s l)) = 0 /\
     (forall m, 0 <= m -> line_distance (last_start s l) (last_end e l) (along p (m - n) g) m)).
Proof.
  cbv zeta. rewrite run_icyl_eq. set (S := last_start s l). set (E := last_end e l). set (R := last_radius r l). clearbody S E R.
  intros N D H. pose proof (line_distance_sq _ _ _ _ N D) as [P Q]. pose proof (dd_nz _ _ N) as DD.
  pose proof (perp_orth S (minus3 E S) p DD) as O.
  unfold icyl_gradient, icyl_init, calc_bounds, calc_direction. cbn [c_t c_o c_e c_d c_r c_b]. rewrite vsub_minus.
  unfold cyl_gradient. rewrite normal_ok by exact DD. cbn [bind c_d c_o]. set (w := perp S (minus3 E S) p) in *.
  assert (X : sqrt (dot3 w w) = n). { rewrite <- Q. apply (is_sqrt_unique _ _ (n * n)); [exact H|split; auto]. }
  split.
  - intro Z. rewrite norm3d_eq, X, Z. reflexivity.
  - intro NZ. assert (W0 : w <> zero3). { intro K. apply NZ. rewrite K in Q. apply sq_zero. rewrite Q. v3d. ring. }
    destruct (unit_ok sqrt w W0) as (g & G & U & _ & A & B & C). { rewrite X. split; auto. }
    rewrite norm3d_eq, X in A, B, C. exists g. split; [exact G|]. split; [exact U|].
    assert (OG : dot3 g (minus3 E S) = 0).
    { apply (mul_zero n); auto. rewrite <- O. unfold dot3. rewrite A, B, C. ring. }
    split; [exact OG|]. intros m M. apply line_distance_perp; auto. split; [auto|].
    assert (PP : perp S (minus3 E S) (along p (m - n) g) = along zero3 m g).
    { assert (FP : fpar S (minus3 E S) (along p (m - n) g) = fpar S (minus3 E S) p).
      { unfold fpar. f_equal. transitivity (dot3 (minus3 p S) (minus3 E S) + (m - n) * dot3 g (minus3 E S)); [clear; v3d; ring|rewrite OG; ring]. }
      unfold perp. rewrite FP. unfold w, perp in A, B, C. set (q := along S (fpar S (minus3 E S) p) (minus3 E S)) in *.
      cbn [minus3 vx vy vz] in A, B, C.
      apply v3_ext; unfold minus3, along, zero3; cbn [vx vy vz].
      - transitivity (vx p - vx q + (m - n) * vx g); [ring|rewrite A; ring].
      - transitivity (vy p - vy q + (m - n) * vy g); [ring|rewrite B; ring].
      - transitivity (vz p - vz q + (m - n) * vz g); [ring|rewrite C; ring]. }
    rewrite PP. transitivity (m * m * dot3 g g); [rewrite U; ring|clear; v3d; ring].
Qed.

(* ---- distances do not change faster than the point moves ---- *)
Lemma perp_contract o d p q : dot3 d d <> 0 -> dot3 (minus3 (perp o d p) (perp o d q)) (minus3 (perp o d p) (perp o d q)) <= dist2 p q.
Proof.
  intro N. set (k := dot3 (minus3 p q) d / dot3 d d).
  assert (E : minus3 (perp o d p) (perp o d q) = along (minus3 p q) (- k) d).
  { assert (K : fpar o d p - fpar o d q = k).
    { unfold k, fpar. transitivity ((dot3 (minus3 p o) d - dot3 (minus3 q o) d) / dot3 d d); [field; auto|]. f_equal. v3d. ring. }
    rewrite <- K. apply v3_ext; unfold perp; set (a := fpar o d p); set (b := fpar o d q); clearbody a b; v3d; ring. }
  rewrite E. unfold dist2.
  assert (F : dot3 (along (minus3 p q) (- k) d) (along (minus3 p q) (- k) d) = dot3 (minus3 p q) (minus3 p q) - k * k * dot3 d d).
  { transitivity (dot3 (minus3 p q) (minus3 p q) - (1 + 1) * k * dot3 (minus3 p q) d + k * k * dot3 d d).
    - clearbody k. clear. v3d. ring.
    - assert (G : dot3 (minus3 p q) d = k * dot3 d d) by (unfold k; field; auto). rewrite G. ring. }
  rewrite F. pose proof (dot_self_nonneg d) as D. pose proof (sq_nonneg k) as S. pose proof (qc_mul_nonneg _ _ S D). qlra.
Qed.
Lemma line_distance_lipschitz s e p q m n : s <> e -> line_distance s e p m -> line_distance s e q n -> (m - n) * (m - n) <= dist2 p q.
Proof.
  intros N P Q. apply line_distance_sq in P; auto. apply line_distance_sq in Q; auto.
  eapply Qcle_trans; [apply (triangle _ _ _ _ P Q)|]. apply perp_contract, dd_nz; auto.
Qed.
Lemma icyl_lipschitz s e r t l p q m n : let c := run_icyl sqrt (icyl_init sqrt s e r t) l in
  last_start s l <> last_end e l -> line_distance (last_start s l) (last_end e l) p m -> line_distance (last_start s l) (last_end e l) q n ->
  exact_sqrt sqrt (m * m) -> exact_sqrt sqrt (n * n) ->
  exists a b, icyl_implicit sqrt c p = Ok a /\ icyl_implicit sqrt c q = Ok b /\ (a - b) * (a - b) <= dist2 p q.
Proof.
  cbv zeta. intros N P Q Hm Hn.
  pose proof (icyl_at_distance s e r t l p m N P Hm) as A. pose proof (icyl_at_distance s e r t l q n N Q Hn) as B.
  cbv zeta in A, B. pose proof (line_distance_lipschitz _ _ _ _ _ _ N P Q) as L.
  eexists. eexists. split; [exact A|]. split; [exact B|]. set (R := last_radius r l) in *. clearbody R. clear A B.
  destruct t as [t|].
  - pose proof (fabs_diff_sq (m - R) (n - R)) as F.
    replace ((m - R - (n - R)) * (m - R - (n - R))) with ((m - n) * (m - n)) in F by ring.
    eapply Qcle_trans; [|exact L]. eapply Qcle_trans; [|exact F].
    match goal with |- ?x <= ?y => replace x with y by ring end. apply Qcle_refl.
  - match goal with |- ?x <= _ => replace x with ((m - n) * (m - n)) by ring end. exact L.
Qed.

(* ---- the shape is infinite ---- *)
Lemma leaves_box (b : box) p d : d <> zero3 -> exists k, ~ in_box b (along p k d).
Proof.
  intro N. destruct (Qc_eq_dec (vx d) 0) as [X|X]; [destruct (Qc_eq_dec (vy d) 0) as [Y|Y]; [destruct (Qc_eq_dec (vz d) 0) as [Z|Z]|]|].
  - exfalso. apply N. apply v3_ext; auto.
  - exists ((vz (snd b) - vz p + 1) / vz d). intros (_ & _ & _ & H). unfold along in H. cbn [vx vy vz] in H.
    replace (vz p + (vz (snd b) - vz p + 1) / vz d * vz d) with (vz (snd b) + 1) in H by (field; auto). qlra.
  - exists ((vy (snd b) - vy p + 1) / vy d). intros (_ & (_ & H) & _). unfold along in H. cbn [vx vy vz] in H.
    replace (vy p + (vy (snd b) - vy p + 1) / vy d * vy d) with (vy (snd b) + 1) in H by (field; auto). qlra.
  - exists ((vx (snd b) - vx p + 1) / vx d). intros ((_ & H) & _). unfold along in H. cbn [vx vy vz] in H.
    replace (vx p + (vx (snd b) - vx p + 1) / vx d * vx d) with (vx (snd b) + 1) in H by (field; auto). qlra.
Qed.
Lemma perp_shift o d p k : dot3 d d <> 0 -> perp o d (along p k d) = perp o d p.
Proof.
  intro N. assert (F : fpar o d (along p k d) = fpar o d p + k).
  { unfold fpar. transitivity ((dot3 (minus3 p o) d + k * dot3 d d) / dot3 d d); [f_equal; v3d; ring|field; auto]. }
  unfold perp. rewrite F. set (a := fpar o d p). clearbody a. apply v3_ext; v3d; ring.
Qed.
Lemma icyl_infinite s e r t b p : s <> e -> exists q, ~ in_box b q /\
  icyl_implicit sqrt (icyl_init sqrt s e r t) q = icyl_implicit sqrt (icyl_init sqrt s e r t) p.
Proof.
  intro N. pose proof (dd_nz _ _ N) as D.
  assert (D0 : minus3 e s <> zero3). { intro K. apply D. rewrite K. v3d. ring. }
  destruct (leaves_box b p (minus3 e s) D0) as (k & K). exists (along p k (minus3 e s)). split; [exact K|].
  unfold icyl_implicit, icyl_init, calc_bounds, calc_direction. cbn [c_t c_o c_e c_d c_r c_b]. rewrite vsub_minus. destruct t as [t|].
  - rewrite !tube_implicit_eq by exact D. cbn [c_o c_d c_r]. rewrite perp_shift by exact D. reflexivity.
  - rewrite !cyl_implicit_eq by exact D. cbn [c_o c_d c_r]. rewrite perp_shift by exact D. reflexivity.
Qed.

(* ---- the gradient of a tube ---- *)
Lemma central_tube c t p e : dot3 (c_d c) (c_d c) <> 0 -> 
  central (tube_implicit sqrt c t) p e = Ok (five00 * (
    fabs (c_r c - sqrt (dot3 (perp (c_o c) (c_d c) (vadd p e)) (perp (c_o c) (c_d c) (vadd p e)))) -
    fabs (c_r c - sqrt (dot3 (perp (c_o c) (c_d c) (vsub p e)) (perp (c_o c) (c_d c) (vsub p e)))))).
Proof.
  intro N. unfold central. rewrite !tube_implicit_eq by auto. cbn [bind]. f_equal.
  set (a := fabs _). set (b := fabs _). set (u := t / two). clearbody a b u.
  assert (E : five00 * two * h3 = 1) by (apply Qc_is_canon; reflexivity).
  transitivity (five00 * two * h3 * ((a - u - (b - u)) / two / h3)); [rewrite E; ring|]. field. split; [apply two_nz|apply h3_nz].
Qed.

Lemma tube_gradient_spec s e r t p : s <> e -> let c := icyl_init sqrt s e r (Some t) in
  exists gx gy gz, icyl_gradient sqrt c p = Ok (mkv gx gy gz) /\
    central (icyl_implicit sqrt c) p (mkv h3 0 0) = Ok gx /\ central (icyl_implicit sqrt c) p (mkv 0 h3 0) = Ok gy /\
    central (icyl_implicit sqrt c) p (mkv 0 0 h3) = Ok gz.
Proof.
  intros N. cbv zeta. apply dd_nz in N. unfold icyl_implicit, icyl_gradient, icyl_init, calc_bounds, calc_direction.
  cbn [c_t c_o c_e c_d c_r c_b]. rewrite vsub_minus. set (c := mkcyl _ _ _ _ _ _).
  change (central (fun p0 => tube_implicit sqrt c t p0)) with (central (tube_implicit sqrt c t)).
  rewrite !central_tube by exact N. unfold tube_gradient. rewrite bn_eq. rewrite divR_ok_ by exact N. cbn [bind].
  eexists. eexists. eexists. split; [reflexivity|].
  change (c_r c) with r. change (c_d c) with (minus3 e s). change (c_o c) with s. clear c.
  assert (G : forall a b a' b', a = a' -> b = b' -> five00 * (fabs (r - sqrt a) - fabs (r - sqrt b)) =
     - five00 * fabs (r - sqrt b') + five00 * fabs (r - sqrt a')) by (intros; subst; ring).
  assert (G' : forall a b a' b', a = a' -> b = b' -> five00 * (fabs (r - sqrt a) - fabs (r - sqrt b)) =
     five00 * fabs (r - sqrt a') - five00 * fabs (r - sqrt b')) by (intros; subst; ring).
  set (d := minus3 e s) in *. clearbody d.
  assert (N' : vx d * vx d + vy d * vy d + vz d * vz d <> 0) by exact N.
  set (h := h3). clearbody h.
  split; [|split]; f_equal.
  - apply G; unfold perp, fpar, sq2, dot3, minus3, along, vadd, vsub; cbn [vx vy vz]; field; exact N'.
  - apply G'; unfold perp, fpar, sq2, dot3, minus3, along, vadd, vsub; cbn [vx vy vz]; field; exact N'.
  - apply G'; unfold perp, fpar, sq2, dot3, minus3, along, vadd, vsub; cbn [vx vy vz]; field; exact N'.
Qed.

(* half way through the wall the gradient vanishes *)
Lemma tube_gradient_mid s k r t z : k <> 0 -> h3 <= r -> exact_sqrt sqrt ((r + h3) * (r + h3)) -> exact_sqrt sqrt ((r - h3) * (r - h3)) ->
  icyl_gradient sqrt (icyl_init sqrt s (mkv (vx s) (vy s) (vz s + k)) r (Some t)) (mkv (vx s + r) (vy s) z) = Ok zero3.
Proof.
  intros K H S1 S2. set (e := mkv (vx s) (vy s) (vz s + k)). set (p := mkv (vx s + r) (vy s) z).
  assert (N : s <> e). { intro E. apply K. apply v3_inv in E. destruct E as (_ & _ & E). unfold e in E. cbn [vz] in E. qlra. }
  destruct (tube_gradient_spec s e r t p N) as (gx & gy & gz & G & X & Y & Z). rewrite G. f_equal.
  unfold icyl_implicit, icyl_init, calc_bounds, calc_direction in X, Y, Z. cbn [c_t c_o c_e c_d c_r c_b] in X, Y, Z. 
  set (c := mkcyl _ _ _ _ _ _) in X, Y, Z.
  change (central (fun p0 => tube_implicit sqrt c t p0)) with (central (tube_implicit sqrt c t)) in X, Y, Z.
  assert (D : dot3 (c_d c) (c_d c) <> 0) by (unfold c; cbn [c_d]; rewrite vsub_minus; apply dd_nz; auto).
  rewrite central_tube in X by exact D. rewrite central_tube in Y by exact D. rewrite central_tube in Z by exact D.
  change (c_r c) with r in *. change (c_d c) with (vsub e s) in *. change (c_o c) with s in *.
  assert (PP : forall a b w, perp s (vsub e s) (mkv (vx s + a) (vy s + b) w) = mkv a b 0).
  { intros a b w. assert (F : fpar s (vsub e s) (mkv (vx s + a) (vy s + b) w) = (w - vz s) / k).
    { unfold fpar. transitivity (k * (w - vz s) / (k * k)).
      - f_equal; unfold e; v3d; ring.
      - field. auto. }
    unfold perp. rewrite F. apply v3_ext; unfold e, minus3, along, vsub; cbn [vx vy vz]; try ring. field. auto. }
  assert (P0 : forall u v w, vadd p (mkv u v w) = mkv (vx s + (r + u)) (vy s + v) (z + w)).
  { intros. apply v3_ext; unfold p, vadd; cbn [vx vy vz]; ring. }
  assert (P1 : forall u v w, vsub p (mkv u v w) = mkv (vx s + (r - u)) (vy s + - v) (z - w)).
  { intros. apply v3_ext; unfold p, vsub; cbn [vx vy vz]; ring. }
  rewrite P0, P1, !PP in X, Y, Z.
  assert (RR : 0 <= r - h3) by qlra. pose proof h3_pos as HP.
  apply v3_ext; cbn [vx vy vz zero3].
  - assert (E1 : dot3 (mkv (r + h3) 0 0) (mkv (r + h3) 0 0) = (r + h3) * (r + h3)) by (unfold dot3; cbn [vx vy vz]; ring).
    assert (E2 : dot3 (mkv (r - h3) (- 0) 0) (mkv (r - h3) (- 0) 0) = (r - h3) * (r - h3)) by (unfold dot3; cbn [vx vy vz]; ring).
    rewrite E1, E2 in X.
    assert (Q1 : sqrt ((r + h3) * (r + h3)) = r + h3) by (apply (is_sqrt_unique _ _ ((r + h3) * (r + h3))); auto; split; auto; qlra).
    assert (Q2 : sqrt ((r - h3) * (r - h3)) = r - h3) by (apply (is_sqrt_unique _ _ ((r - h3) * (r - h3))); auto; split; auto).
    rewrite Q1, Q2 in X. injection X as <-. replace (r - (r + h3)) with (- h3) by ring. replace (r - (r - h3)) with h3 by ring.
    unfold fabs. assert (L1 : qlt (- h3) 0 = true) by reflexivity. assert (L2 : qlt h3 0 = false) by reflexivity. rewrite L1, L2. ring.
  - assert (E : dot3 (mkv (r + 0) h3 0) (mkv (r + 0) h3 0) = dot3 (mkv (r - 0) (- h3) 0) (mkv (r - 0) (- h3) 0)) by (unfold dot3; cbn [vx vy vz]; ring).
    rewrite E in Y. injection Y as <-. ring.
  - assert (E : dot3 (mkv (r + 0) 0 0) (mkv (r + 0) 0 0) = dot3 (mkv (r - 0) (- 0) 0) (mkv (r - 0) (- 0) 0)) by (unfold dot3; cbn [vx vy vz]; ring).
    rewrite E in Z. injection Z as <-. ring.
Qed.
End P.
