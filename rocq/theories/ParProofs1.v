(* Derivatives by the definition with limits; cubic curves, bilinear and ruled surfaces. *)
From Coq Require Import List ZArith Lia Bool QArith Qcanon.
From Verif Require Import Common ListLib QcLib ArrZ SumLib NurbsModel DerModel PlnModel PlnSpec PlnProofs2 PlnProofs4 ParModel ParSpec.
Import ListNotations.
Local Open Scope Z_scope.
Local Open Scope Qc_scope.

Lemma fabs_cases x : (0 <= x /\ fabs x = x) \/ (x < 0 /\ fabs x = - x).
Proof. unfold fabs. destruct (qlt x 0) eqn:E; [right; apply qlt_true in E|left; apply qlt_false in E]; auto. Qed.
Lemma fabs_mul a b : fabs (a * b) = fabs a * fabs b.
Proof.
  destruct (fabs_cases a) as [[A ->]|[A ->]], (fabs_cases b) as [[B ->]|[B ->]], (fabs_cases (a * b)) as [[C ->]|[C ->]]; try ring.
  - pose proof (qc_mul_nonneg _ _ A B). qlra.
  - assert (0 <= a * - b) by (apply qc_mul_nonneg; qlra). qlra.
  - assert (0 <= b * - a) by (apply qc_mul_nonneg; qlra). qlra.
  - assert (0 <= (- a) * (- b)) by (apply qc_mul_nonneg; qlra). qlra.
Qed.
Lemma fabs_add a b : fabs (a + b) <= fabs a + fabs b.
Proof.
  destruct (fabs_cases a) as [[A ->]|[A ->]], (fabs_cases b) as [[B ->]|[B ->]], (fabs_cases (a + b)) as [[C ->]|[C ->]]; qlra.
Qed.
Lemma fabs_pos a : 0 <= fabs a. Proof. apply fabs_nonneg. Qed.
Lemma fabs_0 : fabs 0 = 0. Proof. reflexivity. Qed.
Lemma fabs_zero a : fabs a = 0 -> a = 0.
Proof. destruct (fabs_cases a) as [[A ->]|[A ->]]; intro; qlra. Qed.

Lemma small (a M : Qc) : 0 < a -> 0 <= M -> exists d, 0 < d /\ d <= 1 /\ d * M <= a.
Proof.
  intros A P. assert (P1 : 0 < M + 1) by qlra. assert (NZ : M + 1 <> 0) by (intro K; rewrite K in P1; discriminate P1).
  destruct (Qclt_le_dec (a / (M + 1)) 1) as [L|L].
  - exists (a / (M + 1)). split; [apply qc_div_pos; auto|]. split; [qlra|].
    assert (E : a / (M + 1) * (M + 1) = a) by (field; exact NZ).
    assert (0 < a / (M + 1)) by (apply qc_div_pos; auto). qlra.
  - exists 1. split; [reflexivity|]. split; [apply Qcle_refl|].
    assert (E : a = a / (M + 1) * (M + 1)) by (field; exact NZ).
    assert (0 <= (a / (M + 1) - 1) * (M + 1)) by (apply qc_mul_nonneg; qlra). qlra.
Qed.

Lemma deriv_ext f g t d : (forall x, f x = g x) -> deriv f t d -> deriv g t d.
Proof.
  intros E H eps P. destruct (H eps P) as (de & D & K). exists de. split; [auto|]. intros h Hh. rewrite <- !E. auto.
Qed.
(* a bounded remainder of second order *)
Lemma deriv_taylor f t d (r : Qc -> Qc) M : 0 <= M -> (forall h, f (t + h) = f t + h * d + h * h * r h) ->
  (forall h, fabs h <= 1 -> fabs (r h) <= M) -> deriv f t d.
Proof.
  intros P E B eps He. destruct (small eps M He P) as (de & D & D1 & DM). exists de. split; [auto|]. intros h Hh.
  replace (f (t + h) - f t - h * d) with (h * (h * r h)) by (rewrite E; ring). rewrite !fabs_mul.
  assert (R : fabs (r h) <= M) by (apply B; qlra). pose proof (fabs_pos h) as F. pose proof (fabs_pos (r h)) as G.
  assert (X : fabs h * fabs (r h) <= eps).
  { assert (0 <= fabs h * (M - fabs (r h))) by (apply qc_mul_nonneg; qlra).
    assert (0 <= (de - fabs h) * M) by (apply qc_mul_nonneg; qlra). qlra. }
  assert (0 <= fabs h * (eps - fabs h * fabs (r h))) by (apply qc_mul_nonneg; qlra). qlra.
Qed.
Lemma deriv_lin f g t a b d e : deriv f t d -> deriv g t e -> deriv (fun x => a * f x + b * g x) t (a * d + b * e).
Proof.
  intros F G eps P.
  pose proof (fabs_pos a) as PA. pose proof (fabs_pos b) as PB.
  destruct (small (eps / (1 + 1)) (fabs a)) as (ea & Ea & _ & Ea'); [apply qc_div_pos; auto; reflexivity|auto|].
  destruct (small (eps / (1 + 1)) (fabs b)) as (eb & Eb & _ & Eb'); [apply qc_div_pos; auto; reflexivity|auto|].
  destruct (F ea Ea) as (d1 & D1 & K1). destruct (G eb Eb) as (d2 & D2 & K2).
  assert (MD : exists m, 0 < m /\ m <= d1 /\ m <= d2).
  { destruct (Qclt_le_dec d1 d2); [exists d1|exists d2]; repeat split; auto; try apply Qcle_refl; qlra. }
  destruct MD as (m & M0 & M1 & M2). exists m. split; [auto|]. intros h Hh.
  specialize (K1 h ltac:(qlra)). specialize (K2 h ltac:(qlra)).
  set (x := f (t + h) - f t - h * d) in *. set (y := g (t + h) - g t - h * e) in *.
  replace (a * f (t + h) + b * g (t + h) - (a * f t + b * g t) - h * (a * d + b * e)) with (a * x + b * y) by (unfold x, y; ring).
  eapply Qcle_trans; [apply fabs_add|]. rewrite !fabs_mul. pose proof (fabs_pos h) as PH. clearbody x y.
  assert (EE : eps = eps / (1 + 1) + eps / (1 + 1)) by (field; discriminate).
  set (e2 := eps / (1 + 1)) in *. clearbody e2. subst eps.
  assert (0 <= fabs a * (ea * fabs h - fabs x)) by (apply qc_mul_nonneg; qlra).
  assert (0 <= fabs b * (eb * fabs h - fabs y)) by (apply qc_mul_nonneg; qlra).
  assert (0 <= fabs h * (e2 - ea * fabs a)) by (apply qc_mul_nonneg; qlra).
  assert (0 <= fabs h * (e2 - eb * fabs b)) by (apply qc_mul_nonneg; qlra). qlra.
Qed.
Lemma deriv_affine f t L c d : deriv f (t * L + c) d -> deriv (fun x => f (x * L + c)) t (L * d).
Proof.
  intros F eps P. pose proof (fabs_pos L) as PL.
  destruct (small eps (fabs L) P PL) as (e & E & _ & E').
  destruct (F e E) as (d1 & D1 & K).
  destruct (small (d1 / (1 + 1)) (fabs L)) as (m & M & _ & M'); [apply qc_div_pos; auto; reflexivity|auto|].
  assert (DD : d1 / (1 + 1) < d1). { assert (EE : d1 = d1 / (1 + 1) + d1 / (1 + 1)) by (field; discriminate). assert (0 < d1 / (1 + 1)) by (apply qc_div_pos; auto; reflexivity). qlra. }
  exists m. split; [auto|]. intros h Hh. pose proof (fabs_pos h) as PH.
  assert (X : fabs (h * L) < d1). { rewrite fabs_mul. assert (0 <= (m - fabs h) * fabs L) by (apply qc_mul_nonneg; qlra). qlra. }
  specialize (K (h * L) X). replace ((t + h) * L + c) with (t * L + c + h * L) by ring.
  replace (h * (L * d)) with (h * L * d) by ring. eapply Qcle_trans; [exact K|]. rewrite fabs_mul.
  assert (0 <= fabs h * (eps - e * fabs L)) by (apply qc_mul_nonneg; qlra). qlra.
Qed.
Lemma deriv_unique f t d e : deriv f t d -> deriv f t e -> d = e.
Proof.
  intros F G. destruct (Qc_eq_dec d e) as [E|N]; auto. exfalso.
  set (k := fabs (d - e)). assert (K : 0 < k).
  { unfold k. pose proof (fabs_pos (d - e)). destruct (Qclt_le_dec 0 (fabs (d - e))); auto. exfalso. apply N. assert (Z : fabs (d - e) = 0) by qlra. apply fabs_zero in Z. qlra. }
  set (ep := k / (1 + 1 + 1 + 1)). assert (P : 0 < ep) by (apply qc_div_pos; auto; reflexivity).
  destruct (F ep P) as (d1 & D1 & K1). destruct (G ep P) as (d2 & D2 & K2).
  assert (MD : exists m, 0 < m /\ m < d1 /\ m < d2).
  { assert (HH : forall x, 0 < x -> 0 < x / (1 + 1) /\ x / (1 + 1) < x).
    { intros x X. assert (0 < x / (1 + 1)) by (apply qc_div_pos; auto; reflexivity). split; auto. assert (EE : x = x / (1 + 1) + x / (1 + 1)) by (field; discriminate). qlra. }
    destruct (HH _ D1), (HH _ D2).
    destruct (Qclt_le_dec (d1 / (1 + 1)) (d2 / (1 + 1))); [exists (d1 / (1 + 1))|exists (d2 / (1 + 1))]; repeat split; auto; qlra. }
  destruct MD as (m & M0 & M1 & M2). assert (FM : fabs m = m) by (destruct (fabs_cases m) as [[? ?]|[? ?]]; auto; qlra).
  specialize (K1 m ltac:(rewrite FM; auto)). specialize (K2 m ltac:(rewrite FM; auto)). rewrite FM in *.
  set (x := f (t + m) - f t) in *. clearbody x.
  assert (T : fabs (m * (d - e)) <= ep * m + ep * m).
  { replace (m * (d - e)) with ((x - m * e) + (- (1)) * (x - m * d)) by ring.
    eapply Qcle_trans; [apply fabs_add|]. rewrite (fabs_mul (- (1))). change (fabs (- (1))) with 1. qlra. }
  rewrite fabs_mul, FM in T. fold k in T.
  assert (EE : k = ep + ep + ep + ep) by (unfold ep; field; discriminate).
  assert (0 < m * ep) by (apply qc_mul_pos; auto). rewrite EE in T. qlra.
Qed.

Lemma vderiv_unique f t d e : vderiv f t d -> vderiv f t e -> d = e.
Proof. intros (A & B & C) (A' & B' & C'). apply v3_ext; [apply (deriv_unique _ _ _ _ A A')|apply (deriv_unique _ _ _ _ B B')|apply (deriv_unique _ _ _ _ C C')]. Qed.
Lemma vderiv_ext f g t d : (forall x, f x = g x) -> vderiv f t d -> vderiv g t d.
Proof. intros E (A & B & C). split; [|split]; [apply (deriv_ext (fun x => vx (f x)))|apply (deriv_ext (fun x => vy (f x)))|apply (deriv_ext (fun x => vz (f x)))]; auto; intro; cbn beta; rewrite E; auto. Qed.

(* ---- polynomials ---- *)
Lemma deriv_poly f t d a b : (forall h, f (t + h) = f t + h * d + h * h * (a + b * h)) -> deriv f t d.
Proof.
  intro E. pose proof (fabs_pos a) as PA. pose proof (fabs_pos b) as PB.
  apply (deriv_taylor f t d (fun h => a + b * h) (fabs a + fabs b)); [qlra|exact E|].
  intros h Hh. eapply Qcle_trans; [apply fabs_add|]. rewrite fabs_mul.
  assert (0 <= fabs b * (1 - fabs h)) by (apply qc_mul_nonneg; qlra). qlra.
Qed.
Lemma quadratic_deriv a b c t : vderiv (quadratic a b c) t (quadratic' a b c t).
Proof.
  split; [|split]; unfold quadratic, quadratic'; cbn [vadd vscale vx vy vz];
  [apply (deriv_poly _ _ _ (vx c) 0)|apply (deriv_poly _ _ _ (vy c) 0)|apply (deriv_poly _ _ _ (vz c) 0)]; intro h; ring.
Qed.
Lemma quadratic_deriv2 a b c t : vderiv (quadratic' a b c) t (quadratic'' a b c t).
Proof.
  split; [|split]; unfold quadratic', quadratic''; cbn [vadd vscale vx vy vz];
  apply (deriv_poly _ _ _ 0 0); intro h; ring.
Qed.

(* ---- cubic curves ---- *)
Lemma n2 : Q2Qc 2 = 1 + 1. Proof. apply Qc_is_canon; reflexivity. Qed.
Lemma n3 : Q2Qc 3 = 1 + 1 + 1. Proof. apply Qc_is_canon; reflexivity. Qed.
Lemma n4 : Q2Qc 4 = 1 + 1 + 1 + 1. Proof. apply Qc_is_canon; reflexivity. Qed.
Lemma n6 : Q2Qc 6 = 1 + 1 + 1 + 1 + 1 + 1. Proof. apply Qc_is_canon; reflexivity. Qed.
Lemma n12 : Q2Qc 12 = (1 + 1) * (1 + 1 + 1 + 1 + 1 + 1). Proof. apply Qc_is_canon; reflexivity. Qed.
Lemma q2_eq : q2 = 1 + 1. Proof. apply Qc_is_canon; reflexivity. Qed.
Ltac nums := rewrite ?n2, ?n3, ?n4, ?n6, ?n12, ?q2_eq; cbn [Qcpower].

Lemma cub_taylor p0 c0 c1 p1 t h : cub0 p0 c0 c1 p1 (t + h) = cub0 p0 c0 c1 p1 t + h * cub1 p0 c0 c1 p1 t +
  h * h * (cub2 p0 c0 c1 p1 t / (1 + 1) + (p1 - (1 + 1 + 1) * c1 + (1 + 1 + 1) * c0 - p0) * h).
Proof. unfold cub0, cub1, cub2. cbv zeta. nums. field. discriminate. Qed.
Lemma cub_taylor1 p0 c0 c1 p1 t h : cub1 p0 c0 c1 p1 (t + h) = cub1 p0 c0 c1 p1 t + h * cub2 p0 c0 c1 p1 t +
  h * h * ((1 + 1 + 1) * (p1 - (1 + 1 + 1) * c1 + (1 + 1 + 1) * c0 - p0) + 0 * h).
Proof. unfold cub0, cub1, cub2. cbv zeta. nums. ring. Qed.
Lemma cub_d0 p0 c0 c1 p1 t : deriv (fun x => cub0 p0 c0 c1 p1 x) t (cub1 p0 c0 c1 p1 t).
Proof. exact (deriv_poly (fun x => cub0 p0 c0 c1 p1 x) t _ _ _ (cub_taylor p0 c0 c1 p1 t)). Qed.
Lemma cub_d1 p0 c0 c1 p1 t : deriv (fun x => cub1 p0 c0 c1 p1 x) t (cub2 p0 c0 c1 p1 t).
Proof. exact (deriv_poly (fun x => cub1 p0 c0 c1 p1 x) t _ _ _ (cub_taylor1 p0 c0 c1 p1 t)). Qed.
Lemma cubic_deriv p0 c0 c1 p1 t : vderiv (e0 (cubic p0 c0 c1 p1)) t (e1 (cubic p0 c0 c1 p1) t) /\
  vderiv (e1 (cubic p0 c0 c1 p1)) t (e2 (cubic p0 c0 c1 p1) t).
Proof.
  unfold cubic. cbn [e0 e1 e2]. split; (split; [|split]); unfold coords; cbn [vx vy vz];
  [apply cub_d0|apply cub_d0|apply cub_d0|apply cub_d1|apply cub_d1|apply cub_d1].
Qed.
Lemma cubic_casteljau p0 c0 c1 p1 t : e0 (cubic p0 c0 c1 p1) t = casteljau p0 c0 c1 p1 t.
Proof.
  unfold cubic, coords, casteljau, mix. cbn [e0]. cbv zeta. apply v3_ext; cbn [vadd vscale vx vy vz]; unfold cub0; cbv zeta; nums; ring.
Qed.
Lemma cubic_same p0 c0 c1 p1 t : cub0 p0 c0 c1 p1 t = pycub0 p0 c0 c1 p1 t /\ cub1 p0 c0 c1 p1 t = pycub1 p0 c0 c1 p1 t /\
  cub2 p0 c0 c1 p1 t = pycub2 p0 c0 c1 p1 t.
Proof. unfold cub0, cub1, cub2, pycub0, pycub1, pycub2. cbv zeta. nums. split; [|split]; ring. Qed.
Lemma cubic_ends p0 c0 c1 p1 : let c := cubic p0 c0 c1 p1 in
  e0 c 0 = p0 /\ e0 c 1 = p1 /\ e1 c 0 = vscale (1 + 1 + 1) (vsub c0 p0) /\ e1 c 1 = vscale (1 + 1 + 1) (vsub p1 c1).
Proof.
  cbv zeta. unfold cubic, coords. cbn [e0 e1].
  repeat split; apply v3_ext; cbn [vscale vsub vx vy vz]; unfold cub0, cub1; cbv zeta; nums; ring.
Qed.
Lemma mix_lo t a b m : 0 <= t <= 1 -> m <= a -> m <= b -> m <= (1 - t) * a + t * b.
Proof.
  intros [T1 T2] A B. assert (0 <= (1 - t) * (a - m)) by (apply qc_mul_nonneg; qlra). assert (0 <= t * (b - m)) by (apply qc_mul_nonneg; qlra). qlra.
Qed.
Lemma mix_hi t a b m : 0 <= t <= 1 -> a <= m -> b <= m -> (1 - t) * a + t * b <= m.
Proof.
  intros [T1 T2] A B. assert (0 <= (1 - t) * (m - a)) by (apply qc_mul_nonneg; qlra). assert (0 <= t * (m - b)) by (apply qc_mul_nonneg; qlra). qlra.
Qed.
(* every half space that contains the four points contains the curve *)
Lemma cubic_hull p0 c0 c1 p1 n k t : 0 <= t <= 1 -> dot3 n p0 <= k -> dot3 n c0 <= k -> dot3 n c1 <= k -> dot3 n p1 <= k ->
  dot3 n (e0 (cubic p0 c0 c1 p1) t) <= k.
Proof.
  intros T A B C D. rewrite cubic_casteljau. unfold casteljau. cbv zeta.
  assert (M : forall a b, dot3 n a <= k -> dot3 n b <= k -> dot3 n (mix t a b) <= k).
  { intros a b HA HB. replace (dot3 n (mix t a b)) with ((1 - t) * dot3 n a + t * dot3 n b) by (unfold mix; v3d; ring). apply mix_hi; auto. }
  auto 10.
Qed.

(* ---- bilinear surfaces ---- *)
Definition bl (s : bilinear) := bcoords bl0 s.
Lemma bilinear_taylor s u v a b : bcoords bl0 s (u + a) (v + b) =
  vadd (vadd (vadd (bcoords bl0 s u v) (vscale a (bcoords bl_u s u v))) (vscale b (bcoords bl_v s u v))) (vscale (a * b) (bcoords bl_uv s u v)).
Proof. apply v3_ext; unfold bcoords; cbn [vadd vscale vx vy vz]; unfold bl0, bl_u, bl_v, bl_uv; ring. Qed.
Lemma bilinear_deriv s u v :
  vderiv (fun x => bcoords bl0 s x v) u (bcoords bl_u s u v) /\ vderiv (fun y => bcoords bl0 s u y) v (bcoords bl_v s u v) /\
  vderiv (fun y => bcoords bl_u s u y) v (bcoords bl_uv s u v) /\ vderiv (fun x => bcoords bl_v s x v) u (bcoords bl_uv s u v) /\
  vderiv (fun x => bcoords bl_u s x v) u zero3 /\ vderiv (fun y => bcoords bl_v s u y) v zero3.
Proof.
  repeat split; unfold bcoords, zero3; cbn [vx vy vz]; apply (deriv_poly _ _ _ 0 0); intro h; unfold bl0, bl_u, bl_v, bl_uv; ring.
Qed.
Lemma bilinear_corners a b c d : let s := bilinear_init a b c d in
  bcoords bl0 s 0 0 = a /\ bcoords bl0 s 1 0 = b /\ bcoords bl0 s 1 1 = c /\ bcoords bl0 s 0 1 = d.
Proof. cbv zeta. repeat split; apply v3_ext; unfold bcoords, bilinear_init, bl0; cbn [b00 b10 b11 b01 vx vy vz]; ring. Qed.
Lemma bilinear_hull a b c d n k u v : 0 <= u <= 1 -> 0 <= v <= 1 -> dot3 n a <= k -> dot3 n b <= k -> dot3 n c <= k -> dot3 n d <= k ->
  dot3 n (bcoords bl0 (bilinear_init a b c d) u v) <= k.
Proof.
  intros U V A B C D.
  replace (dot3 n (bcoords bl0 (bilinear_init a b c d) u v)) with
    ((1 - v) * ((1 - u) * dot3 n a + u * dot3 n b) + v * ((1 - u) * dot3 n d + u * dot3 n c)).
  - apply mix_hi; auto; apply mix_hi; auto.
  - unfold bcoords, bilinear_init, bl0, dot3. cbn [b00 b10 b11 b01 vx vy vz]. ring.
Qed.

(* ---- ruled surfaces ---- *)
Lemma vderiv_lin f g t a b d e : vderiv f t d -> vderiv g t e -> vderiv (fun x => vadd (vscale a (f x)) (vscale b (g x))) t (vadd (vscale a d) (vscale b e)).
Proof. intros (A & B & C) (A' & B' & C'). split; [|split]; cbn [vadd vscale vx vy vz]; apply deriv_lin; auto. Qed.
Lemma vderiv_affine f t L c d : vderiv f (t * L + c) d -> vderiv (fun x => f (x * L + c)) t (vscale L d).
Proof.
  intros (A & B & C). split; [|split]; cbn [vscale vx vy vz].
  - apply (deriv_affine (fun x => vx (f x))); auto.
  - apply (deriv_affine (fun x => vy (f x))); auto.
  - apply (deriv_affine (fun x => vz (f x))); auto.
Qed.
Lemma ruled_deriv_u a b u v : vderiv (e0 a) (remap a u) (e1 a (remap a u)) -> vderiv (e0 b) (remap b u) (e1 b (remap b u)) ->
  vderiv (fun x => ruled0 a b x v) u (vadd (vscale (1 - v) (vscale (hi a - lo a) (e1 a (remap a u)))) (vscale v (vscale (hi b - lo b) (e1 b (remap b u))))).
Proof. intros A B. unfold ruled0. apply vderiv_lin; unfold remap; apply vderiv_affine; auto. Qed.
Lemma ruled_u_scaled a b u v L : hi a - lo a = L -> hi b - lo b = L -> vderiv (e0 a) (remap a u) (e1 a (remap a u)) -> vderiv (e0 b) (remap b u) (e1 b (remap b u)) ->
  vderiv (fun x => ruled0 a b x v) u (vscale L (ruled_u a b u v)).
Proof.
  intros La Lb A B. pose proof (ruled_deriv_u a b u v A B) as R. rewrite La, Lb in R.
  replace (vscale L (ruled_u a b u v)) with (vadd (vscale (1 - v) (vscale L (e1 a (remap a u)))) (vscale v (vscale L (e1 b (remap b u))))); [exact R|].
  unfold ruled_u. apply v3_ext; cbn [vadd vscale vx vy vz]; ring.
Qed.
Lemma ruled_u_wrong a b u v L : hi a - lo a = L -> hi b - lo b = L -> L <> 1 ->
  vderiv (e0 a) (remap a u) (e1 a (remap a u)) -> vderiv (e0 b) (remap b u) (e1 b (remap b u)) ->
  ruled_u a b u v <> zero3 -> ~ vderiv (fun x => ruled0 a b x v) u (ruled_u a b u v).
Proof.
  intros La Lb L1 A B N W. pose proof (ruled_u_scaled a b u v L La Lb A B) as R. pose proof (vderiv_unique _ _ _ _ R W) as E.
  apply N. apply v3_inv in E. destruct E as (X & Y & Z). cbn [vscale vx vy vz] in X, Y, Z. set (r := ruled_u a b u v) in *. clearbody r.
  assert (K : L - 1 <> 0) by (intro K; apply L1; qlra).
  apply v3_ext; cbn [zero3 vx vy vz]; apply (mul_zero (L - 1)); auto; [transitivity (L * vx r - vx r)|transitivity (L * vy r - vy r)|transitivity (L * vz r - vz r)];
  try ring; [rewrite X|rewrite Y|rewrite Z]; ring.
Qed.
Lemma ruled_v_ok a b u v : vderiv (fun y => ruled0 a b u y) v (ruled_v a b u v) /\
  (forall w, ruled0 a b u w = vadd (ruled0 a b u v) (vscale (w - v) (ruled_v a b u v))) /\
  vderiv (fun y => ruled_v a b u y) v (ruled_vv a b u v).
Proof.
  unfold ruled0, ruled_v, ruled_vv. set (p := e0 a (remap a u)). set (q := e0 b (remap b u)). clearbody p q. split; [|split].
  - split; [|split]; cbn [vadd vscale vsub vx vy vz]; apply (deriv_poly _ _ _ 0 0); intro h; ring.
  - intro w. apply v3_ext; cbn [vadd vscale vsub vx vy vz]; ring.
  - split; [|split]; cbn [vadd vscale vsub vx vy vz]; apply (deriv_poly _ _ _ 0 0); intro h; ring.
Qed.
Lemma ruled_ends a b u : ruled0 a b u 0 = e0 a (remap a u) /\ ruled0 a b u 1 = e0 b (remap b u) /\
  remap a 0 = lo a /\ remap a 1 = hi a.
Proof. unfold ruled0, remap. repeat split; try ring; apply v3_ext; cbn [vadd vscale vx vy vz]; ring. Qed.
