(* Direction of the segment, size, kinds of points, lists of triangles. *)
From Coq Require Import List ZArith Lia Bool QArith Qcanon.
From Verif Require Import Common ListLib QcLib ArrZ AabbModel AabbSpec AabbProofs AabbProofs2 BvhModel BvhSpec MolModel MolSpec MolProofs1.
Import ListNotations.
Local Open Scope Z_scope.
Local Open Scope Qc_scope.

Lemma span_rev t s e : span6 t e s = - span6 t s e.
Proof. d3. unfold span6, vsub. v3s. ring. Qed.
Lemma seg_rev s e r : seg_at (e, s) (1 - r) = seg_at (s, e) r.
Proof. d3. unfold seg_at. v3s. apply p3_eq; ring. Qed.
Lemma tri_rev_some t s e p : tri_segment t s e = Some p -> tri_segment t e s = Some p.
Proof.
  intro H. destruct (tri_sound _ _ _ _ H) as [[r [R0 [R1 Rp]]] [[u [w [U0 [U1 [W0 [W1 Up]]]]]] D]].
  rewrite Rp, <- seg_rev. apply (tri_found t e s (1 - r) u w); auto.
  - rewrite span_rev. destruct D as [D|D]; [right|left]; qlra.
  - qlra.
  - qlra.
  - now rewrite seg_rev, <- Rp.
Qed.
Lemma tri_rev t s e : tri_segment t e s = tri_segment t s e.
Proof.
  destruct (tri_segment t s e) as [p|] eqn:E; [now apply tri_rev_some|].
  destruct (tri_segment t e s) as [p|] eqn:E'; [|reflexivity]. apply tri_rev_some in E'. congruence.
Qed.

(* moving everything *)
Lemma span_scaled k t s e : span6 (scaled_tri k t) (scaled k s) (scaled k e) = k * (k * (k * span6 t s e)).
Proof. d3. unfold span6, scaled_tri, scaled, vsub. v3s. ring. Qed.

Lemma abs_bound (d : Qc) : exists m, 0 <= m /\ - m <= d /\ d <= m.
Proof.
  destruct (Qclt_le_dec d 0) as [H|H]; [exists (- d)|exists d]; repeat split; qlra.
Qed.
Lemma small_k (m : Qc) : 0 <= m -> exists k, 0 < k /\ k <= 1 /\ k * m < eps8.
Proof.
  intro M. exists (eps8 / (1 + m)). assert (P : 0 < 1 + m) by qlra. assert (NZ : 1 + m <> 0) by (apply not_eq_sym; now apply Qclt_not_eq). pose proof eps8_pos as E. pose proof eps8_1 as E1.
  split; [now apply qc_div_pos|]. split; [apply qc_div_le; qlra|].
  assert (Q : eps8 / (1 + m) * m = eps8 - eps8 / (1 + m)) by (field; exact NZ).
  rewrite Q. assert (0 < eps8 / (1 + m)) by (now apply qc_div_pos). qlra.
Qed.
Lemma tri_scaled_none t s e : exists k, 0 < k /\ forall k', 0 < k' -> k' <= k ->
  tri_segment (scaled_tri k' t) (scaled k' s) (scaled k' e) = None.
Proof.
  destruct (abs_bound (span6 t s e)) as [m [M [M1 M2]]]. destruct (small_k m M) as [k [K [K1 KM]]]. exists k. split; [exact K|].
  intros k' P L. assert (B : k' * m < eps8) by (assert (k' * m <= k * m) by (apply Qcmult_le_compat_r; auto); qlra).
  assert (X : forall x, - (k' * m) <= x -> x <= k' * m -> - (k' * m) <= k' * x /\ k' * x <= k' * m).
  { intros x X1 X2. assert (H1 : x <= m * 1 -> True) by auto. split.
    - assert (0 <= k' * (x + k' * m)) by (apply qc_mul_nonneg; qlra). assert (0 <= (1 - k') * (k' * m)) by (apply qc_mul_nonneg; [qlra|apply qc_mul_nonneg; qlra]). qnra.
    - assert (0 <= k' * (k' * m - x)) by (apply qc_mul_nonneg; qlra). assert (0 <= (1 - k') * (k' * m)) by (apply qc_mul_nonneg; [qlra|apply qc_mul_nonneg; qlra]). qnra. }
  assert (Y : - (k' * m) <= k' * span6 t s e /\ k' * span6 t s e <= k' * m).
  { split.
    - assert (0 <= k' * (span6 t s e + m)) by (apply qc_mul_nonneg; qlra). qlra.
    - assert (0 <= k' * (m - span6 t s e)) by (apply qc_mul_nonneg; qlra). qlra. }
  destruct Y as [Y1 Y2]. destruct (X _ Y1 Y2) as [Z1 Z2]. destruct (X _ Z1 Z2) as [V1 V2].
  apply tri_small; rewrite span_scaled; qlra.
Qed.

(* ---- kinds of points ---- *)
Lemma close_iff a b h : is_close a b h = true <-> - h < a - b /\ a - b < h.
Proof.
  unfold is_close, fabs. rewrite qlt_true. destruct (qlt (a - b) 0) eqn:E.
  - apply qlt_true in E. split; [intro H; split; qlra|intros [H1 H2]; qlra].
  - apply qlt_false in E. split; [intro H; split; qlra|intros [H1 H2]; qlra].
Qed.
Lemma equals_iff p q : point_equals p q = true <-> within eps8 p q.
Proof. unfold point_equals, within. rewrite !andb_true_iff, !close_iff. tauto. Qed.
Lemma classify_2 t p : classify p t = 2%Z <-> near_corner eps8 t p.
Proof.
  destruct t as [[a b] c]. unfold classify, near_corner. rewrite <- !equals_iff.
  destruct (point_equals p a); [tauto|]. destruct (point_equals p b); [tauto|]. destruct (point_equals p c); [tauto|].
  split; [|intros [H|[H|H]]; discriminate].
  destruct (point_on_edge p a b); [discriminate|]. destruct (point_on_edge p b c); [discriminate|]. destruct (point_on_edge p c a); discriminate.
Qed.
Lemma classify_range t p : classify p t = 1%Z \/ classify p t = 2%Z \/ classify p t = 3%Z.
Proof.
  destruct t as [[a b] c]. unfold classify.
  destruct (point_equals p a); [auto|]. destruct (point_equals p b); [auto|]. destruct (point_equals p c); [auto|].
  destruct (point_on_edge p a b); [auto|]. destruct (point_on_edge p b c); [auto|]. destruct (point_on_edge p c a); auto.
Qed.
Lemma sqs (x : Qc) : 0 <= x * x.
Proof. destruct (Qclt_le_dec x 0) as [H|H]; [assert (0 <= (- x) * (- x)) by (apply qc_mul_nonneg; qlra); qnra|now apply qc_mul_nonneg]. Qed.
Lemma edge_exact a b p : between a b p -> point_on_edge p a b = true.
Proof.
  intros [r [R0 [R1 ->]]]. pose proof eps8_pos as EP. unfold point_on_edge.
  assert (X : mcross (vsub (seg_at (a, b) r) a) (vsub b a) = (0, 0, 0)) by (d3; unfold mcross, vsub, seg_at; v3s; apply p3_eq; ring).
  assert (Y : mdot (vsub (seg_at (a, b) r) a) (vsub b a) = r * mdot (vsub b a) (vsub b a)) by (d3; unfold mdot, vsub, seg_at; v3s; ring).
  rewrite X, Y. v3s. assert (Z : is_close 0 0 eps8 = true) by (apply close_iff; split; qlra). rewrite Z. cbn [andb negb].
  assert (L : 0 <= mdot (vsub b a) (vsub b a)).
  { unfold mdot. pose proof (sqs (vx (vsub b a))). pose proof (sqs (vy (vsub b a))). pose proof (sqs (vz (vsub b a))). qlra. }
  set (l := mdot (vsub b a) (vsub b a)) in *. clearbody l.
  assert (0 <= r * l) by (apply qc_mul_nonneg; auto). assert (0 <= (1 - r) * l) by (apply qc_mul_nonneg; auto; qlra).
  rewrite (proj2 (or_lt2 _ _ _ _)); [reflexivity|]. split; qlra.
Qed.
Lemma classify_side t p : on_side t p -> ~ near_corner eps8 t p -> classify p t = 3%Z.
Proof.
  intros S3 N. assert (C : classify p t <> 2%Z) by (intro H; now apply N, classify_2).
  destruct t as [[a b] c]. unfold classify in *. unfold on_side in S3.
  destruct (point_equals p a); [congruence|]. destruct (point_equals p b); [congruence|]. destruct (point_equals p c); [congruence|].
  destruct S3 as [H|[H|H]]; apply edge_exact in H; rewrite H.
  - reflexivity.
  - destruct (point_on_edge p a b); reflexivity.
  - destruct (point_on_edge p a b); [reflexivity|]. destruct (point_on_edge p b c); reflexivity.
Qed.
Lemma classify_1 t p : classify p t = 1%Z -> ~ on_side t p /\ ~ near_corner eps8 t p.
Proof.
  intro H. assert (N : ~ near_corner eps8 t p) by (intro Q; apply classify_2 in Q; congruence). split; [|exact N].
  intro Q. rewrite (classify_side t p Q N) in H. discriminate.
Qed.
(* far enough from the sides *)
Lemma edge_far a b p : let c := mcross (vsub p a) (vsub b a) in
  (eps8 <= vx c \/ vx c <= - eps8) \/ (eps8 <= vy c \/ vy c <= - eps8) \/ (eps8 <= vz c \/ vz c <= - eps8) -> point_on_edge p a b = false.
Proof.
  cbv zeta. unfold point_on_edge. set (c := mcross (vsub p a) (vsub b a)). clearbody c. intro H.
  assert (E : is_close (vx c) 0 eps8 && is_close (vy c) 0 eps8 && is_close (vz c) 0 eps8 = false).
  { destruct (is_close (vx c) 0 eps8 && is_close (vy c) 0 eps8 && is_close (vz c) 0 eps8) eqn:E; [|reflexivity]. exfalso.
    rewrite !andb_true_iff, !close_iff in E. destruct E as [[[E1 E2] [E3 E4]] [E5 E6]].
    destruct H as [[H|H]|[[H|H]|[H|H]]]; qlra. }
  now rewrite E.
Qed.

Lemma coord_bound (p q : v3) : exists m, 0 <= m /\ (- m <= vx p - vx q /\ vx p - vx q <= m) /\ (- m <= vy p - vy q /\ vy p - vy q <= m) /\ (- m <= vz p - vz q /\ vz p - vz q <= m).
Proof.
  destruct (abs_bound (vx p - vx q)) as [a [A [A1 A2]]]. destruct (abs_bound (vy p - vy q)) as [b [B [B1 B2]]]. destruct (abs_bound (vz p - vz q)) as [c [C [C1 C2]]].
  exists (a + b + c). repeat split; qlra.
Qed.
Lemma classify_scaled t p : exists k, 0 < k /\ forall k', 0 < k' -> k' <= k -> classify (scaled k' p) (scaled_tri k' t) = 2%Z.
Proof.
  destruct t as [[a b] c]. destruct (coord_bound p a) as [m [M [[X1 X2] [[Y1 Y2] [Z1 Z2]]]]]. destruct (small_k m M) as [k [K [K1 KM]]].
  exists k. split; [exact K|]. intros k' P L. apply classify_2. left. unfold within, scaled. v3s.
  assert (B : k' * m < eps8) by (assert (k' * m <= k * m) by (apply Qcmult_le_compat_r; auto); qlra).
  assert (G : forall x y, - m <= x - y -> x - y <= m -> - eps8 < k' * x - k' * y /\ k' * x - k' * y < eps8).
  { intros x y H1 H2. assert (0 <= k' * (x - y + m)) by (apply qc_mul_nonneg; qlra). assert (0 <= k' * (m - (x - y))) by (apply qc_mul_nonneg; qlra).
    split; qnra. }
  destruct (G _ _ X1 X2), (G _ _ Y1 Y2), (G _ _ Z1 Z2). tauto.
Qed.

(* ---- lists of triangles ---- *)
Lemma one_ok s e : forall ts, match intersect_triangles_segment_one ts s e with
  | (Some p, f) => f = 1%Z /\ exists l1 t l2, ts = l1 ++ t :: l2 /\ Forall (fun t => tri_segment t s e = None) l1 /\ tri_segment t s e = Some p
  | (None, f) => f = 0%Z /\ Forall (fun t => tri_segment t s e = None) ts end.
Proof.
  induction ts as [|t ts IH]; cbn [intersect_triangles_segment_one]; [auto|].
  destruct (tri_segment t s e) as [p|] eqn:E.
  - split; [reflexivity|]. exists [], t, ts. auto.
  - destruct (intersect_triangles_segment_one ts s e) as [[p|] f]; destruct IH as [F H]; split; auto.
    destruct H as [l1 [t' [l2 [-> [H1 H2]]]]]. exists (t :: l1), t', l2. auto.
Qed.

