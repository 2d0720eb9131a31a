(* Two by two systems, decompositions, projections. *)
From Coq Require Import List ZArith Lia Bool QArith Qcanon.
From Verif Require Import Common ListLib QcLib ArrZ SumLib NurbsModel DerModel DerProofs2 KnotProofs2 PlnModel PlnSpec PlnProofs2 PlnProofs4 PlnProofs5 VecModel VecSpec VecProofs1 VecProofs2.
Import ListNotations.
Local Open Scope Z_scope.
Local Open Scope Qc_scope.

Lemma mulnn (a b : Qc) : 0 <= a -> 0 <= b -> 0 <= a * b.
Proof. apply qc_mul_nonneg. Qed.
Lemma v2_ext a b : p0 a = p0 b -> p1 a = p1 b -> a = b.
Proof. destruct a, b; cbn. now intros -> ->. Qed.
Lemma v2_inv a b : a = b -> p0 a = p0 b /\ p1 a = p1 b.
Proof. intros ->. auto. Qed.
Lemma m2_ext a b : m00 a = m00 b -> m01 a = m01 b -> m10 a = m10 b -> m11 a = m11 b -> a = b.
Proof. destruct a, b; cbn. now intros -> -> -> ->. Qed.

Lemma solve2x2_ok m y old : exists x b, solve2x2 m y old = Ok (x, b) /\
  (b = true <-> det2 m <> 0) /\ (b = true -> forall z, app2 m z = y <-> z = x) /\ (b = false -> x = old).
Proof.
  unfold solve2x2. fold (det2 m). destruct (qeq (det2 m) 0) eqn:Q.
  - apply qeq_true in Q. exists old, false. split; auto. split; [split; [discriminate|intro; contradiction]|]. split; [discriminate|auto].
  - apply qeq_false in Q. rewrite !divR_ok_ by auto. cbn [bind]. eexists _, true. split; [reflexivity|]. split; [split; auto|]. split; [|discriminate].
    intros _ z. unfold app2. split.
    + intros <-. apply v2_ext; cbn [p0 p1]; unfold det2 in *; field; auto.
    + intros ->. apply v2_ext; cbn [p0 p1]; unfold det2 in *; field; auto.
Qed.

Lemma solve2x2_inplace_ok m y : det2 m <> 0 ->
  exists x x', solve2x2 m y y = Ok (x, true) /\ solve2x2_inplace m y = Ok (x', true) /\ p0 x' = p0 x /\
  p1 x' - p1 x = m10 m * (p0 y - p0 x) / det2 m.
Proof.
  intro D. unfold solve2x2, solve2x2_inplace. fold (det2 m). rewrite (proj2 (qeq_false _ _) D). rewrite !divR_ok_ by auto. cbn [bind].
  eexists _, _. split; [reflexivity|]. cbn [p0 p1]. rewrite divR_ok_ by auto. cbn [bind]. split; [reflexivity|]. split; [reflexivity|]. cbn [p0 p1].
  unfold det2 in *. field. auto.
Qed.

Lemma cinvert_ok j old : exists x c, cinvert_jacobian j old = Ok (x, c) /\
  ((c = 0%Z /\ det2 j <> 0 /\ mul2 j x = id2 /\ mul2 x j = id2) \/ (c = (-1)%Z /\ det2 j = 0 /\ x = old)).
Proof.
  unfold cinvert_jacobian. fold (det2 j). destruct (qeq (det2 j) 0) eqn:Q.
  - apply qeq_true in Q. exists old, (-1)%Z. auto.
  - apply qeq_false in Q. rewrite !divR_ok_ by auto. cbn [bind]. eexists _, _. split; [reflexivity|]. left. split; auto. split; auto.
    unfold mul2, id2. cbn [m00 m01 m10 m11]. unfold det2 in *. split; apply m2_ext; cbn [m00 m01 m10 m11]; field; auto.
Qed.

(* ---- decompositions ---- *)
Definition comb (x y : Qc) (a b : list Qc) : list Qc := map (fun i => x * nth i a 0 + y * nth i b 0) (seq 0 (length a)).
Lemma comb_self x y a b : length b = length a -> inner (comb x y a b) (comb x y a b) = x * x * inner a a + x * y * (inner a b + inner a b) + y * y * inner b b.
Proof.
  intro L. unfold inner, comb. rewrite map_length, seq_length, L.
  rewrite <- sumn_add, <- !sumn_scale, <- !sumn_add. apply sumn_ext. intros i Hi. rewrite nth_map_seq by auto. ring.
Qed.
Lemma comb_zero x y a b : length b = length a -> (forall i, (i < length a)%nat -> x * nth i a 0 + y * nth i b 0 = 0) <->
  inner (comb x y a b) (comb x y a b) = 0.
Proof.
  intro L. rewrite inner_self_zero. unfold comb. split.
  - intros H z Hz. apply in_map_iff in Hz. destruct Hz as [i [<- Hi]]. apply in_seq in Hi. apply H. lia.
  - intros H i Hi. apply H. apply in_map_iff. exists i. split; auto. apply in_seq. lia.
Qed.

Lemma gram_det a b : length b = length a -> (det2 (mkm (inner a a) (inner a b) (inner a b) (inner b b)) <> 0 <-> independent a b).
Proof.
  intro L. unfold det2. cbn [m00 m01 m10 m11]. split.
  - intros D x y H0. pose proof (proj1 (comb_zero x y a b L) H0) as H.
    pose proof (comb_self x y a b L) as E. rewrite H in E. clear H. symmetry in E.
    set (aa := inner a a) in *. set (ab := inner a b) in *. set (bb := inner b b) in *.
    assert (A : 0 <= aa) by apply inner_self_nonneg. assert (B : 0 <= bb) by apply inner_self_nonneg.
    assert (C : 0 <= aa * bb - ab * ab).
    { destruct (Qc_eq_dec aa 0) as [Z|Z].
      - assert (ab = 0).
        { unfold ab, inner. apply sumn_zero. intros i Hi. rewrite (proj1 (inner_self_zero a) Z (nth i a 0)) by (now apply nth_In). ring. }
        rewrite Z, H. qlra.
      - pose proof (inner_self_nonneg (comb ab (- aa) a b)) as P. rewrite (comb_self _ _ a b L) in P. fold aa ab bb in P.
        assert (Q : 0 <= aa * (aa * bb - ab * ab)) by (replace (aa * (aa * bb - ab * ab)) with (ab * ab * aa + ab * - aa * (ab + ab) + - aa * - aa * bb) by ring; auto).
        assert (0 < aa) by (apply Qcle_lt_or_eq in A; destruct A as [A|A]; auto; congruence).
        destruct (Qclt_le_dec (aa * bb - ab * ab) 0) as [N|N]; auto. exfalso. qnra. }
    assert (C' : 0 < aa * bb - ab * ab) by (apply Qcle_lt_or_eq in C; destruct C as [C|C]; auto; exfalso; apply D; auto).
    assert (E1 : y * y * (aa * bb - ab * ab) + (x * aa + y * ab) * (x * aa + y * ab) = 0).
    { transitivity (aa * (x * x * aa + x * y * (ab + ab) + y * y * bb)); [ring|rewrite E; ring]. }
    assert (E2 : x * x * (aa * bb - ab * ab) + (x * ab + y * bb) * (x * ab + y * bb) = 0).
    { transitivity (bb * (x * x * aa + x * y * (ab + ab) + y * y * bb)); [ring|rewrite E; ring]. }
    assert (K : forall u w, u * u * (aa * bb - ab * ab) + w * w = 0 -> u = 0).
    { intros u w K. apply sq_zero. pose proof (sq_nonneg u). pose proof (sq_nonneg w).
      assert (P : 0 <= u * u * (aa * bb - ab * ab)) by (apply mulnn; auto; qlra). assert (Z : u * u * (aa * bb - ab * ab) = 0) by qlra.
      apply Qcmult_integral in Z. destruct Z as [Z|Z]; auto; exfalso; apply D; auto. }
    split; [apply (K x (x * ab + y * bb)); auto|apply (K y (x * aa + y * ab)); auto].
  - intros I D.
    assert (Z : inner (comb (inner a b) (- inner a a) a b) (comb (inner a b) (- inner a a) a b) = 0).
    { rewrite (comb_self _ _ a b L). transitivity (inner a a * (inner a a * inner b b - inner a b * inner a b)); [ring|rewrite D; ring]. }
    pose proof (proj2 (comb_zero _ _ a b L) Z) as Z'. clear Z. rename Z' into Z. apply I in Z. destruct Z as [_ Z].
    assert (A : inner a a = 0) by (transitivity (- - inner a a); [ring|rewrite Z; ring]).
    destruct (I 1 0) as [N _]; [|discriminate N]. intros i Hi.
    rewrite (proj1 (inner_self_zero a) A (nth i a 0)) by (now apply nth_In). ring.
Qed.

Lemma inner_residual_l w v a b x y : length w = length v -> length a = length v -> length b = length v ->
  inner w (residual v a b x y) = inner w v - x * inner w a - y * inner w b.
Proof.
  intros L La Lb. unfold inner, residual. rewrite L. rewrite <- !sumn_scale, <- !sumn_sub. apply sumn_ext. intros i Hi.
  rewrite nth_map_seq by auto. ring.
Qed.
Lemma len_residual v a b x y : length (residual v a b x y) = length v.
Proof. unfold residual. now rewrite map_length, seq_length. Qed.

Lemma residual_diff v a b x y x' y' : length a = length v -> length b = length v ->
  inner a (residual v a b x y) = 0 -> inner b (residual v a b x y) = 0 ->
  inner (residual v a b x' y') (residual v a b x' y') =
  inner (residual v a b x y) (residual v a b x y) + inner (comb (x - x') (y - y') a b) (comb (x - x') (y - y') a b).
Proof.
  intros La Lb Ha Hb. set (r := residual v a b x y) in *.
  transitivity (inner r r + (1 + 1) * ((x - x') * inner a r + (y - y') * inner b r) + inner (comb (x - x') (y - y') a b) (comb (x - x') (y - y') a b));
    [|rewrite Ha, Hb; ring].
  unfold r, inner. rewrite !len_residual. unfold comb. rewrite map_length, seq_length, La, Lb.
  rewrite <- !sumn_scale, <- !sumn_add, <- sumn_scale, <- !sumn_add. apply sumn_ext. intros i Hi.
  unfold residual. rewrite !nth_map_seq by (auto; congruence). ring.
Qed.

Lemma decompose_ok v a b junk : length a = length v -> length b = length v -> independent a b ->
  exists c, decompose_vector v a b junk = Ok c /\
  forall x y, inner (residual v a b (p0 c) (p1 c)) (residual v a b (p0 c) (p1 c)) <= inner (residual v a b x y) (residual v a b x y) /\
    (inner (residual v a b (p0 c) (p1 c)) (residual v a b (p0 c) (p1 c)) = inner (residual v a b x y) (residual v a b x y) -> c = mkp x y).
Proof.
  intros La Lb I. unfold decompose_vector. rewrite !scalar_dot_ok by congruence. cbn [bind].
  destruct (solve2x2_ok (mkm (inner a a) (inner a b) (inner a b) (inner b b)) (mkp (inner a v) (inner b v)) junk) as [c [f [-> [H1 [H2 H3]]]]].
  cbn [bind]. assert (F : f = true) by (apply H1, gram_det; auto; congruence). exists c. split; auto.
  assert (S : app2 (mkm (inner a a) (inner a b) (inner a b) (inner b b)) c = mkp (inner a v) (inner b v)) by (apply H2; auto).
  apply v2_inv in S. destruct S as [S1 S2]. cbn [app2 p0 p1 m00 m01 m10 m11] in S1, S2.
  assert (Ra : inner a (residual v a b (p0 c) (p1 c)) = 0) by (rewrite inner_residual_l by auto; rewrite <- S1; ring).
  assert (Rb : inner b (residual v a b (p0 c) (p1 c)) = 0).
  { rewrite inner_residual_l by auto. rewrite <- S2. rewrite (inner_comm b a) by congruence. ring. }
  intros x y. rewrite (residual_diff v a b (p0 c) (p1 c) x y La Lb Ra Rb).
  set (w := comb (p0 c - x) (p1 c - y) a b). pose proof (inner_self_nonneg w) as P. split; [qlra|]. intro E.
  assert (Z : inner w w = 0) by qlra. unfold w in Z. pose proof (proj2 (comb_zero _ _ a b ltac:(congruence)) Z) as Z'. clear Z. rename Z' into Z. apply I in Z. destruct Z as [Z0 Z1].
  apply v2_ext; cbn [p0 p1]; qlra.
Qed.

Lemma decompose_exact v a b junk x y : length a = length v -> length b = length v -> independent a b ->
  (forall i, (i < length v)%nat -> nth i v 0 = x * nth i a 0 + y * nth i b 0) -> decompose_vector v a b junk = Ok (mkp x y).
Proof.
  intros La Lb I H. destruct (decompose_ok v a b junk La Lb I) as [c [-> M]]. f_equal. apply (M x y).
  destruct (M x y) as [M1 _]. assert (Z : inner (residual v a b x y) (residual v a b x y) = 0).
  { unfold inner. rewrite len_residual. apply sumn_zero. intros i Hi. unfold residual. rewrite nth_map_seq by auto. rewrite (H i Hi). ring. }
  rewrite Z in M1 |- *. pose proof (inner_self_nonneg (residual v a b (p0 c) (p1 c))). qlra.
Qed.

Lemma decompose_dependent v a b junk : length a = length v -> length b = length v -> ~ independent a b ->
  decompose_vector v a b junk = Ok junk.
Proof.
  intros La Lb I. unfold decompose_vector. rewrite !scalar_dot_ok by congruence. cbn [bind].
  destruct (solve2x2_ok (mkm (inner a a) (inner a b) (inner a b) (inner b b)) (mkp (inner a v) (inner b v)) junk) as [c [f [-> [H1 [H2 H3]]]]].
  cbn [bind]. destruct f; [|now rewrite H3]. exfalso. apply I, gram_det; [congruence|]. apply H1. auto.
Qed.

Lemma decompose_rows vs a b result n : rect n (length a) vs -> length b = length a -> length result = n ->
  exists r, decompose_vectors vs a b result = Ok r /\ length r = n /\
   forall i, (i < n)%nat -> decompose_vector (nth i vs []) a b (nth i result (mkp 0 0)) = Ok (nth i r (mkp 0 0)).
Proof.
  intros R Lb Lr. unfold decompose_vectors. rewrite (lenZ_of _ _ _ (proj1 R)).
  assert (D : forall i o, (i < n)%nat -> exists x, decompose_vector (nth i vs []) a b o = Ok x).
  { intros i o Hi. unfold decompose_vector. rewrite !scalar_dot_ok by (rewrite ?(proj2 R) by auto; congruence). cbn [bind].
    edestruct solve2x2_ok as [c [f [-> _]]]. cbn [bind]. eauto. }
  pose (g := fun i => match decompose_vector (nth i vs []) a b (nth i result (mkp 0 0)) with Ok x => x | Err _ => mkp 0 0 end).
  rewrite (fill_list (mkp 0 0) n result g); auto.
  - eexists. split; [reflexivity|]. split; [now rewrite map_length, seq_length|]. intros i Hi. rewrite nth_map_seq by auto. unfold g.
    destruct (D i (nth i result (mkp 0 0)) Hi) as [x ->]. reflexivity.
  - intros i r Hi Li Ho. rewrite (rd_row n (length a)) by (auto; lia). cbn [bind]. rewrite (rdZ_ok (mkp 0 0)) by (unfold lenZ; lia). cbn [bind].
    unfold atZ. rewrite Nat2Z.id, Ho. unfold g. destruct (D i (nth i result (mkp 0 0)) Hi) as [x ->]. reflexivity.
Qed.

(* ---- projections ---- *)
Lemma proj_ok a b : b <> zero3 -> vector_projection a b = Ok (along zero3 (dot3 a b / dot3 b b) b).
Proof.
  intro N. assert (D : dot3 b b <> 0) by (intro Z; apply N, dot_self_zero; auto).
  unfold vector_projection. fold (dot3 b b). rewrite !divR_ok_ by auto. cbn [bind].
  f_equal. unfold along, zero3. set (q := dot3 b b) in *. unfold dot3. cbn [vx vy vz]. apply v3_ext; cbn [vx vy vz]; field; auto.
Qed.
Lemma proj_zero a : vector_projection a zero3 = Err ZeroDivision.
Proof. unfold vector_projection, zero3. cbn [vx vy vz]. replace (0 * 0 + 0 * 0 + 0 * 0) with 0 by ring. now rewrite divR_zero_. Qed.

Lemma closest_at o d q : d <> zero3 -> closest_on_line o d q (along o (dot3 (minus3 q o) d / dot3 d d) d).
Proof.
  intro N. assert (D : dot3 d d <> 0) by (intro Z; apply N, dot_self_zero; auto).
  set (s := dot3 (minus3 q o) d / dot3 d d). assert (S : s * dot3 d d = dot3 (minus3 q o) d) by (unfold s; field; auto).
  assert (O : dot3 (minus3 q (along o s d)) d = 0).
  { transitivity (dot3 (minus3 q o) d - s * dot3 d d); [v3d; ring|rewrite S; ring]. }
  split; [eauto|]. split; auto. intro t.
  assert (E : dist2 q (along o t d) = dist2 q (along o s d) + (1 + 1) * (s - t) * dot3 (minus3 q (along o s d)) d + (s - t) * (s - t) * dot3 d d) by (unfold dist2; v3d; ring).
  rewrite E, O. pose proof (sq_nonneg (s - t)). pose proof (dot_self_nonneg d). assert (0 <= (s - t) * (s - t) * dot3 d d) by (apply mulnn; auto; qlra).
  replace ((1 + 1) * (s - t) * 0) with 0 by ring. qlra.
Qed.

Lemma ray_line_ok o d q : d <> zero3 -> exists p, closest_point_on_ray o d q = Ok p /\ closest_on_line o d q p.
Proof.
  intro N. unfold closest_point_on_ray. rewrite proj_ok by auto. cbn [bind]. eexists. split; [reflexivity|].
  change vsub with minus3. replace (vadd o (along zero3 (dot3 (minus3 q o) d / dot3 d d) d)) with (along o (dot3 (minus3 q o) d / dot3 d d) d).
  - now apply closest_at.
  - unfold along, zero3, vadd. cbn [vx vy vz]. apply v3_ext; cbn [vx vy vz]; ring.
Qed.
Lemma minus_zero a b : minus3 a b = zero3 -> a = b.
Proof. intro H. apply v3_inv in H. destruct H as [H1 [H2 H3]]. cbn [vx vy vz zero3 minus3] in *. apply v3_ext; qlra. Qed.

Lemma segment_line_ok a b q : a <> b -> exists p, closest_point_on_line a b q = Ok p /\ closest_on_line a (minus3 b a) q p.
Proof.
  intro N. apply (ray_line_ok a (minus3 b a) q). intro Z. apply N. symmetry. now apply minus_zero.
Qed.

Lemma ray_behind o d q p : d <> zero3 -> dot3 (minus3 q o) d < 0 -> closest_point_on_ray o d q = Ok p ->
  forall t, 0 <= t -> p <> along o t d.
Proof.
  intros N L E t Ht ->. destruct (ray_line_ok o d q N) as [p' [E' [_ [_ O]]]]. rewrite E in E'. injection E' as <-.
  assert (K : dot3 (minus3 q (along o t d)) d = dot3 (minus3 q o) d - t * dot3 d d) by (v3d; ring). rewrite K in O.
  pose proof (dot_self_nonneg d). assert (0 <= t * dot3 d d) by (apply mulnn; auto; qlra). qlra.
Qed.

Lemma vec_ray_ok o d q : d <> zero3 -> exists r p, vec_closest_point_on_ray o d q = Ok r /\ closest_point_on_ray o d q = Ok p /\
  p = along r 1 o.
Proof.
  intro N. unfold vec_closest_point_on_ray, closest_point_on_ray. rewrite proj_ok by auto. cbn [bind]. eexists _, _.
  split; [reflexivity|]. split; [reflexivity|]. unfold along, zero3, vadd. cbn [vx vy vz]. apply v3_ext; cbn [vx vy vz]; ring.
Qed.
Lemma vec_line_ok a b q : a <> b -> exists r p, vec_closest_point_on_line a b q = Ok r /\ closest_point_on_line a b q = Ok p /\ p = along r 1 a.
Proof.
  intro N. apply (vec_ray_ok a (minus3 b a) q). intro Z. apply N. symmetry. now apply minus_zero.
Qed.
Lemma closest_unique o d q p p' : d <> zero3 -> closest_on_line o d q p -> closest_on_line o d q p' -> p = p'.
Proof.
  intros N [[t ->] [_ H]] [[t' ->] [_ H']].
  assert (E : (t - t') * dot3 d d = 0).
  { transitivity (dot3 (minus3 q (along o t' d)) d - dot3 (minus3 q (along o t d)) d); [v3d; ring|rewrite H, H'; ring]. }
  apply Qcmult_integral in E. destruct E as [E|E]; [|exfalso; apply N, dot_self_zero; auto].
  replace t with t'; auto. qlra.
Qed.
Lemma vec_ray_wrong o d q r : d <> zero3 -> vec_closest_point_on_ray o d q = Ok r -> (closest_on_line o d q r <-> o = zero3).
Proof.
  intros N E. destruct (vec_ray_ok o d q N) as [r' [p [E1 [E2 P]]]]. rewrite E in E1. injection E1 as <-.
  destruct (ray_line_ok o d q N) as [p' [E3 C]]. rewrite E2 in E3. injection E3 as <-. split.
  - intro K. pose proof (closest_unique o d q r p N K C) as U. rewrite <- U in P. apply v3_inv in P. destruct P as [P1 [P2 P3]]. cbn [vx vy vz along] in *.
    apply v3_ext; cbn [vx vy vz zero3]; qlra.
  - intros ->. replace r with p; auto. rewrite P. apply v3_ext; cbn [vx vy vz along zero3]; ring.
Qed.
Lemma vec_line_wrong a b q r : a <> b -> vec_closest_point_on_line a b q = Ok r -> (closest_on_line a (minus3 b a) q r <-> a = zero3).
Proof.
  intros N. apply (vec_ray_wrong a (minus3 b a) q). intro Z. apply N. symmetry. now apply minus_zero.
Qed.

Lemma pp_line_ok a b q : a <> b -> exists p k, pp_closest_point_on_line a b q = Ok p /\ p = along a k (minus3 q a) /\
  k * dist2 b a = vx b - vx a + (vy b - vy a) + (vz b - vz a).
Proof.
  intro N. assert (D : dist2 b a <> 0) by (intro Z; apply N; symmetry; apply minus_zero, dot_self_zero; auto).
  unfold pp_closest_point_on_line, pp_vector_projection, vdiv. change (vdot (vsub b a) (vsub b a)) with (dist2 b a).
  rewrite !divR_ok_ by auto. cbn [bind]. eexists _, ((vx b - vx a + (vy b - vy a) + (vz b - vz a)) / dist2 b a). split; [reflexivity|].
  split; [|field; auto]. set (e := dist2 b a) in *. unfold along, minus3, vadd, vscale, vsub. cbn [vx vy vz]. apply v3_ext; cbn [vx vy vz]; field; auto.
Qed.

Lemma pp_line_wrong a b q p : a <> b -> (forall t, q <> along a t (minus3 b a)) -> pp_closest_point_on_line a b q = Ok p ->
  p = a \/ forall t, p <> along a t (minus3 b a).
Proof.
  intros N Q E. destruct (pp_line_ok a b q N) as [p' [k [E' [-> K]]]]. rewrite E in E'. injection E' as ->.
  destruct (Qc_eq_dec k 0) as [->|Nk]; [left; apply v3_ext; cbn [vx vy vz along]; ring|]. right. intros t H.
  apply (Q (t / k)). apply v3_inv in H. destruct H as [H1 [H2 H3]]. cbn [vx vy vz along minus3] in *.
  assert (G : forall x y z : Qc, y + k * (x - y) = y + t * (z - y) -> x = y + t / k * (z - y)).
  { intros x y z G. assert (G' : k * (x - y) = t * (z - y)) by qlra. transitivity (y + k * (x - y) / k); [field; auto|]. rewrite G'. field. auto. }
  apply v3_ext; cbn [vx vy vz along minus3]; auto.
Qed.
