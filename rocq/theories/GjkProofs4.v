(* The distance from a point to a triangle. *)
From Coq Require Import List ZArith Lia Bool QArith Qcanon.
From Verif Require Import Common ListLib QcLib ArrZ SumLib NurbsModel DerModel PlnModel PlnSpec PlnProofs2 PlnProofs4 PlnProofs5 GjkModel GjkSpec GjkProofs1 GjkProofs2 GjkProofs3.
Import ListNotations.
Local Open Scope Z_scope.
Local Open Scope Qc_scope.

Lemma nz_pos u : u <> zero3 -> 0 < dot3 u u.
Proof.
  intro N. destruct (Qclt_le_dec 0 (dot3 u u)) as [L|L]; [exact L|]. exfalso. apply N. apply dot_self_zero. pose proof (dot_self_nonneg u). qlra.
Qed.

(* ---- an edge ---- *)
Lemma clip_range x : 0 <= clip01 x /\ clip01 x <= 1.
Proof. unfold clip01. destruct (qlt x 0) eqn:A; [split; qlra|]. destruct (qlt 1 x) eqn:B; [split; qlra|]. apply qlt_false in A, B. split; qlra. Qed.
Lemma clip_best x s : 0 <= s -> s <= 1 -> 0 <= (s - clip01 x) * (s + clip01 x - (x + x)).
Proof.
  intros S0 S1. unfold clip01. destruct (qlt x 0) eqn:A.
  - apply qlt_true in A. apply qc_mul_nonneg; qlra.
  - apply qlt_false in A. destruct (qlt 1 x) eqn:B.
    + apply qlt_true in B. replace ((s - 1) * (s + 1 - (x + x))) with ((1 - s) * (x + x - s - 1)) by ring. apply qc_mul_nonneg; qlra.
    + replace ((s - x) * (s + x - (x + x))) with ((s - x) * (s - x)) by ring. apply sq_nonneg.
Qed.
Definition edge_d (p a e : v3) : Qc := let t := clip01 (dot3 e (minus3 p a) / dot3 e e) in dist2 p (along a t e).
Lemma edge_value p a e : dot3 (minus3 (vscale (clip01 (dot3 e (minus3 p a) / dot3 e e)) e) (minus3 p a)) (minus3 (vscale (clip01 (dot3 e (minus3 p a) / dot3 e e)) e) (minus3 p a)) = edge_d p a e.
Proof. unfold edge_d, dist2. cbv zeta. generalize (clip01 (dot3 e (minus3 p a) / dot3 e e)). intro t. unfold vscale. vring. Qed.
Lemma edge_diff p a e s t : dist2 p (along a s e) - dist2 p (along a t e) =
  (s - t) * ((s + t) * dot3 e e - (dot3 e (minus3 p a) + dot3 e (minus3 p a))).
Proof. unfold dist2. vring. Qed.
Lemma edge_best p a e s : e <> zero3 -> 0 <= s -> s <= 1 -> edge_d p a e <= dist2 p (along a s e).
Proof.
  intros N S0 S1. unfold edge_d. cbv zeta. set (x := dot3 e (minus3 p a) / dot3 e e). pose proof (nz_pos e N) as EE.
  assert (X : x * dot3 e e = dot3 e (minus3 p a)) by (unfold x; field; now apply pos_nz).
  pose proof (qc_mul_nonneg (dot3 e e) _ ltac:(qlra) (clip_best x s S0 S1)) as M. set (t := clip01 x) in *.
  assert (E : dist2 p (along a s e) - dist2 p (along a t e) = dot3 e e * ((s - t) * (s + t - (x + x)))).
  { rewrite edge_diff, <- X. clearbody x t. ring. }
  rewrite <- E in M. qlra.
Qed.

(* ---- from a point of the triangle towards the foot of the perpendicular ---- *)
Definition hit (x q : Qc) : Qc := if qlt q 0 then x / (x - q) else 1.
Lemma hit_range x q : 0 <= x -> 0 <= hit x q /\ hit x q <= 1 /\ (q < 0 -> hit x q < 1 /\ x + hit x q * (q - x) = 0).
Proof.
  intro X. unfold hit. destruct (qlt q 0) eqn:E.
  - apply qlt_true in E. assert (D : 0 < x - q) by qlra. pose proof (pos_nz _ D) as NZ. split; [now apply qc_div_nonneg|].
    assert (L : x / (x - q) < 1).
    { replace (x / (x - q)) with (1 - (- q) / (x - q)) by (field; auto). pose proof (qc_div_pos (- q) (x - q) ltac:(qlra) D). qlra. }
    split; [qlra|]. intros _. split; [exact L|]. field; auto.
  - apply qlt_false in E. split; [qlra|]. split; [qlra|]. intro; qlra.
Qed.
Lemma hit_stays x q t : 0 <= x -> 0 <= t -> t <= hit x q -> 0 <= x + t * (q - x).
Proof.
  intros X T H. destruct (hit_range x q X) as [H0 [H1 H2]].
  destruct (Qclt_le_dec q 0) as [L|L].
  - destruct (H2 L) as [_ Z]. pose proof (qc_mul_nonneg (hit x q - t) (x - q) ltac:(qlra) ltac:(qlra)) as M.
    replace ((hit x q - t) * (x - q)) with (x + t * (q - x) - (x + hit x q * (q - x))) in M by ring. rewrite Z in M. qlra.
  - pose proof (qc_mul_nonneg t q T L). pose proof (qc_mul_nonneg (1 - t) x ltac:(qlra) X).
    replace (x + t * (q - x)) with ((1 - t) * x + t * q) by ring. qlra.
Qed.
Lemma to_border x1 x2 x3 q1 q2 q3 : 0 <= x1 -> 0 <= x2 -> 0 <= x3 -> (q1 <= 0 \/ q2 <= 0 \/ q3 <= 0) ->
  exists t, 0 <= t /\ t <= 1 /\ 0 <= x1 + t * (q1 - x1) /\ 0 <= x2 + t * (q2 - x2) /\ 0 <= x3 + t * (q3 - x3) /\
  (x1 + t * (q1 - x1) = 0 \/ x2 + t * (q2 - x2) = 0 \/ x3 + t * (q3 - x3) = 0).
Proof.
  intros X1 X2 X3 Q.
  destruct (hit_range x1 q1 X1) as [A0 [A1 A2]]. destruct (hit_range x2 q2 X2) as [B0 [B1 B2]]. destruct (hit_range x3 q3 X3) as [C0 [C1 C2]].
  assert (K : forall t, 0 <= t -> t <= hit x1 q1 -> t <= hit x2 q2 -> t <= hit x3 q3 ->
    0 <= x1 + t * (q1 - x1) /\ 0 <= x2 + t * (q2 - x2) /\ 0 <= x3 + t * (q3 - x3)).
  { intros t T H1 H2 H3. split; [now apply hit_stays|]. split; now apply hit_stays. }
  assert (ONE : 1 <= hit x1 q1 -> 1 <= hit x2 q2 -> 1 <= hit x3 q3 -> 
    exists t, 0 <= t /\ t <= 1 /\ 0 <= x1 + t * (q1 - x1) /\ 0 <= x2 + t * (q2 - x2) /\ 0 <= x3 + t * (q3 - x3) /\
    (x1 + t * (q1 - x1) = 0 \/ x2 + t * (q2 - x2) = 0 \/ x3 + t * (q3 - x3) = 0)).
  { intros H1 H2 H3. exists 1. split; [qlra|]. split; [qlra|]. destruct (K 1 ltac:(qlra) H1 H2 H3) as [K1 [K2 K3]].
    split; [exact K1|]. split; [exact K2|]. split; [exact K3|].
    destruct Q as [Q|[Q|Q]]; [left|right; left|right; right].
    - assert (q1 = 0); [|subst; ring]. destruct (Qclt_le_dec q1 0) as [L|L]; [destruct (A2 L); qlra|qlra].
    - assert (q2 = 0); [|subst; ring]. destruct (Qclt_le_dec q2 0) as [L|L]; [destruct (B2 L); qlra|qlra].
    - assert (q3 = 0); [|subst; ring]. destruct (Qclt_le_dec q3 0) as [L|L]; [destruct (C2 L); qlra|qlra]. }
  destruct (Qclt_le_dec (hit x2 q2) (hit x1 q1)) as [L12|L12]; [destruct (Qclt_le_dec (hit x3 q3) (hit x2 q2)) as [L|L]|destruct (Qclt_le_dec (hit x3 q3) (hit x1 q1)) as [L|L]].
  - destruct (Qclt_le_dec q3 0) as [N|N].
    + exists (hit x3 q3). destruct (K (hit x3 q3)) as [K1 [K2 K3]]; try qlra. destruct (C2 N). repeat (split; [assumption|]). auto.
    + apply ONE; replace (hit x3 q3) with 1 in * by (unfold hit; replace (qlt q3 0) with false by (symmetry; now apply qlt_false); reflexivity); qlra.
  - destruct (Qclt_le_dec q2 0) as [N|N].
    + exists (hit x2 q2). destruct (K (hit x2 q2)) as [K1 [K2 K3]]; try qlra. destruct (B2 N). repeat (split; [assumption|]). auto.
    + apply ONE; replace (hit x2 q2) with 1 in * by (unfold hit; replace (qlt q2 0) with false by (symmetry; now apply qlt_false); reflexivity); qlra.
  - destruct (Qclt_le_dec q3 0) as [N|N].
    + exists (hit x3 q3). destruct (K (hit x3 q3)) as [K1 [K2 K3]]; try qlra. destruct (C2 N). repeat (split; [assumption|]). auto.
    + apply ONE; replace (hit x3 q3) with 1 in * by (unfold hit; replace (qlt q3 0) with false by (symmetry; now apply qlt_false); reflexivity); qlra.
  - destruct (Qclt_le_dec q1 0) as [N|N].
    + exists (hit x1 q1). destruct (K (hit x1 q1)) as [K1 [K2 K3]]; try qlra. destruct (A2 N). repeat (split; [assumption|]). auto.
    + apply ONE; replace (hit x1 q1) with 1 in * by (unfold hit; replace (qlt q1 0) with false by (symmetry; now apply qlt_false); reflexivity); qlra.
Qed.

Section T.
Variables p a b c : v3.
Let n := cross3 (minus3 b a) (minus3 a c).
Let wc := dot3 (cross3 (minus3 b a) n) (minus3 p a).
Let wa := dot3 (cross3 (minus3 c b) n) (minus3 p b).
Let wb := dot3 (cross3 (minus3 a c) n) (minus3 p c).
Definition at_w (r s t : Qc) : v3 :=
  mkv (r * vx a + s * vx b + t * vx c) (r * vy a + s * vy b + t * vy c) (r * vz a + s * vz b + t * vz c).

Lemma w_sum : wa + wb + wc = dot3 n n.
Proof. unfold wa, wb, wc, n. vring. Qed.
(* the squared distance to a combination of the corners *)
Lemma w_dist r s t : r + s + t = 1 -> n <> zero3 ->
  dist2 p (at_w r s t) = dot3 n (minus3 p a) * dot3 n (minus3 p a) / dot3 n n +
    dist2 (at_w (wa / dot3 n n) (wb / dot3 n n) (wc / dot3 n n)) (at_w r s t).
Proof.
  intros R N. pose proof (pos_nz _ (nz_pos n N)) as NN. apply (mul_cancel (dot3 n n * dot3 n n)).
  { intro K. apply Qcmult_integral in K. tauto. }
  assert (Er : r = 1 - s - t) by qlra. subst r.
  (* multiplied by the squared normal, everything is a polynomial *)
  set (q := at_w (wa / dot3 n n) (wb / dot3 n n) (wc / dot3 n n)).
  set (k := dot3 n (minus3 p a)).
  assert (Q1 : dot3 n n * vx q = dot3 n n * vx p - k * vx n).
  { transitivity (wa * vx a + wb * vx b + wc * vx c); [unfold q, at_w; cbn [vx]; field; auto|]. unfold k, wa, wb, wc, n. vring. }
  assert (Q2 : dot3 n n * vy q = dot3 n n * vy p - k * vy n).
  { transitivity (wa * vy a + wb * vy b + wc * vy c); [unfold q, at_w; cbn [vy]; field; auto|]. unfold k, wa, wb, wc, n. vring. }
  assert (Q3 : dot3 n n * vz q = dot3 n n * vz p - k * vz n).
  { transitivity (wa * vz a + wb * vz b + wc * vz c); [unfold q, at_w; cbn [vz]; field; auto|]. unfold k, wa, wb, wc, n. vring. }
  set (x := at_w (1 - s - t) s t).
  assert (X0 : dot3 n (minus3 p x) = k).
  { unfold k, x, at_w, n. vring. }
  transitivity (dot3 n n * (k * k) + ((dot3 n n * vx q - dot3 n n * vx x) * (dot3 n n * vx q - dot3 n n * vx x) + (dot3 n n * vy q - dot3 n n * vy x) * (dot3 n n * vy q - dot3 n n * vy x) + (dot3 n n * vz q - dot3 n n * vz x) * (dot3 n n * vz q - dot3 n n * vz x))).
  - rewrite Q1, Q2, Q3. clearbody k n x q. rewrite <- X0. unfold dist2. vring.
  - assert (Dq : dist2 q x = (vx q - vx x) * (vx q - vx x) + (vy q - vy x) * (vy q - vy x) + (vz q - vz x) * (vz q - vz x)) by reflexivity.
    rewrite Dq. field. auto.
Qed.

(* points of the edges *)
Definition on_edge (y : v3) : Prop := exists s, 0 <= s /\ s <= 1 /\
  (y = along a s (minus3 b a) \/ y = along b s (minus3 c b) \/ y = along c s (minus3 a c)).
Lemma edge_in y : on_edge y -> in_triangle a b c y.
Proof.
  intros [s [S0 [S1 [-> | [-> | ->]]]]].
  - exists (1 - s), s, 0. split; [qlra|]. split; [qlra|]. split; [qlra|]. split; [ring|]. unfold along, minus3; cbn [vx vy vz]; apply v3_ext; cbn [vx vy vz]; ring.
  - exists 0, (1 - s), s. split; [qlra|]. split; [qlra|]. split; [qlra|]. split; [ring|]. unfold along, minus3; cbn [vx vy vz]; apply v3_ext; cbn [vx vy vz]; ring.
  - exists s, 0, (1 - s). split; [qlra|]. split; [qlra|]. split; [qlra|]. split; [ring|]. unfold along, minus3; cbn [vx vy vz]; apply v3_ext; cbn [vx vy vz]; ring.
Qed.
Lemma zero_weight r s t : 0 <= r -> 0 <= s -> 0 <= t -> r + s + t = 1 -> (r = 0 \/ s = 0 \/ t = 0) -> on_edge (at_w r s t).
Proof.
  intros R S0 T E [Z|[Z|Z]]; subst.
  - exists t. split; [exact T|]. split; [qlra|]. right; left. assert (Es : s = 1 - t) by qlra. rewrite Es. unfold at_w, along, minus3; cbn [vx vy vz]; apply v3_ext; cbn [vx vy vz]; ring.
  - exists r. split; [exact R|]. split; [qlra|]. right; right. assert (Es : t = 1 - r) by qlra. rewrite Es. unfold at_w, along, minus3; cbn [vx vy vz]; apply v3_ext; cbn [vx vy vz]; ring.
  - exists s. split; [exact S0|]. split; [qlra|]. left. assert (Es : r = 1 - s) by qlra. rewrite Es. unfold at_w, along, minus3; cbn [vx vy vz]; apply v3_ext; cbn [vx vy vz]; ring.
Qed.

(* when the foot is not inside, some point of the border is at least as near *)
Lemma border_proper x : n <> zero3 -> (wa <= 0 \/ wb <= 0 \/ wc <= 0) -> in_triangle a b c x -> exists y, on_edge y /\ dist2 p y <= dist2 p x.
Proof.
  intros N W [r [s [t [R [S0 [T [E ->]]]]]]]. pose proof (nz_pos n N) as NN.
  set (qa := wa / dot3 n n). set (qb := wb / dot3 n n). set (qc := wc / dot3 n n).
  assert (Q : qa <= 0 \/ qb <= 0 \/ qc <= 0).
  { unfold qa, qb, qc. destruct W as [W|[W|W]]; [left|right; left|right; right]; apply qc_div_le; auto; qlra. }
  assert (QS : qa + qb + qc = 1) by (transitivity ((wa + wb + wc) / dot3 n n); [unfold qa, qb, qc; field; now apply pos_nz|rewrite w_sum; field; now apply pos_nz]).
  destruct (to_border r s t qa qb qc R S0 T Q) as [z [Z0 [Z1 [M1 [M2 [M3 M0]]]]]].
  assert (MS : r + z * (qa - r) + (s + z * (qb - s)) + (t + z * (qc - t)) = 1).
  { transitivity ((r + s + t) * (1 - z) + z * (qa + qb + qc)); [ring|]. rewrite E, QS. ring. }
  exists (at_w (r + z * (qa - r)) (s + z * (qb - s)) (t + z * (qc - t))). split; [now apply zero_weight|].
  change (mkv _ _ _) with (at_w r s t). rewrite !w_dist by auto. fold qa qb qc.
  replace (dist2 (at_w qa qb qc) (at_w (r + z * (qa - r)) (s + z * (qb - s)) (t + z * (qc - t)))) with ((1 - z) * (1 - z) * dist2 (at_w qa qb qc) (at_w r s t)) by (unfold dist2, at_w; vring).
  set (D := dist2 (at_w qa qb qc) (at_w r s t)).
  assert (0 <= D) by (unfold D, dist2; apply dot_self_nonneg).
  assert (0 <= (1 - (1 - z) * (1 - z)) * D).
  { apply qc_mul_nonneg; [|assumption]. replace (1 - (1 - z) * (1 - z)) with (z * (1 + 1 - z)) by ring. apply qc_mul_nonneg; qlra. }
  replace ((1 - (1 - z) * (1 - z)) * D) with (D - (1 - z) * (1 - z) * D) in * by ring. qlra.
Qed.

(* a triangle without area is covered by its edges *)
Lemma border_flat x : n = zero3 -> b <> a -> a <> c -> in_triangle a b c x -> on_edge x.
Proof.
  intros N Nba Nac [r [s [t [R [S0 [T [E ->]]]]]]].
  assert (U : minus3 b a <> zero3).
  { intro K. apply Nba. apply v3_inv in K. unfold minus3, zero3 in K. cbn [vx vy vz] in K. destruct K as [X [Y Z]]. apply v3_ext; qlra. }
  destruct (parallel_cross (minus3 a c) (minus3 b a) U) as [k Ek].
  { unfold n in N. apply v3_inv in N. unfold cross3, zero3 in *. cbn [vx vy vz] in *. destruct N as [X [Y Z]]. apply v3_ext; cbn [vx vy vz]; qlra. }
  (* c = a - k (b - a) *)
  apply v3_inv in Ek. unfold minus3, along, zero3 in Ek. cbn [vx vy vz] in Ek. destruct Ek as [X [Y Z]].
  set (m := - k).
  assert (Cx : vx c = vx a + m * (vx b - vx a)) by (unfold m; qlra).
  assert (Cy : vy c = vy a + m * (vy b - vy a)) by (unfold m; qlra).
  assert (Cz : vz c = vz a + m * (vz b - vz a)) by (unfold m; qlra).
  clearbody m. set (w := s + t * m).
  assert (Er : r = 1 - s - t) by qlra. subst r.
  assert (EX : mkv ((1 - s - t) * vx a + s * vx b + t * vx c) ((1 - s - t) * vy a + s * vy b + t * vy c) ((1 - s - t) * vz a + s * vz b + t * vz c) = along a w (minus3 b a)).
  { rewrite Cx, Cy, Cz. unfold w, along, minus3. apply v3_ext; cbn [vx vy vz]; ring. }
  rewrite EX.
  assert (M0 : m <> 0).
  { intro K. apply Nac. rewrite K in *. apply v3_ext; [rewrite Cx|rewrite Cy|rewrite Cz]; ring. }
  assert (EC : forall z, along c z (minus3 a c) = along a (m * (1 - z)) (minus3 b a)).
  { intro z. unfold along, minus3. cbn [vx vy vz]. rewrite Cx, Cy, Cz. apply v3_ext; cbn [vx vy vz]; ring. }
  assert (EM : forall w', w' / m = (- w') / (- m)).
  { intro w'. assert (- m <> 0) by (intro K; apply M0; replace m with (- - m) by ring; rewrite K; ring). field; auto. }
  assert (ON_AC : 0 <= w / m -> w / m <= 1 -> on_edge (along a w (minus3 b a))).
  { intros H0 H1. exists (1 - w / m). split; [qlra|]. split; [qlra|]. right; right. rewrite EC.
    replace (m * (1 - (1 - w / m))) with w by (field; auto). reflexivity. }
  destruct (Qclt_le_dec m 0) as [L|L].
  - destruct (Qclt_le_dec w 0) as [Lw|Lw].
    + apply ON_AC.
      * rewrite (EM w). apply qc_div_nonneg; qlra.
      * rewrite (EM w). apply qc_div_le; [qlra|]. 
        pose proof (qc_mul_nonneg (1 - t) (- m) ltac:(qlra) ltac:(qlra)) as M. unfold w. replace ((1 - t) * - m) with (t * m - m) in M by ring. qlra.
    + exists w. split; [exact Lw|]. split; [|now left].
      pose proof (qc_mul_nonneg t (- m) T ltac:(qlra)) as M. unfold w. replace (t * - m) with (- (t * m)) in M by ring. qlra.
  - assert (W0 : 0 <= w) by (unfold w; pose proof (qc_mul_nonneg t m T L); qlra).
    destruct (Qclt_le_dec 1 m) as [L1|L1].
    + apply ON_AC; [apply qc_div_nonneg; qlra|]. apply qc_div_le; [qlra|].
      pose proof (qc_mul_nonneg (1 - t) (m - 1) ltac:(qlra) ltac:(qlra)) as M. unfold w. replace ((1 - t) * (m - 1)) with (m - t * m - 1 + t) in M by ring. qlra.
    + exists w. split; [exact W0|]. split; [|now left].
      pose proof (qc_mul_nonneg t (1 - m) T ltac:(qlra)) as M. unfold w. replace (t * (1 - m)) with (t - t * m) in M by ring. qlra.
Qed.

Lemma minus_nz (u w : v3) : u <> w -> minus3 u w <> zero3.
Proof.
  intros N K. apply N. apply v3_inv in K. unfold minus3, zero3 in K. cbn [vx vy vz] in K. destruct K as [X [Y Z]]. apply v3_ext; qlra.
Qed.

(* the best of the three edges *)
Lemma edges_nearest : a <> b -> b <> c -> c <> a -> (forall x, in_triangle a b c x -> exists y, on_edge y /\ dist2 p y <= dist2 p x) ->
  nearest2 p a b c (qmin (qmin (edge_d p a (minus3 b a)) (edge_d p b (minus3 c b))) (edge_d p c (minus3 a c))).
Proof.
  intros N1 N2 N3 H.
  set (d1 := edge_d p a (minus3 b a)). set (d2 := edge_d p b (minus3 c b)). set (d3 := edge_d p c (minus3 a c)).
  assert (A1 : exists y, on_edge y /\ dist2 p y = d1).
  { eexists. split; [|unfold d1, edge_d; cbv zeta; reflexivity]. eexists. destruct (clip_range (dot3 (minus3 b a) (minus3 p a) / dot3 (minus3 b a) (minus3 b a))). split; [eassumption|]. split; [eassumption|]. now left. }
  assert (A2 : exists y, on_edge y /\ dist2 p y = d2).
  { eexists. split; [|unfold d2, edge_d; cbv zeta; reflexivity]. eexists. destruct (clip_range (dot3 (minus3 c b) (minus3 p b) / dot3 (minus3 c b) (minus3 c b))). split; [eassumption|]. split; [eassumption|]. right; now left. }
  assert (A3 : exists y, on_edge y /\ dist2 p y = d3).
  { eexists. split; [|unfold d3, edge_d; cbv zeta; reflexivity]. eexists. destruct (clip_range (dot3 (minus3 a c) (minus3 p c) / dot3 (minus3 a c) (minus3 a c))). split; [eassumption|]. split; [eassumption|]. right; now right. }
  pose proof (fun s => edge_best p a (minus3 b a) s (minus_nz b a (fun K => N1 (eq_sym K)))) as B1. fold d1 in B1.
  pose proof (fun s => edge_best p b (minus3 c b) s (minus_nz c b (fun K => N2 (eq_sym K)))) as B2. fold d2 in B2.
  pose proof (fun s => edge_best p c (minus3 a c) s (minus_nz a c (fun K => N3 (eq_sym K)))) as B3. fold d3 in B3.
  clearbody d1 d2 d3. clear n wa wb wc.
  assert (L : qmin (qmin d1 d2) d3 <= d1 /\ qmin (qmin d1 d2) d3 <= d2 /\ qmin (qmin d1 d2) d3 <= d3 /\
    (qmin (qmin d1 d2) d3 = d1 \/ qmin (qmin d1 d2) d3 = d2 \/ qmin (qmin d1 d2) d3 = d3)).
  { clear. unfold qmin. destruct (qlt d2 d1) eqn:E1; rewrite ?qlt_true, ?qlt_false in E1.
    - destruct (qlt d3 d2) eqn:E2; rewrite ?qlt_true, ?qlt_false in E2; repeat split; auto; qlra.
    - destruct (qlt d3 d1) eqn:E2; rewrite ?qlt_true, ?qlt_false in E2; repeat split; auto; qlra. }
  destruct L as [L1 [L2 [L3 L4]]]. split.
  - destruct L4 as [-> | [-> | ->]]; [destruct A1 as [y [Y1 Y2]]|destruct A2 as [y [Y1 Y2]]|destruct A3 as [y [Y1 Y2]]]; exists y; (split; [now apply edge_in|exact Y2]).
  - intros x X. destruct (H x X) as [y [[s [S0 [S1 Y]]] Yd]].
    destruct Y as [-> | [-> | ->]].
    + eapply Qcle_trans; [exact L1|]. eapply Qcle_trans; [exact (B1 s S0 S1)|exact Yd].
    + eapply Qcle_trans; [exact L2|]. eapply Qcle_trans; [exact (B2 s S0 S1)|exact Yd].
    + eapply Qcle_trans; [exact L3|]. eapply Qcle_trans; [exact (B3 s S0 S1)|exact Yd].
Qed.

Lemma sign_pos x : npsign x = 1 \/ x <= 0.
Proof. unfold npsign. destruct (qlt 0 x) eqn:E; [now left|]. right. now apply qlt_false in E. Qed.
Lemma sign_neg x : x < 0 -> npsign x = - 1%Qc.
Proof.
  intro H. unfold npsign. replace (qlt 0 x) with false by (symmetry; apply qlt_false; qlra).
  replace (qlt x 0) with true by (symmetry; now apply qlt_true). reflexivity.
Qed.
Lemma sign_le x : npsign x <= 1.
Proof. unfold npsign. destruct (qlt 0 x); [qlra|]. destruct (qlt x 0); qlra. Qed.
Lemma sign_zero : npsign 0 = 0.
Proof. reflexivity. Qed.

Lemma zq2 : zq 2 = 1 + 1.
Proof. reflexivity. Qed.

Lemma ud_ok sqrt : a <> b -> b <> c -> c <> a -> exists D, ud_triangle sqrt p a b c = Ok (sqrt D) /\ nearest2 p a b c D.
Proof.
  intros N1 N2 N3. unfold ud_triangle. cbv zeta. change vdot with dot3. change vsub with minus3. change vcross with cross3.
  fold n. fold wc wa wb.
  pose proof (nz_pos _ (minus_nz b a ltac:(congruence))) as P1. pose proof (nz_pos _ (minus_nz c b ltac:(congruence))) as P2. pose proof (nz_pos _ (minus_nz a c ltac:(congruence))) as P3.
  destruct (qlt (npsign wc + npsign wa + npsign wb) (zq 2)) eqn:E.
  - apply qlt_true in E. rewrite zq2 in E. unfold dot2v. change vdot with dot3.
    rewrite !divR_ok_ by now apply pos_nz. cbn [bind].
    rewrite !edge_value. eexists. split; [reflexivity|].
    apply edges_nearest; auto. intros x X.
    destruct (v3_dec n zero3) as [Z|Z].
    + exists x. split; [apply border_flat; auto|qlra].
    + apply border_proper; auto. destruct (sign_pos wa) as [A|A]; [|tauto]. destruct (sign_pos wb) as [B|B]; [|tauto]. destruct (sign_pos wc) as [C|C]; [|tauto].
      exfalso. rewrite A, B, C in E. qlra.
  - apply qlt_false in E. rewrite zq2 in E.
    pose proof (sign_le wa) as LA. pose proof (sign_le wb) as LB. pose proof (sign_le wc) as LC.
    assert (A0 : 0 <= wa) by (destruct (Qclt_le_dec wa 0) as [L|L]; [rewrite (sign_neg _ L) in E; qlra|exact L]).
    assert (B0 : 0 <= wb) by (destruct (Qclt_le_dec wb 0) as [L|L]; [rewrite (sign_neg _ L) in E; qlra|exact L]).
    assert (C0 : 0 <= wc) by (destruct (Qclt_le_dec wc 0) as [L|L]; [rewrite (sign_neg _ L) in E; qlra|exact L]).
    assert (N : n <> zero3).
    { intro K. assert (wa = 0) as Ha by (unfold wa; rewrite K; vring). assert (wb = 0) as Hb by (unfold wb; rewrite K; vring). assert (wc = 0) as Hc by (unfold wc; rewrite K; vring).
      rewrite Ha, Hb, Hc, sign_zero in E. qlra. }
    pose proof (nz_pos n N) as NN. rewrite divR_ok_ by now apply pos_nz. cbn [bind]. eexists. split; [reflexivity|].
    assert (QS : wa / dot3 n n + wb / dot3 n n + wc / dot3 n n = 1) by (transitivity ((wa + wb + wc) / dot3 n n); [field; now apply pos_nz|rewrite w_sum; field; now apply pos_nz]).
    split.
    + exists (at_w (wa / dot3 n n) (wb / dot3 n n) (wc / dot3 n n)). split.
      * exists (wa / dot3 n n), (wb / dot3 n n), (wc / dot3 n n). repeat (split; [try apply qc_div_nonneg; auto|]). reflexivity.
      * rewrite w_dist by auto. replace (dist2 _ (at_w (wa / dot3 n n) (wb / dot3 n n) (wc / dot3 n n))) with 0; [ring|].
        unfold dist2. vring.
    + intros x [r [s [t [R [S0 [T [Es ->]]]]]]]. change (mkv _ _ _) with (at_w r s t). rewrite w_dist by auto.
      assert (0 <= dist2 (at_w (wa / dot3 n n) (wb / dot3 n n) (wc / dot3 n n)) (at_w r s t)) by (unfold dist2; apply dot_self_nonneg). qlra.
Qed.

Lemma ud_flat sqrt : a = b \/ b = c \/ c = a -> ud_triangle sqrt p a b c = Err ZeroDivision.
Proof.
  intro H. unfold ud_triangle. cbv zeta. change vdot with dot3. change vsub with minus3. change vcross with cross3. fold n. fold wc wa wb.
  assert (N : n = zero3).
  { unfold n. destruct H as [-> | [-> | ->]]; unfold cross3, minus3, zero3; cbn [vx vy vz]; apply v3_ext; cbn [vx vy vz]; ring. }
  assert (wa = 0) as Ha by (unfold wa; rewrite N; vring). assert (wb = 0) as Hb by (unfold wb; rewrite N; vring). assert (wc = 0) as Hc by (unfold wc; rewrite N; vring).
  rewrite Ha, Hb, Hc, sign_zero. replace (qlt (0 + 0 + 0) (zq 2)) with true by (vm_compute; reflexivity).
  assert (Z : forall u k, u = zero3 -> divR k (dot2v u) = Err ZeroDivision).
  { intros u k ->. replace (dot2v zero3) with 0 by (unfold dot2v, vdot, zero3; cbn [vx vy vz]; ring). apply divR_zero_. }
  assert (F : forall k x, divR k x = Ok (k / x) \/ divR k x = Err ZeroDivision).
  { intros k x. destruct (Qc_eq_dec x 0) as [->|K]; [right; apply divR_zero_|left; now apply divR_ok_]. }
  assert (ZZ : forall u, minus3 u u = zero3) by (intro u; unfold minus3, zero3; f_equal; ring).
  destruct (F (dot3 (minus3 b a) (minus3 p a)) (dot2v (minus3 b a))) as [E1|E1]; [|rewrite E1; reflexivity]. rewrite E1. cbn [bind].
  destruct (F (dot3 (minus3 c b) (minus3 p b)) (dot2v (minus3 c b))) as [E2|E2]; [|rewrite E2; reflexivity]. rewrite E2. cbn [bind].
  destruct H as [H|[H|H]].
  - exfalso. rewrite Z in E1 by (rewrite H; apply ZZ). discriminate.
  - exfalso. rewrite Z in E2 by (rewrite H; apply ZZ). discriminate.
  - rewrite Z by (rewrite H; apply ZZ). reflexivity.
Qed.
End T.
