(* Proofs about circles and lengths. *)
From Coq Require Import List ZArith Lia Bool QArith Qcanon Qround.
From Verif Require Import Common ListLib QcLib ArrZ SumLib NurbsModel PlnModel PlnProofs2 PlnProofs4 CircModel CircSpec.
Import ListNotations.
Local Open Scope Z_scope.
Local Open Scope Qc_scope.

Ltac cs := unfold on_circle, circle_evaluate, circle_normal, is_angle in *; unfold gap, centre, sqr in *; cbn [fst snd c_x c_y c_r] in *.
Lemma pos_nz s : 0 < s -> s <> 0. Proof. intros P E. rewrite E in P. discriminate P. Qed.
Lemma root_pos s x : root_of s x -> x <> 0 -> 0 < s.
Proof. intros [A B] N. destruct (Qclt_le_dec 0 s) as [L|L]; auto. exfalso. apply N. assert (s = 0) by qlra. subst s. rewrite <- B. ring. Qed.
Lemma root_unique a b x : root_of a x -> root_of b x -> a = b.
Proof.
  intros [P1 Q1] [P2 Q2]. assert (E : (a - b) * (a + b) = 0) by (transitivity (a * a - b * b); [ring|rewrite Q1, Q2; ring]).
  apply Qcmult_integral in E. destruct E as [E|E]; [qlra|]. assert (a = 0) by qlra. assert (b = 0) by qlra. congruence.
Qed.
Lemma sq_mono a b : 0 <= a -> 0 <= b -> a < b -> a * a < b * b.
Proof. intros A B L. assert (0 < (b - a) * (b + a)) by (apply qc_mul_pos; qlra). qlra. Qed.
Lemma sq_mono2 a b : 0 <= a -> 0 <= b -> a <= b -> a * a <= b * b.
Proof. intros A B L. assert (0 <= (b - a) * (b + a)) by (apply qc_mul_nonneg; qlra). qlra. Qed.
Lemma sq_ge0 (x : Qc) : 0 <= x * x. Proof. apply sq_nonneg. Qed.
Lemma sq_anti a b : 0 <= b -> a * a <= b * b -> a <= b.
Proof. intros B L. destruct (Qclt_le_dec b a) as [K|K]; auto. pose proof (sq_mono b a B ltac:(qlra) K). qlra. Qed.

Section S.
Variable sqrt : Qc -> Qc.

Lemma norm2_gap c v : norm2 sqrt (circle_normal c v) = sqrt (gap v (centre c)). Proof. reflexivity. Qed.

Lemma evaluate_on c t : is_angle t -> on_circle c (circle_evaluate c t).
Proof.
  intro A. cs. transitivity (c_r c * c_r c * (fst t * fst t + snd t * snd t)); [ring|rewrite A; ring].
Qed.
Lemma evaluate_all c p : c_r c <> 0 -> on_circle c p -> exists t, is_angle t /\ circle_evaluate c t = p.
Proof.
  intros N O. exists ((fst p - c_x c) / c_r c, (snd p - c_y c) / c_r c). cs. split.
  - transitivity (((fst p - c_x c) * (fst p - c_x c) + (snd p - c_y c) * (snd p - c_y c)) / (c_r c * c_r c)); [field; auto|rewrite O; field; auto].
  - destruct p as [x y]. cbn [fst snd]. f_equal; field; auto.
Qed.
Lemma implicit_sign c p : 0 <= c_r c -> good sqrt (gap p (centre c)) ->
  root_of (circle_implicit sqrt c p + c_r c) (gap p (centre c)) /\ (circle_implicit sqrt c p = 0 <-> on_circle c p) /\
  (circle_implicit sqrt c p < 0 <-> gap p (centre c) < sqr (c_r c)).
Proof.
  intros R G. unfold circle_implicit. rewrite norm2_gap. set (n := sqrt _) in *. destruct G as [A B]. fold n in A, B.
  split; [split; [qlra|transitivity (n * n); [ring|auto]]|]. unfold on_circle, sqr. rewrite <- B. split; split; intro K.
  - assert (n = c_r c) by qlra. congruence.
  - assert (n = c_r c) by (apply (root_unique _ _ (n * n)); split; auto). qlra.
  - apply sq_mono; auto. qlra.
  - destruct (Qclt_le_dec (n - c_r c) 0); auto. exfalso. pose proof (sq_mono2 (c_r c) n R A ltac:(qlra)). qlra.
Qed.

(* the point of the circle in the direction of p *)
Lemma unit_dir c v : v <> centre c -> good sqrt (gap v (centre c)) -> exists x y n, n = norm2 sqrt (circle_normal c v) /\ 0 < n /\
  fst v - c_x c = n * x /\ snd v - c_y c = n * y /\ x * x + y * y = 1 /\
  divR (fst (circle_normal c v)) n = Ok x /\ divR (snd (circle_normal c v)) n = Ok y /\ n * n = gap v (centre c).
Proof.
  intros NV G.
  assert (NG : gap v (centre c) <> 0).
  { intro Z. apply NV. cs. pose proof (sq_ge0 (fst v - c_x c)). pose proof (sq_ge0 (snd v - c_y c)).
    assert (A : (fst v - c_x c) * (fst v - c_x c) = 0) by qlra. assert (B : (snd v - c_y c) * (snd v - c_y c) = 0) by qlra.
    apply sq_zero in A. apply sq_zero in B. destruct v. cbn [fst snd] in *. f_equal; qlra. }
  rewrite norm2_gap. set (n := sqrt (gap v (centre c))) in *. pose proof (root_pos _ _ G NG) as P. fold n in P. destruct G as [_ B]. fold n in B.
  pose proof (pos_nz _ P) as NZ. exists ((fst v - c_x c) / n), ((snd v - c_y c) / n), n.
  split; [reflexivity|]. split; [auto|]. split; [field; auto|]. split; [field; auto|]. split.
  - transitivity (gap v (centre c) / (n * n)); [cs; field; auto|rewrite <- B; field; auto].
  - cbn [circle_normal fst snd]. rewrite !divR_ok_ by auto. auto.
Qed.
Lemma nearest_dir c v x y n : 0 <= c_r c -> 0 < n -> fst v - c_x c = n * x -> snd v - c_y c = n * y -> x * x + y * y = 1 ->
  nearest c v (c_x c + c_r c * x, c_y c + c_r c * y) /\ gap v (c_x c + c_r c * x, c_y c + c_r c * y) = sqr (n - c_r c).
Proof.
  intros R P X Y U. set (r := c_r c) in *.
  assert (G : gap v (c_x c + r * x, c_y c + r * y) = sqr (n - r)).
  { unfold gap, sqr. cbn [fst snd]. replace (fst v - (c_x c + r * x)) with (n * x - r * x) by (rewrite <- X; ring). replace (snd v - (c_y c + r * y)) with (n * y - r * y) by (rewrite <- Y; ring).
    transitivity ((n - r) * (n - r) * (x * x + y * y)); [ring|rewrite U; ring]. }
  split; [|exact G]. split.
  - cs. fold r. transitivity (r * r * (x * x + y * y)); [ring|rewrite U; ring].
  - intros q Q. rewrite G. unfold on_circle, gap, centre, sqr in *. cbn [fst snd] in *. fold r in Q.
    set (a := fst q - c_x c) in *. set (b := snd q - c_y c) in *.
    replace (fst v - fst q) with (n * x - a) by (unfold a; rewrite <- X; ring). replace (snd v - snd q) with (n * y - b) by (unfold b; rewrite <- Y; ring).
    assert (K : a * x + b * y <= r).
    { apply sq_anti; auto. assert (E : (a * x + b * y) * (a * x + b * y) + (a * y - b * x) * (a * y - b * x) = r * r).
      { transitivity ((a * a + b * b) * (x * x + y * y)); [ring|rewrite Q, U; ring]. }
      pose proof (sq_ge0 (a * y - b * x)). qlra. }
    assert (E : (n * x - a) * (n * x - a) + (n * y - b) * (n * y - b) = n * n - (1 + 1) * n * (a * x + b * y) + r * r).
    { transitivity (n * n * (x * x + y * y) - (1 + 1) * n * (a * x + b * y) + (a * a + b * b)); [ring|rewrite U, Q; ring]. }
    rewrite E. assert (0 <= n * (r - (a * x + b * y))) by (apply qc_mul_nonneg; qlra). qlra.
Qed.
Lemma unit_bounds x y : x * x + y * y = 1 -> - (1) <= x /\ x <= 1.
Proof.
  intro U. pose proof (sq_ge0 y). split.
  - assert (- x <= 1) by (apply sq_anti; [discriminate|qlra]). qlra.
  - apply sq_anti; [discriminate|qlra].
Qed.
Lemma arccos_ok x y : x * x + y * y = 1 -> good sqrt (y * y) -> arccos sqrt x = Ok (x, sqrt (y * y)) /\ sqrt (y * y) = fabs y.
Proof.
  intros U G. destruct (unit_bounds x y U) as [L1 L2]. unfold arccos.
  rewrite (proj2 (qlt_false x (- (1)))), (proj2 (qlt_false 1 x)) by auto. cbn [orb]. replace (1 - x * x) with (y * y) by qlra. split; [reflexivity|].
  apply (root_unique _ _ (y * y)); auto. split; [apply fabs_nonneg|apply fabs_sq].
Qed.
Lemma point_on_curve_ok c v : 0 <= c_r c -> v <> centre c -> good sqrt (gap v (centre c)) ->
  (forall x y n, n * n = gap v (centre c) -> n * x = fst v - c_x c -> n * y = snd v - c_y c -> 0 < n -> good sqrt (y * y)) ->
  exists q t, point_on_curve sqrt c v = Ok (q, t) /\ nearest c v q /\ gap v q = sqr (circle_implicit sqrt c v) /\
    (c_r c <> 0 -> (circle_evaluate c t = q <-> c_y c <= snd v)).
Proof.
  intros R NV G GY. destruct (unit_dir c v NV G) as (x & y & n & En & P & X & Y & U & DX & DY & NN).
  destruct (nearest_dir c v x y n R P X Y U) as (NE & GP). unfold point_on_curve. cbv zeta. rewrite <- En, DX, DY. cbn [bind].
  destruct (arccos_ok x y U) as (AC & FA); [eapply GY; eauto|]. rewrite AC. cbn [bind].
  replace (fst v - x * (n - c_r c)) with (c_x c + c_r c * x) by (transitivity (fst v - n * x + c_r c * x); [rewrite <- X; ring|ring]).
  replace (snd v - y * (n - c_r c)) with (c_y c + c_r c * y) by (transitivity (snd v - n * y + c_r c * y); [rewrite <- Y; ring|ring]).
  eexists _, _. split; [reflexivity|]. split; [exact NE|]. split; [rewrite GP; unfold circle_implicit; rewrite <- En; reflexivity|].
  intro RN. unfold circle_evaluate. cbn [fst snd]. rewrite FA.
  assert (SY : c_y c <= snd v <-> 0 <= y).
  { split; intro K.
    - destruct (Qclt_le_dec y 0) as [L|L]; auto. exfalso. assert (0 < n * - y) by (apply qc_mul_pos; qlra). qlra.
    - assert (0 <= n * y) by (apply qc_mul_nonneg; qlra). qlra. }
  rewrite SY. split; intro K.
  - apply (f_equal snd) in K. cbn [snd] in K. assert (E : c_r c * (fabs y - y) = 0) by qlra. apply mul_zero in E; auto. pose proof (fabs_nonneg y). qlra.
  - unfold fabs. rewrite (proj2 (qlt_false y 0)) by auto. reflexivity.
Qed.
Lemma centre_fails c : good sqrt 0 -> point_on_curve sqrt c (centre c) = Err ZeroDivision /\ circle_unit sqrt c (centre c) = Err ZeroDivision.
Proof.
  intro G. assert (Z : sqrt 0 = 0) by (apply (root_unique _ _ 0); auto; split; [qlra|ring]).
  unfold point_on_curve, circle_unit. rewrite norm2_gap. replace (gap (centre c) (centre c)) with 0 by (cs; ring). rewrite Z. cbv zeta. rewrite divR_zero_. auto.
Qed.
Lemma unit_ok2 c v : v <> centre c -> good sqrt (gap v (centre c)) -> exists u, circle_unit sqrt c v = Ok u /\ is_angle u /\
  fst v = c_x c + (circle_implicit sqrt c v + c_r c) * fst u /\ snd v = c_y c + (circle_implicit sqrt c v + c_r c) * snd u.
Proof.
  intros NV G. destruct (unit_dir c v NV G) as (x & y & n & En & P & X & Y & U & DX & DY & NN).
  unfold circle_unit. cbv zeta. rewrite <- En, DX, DY. cbn [bind]. exists (x, y). split; [reflexivity|]. split; [cs; exact U|].
  unfold circle_implicit. rewrite <- En. cbn [fst snd]. split; [transitivity (c_x c + n * x); [rewrite <- X|]; ring|transitivity (c_y c + n * y); [rewrite <- Y|]; ring].
Qed.

(* closest_point_on_circle_2d *)
Lemma closest_value c v : v <> centre c -> good sqrt (gap v (centre c)) ->
  (forall x y n, n * n = gap v (centre c) -> n * x = fst v - c_x c -> n * y = snd v - c_y c -> 0 < n -> good sqrt (y * y)) ->
  exists u t, circle_unit sqrt c v = Ok u /\ closest_point_on_circle sqrt c v = Ok t /\ fst t = fabs (snd u) /\ snd t = - fst u.
Proof.
  intros NV G GY. destruct (unit_dir c v NV G) as (x & y & n & En & P & X & Y & U & DX & DY & NN).
  unfold closest_point_on_circle, circle_unit. cbv zeta. rewrite <- En, DX, DY. cbn [bind fst].
  destruct (arccos_ok x y U) as (AC & FA); [eapply GY; eauto|]. rewrite AC. cbn [bind].
  eexists _, _. split; [reflexivity|]. split; [reflexivity|]. unfold minus_angle. cbn [fst snd]. rewrite FA. split; ring.
Qed.
Lemma closest_wrong c v : 0 < c_r c -> v <> centre c -> good sqrt (gap v (centre c)) ->
  (forall x y n, n * n = gap v (centre c) -> n * x = fst v - c_x c -> n * y = snd v - c_y c -> 0 < n -> good sqrt (y * y)) ->
  exists t, closest_point_on_circle sqrt c v = Ok t /\ on_circle c (circle_evaluate c t) /\
   (nearest c v (circle_evaluate c t) -> fst v - c_x c = - (snd v - c_y c) /\ c_x c <= fst v).
Proof.
  intros RP NV G GY. destruct (closest_value c v NV G GY) as (u & t & EU & ET & TX & TY). exists t. split; [exact ET|].
  destruct (unit_dir c v NV G) as (x & y & n & En & P & X & Y & U & DX & DY & NN).
  assert (UE : u = (x, y)). { unfold circle_unit in EU. cbv zeta in EU. rewrite <- En, DX, DY in EU. cbn [bind] in EU. congruence. }
  subst u. cbn [fst snd] in TX, TY. pose proof (pos_nz _ RP) as RN.
  assert (AT : is_angle t). { unfold is_angle, sqr. rewrite TX, TY, fabs_sq. rewrite <- U. ring. }
  split; [apply evaluate_on; auto|]. intros [_ NE].
  destruct (nearest_dir c v x y n ltac:(qlra) P X Y U) as ((O & _) & GP). specialize (NE _ O). rewrite GP in NE.
  unfold gap, circle_evaluate, sqr in NE. cbn [fst snd] in NE. rewrite TX, TY in NE. set (f := fabs y) in *. set (r := c_r c) in *.
  assert (FF : f * f = y * y) by apply fabs_sq. assert (F0 : 0 <= f) by apply fabs_nonneg. clearbody f.
  replace (fst v - (c_x c + r * f)) with (n * x - r * f) in NE by (rewrite <- X; ring). replace (snd v - (c_y c + r * - x)) with (n * y + r * x) in NE by (rewrite <- Y; ring).
  assert (E : (n * x - r * f) * (n * x - r * f) + (n * y + r * x) * (n * y + r * x) = n * n - (1 + 1) * (n * r * (x * f - y * x)) + r * r).
  { transitivity (n * n * (x * x + y * y) - (1 + 1) * (n * r * (x * f - y * x)) + r * r * (f * f + x * x)); [ring|rewrite FF]. replace (y * y + x * x) with 1 by (rewrite <- U; ring). rewrite U. ring. }
  rewrite E in NE. assert (NR : 0 < n * r) by (apply qc_mul_pos; auto).
  assert (K : 1 <= x * f - y * x).
  { destruct (Qclt_le_dec (x * f - y * x) 1) as [L|L]; auto. exfalso. assert (0 < n * r * (1 - (x * f - y * x))) by (apply qc_mul_pos; qlra). qlra. }
  (* |(x, y)| = 1 = |(f, -x)| and their product is at least 1 *)
  assert (S0 : (x - f) * (x - f) + (y + x) * (y + x) <= 0).
  { assert (E2 : (x - f) * (x - f) + (y + x) * (y + x) = (1 + 1) - (1 + 1) * (x * f - y * x)).
    { transitivity (x * x + y * y + (f * f + x * x) - (1 + 1) * (x * f - y * x)); [ring|rewrite FF]. replace (y * y + x * x) with 1 by (rewrite <- U; ring). rewrite U. ring. }
    rewrite E2. qlra. }
  pose proof (sq_ge0 (x - f)) as S1. pose proof (sq_ge0 (y + x)) as S2. assert (Z1 : (x - f) * (x - f) = 0) by qlra. assert (Z2 : (y + x) * (y + x) = 0) by qlra.
  apply sq_zero in Z1. apply sq_zero in Z2. rewrite X, Y. split.
  - replace y with (- x) by qlra. ring.
  - assert (0 <= n * x) by (apply qc_mul_nonneg; qlra). qlra.
Qed.

(* ---- intersection of two circles ---- *)
Lemma gap_pos p q : p <> q -> gap p q <> 0.
Proof.
  intros N Z. apply N. unfold gap, sqr in Z. pose proof (sq_ge0 (fst p - fst q)). pose proof (sq_ge0 (snd p - snd q)).
  assert (A : (fst p - fst q) * (fst p - fst q) = 0) by qlra. assert (B : (snd p - snd q) * (snd p - snd q) = 0) by qlra.
  apply sq_zero in A. apply sq_zero in B. destruct p, q. cbn [fst snd] in *. f_equal; qlra.
Qed.
Lemma heron r1 r2 d : d <> 0 -> (1 + 1 + 1 + 1) * (d * d) * (r1 * r1 - (r1 * r1 - r2 * r2 + d * d) / ((1 + 1) * d) * ((r1 * r1 - r2 * r2 + d * d) / ((1 + 1) * d))) =
  (d * d - (r1 - r2) * (r1 - r2)) * ((r1 + r2) * (r1 + r2) - d * d).
Proof. intro N. field. split; auto. discriminate. Qed.
Lemma range_iff r1 r2 d : 0 <= r1 -> 0 <= r2 -> 0 < d ->
  (qlt (r1 + r2) d || qlt d (fabs (r2 - r1)) = false <-> 0 <= (d * d - (r1 - r2) * (r1 - r2)) * ((r1 + r2) * (r1 + r2) - d * d)).
Proof.
  intros R1 R2 D. set (s := r1 + r2). set (f := fabs (r2 - r1)).
  assert (F0 : 0 <= f) by apply fabs_nonneg. assert (FF : f * f = (r1 - r2) * (r1 - r2)) by (unfold f; rewrite fabs_sq; ring).
  assert (FS : f <= s). { unfold f, fabs, s. destruct (qlt (r2 - r1) 0); qlra. } rewrite <- FF. assert (S0 : 0 <= s) by (unfold s; qlra). clearbody s f.
  split.
  - intro E. apply orb_false_iff in E. destruct E as [E1 E2]. apply qlt_false in E1. apply qlt_false in E2.
    pose proof (sq_mono2 f d F0 ltac:(qlra) E2). pose proof (sq_mono2 d s ltac:(qlra) S0 E1). apply qc_mul_nonneg; qlra.
  - intro K. apply orb_false_iff. rewrite !qlt_false. pose proof (sq_mono2 f s F0 S0 FS) as FS2. split.
    + destruct (Qclt_le_dec s d) as [L|L]; auto. exfalso. pose proof (sq_mono s d S0 ltac:(qlra) L).
      assert (0 < (d * d - f * f) * (d * d - s * s)) by (apply qc_mul_pos; qlra). qlra.
    + destruct (Qclt_le_dec d f) as [L|L]; auto. exfalso. pose proof (sq_mono d f ltac:(qlra) F0 L).
      assert (0 < (f * f - d * d) * (s * s - d * d)) by (apply qc_mul_pos; qlra). qlra.
Qed.
Lemma four_pos d : 0 < d -> 0 < (1 + 1 + 1 + 1) * (d * d).
Proof. intro D. apply qc_mul_pos; [reflexivity|apply qc_mul_pos; auto]. Qed.

Lemma intersection_found c1 c2 : 0 <= c_r c1 -> 0 <= c_r c2 -> centre c1 <> centre c2 ->
  good sqrt (gap (centre c1) (centre c2)) -> good sqrt (half_chord2 c1 c2) -> (exists p, on_circle c1 p /\ on_circle c2 p) ->
  exists a b, circle_intersection sqrt c1 c2 = Ok (a, b) /\ on_circle c1 (xy a) /\ on_circle c2 (xy a) /\ on_circle c1 (xy b) /\ on_circle c2 (xy b) /\
    (forall p, on_circle c1 p -> on_circle c2 p -> p = xy a \/ p = xy b) /\ snd a = c_last c1 /\ snd b = c_last c2.
Proof.
  intros R1 R2 NC GD GH (p0 & P1 & P2). pose proof (gap_pos _ _ NC) as NG. pose proof (root_pos _ _ GD NG) as D0.
  unfold circle_intersection. cbv zeta.
  replace ((c_x c2 - c_x c1) * (c_x c2 - c_x c1) + (c_y c2 - c_y c1) * (c_y c2 - c_y c1)) with (gap (centre c1) (centre c2)) by (cs; ring).
  set (d := sqrt (gap (centre c1) (centre c2))) in *. destruct GD as [_ DD]. fold d in DD. pose proof (pos_nz _ D0) as ND.
  assert (HC : half_chord2 c1 c2 = c_r c1 * c_r c1 - (c_r c1 * c_r c1 - c_r c2 * c_r c2 + d * d) / ((1 + 1) * d) * ((c_r c1 * c_r c1 - c_r c2 * c_r c2 + d * d) / ((1 + 1) * d))).
  { unfold half_chord2. rewrite <- DD. unfold sqr. field. split; auto. discriminate. }
  set (r1 := c_r c1) in *. set (r2 := c_r c2) in *. set (ex := c_x c2 - c_x c1). set (ey := c_y c2 - c_y c1).
  assert (EE : ex * ex + ey * ey = d * d) by (rewrite DD; unfold ex, ey; cs; ring).
  set (a := (r1 * r1 - r2 * r2 + d * d) / ((1 + 1) * d)) in *.
  assert (AD : (1 + 1) * (a * d) = r1 * r1 - r2 * r2 + d * d) by (unfold a; field; split; auto; discriminate).
  (* any common point *)
  assert (COM : forall p, on_circle c1 p -> on_circle c2 p -> (fst p - c_x c1) * ex + (snd p - c_y c1) * ey = a * d /\ (ex * (snd p - c_y c1) - ey * (fst p - c_x c1)) * (ex * (snd p - c_y c1) - ey * (fst p - c_x c1)) = d * d * (r1 * r1 - a * a)).
  { intros p O1 O2. cs. fold r1 in O1. fold r2 in O2. set (wx := fst p - c_x c1) in *. set (wy := snd p - c_y c1) in *.
    replace (fst p - c_x c2) with (wx - ex) in O2 by (unfold wx, ex; ring). replace (snd p - c_y c2) with (wy - ey) in O2 by (unfold wy, ey; ring).
    assert (I : wx * ex + wy * ey = a * d).
    { assert (Q : (wx - ex) * (wx - ex) + (wy - ey) * (wy - ey) = (wx * wx + wy * wy) - (1 + 1) * (wx * ex + wy * ey) + (ex * ex + ey * ey)) by ring.
      rewrite O1, EE, O2 in Q. assert (Z : (1 + 1) * (wx * ex + wy * ey - a * d) = 0) by qlra. apply mul_zero in Z; [qlra|discriminate]. }
    split; [exact I|]. transitivity ((ex * ex + ey * ey) * (wx * wx + wy * wy) - (wx * ex + wy * ey) * (wx * ex + wy * ey)); [ring|].
    rewrite EE, O1, I. ring. }
  assert (RNG : qlt (r1 + r2) d || qlt d (fabs (r2 - r1)) = false).
  { apply (range_iff r1 r2 d R1 R2 D0). rewrite <- heron by auto. fold a. destruct (COM p0 P1 P2) as (_ & C).
    pose proof (sq_ge0 (ex * (snd p0 - c_y c1) - ey * (fst p0 - c_x c1))) as S0. rewrite C in S0. replace ((1 + 1 + 1 + 1) * (d * d) * (r1 * r1 - a * a)) with ((1 + 1 + 1 + 1) * (d * d * (r1 * r1 - a * a))) by ring. apply qc_mul_nonneg; [discriminate|auto]. }
  rewrite RNG. rewrite divR_ok_ by (intro Z; apply Qcmult_integral in Z; destruct Z as [Z|Z]; [discriminate Z|auto]). cbn [bind]. fold a.
  rewrite HC in GH. set (h2 := r1 * r1 - a * a) in *. set (h := sqrt h2) in *. destruct GH as [H0 HH]. fold h in H0, HH.
  assert (H2 : 0 <= h2) by (rewrite <- HH; apply sq_ge0).
  rewrite (proj2 (qlt_false h2 0)) by auto. rewrite !divR_ok_ by auto. cbn [bind]. eexists _, _. split; [reflexivity|]. unfold xy. cbn [fst snd].
  assert (AB : a * a + h * h = r1 * r1) by (rewrite HH; unfold h2; ring).
  assert (ON : forall s, s * s = h * h -> on_circle c1 (c_x c1 + a * ex / d - s * ey / d, c_y c1 + a * ey / d + s * ex / d) /\ on_circle c2 (c_x c1 + a * ex / d - s * ey / d, c_y c1 + a * ey / d + s * ex / d)).
  { intros s SS. unfold on_circle, gap, centre, sqr. cbn [fst snd]. fold r1 r2. split.
    - transitivity ((a * a + s * s) * (ex * ex + ey * ey) / (d * d)); [field; auto|]. rewrite EE, SS, AB. field. auto.
    - replace (c_x c1 + a * ex / d - s * ey / d - c_x c2) with (a * ex / d - s * ey / d - ex) by (unfold ex; ring).
      replace (c_y c1 + a * ey / d + s * ex / d - c_y c2) with (a * ey / d + s * ex / d - ey) by (unfold ey; ring).
      transitivity (((a - d) * (a - d) + s * s) * (ex * ex + ey * ey) / (d * d)); [field; auto|]. rewrite EE, SS.
      transitivity (a * a + h * h - (1 + 1) * (a * d) + d * d); [field; auto|]. rewrite AB, AD. ring. }
  destruct (ON h eq_refl) as (N1 & N2). destruct (ON (- h) ltac:(ring)) as (N3 & N4).
  replace (c_x c1 + a * ex / d - - h * ey / d) with (c_x c1 + a * ex / d + h * ey / d) in N3, N4 by (field; auto).
  replace (c_y c1 + a * ey / d + - h * ex / d) with (c_y c1 + a * ey / d - h * ex / d) in N3, N4 by (field; auto).
  split; [exact N1|]. split; [exact N2|]. split; [exact N3|]. split; [exact N4|]. split; [|auto].
  intros p O1 O2. destruct (COM p O1 O2) as (I & C). set (wx := fst p - c_x c1) in *. set (wy := snd p - c_y c1) in *.
  set (x := ex * wy - ey * wx) in *. assert (F : (x - d * h) * (x + d * h) = 0) by (transitivity (x * x - d * d * (h * h)); [ring|rewrite C, HH; unfold h2; ring]).
  assert (WX : wx = (a * d * ex - x * ey) / (d * d)). { rewrite <- I, <- EE. unfold x. field. rewrite EE. intro Z. apply sq_zero in Z. auto. }
  assert (WY : wy = (a * d * ey + x * ex) / (d * d)). { rewrite <- I, <- EE. unfold x. field. rewrite EE. intro Z. apply sq_zero in Z. auto. }
  assert (PX : fst p = c_x c1 + wx) by (unfold wx; ring). assert (PY : snd p = c_y c1 + wy) by (unfold wy; ring). clearbody wx wy x. clear ON N1 N2 N3 N4 COM.
  destruct p as [px py]. cbn [fst snd] in PX, PY. subst px py. apply Qcmult_integral in F. destruct F as [F|F]; [left|right].
  - assert (XE : x = d * h) by qlra. rewrite WX, WY, XE. f_equal; field; auto.
  - assert (XE : x = - (d * h)) by qlra. rewrite WX, WY, XE. f_equal; field; auto.
Qed.
Lemma intersection_none c1 c2 : 0 <= c_r c1 -> 0 <= c_r c2 -> centre c1 <> centre c2 -> good sqrt (gap (centre c1) (centre c2)) -> good sqrt (half_chord2 c1 c2) \/ half_chord2 c1 c2 < 0 ->
  (circle_intersection sqrt c1 c2 = Err ValueError <-> ~ exists p, on_circle c1 p /\ on_circle c2 p).
Proof.
  intros R1 R2 NC GD GH. split.
  - intros E K. destruct GH as [GH|GH].
    + destruct (intersection_found c1 c2 R1 R2 NC GD GH K) as (a & b & F & _). congruence.
    + destruct K as (p & O1 & O2). pose proof (gap_pos _ _ NC) as NG.
      set (g := gap (centre c1) (centre c2)) in *. unfold half_chord2 in GH. fold g in GH. unfold sqr in GH.
      set (r1 := c_r c1) in *. set (r2 := c_r c2) in *. set (k := (r1 * r1 - r2 * r2 + g) / (1 + 1)) in *.
      set (ex := c_x c2 - c_x c1). set (ey := c_y c2 - c_y c1). assert (EE : ex * ex + ey * ey = g) by (unfold g, ex, ey; cs; ring).
      cs. fold r1 in O1. fold r2 in O2. set (wx := fst p - c_x c1) in *. set (wy := snd p - c_y c1) in *.
      replace (fst p - c_x c2) with (wx - ex) in O2 by (unfold wx, ex; ring). replace (snd p - c_y c2) with (wy - ey) in O2 by (unfold wy, ey; ring).
      assert (I : wx * ex + wy * ey = k).
      { assert (Q : (wx - ex) * (wx - ex) + (wy - ey) * (wy - ey) = (wx * wx + wy * wy) - (1 + 1) * (wx * ex + wy * ey) + (ex * ex + ey * ey)) by ring.
        rewrite O1, EE, O2 in Q. assert (KK : (1 + 1) * k = r1 * r1 - r2 * r2 + g) by (unfold k; field; discriminate).
        assert (Z : (1 + 1) * (wx * ex + wy * ey - k) = 0) by qlra. apply mul_zero in Z; [qlra|discriminate]. }
      assert (C : (ex * wy - ey * wx) * (ex * wy - ey * wx) = g * (r1 * r1) - k * k).
      { transitivity ((ex * ex + ey * ey) * (wx * wx + wy * wy) - (wx * ex + wy * ey) * (wx * ex + wy * ey)); [ring|]. rewrite EE, O1, I. ring. }
      pose proof (sq_ge0 (ex * wy - ey * wx)) as S0. rewrite C in S0.
      assert (GP : 0 < g). { pose proof (sq_ge0 ex). pose proof (sq_ge0 ey). destruct (Qclt_le_dec 0 g); auto. exfalso. apply NG. qlra. }
      assert (0 < g * - (r1 * r1 - k * k / g)) by (apply qc_mul_pos; [auto|qlra]).
      assert (EG : g * - (r1 * r1 - k * k / g) = - (g * (r1 * r1) - k * k)) by (field; auto). qlra.
  - intro K. unfold circle_intersection. cbv zeta. pose proof (gap_pos _ _ NC) as NG. pose proof (root_pos _ _ GD NG) as D0.
    replace ((c_x c2 - c_x c1) * (c_x c2 - c_x c1) + (c_y c2 - c_y c1) * (c_y c2 - c_y c1)) with (gap (centre c1) (centre c2)) by (cs; ring).
    set (d := sqrt (gap (centre c1) (centre c2))) in *. destruct GD as [_ DD]. fold d in DD. pose proof (pos_nz _ D0) as ND.
    destruct (qlt (c_r c1 + c_r c2) d || qlt d (fabs (c_r c2 - c_r c1))) eqn:RNG; [reflexivity|]. exfalso. apply K.
    apply (range_iff _ _ d R1 R2 D0) in RNG. rewrite <- heron in RNG by auto.
    set (r1 := c_r c1) in *. set (r2 := c_r c2) in *. set (a := (r1 * r1 - r2 * r2 + d * d) / ((1 + 1) * d)) in *.
    assert (HC : half_chord2 c1 c2 = r1 * r1 - a * a).
    { unfold half_chord2. rewrite <- DD. fold r1 r2. unfold sqr, a. field. split; auto. discriminate. }
    rewrite HC in GH.
    assert (H2 : 0 <= r1 * r1 - a * a).
    { destruct (Qclt_le_dec (r1 * r1 - a * a) 0) as [L|L]; auto. exfalso. pose proof (four_pos d D0).
      assert (0 < (1 + 1 + 1 + 1) * (d * d) * - (r1 * r1 - a * a)) by (apply qc_mul_pos; [auto|qlra]). qlra. }
    destruct GH as [GH|GH]; [|qlra]. destruct GH as [H0 HH]. set (h := sqrt (r1 * r1 - a * a)) in *.
    set (ex := c_x c2 - c_x c1). set (ey := c_y c2 - c_y c1). assert (EE : ex * ex + ey * ey = d * d) by (rewrite DD; unfold ex, ey; cs; ring).
    assert (AB : a * a + h * h = r1 * r1) by (rewrite HH; ring).
    assert (AD : (1 + 1) * (a * d) = r1 * r1 - r2 * r2 + d * d) by (unfold a; field; split; auto; discriminate).
    exists (c_x c1 + a * ex / d - h * ey / d, c_y c1 + a * ey / d + h * ex / d). unfold on_circle, gap, centre, sqr. cbn [fst snd]. fold r1 r2. split.
    + transitivity ((a * a + h * h) * (ex * ex + ey * ey) / (d * d)); [field; auto|]. rewrite EE, AB. field. auto.
    + replace (c_x c1 + a * ex / d - h * ey / d - c_x c2) with (a * ex / d - h * ey / d - ex) by (unfold ex; ring).
      replace (c_y c1 + a * ey / d + h * ex / d - c_y c2) with (a * ey / d + h * ex / d - ey) by (unfold ey; ring).
      transitivity (((a - d) * (a - d) + h * h) * (ex * ex + ey * ey) / (d * d)); [field; auto|]. rewrite EE.
      transitivity (a * a + h * h - (1 + 1) * (a * d) + d * d); [field; auto|]. rewrite AB, AD. ring.
Qed.
Lemma intersection_same c1 c2 : centre c1 = centre c2 -> c_r c1 = c_r c2 -> 0 <= c_r c1 -> good sqrt 0 -> circle_intersection sqrt c1 c2 = Err ZeroDivision.
Proof.
  intros EC ER R G. assert (Z : sqrt 0 = 0) by (apply (root_unique _ _ 0); auto; split; [qlra|ring]). unfold centre in EC. injection EC as EX EY.
  unfold circle_intersection. cbv zeta. rewrite EX, EY, ER in *. replace ((c_x c2 - c_x c2) * (c_x c2 - c_x c2) + (c_y c2 - c_y c2) * (c_y c2 - c_y c2)) with 0 by ring. rewrite Z.
  rewrite (proj2 (qlt_false _ 0)) by qlra. replace (c_r c2 - c_r c2) with 0 by ring. change (fabs 0) with 0. rewrite (proj2 (qlt_false 0 0)) by qlra. cbn [orb].
  replace ((1 + 1) * 0) with 0 by ring. rewrite divR_zero_. reflexivity.
Qed.

(* ---- tangents ---- *)
Lemma tangents_value c p : 0 <= c_r c -> p <> centre c -> good sqrt (gap p (centre c)) -> sqr (c_r c) <= gap p (centre c) ->
  good sqrt (1 - sqr (c_r c) / gap p (centre c)) ->
  exists a b : p2, tangents_lines sqrt c p = Ok [[fst a; snd a; 0]; [fst b; snd b; 0]] /\ touches c (swapped c p) a /\ touches c (swapped c p) b /\
    (0 < c_r c -> touches c p a -> touches c p b -> fst p - c_x c = snd p - c_y c).
Proof.
  intros R NV G LE GH. pose proof (gap_pos _ _ NV) as NG. pose proof (root_pos _ _ G NG) as B0. pose proof (pos_nz _ B0) as NB.
  unfold tangents_lines. cbv zeta. set (dx := fst p - c_x c). set (dy := snd p - c_y c).
  change (norm2 sqrt (dx, dy)) with (sqrt (gap p (centre c))). set (b := sqrt (gap p (centre c))) in *. destruct G as [_ BB]. fold b in BB.
  rewrite divR_ok_ by auto. cbn [bind]. set (r := c_r c) in *. assert (DD : dx * dx + dy * dy = b * b) by (rewrite BB; unfold dx, dy; cs; ring).
  assert (RB : r <= b) by (apply sq_anti; [qlra|rewrite BB; exact LE]).
  assert (K : r / b * (r / b) = sqr r / gap p (centre c)) by (rewrite <- BB; unfold sqr; field; auto).
  destruct GH as [S0 SS]. set (s := sqrt (1 - sqr r / gap p (centre c))) in *.
  assert (U : r / b * (r / b) + s * s = 1) by (rewrite SS, K; ring).
  assert (AC : arccos sqrt (r / b) = Ok (r / b, s)).
  { destruct (unit_bounds _ _ U) as [L1 L2]. unfold arccos. rewrite (proj2 (qlt_false _ (- (1)))), (proj2 (qlt_false 1 _)) by auto. cbn [orb]. rewrite K. reflexivity. }
  rewrite AC. cbn [bind]. unfold arctan2. replace (sqrt (dy * dy + dx * dx)) with b by (unfold b; f_equal; unfold dx, dy; cs; ring).
  destruct (qeq b 0) eqn:Q; [exfalso; apply qeq_true in Q; auto|]. rewrite !divR_ok_ by auto. cbn [bind]. unfold plus_angle, minus_angle. cbn [fst snd].
  set (k := r / b) in *. assert (KB : k * b = r) by (unfold k; field; auto). clearbody k.
  set (mx := dy / b). set (my := dx / b). assert (UM : mx * mx + my * my = 1). { unfold mx, my. transitivity ((dx * dx + dy * dy) / (b * b)); [field; auto|rewrite DD; field; auto]. }
  assert (EX : b * my = dx) by (unfold my; field; auto). assert (EY : b * mx = dy) by (unfold mx; field; auto). clearbody mx my. clear Q AC K SS BB.
  exists (c_x c + r * (mx * k - my * s), c_y c + r * (my * k + mx * s)), (c_x c + r * (mx * k + my * s), c_y c + r * (my * k - mx * s)).
  cbn [fst snd]. split; [reflexivity|].
  assert (TG : forall e, e * e = s * s -> touches c (swapped c p) (c_x c + r * (mx * k - my * e), c_y c + r * (my * k + mx * e))).
  { intros e E2. assert (AA : (mx * k - my * e) * (mx * k - my * e) + (my * k + mx * e) * (my * k + mx * e) = 1).
    { transitivity ((mx * mx + my * my) * (k * k + e * e)); [ring|rewrite UM, E2, U; ring]. }
    unfold touches, swapped, on_circle, gap, centre, sqr. cbn [fst snd]. fold dx dy r. rewrite <- EX, <- EY.
    split; [transitivity (r * r * ((mx * k - my * e) * (mx * k - my * e) + (my * k + mx * e) * (my * k + mx * e))); [ring|rewrite AA; ring]|].
    transitivity (r * (b * k * (mx * mx + my * my)) - r * r * ((mx * k - my * e) * (mx * k - my * e) + (my * k + mx * e) * (my * k + mx * e))); [ring|].
    rewrite UM, AA. replace (b * k) with r by (rewrite <- KB; ring). ring. }
  split; [exact (TG s eq_refl)|]. split.
  - replace (mx * k + my * s) with (mx * k - my * - s) by ring. replace (my * k - mx * s) with (my * k + mx * - s) by ring. apply TG. ring.
  - intros RP [_ T1] [_ T2]. unfold touches in T1, T2. cbn [fst snd] in T1, T2.
    replace (fst p - (c_x c + r * (mx * k - my * s))) with (b * my - r * (mx * k - my * s)) in T1 by (rewrite EX; unfold dx; ring).
    replace (snd p - (c_y c + r * (my * k + mx * s))) with (b * mx - r * (my * k + mx * s)) in T1 by (rewrite EY; unfold dy; ring).
    replace (fst p - (c_x c + r * (mx * k + my * s))) with (b * my - r * (mx * k + my * s)) in T2 by (rewrite EX; unfold dx; ring).
    replace (snd p - (c_y c + r * (my * k - mx * s))) with (b * mx - r * (my * k - mx * s)) in T2 by (rewrite EY; unfold dy; ring).
    assert (SUM : (1 + 1) * (r * r) * ((1 + 1) * (mx * my) - 1) = 0).
    { transitivity ((1 + 1) * (r * (k * b) * ((1 + 1) * (mx * my))) - (1 + 1) * (r * r) * ((mx * mx + my * my) * (k * k + s * s))).
      - rewrite KB, UM, U. ring.
      - match type of T1 with ?a = 0 => match type of T2 with ?b = 0 => transitivity (a + b); [ring|rewrite T1, T2; ring] end end. }
    assert (RR : (1 + 1) * (r * r) <> 0). { intro Z. apply Qcmult_integral in Z. destruct Z as [Z|Z]; [discriminate Z|]. apply sq_zero in Z. rewrite Z in RP. discriminate RP. }
    apply mul_zero in SUM; auto. assert (Z : (mx - my) * (mx - my) = 0) by (transitivity (mx * mx + my * my - (1 + 1) * (mx * my)); [ring|rewrite UM; qlra]).
    apply sq_zero in Z. rewrite <- EX, <- EY. replace mx with my by qlra. reflexivity.
Qed.

(* ---- arcs ---- *)
Lemma step_height tol r : 0 <= tol -> tol <= r -> good sqrt ((1 + 1) * r * tol - tol * tol) -> good sqrt (sqr (r - tol)) ->
  let s := curvature_based_step sqrt tol r in
  sqr (s / (1 + 1)) + sqr (r - tol) = sqr r /\ arc_height sqrt s r = tol.
Proof.
  intros T0 TR [A B] GK. cbv zeta. unfold curvature_based_step, arc_height. set (s := sqrt _) in *.
  replace ((1 + 1) * s / (1 + 1)) with s by (field; discriminate). replace ((r - s) * (r + s)) with (sqr (r - tol)) by (unfold sqr; transitivity (r * r - s * s); [rewrite B; ring|ring]).
  split; [unfold sqr; rewrite B; ring|]. assert (E : sqrt (sqr (r - tol)) = r - tol) by (apply (root_unique _ _ (sqr (r - tol))); auto; split; [qlra|reflexivity]). rewrite E. ring.
Qed.
Lemma height_step ch r : 0 <= ch -> ch <= (1 + 1) * r -> good sqrt (sqr r - sqr (ch / (1 + 1))) -> good sqrt (sqr (ch / (1 + 1))) ->
  curvature_based_step sqrt (arc_height sqrt ch r) r = ch.
Proof.
  intros C0 CR [A B] GK. unfold curvature_based_step, arc_height. replace ((r - ch / (1 + 1)) * (r + ch / (1 + 1))) with (sqr r - sqr (ch / (1 + 1))) by (unfold sqr; ring).
  set (k := sqrt (sqr r - sqr (ch / (1 + 1)))) in *. replace ((1 + 1) * r * (r - k) - (r - k) * (r - k)) with (sqr (ch / (1 + 1))) by (transitivity (r * r - k * k); [rewrite B; unfold sqr; ring|ring]).
  assert (E : sqrt (sqr (ch / (1 + 1))) = ch / (1 + 1)). { apply (root_unique _ _ (sqr (ch / (1 + 1)))); auto. split; [apply qc_div_nonneg; [auto|reflexivity]|reflexivity]. }
  rewrite E. field. discriminate.
Qed.
Lemma step_same k tol : k <> 0 -> arc_step sqrt k tol = Ok (curvature_based_step sqrt tol (1 / k)).
Proof.
  intro N. unfold arc_step, curvature_based_step. rewrite divR_ok_ by auto. cbn [bind]. f_equal. rewrite Qcmult_comm. f_equal. f_equal. ring.
Qed.

(* ---- length ---- *)
Lemma straight_minus p v a b : length p = length v -> vector_minus (straight p v a) (straight p v b) = map (fun x => (a - b) * x) v.
Proof.
  unfold vector_minus, straight. revert p. induction v as [|y v IH]; intros [|x p] L; try discriminate L; [reflexivity|].
  cbn [combine map fst snd]. f_equal; [ring|]. apply IH. injection L. auto.
Qed.
Lemma over_map v k : k <> 0 -> vector_over (map (fun x => k * x) v) k = v.
Proof. intro N. unfold vector_over. rewrite map_map. rewrite <- (map_id v) at 2. apply map_ext. intro x. field. auto. Qed.
Lemma fold_squares v : forall s, fold_left (fun s x => s + x * x) v s = s + sum_squares v.
Proof. induction v as [|x v IH]; intro s; cbn [fold_left]; [unfold sum_squares; cbn [fold_right]; ring|]. rewrite IH. unfold sum_squares. cbn [fold_right]. ring. Qed.
Lemma norm_list_eq v : norm_list sqrt v = sqrt (sum_squares v).
Proof. unfold norm_list. rewrite fold_squares. f_equal. ring. Qed.
Lemma inject_add a b : inject (a + b) = inject a + inject b.
Proof. unfold inject. apply Qc_is_canon. unfold Qcplus. cbn [this Q2Qc]. rewrite !Qred_correct, inject_Z_plus. reflexivity. Qed.
Lemma inject_1 : inject 1 = 1. Proof. apply Qc_is_canon. reflexivity. Qed.
Lemma inject_0 : inject 0 = 0. Proof. apply Qc_is_canon. reflexivity. Qed.
Lemma inject_le a b : (a <= b)%Z -> inject a <= inject b.
Proof. intro L. unfold inject, Qcle. cbn [this Q2Qc]. rewrite !Qred_correct. rewrite <- Zle_Qle. auto. Qed.

(* the weights of the loop: 1/2, 1, ..., 1, 1/2 *)
Lemma weights n k : (1 <= n)%Z ->
  forZ 0 n 0 (fun i acc => Ok (acc + (if ((i =? 0) || (i =? n - 1))%Z then k * Q2Qc (1 # 2) else k))) =
  Ok (if (n =? 1)%Z then k * Q2Qc (1 # 2) else inject (n - 1) * k).
Proof.
  intro N. assert (H2 : Q2Qc (1 # 2) + Q2Qc (1 # 2) = 1) by (apply Qc_is_canon; reflexivity).
  destruct (forZ_inv (fun i acc => acc = if (i =? 0)%Z then 0 else if (i =? n)%Z then (if (n =? 1)%Z then k * Q2Qc (1 # 2) else inject (n - 1) * k) else k * Q2Qc (1 # 2) + inject (i - 1) * k)
    (fun i acc => Ok (acc + (if ((i =? 0) || (i =? n - 1))%Z then k * Q2Qc (1 # 2) else k))) 0%Z n 0) as (s & E & K).
  - lia.
  - reflexivity.
  - intros i acc Hi ->. eexists. split; [reflexivity|].
    destruct (Z.eqb_spec i 0) as [->|I0]; cbn [orb].
    + destruct (Z.eqb_spec (0 + 1) 0); [lia|]. destruct (Z.eqb_spec (0 + 1) n) as [E1|E1].
      * destruct (Z.eqb_spec n 1); [ring|lia].
      * change (0 + 1 - 1)%Z with 0%Z. rewrite inject_0. ring.
    + destruct (Z.eqb_spec i n); [lia|]. destruct (Z.eqb_spec (i + 1) 0); [lia|]. destruct (Z.eqb_spec i (n - 1)) as [E1|E1].
      * destruct (Z.eqb_spec (i + 1) n); [|lia]. destruct (Z.eqb_spec n 1); [lia|]. subst i.
        replace (n - 1)%Z with (n - 1 - 1 + 1)%Z at 2 by lia. rewrite inject_add, inject_1. transitivity (inject (n - 1 - 1) * k + k * (Q2Qc (1 # 2) + Q2Qc (1 # 2))); [ring|rewrite H2; ring].
      * destruct (Z.eqb_spec (i + 1) n); [lia|]. replace (i + 1 - 1)%Z with (i - 1 + 1)%Z by lia. rewrite inject_add, inject_1. ring.
  - rewrite E. f_equal. rewrite K. destruct (Z.eqb_spec n 0); [lia|]. rewrite Z.eqb_refl. reflexivity.
Qed.
Lemma ceil_bounds q : q <= inject (ceil q) /\ inject (ceil q - 1) < q.
Proof.
  unfold ceil, inject. split.
  - unfold Qcle. cbn [this Q2Qc]. rewrite Qred_correct. apply Qle_ceiling.
  - unfold Qclt. cbn [this Q2Qc]. rewrite Qred_correct. pose proof (Qceiling_lt (this q)) as C. exact C.
Qed.
Lemma forZ_ext {A} lo hi (st : A) f g : (forall i s, (lo <= i < hi)%Z -> f i s = g i s) -> forZ lo hi st f = forZ lo hi st g.
Proof.
  intro E. unfold forZ. assert (G : forall n lo0 st0, (forall i s, (lo0 <= i < lo0 + Z.of_nat n)%Z -> f i s = g i s) -> for_n n lo0 st0 f = for_n n lo0 st0 g).
  { induction n as [|n IH]; intros lo0 st0 E0; cbn; [reflexivity|]. rewrite (E0 lo0) by lia. destruct (g lo0 st0); cbn; auto. apply IH. intros i s Hi. apply E0. lia. }
  apply G. intros i s Hi. apply E. lia.
Qed.
Lemma length_straight p v a b dt : length p = length v -> a < b -> 0 < dt ->
  exists n, (1 <= n)%Z /\ inject (n - 1) * dt < b - a /\ b - a <= inject n * dt /\
    parametric_arc_length sqrt (straight p v) a b dt = Ok (if (n =? 1)%Z then Q2Qc (1 # 2) * dt * sqrt (sum_squares v) else inject (n - 1) * dt * sqrt (sum_squares v)).
Proof.
  intros L AB D. pose proof (pos_nz _ D) as ND. set (q := (b + dt - a) / dt).
  destruct (ceil_bounds q) as (C1 & C2). set (n := (ceil q - 1)%Z).
  assert (QE : q = (b - a) / dt + 1) by (unfold q; field; auto).
  assert (QD : (b - a) / dt * dt = b - a) by (field; auto).
  assert (QP : 0 < (b - a) / dt) by (apply qc_div_pos; qlra).
  assert (N1 : inject n < q) by exact C2. assert (N2 : q <= inject n + 1) by (replace (inject n + 1) with (inject (ceil q)); [exact C1|unfold n; rewrite <- inject_1, <- inject_add; f_equal; lia]).
  assert (NP : (1 <= n)%Z).
  { destruct (Z_le_gt_dec 1 n); auto. exfalso. assert (inject n <= inject 0) by (apply inject_le; lia). rewrite inject_0 in *. qlra. }
  exists n. split; [exact NP|].
  assert (B1 : inject (n - 1) * dt < b - a).
  { assert (E : inject (n - 1) = inject n - 1). { replace n with (n - 1 + 1)%Z at 2 by lia. rewrite inject_add, inject_1. ring. }
    rewrite <- QD, E. assert (0 < ((b - a) / dt - (inject n - 1)) * dt) by (apply qc_mul_pos; qlra). qlra. }
  assert (B2 : b - a <= inject n * dt). { rewrite <- QD. assert (0 <= (inject n - (b - a) / dt) * dt) by (apply qc_mul_nonneg; qlra). qlra. }
  split; [exact B1|]. split; [exact B2|].
  unfold parametric_arc_length. destruct (qeq dt 0) eqn:Q; [exfalso; apply qeq_true in Q; auto|].
  assert (AL : arange_len a (b + dt) dt = ceil q). { unfold arange_len. fold q. unfold n in NP. lia. }
  rewrite AL. fold n. cbv zeta.
  rewrite (forZ_ext 0 n 0 _ (fun i acc => Ok (acc + (if ((i =? 0) || (i =? n - 1))%Z then sqrt (sum_squares v) * Q2Qc (1 # 2) else sqrt (sum_squares v))))).
  - rewrite weights by auto. cbn [bind]. f_equal. destruct (Z.eqb_spec n 1); ring.
  - intros i s Hi. rewrite straight_minus by auto. assert (E : arange_at a dt (i + 1) - arange_at a dt i = dt).
    { unfold arange_at. fold (inject (i + 1)). fold (inject i). rewrite inject_add, inject_1. ring. }
    rewrite E, over_map by auto. rewrite norm_list_eq. reflexivity.
Qed.
End S.
Lemma sine_root sqrt c v : good sqrt (sqr (snd v - c_y c) / gap v (centre c)) ->
  forall x y n, n * n = gap v (centre c) -> n * x = fst v - c_x c -> n * y = snd v - c_y c -> 0 < n -> good sqrt (y * y).
Proof.
  intros G x y n NN _ Y P. replace (y * y) with (sqr (snd v - c_y c) / gap v (centre c)); [exact G|]. rewrite <- NN, <- Y. unfold sqr. field. apply pos_nz. auto.
Qed.
