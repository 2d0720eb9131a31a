(* Circles of the plane and lengths: theorems and concrete cases. *)
From Coq Require Import List ZArith Lia Bool QArith Qcanon.
From Verif Require Import Common QcLib ArrZ SumLib NurbsModel PlnModel CircModel CircSpec CircProofs.
Import ListNotations.
Local Open Scope Z_scope.
Local Open Scope Qc_scope.

Definition q (a : Z) (b : positive) : Qc := Q2Qc (a # b).
Definition pt (x y : Z) : p2 := (q x 1, q y 1).
Definition cir (x y r : Z) : circle := circle2 (q x 1) (q y 1) (q r 1).
(* root of the square of a fraction, for the cases *)
Definition root (x : Qc) : Qc := Q2Qc (Z.sqrt (Qnum (this x)) # Z.to_pos (Z.sqrt (Zpos (Qden (this x))))).
Ltac canon := apply Qc_is_canon; vm_compute; reflexivity.
Ltac root_ok := split; [vm_compute; discriminate|canon].
Ltac ne := let E := fresh in intro E; vm_compute in E; discriminate E.
Ltac pc := first [canon | apply injective_projections; pc].

(* C292: the points of a circle *)
Theorem C292_evaluated_points : forall c p, c_r c <> 0 -> (on_circle c p <-> exists t, is_angle t /\ circle_evaluate c t = p).
Proof.
  intros c p N. split; [apply evaluate_all; auto|]. intros (t & A & <-). apply evaluate_on. auto.
Qed.
Print Assumptions C292_evaluated_points.
Theorem C292_implicit : forall sqrt c p, 0 <= c_r c -> good sqrt (gap p (centre c)) ->
  root_of (circle_implicit sqrt c p + c_r c) (gap p (centre c)) /\ (circle_implicit sqrt c p = 0 <-> on_circle c p) /\
  (circle_implicit sqrt c p < 0 <-> gap p (centre c) < sqr (c_r c)).
Proof. exact implicit_sign. Qed.
Print Assumptions C292_implicit.
Theorem C292_unit_normal : forall sqrt c v, v <> centre c -> good sqrt (gap v (centre c)) -> exists u, circle_unit sqrt c v = Ok u /\ is_angle u /\
  fst v = c_x c + (circle_implicit sqrt c v + c_r c) * fst u /\ snd v = c_y c + (circle_implicit sqrt c v + c_r c) * snd u.
Proof. exact unit_ok2. Qed.
Print Assumptions C292_unit_normal.
Example C292_case : on_circle (cir 1 1 5) (pt 4 5) /\ circle_evaluate (cir 1 1 5) (q 3 5, q 4 5) = pt 4 5 /\
  circle_implicit root (cir 1 1 5) (pt 7 9) = q 5 1 /\ circle_unit root (cir 1 1 5) (pt 7 9) = Ok (q 3 5, q 4 5) /\ good root (gap (pt 7 9) (centre (cir 1 1 5))).
Proof. split; [canon|]. split; [pc|]. split; [canon|]. split; [vm_compute; do 2 f_equal; canon|root_ok]. Qed.

(* C293: the point of the circle nearest to a given point *)
Theorem C293_point_on_curve_nearest : forall sqrt c v, 0 <= c_r c -> v <> centre c -> good sqrt (gap v (centre c)) -> good sqrt (sine2 c v) ->
  exists p t, point_on_curve sqrt c v = Ok (p, t) /\ nearest c v p /\ gap v p = sqr (circle_implicit sqrt c v).
Proof.
  intros sqrt c v R N G S1. destruct (point_on_curve_ok sqrt c v R N G (sine_root sqrt c v S1)) as (p & t & A & B & C & _). eauto.
Qed.
Print Assumptions C293_point_on_curve_nearest.
Theorem C293_centre_fails : forall sqrt c, good sqrt 0 -> point_on_curve sqrt c (centre c) = Err ZeroDivision /\ circle_unit sqrt c (centre c) = Err ZeroDivision.
Proof. exact centre_fails. Qed.
Print Assumptions C293_centre_fails.
Example C293_case : let c := cir 1 1 5 in let v := pt 7 (-7) in exists t, point_on_curve root c v = Ok (pt 4 (-3), t) /\
  good root (gap v (centre c)) /\ good root (sine2 c v) /\ v <> centre c.
Proof.
  eexists. split; [vm_compute; do 2 f_equal; pc|]. split; [root_ok|]. split; [root_ok|ne].
Qed.

(* C294: the parameter given with that point *)
Theorem C294_parameter_of_point_refuted : forall sqrt c v, 0 < c_r c -> v <> centre c -> good sqrt (gap v (centre c)) -> good sqrt (sine2 c v) ->
  snd v < c_y c -> exists p t, point_on_curve sqrt c v = Ok (p, t) /\ circle_evaluate c t <> p.
Proof.
  intros sqrt c v R N G S1 L. destruct (point_on_curve_ok sqrt c v ltac:(qlra) N G (sine_root sqrt c v S1)) as (p & t & A & _ & _ & D).
  exists p, t. split; [exact A|]. intro E. apply D in E; [qlra|apply pos_nz; auto].
Qed.
Print Assumptions C294_parameter_of_point_refuted.
Theorem C294_parameter_of_point_partial : forall sqrt c v, 0 < c_r c -> v <> centre c -> good sqrt (gap v (centre c)) -> good sqrt (sine2 c v) ->
  c_y c <= snd v -> exists p t, point_on_curve sqrt c v = Ok (p, t) /\ circle_evaluate c t = p.
Proof.
  intros sqrt c v R N G S1 L. destruct (point_on_curve_ok sqrt c v ltac:(qlra) N G (sine_root sqrt c v S1)) as (p & t & A & _ & _ & D).
  exists p, t. split; [exact A|]. apply D; [apply pos_nz; auto|auto].
Qed.
Print Assumptions C294_parameter_of_point_partial.
Example C294_case : let c := cir 1 1 5 in exists t, point_on_curve root c (pt 7 (-7)) = Ok (pt 4 (-3), t) /\ circle_evaluate c t = pt 4 5 /\
  exists t2, point_on_curve root c (pt 7 9) = Ok (pt 4 5, t2) /\ circle_evaluate c t2 = pt 4 5.
Proof.
  exists (q 3 5, q 4 5). split; [vm_compute; do 2 f_equal; pc|]. split; [pc|]. exists (q 3 5, q 4 5). split; [vm_compute; do 2 f_equal; pc|pc].
Qed.

(* C295: common points of two circles *)
Theorem C295_common_points : forall sqrt c1 c2, 0 <= c_r c1 -> 0 <= c_r c2 -> centre c1 <> centre c2 ->
  good sqrt (gap (centre c1) (centre c2)) -> good sqrt (half_chord2 c1 c2) -> (exists p, on_circle c1 p /\ on_circle c2 p) ->
  exists a b, circle_intersection sqrt c1 c2 = Ok (a, b) /\
    forall p, on_circle c1 p /\ on_circle c2 p <-> p = xy a \/ p = xy b.
Proof.
  intros sqrt c1 c2 R1 R2 N G1 G2 K. destruct (intersection_found sqrt c1 c2 R1 R2 N G1 G2 K) as (a & b & E & A1 & A2 & B1 & B2 & C & _).
  exists a, b. split; [exact E|]. intro p. split; [intros (P1 & P2); auto|]. intros [->| ->]; auto.
Qed.
Print Assumptions C295_common_points.
Theorem C295_no_common_point : forall sqrt c1 c2, 0 <= c_r c1 -> 0 <= c_r c2 -> centre c1 <> centre c2 -> good sqrt (gap (centre c1) (centre c2)) ->
  good sqrt (half_chord2 c1 c2) \/ half_chord2 c1 c2 < 0 ->
  (circle_intersection sqrt c1 c2 = Err ValueError <-> ~ exists p, on_circle c1 p /\ on_circle c2 p).
Proof. exact intersection_none. Qed.
Print Assumptions C295_no_common_point.
Theorem C295_equal_circles : forall sqrt c1 c2, centre c1 = centre c2 -> c_r c1 = c_r c2 -> 0 <= c_r c1 -> good sqrt 0 ->
  circle_intersection sqrt c1 c2 = Err ZeroDivision.
Proof. exact intersection_same. Qed.
Print Assumptions C295_equal_circles.
Example C295_case : circle_intersection root (cir 0 0 5) (cir 6 0 5) = Ok ((q 3 1, q 4 1, 0), (q 3 1, q (-4) 1, 0)) /\
  on_circle (cir 0 0 5) (pt 3 4) /\ on_circle (cir 6 0 5) (pt 3 4) /\ good root (gap (centre (cir 0 0 5)) (centre (cir 6 0 5))) /\ good root (half_chord2 (cir 0 0 5) (cir 6 0 5)) /\
  circle_intersection root (cir 0 0 5) (cir 12 16 5) = Err ValueError /\ half_chord2 (cir 0 0 5) (cir 12 16 5) < 0.
Proof.
  split; [vm_compute; do 2 f_equal; pc|]. split; [canon|]. split; [canon|]. split; [root_ok|]. split; [root_ok|]. split; [vm_compute; reflexivity|reflexivity].
Qed.

(* C296: the third coordinate of the common points *)
Theorem C296_third_coordinate_refuted : forall sqrt x1 y1 r1 x2 y2 r2 a b, circle_intersection sqrt (circle2 x1 y1 r1) (circle2 x2 y2 r2) = Ok (a, b) ->
  snd a = y1 /\ snd b = y2.
Proof.
  intros sqrt x1 y1 r1 x2 y2 r2 a b. unfold circle_intersection. cbv zeta. destruct (_ || _); [discriminate|].
  destruct (divR _ _); cbn [bind]; [|discriminate]. destruct (qlt _ _); [discriminate|]. do 4 (destruct (divR _ _); cbn [bind]; [|discriminate]).
  intro E. inversion E. split; reflexivity.
Qed.
Print Assumptions C296_third_coordinate_refuted.
Theorem C296_third_coordinate_partial : forall sqrt x1 y1 z r1 x2 y2 r2 a b, circle_intersection sqrt (mkcir x1 y1 [z] r1) (mkcir x2 y2 [z] r2) = Ok (a, b) ->
  snd a = z /\ snd b = z.
Proof.
  intros sqrt x1 y1 z r1 x2 y2 r2 a b. unfold circle_intersection. cbv zeta. destruct (_ || _); [discriminate|].
  destruct (divR _ _); cbn [bind]; [|discriminate]. destruct (qlt _ _); [discriminate|]. do 4 (destruct (divR _ _); cbn [bind]; [|discriminate]).
  intro E. inversion E. split; reflexivity.
Qed.
Print Assumptions C296_third_coordinate_partial.
Example C296_case : circle_intersection root (cir 0 2 5) (cir 6 2 5) = Ok ((q 3 1, q 6 1, q 2 1), (q 3 1, q (-2) 1, q 2 1)) /\
  circle_intersection root (mkcir 0 (q 2 1) [0] (q 5 1)) (mkcir (q 6 1) (q 2 1) [0] (q 5 1)) = Ok ((q 3 1, q 6 1, 0), (q 3 1, q (-2) 1, 0)).
Proof. split; vm_compute; do 2 f_equal; pc. Qed.

(* C297: tangents from a point *)
Theorem C297_tangents_refuted : forall sqrt c p, 0 < c_r c -> p <> centre c -> good sqrt (gap p (centre c)) -> sqr (c_r c) <= gap p (centre c) ->
  good sqrt (1 - sqr (c_r c) / gap p (centre c)) -> fst p - c_x c <> snd p - c_y c ->
  exists a b : p2, tangents_lines sqrt c p = Ok [[fst a; snd a; 0]; [fst b; snd b; 0]] /\ ~ (touches c p a /\ touches c p b).
Proof.
  intros sqrt c p R N G L S1 D. destruct (tangents_value sqrt c p ltac:(qlra) N G L S1) as (a & b & E & _ & _ & K).
  exists a, b. split; [exact E|]. intros (A & B). apply D. apply K; auto.
Qed.
Print Assumptions C297_tangents_refuted.
Theorem C297_tangents_partial : forall sqrt c p, 0 <= c_r c -> p <> centre c -> good sqrt (gap p (centre c)) -> sqr (c_r c) <= gap p (centre c) ->
  good sqrt (1 - sqr (c_r c) / gap p (centre c)) ->
  exists a b : p2, tangents_lines sqrt c p = Ok [[fst a; snd a; 0]; [fst b; snd b; 0]] /\ touches c (swapped c p) a /\ touches c (swapped c p) b.
Proof.
  intros sqrt c p R N G L S1. destruct (tangents_value sqrt c p R N G L S1) as (a & b & E & A & B & _). eauto 6.
Qed.
Print Assumptions C297_tangents_partial.
Example C297_case : let c := cir 0 0 3 in let p := pt 5 0 in tangents_lines root c p = Ok [[q (-12) 5; q 9 5; 0]; [q 12 5; q 9 5; 0]] /\
  good root (gap p (centre c)) /\ good root (1 - sqr (c_r c) / gap p (centre c)) /\ touches c p (q 9 5, q 12 5) /\ touches c (pt 0 5) (q 12 5, q 9 5).
Proof.
  split; [vm_compute; repeat first [reflexivity|canon|f_equal]|]. split; [root_ok|]. split; [root_ok|]. split; split; canon.
Qed.

(* C298: closest_point_on_circle_2d *)
Theorem C298_closest_parameter_refuted : forall sqrt c v, 0 < c_r c -> v <> centre c -> good sqrt (gap v (centre c)) -> good sqrt (sine2 c v) ->
  fst v - c_x c <> - (snd v - c_y c) \/ fst v < c_x c ->
  exists t, closest_point_on_circle sqrt c v = Ok t /\ ~ nearest c v (circle_evaluate c t).
Proof.
  intros sqrt c v R N G S1 D. destruct (closest_wrong sqrt c v R N G (sine_root sqrt c v S1)) as (t & E & _ & K).
  exists t. split; [exact E|]. intro Q. destruct (K Q) as (A & B). destruct D as [D|D]; [auto|qlra].
Qed.
Print Assumptions C298_closest_parameter_refuted.
Theorem C298_closest_parameter_partial : forall sqrt c v, 0 < c_r c -> v <> centre c -> good sqrt (gap v (centre c)) -> good sqrt (sine2 c v) ->
  exists u t, circle_unit sqrt c v = Ok u /\ closest_point_on_circle sqrt c v = Ok t /\ on_circle c (circle_evaluate c t) /\ fst t = fabs (snd u) /\ snd t = - fst u.
Proof.
  intros sqrt c v R N G S1. destruct (closest_value sqrt c v N G (sine_root sqrt c v S1)) as (u & t & A & B & X & Y).
  destruct (closest_wrong sqrt c v R N G (sine_root sqrt c v S1)) as (t' & E & O & _). rewrite B in E. injection E as <-. exists u, t. auto 6.
Qed.
Print Assumptions C298_closest_parameter_partial.
Example C298_case : let c := cir 0 0 5 in let v := pt 6 8 in exists t, closest_point_on_circle root c v = Ok t /\ circle_evaluate c t = pt 4 (-3) /\
  nearest c v (pt 3 4) /\ good root (gap v (centre c)) /\ good root (sine2 c v).
Proof.
  exists (q 4 5, q (-3) 5). split; [vm_compute; f_equal; pc|]. split; [pc|]. split; [|split; root_ok].
  destruct (nearest_dir (cir 0 0 5) (pt 6 8) (q 3 5) (q 4 5) (q 10 1)) as (N & _); try canon; [vm_compute; discriminate|reflexivity|].
  replace (pt 3 4) with (c_x (cir 0 0 5) + c_r (cir 0 0 5) * q 3 5, c_y (cir 0 0 5) + c_r (cir 0 0 5) * q 4 5) by pc. exact N.
Qed.

(* C299: chord and height of an arc *)
Theorem C299_step_has_height : forall sqrt tol r, 0 <= tol -> tol <= r -> good sqrt ((1 + 1) * r * tol - tol * tol) -> good sqrt (sqr (r - tol)) ->
  let s := curvature_based_step sqrt tol r in
  sqr (s / (1 + 1)) + sqr (r - tol) = sqr r /\ arc_height sqrt s r = tol.
Proof. exact step_height. Qed.
Print Assumptions C299_step_has_height.
Theorem C299_height_has_step : forall sqrt ch r, 0 <= ch -> ch <= (1 + 1) * r -> good sqrt (sqr r - sqr (ch / (1 + 1))) -> good sqrt (sqr (ch / (1 + 1))) ->
  curvature_based_step sqrt (arc_height sqrt ch r) r = ch.
Proof. exact height_step. Qed.
Print Assumptions C299_height_has_step.
Theorem C299_curve_step : forall sqrt k tol, k <> 0 -> arc_step sqrt k tol = Ok (curvature_based_step sqrt tol (1 / k)).
Proof. exact step_same. Qed.
Print Assumptions C299_curve_step.
Example C299_case : curvature_based_step root (q 2 1) (q 5 1) = q 8 1 /\ arc_height root (q 8 1) (q 5 1) = q 2 1 /\ arc_step root (q 1 5) (q 2 1) = Ok (q 8 1).
Proof. split; [canon|]. split; [canon|]. vm_compute; first [reflexivity|f_equal; canon]. Qed.

(* C300: length of a straight line *)
Theorem C300_length_refuted : forall sqrt p v a b dt, length p = length v -> 0 < dt -> dt < b - a -> 0 < sqrt (sum_squares v) ->
  exists l, parametric_arc_length sqrt (straight p v) a b dt = Ok l /\ l < (b - a) * sqrt (sum_squares v).
Proof.
  intros sqrt p v a b dt L D AB P. destruct (length_straight sqrt p v a b dt L ltac:(qlra) D) as (n & N & B1 & B2 & E).
  eexists. split; [exact E|]. destruct (Z.eqb_spec n 1) as [->|N1].
  - rewrite inject_1 in B2. exfalso. qlra.
  - assert (0 < (b - a - inject (n - 1) * dt) * sqrt (sum_squares v)) by (apply qc_mul_pos; qlra). qlra.
Qed.
Print Assumptions C300_length_refuted.
Theorem C300_length_partial : forall sqrt p v a b dt, length p = length v -> 0 < dt -> a < b -> 0 <= sqrt (sum_squares v) ->
  exists l, parametric_arc_length sqrt (straight p v) a b dt = Ok l /\
    (b - a - dt) * sqrt (sum_squares v) <= l /\ (b - a <= dt -> l = dt * sqrt (sum_squares v) / (1 + 1)) /\
    (dt < b - a -> l <= (b - a) * sqrt (sum_squares v)).
Proof.
  intros sqrt p v a b dt L D AB P. destruct (length_straight sqrt p v a b dt L AB D) as (n & N & B1 & B2 & E).
  eexists. split; [exact E|]. set (k := sqrt (sum_squares v)) in *. clearbody k. assert (H2 : Q2Qc (1 # 2) * (1 + 1) = 1) by canon.
  assert (H0 : 0 < Q2Qc (1 # 2)) by reflexivity.
  destruct (Z.eqb_spec n 1) as [->|N1].
  - rewrite inject_1 in B2. assert (BA : b - a <= dt) by qlra. split; [|split].
    + assert (0 <= (dt - (b - a)) * k) by (apply qc_mul_nonneg; qlra). assert (0 <= Q2Qc (1 # 2) * dt * k) by (apply qc_mul_nonneg; [apply qc_mul_nonneg; qlra|auto]). qlra.
    + intros _. transitivity (Q2Qc (1 # 2) * (1 + 1) * (dt * k / (1 + 1))); [field; discriminate|rewrite H2; ring].
    + intro. exfalso. qlra.
  - assert (IN : inject n = inject (n - 1) + 1) by (rewrite <- inject_1, <- inject_add; f_equal; lia). rewrite IN in B2.
    assert (I1 : 1 <= inject (n - 1)) by (rewrite <- inject_1; apply inject_le; lia). split; [|split].
    + assert (0 <= (inject (n - 1) * dt - (b - a - dt)) * k) by (apply qc_mul_nonneg; qlra). qlra.
    + intro K. exfalso. assert (0 <= (inject (n - 1) - 1) * dt) by (apply qc_mul_nonneg; qlra). qlra.
    + intros _. assert (0 <= (b - a - inject (n - 1) * dt) * k) by (apply qc_mul_nonneg; qlra). qlra.
Qed.
Print Assumptions C300_length_partial.
Example C300_case : parametric_arc_length root (straight [0; 0] [q 3 1; q 4 1]) 0 1 (q 1 4) = Ok (q 15 4) /\ (1 - 0) * root (sum_squares [q 3 1; q 4 1]) = q 5 1.
Proof. split; [vm_compute; first [reflexivity|f_equal; canon]|canon]. Qed.
