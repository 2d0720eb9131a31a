(* C33-C36, C42, C50, C57-C60: evaluation core of mmcore/geom/nurbs.pxd, nurbs.pyx *)
From Coq Require Import List ZArith Bool Lia QArith Qcanon.
From Verif Require Import Common QcLib ArrZ NurbsModel NurbsSpec NurbsProofs NurbsProofs2 NurbsProofs3 NurbsProofs4.
Import ListNotations.
Local Open Scope Z_scope.
Local Open Scope Qc_scope.

(* sample: cubic, 5 control points, weights 1 2 1 3 1, one inner knot *)
Definition qz (k : Z) : Qc := Q2Qc (inject_Z k).
Definition qf (a : Z) (b : positive) : Qc := Q2Qc (a # b).
Definition row (x y z w : Z) : pt := mkpt (qz x) (qz y) (qz z) (qz w).
Definition sample_pts : list pt := [row 0 0 0 1; row 1 2 0 2; row 3 3 1 1; row 4 1 5 3; row 6 0 2 1].
Definition sample_knots : list Qc := map qz [0; 0; 0; 0; 2; 5; 5; 5; 5]%Z.
Definition sample : curve := mkcurve sample_pts 3 sample_knots false (qz 0, qz 5) [].
Definition unclamped : curve := mkcurve (map (fun q => mkpt (px q) (py q) (pz q) 1) sample_pts) 3 (map qz [0; 1; 2; 3; 4; 5; 6; 7; 8]%Z) false (qz 0, qz 8) [].

(* ---- C33 ---- *)
Theorem C33_find_span : forall p n U u, valid_knots p n U -> knot U p <= u ->
  exists s, find_span n p u U false = Ok s /\ (p <= s <= n)%Z /\
    (u < knot U (n + 1) -> knot U s <= u /\ u < knot U (s + 1)) /\
    (knot U (n + 1) <= u -> s = n).
Proof. exact find_span_open. Qed.
Print Assumptions C33_find_span.

Example C33_case : valid_knots 3 4 sample_knots /\ find_span 4 3 (qf 7 3) sample_knots false = Ok 4%Z
  /\ find_span 4 3 (qf 7 4) sample_knots false = Ok 3%Z.
Proof. split; [apply valid_knotsb_ok; vm_compute; auto|]. split; vm_compute; reflexivity. Qed.

(* the same index for a parameter below the first knot, whatever the knots *)
Theorem C33_find_span_below : forall p n U u, valid_knots p n U -> u < knot U 0 ->
  find_span n p u U false = Ok p.
Proof. exact find_span_below. Qed.
Print Assumptions C33_find_span_below.

(* periodic: any parameter is wrapped into the domain by whole periods *)
Theorem C33_find_span_periodic : forall p n U u, valid_knots p n U ->
  exists k s, let v := u + Q2Qc (inject_Z k) * (knot U (n + 1) - knot U p) in
    find_span n p u U true = Ok s /\ knot U p <= v <= knot U (n + 1) /\ (p <= s <= n)%Z /\
    (v < knot U (n + 1) -> knot U s <= v /\ v < knot U (s + 1)) /\
    (knot U (n + 1) <= v -> s = n).
Proof. exact find_span_periodic_any. Qed.
Print Assumptions C33_find_span_periodic.

Example C33_periodic_case : find_span 4 3 (qf (-57) 4) (c_knots unclamped) true = Ok 3%Z.
Proof. vm_compute; reflexivity. Qed.

(* ---- C34 ---- *)
Theorem C34_basis : forall p n U u per buf, valid_knots p n U -> knot U p <= u -> u <= knot U (n + 1) ->
  lenZ buf = (p + 1)%Z ->
  exists s N, find_span n p u U per = Ok s /\ basis_funs s u p U buf = Ok N /\ lenZ N = (p + 1)%Z /\
    (forall r, (0 <= r <= p)%Z ->
       atZ 0 N r = cox_de_boor U n (Z.to_nat p) (s - p + r) u /\ 0 <= atZ 0 N r) /\
    sum_to p (fun r => atZ 0 N r) = 1 /\
    (forall i, (0 <= i <= n)%Z -> ~ (s - p <= i <= s)%Z -> cox_de_boor U n (Z.to_nat p) i u = 0).
Proof. exact basis_partition. Qed.
Print Assumptions C34_basis.

Example C34_case :
  match basis_funs 4 (qf 7 3) 3 sample_knots (repeat (qz 9) 4) with
  | Ok N => map this N = [512 # 2025; 3008 # 6075; 4568 # 18225; 1 # 729]%Q
  | Err _ => False
  end.
Proof. vm_compute. auto. Qed.

(* ---- C35 ---- *)
(* every box around the control points contains the curve *)
Theorem C35_convex_hull_box : forall c u b v, valid_curve c -> in_domain c u -> positive_weights c ->
  (forall q, In q (c_pts c) -> in_box3 b (xyz q)) ->
  evaluate c u = Ok v -> in_box3 b v.
Proof. exact evaluate_in_box. Qed.
Print Assumptions C35_convex_hull_box.

(* NURBSCurve.bbox contains the curve when all weights are 1 *)
Theorem C35_bbox_partial : forall c u, valid_curve c -> in_domain c u -> (forall q, In q (c_pts c) -> pw q = 1) ->
  exists b v, bbox c = Ok b /\ evaluate c u = Ok v /\ in_box3 b v.
Proof. exact curve_in_bbox. Qed.
Print Assumptions C35_bbox_partial.

Example C35_case : valid_curve unclamped /\ in_domain unclamped (qf 10 3) /\
  (forall q, In q (c_pts unclamped) -> pw q = 1) /\
  valid_curve sample /\ positive_weights sample.
Proof.
  split; [apply valid_knotsb_ok; vm_compute; auto|].
  split; [split; vm_compute; discriminate|].
  split; [intros q H; repeat (destruct H as [<-|H]; [reflexivity|]); destruct H|].
  split; [apply valid_knotsb_ok; vm_compute; auto|].
  repeat constructor.
Qed.

(* false of the code with other weights: with all weights equal to w > 1 and
   all control points having x > 0, the box ends before the largest x of
   the control points, which the curve itself may reach *)
Theorem C35_bbox_weights_refuted : exists c u b v, valid_curve c /\ in_domain c u /\ positive_weights c /\
  bbox c = Ok b /\ evaluate c u = Ok v /\ ~ in_box3 b v.
Proof. exact bbox_weights_refuted. Qed.
Print Assumptions C35_bbox_weights_refuted.

(* ---- C36 ---- *)
Theorem C36_start : forall c, valid_curve c -> clamped (c_deg c) (last_ix c) (c_knots c) ->
  knot (c_knots c) (c_deg c) < knot (c_knots c) (c_deg c + 1) ->
  pw (ctrl (c_pts c) 0) <> 0 ->
  evaluate c (knot (c_knots c) 0) = Ok (xyz (ctrl (c_pts c) 0)).
Proof. exact clamped_start. Qed.
Print Assumptions C36_start.

Theorem C36_end : forall c, valid_curve c -> clamped (c_deg c) (last_ix c) (c_knots c) ->
  pw (ctrl (c_pts c) (last_ix c)) <> 0 ->
  evaluate c (knot (c_knots c) (lenZ (c_knots c) - 1)) = Ok (xyz (ctrl (c_pts c) (last_ix c))).
Proof. exact clamped_end. Qed.
Print Assumptions C36_end.

Example C36_case : valid_curve sample /\ clamped (c_deg sample) (last_ix sample) (c_knots sample) /\
  out3 (evaluate sample (qz 0)) = Ok (0, 0, 0)%Q /\ out3 (evaluate sample (qz 5)) = Ok (6, 0, 2)%Q.
Proof.
  split; [apply valid_knotsb_ok; vm_compute; auto|]. split.
  - split; intros i Hi; cbn in Hi; assert (C : (i = 0 \/ i = 1 \/ i = 2 \/ i = 3 \/ i = 5 \/ i = 6 \/ i = 7 \/ i = 8)%Z) by lia;
      decompose [or] C; subst i; try lia; reflexivity.
  - split; vm_compute; reflexivity.
Qed.

(* ---- C42 (NURBSCurve.generate_knots and generate_knots_periodic) ---- *)
Theorem C42_generated_knots : forall n p, (0 <= p < n)%Z ->
  valid_knots p (n - 1) (generate_knots n p) /\ clamped p (n - 1) (generate_knots n p) /\
  knot (generate_knots n p) p < knot (generate_knots n p) (p + 1).
Proof. exact generate_knots_valid. Qed.
Print Assumptions C42_generated_knots.

Theorem C42_periodic_knots : forall n p, (0 <= p < n)%Z ->
  valid_knots p (n - 1) (generate_knots_periodic n p) /\
  (forall i, (0 <= i <= n + p)%Z -> knot (generate_knots_periodic n p) i = Q2Qc (inject_Z (i - p))).
Proof. exact generate_knots_periodic_valid. Qed.
Print Assumptions C42_periodic_knots.

Example C42_case : map this (generate_knots 6 2) = map inject_Z [0; 0; 0; 1; 2; 3; 4; 4; 4]%Z /\
  map this (generate_knots_periodic 6 2) = map inject_Z [-2; -1; 0; 1; 2; 3; 4; 5; 6]%Z.
Proof. vm_compute. auto. Qed.

(* ---- C50 ---- *)
Theorem C50_greville : forall p n U, (1 <= p)%Z -> valid_knots p n U ->
  exists g, greville_abscissae U p = Ok g /\ lenZ g = (n + 1)%Z /\
    (forall i j, (0 <= i)%Z -> (i <= j)%Z -> (j <= n)%Z -> atZ 0 g i <= atZ 0 g j) /\
    (forall i, (0 <= i <= n)%Z -> knot U (i + 1) <= atZ 0 g i <= knot U (i + p)) /\
    (forall u, knot U p <= u <= knot U (n + 1) ->
       sum_to n (fun i => cox_de_boor U n (Z.to_nat p) i u * atZ 0 g i) = u).
Proof. exact greville_all. Qed.
Print Assumptions C50_greville.

Example C50_case : match greville_abscissae sample_knots 3 with
  | Ok g => map this g = [0; 2 # 3; 7 # 3; 4; 5]%Q | Err _ => False end.
Proof. vm_compute. auto. Qed.

(* ---- C57: what evaluation returns ---- *)
Theorem C57_evaluate_is_nurbs : forall c u, valid_curve c -> in_domain c u -> positive_weights c ->
  evaluate c u = Ok (nurbs_point (c_knots c) (last_ix c) (c_deg c) (c_pts c) u).
Proof. exact evaluate_pos. Qed.
Print Assumptions C57_evaluate_is_nurbs.

Theorem C57_evaluate_multi : forall c us, valid_curve c -> Forall (in_domain c) us -> positive_weights c ->
  evaluate_multi c us = Ok (map (nurbs_point (c_knots c) (last_ix c) (c_deg c) (c_pts c)) us).
Proof. exact evaluate_multi_pos. Qed.
Print Assumptions C57_evaluate_multi.

Example C57_case : out3 (evaluate sample (qf 7 3)) = out3 (Ok (nurbs_point sample_knots 4 3 sample_pts (qf 7 3))) /\
  exists v, out3 (evaluate sample (qf 7 3)) = Ok v.
Proof. vm_compute. split; [reflexivity|]. eexists. reflexivity. Qed.

(* ---- C58: false of the code for every unclamped curve that is not periodic: evaluating at
   the start of curve.interval() never returns (whatever the number of loop steps) ---- *)
Theorem C58_evaluation_loops_refuted : forall c u, valid_curve c -> (1 <= c_deg c)%Z -> c_per c = false ->
  knot (c_knots c) 0 <= u -> u < knot (c_knots c) (c_deg c) ->
  update_interval (c_knots c) = Ok (knot (c_knots c) 0, knot (c_knots c) (last_ix c + c_deg c + 1)) /\
  evaluate c u = Err OutOfFuel /\
  forall fuel, find_span_fuel fuel (last_ix c) (c_deg c) u (c_knots c) (c_per c) = Err OutOfFuel.
Proof. exact evaluation_loops. Qed.
Print Assumptions C58_evaluation_loops_refuted.

Example C58_case : valid_curve unclamped /\ knot (c_knots unclamped) 0 <= 0 /\ 0 < knot (c_knots unclamped) 3.
Proof. split; [apply valid_knotsb_ok; vm_compute; auto|]. split; vm_compute; auto; discriminate. Qed.

(* a clamped curve evaluates at every parameter of its interval, an end included *)
Theorem C58_clamped_interval_partial : forall c u a b, valid_curve c -> positive_weights c ->
  clamped (c_deg c) (last_ix c) (c_knots c) ->
  update_interval (c_knots c) = Ok (a, b) -> a <= u <= b ->
  exists v, evaluate c u = Ok v.
Proof. exact clamped_interval. Qed.
Print Assumptions C58_clamped_interval_partial.

(* ---- C59: make_periodic closes the curve ---- *)
Theorem C59_make_periodic_closed_partial : forall c, (1 <= c_deg c <= lenZ (c_pts c))%Z -> positive_weights c ->
  is_periodic (c_pts c) (c_deg c) = false ->
  exists c' v, make_periodic c = Ok c' /\
    c_per c' = true /\ valid_curve c' /\
    lenZ (c_pts c') = (lenZ (c_pts c) + c_deg c)%Z /\
    evaluate c' (knot (c_knots c') (c_deg c')) = Ok v /\
    evaluate c' (knot (c_knots c') (last_ix c' + 1)) = Ok v.
Proof. exact make_periodic_closed. Qed.
Print Assumptions C59_make_periodic_closed_partial.

Example C59_case : (1 <= c_deg sample <= lenZ (c_pts sample))%Z /\ positive_weights sample /\
  is_periodic (c_pts sample) (c_deg sample) = false.
Proof. split; [vm_compute; split; discriminate|]. split; [repeat constructor|]. vm_compute. auto. Qed.

(* false of the code: is_periodic looks only at the last compared pair of rows, so an open
   curve is taken for periodic and stays open *)
Theorem C59_make_periodic_refuted : exists c, valid_curve c /\ positive_weights c /\
  is_periodic (c_pts c) (c_deg c) = true /\ make_periodic c = Ok c /\
  exists v w, evaluate c (knot (c_knots c) (c_deg c)) = Ok v /\
              evaluate c (knot (c_knots c) (last_ix c + 1)) = Ok w /\ v <> w.
Proof. exact make_periodic_refuted. Qed.
Print Assumptions C59_make_periodic_refuted.

(* ---- C60: false of the code: a periodic curve does not repeat after one period, because the
   parameter is wrapped for the span search only ---- *)
Theorem C60_periodic_repeats_refuted : exists c c' u v w, new_curve (c_pts c) (c_deg c) None true = Ok c' /\
  c_per c' = true /\ in_domain c' u /\ positive_weights c' /\
  evaluate c' u = Ok v /\
  evaluate c' (u + (knot (c_knots c') (last_ix c' + 1) - knot (c_knots c') (c_deg c'))) = Ok w /\ v <> w.
Proof. exact periodic_repeats_refuted. Qed.
Print Assumptions C60_periodic_repeats_refuted.
