(* C33, C34, C42 for knot.py, C146-C155: knot.py, bspline_utils.py, deboor.pyx *)
From Coq Require Import List ZArith Bool Lia QArith Qcanon Sorted.
From Verif Require Import Common QcLib ArrZ SplineTheory NurbsModel NurbsSpec NurbsProofs NurbsProofs2 NurbsProofs3
  NurbsProofs4 NurbsEditModel NurbsProps KnotModel KnotSpec KnotProofs KnotProofs2 KnotProofs3 KnotProofs4 KnotProofs5.
Import ListNotations.
Local Open Scope Z_scope.
Local Open Scope Qc_scope.

Lemma sample_valid : valid_knots 3 4 sample_knots.
Proof. apply valid_knotsb_ok; vm_compute; auto. Qed.

(* ---- C33 ---- *)
Theorem C33_find_span_linear : forall p n U u, valid_knots p n U -> knot U p <= u ->
  exists s, find_span_linear p U (n + 1) u = Ok s /\ right_span p n U u s.
Proof. exact find_span_linear_ok. Qed.
Print Assumptions C33_find_span_linear.

Theorem C33_find_spans : forall p n U, valid_knots p n U -> forall us, Forall (fun u => knot U p <= u) us ->
  exists l, find_spans p U (n + 1) us = Ok l /\ Forall2 (right_span p n U) us l.
Proof. exact find_spans_ok. Qed.
Print Assumptions C33_find_spans.

Theorem C33_find_knot_span : forall p n U u, valid_knots p n U -> knot U p <= u -> u <= knot U (n + 1) ->
  exists k, forall fuel, (k < fuel)%nat ->
    exists s, find_knot_span fuel n p u U = Ok s /\ right_span p n U u s.
Proof. exact find_knot_span_ok. Qed.
Print Assumptions C33_find_knot_span.

Example C33_knot_case : valid_knots 3 4 sample_knots /\
  find_spans 3 sample_knots 5 [qz 0; qf 7 4; qz 2; qf 7 3; qz 5] = Ok [3; 3; 4; 4; 4]%Z /\
  find_knot_span 20 4 3 (qf 7 4) sample_knots = Ok 3%Z.
Proof. split; [exact sample_valid|]. split; vm_compute; reflexivity. Qed.

(* ---- C34 ---- *)
Theorem C34_basis_function : forall p n U u s, valid_knots p n U -> right_span p n U u s ->
  exists N, basis_function p U s u = Ok N /\ lenZ N = (p + 1)%Z /\
    forall r, (0 <= r <= p)%Z -> atZ 0 N r = cox_de_boor U n (Z.to_nat p) (s - p + r) u.
Proof. exact basis_function_ok. Qed.
Print Assumptions C34_basis_function.

Example C34_knot_case :
  match basis_function 3 sample_knots 4 (qf 7 3) with
  | Ok N => map this N = [512 # 2025; 3008 # 6075; 4568 # 18225; 1 # 729]%Q
  | Err _ => False
  end.
Proof. vm_compute. auto. Qed.

(* ---- C42 ---- *)
Theorem C42_generate_knot_clamped : forall p n, (1 <= p < n)%Z ->
  exists U, generate_knot p n true = Ok U /\ valid_knots p (n - 1) U /\ clamped p (n - 1) U /\
    forall i, (0 <= i <= n + p)%Z -> knot U i = qz (Z.max 0 (Z.min (i - p) (n - p))).
Proof.
  intros p n H. exists (generate_knots n p). split; [now apply generate_knot_clamped|].
  destruct (generate_knots_valid n p) as [A [B _]]; [lia|]. split; auto. split; auto.
  intros i Hi. apply generate_knots_at; lia.
Qed.
Print Assumptions C42_generate_knot_clamped.

Theorem C42_generate_knot_unclamped : forall p n, (1 <= p < n)%Z ->
  exists U, generate_knot p n false = Ok U /\ valid_knots p (n - 1) U /\
    forall i, (0 <= i <= n + p)%Z -> knot U i = qz i.
Proof. exact generate_knot_unclamped. Qed.
Print Assumptions C42_generate_knot_unclamped.

(* averaged knots: the inner ones are means of p consecutive parameters, and
   parameter i lies strictly inside the support of basis function i *)
Theorem C42_compute_knot_vector : forall params p n, (1 <= p <= n)%Z -> lenZ params = (n + 1)%Z -> strictly_01 params ->
  exists U, compute_knot_vector p (n + 1) params = Ok U /\ valid_knots p n U /\ clamped p n U /\
    knot U 0 = 0 /\ knot U (n + p + 1) = 1 /\
    (forall i, (p < i <= n)%Z ->
       knot U i = 1 / qz p * sum_n (Z.to_nat p) (i - p) (fun j => atZ 0 params j)) /\
    (forall i, (1 <= i <= n)%Z -> knot U i < atZ 0 params i) /\
    (forall i, (0 <= i < n)%Z -> atZ 0 params i < knot U (i + p + 1)).
Proof.
  intros params p n Hp L I. destruct (compute_knot_vector_ok params p n Hp L I) as [U [A [B [C [D [E [F G]]]]]]].
  exists U. repeat (split; auto). intros i Hi. rewrite F by auto. unfold mean.
  replace (i - p - 1 + 1)%Z with (i - p)%Z by lia. reflexivity.
Qed.
Print Assumptions C42_compute_knot_vector.

Definition params4 : list Qc := [0; qf 1 4; qf 1 2; qf 5 8; 1].
Example C42_knot_case : strictly_01 params4 /\
  generate_knot 2 4 true = Ok (map qz [0; 0; 0; 1; 2; 2; 2]%Z) /\
  match compute_knot_vector 2 5 params4 with
  | Ok U => map this U = [0; 0; 0; 3 # 8; 9 # 16; 1; 1; 1]%Q
  | Err _ => False
  end.
Proof.
  split.
  { split; [vm_compute; discriminate|]. split; [reflexivity|]. split; [reflexivity|].
    intros i j H0 H1 H2. assert (Hl : lenZ params4 = 5%Z) by reflexivity. rewrite Hl in H2.
    assert (Hc : ((i = 0 \/ i = 1 \/ i = 2 \/ i = 3) /\ (j = 1 \/ j = 2 \/ j = 3 \/ j = 4))%Z) by lia.
    destruct Hc as [[-> | [-> | [-> | ->]]] [-> | [-> | [-> | ->]]]]; try lia; apply qlt_true; vm_compute; reflexivity. }
  split; vm_compute; reflexivity.
Qed.

(* ---- C146: the tolerance search and the search of bspline_utils ---- *)
Theorem C146_binsearch_partial : forall p n U u, valid_knots p n U -> knot U p <= u -> u < knot U (n + 1) - span_tol ->
  exists k, forall fuel, (k < fuel)%nat ->
    exists s, find_span_binsearch fuel p U (n + 1) u = Ok s /\ right_span p n U u s.
Proof. exact binsearch_ok. Qed.
Print Assumptions C146_binsearch_partial.

(* closer than the tolerance to the upper end, the last span is returned even
   when the parameter lies in an earlier one *)
Theorem C146_binsearch_end_refuted : forall p n U u fuel, valid_knots p n U ->
  knot U (n + 1) - span_tol <= u -> u < knot U n ->
  find_span_binsearch fuel p U (n + 1) u = Ok n /\ ~ right_span p n U u n.
Proof.
  intros p n U u fuel V H1 H2. pose proof V as [Hp [L [M N]]].
  assert (0 <= span_tol) by (apply qle_true; vm_compute; auto). split.
  - apply binsearch_end; auto. qlra.
  - intros [_ [S _]]. destruct S; qlra.
Qed.
Print Assumptions C146_binsearch_end_refuted.

Theorem C146_utils_partial : forall p n U u, valid_knots p n U ->
  knot U p < u \/ (u = knot U p /\ knot U p < knot U (p + 1)) ->
  exists k, forall fuel, (k < fuel)%nat ->
    exists s, utils_find_span fuel p u U = Ok s /\ right_span p n U u s.
Proof. exact utils_span_ok. Qed.
Print Assumptions C146_utils_partial.

Theorem C146_utils_total : forall p n U u, valid_knots p n U ->
  exists k, forall fuel, (k < fuel)%nat -> exists s, utils_find_span fuel p u U = Ok s /\ (p <= s <= n)%Z.
Proof. exact utils_span_total. Qed.
Print Assumptions C146_utils_total.

(* an empty first span is returned for the start of the domain *)
Theorem C146_utils_start_refuted : forall p n U fuel, valid_knots p n U -> knot U p = knot U (p + 1) ->
  utils_find_span fuel p (knot U p) U = Ok p /\ ~ right_span p n U (knot U p) p.
Proof.
  intros p n U fuel V H. split; [now apply (utils_span_start p n)|]. intros [_ [S _]].
  pose proof V as [Hp [L [M N]]]. assert (knot U p <= knot U n) by (apply M; lia).
  destruct S as [_ S]; [qlra|]. rewrite <- H in S. qlra.
Qed.
Print Assumptions C146_utils_start_refuted.

(* outside the domain the two searches of knot.py never stop *)
Theorem C146_outside_diverges_refuted : forall p n U u fuel, valid_knots p n U ->
  (u < knot U p \/ knot U (n + 1) < u -> find_knot_span fuel n p u U = Err OutOfFuel) /\
  (u < knot U p /\ u < knot U (n + 1) - span_tol \/ knot U (n + 1) + span_tol < u /\ (p < n)%Z ->
   find_span_binsearch fuel p U (n + 1) u = Err OutOfFuel).
Proof.
  intros. split; intro; [now apply find_knot_span_outside|now apply binsearch_outside].
Qed.
Print Assumptions C146_outside_diverges_refuted.

Definition tight_knots : list Qc := [0; 0; 0; 0; 1 - qf 1 200000; 1; 1; 1; 1].
Definition late_knots : list Qc := map qz [0; 1; 1; 2; 3; 4]%Z.
Example C146_case :
  find_span_binsearch 20 3 sample_knots 5 (qf 7 4) = Ok 3%Z /\
  valid_knots 3 4 tight_knots /\ find_span_binsearch 20 3 tight_knots 5 (1 - qf 1 100000) = Ok 4%Z /\
  find_knot_span 20 4 3 (1 - qf 1 100000) tight_knots = Ok 3%Z /\
  valid_knots 1 3 late_knots /\ knot late_knots 1 = knot late_knots 2 /\
  utils_find_span 20 1 (qz 1) late_knots = Ok 1%Z /\ find_span_linear 1 late_knots 4 (qz 1) = Ok 2%Z /\
  find_span_binsearch 50 3 sample_knots 5 (qz 6) = Err OutOfFuel.
Proof.
  split; [vm_compute; reflexivity|]. split; [apply valid_knotsb_ok; vm_compute; auto|].
  split; [vm_compute; reflexivity|]. split; [vm_compute; reflexivity|].
  split; [apply valid_knotsb_ok; vm_compute; auto|]. repeat (split; [vm_compute; reflexivity|]). vm_compute; reflexivity.
Qed.

(* ---- C147: calc_basis_functions ---- *)
Theorem C147_calc_basis_partial : forall p n U u s, (p <= 1)%Z -> valid_knots p n U -> right_span p n U u s ->
  exists N, calc_basis_functions s u p U = Ok N /\ lenZ N = (p + 1)%Z /\
    forall r, (0 <= r <= p)%Z -> atZ 0 N r = cox_de_boor U n (Z.to_nat p) (s - p + r) u.
Proof. exact calc_low. Qed.
Print Assumptions C147_calc_basis_partial.

(* every degree from 2 on: whatever is returned, its last entry is 0 while
   the basis function is positive *)
Theorem C147_calc_basis_refuted : forall p n U u s N, (2 <= p)%Z -> valid_knots p n U -> (p <= s <= n)%Z ->
  knot U s < u -> u < knot U (s + 1) ->
  calc_basis_functions s u p U = Ok N ->
  atZ 0 N p = 0 /\ 0 < cox_de_boor U n (Z.to_nat p) s u.
Proof. exact calc_wrong. Qed.
Print Assumptions C147_calc_basis_refuted.

(* the point does not depend on the last control point of the span *)
Theorem C147_calc_point_refuted : forall fuel p U P P' u s, (2 <= p)%Z ->
  utils_find_span fuel p u U = Ok s -> lenZ P = lenZ P' ->
  (forall i, i <> s -> ctrl P i = ctrl P' i) ->
  calc_b_spline_point fuel p U P u = calc_b_spline_point fuel p U P' u.
Proof. exact calc_point_blind. Qed.
Print Assumptions C147_calc_point_refuted.

Example C147_case :
  match calc_basis_functions 4 (qf 7 3) 3 sample_knots with
  | Ok N => nth 3 (map this N) 1%Q = 0%Q
  | Err _ => False
  end /\ utils_find_span 20 3 (qf 7 3) sample_knots = Ok 4%Z /\
  match calc_basis_functions 2 (qf 5 2) 1 (map qz [0; 1; 2; 3]%Z) with
  | Ok N => map this N = [1 # 2; 1 # 2]%Q
  | Err _ => False
  end.
Proof. split; [vm_compute; reflexivity|]. split; vm_compute; reflexivity. Qed.

(* ---- C148: the evaluator of deboor.pyx ---- *)
Theorem C148_evaluate_nurbs : forall p n U P t, (1 <= p)%Z -> valid_knots p n U -> inner_multiplicity p U ->
  lenZ P = (n + 1)%Z -> Forall (fun q => 0 < pw q) P ->
  knot U p <= t -> t <= knot U (n + 1) ->
  evaluate_nurbs t P U (Z.to_nat p) = Ok (nurbs_point U n p P t) /\
  evaluate_nurbs t P U (Z.to_nat p) = curve_point n p U P t false.
Proof.
  intros p n U P t Hp V IM LP W H1 H2. destruct (find_span_span_of p n U t V H1) as [s [_ S]].
  assert (D : den U n p P t <> 0).
  { pose proof (den_pos n p U P t s V LP W S H2) as X. intro Y. rewrite Y in X. qlra. }
  rewrite (evaluate_nurbs_ok p n U P t Hp V IM LP H1 H2 D). split; auto. symmetry. apply curve_point_ok; auto.
Qed.
Print Assumptions C148_evaluate_nurbs.

(* also at the inner knot 2, and at both ends *)
Lemma sample_inner : inner_multiplicity 3 sample_knots.
Proof.
  intros i H0 H1 H2 H3. assert (Hl : lenZ sample_knots = 9%Z) by reflexivity. rewrite Hl in *.
  assert (Hc : (i = 0 \/ i = 1 \/ i = 2 \/ i = 3 \/ i = 4 \/ i = 5)%Z) by lia.
  assert (QT : forall a b, a < b -> qlt a b = true) by (intros; now apply qlt_true).
  destruct Hc as [-> | [-> | [-> | [-> | [-> | ->]]]]]; apply QT in H2; apply QT in H3; vm_compute in H2, H3; discriminate.
Qed.

Example C148_case : inner_multiplicity 3 sample_knots /\
  evaluate_nurbs (qz 2) sample_pts sample_knots 3 = curve_point 4 3 sample_knots sample_pts (qz 2) false /\
  match evaluate_nurbs (qz 2) sample_pts sample_knots 3 with
  | Ok (x, y, z) => map this [x; y; z] = [17 # 7; 2; 12 # 7]%Q
  | Err _ => False
  end.
Proof. split; [exact sample_inner|]. split; [|vm_compute; reflexivity].
  apply (C148_evaluate_nurbs 3 4); [lia|exact sample_valid|exact sample_inner|reflexivity|..].
  - repeat constructor.
  - apply qle_true; vm_compute; reflexivity.
  - apply qle_true; vm_compute; reflexivity.
Qed.

(* ---- C149: several parameters at once ---- *)
(* one parameter is right *)
Theorem C149_multi_single_partial : forall t P U k,
  evaluate_nurbs_multi [t] P U k = match evaluate_nurbs t P U k with Ok v => Ok [v] | Err e => Err e end.
Proof. intros. unfold evaluate_nurbs_multi, evaluate_nurbs. cbn [multi_loop]. destruct (cevaluate_nurbs t P U k (0, 0, 0)); auto. Qed.
Print Assumptions C149_multi_single_partial.

(* the second one is wrong whenever the first point is not the origin *)
Theorem C149_multi_refuted : forall p n U P t1 t2, (1 <= p)%Z -> valid_knots p n U -> inner_multiplicity p U ->
  lenZ P = (n + 1)%Z -> Forall (fun q => 0 < pw q) P ->
  knot U p <= t1 -> t1 <= knot U (n + 1) -> knot U p <= t2 -> t2 <= knot U (n + 1) ->
  nurbs_point U n p P t1 <> (0, 0, 0) ->
  exists v1 v2, evaluate_nurbs_multi [t1; t2] P U (Z.to_nat p) = Ok [v1; v2] /\
    v1 = nurbs_point U n p P t1 /\ v2 <> nurbs_point U n p P t2.
Proof.
  intros p n U P t1 t2 Hp V IM LP W A1 A2 B1 B2 Hnz.
  assert (D : forall t, knot U p <= t -> t <= knot U (n + 1) -> den U n p P t <> 0).
  { intros t C1 C2. destruct (find_span_span_of p n U t V C1) as [s [_ S]].
    pose proof (den_pos n p U P t s V LP W S C2) as X. intro Y. rewrite Y in X. qlra. }
  apply multi_two; auto.
Qed.
Print Assumptions C149_multi_refuted.

Example C149_case :
  match evaluate_nurbs_multi [qz 5; qz 5] sample_pts sample_knots 3 with
  | Ok [(a, _, _); (b, _, _)] => this a = 6%Q /\ this b = 12%Q
  | _ => False
  end.
Proof. vm_compute. auto. Qed.

(* ---- C150: normalize_knot ---- *)
Theorem C150_normalize_knot : forall p n U, valid_knots p n U ->
  let a := knot U 0 in let b := knot U (lenZ U - 1) in
  a < b /\ exists U', normalize_knot U = Ok U' /\ valid_knots p n U' /\ knot U' 0 = 0 /\ knot U' (lenZ U' - 1) = 1 /\
    (forall P t, knot U p <= t -> nurbs_point U' n p P ((t - a) / (b - a)) = nurbs_point U n p P t).
Proof. exact normalize_knot_ok. Qed.
Print Assumptions C150_normalize_knot.

Example C150_case : match normalize_knot (map qz [-1; -1; 0; 2; 3; 3]%Z) with
  | Ok U => map this U = [0; 0; 1 # 4; 3 # 4; 1; 1]%Q | Err _ => False end.
Proof. vm_compute. reflexivity. Qed.

(* ---- C151: chord length parameters ---- *)
Theorem C151_params : forall chords, chords <> [] -> Forall (fun c => 0 < c) chords ->
  exists uk, compute_params_curve chords = Ok uk /\ lenZ uk = (lenZ chords + 1)%Z /\ strictly_01 uk /\
    forall i, (0 <= i <= lenZ chords)%Z ->
      atZ 0 uk i = sum_n (Z.to_nat i) 0 (fun j => atZ 0 chords j) / sum_n (length chords) 0 (fun j => atZ 0 chords j).
Proof.
  intros chords Hne F. destruct (params_increasing chords Hne F) as [uk [A [B [C D]]]].
  exists uk. split; auto. split; auto. split; auto. intros i Hi. rewrite D by auto.
  assert (X : forall k, (k <= length chords)%nat -> along chords k = sum_n k 0 (fun j => atZ 0 chords j)).
  { induction k as [|k IH]; intro Hk; [reflexivity|]. rewrite along_step by lia. rewrite IH by lia. rewrite sum_n_last.
    f_equal. unfold atZ. f_equal. lia. }
  unfold lenZ in Hi. rewrite !X by lia. reflexivity.
Qed.
Print Assumptions C151_params.

(* one point only, or all points equal: an error, not parameters *)
Theorem C151_no_length : forall chords, (forall c, In c chords -> c = 0) -> compute_params_curve chords = Err ZeroDivision.
Proof.
  intros chords H. apply compute_params_zero. induction chords as [|c l IH]; cbn [total]; auto.
  rewrite (H c) by now left. rewrite IH by (intros; apply H; now right). ring.
Qed.
Print Assumptions C151_no_length.

Example C151_case : match compute_params_curve [qz 1; qz 3; qz 4] with
  | Ok l => map this l = [0; 1 # 8; 1 # 2; 1]%Q | Err _ => False end.
Proof. vm_compute. reflexivity. Qed.

(* ---- C152: the interpolation system ---- *)
Theorem C152_interpolation_system : forall p chords, let n := lenZ chords in
  (1 <= p <= n)%Z -> Forall (fun c => 0 < c) chords ->
  exists uk kv rows, interpolation_system p chords = Ok (uk, kv, rows) /\
    lenZ uk = (n + 1)%Z /\ strictly_01 uk /\ valid_knots p n kv /\ clamped p n kv /\ lenZ rows = (n + 1)%Z /\
    (forall i j, (0 <= i <= n)%Z -> (0 <= j <= n)%Z ->
       atZ 0 (atZ [] rows i) j = cox_de_boor kv n (Z.to_nat p) j (atZ 0 uk i)) /\
    (forall i, (0 <= i <= n)%Z -> 0 < atZ 0 (atZ [] rows i) i).
Proof. exact interpolation_ok. Qed.
Print Assumptions C152_interpolation_system.

Theorem C152_interpolation_passes : forall p chords uk kv rows X P, let n := lenZ chords in
  (1 <= p <= n)%Z -> Forall (fun c => 0 < c) chords ->
  interpolation_system p chords = Ok (uk, kv, rows) ->
  lenZ X = (n + 1)%Z -> (forall q, In q X -> pw q = 1) ->
  (forall i f, In f [px; py; pz] -> (0 <= i <= n)%Z ->
     sum_to n (fun j => atZ 0 (atZ [] rows i) j * f (ctrl X j)) = f (ctrl P i)) ->
  forall i, (0 <= i <= n)%Z -> curve_point n p kv X (atZ 0 uk i) false = Ok (xyz (ctrl P i)).
Proof. exact interpolation_passes. Qed.
Print Assumptions C152_interpolation_passes.

Example C152_case :
  match interpolation_system 2 [qz 1; qz 1; qz 2] with
  | Ok (uk, kv, rows) => map this uk = [0; 1 # 4; 1 # 2; 1]%Q /\ map this kv = [0; 0; 0; 3 # 8; 1; 1; 1]%Q /\
      map (map this) rows = [[1; 0; 0; 0]; [1 # 9; 13 # 18; 1 # 6; 0]; [0; 2 # 5; 14 # 25; 1 # 25]; [0; 0; 0; 1]]%Q
  | Err _ => False
  end.
Proof. vm_compute. auto. Qed.

(* ---- C153: merging knot vectors ---- *)
Theorem C153_merge_partial : forall k1 k2,
  (forall a b, In a (k1 ++ k2) -> In b (k1 ++ k2) -> isclose a b = true -> a = b) ->
  StronglySorted Qcle (merge_knot_vectors k1 k2) /\
  forall x, occurs (merge_knot_vectors k1 k2) x = Nat.max (occurs k1 x) (occurs k2 x).
Proof. intros k1 k2 H. split; [apply merge_sorted|now apply merge_counts]. Qed.
Print Assumptions C153_merge_partial.

(* two different knots closer than the tolerance: merging a vector with
   itself doubles them *)
Theorem C153_merge_close_refuted : forall x y, x < y -> isclose x y = true -> isclose y x = true ->
  merge_knot_vectors [x; y] [x; y] = [x; x; y; y].
Proof. exact merge_close. Qed.
Print Assumptions C153_merge_close_refuted.

(* there are such knots: 1 and 1.000001 *)
Theorem C153_close_knots_refuted : exists x y, x < y /\ merge_knot_vectors [x; y] [x; y] = [x; x; y; y].
Proof.
  exists (qz 1), (qz 1 + qf 1 1000000). assert (L : qz 1 < qz 1 + qf 1 1000000) by (vm_compute; reflexivity).
  split; [exact L|]. apply C153_merge_close_refuted; [exact L| |]; vm_compute; reflexivity.
Qed.
Print Assumptions C153_close_knots_refuted.

Example C153_case : merge_knot_vectors (map qz [0; 0; 1; 2; 2]%Z) (map qz [0; 1; 1; 2; 2]%Z) = map qz [0; 0; 1; 1; 2; 2]%Z
  /\ isclose (qz 1) (qz 1 + qf 1 1000000) = true /\ isclose (qz 1 + qf 1 1000000) (qz 1) = true.
Proof. repeat split; vm_compute; reflexivity. Qed.

(* ---- C154: adjacent duplicates ---- *)
Theorem C154_remove_duplicates_partial : forall (A : Type) (dist : A -> A -> Qc) tol l,
  (forall a b, dist a b <= tol -> a = b) ->
  let l' := remove_adjacent_duplicates tol (gaps dist l) l in
  Forall (fun d => tol < d) (gaps dist l').
Proof. intros A dist tol l H. apply remove_duplicates_ok; auto. Qed.
Print Assumptions C154_remove_duplicates_partial.

Theorem C154_nothing_to_remove : forall (A : Type) (dist : A -> A -> Qc) tol l,
  Forall (fun d => tol < d) (gaps dist l) -> remove_adjacent_duplicates tol (gaps dist l) l = l.
Proof. exact @remove_duplicates_nothing. Qed.
Print Assumptions C154_nothing_to_remove.

(* for every tolerance: four points on a line, of which the two kept ones
   coincide *)
Theorem C154_drift_refuted : forall tol, 0 < tol ->
  let d (a b : Qc) := qabs (a - b) in
  let x := Q2Qc (3 # 5) * tol in
  remove_adjacent_duplicates tol (gaps d [0; x; x + x; 0]) [0; x; x + x; 0] = [0; 0].
Proof. exact remove_duplicates_drift. Qed.
Print Assumptions C154_drift_refuted.

Example C154_case : let l := map qz [0; 0; 1; 1; 1; 4; 0]%Z in let d (a b : Qc) := qabs (a - b) in
  remove_adjacent_duplicates (qf 1 2) (gaps d l) l = map qz [0; 1; 4; 0]%Z.
Proof. vm_compute. reflexivity. Qed.

(* ---- C155: single basis values of deboor.pyx ---- *)
Theorem C155_deboor_partial : forall p n U t s, valid_knots p n U -> (p <= s <= n)%Z ->
  knot U s < t -> t < knot U (s + 1) ->
  forall k i, (Z.of_nat k <= p)%Z -> (0 <= i <= n)%Z ->
  cdeboor U t k i = Ok (cox_de_boor U n k i t).
Proof. exact cdeboor_inside. Qed.
Print Assumptions C155_deboor_partial.

(* at an inner knot every value is twice the basis function *)
Theorem C155_deboor_knot_refuted : forall p n U s, (1 <= p)%Z -> valid_knots p n U -> inner_multiplicity p U ->
  (p < s <= n)%Z -> knot U p < knot U s -> knot U s < knot U (n + 1) ->
  forall i, (0 <= i <= n)%Z ->
  cdeboor U (knot U s) (Z.to_nat p) i = Ok ((1 + 1) * cox_de_boor U n (Z.to_nat p) i (knot U s)).
Proof. exact cdeboor_knot. Qed.
Print Assumptions C155_deboor_knot_refuted.

Example C155_case : match cdeboor sample_knots (qz 2) 3 2, cdeboor sample_knots (qf 7 3) 3 2 with
  | Ok a, Ok b => this a = (24 # 25)%Q /\ this b = (3008 # 6075)%Q | _, _ => False end.
Proof. vm_compute. auto. Qed.
