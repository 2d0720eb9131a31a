(* Curve utilities: the properties. *)
From Coq Require Import List Arith ZArith Bool QArith Qcanon Lia.
From Verif Require Import Common QcLib ListLib SumLib LuModel CuModel CuSpec CuProofs CuProofs2.
Import ListNotations.
Local Open Scope Qc_scope.

(* numbers of the cases *)
Definition cz (k : Z) : Qc := Q2Qc (inject_Z k).
Definition knots3 : list Qc := map cz [0; 0; 0; 1; 2; 3; 3; 3]%Z.
Definition half_cu : Qc := Q2Qc (1 # 2).
Lemma sorted_check U : forallb (fun j => forallb (fun i => qle (kn U i) (kn U j)) (seq 0 (j + 1))) (seq 0 (length U)) = true -> sorted_knots U.
Proof. intros H i j I' J. rewrite forallb_forall in H. specialize (H j ltac:(apply in_seq; lia)). rewrite forallb_forall in H. specialize (H i ltac:(apply in_seq; lia)). now apply qle_true. Qed.
Definition shown (r : res (list Qc)) : res (list Q) := match r with Ok l => Ok (map this l) | Err e => Err e end.

(* C391: the knot span *)
Theorem C391_find_span p u U : sorted_knots U -> (2 * p + 1 < length U)%nat -> let n := (length U - p - 1)%nat in
  exists s, find_span p u U = Ok s /\ (p <= s < n)%nat /\ (kn U n <= u -> s = (n - 1)%nat) /\ (u <= kn U p -> kn U p < kn U n -> s = p) /\
    (kn U p < u -> u < kn U n -> kn U s <= u /\ u < kn U (s + 1)).
Proof. exact (find_span_ok p u U). Qed.
Print Assumptions C391_find_span.
Example C391_case : sorted_knots knots3 /\ find_span 2 (Q2Qc (3 # 2)) knots3 = Ok 3%nat /\ find_span 2 (cz 3) knots3 = Ok 4%nat /\ find_span 2 (cz 0) knots3 = Ok 2%nat /\ find_span 2 (cz 1) knots3 = Ok 3%nat.
Proof. split; [apply sorted_check; vm_compute; reflexivity|]. vm_compute. auto. Qed.

(* C392: the basis functions *)
Theorem C392_basis_closed_form U p s u : sorted_knots U -> (1 <= p <= s)%nat -> (s + p < length U)%nat -> kn U s <= u -> u < kn U (s + 1) ->
  exists N, calc_basis_functions s u p U = Ok N /\ length N = (p + 1)%nat /\ nth 0 N 0 = first_part U p s u /\ nth 1 N 0 = second_part U p s u /\ (forall k, (1 < k)%nat -> nth k N 0 = 0) /\
    first_part U p s u + second_part U p s u = 1.
Proof.
  intros SO P L A B. destruct (basis_closed U p s u SO ltac:(lia) L A B ltac:(lia)) as (N & H1 & H2 & H3 & H4 & H5). exists N. repeat (split; auto). apply parts_sum.
  assert (X := SO (s + 1 - p)%nat s ltac:(lia) ltac:(lia)). qlra.
Qed.
Print Assumptions C392_basis_closed_form.
Theorem C392_linear_basis_partial U s u : sorted_knots U -> (1 <= s)%nat -> (s + 2 < length U)%nat -> kn U s <= u -> u < kn U (s + 1) ->
  exists a b, calc_basis_functions s u 1 U = Ok [a; b] /\ a = bspline U 1 (s - 1) u /\ b = bspline U 1 s u.
Proof.
  intros SO P L A B. destruct (basis_closed U 1 s u SO ltac:(lia) ltac:(lia) A B ltac:(lia)) as (N & -> & H2 & H3 & H4 & _). destruct (linear_right U s u SO P ltac:(lia) A B) as (E1 & E2).
  destruct N as [|a [|b [|c N]]]; try discriminate. exists a, b. split; auto. rewrite E1, (E2 L). auto.
Qed.
Print Assumptions C392_linear_basis_partial.
Theorem C392_basis_functions_refuted U p s u : sorted_knots U -> (2 <= p <= s)%nat -> (s + p < length U)%nat -> kn U s < u -> u < kn U (s + 1) ->
  exists N, calc_basis_functions s u p U = Ok N /\ nth p N 0 = 0 /\ 0 < bspline U p s u.
Proof.
  intros SO P L A B. destruct (basis_closed U p s u SO ltac:(lia) L ltac:(qlra) B ltac:(lia)) as (N & -> & _ & _ & _ & Z). exists N. split; auto. split; [apply Z; lia|]. apply bspline_last; auto. lia.
Qed.
Print Assumptions C392_basis_functions_refuted.
Example C392_case : shown (calc_basis_functions 3 (Q2Qc (3 # 2)) 2 knots3) = Ok [1 # 4; 3 # 4; 0]%Q /\ shown (calc_basis_functions 3 (Q2Qc (5 # 4)) 1 knots3) = Ok [3 # 4; 1 # 4]%Q /\
  map (fun i => this (bspline knots3 2 i (Q2Qc (3 # 2)))) [1; 2; 3]%nat = [1 # 8; 3 # 4; 1 # 8]%Q.
Proof. vm_compute. auto. Qed.

(* C393: the right end of the domain *)
Theorem C393_end_of_domain_refuted p U P : sorted_knots U -> (2 <= p)%nat -> (2 * p + 1 < length U)%nat -> calc_b_spline_point p U P (kn U (length U - p - 1)) = Err ZeroDivision.
Proof. exact (point_at_end p U P). Qed.
Print Assumptions C393_end_of_domain_refuted.
Definition some_points : list pt4 := [(cz 0, cz 0, cz 0, cz 1); (cz 1, cz 2, cz 0, cz 1); (cz 2, cz 0, cz 1, cz 2); (cz 3, cz 1, cz 0, cz 1); (cz 4, cz 0, cz 0, cz 1)].
Example C393_case : calc_b_spline_point 2 knots3 some_points (cz 3) = Err ZeroDivision /\ kn knots3 (length knots3 - 2 - 1) = cz 3.
Proof. vm_compute. auto. Qed.

(* C394: the point of the curve *)
Theorem C394_point_of_two_control_points_refuted p U P u : sorted_knots U -> (1 <= p)%nat -> (2 * p + 1 < length U)%nat -> length P = (length U - p - 1)%nat ->
  kn U p < u -> u < kn U (length U - p - 1) ->
  exists s, (p <= s < length P)%nat /\ kn U s <= u /\ u < kn U (s + 1) /\
    calc_b_spline_point p U P u = Ok (mix (first_part U p s u) (second_part U p s u) (nth (s - p) P pt_0) (nth (s - p + 1) P pt_0)).
Proof. exact (point_closed p U P u). Qed.
Print Assumptions C394_point_of_two_control_points_refuted.
Theorem C394_linear_curve_partial U P u : sorted_knots U -> (3 < length U)%nat -> length P = (length U - 2)%nat -> kn U 1 < u -> u < kn U (length U - 2) ->
  exists s, (1 <= s < length P)%nat /\ calc_b_spline_point 1 U P u = Ok (mix (bspline U 1 (s - 1) u) (bspline U 1 s u) (nth (s - 1) P pt_0) (nth s P pt_0)).
Proof.
  intros SO L LP A B. destruct (point_closed 1 U P u SO ltac:(lia) ltac:(lia) ltac:(lia) A) as (s & R & S1 & S2 & E); [replace (length U - 1 - 1)%nat with (length U - 2)%nat by lia; exact B|].
  exists s. split; auto. destruct (linear_right U s u SO ltac:(lia) ltac:(lia) S1 S2) as (-> & ->); [|lia]. rewrite E. replace (s - 1 + 1)%nat with s by lia. reflexivity.
Qed.
Print Assumptions C394_linear_curve_partial.
Definition shown4 (r : res pt4) : res (list Q) := match r with Ok (x, y, z, w) => Ok [this x; this y; this z; this w] | Err e => Err e end.
Example C394_case : shown4 (calc_b_spline_point 2 knots3 some_points (Q2Qc (3 # 2))) = Ok [13 # 4; 1 # 2; 3 # 2; 7 # 4]%Q.
Proof. vm_compute. auto. Qed.

(* C395: the binomial coefficient *)
Theorem C395_binomial_partial k i : (i <= k <= 20)%nat -> calcKoverI k i = bq k i.
Proof. exact (calcKoverI_ok k i). Qed.
Print Assumptions C395_binomial_partial.
Theorem C395_binomial_refuted : calcKoverI 21 1 <> bq 21 1.
Proof. exact calcKoverI_bad. Qed.
Print Assumptions C395_binomial_refuted.
Example C395_case : this (calcKoverI 6 2) = 15%Q /\ this (calcKoverI 20 10) = 184756%Q /\ this (calcKoverI 21 1) <> 21%Q.
Proof. split; [vm_compute; reflexivity|]. split; [vm_compute; reflexivity|]. vm_compute. discriminate. Qed.

(* C396: derivatives of a rational curve *)
Theorem C396_rational_derivatives_partial Pders : (length Pders <= 21)%nat -> (forall k, (k < length Pders)%nat -> fst (nth k Pders zero4) = DFloat) -> wgt (nth 0 Pders zero4) <> 0 ->
  exists CK, calc_rational_curve_derivatives Pders = Ok CK /\ length CK = length Pders /\
    forall k c, (k < length Pders)%nat -> (c < 3)%nat ->
      sumn (k + 1) (fun i => bq k i * wgt (nth i Pders zero4) * crd3 c (nth (k - i) CK (0, 0, 0))) = crd c (nth k Pders zero4).
Proof. exact (rational_ok Pders). Qed.
Print Assumptions C396_rational_derivatives_partial.
Definition some_ders : list arr4 := [(DFloat, (cz 2, cz 4, cz 6, cz 2)); (DFloat, (cz 5, cz 0, cz 1, cz 1)); (DFloat, (cz 1, cz 1, cz 0, cz 3))].
Definition shown3 (r : res (list (Qc * Qc * Qc))) : res (list (list Q)) := match r with Ok l => Ok (map (fun '(x, y, z) => [this x; this y; this z]) l) | Err e => Err e end.
Example C396_case : shown3 (calc_rational_curve_derivatives some_ders) = Ok [[1; 2; 3]; [2; -1; -1]; [-3; -3 # 2; -7 # 2]]%Q.
Proof. vm_compute. auto. Qed.

(* C397: derivatives of a NURBS curve *)
Theorem C397_nurbs_derivatives_refuted bd p U P u nd : (exists Pders, calc_bspline_derivatives bd p U P u nd = Ok Pders) -> calcNURBSDerivatives bd p U P u nd = Err TypeError.
Proof. intros (Pders & H). exact (nurbs_ders_fail bd p U P u nd Pders H). Qed.
Print Assumptions C397_nurbs_derivatives_refuted.
Theorem C397_nurbs_derivatives_never bd p U P u nd r : calcNURBSDerivatives bd p U P u nd <> Ok r.
Proof.
  intro H. destruct (calc_bspline_derivatives bd p U P u nd) as [Pders|e] eqn:E; [rewrite (nurbs_ders_fail _ _ _ _ _ _ _ E) in H; discriminate|]. unfold calcNURBSDerivatives in H. rewrite E in H. discriminate.
Qed.
Print Assumptions C397_nurbs_derivatives_never.
Definition some_table (span : nat) (u : Qc) (p n : nat) (U : list Qc) : res (list (list Qc)) := Ok (repeat (repeat (1 : Qc) (p + 1)) (n + 1)).
Example C397_case : (exists l, calc_bspline_derivatives some_table 2 knots3 some_points (Q2Qc (3 # 2)) 1 = Ok l /\ length l = 3%nat) /\ calcNURBSDerivatives some_table 2 knots3 some_points (Q2Qc (3 # 2)) 1 = Err TypeError.
Proof. split; [eexists; split; [vm_compute; reflexivity|reflexivity]|vm_compute; reflexivity]. Qed.

(* C398: points of a surface *)
Theorem C398_surface_point_refuted p q U V P u v : sorted_knots U -> sorted_knots V -> (1 <= p)%nat -> (1 <= q)%nat -> (2 * p + 1 < length U)%nat -> (2 * q + 1 < length V)%nat ->
  kn U p < u -> u < kn U (length U - p - 1) -> kn V q < v -> v < kn V (length V - q - 1) ->
  length P = (length U - p - 1)%nat -> (forall row, In row P -> length row = (length V - q - 1)%nat) ->
  calcSurfacePoint p q U V P u v = Err TypeError /\ calc_surface_point p q U V P u v = Err TypeError.
Proof. intros. split; apply surface_error; auto. Qed.
Print Assumptions C398_surface_point_refuted.
Theorem C398_surface_point_never p q U V P u v r : calcSurfacePoint p q U V P u v <> Ok r /\ calc_surface_point p q U V P u v <> Ok r.
Proof. split; apply surface_never. Qed.
Print Assumptions C398_surface_point_never.
Definition flat_knots : list Qc := map cz [0; 0; 1; 1]%Z.
Definition some_grid : list (list pt4) := [[(cz 0, cz 0, cz 0, cz 1); (cz 1, cz 0, cz 0, cz 1)]; [(cz 0, cz 1, cz 0, cz 1); (cz 1, cz 1, cz 1, cz 1)]].
Example C398_case : sorted_knots flat_knots /\ calcSurfacePoint 1 1 flat_knots flat_knots some_grid half_cu half_cu = Err TypeError /\ calc_surface_point 1 1 flat_knots flat_knots some_grid half_cu half_cu = Err TypeError.
Proof. split; [apply sorted_check; vm_compute; reflexivity|]. vm_compute. auto. Qed.
