(* Span searches and basis functions of knot.py and bspline_utils.py. *)
From Coq Require Import List ZArith Lia Bool QArith Qcanon.
From Verif Require Import Common ListLib QcLib ArrZ SplineTheory NurbsModel NurbsSpec NurbsProofs NurbsProofs2
  NurbsProofs3 NurbsEditModel KnotModel.
Import ListNotations.
Local Open Scope Z_scope.
Local Open Scope Qc_scope.

Lemma py_search_is fuel u U low high mid : py_search fuel u U low high mid = span_search fuel u U low high mid.
Proof. reflexivity. Qed.

(* the search started anywhere between low and high *)
Lemma search_from u U fuel low high mid :
  (0 <= low < high)%Z -> (high < lenZ U)%Z -> knot U low <= u -> u < knot U high ->
  (low <= mid <= high)%Z -> (high - low < Z.of_nat fuel)%Z ->
  exists m, py_search fuel u U low high mid = Ok m /\
    (low <= m < high)%Z /\ knot U m <= u /\ u < knot U (m + 1).
Proof.
  intros Hl Hh Hlo Hhi Hm Hf. rewrite py_search_is. destruct fuel as [|f]; [lia|].
  cbn [span_search]. rewrite ?rd_knot by lia. cbn [bind].
  destruct (qlt u (knot U mid)) eqn:E1; cbn [bind].
  - apply qlt_true in E1. assert (mid <> low) by (intro X; rewrite X in E1; qlra).
    destruct (span_search_ok u U f low mid) as [r [R1 [R2 R3]]]; auto; try lia.
    exists r. split; auto. split; auto. lia.
  - apply qlt_false in E1. assert (mid <> high) by (intro X; rewrite X in E1; qlra).
    rewrite ?rd_knot by lia. cbn [bind].
    destruct (qle (knot U (mid + 1)) u) eqn:E2.
    + apply qle_true in E2.
      destruct (span_search_ok u U f mid high) as [r [R1 [R2 R3]]]; auto; try lia.
      exists r. split; auto. split; auto. lia.
    + apply qle_false in E2. exists mid. split; auto. split; auto; lia.
Qed.

(* ---- find_span_linear ------------------------------------------------ *)
Lemma linear_ok U u hi : forall left span,
  (0 <= span)%Z -> (span + Z.of_nat left = hi)%Z -> (hi <= lenZ U)%Z ->
  exists s, linear_from left U u span = Ok s /\ (span <= s <= hi)%Z /\
    (forall i, (span <= i < s)%Z -> knot U i <= u) /\ ((s < hi)%Z -> u < knot U s).
Proof.
  induction left as [|k IH]; intros span H0 H1 H2; cbn [linear_from].
  - exists span. split; auto. split; [lia|]. split; intros; lia.
  - rewrite rd_knot by lia. cbn [bind]. destruct (qle (knot U span) u) eqn:E.
    + apply qle_true in E. destruct (IH (span + 1)%Z) as [s [A [B [C D]]]]; try lia.
      exists s. split; auto. split; [lia|]. split; auto.
      intros i Hi. destruct (Z.eq_dec i span) as [->|]; auto. apply C; lia.
    + apply qle_false in E. exists span. split; auto. split; [lia|]. split; auto. intros; lia.
Qed.

Lemma find_span_linear_ok p n U u : valid_knots p n U -> knot U p <= u ->
  exists s, find_span_linear p U (n + 1) u = Ok s /\ span_of p n U u s.
Proof.
  intros [Hp [L [M _]]] Hu. unfold find_span_linear.
  destruct (linear_ok U u (n + 1) (Z.to_nat (n + 1 - (p + 1))) (p + 1)) as [s [A [B [C D]]]]; try lia.
  rewrite A. cbn [bind]. exists (s - 1)%Z. split; auto.
  assert (HK : knot U (s - 1) <= u).
  { destruct (Z.eq_dec s (p + 1)) as [->|]. { now replace (p + 1 - 1)%Z with p by lia. } apply C; lia. }
  split; [lia|]. split.
  - intro H. split; auto. replace (s - 1 + 1)%Z with s by lia.
    destruct (Z.eq_dec s (n + 1)) as [->|]; auto. apply D. lia.
  - intro H. destruct (Z.eq_dec s (n + 1)) as [->|]; [lia|].
    assert (u < knot U s) by (apply D; lia). assert (knot U s <= knot U (n + 1)) by (apply M; lia). qlra.
Qed.

Lemma find_span_linear_below p n U u : valid_knots p n U -> u < knot U p ->
  find_span_linear p U (n + 1) u = Ok p.
Proof.
  intros [Hp [L [M _]]] Hu. unfold find_span_linear.
  destruct (linear_ok U u (n + 1) (Z.to_nat (n + 1 - (p + 1))) (p + 1)) as [s [A [B [C D]]]]; try lia.
  rewrite A. cbn [bind]. f_equal. destruct (Z.eq_dec s (p + 1)); [lia|].
  assert (knot U (p + 1) <= u) by (apply C; lia). assert (knot U p <= knot U (p + 1)) by (apply M; lia). qlra.
Qed.

Lemma find_spans_ok p n U : valid_knots p n U -> forall us, Forall (fun u => knot U p <= u) us ->
  exists l, find_spans p U (n + 1) us = Ok l /\ Forall2 (span_of p n U) us l.
Proof.
  intros V. induction 1 as [|u r Hu _ [l [E F]]]; cbn [find_spans].
  - exists []. auto.
  - destruct (find_span_linear_ok p n U u V Hu) as [s [Es S]]. rewrite Es. cbn [bind]. rewrite E. cbn [bind].
    exists (s :: l). auto.
Qed.

(* ---- find_knot_span --------------------------------------------------- *)
Lemma mid_between low high : (low < high)%Z -> (low <= (low + high) / 2 <= high)%Z.
Proof. intro. split; [apply Z.div_le_lower_bound|apply Z.div_le_upper_bound]; lia. Qed.

Lemma find_knot_span_ok p n U u : valid_knots p n U -> knot U p <= u -> u <= knot U (n + 1) ->
  exists k, forall fuel, (k < fuel)%nat ->
    exists s, find_knot_span fuel n p u U = Ok s /\ span_of p n U u s.
Proof.
  intros [Hp [L [M HN]]] H1 H2. exists (Z.to_nat (n + 1 - p)). intros fuel Hf.
  unfold find_knot_span. rewrite rd_knot by lia. cbn [bind].
  destruct (qeq u (knot U (n + 1))) eqn:E.
  - apply qeq_true in E. exists n. split; auto. split; [lia|]. split; auto. intro. rewrite E in *. qlra.
  - apply qeq_false in E.
    assert (u < knot U (n + 1)) by (apply Qcnot_le_lt; intro; apply E; apply Qcle_antisym; auto).
    destruct (search_from u U fuel p (n + 1) ((p + (n + 1)) / 2)) as [m [A [B [C D]]]]; auto; try lia.
    { apply mid_between; lia. }
    exists m. split; auto. split; [lia|]. split; auto. intro. qlra.
Qed.

(* ---- find_span_binsearch ---------------------------------------------- *)
Lemma qabs_le x t : qle (qabs x) t = true <-> - t <= x /\ x <= t.
Proof.
  unfold qabs. destruct (qlt x 0) eqn:E; rewrite qle_true; [apply qlt_true in E|apply qlt_false in E].
  - split. + intro. split. * qlra. * qlra.
  + intros [A B]; qlra.
 - split. + intro; split; qlra. + intros [A B]. auto.
Qed.

Lemma ceil_mid low high : (low < high)%Z -> (low <= (low + high + 1) / 2 <= high)%Z.
Proof. intro. split; [apply Z.div_le_lower_bound|apply Z.div_le_upper_bound]; lia. Qed.

Lemma binsearch_ok p n U u : valid_knots p n U -> knot U p <= u -> u < knot U (n + 1) - span_tol ->
  exists k, forall fuel, (k < fuel)%nat ->
    exists s, find_span_binsearch fuel p U (n + 1) u = Ok s /\ span_of p n U u s.
Proof.
  intros [Hp [L [M HN]]] H1 H2. exists (Z.to_nat (n + 1 - p)). intros fuel Hf.
  unfold find_span_binsearch. replace (n + 1 - 1 + 1)%Z with (n + 1)%Z by lia. rewrite rd_knot by lia. cbn [bind].
  destruct (qle (qabs (knot U (n + 1) - u)) span_tol) eqn:E.
  { apply qabs_le in E. destruct E. qlra. }
  assert (0 <= span_tol) by (apply qle_true; vm_compute; auto).
  assert (u < knot U (n + 1)) by qlra.
  destruct (search_from u U fuel p (n + 1) ((p + (n + 1) + 1) / 2)) as [m [A [B [C D]]]]; auto; try lia.
  { apply ceil_mid; lia. }
  exists m. split; auto. split; [lia|]. split; auto. intro. qlra.
Qed.

(* close to the end the last span is returned, whatever the knots *)
Lemma binsearch_end p n U u fuel : valid_knots p n U ->
  knot U (n + 1) - span_tol <= u -> u <= knot U (n + 1) + span_tol ->
  find_span_binsearch fuel p U (n + 1) u = Ok n.
Proof.
  intros [Hp [L [M HN]]] H1 H2.
  unfold find_span_binsearch. replace (n + 1 - 1 + 1)%Z with (n + 1)%Z by lia. rewrite rd_knot by lia. cbn [bind].
  assert (E : qle (qabs (knot U (n + 1) - u)) span_tol = true) by (apply qabs_le; split; qlra).
  rewrite E. f_equal. lia.
Qed.

(* ---- searches that never stop ------------------------------------------ *)
Lemma search_above u U n : (0 <= n)%Z -> (n + 1 < lenZ U)%Z -> sorted_knots U -> knot U (n + 1) <= u ->
  forall fuel low mid, (0 <= low <= n)%Z -> (low <= mid <= n)%Z ->
  py_search fuel u U low (n + 1) mid = Err OutOfFuel.
Proof.
  intros H0 L M Hu. induction fuel as [|f IH]; intros low mid Hl Hm; cbn [py_search];
  rewrite ?rd_knot by lia; cbn [bind];
  assert (K0 : knot U mid <= knot U (n + 1)) by (apply M; lia);
  assert (K1 : knot U (mid + 1) <= knot U (n + 1)) by (apply M; lia);
  assert (E : qlt u (knot U mid) = false) by (apply qlt_false; qlra); rewrite E; cbn [bind];
  rewrite ?rd_knot by lia; cbn [bind];
  assert (E1 : qle (knot U (mid + 1)) u = true) by (apply qle_true; qlra); rewrite E1; auto.
  apply IH; [lia|]. split; [apply Z.div_le_lower_bound; lia|].
  assert ((mid + (n + 1)) / 2 < n + 1)%Z by (apply Z.div_lt_upper_bound; lia). lia.
Qed.

Lemma search_below u U p : (0 <= p)%Z -> u < knot U p ->
  (forall i, (p <= i < lenZ U)%Z -> knot U p <= knot U i) ->
  forall fuel high mid, (p <= mid <= high)%Z -> (high < lenZ U)%Z ->
  py_search fuel u U p high mid = Err OutOfFuel.
Proof.
  intros H0 Hu M. induction fuel as [|f IH]; intros high mid Hm Hl; cbn [py_search];
  rewrite ?rd_knot by lia; cbn [bind];
  assert (E : qlt u (knot U mid) = true) by (apply qlt_true; assert (knot U p <= knot U mid) by (apply M; lia); qlra);
  rewrite E; cbn [bind]; auto.
  apply IH; try lia. destruct (Z.eq_dec p mid) as [->|].
  - rewrite Z.add_diag, Z.mul_comm, Z.div_mul; lia.
  - apply mid_between; lia.
Qed.

Lemma binsearch_outside p n U u fuel : valid_knots p n U ->
  (u < knot U p /\ u < knot U (n + 1) - span_tol) \/
  (knot U (n + 1) + span_tol < u /\ (p < n)%Z) ->
  find_span_binsearch fuel p U (n + 1) u = Err OutOfFuel.
Proof.
  intros [Hp [L [M HN]]] H.
  assert (Ht : 0 <= span_tol) by (apply qle_true; vm_compute; auto).
  unfold find_span_binsearch. replace (n + 1 - 1 + 1)%Z with (n + 1)%Z by lia. rewrite rd_knot by lia. cbn [bind].
  destruct (qle (qabs (knot U (n + 1) - u)) span_tol) eqn:E.
  { apply qabs_le in E. destruct E. destruct H as [[]|[]]; qlra. }
  destruct H as [[H1 H2]|[H1 H2]].
  - apply search_below; auto; try lia. { intros; apply M; lia. } apply ceil_mid; lia.
  - apply search_above; auto; try lia. { qlra. } split; [apply ceil_mid; lia|].
    assert ((p + (n + 1) + 1) / 2 < n + 1)%Z by (apply Z.div_lt_upper_bound; lia). lia.
Qed.

Lemma find_knot_span_outside p n U u fuel : valid_knots p n U -> u < knot U p \/ knot U (n + 1) < u ->
  find_knot_span fuel n p u U = Err OutOfFuel.
Proof.
  intros [Hp [L [M HN]]] H. unfold find_knot_span. rewrite rd_knot by lia. cbn [bind].
  assert (knot U p <= knot U (n + 1)) by (apply M; lia).
  destruct (qeq u (knot U (n + 1))) eqn:E. { apply qeq_true in E. subst u. destruct H; qlra. }
  destruct H as [H|H].
  - apply search_below; auto; try lia. { intros; apply M; lia. } apply mid_between; lia.
  - apply search_above; auto; try lia. { qlra. } split; [apply mid_between; lia|].
    assert ((p + (n + 1)) / 2 < n + 1)%Z by (apply Z.div_lt_upper_bound; lia). lia.
Qed.

(* ---- bspline_utils.find_span ------------------------------------------- *)
Lemma utils_span_ok p n U u : valid_knots p n U -> knot U p < u \/ (u = knot U p /\ knot U p < knot U (p + 1)) ->
  exists k, forall fuel, (k < fuel)%nat ->
    exists s, utils_find_span fuel p u U = Ok s /\ span_of p n U u s.
Proof.
  intros [Hp [L [M HN]]] H. exists (Z.to_nat (n + 1 - p)). intros fuel Hf.
  unfold utils_find_span. replace (lenZ U - p - 1)%Z with (n + 1)%Z by lia. rewrite ?rd_knot by lia. cbn [bind].
  destruct (qle (knot U (n + 1)) u) eqn:E.
  - apply qle_true in E. exists n. split; [f_equal; lia|]. split; [lia|]. split; auto. intro; qlra.
  - apply qle_false in E. rewrite ?rd_knot by lia. cbn [bind]. destruct (qle u (knot U p)) eqn:E1.
    + apply qle_true in E1. destruct H as [H|[-> H]]; [qlra|]. exists p. split; auto. split; [lia|].
      split; [|intro; qlra]. { intro. split; [apply Qcle_refl|auto]. }
    + apply qle_false in E1.
      destruct (search_from u U fuel p (n + 1) ((p + (n + 1)) / 2)) as [m [A [B [C D]]]]; auto; try lia; try qlra.
      { apply mid_between; lia. }
      exists m. split; auto. split; [lia|]. split; auto. intro. qlra.
Qed.

(* every parameter gets an answer *)
Lemma utils_span_total p n U u : valid_knots p n U ->
  exists k, forall fuel, (k < fuel)%nat -> exists s, utils_find_span fuel p u U = Ok s /\ (p <= s <= n)%Z.
Proof.
  intros V. pose proof V as [Hp [L [M HN]]]. destruct (Qclt_le_dec (knot U p) u) as [H|H].
  - destruct (utils_span_ok p n U u V (or_introl H)) as [k K]. exists k. intros fuel Hf.
    destruct (K fuel Hf) as [s [A [B _]]]. eauto.
  - exists O. intros fuel _. unfold utils_find_span. replace (lenZ U - p - 1)%Z with (n + 1)%Z by lia.
    rewrite ?rd_knot by lia. cbn [bind]. destruct (qle (knot U (n + 1)) u) eqn:E.
    + exists n. split; [f_equal; lia|lia].
    + rewrite ?rd_knot by lia. cbn [bind].
      assert (E1 : qle u (knot U p) = true) by now apply qle_true. rewrite E1. exists p. split; auto. lia.
Qed.

(* at the start of the domain an empty first span is returned *)
Lemma utils_span_start p n U fuel : valid_knots p n U -> knot U p = knot U (p + 1) ->
  utils_find_span fuel p (knot U p) U = Ok p.
Proof.
  intros [Hp [L [M HN]]] H. unfold utils_find_span. replace (lenZ U - p - 1)%Z with (n + 1)%Z by lia.
  rewrite ?rd_knot by lia. cbn [bind].
  assert (p <> n). { intros ->. rewrite H in HN. qlra. }
  assert (knot U p <= knot U n) by (apply M; lia).
  assert (E : qle (knot U (n + 1)) (knot U p) = false) by (apply qle_false; qlra). rewrite E.
  rewrite ?rd_knot by lia. cbn [bind].
  assert (E1 : qle (knot U p) (knot U p) = true) by (apply qle_true; apply Qcle_refl). now rewrite E1.
Qed.

(* ---- basis_function ----------------------------------------------------- *)
Lemma basis_function_is p s u U : (0 <= p)%Z ->
  basis_function p U s u = basis_funs s u p U (repeat 1 (Z.to_nat (p + 1))).
Proof.
  intro Hp. unfold basis_function, basis_funs. rewrite wrZ_ok by (rewrite lenZ_repeat; lia). cbn [bind].
  replace (Z.to_nat (p + 1)) with (S (Z.to_nat p)) by lia. reflexivity.
Qed.

Lemma basis_function_ok p n U u s : valid_knots p n U -> span_of p n U u s ->
  exists N, basis_function p U s u = Ok N /\ lenZ N = (p + 1)%Z /\
    forall r, (0 <= r <= p)%Z -> atZ 0 N r = cox_de_boor U n (Z.to_nat p) (s - p + r) u.
Proof.
  intros V S. pose proof V as [Hp [L _]]. pose proof S as [Hs _]. rewrite basis_function_is by lia.
  destruct (basis_funs_ok p s u U (repeat 1 (Z.to_nat (p + 1)))) as [N [A [B C]]]; try lia.
  { rewrite lenZ_repeat; lia. } { apply (span_ndg p n U u); auto. }
  exists N. split; auto. split; auto. intros r Hr. rewrite C by auto.
  symmetry. apply (cdb_Bs p n U u s); auto; lia.
Qed.
