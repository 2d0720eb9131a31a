(* Dual contouring: proofs about shapes, zeros and contours. *)
From Coq Require Import List Arith ZArith Bool QArith Qcanon Lia.
From Verif Require Import Common QcLib AabbModel ImplModel DcModel DcSpec.
Import ListNotations.
Local Open Scope Qc_scope.

Ltac qcase := repeat match goal with |- context [if qlt ?a ?b then _ else _] => let E := fresh "E" in destruct (qlt a b) eqn:E; [apply qlt_true in E|apply qlt_false in E] end.
Lemma fmin_neg a b : fmin a b < 0 <-> a < 0 \/ b < 0.
Proof. unfold fmin. qcase; (split; [intro H|intros [H|H]]); auto; try qlra. Qed.
Lemma fmax_neg a b : fmax a b < 0 <-> a < 0 /\ b < 0.
Proof. unfold fmax. qcase; (split; [intro H; split|intros (H1 & H2)]); auto; try qlra. Qed.
Lemma csg_ok a b p : (inside (union a b) p <-> inside a p \/ inside b p) /\ (inside (intersection a b) p <-> inside a p /\ inside b p) /\
  (inside (inv a) p <-> 0 < a p) /\ (inside (substract a b) p <-> inside a p /\ 0 < b p).
Proof.
  unfold inside, union, intersection, inv, substract, opUnion, opIntersection, opSubtraction. rewrite fmin_neg, !fmax_neg.
  split; [tauto|]. split; [tauto|]. split.
  - split; intro H; qlra.
  - split; intros (H1 & H2); split; qlra.
Qed.
Lemma rectangle_ok lo hi p : inside (rectangle lo hi) p <-> (fst lo < fst p /\ fst p < fst hi) /\ (snd lo < snd p /\ snd p < snd hi).
Proof.
  unfold rectangle. rewrite !(proj1 (proj2 (csg_ok _ _ _))). unfold inside, right_of, left_of, upper_than, lower_than.
  split; intros H; decompose [and] H; repeat split; qlra.
Qed.
Lemma xor_ok d1 d2 : opXor d1 d2 < 0 <-> (d1 < 0 /\ 0 < d2) \/ (0 < d1 /\ d2 < 0).
Proof.
  unfold opXor. rewrite fmax_neg, fmin_neg. unfold fmax. qcase; split.
  - intros ([H|H] & K); [left; split; auto; qlra|exfalso; qlra].
  - intros [(H & K)|(H & K)]; [split; [auto|qlra]|exfalso; qlra].
  - intros ([H|H] & K); [exfalso; qlra|right; split; auto; qlra].
  - intros [(H & K)|(H & K)]; [exfalso; qlra|split; [auto|qlra]].
Qed.

(* bisection *)
Lemma pos_along a b f : pos a b f = along a b f.
Proof. unfold pos, along. f_equal; ring. Qed.
Lemma along_0 a b : along a b 0 = a.
Proof. destruct a, b. unfold along. cbn [fst snd]. f_equal; ring. Qed.
Lemma along_1 a b : along a b 1 = b.
Proof. destruct a, b. unfold along. cbn [fst snd]. f_equal; ring. Qed.
Lemma half_twice x : x / two + x / two = x.
Proof.
  unfold Qcdiv. replace (x * / two + x * / two) with (x * (/ two + / two)) by ring.
  replace (/ two + / two) with 1 by (apply Qc_is_canon; reflexivity). ring.
Qed.
Lemma half_pos x : 0 < x -> 0 < x / two.
Proof. intro H. assert (K := half_twice x). set (h := x / two) in *. clearbody h. qlra. Qed.
Fixpoint shrink (x : Qc) (n : nat) : Qc := match n with O => x | S n => shrink (x / two) n end.
Lemma zero_inv s a b i : forall f step, 0 < step -> step + step <= f -> f + (step + step) <= 1 ->
  inside s (along a b (f - (step + step))) -> ~ inside s (along a b (f + (step + step))) ->
  exists g, zero_ s a b f step i = along a b g /\ shrink step i + shrink step i <= g /\ g + (shrink step i + shrink step i) <= 1 /\
    inside s (along a b (g - (shrink step i + shrink step i))) /\ ~ inside s (along a b (g + (shrink step i + shrink step i))).
Proof.
  induction i as [|i IH]; intros f step P L U I1 I2; cbn [zero_ shrink].
  - exists f. rewrite pos_along. auto.
  - rewrite pos_along. assert (H := half_twice step). assert (HP := half_pos step P).
    destruct (qlt (s (along a b f)) 0) eqn:E; [apply qlt_true in E|apply qlt_false in E].
    + apply IH; auto; rewrite H; try qlra.
      * replace (f + step - step) with f by ring. exact E.
      * replace (f + step + step) with (f + (step + step)) by ring. exact I2.
    + apply IH; auto; rewrite H; try qlra.
      * replace (f - step - step) with (f - (step + step)) by ring. exact I1.
      * replace (f - step + step) with f by ring. intro K. unfold inside in K. qlra.
Qed.
Lemma zero_start s a b : inside s a -> ~ inside s b -> near_zero s a b (zero_ s a b q12 (Q2Qc (1 # 4)) 10).
Proof.
  intros A B. destruct (zero_inv s a b 10 q12 (Q2Qc (1 # 4))) as (g & E & L & U & I1 & I2).
  - reflexivity.
  - apply Qcle_alt. vm_compute. discriminate.
  - apply Qcle_alt. vm_compute. discriminate.
  - replace (q12 - (Q2Qc (1 # 4) + Q2Qc (1 # 4))) with 0 by (apply Qc_is_canon; reflexivity). now rewrite along_0.
  - replace (q12 + (Q2Qc (1 # 4) + Q2Qc (1 # 4))) with 1 by (apply Qc_is_canon; reflexivity). now rewrite along_1.
  - assert (S : shrink (Q2Qc (1 # 4)) 10 + shrink (Q2Qc (1 # 4)) 10 = eps) by (apply Qc_is_canon; vm_compute; reflexivity). rewrite S in *.
    exists g. split; auto. split; [qlra|]. auto.
Qed.
Lemma zero_ok s a b fuel : changes s a b -> exists p, zero (S (S fuel)) s a b = Ok p /\ near_change s a b p.
Proof.
  intros C. cbn [zero]. destruct (qle 0 (s a)) eqn:E; [apply qle_true in E|apply qle_false in E].
  - destruct C as [(A & _)|(_ & B)]; [unfold inside in A; exfalso; qlra|]. rewrite (proj2 (qle_false _ _) B).
    eexists. split; [reflexivity|]. right. apply zero_start; auto. unfold inside. intro. qlra.
  - destruct C as [(_ & B)|(A & _)]; [|exfalso; apply A; exact E]. eexists. split; [reflexivity|]. left. apply zero_start; auto.
Qed.
Lemma zero_never s fuel : forall a b, ~ inside s a -> ~ inside s b -> zero fuel s a b = Err OutOfFuel.
Proof.
  induction fuel as [|fuel IH]; intros a b A B; cbn [zero]; auto. assert (E : qle 0 (s a) = true). { apply qle_true. unfold inside in A. apply Qcnot_lt_le. exact A. }
  rewrite E. apply IH; auto.
Qed.

(* contours *)
Lemma index_eq s a b c d : index s ((a, b), (c, d)) =
  ((if qlt (s (a, b)) 0 then 8 else 0) + ((if qlt (s (c, b)) 0 then 4 else 0) + ((if qlt (s (a, d)) 0 then 2 else 0) + ((if qlt (s (c, d)) 0 then 1 else 0) + 0))))%nat.
Proof. reflexivity. Qed.
Lemma inside_dec s p : (qlt (s p) 0 = true /\ inside s p) \/ (qlt (s p) 0 = false /\ ~ inside s p).
Proof. destruct (qlt (s p) 0) eqn:E; [left; split; auto; now apply qlt_true|right; split; auto]. apply qlt_false in E. unfold inside. intro. qlra. Qed.
Lemma edges_ok s cell : exists es, edges s cell = Ok es /\
  (forall sd, (crossed s cell sd -> uses es sd = 1%nat) /\ (~ crossed s cell sd -> uses es sd = 0%nat)) /\
  (forall i o, In (i, o) es -> crossed s cell i /\ crossed s cell o /\ inside s (left_entering cell i) /\ inside s (left_leaving cell o)).
Proof.
  destruct cell as ((a, b), (c, d)). unfold edges. rewrite index_eq. unfold crossed, changes, side_ends, left_entering, left_leaving, x0, x1, y0, y1. cbn [fst snd].
  destruct (inside_dec s (a, b)) as [(E1 & I1)|(E1 & I1)]; rewrite E1; destruct (inside_dec s (c, b)) as [(E2 & I2)|(E2 & I2)]; rewrite E2;
  destruct (inside_dec s (a, d)) as [(E3 & I3)|(E3 & I3)]; rewrite E3; destruct (inside_dec s (c, d)) as [(E4 & I4)|(E4 & I4)]; rewrite E4;
  cbn [Nat.add nth_error lut]; (eexists; split; [reflexivity|]); (split;
   [intros []; cbn [fst snd]; split; intro K; try reflexivity; exfalso; tauto
   |intros i o K; cbn [In] in K; repeat (destruct K as [K|K]; [injection K as <- <-; cbn [fst snd]; tauto|]); contradiction]).
Qed.
Lemma pt_ends fuel s cell sd : pt fuel s cell sd = zero fuel s (fst (side_ends cell sd)) (snd (side_ends cell sd)).
Proof. destruct cell as ((a, b), (c, d)). destruct sd; reflexivity. Qed.
Definition matches (s : shape) (cell : box2) (e : side * side) (p : p2 * p2) : Prop :=
  near_change s (fst (side_ends cell (fst e))) (snd (side_ends cell (fst e))) (fst p) /\
  near_change s (fst (side_ends cell (snd e))) (snd (side_ends cell (snd e))) (snd p).
Lemma edge_points_ok fuel s cell es : (forall i o, In (i, o) es -> crossed s cell i /\ crossed s cell o) ->
  exists ps, edge_points (S (S fuel)) s cell es = Ok ps /\ Forall2 (matches s cell) es ps.
Proof.
  induction es as [|(i, o) es IH]; intro H; cbn [edge_points]; [exists []; auto|]. destruct (H i o (or_introl eq_refl)) as (Ci & Co). rewrite !pt_ends.
  destruct (zero_ok s _ _ fuel Ci) as (p & -> & P). destruct (zero_ok s _ _ fuel Co) as (r & -> & R). cbn [bind].
  destruct IH as (ps & -> & F); [intros i' o' K; apply H; now right|]. exists ((p, r) :: ps). split; auto. constructor; auto. split; auto.
Qed.
Lemma contours_ok s cell fuel : exists es ps, edges s cell = Ok es /\ contours (S (S fuel)) s cell = Ok ps /\
  (forall sd, (crossed s cell sd -> uses es sd = 1%nat) /\ (~ crossed s cell sd -> uses es sd = 0%nat)) /\
  (forall i o, In (i, o) es -> inside s (left_entering cell i) /\ inside s (left_leaving cell o)) /\
  Forall2 (fun e p => near_change s (fst (side_ends cell (fst e))) (snd (side_ends cell (fst e))) (fst p) /\
                      near_change s (fst (side_ends cell (snd e))) (snd (side_ends cell (snd e))) (snd p)) es ps.
Proof.
  destruct (edges_ok s cell) as (es & E & U & C). destruct (edge_points_ok fuel s cell es) as (ps & P & F); [intros; split; now apply (C i o)|].
  exists es, ps. split; auto. split; [unfold contours; rewrite E; exact P|]. split; auto. split; auto. intros i o K. split; now apply (C i o).
Qed.
(* a side shared by two cells *)
Lemma uses_in es sd : uses es sd = 1%nat -> exists e, In e es /\ (fst e = sd \/ snd e = sd).
Proof.
  unfold uses. intro U. destruct (filter (side_eqb sd) (flat_map (fun e => [fst e; snd e]) es)) as [|x l] eqn:F; [discriminate|].
  assert (K : In x (filter (side_eqb sd) (flat_map (fun e => [fst e; snd e]) es))) by (rewrite F; now left). apply filter_In in K. destruct K as (K & Q).
  apply in_flat_map in K. destruct K as (e & Ie & K). exists e. split; auto. assert (X : x = sd) by (destruct x, sd; auto; discriminate). subst x. cbn in K. tauto.
Qed.
Lemma enters_iff s cell es sd : edges s cell = Ok es -> ((exists o, In (sd, o) es) <-> crossed s cell sd /\ inside s (left_entering cell sd)).
Proof.
  intro E. destruct (edges_ok s cell) as (es' & E' & U & C). rewrite E in E'. injection E' as <-. split.
  - intros (o & K). destruct (C _ _ K) as (A & _ & B & _). auto.
  - intros (A & B). destruct (uses_in es sd (proj1 (U sd) A)) as ((i, o) & K & [X|X]); cbn [fst snd] in X; subst; [now exists o|].
    exfalso. destruct (C _ _ K) as (_ & A' & _ & B'). revert A B B'. unfold crossed, changes, side_ends, left_entering, left_leaving. destruct sd; cbn [fst snd]; tauto.
Qed.
Lemma leaves_iff s cell es sd : edges s cell = Ok es -> ((exists i, In (i, sd) es) <-> crossed s cell sd /\ inside s (left_leaving cell sd)).
Proof.
  intro E. destruct (edges_ok s cell) as (es' & E' & U & C). rewrite E in E'. injection E' as <-. split.
  - intros (o & K). destruct (C _ _ K) as (_ & A & _ & B). auto.
  - intros (A & B). destruct (uses_in es sd (proj1 (U sd) A)) as ((i, o) & K & [X|X]); cbn [fst snd] in X; subst; [|now exists i].
    exfalso. destruct (C _ _ K) as (A' & _ & B' & _). revert A B B'. unfold crossed, changes, side_ends, left_entering, left_leaving. destruct sd; cbn [fst snd]; tauto.
Qed.
Lemma joins_side s c1 c2 es1 es2 sd1 sd2 fuel : side_ends c1 sd1 = side_ends c2 sd2 -> left_leaving c1 sd1 = left_entering c2 sd2 -> left_entering c1 sd1 = left_leaving c2 sd2 ->
  edges s c1 = Ok es1 -> edges s c2 = Ok es2 ->
  pt fuel s c1 sd1 = pt fuel s c2 sd2 /\ ((exists i, In (i, sd1) es1) <-> (exists o, In (sd2, o) es2)) /\ ((exists o, In (sd1, o) es1) <-> (exists i, In (i, sd2) es2)).
Proof.
  intros S L L' E1 E2. split; [rewrite !pt_ends, S; reflexivity|]. rewrite (leaves_iff s c1 es1 sd1 E1), (enters_iff s c2 es2 sd2 E2), (enters_iff s c1 es1 sd1 E1), (leaves_iff s c2 es2 sd2 E2).
  unfold crossed. rewrite S, L, L'. tauto.
Qed.
