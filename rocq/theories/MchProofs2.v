(* Separation of sets of points: lemmas. *)
From Coq Require Import List Arith ZArith Bool QArith Qcanon Lia Lra.
From Verif Require Import Common QcLib ListLib RtModel RtProofs1 NcsModel MchModel MchSpec.
Import ListNotations.
Local Open Scope Qc_scope.

Lemma dot3_form p n : dot3 p n = form n p.
Proof. destruct p as [[a b] c], n as [[d e] f]. reflexivity. Qed.

Lemma dot3_comm a b : dot3 a b = dot3 b a.
Proof. destruct a as [[a1 a2] a3], b as [[b1 b2] b3]. cbn. ring. Qed.

Lemma form_add n a b : form n (add3 a b) = form n a + form n b.
Proof. destruct a as [[a1 a2] a3], b as [[b1 b2] b3], n as [[n1 n2] n3]. unfold form, add3. cbn [fst snd]. ring. Qed.

Lemma form_scale n c a : form n (scale3 c a) = c * form n a.
Proof. destruct a as [[a1 a2] a3], n as [[n1 n2] n3]. unfold form, scale3. cbn [fst snd]. ring. Qed.

Lemma form_zero n : form n (0, 0, 0) = 0.
Proof. destruct n as [[n1 n2] n3]. unfold form. cbn [fst snd]. ring. Qed.

Lemma form_sum n l : form n (fold_right add3 (0, 0, 0) l) = fold_right (fun p s => form n p + s) 0 l.
Proof. induction l as [|a l IH]; cbn [fold_right]; [apply form_zero|now rewrite form_add, IH]. Qed.

Lemma form_sum_low n c l : Forall (fun p => c <= form n p) l -> qn (length l) * c <= form n (fold_right add3 (0, 0, 0) l).
Proof.
  induction 1 as [|a l Ha _ IH]; cbn [fold_right length]; [rewrite form_zero; cbn; change (qn 0) with 0; qlra|].
  rewrite form_add, qn_S. replace ((qn (length l) + 1) * c) with (qn (length l) * c + c) by ring. revert IH Ha. generalize (qn (length l) * c) (form n a) (form n (fold_right add3 (0, 0, 0) l)). intros u v w H1 H2. qlra.
Qed.

Lemma form_sum_tight n c l : Forall (fun p => c <= form n p) l -> form n (fold_right add3 (0, 0, 0) l) = qn (length l) * c -> Forall (fun p => form n p = c) l.
Proof.
  induction 1 as [|a l Ha Hl IH]; intros E; constructor; cbn [fold_right length] in E; rewrite form_add, qn_S in E;
    replace ((qn (length l) + 1) * c) with (qn (length l) * c + c) in E by ring; pose proof (form_sum_low n c l Hl) as L.
  - revert E L Ha. generalize (qn (length l) * c) (form n a) (form n (fold_right add3 (0, 0, 0) l)). intros u v w H1 H2 H3. apply Qcle_antisym; qlra.
  - apply IH. revert E L Ha. generalize (qn (length l) * c) (form n a) (form n (fold_right add3 (0, 0, 0) l)). intros u v w H1 H2 H3. apply Qcle_antisym; qlra.
Qed.

Lemma form_mean_const n c l : l <> [] -> Forall (fun p => form n p = c) l -> form n (mean3 l) = c.
Proof.
  intros Hl H. unfold mean3. rewrite form_scale, form_sum.
  assert (fold_right (fun p s => form n p + s) 0 l = qn (length l) * c) as ->.
  { clear Hl. induction H as [|a l Ha _ IH]; cbn [fold_right length]; [change (qn 0) with 0; ring|]. rewrite IH, Ha, qn_S. ring. }
  rewrite Qcmult_assoc, Qcmult_inv_l; [ring|]. destruct l; [congruence|]. cbn [length]. pose proof (qn_pos (S (length l)) ltac:(lia)) as P. intros Z. rewrite Z in P. now apply (Qclt_not_eq 0 0 P).
Qed.

Lemma plane_separates_iff n l1 l2 : l1 <> [] ->
  plane_separates n l1 l2 = true <-> exists c, Forall (fun p => form n p = c) l1 /\ Forall (fun p => form n p <= c) l2.
Proof.
  intros Hl. unfold plane_separates. rewrite dot3_comm, dot3_form, andb_true_iff, !forallb_forall. split.
  - intros [H1 H2]. exists (form n (mean3 l1)). split.
    + apply form_sum_tight.
      * apply Forall_forall. intros p Hp. specialize (H1 p Hp). apply qle_true in H1. rewrite dot3_form in H1. qlra.
      * unfold mean3. rewrite form_scale, Qcmult_assoc, Qcmult_inv_r; [ring|]. destruct l1; [congruence|]. cbn [length].
        pose proof (qn_pos (S (length l1)) ltac:(lia)) as P. intros Z. rewrite Z in P. now apply (Qclt_not_eq 0 0 P).
    + apply Forall_forall. intros p Hp. specialize (H2 p Hp). apply qle_true in H2. rewrite dot3_form in H2. qlra.
  - intros (c & H1 & H2). rewrite (form_mean_const n c l1 Hl H1). rewrite Forall_forall in H1, H2. split; intros p Hp; apply qle_true; rewrite dot3_form.
    + rewrite (H1 p Hp). qlra.
    + specialize (H2 p Hp). qlra.
Qed.

Lemma plane_test_ok norm sol eps l1 l2 m d e :
  separating_plane_test norm sol eps l1 l2 = (true, Some (m, d, e)) -> plane_between eps (- d) m l1 l2 /\ exists n, sol = Some (n, d, e) /\ eps <= norm n /\ m = scale3 (/ norm n) n.
Proof.
  unfold separating_plane_test. destruct sol as [[[n d'] e']|]; [|discriminate]. destruct (qlt _ _) eqn:B; [discriminate|].
  destruct (_ && _)%bool eqn:C; [|discriminate]. intros E. injection E as <- <- <-. apply qlt_false in B.
  apply andb_true_iff in C as [C1 C2]. rewrite forallb_forall in C1, C2. split; [|exists n; split; [reflexivity|split; [qlra|reflexivity]]].
  split; apply Forall_forall; intros p Hp; [specialize (C1 p Hp); apply qle_true in C1; rewrite dot3_form in C1|specialize (C2 p Hp); apply qle_true in C2; rewrite dot3_form in C2]; qlra.
Qed.

Lemma plane_test_shape norm sol eps l1 l2 : (exists x, separating_plane_test norm sol eps l1 l2 = (true, Some x)) \/ separating_plane_test norm sol eps l1 l2 = (false, None).
Proof.
  unfold separating_plane_test. destruct sol as [[[n d'] e']|]; [|auto]. destruct (qlt _ _); [auto|]. destruct (_ && _)%bool; eauto.
Qed.

Lemma zero_feasible l1 l2 : lp_constraints l1 l2 ((0, 0, 0), 0, 0) = true.
Proof.
  unfold lp_constraints. rewrite andb_true_iff, !forallb_forall. split; intros [[a b] c] _; apply qle_true; cbn [dot3]; qlra.
Qed.

Lemma least_of_ok : forall l x, In (least_of x l) (x :: l) /\ Forall (fun y => least_of x l <= y) (x :: l).
Proof.
  induction l as [|y l IH]; intros x; cbn [least_of]; [split; [now left|constructor; [apply Qcle_refl|constructor]]|].
  destruct (qlt y x) eqn:B.
  - destruct (IH y) as [H1 H2]. split; [now right|]. constructor; [|exact H2]. apply qlt_true in B. inversion_clear H2. qlra.
  - destruct (IH x) as [H1 H2]. apply qlt_false in B. inversion_clear H2 as [|? ? H3 H4]. split; [destruct H1 as [H1|H1]; [now left|right; now right]|].
    constructor; [exact H3|constructor; [qlra|exact H4]].
Qed.

Lemma greatest_of_ok : forall l x, In (greatest_of x l) (x :: l) /\ Forall (fun y => y <= greatest_of x l) (x :: l).
Proof.
  induction l as [|y l IH]; intros x; cbn [greatest_of]; [split; [now left|constructor; [apply Qcle_refl|constructor]]|].
  destruct (qlt x y) eqn:B.
  - destruct (IH y) as [H1 H2]. split; [now right|]. constructor; [|exact H2]. apply qlt_true in B. inversion_clear H2. qlra.
  - destruct (IH x) as [H1 H2]. apply qlt_false in B. inversion_clear H2 as [|? ? H3 H4]. split; [destruct H1 as [H1|H1]; [now left|right; now right]|].
    constructor; [exact H3|constructor; [qlra|exact H4]].
Qed.

Lemma range_of_ok c l r : range_of c l = Ok r -> (exists p, In p l /\ c p = fst r) /\ (exists p, In p l /\ c p = snd r) /\ forall p, In p l -> fst r <= c p /\ c p <= snd r.
Proof.
  unfold range_of. destruct (map c l) as [|x t] eqn:M; [discriminate|]. intros E. injection E as <-. cbn [fst snd].
  destruct (least_of_ok t x) as [A1 A2], (greatest_of_ok t x) as [B1 B2]. rewrite <- M in *. rewrite Forall_forall in A2, B2.
  apply in_map_iff in A1 as (p & P1 & P2). apply in_map_iff in B1 as (q & Q1 & Q2).
  split; [exists p; auto|]. split; [exists q; auto|]. intros z Hz. split; [apply A2|apply B2]; now apply in_map.
Qed.

Lemma range_of_total c l : l <> [] -> exists r, range_of c l = Ok r.
Proof. unfold range_of. destruct l; [congruence|]. cbn. eauto. Qed.

Lemma meet_gap c l1 l2 r1 r2 : range_of c l1 = Ok r1 -> range_of c l2 = Ok r2 -> meet r1 r2 = false <-> coordinate_gap c l1 l2.
Proof.
  intros E1 E2. destruct (range_of_ok _ _ _ E1) as ((p1 & P1 & P2) & (q1 & Q1 & Q2) & H1), (range_of_ok _ _ _ E2) as ((p2 & P3 & P4) & (q2 & Q3 & Q4) & H2).
  unfold meet. rewrite andb_false_iff, !qle_false. split.
  - intros [H|H].
    + right. intros p q Hp Hq. destruct (H1 p Hp), (H2 q Hq). qlra.
    + left. intros p q Hp Hq. destruct (H1 p Hp), (H2 q Hq). qlra.
  - intros [H|H].
    + right. specialize (H q1 p2 Q1 P3). rewrite Q2, P4 in H. exact H.
    + left. specialize (H p1 q2 P1 Q3). rewrite P2, Q4 in H. exact H.
Qed.

Lemma boxes_meet_ok l1 l2 b : boxes_meet l1 l2 = Ok b -> b = false <-> exists c, In c [cx; cy; cz] /\ coordinate_gap c l1 l2.
Proof.
  unfold boxes_meet.
  destruct (range_of cx l1) as [x1|] eqn:X1; [|discriminate]. destruct (range_of cx l2) as [x2|] eqn:X2; [|discriminate].
  destruct (range_of cy l1) as [y1|] eqn:Y1; [|discriminate]. destruct (range_of cy l2) as [y2|] eqn:Y2; [|discriminate].
  destruct (range_of cz l1) as [z1|] eqn:Z1; [|discriminate]. destruct (range_of cz l2) as [z2|] eqn:Z2; [|discriminate].
  cbn [bind]. intros E. injection E as <-. rewrite !andb_false_iff, (meet_gap cx l1 l2 _ _ X1 X2), (meet_gap cy l1 l2 _ _ Y1 Y2), (meet_gap cz l1 l2 _ _ Z1 Z2). split.
  - intros [[H|H]|H]; eexists; (split; [|exact H]); cbn; auto.
  - intros (c & [<-|[<-|[<-|[]]]] & H); auto.
Qed.

Lemma boxes_meet_total l1 l2 : l1 <> [] -> l2 <> [] -> exists b, boxes_meet l1 l2 = Ok b.
Proof.
  intros H1 H2. unfold boxes_meet.
  destruct (range_of_total cx l1 H1) as [? ->], (range_of_total cx l2 H2) as [? ->], (range_of_total cy l1 H1) as [? ->], (range_of_total cy l2 H2) as [? ->],
    (range_of_total cz l1 H1) as [? ->], (range_of_total cz l2 H2) as [? ->]. cbn [bind]. eauto.
Qed.
