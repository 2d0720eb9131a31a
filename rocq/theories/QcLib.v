(* Exact rational arithmetic (canonical rationals Qc): order lemmas and a
   tactic that hands linear and non-linear goals over Qc to lra/nra over Q.
   No model content. *)
From Coq Require Import QArith Qcanon Lqa ZArith Lia Bool.
Local Open Scope Qc_scope.

Lemma this_add a b : (this (a + b) == this a + this b)%Q.
Proof. unfold Qcplus, Q2Qc; cbn [this]. apply Qred_correct. Qed.
Lemma this_mul a b : (this (a * b) == this a * this b)%Q.
Proof. unfold Qcmult, Q2Qc; cbn [this]. apply Qred_correct. Qed.
Lemma this_opp a : (this (- a) == - this a)%Q.
Proof. unfold Qcopp, Q2Qc; cbn [this]. apply Qred_correct. Qed.
Lemma this_sub a b : (this (a - b) == this a - this b)%Q.
Proof. unfold Qcminus. rewrite this_add, this_opp. reflexivity. Qed.
Lemma this_0 : this 0 = 0%Q. Proof. reflexivity. Qed.
Lemma this_1 : this 1 = 1%Q. Proof. reflexivity. Qed.
Lemma this_Q2Qc q : (this (Q2Qc q) == q)%Q.
Proof. unfold Q2Qc; cbn [this]. apply Qred_correct. Qed.

Lemma qc_eq_Q a b : a = b <-> (this a == this b)%Q.
Proof. split; [intros ->; reflexivity | apply Qc_is_canon]. Qed.
Lemma qc_le_Q a b : a <= b <-> (this a <= this b)%Q.
Proof. reflexivity. Qed.
Lemma qc_lt_Q a b : a < b <-> (this a < this b)%Q.
Proof. reflexivity. Qed.

Global Arguments Qcplus : simpl never.
Global Arguments Qcmult : simpl never.
Global Arguments Qcopp : simpl never.
Global Arguments Qcminus : simpl never.
Global Arguments Qcinv : simpl never.
Global Arguments Qcdiv : simpl never.

(* Turn Qc hypotheses into Q hypotheses, generalise the atoms. *)
Ltac qc_hyp H :=
  let T := type of H in
  lazymatch T with
  | @eq Qc ?a ?b => apply (proj1 (qc_eq_Q a b)) in H
  | ~ (@eq Qc ?a ?b) => rewrite (qc_eq_Q a b) in H
  | Qcle ?a ?b => apply (proj1 (qc_le_Q a b)) in H
  | Qclt ?a ?b => apply (proj1 (qc_lt_Q a b)) in H
  | ~ (Qcle ?a ?b) => rewrite (qc_le_Q a b) in H
  | ~ (Qclt ?a ?b) => rewrite (qc_lt_Q a b) in H
  end.

Ltac qc_setup :=
  repeat match goal with
  | H : ?T |- _ =>
    lazymatch type of T with Prop => idtac end;
    qc_hyp H;
    rewrite ?this_add, ?this_mul, ?this_sub, ?this_opp, ?this_Q2Qc, ?this_0, ?this_1 in H;
    repeat (first [rewrite this_add in H | rewrite this_mul in H | rewrite this_sub in H
                  | rewrite this_opp in H | rewrite this_Q2Qc in H])
  end;
  lazymatch goal with
  | |- @eq Qc ?a ?b => apply (proj2 (qc_eq_Q a b))
  | |- ~ (@eq Qc ?a ?b) => rewrite (qc_eq_Q a b)
  | |- Qcle ?a ?b => apply (proj2 (qc_le_Q a b))
  | |- Qclt ?a ?b => apply (proj2 (qc_lt_Q a b))
  | |- ~ (Qcle ?a ?b) => rewrite (qc_le_Q a b)
  | |- ~ (Qclt ?a ?b) => rewrite (qc_lt_Q a b)
  | |- _ => exfalso
  end;
  repeat (first [rewrite this_add | rewrite this_mul | rewrite this_sub
                | rewrite this_opp | rewrite this_Q2Qc]);
  rewrite ?this_0, ?this_1 in *.

Ltac qlra := qc_setup; lra.
Ltac qnra := qc_setup; nra.

(* Decision procedures used by the models for < and <= on doubles. *)
Definition qlt (a b : Qc) : bool := match Qclt_le_dec a b with left _ => true | right _ => false end.
Definition qle (a b : Qc) : bool := match Qclt_le_dec b a with left _ => false | right _ => true end.
Definition qeq (a b : Qc) : bool := if Qc_eq_dec a b then true else false.

Lemma qlt_true a b : qlt a b = true <-> a < b.
Proof. unfold qlt. destruct (Qclt_le_dec a b); split; intro; auto; try discriminate. qlra. Qed.
Lemma qlt_false a b : qlt a b = false <-> b <= a.
Proof. unfold qlt. destruct (Qclt_le_dec a b); split; intro; auto; try discriminate. qlra. Qed.
Lemma qle_true a b : qle a b = true <-> a <= b.
Proof. unfold qle. destruct (Qclt_le_dec b a); split; intro; auto; try discriminate. qlra. Qed.
Lemma qle_false a b : qle a b = false <-> b < a.
Proof. unfold qle. destruct (Qclt_le_dec b a); split; intro; auto; try discriminate. qlra. Qed.
Lemma qeq_true a b : qeq a b = true <-> a = b.
Proof. unfold qeq. destruct (Qc_eq_dec a b); split; intro; auto; try discriminate; contradiction. Qed.
Lemma qeq_false a b : qeq a b = false <-> a <> b.
Proof. unfold qeq. destruct (Qc_eq_dec a b); split; intro; auto; try discriminate; contradiction. Qed.

Lemma qc_mul_nonneg a b : 0 <= a -> 0 <= b -> 0 <= a * b.
Proof. intros. qnra. Qed.
Lemma qc_mul_pos a b : 0 < a -> 0 < b -> 0 < a * b.
Proof. intros. qnra. Qed.
Lemma qc_inv_pos a : 0 < a -> 0 < / a.
Proof.
  intro H. destruct (Qclt_le_dec 0 (/ a)) as [L|L]; auto.
  assert (E : a * / a = 1) by (apply Qcmult_inv_r; intro; subst; qlra).
  exfalso. qnra.
Qed.
Lemma qc_div_nonneg a b : 0 <= a -> 0 < b -> 0 <= a / b.
Proof. intros. unfold Qcdiv. apply qc_mul_nonneg; auto. apply Qclt_le_weak, qc_inv_pos; auto. Qed.
Lemma qc_div_pos a b : 0 < a -> 0 < b -> 0 < a / b.
Proof. intros. unfold Qcdiv. apply qc_mul_pos; auto. apply qc_inv_pos; auto. Qed.
Lemma qc_div_le a b c : 0 < c -> a <= b * c -> a / c <= b.
Proof.
  intros H L. assert (E : b - a / c = (b * c - a) / c) by (field; intro; subst; qlra).
  assert (0 <= (b * c - a) / c) by (apply qc_div_nonneg; auto; qlra).
  rewrite <- E in H0. qlra.
Qed.
Lemma qc_le_div a b c : 0 < c -> b * c <= a -> b <= a / c.
Proof.
  intros H L. assert (E : a / c - b = (a - b * c) / c) by (field; intro; subst; qlra).
  assert (0 <= (a - b * c) / c) by (apply qc_div_nonneg; auto; qlra).
  rewrite <- E in H0. qlra.
Qed.
