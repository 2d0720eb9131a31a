(* General list lemmas used by several areas. *)
From Coq Require Import List Arith Lia Bool Permutation Sorted.
From Verif Require Import Common.
Import ListNotations.

Lemma upd_length {A} (l : list A) i v : length (upd l i v) = length l.
Proof. revert i; induction l as [|h t IH]; intros [|i]; simpl; auto. Qed.

Lemma nth_error_upd_eq {A} (l : list A) i v :
  i < length l -> nth_error (upd l i v) i = Some v.
Proof. revert i; induction l as [|h t IH]; intros [|i] H; simpl in *; try lia; auto. apply IH; lia. Qed.

Lemma nth_error_upd_neq {A} (l : list A) i j v :
  i <> j -> nth_error (upd l i v) j = nth_error l j.
Proof.
  revert i j; induction l as [|h t IH]; intros [|i] [|j] H; simpl; auto; try lia.
Qed.

Lemma nth_error_upd {A} (l : list A) i j v :
  nth_error (upd l i v) j =
  if Nat.eq_dec i j then (if lt_dec j (length l) then Some v else None) else nth_error l j.
Proof.
  destruct (Nat.eq_dec i j) as [->|Hne].
  - destruct (lt_dec j (length l)) as [Hl|Hl].
    + apply nth_error_upd_eq; auto.
    + apply nth_error_None. rewrite upd_length. lia.
  - apply nth_error_upd_neq; auto.
Qed.

Lemma upd_upd_eq {A} (l : list A) i v w : upd (upd l i v) i w = upd l i w.
Proof. revert i; induction l as [|h t IH]; intros [|i]; simpl; auto. now rewrite IH. Qed.

Lemma upd_out {A} (l : list A) i v : length l <= i -> upd l i v = l.
Proof. revert i; induction l as [|h t IH]; intros [|i] H; simpl in *; auto; try lia. now rewrite IH by lia. Qed.

Lemma upd_same {A} (l : list A) i v : nth_error l i = Some v -> upd l i v = l.
Proof. revert i; induction l as [|h t IH]; intros [|i] H; simpl in *; try congruence. now rewrite IH. Qed.

Lemma upd_app1 {A} (l1 l2 : list A) i v : i < length l1 -> upd (l1 ++ l2) i v = upd l1 i v ++ l2.
Proof. revert i; induction l1 as [|h t IH]; intros [|i] H; simpl in *; try lia; auto. now rewrite IH by lia. Qed.

Lemma upd_app2 {A} (l1 l2 : list A) i v : length l1 <= i -> upd (l1 ++ l2) i v = l1 ++ upd l2 (i - length l1) v.
Proof. revert i; induction l1 as [|h t IH]; intros i H; simpl in *. now rewrite Nat.sub_0_r.
  destruct i; try lia. simpl. now rewrite IH by lia. Qed.

Lemma getR_Ok {A} (l : list A) i a : getR l i = Ok a <-> nth_error l i = Some a.
Proof. unfold getR. destruct (nth_error l i); split; intro H; inversion H; auto. Qed.

Lemma getR_lt {A} (l : list A) i : i < length l -> exists a, getR l i = Ok a /\ nth_error l i = Some a.
Proof.
  intro H. destruct (nth_error l i) as [a|] eqn:E.
  - exists a. split; auto. now apply getR_Ok.
  - apply nth_error_None in E. lia.
Qed.

Lemma nth_error_seq s n i : i < n -> nth_error (seq s n) i = Some (s + i).
Proof.
  revert s i; induction n as [|n IH]; intros s [|i] H; simpl; try lia.
  - f_equal; lia.
  - rewrite IH by lia. f_equal; lia.
Qed.

Lemma nth_error_repeat {A} (a : A) n i : i < n -> nth_error (repeat a n) i = Some a.
Proof. revert i; induction n as [|n IH]; intros [|i] H; simpl; try lia; auto. apply IH; lia. Qed.

Lemma nth_error_lt {A} (l : list A) i a : nth_error l i = Some a -> i < length l.
Proof. intro H. apply nth_error_Some. congruence. Qed.

Lemma nth_error_ext {A} (l1 l2 : list A) :
  (forall i, nth_error l1 i = nth_error l2 i) -> l1 = l2.
Proof.
  revert l2; induction l1 as [|a t IH]; intros [|b u] H; auto.
  - specialize (H 0). discriminate.
  - specialize (H 0). discriminate.
  - f_equal. { specialize (H 0). simpl in H. congruence. }
    apply IH. intro i. apply (H (S i)).
Qed.

Lemma app_inj_len {A} (a b c d : list A) : length a = length c -> a ++ b = c ++ d -> a = c /\ b = d.
Proof.
  revert c; induction a as [|x a IH]; intros [|y c] L E; simpl in *; try discriminate; auto.
  inversion E; subst. destruct (IH c) as [-> ->]; auto.
Qed.

Lemma Forall2_length {A B} (R : A -> B -> Prop) l l' : Forall2 R l l' -> length l = length l'.
Proof. induction 1; simpl; congruence. Qed.
