(* C-style arrays: a list read and written at an integer index; an access
   outside the array is reported as IndexError (in the compiled code, where
   bounds checks are switched off, it is undefined behaviour).  Counted loops
   over a half-open integer range.  No model content. *)
From Coq Require Import List ZArith Lia Bool.
From Verif Require Import Common ListLib.
Import ListNotations.
Local Open Scope Z_scope.

(* a[i] *)
Definition rdZ {A} (l : list A) (i : Z) : res A :=
  if i <? 0 then Err IndexError else getR l (Z.to_nat i).

(* a[i] = v *)
Definition wrZ {A} (l : list A) (i : Z) (v : A) : res (list A) :=
  if (i <? 0) || (Z.of_nat (length l) <=? i) then Err IndexError
  else Ok (upd l (Z.to_nat i) v).

(* for i in range(lo, lo + count): st = body i st *)
Fixpoint for_n {S} (count : nat) (lo : Z) (st : S) (body : Z -> S -> res S) : res S :=
  match count with
  | O => Ok st
  | Datatypes.S c => do st' <- body lo st ; for_n c (lo + 1) st' body
  end.

(* for i in range(lo, hi): st = body i st *)
Definition forZ {S} (lo hi : Z) (st : S) (body : Z -> S -> res S) : res S :=
  for_n (Z.to_nat (hi - lo)) lo st body.

(* for i in range(hi-1, lo-1, -1): st = body i st (descending) *)
Fixpoint for_down_n {S} (count : nat) (i : Z) (st : S) (body : Z -> S -> res S) : res S :=
  match count with
  | O => Ok st
  | Datatypes.S c => do st' <- body i st ; for_down_n c (i - 1) st' body
  end.

(* the total value of a[i], 0-default outside; specification side *)
Definition atZ {A} (d : A) (l : list A) (i : Z) : A := nth (Z.to_nat i) l d.
Definition lenZ {A} (l : list A) : Z := Z.of_nat (length l).

Lemma lenZ_nonneg {A} (l : list A) : 0 <= lenZ l.
Proof. unfold lenZ; lia. Qed.

Lemma rdZ_ok {A} (d : A) l i : 0 <= i < lenZ l -> rdZ l i = Ok (atZ d l i).
Proof.
  unfold rdZ, lenZ, atZ, getR. intros H. destruct (Z.ltb_spec i 0); [lia|].
  rewrite (nth_error_nth' l d) by lia. auto.
Qed.

Lemma rdZ_inv {A} (d : A) l i a : rdZ l i = Ok a -> 0 <= i < lenZ l /\ a = atZ d l i.
Proof.
  unfold rdZ, lenZ, atZ, getR. destruct (Z.ltb_spec i 0); [discriminate|].
  destruct (nth_error l (Z.to_nat i)) eqn:E; [|discriminate].
  intro H1; inversion H1; subst. pose proof (nth_error_lt _ _ _ E).
  split; [lia|]. symmetry. apply nth_error_nth; auto.
Qed.

Lemma rdZ_out {A} (l : list A) i : ~ (0 <= i < lenZ l) -> rdZ l i = Err IndexError.
Proof.
  unfold rdZ, lenZ, getR. intros H. destruct (Z.ltb_spec i 0); auto.
  destruct (nth_error l (Z.to_nat i)) eqn:E; auto. apply nth_error_lt in E. lia.
Qed.

Lemma wrZ_ok {A} (l : list A) i v : 0 <= i < lenZ l -> wrZ l i v = Ok (upd l (Z.to_nat i) v).
Proof.
  unfold wrZ, lenZ. intros H. destruct (Z.ltb_spec i 0); [lia|].
  destruct (Z.leb_spec (Z.of_nat (length l)) i); [lia|]. auto.
Qed.

Lemma wrZ_out {A} (l : list A) i v : ~ (0 <= i < lenZ l) -> wrZ l i v = Err IndexError.
Proof.
  unfold wrZ, lenZ. intros H. destruct (Z.ltb_spec i 0); auto.
  destruct (Z.leb_spec (Z.of_nat (length l)) i); auto. lia.
Qed.

Lemma lenZ_upd {A} (l : list A) i v : lenZ (upd l i v) = lenZ l.
Proof. unfold lenZ. now rewrite upd_length. Qed.

Lemma atZ_upd_eq {A} (d : A) l i v : 0 <= i < lenZ l -> atZ d (upd l (Z.to_nat i) v) i = v.
Proof.
  unfold atZ, lenZ. intros H. apply nth_error_nth. apply nth_error_upd_eq. lia.
Qed.

Lemma atZ_upd_neq {A} (d : A) l i j v : 0 <= i -> 0 <= j -> i <> j ->
  atZ d (upd l (Z.to_nat i) v) j = atZ d l j.
Proof.
  unfold atZ. intros Hi Hj H.
  destruct (Nat.lt_ge_cases (Z.to_nat j) (length l)) as [L|L].
  - destruct (nth_error l (Z.to_nat j)) eqn:E.
    + erewrite nth_error_nth. 2:{ rewrite nth_error_upd_neq by lia. exact E. }
      symmetry. apply nth_error_nth; auto.
    + apply nth_error_None in E. lia.
  - rewrite !nth_overflow; auto. now rewrite upd_length.
Qed.

Lemma for_n_inv {S} (Inv : Z -> S -> Prop) body :
  forall count lo st,
  Inv lo st ->
  (forall i st, lo <= i < lo + Z.of_nat count -> Inv i st -> exists st', body i st = Ok st' /\ Inv (i + 1) st') ->
  exists st', for_n count lo st body = Ok st' /\ Inv (lo + Z.of_nat count) st'.
Proof.
  induction count as [|c IH]; intros lo st H0 Hs.
  - exists st. split; auto. now replace (lo + Z.of_nat 0) with lo by lia.
  - destruct (Hs lo st) as [st1 [E1 I1]]; auto; [lia|].
    cbn [for_n]. rewrite E1. cbn [bind].
    destruct (IH (lo + 1) st1 I1) as [st2 [E2 I2]].
    + intros i s Hi. apply Hs. lia.
    + exists st2. split; auto. replace (lo + Z.of_nat (Datatypes.S c)) with (lo + 1 + Z.of_nat c) by lia. auto.
Qed.

(* The loop rule: an invariant indexed by the loop variable. *)
Lemma forZ_inv {S} (Inv : Z -> S -> Prop) body lo hi st :
  lo <= hi ->
  Inv lo st ->
  (forall i st, lo <= i < hi -> Inv i st -> exists st', body i st = Ok st' /\ Inv (i + 1) st') ->
  exists st', forZ lo hi st body = Ok st' /\ Inv hi st'.
Proof.
  intros H H0 Hs. unfold forZ.
  destruct (for_n_inv Inv body (Z.to_nat (hi - lo)) lo st H0) as [st' [E I]].
  - intros i s Hi. apply Hs. lia.
  - exists st'. split; auto. replace hi with (lo + Z.of_nat (Z.to_nat (hi - lo))) by lia. auto.
Qed.

Lemma forZ_empty {S} lo hi (st : S) body : hi <= lo -> forZ lo hi st body = Ok st.
Proof. intro H. unfold forZ. now replace (Z.to_nat (hi - lo)) with O by lia. Qed.

Lemma for_down_inv {S} (Inv : Z -> S -> Prop) body :
  forall count i st,
  Inv i st ->
  (forall j st, i - Z.of_nat count < j <= i -> Inv j st -> exists st', body j st = Ok st' /\ Inv (j - 1) st') ->
  exists st', for_down_n count i st body = Ok st' /\ Inv (i - Z.of_nat count) st'.
Proof.
  induction count as [|c IH]; intros i st H0 Hs.
  - exists st. split; auto. now replace (i - Z.of_nat 0) with i by lia.
  - destruct (Hs i st) as [st1 [E1 I1]]; auto; [lia|].
    cbn [for_down_n]. rewrite E1. cbn [bind].
    destruct (IH (i - 1) st1 I1) as [st2 [E2 I2]].
    + intros j s Hi. apply Hs. lia.
    + exists st2. split; auto. replace (i - Z.of_nat (Datatypes.S c)) with (i - 1 - Z.of_nat c) by lia. auto.
Qed.

Lemma atZ_repeat {A} (d : A) n i : atZ d (repeat d n) i = d.
Proof.
  unfold atZ. destruct (Nat.lt_ge_cases (Z.to_nat i) n).
  - apply nth_error_nth. apply nth_error_repeat. lia.
  - apply nth_overflow. rewrite repeat_length. lia.
Qed.

Lemma lenZ_repeat {A} (d : A) n : lenZ (repeat d n) = Z.of_nat n.
Proof. unfold lenZ. now rewrite repeat_length. Qed.

Lemma list_ext_atZ {A} (d : A) (l1 l2 : list A) :
  lenZ l1 = lenZ l2 -> (forall i, 0 <= i < lenZ l1 -> atZ d l1 i = atZ d l2 i) -> l1 = l2.
Proof.
  unfold lenZ, atZ. intros L H. apply (nth_ext _ _ d d); [lia|].
  intros n Hn. specialize (H (Z.of_nat n)). rewrite Nat2Z.id in H. apply H. lia.
Qed.
