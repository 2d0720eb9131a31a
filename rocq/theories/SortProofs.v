(* Quicksort, argsort and removal of duplicates: proofs. *)
From Coq Require Import List ZArith Bool QArith Qcanon Sorted Permutation Lia.
From Verif Require Import Common ListLib QcLib ArrZ SortModel SortSpec.
Import ListNotations.
Open Scope Z_scope.

Lemma swap_ok {A} (d : A) l i j : 0 <= i < lenZ l -> 0 <= j < lenZ l -> exists l', swap l i j = Ok l' /\ lenZ l' = lenZ l /\
  (forall k, 0 <= k -> atZ d l' k = if k =? j then atZ d l i else if k =? i then atZ d l j else atZ d l k) /\ Permutation l l'.
Proof.
  intros Hi Hj. unfold swap. rewrite (rdZ_ok d) by auto. cbn [bind]. rewrite (rdZ_ok d) by auto. cbn [bind].
  rewrite wrZ_ok by auto. cbn [bind]. rewrite wrZ_ok by (rewrite lenZ_upd; auto). eexists. split; [reflexivity|].
  assert (L : lenZ (upd (upd l (Z.to_nat i) (atZ d l j)) (Z.to_nat j) (atZ d l i)) = lenZ l) by now rewrite !lenZ_upd.
  assert (AT : forall k, 0 <= k -> atZ d (upd (upd l (Z.to_nat i) (atZ d l j)) (Z.to_nat j) (atZ d l i)) k =
     if k =? j then atZ d l i else if k =? i then atZ d l j else atZ d l k).
  { intros k Hk. destruct (Z.eqb_spec k j) as [->|Nj].
    - apply atZ_upd_eq. now rewrite lenZ_upd.
    - rewrite atZ_upd_neq by lia. destruct (Z.eqb_spec k i) as [->|Ni]; [apply atZ_upd_eq; auto|apply atZ_upd_neq; lia]. }
  split; auto. split; auto.
  apply (Permutation_nth l _ d). cbv zeta. split; [rewrite !upd_length; auto|].
  exists (fun x => if Nat.eqb x (Z.to_nat j) then Z.to_nat i else if Nat.eqb x (Z.to_nat i) then Z.to_nat j else x).
  unfold lenZ in *. split; [|split].
  - intros x Hx. destruct (Nat.eqb_spec x (Z.to_nat j)); [lia|]. destruct (Nat.eqb_spec x (Z.to_nat i)); lia.
  - intros x y Hx Hy. destruct (Nat.eqb_spec x (Z.to_nat j)); destruct (Nat.eqb_spec y (Z.to_nat j));
      destruct (Nat.eqb_spec x (Z.to_nat i)); destruct (Nat.eqb_spec y (Z.to_nat i)); lia.
  - intros x Hx. specialize (AT (Z.of_nat x) ltac:(lia)). unfold atZ in AT |- *. rewrite Nat2Z.id in AT. rewrite AT.
    destruct (Nat.eqb_spec x (Z.to_nat j)); destruct (Z.eqb_spec (Z.of_nat x) j); try lia; auto.
    destruct (Nat.eqb_spec x (Z.to_nat i)); destruct (Z.eqb_spec (Z.of_nat x) i); try lia; auto.
Qed.

Section Sort.
Context {A : Type}.
Variables (d : A) (val : A -> res Qc) (goes : Qc -> Qc -> bool) (key : A -> Qc) (dom : A -> Prop).
Hypothesis val_ok : forall a, dom a -> val a = Ok (key a).
Hypothesis goes_t : forall a b, goes a b = true -> (a <= b)%Qc.
Hypothesis goes_f : forall a b, goes a b = false -> (b <= a)%Qc.

(* what a step within low..high keeps *)
Record within (low high : Z) (l l' : list A) : Prop := {
  w_len : lenZ l' = lenZ l;
  w_perm : Permutation l l';
  w_out : forall k, 0 <= k -> ~ (low <= k <= high) -> atZ d l' k = atZ d l k;
  w_in : forall P : A -> Prop, (forall k, low <= k <= high -> P (atZ d l k)) -> forall k, low <= k <= high -> P (atZ d l' k) }.
Lemma within_refl low high l : within low high l l.
Proof. split; auto. Qed.
Lemma within_trans low high a b c : within low high a b -> within low high b c -> within low high a c.
Proof.
  intros [A1 A2 A3 A4] [B1 B2 B3 B4]. split; try congruence.
  - eapply perm_trans; eauto.
  - intros k K1 K2. rewrite B3, A3; auto.
  - intros P H. apply B4. apply A4. auto.
Qed.
Lemma within_wider low high low' high' a b : 0 <= low' -> low' <= low -> high <= high' -> within low high a b -> within low' high' a b.
Proof.
  intros Z0 L H [A1 A2 A3 A4]. split; auto.
  - intros k K1 K2. apply A3; auto. lia.
  - intros P Q k K. destruct (Z_le_dec low k) as [C1|C1]; [destruct (Z_le_dec k high) as [C2|C2]|].
    + apply A4; auto. intros. apply Q. lia.
    + rewrite A3 by lia. auto.
    + rewrite A3 by lia. auto.
Qed.
Lemma within_dom low high a b : within low high a b -> Forall dom a -> Forall dom b.
Proof. intros W F. apply (Permutation_Forall (w_perm _ _ _ _ W)). auto. Qed.
Lemma dom_at l k : Forall dom l -> 0 <= k < lenZ l -> dom (atZ d l k).
Proof. intros F K. rewrite Forall_forall in F. apply F. apply nth_In. unfold lenZ in K. lia. Qed.
Lemma within_swap low high l i j : 0 <= low -> high < lenZ l -> low <= i <= high -> low <= j <= high ->
  exists l', swap l i j = Ok l' /\ within low high l l' /\
  (forall k, 0 <= k -> atZ d l' k = if k =? j then atZ d l i else if k =? i then atZ d l j else atZ d l k).
Proof.
  intros Z0 L Hi Hj. destruct (swap_ok d l i j) as [l' [E [E1 [E2 E3]]]]; [lia|lia|]. exists l'. split; auto. split; auto. split; auto.
  - intros k K1 K2. rewrite E2 by auto. destruct (Z.eqb_spec k j); [lia|]. destruct (Z.eqb_spec k i); [lia|auto].
  - intros P Q k K. rewrite E2 by lia. destruct (Z.eqb_spec k j); [apply Q; lia|]. destruct (Z.eqb_spec k i); [apply Q; lia|auto].
Qed.

Lemma partition_ok l low high : Forall dom l -> 0 <= low <= high -> high < lenZ l -> exists l' pi, partition_with val goes l low high = Ok (l', pi) /\
  low <= pi <= high /\ within low high l l' /\
  (forall k, low <= k < pi -> (key (atZ d l' k) <= key (atZ d l' pi))%Qc) /\ (forall k, pi < k <= high -> (key (atZ d l' pi) <= key (atZ d l' k))%Qc).
Proof.
  intros F [Z0 LH] L. unfold partition_with. rewrite (rdZ_ok d) by lia. cbn [bind]. rewrite val_ok by (apply dom_at; auto; lia). cbn [bind].
  set (p := key (atZ d l high)).
  match goal with |- context [forZ low high ?s0 ?b] => set (body := b) end.
  destruct (forZ_inv (fun j st => let '(l1, i) := st in low - 1 <= i < j /\ within low high l l1 /\ atZ d l1 high = atZ d l high /\
     (forall k, low <= k <= i -> (key (atZ d l1 k) <= p)%Qc) /\ (forall k, i < k < j -> (p <= key (atZ d l1 k))%Qc)) body low high (l, low - 1)) as [[l1 i] [E I]].
  - lia.
  - split; [lia|]. split; [apply within_refl|]. split; auto. split; intros; lia.
  - intros j [l1 i] Hj [Bi [W [Hh [I1 I2]]]]. unfold body. assert (L1 := w_len _ _ _ _ W). assert (F1 := within_dom _ _ _ _ W F).
    rewrite (rdZ_ok d) by lia. cbn [bind]. rewrite val_ok by (apply dom_at; auto; lia). cbn [bind].
    destruct (goes (key (atZ d l1 j)) p) eqn:G.
    + destruct (within_swap low high l1 (i + 1) j) as [l2 [-> [W2 AT]]]; try lia. cbn [bind]. eexists. split; [reflexivity|].
      split; [lia|]. split; [eapply within_trans; eauto|]. split.
      * rewrite AT by lia. destruct (Z.eqb_spec high j); [lia|]. destruct (Z.eqb_spec high (i + 1)); [lia|auto].
      * split; intros k K; rewrite AT by lia.
        -- destruct (Z.eqb_spec k j); [replace (i + 1) with j by lia; apply goes_t; auto|]. destruct (Z.eqb_spec k (i + 1)); [apply goes_t; auto|apply I1; lia].
        -- destruct (Z.eqb_spec k j); [apply I2; lia|]. destruct (Z.eqb_spec k (i + 1)); [lia|apply I2; lia].
    + eexists. split; [reflexivity|]. split; [lia|]. split; auto. split; auto. split; auto. intros k K.
      destruct (Z.eq_dec k j) as [->|]; [apply goes_f; auto|apply I2; lia].
  - rewrite E. cbn [bind]. destruct I as [Bi [W [Hh [I1 I2]]]]. assert (L1 := w_len _ _ _ _ W).
    destruct (within_swap low high l1 (i + 1) high) as [l2 [-> [W2 AT]]]; try lia. cbn [bind]. exists l2, (i + 1). split; auto. split; [lia|].
    split; [eapply within_trans; eauto|].
    assert (EP : key (atZ d l2 (i + 1)) = p).
    { rewrite AT by lia. rewrite Z.eqb_refl. destruct (Z.eqb_spec (i + 1) high) as [->|]; now rewrite Hh. }
    rewrite EP. split; intros k K; rewrite AT by lia.
    + destruct (Z.eqb_spec k high); [lia|]. destruct (Z.eqb_spec k (i + 1)); [lia|]. apply I1. lia.
    + destruct (Z.eqb_spec k high); [|destruct (Z.eqb_spec k (i + 1)); [lia|apply I2; lia]]. destruct (Z.eq_dec (i + 1) high) as [e0|]; [|apply I2; lia]. lia.
Qed.

Lemma sort_ok : forall fuel l low high, Forall dom l -> 0 <= low -> high < lenZ l -> Z.max 0 (high - low + 1) < Z.of_nat fuel ->
  exists l', sort_with val goes fuel l low high = Ok l' /\ within low high l l' /\
  forall i j, low <= i -> i <= j -> j <= high -> (key (atZ d l' i) <= key (atZ d l' j))%Qc.
Proof.
  induction fuel as [|f IH]; intros l low high F Z0 L Fu; [lia|]. cbn [sort_with].
  destruct (Z.ltb_spec low high) as [LH|LH].
  2:{ exists l. split; auto. split; [apply within_refl|]. intros i j A1 A2 A3. replace j with i by lia. apply Qcle_refl. }
  destruct (partition_ok l low high) as [l1 [pi [-> [Bp [W1 [P1 P2]]]]]]; auto; [lia|]. cbn [bind].
  pose proof (w_len _ _ _ _ W1) as L1.
  destruct (IH l1 low (pi - 1)) as [l2 [-> [W2 S2]]]; try lia. { eapply within_dom; eauto. } cbn [bind].
  pose proof (w_len _ _ _ _ W2) as L2.
  destruct (IH l2 (pi + 1) high) as [l3 [-> [W3 S3]]]; try lia. { eapply within_dom; [eauto|]. eapply within_dom; eauto. }
  exists l3. split; auto. split.
  { eapply within_trans; [eauto|]. eapply within_trans; eapply within_wider; eauto; lia. }
  assert (K3 : forall k, 0 <= k <= pi -> atZ d l3 k = atZ d l2 k) by (intros k K; apply (w_out _ _ _ _ W3); lia).
  assert (K2 : forall k, pi <= k <= high -> atZ d l2 k = atZ d l1 k) by (intros k K; apply (w_out _ _ _ _ W2); lia).
  set (p := key (atZ d l1 pi)) in *.
  assert (Q1 : forall k, low <= k <= pi - 1 -> (key (atZ d l3 k) <= p)%Qc).
  { intros k K. rewrite K3 by lia. apply (w_in _ _ _ _ W2 (fun a => (key a <= p)%Qc)); auto. intros. apply P1. lia. }
  assert (Q2 : forall k, pi + 1 <= k <= high -> (p <= key (atZ d l3 k))%Qc).
  { apply (w_in _ _ _ _ W3 (fun a => (p <= key a)%Qc)). intros k K. rewrite K2 by lia. apply P2. lia. }
  assert (QP : key (atZ d l3 pi) = p) by (rewrite K3, K2 by lia; auto).
  intros i j A1 A2 A3.
  destruct (Z_lt_dec j pi) as [C|C]; [rewrite !K3 by lia; apply S2; lia|].
  destruct (Z_lt_dec pi i) as [C'|C']; [apply S3; lia|].
  assert (X : (key (atZ d l3 i) <= p)%Qc). { destruct (Z.eq_dec i pi) as [->|]; [rewrite QP; apply Qcle_refl|apply Q1; lia]. }
  assert (Y : (p <= key (atZ d l3 j))%Qc). { destruct (Z.eq_dec j pi) as [->|]; [rewrite QP; apply Qcle_refl|apply Q2; lia]. }
  eapply Qcle_trans; eauto.
Qed.
End Sort.

Lemma nth_ascending (l : list Qc) : (forall i j, (i <= j)%nat -> (j < length l)%nat -> (nth i l 0 <= nth j l 0)%Qc) -> ascending l.
Proof.
  induction l as [|x l IH]; intro H; constructor.
  - apply IH. intros i j A B. apply (H (S i) (S j)); cbn; lia.
  - apply Forall_forall. intros y I. apply (In_nth _ _ 0%Qc) in I. destruct I as [n [Ln <-]]. apply (H 0%nat (S n)); cbn; lia.
Qed.

Lemma quicksort_ok arr : exists out, quicksort arr = Ok out /\ Permutation arr out /\ ascending out.
Proof.
  unfold quicksort.
  destruct (sort_ok 0%Qc (fun x => Ok x) qlt (fun x => x) (fun _ => True)) with (fuel := S (length arr)) (l := arr) (low := 0) (high := lenZ arr - 1) as [out [E [W Srt]]]; auto.
  - intros a b G. apply qlt_true in G. apply Qclt_le_weak; auto.
  - intros a b G. apply qlt_false in G. auto.
  - apply Forall_forall. auto.
  - lia.
  - lia.
  - unfold lenZ. lia.
  - exists out. split; auto. split; [apply (w_perm _ _ _ _ _ W)|]. apply nth_ascending. intros i j A B.
    pose proof (w_len _ _ _ _ _ W) as L. unfold lenZ in *.
    specialize (Srt (Z.of_nat i) (Z.of_nat j)). unfold atZ in Srt. rewrite !Nat2Z.id in Srt. apply Srt; lia.
Qed.

Lemma argsort_ok arr : exists idx, argsort arr = Ok idx /\ Permutation (positions (length arr)) idx /\ ascending (map (atZ 0%Qc arr) idx).
Proof.
  unfold argsort. fold (positions (length arr)). set (ps := positions (length arr)).
  assert (LP : length ps = length arr) by (unfold ps, positions; now rewrite map_length, seq_length).
  assert (D : Forall (fun i => 0 <= i < lenZ arr) ps).
  { apply Forall_forall. intros z I. unfold ps, positions in I. apply in_map_iff in I. destruct I as [n [<- I]]. apply in_seq in I. unfold lenZ. lia. }
  destruct (sort_ok 0 (fun i => rdZ arr i) qle (atZ 0%Qc arr) (fun i => 0 <= i < lenZ arr)) with (fuel := S (length arr)) (l := ps) (low := 0) (high := lenZ arr - 1) as [out [E [W Srt]]]; auto.
  - intros a Ha. apply rdZ_ok; auto.
  - intros a b G. apply qle_true in G. auto.
  - intros a b G. apply qle_false in G. apply Qclt_le_weak; auto.
  - lia.
  - unfold lenZ. lia.
  - unfold lenZ. lia.
  - exists out. split; auto. split; [apply (w_perm _ _ _ _ _ W)|]. apply nth_ascending. rewrite map_length. intros i j A B.
    pose proof (w_len _ _ _ _ _ W) as L. unfold lenZ in *.
    specialize (Srt (Z.of_nat i) (Z.of_nat j)). unfold atZ at 2 4 in Srt. rewrite !Nat2Z.id in Srt.
    rewrite !(nth_indep (map (atZ 0%Qc arr) out) 0%Qc (atZ 0%Qc arr 0)) by (rewrite map_length; lia). rewrite !(map_nth (atZ 0%Qc arr)). apply Srt; lia.
Qed.

(* ---- removal of duplicates ---- *)
Lemma insert_sorted_perm x l : Permutation (x :: l) (insert_sorted x l).
Proof. induction l as [|y l IH]; cbn [insert_sorted]; auto. destruct (qle x y); auto. eapply perm_trans; [apply perm_swap|]. apply perm_skip. auto. Qed.
Lemma insert_sorted_asc x l : ascending l -> ascending (insert_sorted x l).
Proof.
  unfold ascending. induction l as [|y l IH]; cbn [insert_sorted]; intro S; [repeat constructor|]. inversion S as [|? ? S1 S2]; subst.
  destruct (qle x y) eqn:Q.
  - apply qle_true in Q. constructor; auto. constructor; auto. rewrite Forall_forall in *. intros z I. eapply Qcle_trans; [exact Q|auto].
  - apply qle_false in Q. constructor; auto. apply (Permutation_Forall (insert_sorted_perm x l)). constructor; auto. apply Qclt_le_weak; auto.
Qed.
Lemma qsort_ok l : Permutation l (qsort l) /\ ascending (qsort l).
Proof.
  induction l as [|x l [P S]]; cbn; [split; [auto|constructor]|]. split; [|apply insert_sorted_asc; auto].
  eapply perm_trans; [apply perm_skip; exact P|]. apply insert_sorted_perm.
Qed.

Fixpoint ddr (differs : Qc -> Qc -> bool) (prev : Qc) (l : list Qc) : list Qc :=
  match l with [] => [] | y :: r => if differs y prev then y :: ddr differs y r else ddr differs y r end.
Definition dd differs (l : list Qc) : list Qc := match l with [] => [] | x :: r => x :: ddr differs x r end.

Lemma firstn_upd {A} (l : list A) j v : (j < length l)%nat -> firstn (S j) (upd l j v) = firstn j l ++ [v].
Proof. revert j. induction l as [|x l IH]; intros [|j] L; cbn in *; try lia; auto. rewrite IH by lia. auto. Qed.
Lemma skipn_at (l : list Qc) i : 0 <= i < lenZ l -> skipn (Z.to_nat i) l = atZ 0%Qc l i :: skipn (Z.to_nat (i + 1)) l.
Proof.
  intros [H0 H1]. unfold lenZ in H1. unfold atZ. replace (Z.to_nat (i + 1)) with (S (Z.to_nat i)) by lia.
  assert (L : (Z.to_nat i < length l)%nat) by lia. revert L. generalize (Z.to_nat i). clear. induction l as [|x l IH]; intros [|n] L; cbn in *; try lia; auto.
  rewrite IH by lia. auto.
Qed.
Lemma unique_loop_ok differs arr buf : arr <> [] -> length buf = length arr -> unique_loop differs arr buf = Ok (dd differs arr).
Proof.
  intros NE LB. destruct arr as [|x r]; [congruence|]. set (arr := x :: r) in *.
  assert (LA : 1 <= lenZ arr) by (unfold lenZ, arr; cbn [length]; lia).
  unfold unique_loop. rewrite (rdZ_ok 0%Qc) by lia. cbn [bind]. rewrite wrZ_ok by (unfold lenZ in *; lia). cbn [bind].
  match goal with |- context [forZ 1 (lenZ arr) ?s0 ?b] => set (st0 := s0); set (body := b) end.
  destruct (forZ_inv (fun i st => let '(b, j) := st in lenZ b = lenZ arr /\ 1 <= j <= i /\
    firstn (Z.to_nat j) b ++ ddr differs (atZ 0%Qc arr (i - 1)) (skipn (Z.to_nat i) arr) = dd differs arr) body 1 (lenZ arr) st0) as [[b j] [E I]]; auto.
  - unfold st0. split; [rewrite lenZ_upd; unfold lenZ; lia|]. split; [lia|].
    destruct buf as [|b0 buf]; [cbn in LB; lia|]. reflexivity.
  - intros i [b j] Hi [Lb [Hj I]]. unfold body. rewrite (rdZ_ok 0%Qc) by lia. cbn [bind]. rewrite (rdZ_ok 0%Qc) by lia. cbn [bind].
    rewrite (skipn_at arr i) in I by lia. cbn [ddr] in I. destruct (differs (atZ 0%Qc arr i) (atZ 0%Qc arr (i - 1))).
    + rewrite wrZ_ok by lia. cbn [bind]. eexists. split; [reflexivity|]. split; [now rewrite lenZ_upd|]. split; [lia|].
      replace (Z.to_nat (j + 1)) with (S (Z.to_nat j)) by lia. rewrite firstn_upd by (unfold lenZ in *; lia).
      rewrite <- app_assoc. cbn [app]. replace (i + 1 - 1) with i by lia. auto.
    + eexists. split; [reflexivity|]. split; auto. split; [lia|]. replace (i + 1 - 1) with i by lia. auto.
  - rewrite E. cbn [bind]. destruct I as [_ [_ I]]. rewrite (skipn_all2 arr) in I by (unfold lenZ; lia). cbn [ddr] in I. rewrite app_nil_r in I. now rewrite I.
Qed.

Lemma ddr_in differs prev l x : In x (ddr differs prev l) -> In x l.
Proof. revert prev. induction l as [|y l IH]; intros prev; cbn [ddr]; auto. destruct (differs y prev); cbn [In]; intuition eauto. Qed.
Lemma ddr_neq prev l : ascending (prev :: l) -> strictly_ascending (prev :: ddr neq prev l) /\ forall x, In x l -> x = prev \/ In x (ddr neq prev l).
Proof.
  unfold ascending, strictly_ascending. revert prev. induction l as [|y l IH]; intros prev S; cbn [ddr]; [split; [repeat constructor|intros ? []]|].
  inversion S as [|? ? S1 S2]; subst. destruct (IH y S1) as [I1 I2]. inversion S2 as [|? ? Y1 Y2]; subst. clear IH.
  destruct (neq y prev) eqn:Q; unfold neq in Q; [apply negb_true_iff in Q|apply negb_false_iff in Q].
  2:{ apply qeq_true in Q. subst y. split; auto. intros x [<-|I]; auto. }
  - apply qeq_false in Q. assert (Lt : (prev < y)%Qc). { apply Qcle_lt_or_eq in Y1. destruct Y1; congruence. }
    split.
    + constructor; auto. constructor; auto. inversion I1 as [|? ? _ I3]; subst. rewrite Forall_forall in *. intros z J. eapply Qclt_trans; [exact Lt|auto].
    + intros x [<-|I]; [right; left; auto|]. destruct (I2 x I) as [->|J]; right; [left; auto|right; auto].
Qed.
Lemma dd_neq l : ascending l -> strictly_ascending (dd neq l) /\ same_values (dd neq l) l.
Proof.
  destruct l as [|x l]; intro S; cbn [dd]; [split; [constructor|split; auto]|]. destruct (ddr_neq x l S) as [A B]. split; auto.
  intro z. cbn [In]. split; [intros [|I]; auto; right; eapply ddr_in; eauto|]. intros [|I]; auto. destruct (B z I); auto.
Qed.

Lemma unique_gen arr (f : list Qc -> res (list Qc * list Qc)) buf : (forall x y r, arr = x :: y :: r -> length buf = length arr) ->
  (f [] = Ok ([], [])) -> (forall x, f [x] = Ok ([x], [x])) ->
  (forall x y r, arr = x :: y :: r -> f arr = (do r <- unique_loop neq (qsort arr) buf ; Ok (r, qsort arr))) ->
  exists out, f arr = Ok (out, qsort arr) /\ strictly_ascending out /\ same_values out arr.
Proof.
  intros LB F0 F1 F2. destruct arr as [|x [|y r]].
  - exists []. rewrite F0. split; auto. split; [constructor|split; auto].
  - exists [x]. rewrite F1. split; auto. split; [repeat constructor|split; auto].
  - rewrite (F2 x y r eq_refl). set (arr := x :: y :: r) in *. destruct (qsort_ok arr) as [P S].
    rewrite unique_loop_ok. 2:{ intro E. rewrite E in P. apply Permutation_sym, Permutation_nil in P. discriminate. }
    2:{ rewrite (LB x y r eq_refl). apply Permutation_length; auto. }
    cbn [bind]. exists (dd neq (qsort arr)). split; auto. destruct (dd_neq _ S) as [A B]. split; auto. intro z. rewrite (B z).
    split; apply Permutation_in; auto using Permutation_sym.
Qed.
Lemma uniqueSorted_ok arr : exists out, uniqueSorted arr = Ok (out, qsort arr) /\ strictly_ascending out /\ same_values out arr.
Proof.
  apply (unique_gen arr uniqueSorted (repeat 0%Qc (length arr))); auto.
  - intros. apply repeat_length.
  - intros x y r ->. reflexivity.
Qed.
Lemma unique_ok arr : exists out, unique arr = Ok (out, qsort arr) /\ strictly_ascending out /\ same_values out arr.
Proof. apply (unique_gen arr unique arr); auto. intros x y r ->. reflexivity. Qed.
Lemma sorted_unchanged l : qsort l = l <-> ascending l.
Proof.
  split; [intro E; rewrite <- E; apply qsort_ok|]. unfold ascending. induction l as [|x l IH]; intro S; auto. inversion S as [|? ? S1 S2]; subst.
  cbn. fold (qsort l). rewrite (IH S1). destruct l as [|y l]; auto. cbn [insert_sorted]. inversion S2; subst. rewrite (proj2 (qle_true x y)); auto.
Qed.
Lemma unique_mutates arr : exists out arr', unique arr = Ok (out, arr') /\ Permutation arr arr' /\ ascending arr' /\ (arr' = arr <-> ascending arr).
Proof.
  destruct (unique_ok arr) as [out [E _]]. exists out, (qsort arr). split; auto. destruct (qsort_ok arr). split; auto. split; auto. apply sorted_unchanged.
Qed.

(* with a tolerance *)
Lemma qabs_nonneg x : (0 <= x)%Qc -> qabs x = x.
Proof. intro H. unfold qabs. destruct (qlt x 0) eqn:E; auto. apply qlt_true in E. exfalso. apply (Qclt_not_le _ _ E). auto. Qed.
Lemma ddr_far eps prev l : ascending (prev :: l) -> Forall (fun b => (eps < b - prev)%Qc) (ddr (far eps) prev l) /\ spaced eps (ddr (far eps) prev l) .
Proof.
  unfold ascending, spaced. revert prev. induction l as [|y l IH]; intros prev S; cbn [ddr]; [split; constructor|].
  inversion S as [|? ? S1 S2]; subst. destruct (IH y S1) as [I1 I2]. inversion S2 as [|? ? Y1 Y2]; subst.
  assert (W : Forall (fun b => (eps < b - prev)%Qc) (ddr (far eps) y l)). { rewrite Forall_forall in *. intros z J. specialize (I1 z J). qlra. }
  destruct (far eps y prev) eqn:Q; unfold far in Q.
  - apply qlt_true in Q. rewrite qabs_nonneg in Q by qlra. split; constructor; auto.
  - split; auto.
Qed.
Lemma dd_far eps l : ascending l -> spaced eps (dd (far eps) l).
Proof. destruct l as [|x l]; intro S; cbn [dd]; [constructor|]. destruct (ddr_far eps x l S). constructor; auto. Qed.
Lemma chained_more l l' eps y x : incl l l' -> chained l eps y x -> chained l' eps y x.
Proof. intros H C. induction C; [apply ch_here; auto|]. eapply ch_step; eauto. Qed.
Lemma ddr_chain eps all : forall l prev k, ascending (prev :: l) -> incl (prev :: l) all -> chained all eps k prev -> (0 <= eps)%Qc ->
  forall x, In x l -> exists k', (k' = k \/ In k' (ddr (far eps) prev l)) /\ chained all eps k' x.
Proof.
  induction l as [|y l IH]; intros prev k S H C E0 x I; [destruct I|]. cbn [ddr].
  inversion S as [|? ? S1 S2]; subst. inversion S2 as [|? ? Y1 Y2]; subst.
  assert (H' : incl (y :: l) all) by (intros z J; apply H; right; auto).
  destruct (far eps y prev) eqn:Q; unfold far in Q.
  - assert (Cy : chained all eps y y) by (apply ch_here, H'; left; auto). destruct I as [<-|I]; [exists y; split; auto; right; left; auto|].
    destruct (IH y y S1 H' Cy E0 x I) as [k' [K1 K2]]. exists k'. split; auto. right. destruct K1 as [->|K1]; [left; auto|right; auto].
  - apply qlt_false in Q. rewrite qabs_nonneg in Q by qlra. assert (Cy : chained all eps k y). { eapply ch_step; eauto. apply H'. left; auto. }
    destruct I as [<-|I]; [exists k; auto|]. destruct (IH y k S1 H' Cy E0 x I) as [k' [K1 K2]]. exists k'. auto.
Qed.
Lemma eps_ok arr eps : (0 <= eps)%Qc -> exists out, uniqueSortedEps arr eps = Ok (out, qsort arr) /\ spaced eps out /\ incl out arr /\
  forall x, In x arr -> exists k, In k out /\ chained arr eps k x.
Proof.
  intro E0. destruct arr as [|a0 r0].
  { exists []. split; auto. split; [constructor|]. split; [apply incl_refl|]. intros x []. }
  set (arr := a0 :: r0) in *. assert (E : uniqueSortedEps arr eps = (do r <- unique_loop (far eps) (qsort arr) (repeat 0%Qc (length arr)) ; Ok (r, qsort arr))) by reflexivity.
  rewrite E. clear E. destruct (qsort_ok arr) as [P S].
  assert (NE : qsort arr <> []). { intro E. rewrite E in P. apply Permutation_sym, Permutation_nil in P. discriminate. }
  rewrite unique_loop_ok; auto. 2:{ rewrite repeat_length. apply Permutation_length; auto. }
  cbn [bind]. exists (dd (far eps) (qsort arr)). split; auto. split; [apply dd_far; auto|].
  destruct (qsort arr) as [|x l] eqn:Q; [congruence|]. cbn [dd]. split.
  - intros z I. apply (Permutation_in _ (Permutation_sym P)). destruct I as [<-|I]; [left; auto|right; eapply ddr_in; eauto].
  - intros z I. apply (Permutation_in _ P) in I.
    assert (HI : incl (x :: l) arr) by (intros y J; apply (Permutation_in _ (Permutation_sym P)); auto).
    assert (Cx : chained arr eps x x) by (apply ch_here, HI; left; auto).
    destruct I as [<-|I]; [exists x; split; [left|]; auto|].
    destruct (ddr_chain eps arr l x x S HI Cx E0 z I) as [k' [K1 K2]]. exists k'. split; auto. destruct K1 as [->|K1]; [left; auto|right; auto].
Qed.
(* a chain of close values: everything but the first is dropped *)
Lemma eps_chain_refuted eps : (0 < eps)%Qc -> exists arr out arr', uniqueSortedEps arr eps = Ok (out, arr') /\
  exists x, In x arr /\ forall k, In k out -> (eps < qabs (x - k))%Qc.
Proof.
  intro E0. set (e2 := (eps + eps)%Qc). exists [0%Qc; eps; e2], [0%Qc], [0%Qc; eps; e2].
  assert (A : ascending [0%Qc; eps; e2]). { unfold e2. repeat (apply SSorted_cons || apply Forall_cons || apply Forall_nil || apply SSorted_nil); qlra. }
  split.
  - unfold uniqueSortedEps. rewrite (proj2 (sorted_unchanged _) A). rewrite unique_loop_ok by (auto; discriminate). cbn [dd ddr].
    unfold far. rewrite !qabs_nonneg by (unfold e2; qlra).
    destruct (qlt eps (eps - 0)%Qc) eqn:Q1; [apply qlt_true in Q1; exfalso; qlra|]. destruct (qlt eps (e2 - eps)%Qc) eqn:Q2; [apply qlt_true in Q2; unfold e2 in Q2; exfalso; qlra|]. reflexivity.
  - exists e2. split; [right; right; left; auto|]. intros k [<-|[]]. rewrite qabs_nonneg; unfold e2; qlra.
Qed.
