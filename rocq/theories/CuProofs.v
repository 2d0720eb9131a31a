(* Curve utilities: proofs. *)
From Coq Require Import List Arith ZArith Bool QArith Qcanon Lia.
From Verif Require Import Common QcLib ListLib SumLib LuModel LuProofs1 CuModel CuSpec.
Import ListNotations.
Local Open Scope Qc_scope.

(* find_span *)
Lemma span_loop_ok u U fuel : forall low high, sorted_knots U -> (low < high < length U)%nat -> (high - low <= fuel)%nat -> kn U low <= u -> u < kn U high ->
  exists s, span_loop fuel u U low high = Ok s /\ (low <= s < high)%nat /\ kn U s <= u /\ u < kn U (s + 1).
Proof.
  induction fuel as [|fuel IH]; intros low high SO L F A B; [lia|]. cbn [span_loop]. cbv zeta.
  assert (M1 : (low <= (low + high) / 2)%nat) by (apply Nat.div_le_lower_bound; lia). assert (M2 : ((low + high) / 2 < high)%nat) by (apply Nat.div_lt_upper_bound; lia).
  assert (M3 : (low + 1 < high -> low < (low + high) / 2)%nat) by (intro; apply Nat.lt_le_trans with (low + 1)%nat; [lia|]; apply Nat.div_le_lower_bound; lia).
  set (m := ((low + high) / 2)%nat) in *. clearbody m. rewrite (getR_nth 0) by lia. cbn [bind]. change (nth m U 0) with (kn U m).
  destruct (qlt u (kn U m)) eqn:E; [apply qlt_true in E|apply qlt_false in E].
  - cbn [bind]. assert (NE : m <> low) by (intros ->; qlra). destruct (IH low m) as (s & -> & S1 & S2); auto; try lia. exists s. split; auto. split; auto. lia.
  - rewrite (getR_nth 0) by lia. cbn [bind]. change (nth (m + 1) U 0) with (kn U (m + 1)). destruct (qle (kn U (m + 1)) u) eqn:E2; [apply qle_true in E2|apply qle_false in E2].
    + assert (NE : (m + 1 < high)%nat). { destruct (Nat.eq_dec (m + 1) high) as [X|]; [rewrite X in E2; exfalso; qlra|lia]. }
      assert (ML : (low < m)%nat) by (apply M3; lia). destruct (IH m high) as (s & -> & S1 & S2); auto; try lia. exists s. split; auto. split; auto. lia.
    + exists m. split; auto.
Qed.

Lemma find_span_ok p u U : sorted_knots U -> (2 * p + 1 < length U)%nat -> let n := (length U - p - 1)%nat in
  exists s, find_span p u U = Ok s /\ (p <= s < n)%nat /\ (kn U n <= u -> s = (n - 1)%nat) /\ (u <= kn U p -> kn U p < kn U n -> s = p) /\
    (kn U p < u -> u < kn U n -> kn U s <= u /\ u < kn U (s + 1)).
Proof.
  intros SO L n. unfold find_span. fold n. assert (N1 : (p < n < length U)%nat) by (unfold n; lia). rewrite (getR_nth 0) by lia. cbn [bind]. change (nth n U 0) with (kn U n).
  destruct (qle (kn U n) u) eqn:E; [apply qle_true in E|apply qle_false in E].
  - exists (n - 1)%nat. split; auto. split; [lia|]. split; auto. split; [intros A B; exfalso; qlra|intros A B; exfalso; qlra].
  - rewrite (getR_nth 0) by lia. cbn [bind]. change (nth p U 0) with (kn U p). destruct (qle u (kn U p)) eqn:E2; [apply qle_true in E2|apply qle_false in E2].
    + exists p. split; auto. split; [lia|]. split; [intro; exfalso; qlra|]. split; auto. intros; exfalso; qlra.
    + destruct (span_loop_ok u U (length U) p n SO) as (s & -> & S1 & S2); auto; try lia; [qlra|]. exists s. split; auto. split; auto. split; [intro; exfalso; qlra|]. split; [intros; exfalso; qlra|auto].
Qed.

(* basis functions *)
Lemma fdiv_ok x y : y <> 0 -> fdiv x y = Ok (x / y).
Proof. intro H. unfold fdiv. destruct (qeq y 0) eqn:E; auto. apply qeq_true in E. contradiction. Qed.
Lemma div_zero_l x : 0 / x = 0.
Proof. unfold Qcdiv. ring. Qed.
(* the array N after r turns of the inner loop: a is left[p], b is right[1] *)
Definition inner_state (p r : nat) (a b : Qc) (st : list Qc * Qc) : Prop :=
  length (fst st) = (p + 1)%nat /\
  match r with
  | O => nth 0 (fst st) 0 = 1 /\ (forall k, (0 < k)%nat -> nth k (fst st) 0 = 0) /\ snd st = 0
  | S O => nth 0 (fst st) 0 = b / (b + a) /\ (forall k, (0 < k)%nat -> nth k (fst st) 0 = 0) /\ snd st = a / (b + a)
  | _ => nth 0 (fst st) 0 = b / (b + a) /\ nth 1 (fst st) 0 = a / (b + a) /\ (forall k, (1 < k)%nat -> nth k (fst st) 0 = 0) /\ snd st = 0
  end.
Lemma inner_ok p j lft rgt N : (1 <= j <= p)%nat -> length lft = (p + 1)%nat -> length rgt = (p + 1)%nat -> length N = (p + 1)%nat ->
  nth 0 N 0 = 1 -> (forall k, (0 < k)%nat -> nth k N 0 = 0) ->
  (forall r, (r < j)%nat -> 0 < nth (r + 1) rgt 0 + nth (p - r) lft 0) ->
  exists N' saved, loop 0 j (N, 0) (basis_inner p lft rgt) = Ok (N', saved) /\ inner_state p j (nth p lft 0) (nth 1 rgt 0) (N', saved).
Proof.
  intros J L1 L2 L3 N0 Nk D. destruct (loop_inv (fun r st => inner_state p r (nth p lft 0) (nth 1 rgt 0) st) (basis_inner p lft rgt) 0 j (N, 0)) as ((N', sv) & E & H); [lia| | |eauto].
  - unfold inner_state. cbn [fst snd]. auto.
  - intros r (M, sv) Hr H. unfold inner_state in H. cbn [fst snd] in H. destruct H as (LM & H). unfold basis_inner.
    rewrite !(getR_nth 0) by lia. cbn [bind]. specialize (D r ltac:(lia)).
    rewrite fdiv_ok by (intro K; rewrite K in D; qlra). cbn [bind]. rewrite wr_ok by lia. cbn [bind]. eexists. split; [reflexivity|].
    unfold inner_state. cbn [fst snd]. split; [now rewrite upd_length|]. destruct r as [|[|r]].
    + destruct H as (H0 & Hk & ->). rewrite H0. replace (p - 0)%nat with p by lia. cbn [Nat.add]. set (a := nth p lft 0) in *. set (b := nth 1 rgt 0) in *.
      split; [rewrite (nth_upd 0) by lia; rewrite Nat.eqb_refl; unfold Qcdiv; ring|]. split; [intros k Hk'; rewrite (nth_upd 0) by lia; destruct (Nat.eqb_spec k 0); [lia|apply Hk; lia]|unfold Qcdiv; ring].
    + destruct H as (H0 & Hk & ->). rewrite (Hk 1%nat) by lia. rewrite div_zero_l.
      split; [rewrite (nth_upd 0) by lia; destruct (Nat.eqb_spec 0 1); [lia|auto]|]. split; [rewrite (nth_upd 0) by lia; rewrite Nat.eqb_refl; ring|].
      split; [intros k Hk'; rewrite (nth_upd 0) by lia; destruct (Nat.eqb_spec k 1); [lia|apply Hk; lia]|ring].
    + destruct H as (H0 & H1 & Hk & ->). rewrite (Hk (S (S r))) by lia. rewrite div_zero_l.
      split; [rewrite (nth_upd 0) by lia; destruct (Nat.eqb_spec 0 (S (S r))); [lia|auto]|]. split; [rewrite (nth_upd 0) by lia; destruct (Nat.eqb_spec 1 (S (S r))); [lia|auto]|].
      split; [intros k Hk'; rewrite (nth_upd 0) by lia; destruct (Nat.eqb_spec k (S (S r))); [ring|apply Hk; lia]|ring].
Qed.
(* after the write of N[j] *)
Lemma after_write p j a b N saved : (1 <= j <= p)%nat -> inner_state p j a b (N, saved) ->
  wr N j saved = Ok (upd N j saved) /\ length (upd N j saved) = (p + 1)%nat /\ nth 0 (upd N j saved) 0 = b / (b + a) /\ nth 1 (upd N j saved) 0 = a / (b + a) /\
  (forall k, (1 < k)%nat -> nth k (upd N j saved) 0 = 0).
Proof.
  intros J H. unfold inner_state in H. cbn [fst snd] in H. destruct H as (L & H). split; [apply wr_ok; lia|]. split; [now rewrite upd_length|]. destruct j as [|[|j]]; [lia| |].
  - destruct H as (H0 & Hk & ->). split; [rewrite (nth_upd 0) by lia; exact H0|]. split; [rewrite (nth_upd 0) by lia; reflexivity|].
    intros k K. rewrite (nth_upd 0) by lia. destruct (Nat.eqb_spec k 1); [lia|apply Hk; lia].
  - destruct H as (H0 & H1 & Hk & ->). split; [rewrite (nth_upd 0) by lia; exact H0|]. split; [rewrite (nth_upd 0) by lia; destruct (Nat.eqb_spec 1 (S (S j))); [lia|exact H1]|].
    intros k K. rewrite (nth_upd 0) by lia. destruct (Nat.eqb_spec k (S (S j))); auto.
Qed.

Section Basis.
Variables (U : list Qc) (p s : nat) (u : Qc).
Hypothesis SO : sorted_knots U.
Hypothesis HP : (p <= s)%nat.
Hypothesis HL : (s + p < length U)%nat.
Hypothesis HA : kn U s <= u.
Hypothesis HB : u < kn U (s + 1).

Definition outer_state (j : nat) (st : list Qc * list Qc * list Qc) : Prop :=
  let '(N, lft, rgt) := st in
  length N = (p + 1)%nat /\ length lft = (p + 1)%nat /\ length rgt = (p + 1)%nat /\
  (forall k, (1 <= k < j)%nat -> nth k lft 0 = u - kn U (s + 1 - k) /\ nth k rgt 0 = kn U (s + k) - u) /\ (forall k, (j <= k)%nat -> nth k lft 0 = 0) /\
  (if (j <=? p)%nat then nth 0 N 0 = 1 /\ (forall k, (0 < k)%nat -> nth k N 0 = 0)
   else nth 0 N 0 = first_part U p s u /\ nth 1 N 0 = second_part U p s u /\ (forall k, (1 < k)%nat -> nth k N 0 = 0)).
Lemma left_nonneg k : (1 <= k <= p)%nat -> 0 <= u - kn U (s + 1 - k).
Proof. intro K. assert (H := SO (s + 1 - k)%nat s ltac:(lia) ltac:(lia)). qlra. Qed.
Lemma right_pos k : (1 <= k <= p)%nat -> 0 < kn U (s + k) - u.
Proof. intro K. assert (H := SO (s + 1)%nat (s + k)%nat ltac:(lia) ltac:(lia)). qlra. Qed.
Lemma outer_step j st : (1 <= j < p + 1)%nat -> outer_state j st -> exists st', basis_outer s u p U j st = Ok st' /\ outer_state (S j) st'.
Proof.
  intros J H. destruct st as ((N, lft), rgt). destruct H as (L1 & L2 & L3 & HK & HZ & HN). rewrite (proj2 (Nat.leb_le j p)) in HN by lia. destruct HN as (N0 & Nk).
  unfold basis_outer. rewrite (getR_nth 0) by lia. cbn [bind]. rewrite wr_ok by lia. cbn [bind]. rewrite (getR_nth 0) by lia. cbn [bind]. rewrite wr_ok by lia. cbn [bind].
  change (nth (s + 1 - j) U 0) with (kn U (s + 1 - j)). change (nth (s + j) U 0) with (kn U (s + j)).
  set (lft' := upd lft j (u - kn U (s + 1 - j))). set (rgt' := upd rgt j (kn U (s + j) - u)).
  assert (L2' : length lft' = (p + 1)%nat) by (unfold lft'; now rewrite upd_length). assert (L3' : length rgt' = (p + 1)%nat) by (unfold rgt'; now rewrite upd_length).
  assert (HK' : forall k, (1 <= k < S j)%nat -> nth k lft' 0 = u - kn U (s + 1 - k) /\ nth k rgt' 0 = kn U (s + k) - u).
  { intros k K. unfold lft', rgt'. rewrite !(nth_upd 0) by lia. destruct (Nat.eqb_spec k j) as [->|]; auto. apply HK. lia. }
  assert (HZ' : forall k, (S j <= k)%nat -> nth k lft' 0 = 0).
  { intros k K. unfold lft'. rewrite (nth_upd 0) by lia. destruct (Nat.eqb_spec k j); [lia|apply HZ; lia]. }
  assert (D : forall r, (r < j)%nat -> 0 < nth (r + 1) rgt' 0 + nth (p - r) lft' 0).
  { intros r Hr. destruct (HK' (r + 1)%nat ltac:(lia)) as (_ & ->). assert (R := right_pos (r + 1) ltac:(lia)).
    destruct (le_lt_dec (p - r) j) as [Q|Q]; [destruct (HK' (p - r)%nat ltac:(lia)) as (-> & _); assert (Z := left_nonneg (p - r) ltac:(lia)); qlra|]. rewrite HZ' by lia. qlra. }
  destruct (inner_ok p j lft' rgt' N ltac:(lia) L2' L3' L1 N0 Nk D) as (N' & sv & -> & IS). cbn [bind].
  destruct (after_write p j _ _ N' sv ltac:(lia) IS) as (-> & LN & W0 & W1 & Wk). cbn [bind]. eexists. split; [reflexivity|].
  unfold outer_state. split; auto. split; auto. split; auto. split; auto. split; auto.
  destruct (HK' 1%nat ltac:(lia)) as (_ & R1). rewrite R1 in *. destruct (Nat.leb_spec (S j) p) as [Q|Q].
  - rewrite (HZ' p) in * by lia. split.
    + rewrite W0, Qcplus_0_r. unfold Qcdiv. apply Qcmult_inv_r. assert (R := right_pos 1 ltac:(lia)). intro K. rewrite K in R. qlra.
    + intros k K. destruct k as [|[|k]]; [lia| |apply Wk; lia]. rewrite W1. apply div_zero_l.
  - assert (j = p) by lia. subst j. destruct (HK' p ltac:(lia)) as (Lp & _). rewrite Lp in *. 
    assert (E : kn U (s + 1) - u + (u - kn U (s + 1 - p)) = kn U (s + 1) - kn U (s + 1 - p)) by ring. rewrite E in *. auto.
Qed.
Lemma basis_closed : (1 <= p)%nat -> exists N, calc_basis_functions s u p U = Ok N /\ length N = (p + 1)%nat /\
  nth 0 N 0 = first_part U p s u /\ nth 1 N 0 = second_part U p s u /\ (forall k, (1 < k)%nat -> nth k N 0 = 0).
Proof.
  intro P. unfold calc_basis_functions. cbv zeta. rewrite wr_ok by (rewrite repeat_length; lia). cbn [bind].
  destruct (loop_inv outer_state (basis_outer s u p U) 1 (p + 1) (upd (repeat (0 : Qc) (p + 1)) 0 1, repeat (0 : Qc) (p + 1), repeat (0 : Qc) (p + 1))) as (((N, l), r) & -> & H); [lia| |apply outer_step|].
  - unfold outer_state. rewrite upd_length, !repeat_length. split; auto. split; auto. split; auto. split; [intros; lia|]. split; [intros k K; apply nth_repeat|].
    rewrite (proj2 (Nat.leb_le 1 p)) by lia. split; [rewrite (nth_upd 0) by (rewrite repeat_length; lia); reflexivity|].
    intros k K. rewrite (nth_upd 0) by (rewrite repeat_length; lia). destruct (Nat.eqb_spec k 0); [lia|apply nth_repeat].
  - cbn [bind]. exists N. destruct H as (L & _ & _ & _ & _ & H). rewrite (proj2 (Nat.leb_gt (p + 1) p)) in H by lia. tauto.
Qed.
End Basis.
