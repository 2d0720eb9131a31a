(* Dyadic subdivision of boxes of any dimension: addresses of cells, what a
   bottom-up merge of equal cells reports, and how the reported cells tile. *)
From Coq Require Import List Arith ZArith Bool QArith Qcanon Lia.
From Verif Require Import Common QcLib SumLib ListLib AabbModel ImplModel ImplSpec BvhProofs3.
Import ListNotations.
Local Open Scope Qc_scope.

Definition addr := list nat.
Fixpoint kids (a : addr) : list addr :=
  match a with
  | [] => [[]]
  | k :: r => flat_map (fun r' => [(2 * k)%nat :: r'; S (2 * k) :: r']) (kids r)
  end.
Definition under (d : nat) (a b : addr) : Prop := Forall2 (fun K k => part_of (2 ^ d) K k) a b.

Lemma under_0 a b : under 0 a b <-> b = a.
Proof.
  unfold under, part_of. split.
  - induction 1; [reflexivity|]. f_equal; [cbn in *; lia|assumption].
  - intros ->. induction a; constructor; [cbn; lia|assumption].
Qed.
Lemma pow_pos d : (0 < 2 ^ d)%nat.
Proof. induction d; cbn; lia. Qed.
Lemma under_S d a b : under (S d) a b <-> exists c, In c (kids a) /\ under d c b.
Proof.
  pose proof (pow_pos d) as P. unfold under, part_of. split.
  - induction 1 as [|K k a b H F [c [Hc IH]]]; [exists []; split; [left; reflexivity|constructor]|].
    cbn [kids]. cbn [Nat.pow] in H.
    destruct (Nat.lt_ge_cases k (S (2 * K) * 2 ^ d)) as [L|L].
    + exists ((2 * K)%nat :: c). split; [apply in_flat_map; exists c; split; [exact Hc|left; reflexivity]|]. constructor; [nia|exact IH].
    + exists (S (2 * K) :: c). split; [apply in_flat_map; exists c; split; [exact Hc|right; left; reflexivity]|]. constructor; [nia|exact IH].
  - revert b. induction a as [|K a IH]; intros b [c [Hc F]]; cbn [kids] in Hc.
    + destruct Hc as [<-|[]]. inversion F; subst. constructor.
    + apply in_flat_map in Hc. destruct Hc as [r [Hr Hc]].
      destruct Hc as [<-|[<-|[]]]; inversion F; subst; constructor; try (apply IH; exists r; split; assumption); cbn [Nat.pow]; nia.
Qed.
Lemma kids_under a c : In c (kids a) <-> under 1 a c.
Proof. rewrite under_S. split; [intros H; exists c; split; [exact H|apply under_0; reflexivity]|intros [c' [H E]]; apply under_0 in E; subst; exact H]. Qed.
Lemma kids_some a : exists c, In c (kids a).
Proof.
  induction a as [|k a [c IH]]; [exists []; left; reflexivity|].
  exists ((2 * k)%nat :: c). cbn [kids]. apply in_flat_map. exists c. split; [exact IH|left; reflexivity].
Qed.
Lemma under_some d a : exists b, under d a b.
Proof.
  revert a. induction d as [|d IH]; intros a; [exists a; apply under_0; reflexivity|].
  destruct (kids_some a) as [c Hc]. destruct (IH c) as [b Hb]. exists b. apply under_S. exists c. split; assumption.
Qed.
Lemma under_trans d e a b c : under d a b -> under e b c -> under (d + e) a c.
Proof.
  unfold under, part_of. intros F. revert c. induction F as [|K k a b H F IH]; intros c G; inversion G; subst; constructor; [|apply IH; assumption].
  rewrite Nat.pow_add_r. nia.
Qed.
Lemma under_back d e a c : under (d + e) a c -> exists b, under d a b /\ under e b c.
Proof.
  revert a. induction d as [|d IH]; intros a H; [exists a; split; [apply under_0; reflexivity|exact H]|].
  apply (proj1 (under_S (d + e) a c)) in H. destruct H as [k [Hk H]]. destruct (IH k H) as [b [H1 H2]]. exists b. split; [|exact H2]. apply under_S. exists k. split; assumption.
Qed.
Lemma part_unique n K K' k : part_of n K k -> part_of n K' k -> K = K'.
Proof. unfold part_of. intros H G. destruct (Nat.lt_trichotomy K K') as [L|[L|L]]; [nia|exact L|nia]. Qed.
Lemma under_unique d a a' b : under d a b -> under d a' b -> a = a'.
Proof.
  unfold under. intros H. revert a'. induction H as [|K k a b H F IH]; intros a' G; inversion G; subst; [reflexivity|].
  f_equal; [eapply part_unique; eassumption|apply IH; assumption].
Qed.
(* the parent of an address *)
Definition up (a : addr) : addr := map (fun k => k / 2)%nat a.
Lemma up_kids a c : In c (kids a) -> up c = a.
Proof.
  intros H. apply kids_under in H. unfold up. induction H as [|K k a b H F IH]; [reflexivity|]. cbn [map]. f_equal; [|exact IH].
  unfold part_of in H. cbn [Nat.pow] in H. symmetry. apply (Nat.div_unique k 2 K (k - 2 * K)); lia.
Qed.

(* ---- what is reported ---- *)
Section R.
Context (mark : addr -> option sign).   (* sign shared by the corners of a finest cell, if any *)

Definition same (s : sign) (o : option sign) : bool := match s, o with Neg, Some Neg | Nonneg, Some Nonneg => true | _, _ => false end.
Lemma same_true s o : same s o = true <-> o = Some s.
Proof. destruct s; destruct o as [[]|]; cbn; split; congruence. Qed.
Fixpoint verdict (d : nat) (a : addr) : option sign :=
  match d with
  | O => mark a
  | S d => if forallb (fun c => same Nonneg (verdict d c)) (kids a) then Some Nonneg
           else if forallb (fun c => same Neg (verdict d c)) (kids a) then Some Neg else None
  end.
Fixpoint rep (d j : nat) (a : addr) : list (option sign * nat * addr) :=
  match verdict d a with
  | Some s => [(Some s, j, a)]
  | None => match d with
            | O => [(None, j, a)]
            | S d => flat_map (rep d (S j)) (kids a)
            end
  end.
Lemma verdict_spec d a s : verdict d a = Some s <-> forall b, under d a b -> mark b = Some s.
Proof.
  revert a s. induction d as [|d IH]; intros a s.
  - cbn [verdict]. split; [intros H b Hb; apply under_0 in Hb; subst; exact H|intros H; apply H, under_0; reflexivity].
  - assert (A : forall s, forallb (fun c => same s (verdict d c)) (kids a) = true <-> forall b, under (S d) a b -> mark b = Some s).
    { intros s'. rewrite forallb_forall. split.
      - intros H b Hb. apply under_S in Hb. destruct Hb as [c [Hc Hb]]. specialize (H c Hc). apply same_true in H. apply (proj1 (IH c s') H b Hb).
      - intros H c Hc. apply same_true. apply IH. intros b Hb. apply H. apply under_S. exists c. split; assumption. }
    cbn [verdict]. destruct (forallb _ (kids a)) eqn:E1.
    + pose proof (proj1 (A Nonneg) E1) as U1. clear E1. rename U1 into E1. split.
      * intros Q. injection Q as <-. exact E1.
      * intros H. destruct (under_some (S d) a) as [b Hb]. specialize (H b Hb). specialize (E1 b Hb). congruence.
    + destruct (forallb (fun c => same Neg (verdict d c)) (kids a)) eqn:E2.
      * pose proof (proj1 (A Neg) E2) as U2. clear E2. rename U2 into E2. split.
        -- intros Q. injection Q as <-. exact E2.
        -- intros H. destruct (under_some (S d) a) as [b Hb]. specialize (H b Hb). specialize (E2 b Hb). congruence.
      * split; [discriminate|]. intros H. apply (proj2 (A s)) in H. destruct s; congruence.
Qed.
Lemma verdict_down d e a b s : verdict (d + e) a = Some s -> under d a b -> verdict e b = Some s.
Proof. rewrite !verdict_spec. intros H U c Hc. apply H. eapply under_trans; eassumption. Qed.

Lemma rep_sound d j a s j' a' : In (s, j', a') (rep d j a) ->
  exists e, (e <= d)%nat /\ j' = (j + e)%nat /\ under e a a' /\ verdict (d - e) a' = s /\
    (s = None -> e = d) /\ ((0 < e)%nat -> verdict (S (d - e)) (up a') = None).
Proof.
  revert j a. induction d as [|d IH]; intros j a H; cbn [rep] in H; destruct (verdict _ a) as [v|] eqn:V.
  - destruct H as [E|[]]. injection E as <- <- <-. exists 0%nat. split; [lia|]. split; [lia|]. split; [apply under_0; reflexivity|]. split; [exact V|]. split; [discriminate|lia].
  - destruct H as [E|[]]. injection E as <- <- <-. exists 0%nat. split; [lia|]. split; [lia|]. split; [apply under_0; reflexivity|]. split; [exact V|]. split; [reflexivity|lia].
  - destruct H as [E|[]]. injection E as <- <- <-. exists 0%nat. split; [lia|]. split; [lia|]. split; [apply under_0; reflexivity|]. split; [exact V|]. split; [discriminate|lia].
  - apply in_flat_map in H. destruct H as [c [Hc H]]. destruct (IH (S j) c H) as [e [E1 [E2 [E3 [E4 [E5 E6]]]]]].
    exists (S e). split; [lia|]. split; [lia|]. split; [apply under_S; exists c; split; assumption|]. split; [exact E4|]. split; [intros N; rewrite (E5 N); reflexivity|].
    intros _. destruct e as [|e]; [|apply E6; lia]. apply under_0 in E3. subst a'. rewrite (up_kids a c Hc). cbn [Nat.sub]. rewrite Nat.sub_0_r. exact V.
Qed.
Lemma rep_none d j a : (forall b, under d a b -> mark b = None -> In (None, (j + d)%nat, b) (rep d j a)).
Proof.
  revert j a. induction d as [|d IH]; intros j a b U M; cbn [rep]; destruct (verdict _ a) as [v|] eqn:V.
  - apply verdict_spec with (b := b) in V; [congruence|exact U].
  - apply under_0 in U. subst b. left. f_equal. f_equal. lia.
  - apply verdict_spec with (b := b) in V; [congruence|exact U].
  - apply under_S in U. destruct U as [c [Hc U]]. apply in_flat_map. exists c. split; [exact Hc|]. specialize (IH (S j) c b U M). replace (j + S d)%nat with (S j + d)%nat by lia. exact IH.
Qed.
Lemma up_under e a b : under (S e) a b -> under e a (up b).
Proof.
  intros H. replace (S e) with (e + 1)%nat in H by lia. apply under_back in H. destruct H as [c [H1 H2]]. apply kids_under in H2. apply up_kids in H2. rewrite H2. exact H1.
Qed.
Lemma rep_some d j a e b s : (e <= d)%nat -> under e a b -> verdict (d - e) b = Some s ->
  (e = 0%nat \/ verdict (S (d - e)) (up b) <> Some s) -> In (Some s, (j + e)%nat, b) (rep d j a).
Proof.
  revert j a e. induction d as [|d IH]; intros j a e L U V N.
  - assert (e = 0%nat) by lia. subst e. apply under_0 in U. subst b. cbn [rep]. cbn [Nat.sub] in V. rewrite V. left. f_equal. f_equal. lia.
  - destruct e as [|e].
    + apply under_0 in U. subst b. cbn [Nat.sub] in V. cbn [rep]. rewrite V. left. f_equal. f_equal. lia.
    + cbn [rep]. destruct (verdict (S d) a) as [v|] eqn:W.
      * exfalso. destruct N as [N|N]; [lia|]. apply N. assert (W' : verdict (e + S (d - e)) a = Some v) by (replace (e + S (d - e))%nat with (S d) by lia; exact W).
        pose proof (verdict_down e (S (d - e)) a (up b) v W' (up_under e a b U)) as Q. cbn [Nat.sub]. rewrite Q. f_equal.
        assert (W2 : verdict (S e + (d - e)) a = Some v) by (replace (S e + (d - e))%nat with (S d) by lia; exact W).
        pose proof (verdict_down (S e) (d - e) a b v W2 U) as Q2. cbn [Nat.sub] in V. congruence.
      * apply under_S in U. destruct U as [c [Hc U]]. apply in_flat_map. exists c. split; [exact Hc|]. replace (j + S e)%nat with (S j + e)%nat by lia. apply IH; [lia|exact U|exact V|].
        destruct e as [|e]; [left; reflexivity|]. destruct N as [N|N]; [lia|right; exact N].
Qed.
End R.

(* ---- the cells as boxes ---- *)
Definition span (i : Qc * Qc) (j k : nat) : Qc * Qc := (tick (fst i) (snd i) j k, tick (fst i) (snd i) j (S k)).
Fixpoint cellb (b : list (Qc * Qc)) (j : nat) (a : addr) : list (Qc * Qc) :=
  match b, a with i :: b, k :: a => span i j k :: cellb b j a | _, _ => [] end.
Definition inb (p : list Qc) (c : list (Qc * Qc)) : Prop := Forall2 (fun x i => fst i <= x /\ x <= snd i) p c.
Definition insideb (p : list Qc) (c : list (Qc * Qc)) : Prop := Forall2 (fun x i => fst i < x /\ x < snd i) p c.

Lemma pow_q_pos j : 0 < zq (2 ^ Z.of_nat j).
Proof. apply zq_pos. apply Z.pow_pos_nonneg; lia. Qed.
Lemma pow_q_S j : zq (2 ^ Z.of_nat (S j)) = two * zq (2 ^ Z.of_nat j).
Proof. rewrite Nat2Z.inj_succ, Z.pow_succ_r by lia. rewrite zq_mul. reflexivity. Qed.
Lemma two_nz : two <> 0.
Proof. intros E. apply (f_equal this) in E. discriminate. Qed.
Lemma tick_double lo hi j k : tick lo hi (S j) (2 * k) = tick lo hi j k.
Proof.
  unfold tick. rewrite pow_q_S. replace (Z.of_nat (2 * k)) with (2 * Z.of_nat k)%Z by lia. rewrite zq_mul. change (zq 2) with two.
  pose proof (pow_q_pos j) as P. pose proof two_nz. set (q := zq (2 ^ Z.of_nat j)) in *. assert (q <> 0) by (intro E; rewrite E in P; qlra). clearbody q. field. split; assumption.
Qed.
Lemma tick_mid lo hi j k : tick lo hi (S j) (S (2 * k)) = (tick lo hi j k + tick lo hi j (S k)) / two.
Proof.
  unfold tick. rewrite pow_q_S. replace (Z.of_nat (S (2 * k))) with (2 * Z.of_nat k + 1)%Z by lia. replace (Z.of_nat (S k)) with (Z.of_nat k + 1)%Z by lia.
  rewrite !zq_add, !zq_mul, zq_1. change (zq 2) with two.
  pose proof (pow_q_pos j) as P. set (q := zq (2 ^ Z.of_nat j)) in *. assert (q <> 0) by (intro E; rewrite E in P; qlra). clearbody q.
  assert (T : two = 1 + 1) by (apply Qc_is_canon; reflexivity). pose proof two_nz. rewrite T in *. field. split; assumption.
Qed.
Lemma tick_double' lo hi j k : tick lo hi (S j) (S (S (2 * k))) = tick lo hi j (S k).
Proof. replace (S (S (2 * k))) with (2 * S k)%nat by lia. apply tick_double. Qed.
Lemma span_lo i j k : span i (S j) (2 * k) = (tick (fst i) (snd i) j k, (tick (fst i) (snd i) j k + tick (fst i) (snd i) j (S k)) / two).
Proof. unfold span. rewrite tick_double, tick_mid. reflexivity. Qed.
Lemma span_hi i j k : span i (S j) (S (2 * k)) = ((tick (fst i) (snd i) j k + tick (fst i) (snd i) j (S k)) / two, tick (fst i) (snd i) j (S k)).
Proof. unfold span. rewrite tick_mid, tick_double'. reflexivity. Qed.
Lemma tick_0 lo hi : tick lo hi 0 0 = lo /\ tick lo hi 0 1 = hi.
Proof.
  unfold tick. change (Z.of_nat 0) with 0%Z. change (Z.of_nat 1) with 1%Z. change (2 ^ 0)%Z with 1%Z. rewrite zq_0, zq_1.
  assert (N : 1 <> 0) by (intro E; apply (f_equal this) in E; discriminate). split; field; exact N.
Qed.
Lemma tick_le lo hi j k l : lo <= hi -> (k <= l)%nat -> tick lo hi j k <= tick lo hi j l.
Proof.
  intros H L. unfold tick. pose proof (pow_q_pos j) as P. apply qc_inv_pos in P. unfold Qcdiv. set (q := / zq (2 ^ Z.of_nat j)) in *. clearbody q.
  assert (Z : zq (Z.of_nat k) <= zq (Z.of_nat l)) by (apply zq_le; lia). set (x := zq (Z.of_nat k)) in *. set (y := zq (Z.of_nat l)) in *. clearbody x y.
  assert (0 <= (hi - lo) * (y - x) * q) by (apply qc_mul_nonneg; [apply qc_mul_nonneg; qlra|qlra]). qlra.
Qed.
Definition properb (b : list (Qc * Qc)) : Prop := Forall (fun i => fst i <= snd i) b.

Lemma kid_cover b j a p : length a = length b -> inb p (cellb b j a) -> exists c, In c (kids a) /\ inb p (cellb b (S j) c).
Proof.
  revert b p. induction a as [|k a IH]; intros b p L H.
  - destruct b; [|discriminate]. cbn in H. inversion H; subst. exists []. split; [left; reflexivity|constructor].
  - destruct b as [|i b]; [discriminate|]. cbn [cellb] in H. inversion H as [|x ? p' ? [H1 H2] F]; subst. destruct (IH b p') as [c [Hc G]]; [cbn in L; lia|exact F|].
    cbn [span fst snd] in H1, H2. destruct (Qclt_le_dec x ((tick (fst i) (snd i) j k + tick (fst i) (snd i) j (S k)) / two)) as [D|D].
    + exists ((2 * k)%nat :: c). split; [cbn [kids]; apply in_flat_map; exists c; split; [exact Hc|left; reflexivity]|]. cbn [cellb]. rewrite span_lo. constructor; [cbn [fst snd]; split; [assumption|qlra]|exact G].
    + exists (S (2 * k) :: c). split; [cbn [kids]; apply in_flat_map; exists c; split; [exact Hc|right; left; reflexivity]|]. cbn [cellb]. rewrite span_hi. constructor; [cbn [fst snd]; split; assumption|exact G].
Qed.
Lemma mid_le x y : x <= y -> x <= (x + y) / two /\ (x + y) / two <= y.
Proof. intros H. assert (E : two = 1 + 1) by (apply Qc_is_canon; reflexivity). pose proof two_nz. assert (D : (x + y) / two * two = x + y) by (field; assumption). set (m := (x + y) / two) in *. clearbody m. rewrite E in D. split; qlra. Qed.
Lemma kid_inside b j a c p : properb b -> In c (kids a) -> inb p (cellb b (S j) c) -> inb p (cellb b j a).
Proof.
  intros P. revert b P c p. induction a as [|k a IH]; intros b P c p Hc H; cbn [kids] in Hc.
  - destruct Hc as [<-|[]]. destruct b; exact H.
  - apply in_flat_map in Hc. destruct Hc as [r [Hr Hc]]. destruct b as [|i b]; [destruct c; exact H|]. inversion P as [|? ? P1 P2]; subst.
    destruct (mid_le _ _ (tick_le (fst i) (snd i) j k (S k) P1 (Nat.le_succ_diag_r k))) as [M1 M2].
    destruct Hc as [<-|[<-|[]]]; cbn [cellb] in H; [rewrite span_lo in H|rewrite span_hi in H]; inversion H as [|x ? p' ? X F]; subst; cbn [fst snd] in X; destruct X; cbn [cellb]; (constructor; [cbn [span fst snd]; split; qlra|eapply IH; eassumption]).
Qed.
Lemma kid_inside_strict b j a c p : properb b -> In c (kids a) -> insideb p (cellb b (S j) c) -> insideb p (cellb b j a).
Proof.
  intros P. revert b P c p. induction a as [|k a IH]; intros b P c p Hc H; cbn [kids] in Hc.
  - destruct Hc as [<-|[]]. destruct b; exact H.
  - apply in_flat_map in Hc. destruct Hc as [r [Hr Hc]]. destruct b as [|i b]; [destruct c; exact H|]. inversion P as [|? ? P1 P2]; subst.
    destruct (mid_le _ _ (tick_le (fst i) (snd i) j k (S k) P1 (Nat.le_succ_diag_r k))) as [M1 M2].
    destruct Hc as [<-|[<-|[]]]; cbn [cellb] in H; [rewrite span_lo in H|rewrite span_hi in H]; inversion H as [|x ? p' ? X F]; subst; cbn [fst snd] in X; destruct X; cbn [cellb]; (constructor; [cbn [span fst snd]; split; qlra|eapply IH; eassumption]).
Qed.
Lemma kids_apart b j a : length a = length b -> ForallOrdPairs (fun c d => forall p, insideb p (cellb b (S j) c) -> ~ insideb p (cellb b (S j) d)) (kids a).
Proof.
  revert b. induction a as [|k a IH]; intros b L; [cbn; constructor; constructor|].
  destruct b as [|i b]; [discriminate|]. cbn in L. specialize (IH b ltac:(lia)). cbn [kids]. induction IH as [|c l H F IHl]; [constructor|].
  cbn [flat_map app]. constructor; [|constructor; [|exact IHl]].
  - constructor.
    + intros p H1 H2. cbn [cellb] in H1, H2. rewrite span_lo in H1. rewrite span_hi in H2. inversion H1 as [|x ? p' ? X _]; subst. inversion H2 as [|? ? ? ? Y _]; subst. cbn [fst snd] in X, Y. destruct X, Y. qlra.
    + apply Forall_forall. intros d Hd. apply in_flat_map in Hd. destruct Hd as [r [Hr Hd]]. rewrite Forall_forall in H. specialize (H r Hr).
      intros p H1 H2. destruct Hd as [<-|[<-|[]]]; cbn [cellb] in H1, H2; inversion H1; subst; inversion H2; subst; eapply H; eassumption.
  - apply Forall_forall. intros d Hd. apply in_flat_map in Hd. destruct Hd as [r [Hr Hd]]. rewrite Forall_forall in H. specialize (H r Hr).
    intros p H1 H2. destruct Hd as [<-|[<-|[]]]; cbn [cellb] in H1, H2; inversion H1; subst; inversion H2; subst; eapply H; eassumption.
Qed.
Lemma kids_length a c : In c (kids a) -> length c = length a.
Proof. intros H. apply kids_under in H. symmetry. eapply Forall2_length. exact H. Qed.

Section T.
Context (mark : addr -> option sign).
Context (b : list (Qc * Qc)).
Definition place (x : option sign * nat * addr) : list (Qc * Qc) := cellb b (snd (fst x)) (snd x).
Lemma rep_cover d j a p : length a = length b -> inb p (cellb b j a) -> exists x, In x (rep mark d j a) /\ inb p (place x).
Proof.
  revert j a. induction d as [|d IH]; intros j a L H; cbn [rep]; destruct (verdict mark _ a) as [v|].
  - eexists. split; [left; reflexivity|exact H].
  - eexists. split; [left; reflexivity|exact H].
  - eexists. split; [left; reflexivity|exact H].
  - destruct (kid_cover b j a p L H) as [c [Hc G]]. destruct (IH (S j) c) as [x [Hx K]]; [rewrite (kids_length a c Hc); exact L|exact G|].
    exists x. split; [apply in_flat_map; exists c; split; assumption|exact K].
Qed.
Lemma rep_in (D : list Qc -> list (Qc * Qc) -> Prop) :
  (forall j a c p, In c (kids a) -> D p (cellb b (S j) c) -> D p (cellb b j a)) ->
  forall d j a x p, In x (rep mark d j a) -> D p (place x) -> D p (cellb b j a).
Proof.
  intros K. induction d as [|d IH]; intros j a x p Hx H; cbn [rep] in Hx; destruct (verdict mark _ a) as [v|].
  - destruct Hx as [<-|[]]. exact H.
  - destruct Hx as [<-|[]]. exact H.
  - destruct Hx as [<-|[]]. exact H.
  - apply in_flat_map in Hx. destruct Hx as [c [Hc Hx]]. apply (K j a c p Hc). eapply IH; eassumption.
Qed.
Lemma rep_apart d j a : properb b -> length a = length b -> ForallOrdPairs (fun x y => forall p, insideb p (place x) -> ~ insideb p (place y)) (rep mark d j a).
Proof.
  intros P. revert j a. induction d as [|d IH]; intros j a L; cbn [rep]; destruct (verdict mark _ a) as [v|]; try (repeat constructor).
  pose proof (kids_apart b j a L) as A. assert (LL : Forall (fun c => length c = length b) (kids a)) by (apply Forall_forall; intros c Hc; rewrite (kids_length a c Hc); exact L).
  induction A as [|c l H F IHl]; [constructor|]. cbn [flat_map]. inversion LL; subst. apply fop_app; [apply IH; assumption|apply IHl; assumption|].
  intros x y Hx Hy p X Y. apply in_flat_map in Hy. destruct Hy as [c' [Hc' Hy]]. rewrite Forall_forall in H. apply (H c' Hc' p).
  - eapply (rep_in insideb); [intros; eapply kid_inside_strict; eassumption|exact Hx|exact X].
  - eapply (rep_in insideb); [intros; eapply kid_inside_strict; eassumption|exact Hy|exact Y].
Qed.
End T.
