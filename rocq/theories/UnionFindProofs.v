From Coq Require Import List Arith Lia ZArith Bool Permutation Relations Sorted.
From Verif Require Import Common ListLib UnionFindModel UnionFindSpec.
Import ListNotations.

Definition par (u : uf) x := nth_error (parent u) x.
Definition rk (u : uf) x := nth x (rank u) 0.
Definition usize (u : uf) := length (parent u).

(* x's representative is r *)
Inductive rooted (u : uf) : nat -> nat -> Prop :=
| rooted_here x : par u x = Some x -> rooted u x x
| rooted_up x p r : par u x = Some p -> p <> x -> rooted u p r -> rooted u x r.

Record wf (u : uf) : Prop := {
  wf_len : length (rank u) = usize u;
  wf_range : forall x p, par u x = Some p -> p < usize u;
  wf_rank : forall x p, par u x = Some p -> p <> x -> rk u x < rk u p;
  wf_size : forall r, par u r = Some r ->
     exists L, NoDup L /\ (forall y, In y L -> rooted u y r) /\ 2 ^ rk u r <= length L
}.

Lemma rooted_lt u x r : rooted u x r -> x < usize u.
Proof. destruct 1; unfold par, usize in *; eapply nth_error_lt; eauto. Qed.

Lemma rooted_root u x r : rooted u x r -> par u r = Some r.
Proof. induction 1; auto. Qed.

Lemma rooted_fun u x r1 r2 : rooted u x r1 -> rooted u x r2 -> r1 = r2.
Proof.
  induction 1; intro H2; inversion H2; subst; auto; try congruence.
  apply IHrooted. congruence.
Qed.

Ltac rfun := repeat match goal with
  | H1 : rooted ?u ?x ?a, H2 : rooted ?u ?x ?b |- _ =>
      assert_fails (constr_eq a b);
      let E := fresh "E" in assert (E : a = b) by exact (rooted_fun u x a b H1 H2);
      first [subst a | subst b | rewrite E in *; clear E]
  end.

Lemma wf_rank_le_log u x r : wf u -> rooted u x r -> rk u x <= rk u r.
Proof.
  intros W H. induction H; auto. pose proof (wf_rank u W _ _ H H0). lia.
Qed.

Lemma root_rank_bound u r : wf u -> par u r = Some r -> 2 ^ rk u r <= usize u.
Proof.
  intros W H. destruct (wf_size u W r H) as (L & ND & HL & Hlen).
  assert (length L <= length (seq 0 (usize u))).
  { apply NoDup_incl_length; auto. intros y Hy. apply HL in Hy. apply rooted_lt in Hy.
    apply in_seq. lia. }
  rewrite seq_length in H0. lia.
Qed.

(* the sum of ranks bounds path lengths: every in-range element has a root *)
Lemma rank_bounded u : wf u -> exists R, forall x, rk u x <= R.
Proof.
  intros _. unfold rk. exists (list_max (rank u)). intro x.
  destruct (lt_dec x (length (rank u))) as [H|H].
  - pose proof (proj1 (list_max_le (rank u) (list_max (rank u))) (le_n _)) as F.
    rewrite Forall_forall in F. apply F. now apply nth_In.
  - rewrite nth_overflow by lia. lia.
Qed.

Lemma rooted_total_aux u R : wf u -> (forall x, rk u x <= R) ->
  forall m x, R - rk u x < m -> x < usize u -> exists r, rooted u x r.
Proof.
  intros W HR m. induction m as [|m IH]; intros x Hm Hx; [lia|].
  destruct (nth_error (parent u) x) as [p|] eqn:E.
  - destruct (Nat.eq_dec p x) as [->|Hne].
    + exists x. constructor; auto.
    + assert (Hr := wf_rank u W _ _ E Hne). pose proof (HR p).
      destruct (IH p) as [r Hrr]; [lia| |].
      * eapply wf_range; eauto.
      * exists r. econstructor 2; eauto.
  - apply nth_error_None in E. unfold usize in Hx. lia.
Qed.

Lemma rooted_total u x : wf u -> x < usize u -> exists r, rooted u x r.
Proof.
  intros W Hx. destruct (rank_bounded u W) as [R HR].
  eapply rooted_total_aux; eauto.
Qed.

Lemma rank_log u x : wf u -> x < usize u -> rk u x <= Nat.log2 (usize u).
Proof.
  intros W Hx. destruct (rooted_total u x W Hx) as [r Hr].
  pose proof (wf_rank_le_log u x r W Hr).
  pose proof (root_rank_bound u r W (rooted_root _ _ _ Hr)).
  apply Nat.log2_le_mono in H0. rewrite Nat.log2_pow2 in H0 by lia. lia.
Qed.

Lemma par_set u x p y : par (set_parent u x p) y =
  if Nat.eq_dec x y then (if lt_dec y (usize u) then Some p else None) else par u y.
Proof. unfold par, set_parent; simpl. now rewrite nth_error_upd. Qed.

Lemma rk_set u x p y : rk (set_parent u x p) y = rk u y.
Proof. reflexivity. Qed.

Lemma usize_set u x p : usize (set_parent u x p) = usize u.
Proof. unfold usize, set_parent; simpl. apply upd_length. Qed.

(* same forest up to path compression *)
Definition same_roots (u u' : uf) : Prop :=
  usize u' = usize u /\ rank u' = rank u /\ forall y z, rooted u y z <-> rooted u' y z.

Lemma same_refl u : same_roots u u.
Proof. split; [|split]; auto; tauto. Qed.

Lemma same_trans u v w : same_roots u v -> same_roots v w -> same_roots u w.
Proof.
  intros (a & b & c) (d & e & f). split; [|split]; try congruence.
  intros y z. rewrite c. apply f.
Qed.

Lemma compress u x r : wf u -> rooted u x r -> r <> x ->
  wf (set_parent u x r) /\ same_roots u (set_parent u x r).
Proof.
  intros W H Hne.
  assert (Hx := rooted_lt _ _ _ H).
  assert (Hroot := rooted_root _ _ _ H).
  assert (Hr : r < usize u) by (eapply wf_range; eauto).
  assert (Hrk : rk u x < rk u r).
  { inversion H; subst; try congruence.
    pose proof (wf_rank u W _ _ H0 H1). pose proof (wf_rank_le_log u p r W H2). lia. }
  set (u' := set_parent u x r).
  assert (fwd : forall y z, rooted u y z -> rooted u' y z).
  { intros y z Hyz. induction Hyz as [y Hy | y p z Hy Hyp Hz IH].
    - apply rooted_here. unfold u'. rewrite par_set. destruct (Nat.eq_dec x y); auto.
      subst y. exfalso. inversion H; subst; congruence.
    - destruct (Nat.eq_dec x y) as [->|Hxy].
      + assert (z = r) by (eapply rooted_fun; [|exact H]; econstructor 2; eauto). subst z.
        econstructor 2 with (p := r); auto.
        * unfold u'. rewrite par_set. destruct (Nat.eq_dec y y); try lia.
          destruct (lt_dec y (usize u)); auto; lia.
        * apply rooted_here. unfold u'. rewrite par_set. destruct (Nat.eq_dec y r); auto. congruence.
      + econstructor 2 with (p := p); auto. unfold u'. rewrite par_set.
        destruct (Nat.eq_dec x y); auto; lia. }
  assert (W' : forall y p, par u' y = Some p -> p <> y -> rk u y < rk u p).
  { intros y p. unfold u'. rewrite par_set. destruct (Nat.eq_dec x y) as [->|].
    - destruct (lt_dec y (usize u)); intro E; inversion E; subst; auto.
    - apply wf_rank; auto. }
  assert (iff : forall y z, rooted u y z <-> rooted u' y z).
  { intros y z; split; auto. intro Hyz.
    assert (y < usize u). { apply rooted_lt in Hyz. unfold u' in Hyz. now rewrite usize_set in Hyz. }
    destruct (rooted_total u y W H0) as [z0 Hz0].
    assert (z = z0) by (eapply rooted_fun; eauto). now subst. }
  split.
  - constructor.
    + unfold u'. simpl. rewrite usize_set. apply wf_len; auto.
    + intros y p. unfold u'. rewrite par_set, usize_set. destruct (Nat.eq_dec x y).
      * destruct (lt_dec y (usize u)); intro E; inversion E; subst; auto.
      * apply wf_range; auto.
    + exact W'.
    + intros r0 Hr0.
      assert (par u r0 = Some r0).
      { unfold u' in Hr0. rewrite par_set in Hr0. destruct (Nat.eq_dec x r0); auto.
        destruct (lt_dec r0 (usize u)); inversion Hr0; subst; congruence. }
      destruct (wf_size u W r0 H0) as (L & ND & HL & Hlen).
      exists L. repeat split; auto.
  - split; [apply usize_set|split]; auto.
Qed.

Lemma find_spec fuel : forall u x, wf u -> x < usize u ->
  (forall r, rooted u x r -> rk u r - rk u x < fuel) ->
  exists u' r, find fuel u x = Ok (u', r) /\ wf u' /\ same_roots u u' /\ rooted u x r.
Proof.
  induction fuel as [|f IH]; intros u x W Hx Hf.
  - destruct (rooted_total u x W Hx) as [r Hr]. specialize (Hf r Hr). lia.
  - simpl. destruct (getR_lt (parent u) x Hx) as (p & Ep & Np). rewrite Ep. simpl.
    destruct (p =? x) eqn:Epx.
    + apply Nat.eqb_eq in Epx. subst p. exists u, x.
      split; auto. split; auto. split; [apply same_refl|]. now apply rooted_here.
    + apply Nat.eqb_neq in Epx.
      assert (Hp : p < usize u) by (eapply wf_range; eauto).
      destruct (IH u p W Hp) as (u' & r & Hfind & W' & S' & Hr).
      { intros r Hr. assert (rooted u x r) by (econstructor 2; eauto).
        specialize (Hf r H). pose proof (wf_rank u W _ _ Np Epx).
        pose proof (wf_rank_le_log u p r W Hr). lia. }
      rewrite Hfind. cbn [bind].
      assert (Hxr : rooted u x r) by (econstructor 2; eauto).
      assert (Hxr' : rooted u' x r) by (apply S'; auto).
      assert (Hne : r <> x).
      { intro E. subst r. pose proof (wf_rank u W _ _ Np Epx).
        pose proof (wf_rank_le_log u p x W Hr). lia. }
      destruct (compress u' x r W' Hxr' Hne) as [W'' S''].
      unfold set_parent at 1. simpl. unfold getR.
      assert (x < length (parent u')). { destruct S' as (Hs & _). unfold usize in *. lia. }
      rewrite nth_error_upd_eq by auto. cbn [bind].
      exists (set_parent u' x r), r. split; auto. split; auto. split; auto.
      eapply same_trans; eauto.
Qed.

Lemma find_depth_log u x : wf u -> x < usize u ->
  exists u' r, find (S (Nat.log2 (usize u))) u x = Ok (u', r) /\ rooted u x r.
Proof.
  intros W Hx. destruct (find_spec (S (Nat.log2 (usize u))) u x W Hx) as (u' & r & H1 & _ & _ & H2).
  - intros r Hr. pose proof (rank_log u r W). 
    assert (r < usize u) by (eapply wf_range; [exact W|eapply rooted_root; eauto]).
    specialize (H H0). lia.
  - eauto.
Qed.

Lemma uf_find_spec u x : wf u -> x < usize u ->
  exists u' r, uf_find u x = Ok (u', r) /\ wf u' /\ same_roots u u' /\ rooted u x r.
Proof.
  intros W Hx. unfold uf_find. apply find_spec; auto.
  intros r Hr. assert (r < usize u) by (eapply wf_range; [exact W|eapply rooted_root; eauto]).
  pose proof (rank_log u r W H). unfold uf_fuel.
  assert (Nat.log2 (usize u) <= usize u) by apply Nat.log2_le_lin, Nat.le_0_l.
  unfold usize in *. lia.
Qed.

Definition connected (u : uf) a b := exists r, rooted u a r /\ rooted u b r.

(* linking two distinct roots *)
Lemma link u a b k : wf u -> par u a = Some a -> par u b = Some b -> a <> b ->
  (k = rk u a /\ rk u b < rk u a \/ k = S (rk u a) /\ rk u b = rk u a) ->
  let u' := set_rank (set_parent u b a) a k in
  wf u' /\ usize u' = usize u /\
  (forall y z, rooted u' y z <-> (rooted u y z /\ z <> b) \/ (z = a /\ rooted u y b)).
Proof.
  intros W Ha Hb Hab Hk u'.
  assert (Hla : a < usize u) by (eapply nth_error_lt; exact Ha).
  assert (Hlb : b < usize u) by (eapply nth_error_lt; exact Hb).
  assert (Hpar : forall y, par u' y = if Nat.eq_dec b y then Some a else par u y).
  { intro y. change (par u' y) with (par (set_parent u b a) y). rewrite par_set.
    destruct (Nat.eq_dec b y); auto. subst. destruct (lt_dec y (usize u)); auto; lia. }
  assert (Hrka : rk u' a = k).
  { unfold rk, u'. simpl. apply nth_error_nth. apply nth_error_upd_eq. rewrite (wf_len u W). auto. }
  assert (Hrk : forall y, y <> a -> rk u' y = rk u y).
  { intros y Hy. unfold rk, u'. simpl.
    destruct (lt_dec y (length (rank u))) as [L|L].
    - apply nth_error_nth. rewrite nth_error_upd_neq by auto.
      apply nth_error_nth'. auto.
    - rewrite !nth_overflow; auto; try lia. rewrite upd_length. lia. }
  assert (Hus : usize u' = usize u) by (unfold u', usize; simpl; apply upd_length).
  assert (Hrl : length (rank u') = usize u') by (rewrite Hus; unfold u'; simpl; rewrite upd_length; apply wf_len; auto).
  clearbody u'.
  assert (fa : rooted u' a a).
  { apply rooted_here. rewrite Hpar. destruct (Nat.eq_dec b a); auto; congruence. }
  assert (f1 : forall y z, rooted u y z -> z <> b -> rooted u' y z).
  { intros y z Hyz. induction Hyz; intro Hz.
    - apply rooted_here. rewrite Hpar. destruct (Nat.eq_dec b x); congruence.
    - econstructor 2 with (p := p); auto. rewrite Hpar. destruct (Nat.eq_dec b x); auto.
      subst. congruence. }
  assert (f2 : forall y z, rooted u y z -> z = b -> rooted u' y a).
  { intros y z Hyz. induction Hyz; intro Hz.
    - subst. econstructor 2 with (p := a); auto. rewrite Hpar. destruct (Nat.eq_dec b b); congruence.
    - econstructor 2 with (p := p); auto. rewrite Hpar. destruct (Nat.eq_dec b x); auto.
      subst. congruence. }
  assert (iff : forall y z, rooted u' y z <-> (rooted u y z /\ z <> b) \/ (z = a /\ rooted u y b)).
  { intros y z. split.
    - intro Hyz. assert (Hy : y < usize u) by (apply rooted_lt in Hyz; lia).
      destruct (rooted_total u y W Hy) as [r Hr].
      destruct (Nat.eq_dec r b) as [->|Hrb].
      + right. split; auto. eapply rooted_fun; eauto.
      + left. assert (z = r) by (eapply rooted_fun; eauto). subst; auto.
    - intros [[H1 H2]|[-> H]]; eauto. }
  split; [|split]; auto.
  constructor.
  - exact Hrl.
  - intros x p. rewrite Hpar, Hus. destruct (Nat.eq_dec b x); [intro E; inversion E; subst; auto|].
    apply wf_range; auto.
  - intros x p. rewrite Hpar. destruct (Nat.eq_dec b x) as [->|].
    + intro E; inversion E; subst p. intro. rewrite Hrka. rewrite Hrk by auto. lia.
    + intros Hp Hne.
      assert (x <> a) by congruence.
      pose proof (wf_rank u W _ _ Hp Hne).
      rewrite (Hrk x) by auto. destruct (Nat.eq_dec p a) as [->|]; [rewrite Hrka; lia|rewrite Hrk; auto].
  - intros r Hr. rewrite Hpar in Hr. destruct (Nat.eq_dec b r) as [->|Hbr].
    + inversion Hr; congruence.
    + destruct (wf_size u W r Hr) as (L & ND & HL & Hlen).
      destruct (Nat.eq_dec r a) as [->|Hra].
      * destruct (wf_size u W b Hb) as (L2 & ND2 & HL2 & Hlen2).
        rewrite Hrka. destruct Hk as [[-> _]|[-> Hk]].
        -- exists L. repeat split; auto.
        -- exists (L ++ L2). split; [|split].
           ++ clear - ND ND2 HL HL2 Hab. revert ND HL. induction L as [|h t IH]; intros ND HL; simpl; auto.
              inversion ND; subst. constructor.
              ** rewrite in_app_iff. intros [Hin|Hin]; auto.
                 apply Hab. eapply rooted_fun; [apply HL; left; auto|apply HL2; auto].
              ** apply IH; auto. intros; apply HL; right; auto.
           ++ intros y Hy. apply in_app_or in Hy. destruct Hy as [Hy|Hy]; eauto.
           ++ rewrite app_length. rewrite Hk in Hlen2. simpl. lia.
      * rewrite Hrk by auto. exists L. repeat split; auto.
Qed.

(* set_parent without rank change is a special case of link *)
Lemma set_rank_same u a : a < length (rank u) -> set_rank u a (rk u a) = u.
Proof.
  intro H. destruct u as [p r]. unfold set_rank, rk; simpl in *. f_equal.
  apply upd_same. apply nth_error_nth'. auto.
Qed.

Lemma uf_union_spec u x y : wf u -> x < usize u -> y < usize u ->
  exists u', uf_union u x y = Ok u' /\ wf u' /\ usize u' = usize u /\
    forall a b, connected u' a b <->
      connected u a b \/ (connected u a x /\ connected u y b) \/ (connected u a y /\ connected u x b).
Proof.
  intros W Hx Hy. unfold uf_union.
  destruct (uf_find_spec u x W Hx) as (u1 & rx & E1 & W1 & S1 & R1). rewrite E1. cbn [bind].
  assert (Hy1 : y < usize u1) by (destruct S1; lia).
  destruct (uf_find_spec u1 y W1 Hy1) as (u2 & ry & E2 & W2 & S2 & R2). rewrite E2. cbn [bind].
  assert (Sm : same_roots u u2) by (eapply same_trans; eauto).
  assert (Rx : rooted u2 x rx) by (apply Sm; auto).
  assert (Ry : rooted u2 y ry) by (apply S2; auto).
  assert (Px := rooted_root _ _ _ Rx). assert (Py := rooted_root _ _ _ Ry).
  assert (conn_eq : forall a b, connected u a b <-> connected u2 a b).
  { intros a b. unfold connected. destruct Sm as (_ & _ & Sm). split; intros (r & A & B); exists r; split; apply Sm; auto. }
  assert (Ry' : rooted u y ry) by (apply Sm; auto).
  destruct (rx =? ry) eqn:Exy.
  - apply Nat.eqb_eq in Exy. subst ry. exists u2. split; auto. split; auto. split; [apply Sm|].
    intros a b. rewrite <- conn_eq. split; auto.
    intros [H|[[(r1 & A & B) (r2 & C & D)]|[(r1 & A & B) (r2 & C & D)]]]; auto;
      rfun; eexists; split; eauto.
  - apply Nat.eqb_neq in Exy.
    assert (Lx : rx < length (rank u2)). { rewrite (wf_len u2 W2). eapply nth_error_lt; eauto. }
    assert (Ly : ry < length (rank u2)). { rewrite (wf_len u2 W2). eapply nth_error_lt; eauto. }
    assert (Gx : getR (rank u2) rx = Ok (rk u2 rx)). { apply getR_Ok. apply nth_error_nth'. auto. }
    assert (Gy : getR (rank u2) ry = Ok (rk u2 ry)). { apply getR_Ok. apply nth_error_nth'. auto. }
    rewrite Gx, Gy. cbn [bind].
    (* a common argument for linking b under a *)
    assert (fin : forall a b k, (a = rx /\ b = ry \/ a = ry /\ b = rx) ->
       (k = rk u2 a /\ rk u2 b < rk u2 a \/ k = S (rk u2 a) /\ rk u2 b = rk u2 a) ->
       let u' := set_rank (set_parent u2 b a) a k in
       wf u' /\ usize u' = usize u /\ forall c d, connected u' c d <->
         connected u c d \/ (connected u c x /\ connected u y d) \/ (connected u c y /\ connected u x d)).
    { intros a b k Hab Hk u'.
      assert (Pa : par u2 a = Some a) by (destruct Hab as [[-> ->]|[-> ->]]; auto).
      assert (Pb : par u2 b = Some b) by (destruct Hab as [[-> ->]|[-> ->]]; auto).
      assert (Nab : a <> b) by (destruct Hab as [[-> ->]|[-> ->]]; congruence).
      destruct (link u2 a b k W2 Pa Pb Nab Hk) as (W' & Hs & Hiff). fold u' in W', Hs, Hiff.
      split; auto. split. { destruct Sm; lia. }
      intros c d.
      assert (step : connected u' c d <-> exists r1 r2, rooted u2 c r1 /\ rooted u2 d r2 /\
                (r1 = r2 \/ (r1 = rx /\ r2 = ry) \/ (r1 = ry /\ r2 = rx))).
      { split.
        - intros (r & A & B). apply Hiff in A. apply Hiff in B.
          destruct A as [[A1 A2]|[-> A1]], B as [[B1 B2]|[HB B1]].
          + exists r, r; auto.
          + subst r. exists a, b. split; [auto|]. split; [auto|]. destruct Hab as [[-> ->]|[-> ->]]; auto.
          + exists b, a. split; [auto|]. split; [auto|]. destruct Hab as [[-> ->]|[-> ->]]; auto.
          + exists b, b; auto.
        - intros (r1 & r2 & A & B & Hr).
          assert (same : forall e r, rooted u2 e r -> rooted u' e (if Nat.eq_dec r b then a else r)).
          { intros e r He. apply Hiff. destruct (Nat.eq_dec r b); subst; auto. }
          apply same in A. apply same in B.
          assert (Q : (if Nat.eq_dec r1 b then a else r1) = (if Nat.eq_dec r2 b then a else r2)).
          { destruct Hr as [->|[[-> ->]|[-> ->]]]; auto; destruct Hab as [[-> ->]|[-> ->]];
            repeat match goal with |- context [Nat.eq_dec ?p ?q] => destruct (Nat.eq_dec p q) end; congruence. }
          eexists. split; eauto. rewrite Q. auto. }
      rewrite step, !conn_eq. unfold connected. split.
      - intros (r1 & r2 & A & B & [->|[[-> ->]|[-> ->]]]).
        + left; eauto.
        + right; left; split; eauto.
        + right; right; split; eauto.
      - intros [(r & A & B)|[[(r & A & B) (r' & C & D)]|[(r & A & B) (r' & C & D)]]].
        + exists r, r; auto.
        + exists r, r'. split; auto. split; auto. right; left. rfun; auto.
        + exists r, r'. split; auto. split; auto. right; right. rfun; auto. }
    destruct (rk u2 rx <? rk u2 ry) eqn:C1; [|destruct (rk u2 ry <? rk u2 rx) eqn:C2].
    + apply Nat.ltb_lt in C1.
      destruct (fin ry rx (rk u2 ry)) as (A & B & C); [right; auto|left; auto|].
      assert (Q : set_rank (set_parent u2 rx ry) ry (rk u2 ry) = set_parent u2 rx ry).
      { apply (set_rank_same (set_parent u2 rx ry)). auto. }
      rewrite Q in *. exists (set_parent u2 rx ry). auto.
    + apply Nat.ltb_lt in C2.
      destruct (fin rx ry (rk u2 rx)) as (A & B & C); [left; auto|left; auto|].
      assert (Q : set_rank (set_parent u2 ry rx) rx (rk u2 rx) = set_parent u2 ry rx).
      { apply (set_rank_same (set_parent u2 ry rx)). auto. }
      rewrite Q in *. exists (set_parent u2 ry rx). auto.
    + apply Nat.ltb_ge in C1. apply Nat.ltb_ge in C2.
      destruct (fin rx ry (S (rk u2 rx))) as (A & B & C); [left; auto|right; lia|].
      eexists. split; [reflexivity|]. auto.
Qed.

Lemma rk_init n x : rk (uf_init n) x = 0.
Proof.
  unfold rk; simpl. destruct (lt_dec x n).
  - apply nth_error_nth. now apply nth_error_repeat.
  - apply nth_overflow. rewrite repeat_length. lia.
Qed.

Lemma par_init n x p : par (uf_init n) x = Some p -> p = x /\ x < n.
Proof.
  unfold par; simpl. intro H. assert (L := nth_error_lt _ _ _ H). rewrite seq_length in L.
  rewrite nth_error_seq in H by auto. simpl in H. inversion H; subst; auto.
Qed.

Lemma wf_init n : wf (uf_init n).
Proof.
  constructor; unfold usize; simpl.
  - now rewrite repeat_length, seq_length.
  - intros x p H. apply par_init in H. rewrite seq_length. lia.
  - intros x p H Hne. apply par_init in H. lia.
  - intros r Hr. exists [r]. split. { repeat constructor. simpl; tauto. }
    rewrite rk_init. simpl. split; auto. intros y [->|[]]. now apply rooted_here.
Qed.

Lemma connected_init n a b : connected (uf_init n) a b <-> a = b /\ a < n.
Proof.
  assert (K : forall x r, rooted (uf_init n) x r -> x = r /\ x < n).
  { intros x r H. induction H.
    - apply par_init in H. auto.
    - apply par_init in H. lia. }
  split.
  - intros (r & A & B). apply K in A. apply K in B. lia.
  - intros [-> H]. exists b. split; apply rooted_here; unfold par; simpl; now rewrite nth_error_seq.
Qed.

(* equivalence represented by state u, extended by further pairs *)
Definition ext (n : nat) (R : nat -> nat -> Prop) (ps : list (nat * nat)) :=
  clos_refl_sym_trans nat (fun a b => (a < n /\ b < n /\ R a b) \/ In (a, b) ps).

Lemma connected_sym u a b : connected u a b -> connected u b a.
Proof. intros (r & A & B); exists r; auto. Qed.

Lemma connected_trans u a b c : connected u a b -> connected u b c -> connected u a c.
Proof.
  intros (r & A & B) (r' & C & D). assert (r = r') by (eapply rooted_fun; eauto). subst. exists r'; auto.
Qed.

Lemma connected_lt u a b : connected u a b -> a < usize u /\ b < usize u.
Proof. intros (r & A & B). split; eapply rooted_lt; eauto. Qed.

Lemma connected_refl u a : wf u -> a < usize u -> connected u a a.
Proof. intros W H. destruct (rooted_total u a W H) as [r Hr]. exists r; auto. Qed.

(* run: connectivity is the closure *)
Lemma crst_mono (R S : nat -> nat -> Prop) :
  (forall a b, R a b -> S a b) -> forall a b, clos_refl_sym_trans nat R a b -> clos_refl_sym_trans nat S a b.
Proof.
  intros H a b C. induction C.
  - apply rst_step; auto.
  - apply rst_refl.
  - apply rst_sym; auto.
  - eapply rst_trans; eauto.
Qed.

Lemma crst_idem (R S : nat -> nat -> Prop) :
  (forall a b, R a b -> clos_refl_sym_trans nat S a b) ->
  forall a b, clos_refl_sym_trans nat R a b -> clos_refl_sym_trans nat S a b.
Proof.
  intros H a b C. induction C; auto.
  - apply rst_refl.
  - apply rst_sym; auto.
  - eapply rst_trans; eauto.
Qed.

Lemma run_spec ops : forall u, wf u -> Forall (op_ok (usize u)) ops ->
  exists u', uf_run u ops = Ok u' /\ wf u' /\ usize u' = usize u /\
   forall a b, connected u' a b <->
     (a < usize u /\ b < usize u /\
      clos_refl_sym_trans nat (fun a b => connected u a b \/ In (a, b) (pairs ops)) a b).
Proof.
  induction ops as [|o ops IH]; intros u W F.
  - exists u. split; auto. split; auto. split; auto. intros a b. split.
    + intro H. destruct (connected_lt _ _ _ H). split; auto. split; auto. apply rst_step; auto.
    + intros (Ha & Hb & C). induction C.
      * destruct H as [H|[]]; auto.
      * apply connected_refl; auto.
      * apply connected_sym. auto.
      * assert (Hy : y < usize u).
        { clear - C1 W Ha. revert Ha. cut ((x < usize u -> y < usize u) /\ (y < usize u -> x < usize u)); [tauto|].
          induction C1; try tauto. destruct H as [H|[]]. apply connected_lt in H. tauto. }
        eapply connected_trans; eauto.
  - inversion F as [|? ? Ho Fo]; subst. simpl.
    assert (stepcase : exists u', uf_step u o = Ok u' /\ wf u' /\ usize u' = usize u /\
        forall a b, connected u' a b ->  (a < usize u /\ b < usize u /\
          clos_refl_sym_trans nat (fun a b => connected u a b \/ In (a, b) (pairs [o])) a b)) .
    { destruct o as [x y|x]; simpl in Ho |- *.
      - destruct Ho as [Hx Hy]. destruct (uf_union_spec u x y W Hx Hy) as (u' & E & W' & Hs & Hc).
        exists u'. split; auto. split; auto. split; auto. intros a b H.
        pose proof (connected_lt _ _ _ H) as [L1 L2]. rewrite Hs in L1, L2. split; auto. split; auto.
        apply Hc in H. destruct H as [H|[[A B]|[A B]]].
        + apply rst_step; auto.
        + eapply rst_trans; [apply rst_step; left; exact A|].
          eapply rst_trans; [apply rst_step; right; left; reflexivity|]. apply rst_step; auto.
        + eapply rst_trans; [apply rst_step; left; exact A|].
          eapply rst_trans; [apply rst_sym, rst_step; right; left; reflexivity|]. apply rst_step; auto.
      - destruct (uf_find_spec u x W Ho) as (u' & r & E & W' & S & R).
        exists u'. rewrite E. split; auto. split; auto. split; [apply S|].
        intros a b (q & A & B). assert (connected u a b) by (exists q; split; apply S; auto).
        destruct (connected_lt _ _ _ H). split; auto. split; auto. apply rst_step; auto. }
    assert (stepback : forall u', uf_step u o = Ok u' -> forall a b, connected u a b \/ In (a, b) (pairs [o]) -> connected u' a b).
    { intros u' E a b H. destruct o as [x y|x]; simpl in Ho, E.
      - destruct Ho as [Hx Hy]. destruct (uf_union_spec u x y W Hx Hy) as (u'' & E' & W' & Hs & Hc).
        rewrite E' in E. inversion E; subst. apply Hc. destruct H as [H|H]; auto.
        simpl in H. destruct H as [H|[]]. inversion H; subst. right; left.
        split; apply connected_refl; auto.
      - destruct (uf_find_spec u x W Ho) as (u'' & r & E' & W' & S & R).
        rewrite E' in E. inversion E; subst. destruct H as [H|[]]. destruct H as (q & A & B).
        exists q; split; apply S; auto. }
    destruct stepcase as (u1 & E1 & W1 & Hs1 & Hc1). rewrite E1. cbn [bind].
    assert (F1 : Forall (op_ok (usize u1)) ops) by (rewrite Hs1; auto).
    destruct (IH u1 W1 F1) as (u2 & E2 & W2 & Hs2 & Hc2).
    exists u2. split; auto. split; auto. split; [lia|].
    assert (Hp : forall a b, In (a, b) (pairs (o :: ops)) <-> In (a, b) (pairs [o]) \/ In (a, b) (pairs ops)).
    { intros a b. destruct o; simpl; tauto. }
    intros a b. rewrite Hc2, Hs1. split.
    + intros (Ha & Hb & C). split; auto. split; auto. revert C. apply crst_idem.
      clear - Hc1 Hp. intros a b [H|H].
      * apply Hc1 in H. destruct H as (_ & _ & C). revert C. apply crst_mono.
        intros c d [H|H]; auto. right. apply Hp; auto.
      * apply rst_step. right. apply Hp; auto.
    + intros (Ha & Hb & C). split; auto. split; auto. revert C. apply crst_mono.
      intros c d [H|H]; [left|apply Hp in H; destruct H as [H|H]; auto; left]; eapply stepback; eauto.
Qed.

Lemma uf_history_spec n ops : Forall (op_ok n) ops ->
  exists u, uf_run (uf_init n) ops = Ok u /\
  forall a b, a < n -> b < n ->
   exists u1 ra u2 rb, uf_find u a = Ok (u1, ra) /\ uf_find u1 b = Ok (u2, rb) /\
     (ra = rb <-> linked (pairs ops) a b).
Proof.
  intro F.
  assert (Hn : usize (uf_init n) = n) by (unfold usize; simpl; apply seq_length).
  destruct (run_spec ops (uf_init n) (wf_init n)) as (u & E & W & Hs & Hc).
  { rewrite Hn; auto. }
  exists u. split; auto. intros a b Ha Hb. rewrite Hn in *.
  assert (La : a < usize u) by lia. assert (Lb : b < usize u) by lia.
  destruct (uf_find_spec u a W La) as (u1 & ra & E1 & W1 & S1 & R1).
  assert (Lb1 : b < usize u1) by (destruct S1; lia).
  destruct (uf_find_spec u1 b W1 Lb1) as (u2 & rb & E2 & W2 & S2 & R2).
  exists u1, ra, u2, rb. split; auto. split; auto.
  assert (R2' : rooted u b rb) by (apply S1; auto).
  transitivity (connected u a b).
  { split. - intros ->. exists rb; auto.
    - intros (r & A & B). transitivity r; [eapply rooted_fun; eauto|eapply rooted_fun; eauto]. }
  rewrite Hc. unfold linked. split.
  - intros (_ & _ & C). revert C. apply crst_idem. intros c d [H|H].
    + apply connected_init in H. destruct H as [-> _]. apply rst_refl.
    + apply rst_step; auto.
  - intro C. split; auto. split; auto. revert C. apply crst_mono. auto.
Qed.

Lemma uf_find_log n ops u x : Forall (op_ok n) ops -> uf_run (uf_init n) ops = Ok u -> x < n ->
  exists u' r, find (S (Nat.log2 n)) u x = Ok (u', r).
Proof.
  intros F E Hx.
  assert (Hn : usize (uf_init n) = n) by (unfold usize; simpl; apply seq_length).
  destruct (run_spec ops (uf_init n) (wf_init n)) as (u0 & E0 & W & Hs & _).
  { rewrite Hn; auto. }
  rewrite E in E0. inversion E0; subst u0.
  destruct (find_depth_log u x W) as (u' & r & A & B); [lia|].
  rewrite Hs, Hn in A. eauto.
Qed.
