From Coq Require Import List Arith Lia ZArith Bool Permutation Relations Sorted.
From Verif Require Import Common ListLib UnionFindModel UnionFindSpec UnionFindProofs.
Import ListNotations.

Section Dict.
  Context {K V : Type} (eqb : K -> K -> bool).
  Hypothesis eqb_eq : forall a b, eqb a b = true <-> a = b.

  Fixpoint dget (d : list (K * list V)) (k : K) : list V :=
    match d with
    | [] => []
    | (k', vs) :: t => if eqb k' k then vs else dget t k
    end.

  Lemma eqb_refl' a : eqb a a = true. Proof. now apply eqb_eq. Qed.
  Lemma eqb_neq' a b : a <> b -> eqb a b = false.
  Proof. intro H. destruct (eqb a b) eqn:E; auto. apply eqb_eq in E. contradiction. Qed.

  Lemma dget_append_eq d k v : dget (dict_append eqb d k v) k = dget d k ++ [v].
  Proof.
    induction d as [|[k' vs] t IH]; simpl.
    - now rewrite eqb_refl'.
    - destruct (eqb k' k) eqn:E; simpl; rewrite E; auto.
  Qed.

  Lemma dget_append_neq d k k' v : k <> k' -> dget (dict_append eqb d k v) k' = dget d k'.
  Proof.
    intro H. induction d as [|[k0 vs] t IH]; simpl.
    - now rewrite eqb_neq'.
    - destruct (eqb k0 k) eqn:E; simpl.
      + apply eqb_eq in E. subst k0. now rewrite (eqb_neq' k k').
      + destruct (eqb k0 k'); auto.
  Qed.

  Lemma keys_append (d : list (K * list V)) k v x : In x (map fst (dict_append eqb d k v)) <-> x = k \/ In x (map fst d).
  Proof.
    induction d as [|[k0 vs] t IH]; simpl.
    - intuition.
    - destruct (eqb k0 k) eqn:E; simpl.
      + apply eqb_eq in E. intuition congruence.
      + rewrite IH. tauto.
  Qed.

  Lemma nodup_append (d : list (K * list V)) k v : NoDup (map fst d) -> NoDup (map fst (dict_append eqb d k v)).
  Proof.
    induction d as [|[k0 vs] t IH]; simpl; intro H.
    - repeat constructor; simpl; tauto.
    - inversion H; subst. destruct (eqb k0 k) eqn:E; simpl; auto.
      constructor; auto. rewrite keys_append. intros [->|Hin]; auto.
      now rewrite eqb_refl' in E.
  Qed.

  Lemma dget_in d k vs : NoDup (map fst d) -> In (k, vs) d -> dget d k = vs.
  Proof.
    induction d as [|[k0 vs0] t IH]; simpl; intros H Hin; [tauto|].
    inversion H; subst. destruct Hin as [E|Hin].
    - inversion E; subst. now rewrite eqb_refl'.
    - rewrite eqb_neq'; auto. intro; subst. apply H2. apply in_map_iff; eexists; split; [|exact Hin]; reflexivity.
  Qed.

  Lemma in_dget d k : In k (map fst d) -> In (k, dget d k) d.
  Proof.
    induction d as [|[k0 vs] t IH]; simpl; [tauto|].
    intros [->|H].
    - rewrite eqb_refl'. auto.
    - destruct (eqb k0 k) eqn:E; auto. apply eqb_eq in E. subst; auto.
  Qed.

  Lemma dget_nokey d k : ~ In k (map fst d) -> dget d k = [].
  Proof.
    induction d as [|[k0 vs] t IH]; simpl; auto. intro H.
    rewrite eqb_neq'; auto.
  Qed.

  Lemma nonempty_append (d : list (K * list V)) k v :
    (forall k vs, In (k, vs) d -> vs <> []) ->
    forall k' vs, In (k', vs) (dict_append eqb d k v) -> vs <> [].
  Proof.
    intros H. induction d as [|[k0 vs0] t IH]; simpl.
    - intros k' vs [E|[]]. inversion E. discriminate.
    - destruct (eqb k0 k); simpl; intros k' vs [E|Hin].
      + inversion E. destruct vs0; discriminate.
      + eapply H. right; eauto.
      + inversion E; subst. eapply H. left; eauto.
      + eapply IH; eauto. intros; eapply H; right; eauto.
  Qed.
End Dict.

Definition dict_ok {K V} (d : list (K * list V)) : Prop :=
  NoDup (map fst d) /\ forall k vs, In (k, vs) d -> vs <> [].

Notation zget := (dget Z.eqb).
Notation nget := (dget Nat.eqb).

Lemma dict_ok_append {K V} (eqb : K -> K -> bool) (H : forall a b, eqb a b = true <-> a = b)
  (d : list (K * list V)) k v : dict_ok d -> dict_ok (dict_append eqb d k v).
Proof.
  intros [A B]. split.
  - now apply nodup_append.
  - apply nonempty_append; auto.
Qed.

Lemma row_spec (i : nat) (t : list Z) : forall d,
  dict_ok d ->
  dict_ok (fold_left (fun d num => dict_append Z.eqb d num i) t d) /\
  forall k j, In j (zget (fold_left (fun d num => dict_append Z.eqb d num i) t d) k) <->
    In j (zget d k) \/ (j = i /\ In k t).
Proof.
  induction t as [|a t IH]; intros d Hd; simpl.
  - split; auto. intros; tauto.
  - destruct (IH (dict_append Z.eqb d a i)) as [A B].
    { apply dict_ok_append; auto. apply Z.eqb_eq. }
    split; auto. intros k j. rewrite B.
    destruct (Z.eq_dec a k) as [->|Hne].
    + rewrite dget_append_eq by apply Z.eqb_eq. rewrite in_app_iff. simpl. intuition.
    + rewrite dget_append_neq; auto using Z.eqb_eq. intuition.
Qed.

Lemma build_spec ts : forall (i : nat) d, dict_ok d ->
  dict_ok (build_digits i ts d) /\
  forall k j, In j (zget (build_digits i ts d) k) <->
    In j (zget d k) \/ exists m, j = i + m /\ m < length ts /\ In k (nth m ts []).
Proof.
  induction ts as [|t ts IH]; intros i d Hd; simpl.
  - split; auto. intros k j. split; auto. intros [H|(m & _ & H & _)]; auto. lia.
  - destruct (row_spec i t d Hd) as [A B].
    destruct (IH (S i) _ A) as [C D]. split; auto.
    intros k j. rewrite D, B. split.
    + intros [[H|[-> H]]|(m & -> & Hm & H)]; auto.
      * right. exists 0. split; [lia|split; [simpl; lia|auto]].
      * right. exists (S m). split; [lia|split; [simpl; lia|auto]].
    + intros [H|([|m] & -> & Hm & H)]; [auto| |].
      * left; right. split; [lia|auto].
      * right. exists m. split; [lia|split; [simpl; lia|auto]].
Qed.

(* the calls made by step 2, as a history *)
Fixpoint digit_ops (d : list (Z * list nat)) : list uf_op :=
  match d with
  | [] => []
  | (_, []) :: t => digit_ops t
  | (_, first :: others) :: t => map (OpUnion first) others ++ digit_ops t
  end.

Lemma run_app u a b : uf_run u (a ++ b) = bind (uf_run u a) (fun u' => uf_run u' b).
Proof.
  revert u; induction a as [|o a IH]; intro u; simpl; auto.
  destruct (uf_step u o); simpl; auto.
Qed.

Lemma union_all_run u first others : union_all u first others = uf_run u (map (OpUnion first) others).
Proof.
  revert u; induction others as [|o t IH]; intro u; simpl; auto.
  destruct (uf_union u first o); simpl; auto.
Qed.

Lemma union_digits_run d : forall u, (forall k vs, In (k, vs) d -> vs <> []) ->
  union_digits u d = uf_run u (digit_ops d).
Proof.
  induction d as [|[k vs] t IH]; intros u H; simpl; auto.
  destruct vs as [|f o].
  - exfalso. eapply H; [left; reflexivity|reflexivity].
  - rewrite run_app, <- union_all_run. destruct (union_all u f o); simpl; auto.
    apply IH. intros; eapply H; right; eauto.
Qed.

Lemma pairs_app a b : pairs (a ++ b) = pairs a ++ pairs b.
Proof. induction a as [|[x y|x] a IH]; simpl; auto. now rewrite IH. Qed.

Lemma pairs_map f o a b : In (a, b) (pairs (map (OpUnion f) o)) <-> a = f /\ In b o.
Proof.
  induction o as [|x o IH]; simpl; [tauto|]. rewrite IH. intuition congruence.
Qed.

Lemma digit_pairs d a b : In (a, b) (pairs (digit_ops d)) <->
  exists k others, In (k, a :: others) d /\ In b others.
Proof.
  induction d as [|[k vs] t IH]; simpl.
  - split; [tauto|]. intros (k & o & [] & _).
  - destruct vs as [|f o].
    + rewrite IH. split; intros (k' & o' & H & Hb); exists k', o'; auto.
      split; auto. destruct H as [H|H]; auto. inversion H.
    + rewrite pairs_app, in_app_iff, pairs_map, IH. split.
      * intros [[-> H]|(k' & o' & H & Hb)]; eauto 6.
      * intros (k' & o' & [H|H] & Hb); [left|right; eauto]. inversion H; subst; auto.
Qed.

Lemma digit_ops_union d o : In o (digit_ops d) ->
  exists a b, o = OpUnion a b /\ In (a, b) (pairs (digit_ops d)).
Proof.
  induction d as [|[k vs] t IH]; simpl; [tauto|].
  destruct vs as [|f os]; auto. rewrite pairs_app, in_app_iff. intros [H|H].
  - apply in_map_iff in H. destruct H as (b & <- & H). exists f, b. split; auto.
    apply in_app_iff. left. apply pairs_map. auto.
  - destruct (IH H) as (a & b & -> & H'). exists a, b. split; auto. apply in_app_iff. auto.
Qed.

(* step 3 on indices *)
Fixpoint gatherI (u : uf) (i n : nat) (g : list (nat * list nat)) : res (list (nat * list nat)) :=
  match n with
  | 0 => Ok g
  | S n' =>
      do (u', root) <- uf_find u i;
      gatherI u' (S i) n' (dict_append Nat.eqb g root i)
  end.

Definition on_idx (ts : list (list Z)) (p : nat * list nat) : nat * list (list Z) :=
  (fst p, map (fun i => nth i ts []) (snd p)).

Lemma dict_append_map ts g r i :
  dict_append Nat.eqb (map (on_idx ts) g) r (nth i ts []) = map (on_idx ts) (dict_append Nat.eqb g r i).
Proof.
  induction g as [|[k vs] t IH]; simpl; auto.
  destruct (k =? r); simpl.
  - f_equal. unfold on_idx; simpl. now rewrite map_app.
  - now rewrite IH.
Qed.

Lemma gather_gatherI all ts : forall u i g,
  (forall m, m < length ts -> nth (i + m) all [] = nth m ts []) ->
  gather u i ts (map (on_idx all) g) =
  bind (gatherI u i (length ts) g) (fun g' => Ok (map (on_idx all) g')).
Proof.
  induction ts as [|t ts IH]; intros u i g H; simpl; auto.
  destruct (uf_find u i) as [[u' root]|e]; simpl; auto.
  assert (E : t = nth i all []). { specialize (H 0). rewrite Nat.add_0_r in H. simpl in H. symmetry; apply H; lia. }
  rewrite E at 1. rewrite dict_append_map. apply IH.
  intros m Hm. specialize (H (S m)). simpl in H. rewrite <- H by lia. f_equal. lia.
Qed.

Lemma gatherI_spec u0 n : forall u i g,
  wf u -> same_roots u0 u -> i + n <= usize u -> dict_ok g ->
  exists g', gatherI u i n g = Ok g' /\ dict_ok g' /\
    forall r, exists l, nget g' r = nget g r ++ l /\ StronglySorted lt l /\
       forall j, In j l <-> i <= j < i + n /\ rooted u0 j r.
Proof.
  induction n as [|n IH]; intros u i g W S Hi Hg.
  - exists g. split; [reflexivity|]. split; auto. intro r. exists [].
    rewrite app_nil_r. split; auto. split; [constructor|]. simpl. intro j. split; [tauto|lia].
  - simpl. destruct (uf_find_spec u i W) as (u' & root & E & W' & S' & R); [lia|]. rewrite E. cbn [bind].
    assert (S'' : same_roots u0 u') by (eapply same_trans; eauto).
    destruct (IH u' (Datatypes.S i) (dict_append Nat.eqb g root i) W' S'') as (g' & E' & Hg' & Hr).
    { destruct S' as (S' & _). lia. }
    { apply dict_ok_append; auto. apply Nat.eqb_eq. }
    exists g'. split; auto. split; auto. intro r. destruct (Hr r) as (l & Hl & Sl & Ml).
    assert (R0 : rooted u0 i root) by (apply S; auto).
    destruct (Nat.eq_dec root r) as [->|Hne].
    + exists (i :: l). rewrite dget_append_eq in Hl by apply Nat.eqb_eq.
      rewrite <- app_assoc in Hl. simpl in Hl. split; auto. split.
      * constructor; auto. apply Forall_forall. intros j Hj. apply Ml in Hj. lia.
      * intro j. simpl. rewrite Ml. split.
        -- intros [<-|[H1 H2]]; split; auto; lia.
        -- intros [H1 H2]. destruct (Nat.eq_dec i j); auto. right. split; auto; lia.
    + exists l. rewrite dget_append_neq in Hl; auto using Nat.eqb_eq. split; auto. split; auto.
      intro j. rewrite Ml. split; intros [H1 H2]; split; auto; try lia.
      destruct (Nat.eq_dec i j); try lia. subst. exfalso. apply Hne. eapply rooted_fun; eauto.
Qed.

Lemma NoDup_app_intro {A} (a b : list A) :
  NoDup a -> NoDup b -> (forall x, In x a -> ~ In x b) -> NoDup (a ++ b).
Proof.
  induction a as [|h t IH]; simpl; intros Ha Hb Hd; auto.
  inversion Ha; subst. constructor.
  - rewrite in_app_iff. intros [H|H]; auto. eapply Hd; eauto.
  - apply IH; auto.
Qed.

Lemma SSorted_NoDup l : StronglySorted lt l -> NoDup l.
Proof.
  induction 1 as [|a l Hs IH Hf]; constructor; auto.
  intro H. rewrite Forall_forall in Hf. specialize (Hf _ H). lia.
Qed.

Lemma group_tuples_spec ts :
  exists idx : list (list nat),
    group_tuples ts = Ok (map (map (fun i => nth i ts [])) idx) /\
    Permutation (concat idx) (seq 0 (length ts)) /\
    (forall g, In g idx -> g <> [] /\ StronglySorted lt g) /\
    (forall i j, i < length ts -> j < length ts ->
       ((exists g, In g idx /\ In i g /\ In j g) <-> clos_refl_sym_trans nat (share ts) i j)).
Proof.
  unfold group_tuples. set (n := length ts).
  assert (D0 : dict_ok (@nil (Z * list nat))) by (split; [constructor|simpl; tauto]).
  destruct (build_spec ts 0 [] D0) as [[ND NE] HB].
  set (d := build_digits 0 ts []) in *.
  assert (HB' : forall k j, In j (zget d k) <-> j < n /\ In k (nth j ts [])).
  { intros k j. rewrite HB. simpl. split.
    - intros [[]|(m & -> & Hm & H)]; auto.
    - intros [H1 H2]; right; exists j; auto. }
  rewrite union_digits_run by auto.
  assert (Hn : usize (uf_init n) = n) by (unfold usize; simpl; apply seq_length).
  assert (Hpair : forall a b, In (a, b) (pairs (digit_ops d)) -> share ts a b).
  { intros a b H. apply digit_pairs in H. destruct H as (k & o & H & Hb).
    apply (dget_in Z.eqb Z.eqb_eq) in H; auto.
    assert (A : In a (zget d k)) by (rewrite H; left; auto).
    assert (B : In b (zget d k)) by (rewrite H; right; auto).
    apply HB' in A. apply HB' in B. split; [apply A|]. split; [apply B|]. exists k. tauto. }
  destruct (run_spec (digit_ops d) (uf_init n) (wf_init n)) as (u & E & W & Hs & Hc).
  { rewrite Hn. apply Forall_forall. intros o Ho.
    apply digit_ops_union in Ho. destruct Ho as (a & b & -> & H).
    apply Hpair in H. destruct H as (A & B & _). simpl. auto. }
  rewrite Hn in *. rewrite E. cbn [bind].
  change (@nil (nat * list (list Z))) with (map (on_idx ts) []).
  rewrite (gather_gatherI ts ts) by auto.
  destruct (gatherI_spec u n u 0 [] W (same_refl u)) as (g & Eg & [NDg NEg] & Hg); [lia| |].
  { split; [constructor|simpl; tauto]. }
  fold n. rewrite Eg. cbn [bind]. exists (map snd g).
  assert (Hmem : forall r vs, In (r, vs) g -> StronglySorted lt vs /\ forall j, In j vs <-> j < n /\ rooted u j r).
  { intros r vs H. apply (dget_in Nat.eqb Nat.eqb_eq) in H; auto. destruct (Hg r) as (l & Hl & A & B).
    simpl in Hl. rewrite <- H, Hl. split; auto. intro j. rewrite B. split; intros [? ?]; split; auto; lia. }
  assert (Hroot : forall j, j < n -> exists r vs, In (r, vs) g /\ In j vs).
  { intros j Hj. destruct (uf_find_spec u j W) as (u' & r & _ & _ & _ & R); [lia|].
    exists r, (nget g r). destruct (Hg r) as (l & Hl & A & B). simpl in Hl.
    assert (Hin : In j (nget g r)). { rewrite Hl. apply B. split; auto. lia. }
    split; auto. apply in_dget; [apply Nat.eqb_eq|].
    destruct (in_dec Nat.eq_dec r (map fst g)) as [H|H]; auto.
    rewrite (dget_nokey Nat.eqb Nat.eqb_eq) in Hin; auto. destruct Hin. }
  assert (Hclos : forall i j, i < n -> j < n ->
     (connected u i j <-> clos_refl_sym_trans nat (share ts) i j)).
  { intros i j Hi Hj. rewrite Hc. split.
    - intros (_ & _ & H). clear Hi Hj. induction H as [a b [H|H]|a|a b H IH|a b c H1 IH1 H2 IH2].
      + apply connected_init in H. destruct H as [-> _]. apply rst_refl.
      + apply rst_step. auto.
      + apply rst_refl.
      + now apply rst_sym.
      + eapply rst_trans; eauto.
    - intro H. split; auto. split; auto. clear Hi Hj.
      induction H as [a b H|a|a b H IH|a b c H1 IH1 H2 IH2].
      + destruct H as (Ha & Hb & k & Ka & Kb).
        assert (A : In a (zget d k)) by (apply HB'; auto).
        assert (B : In b (zget d k)) by (apply HB'; auto).
        assert (I : In (k, zget d k) d).
        { apply in_dget; [apply Z.eqb_eq|]. destruct (in_dec Z.eq_dec k (map fst d)) as [Q|Q]; auto.
          rewrite (dget_nokey Z.eqb Z.eqb_eq) in A; auto. destruct A. }
        destruct (zget d k) as [|f o] eqn:Ek; [destruct A|].
        assert (Hf : forall x, In x (f :: o) ->
           clos_refl_sym_trans nat (fun a b => connected (uf_init n) a b \/ In (a, b) (pairs (digit_ops d))) f x).
        { intros x [->|Hx]; [apply rst_refl|]. apply rst_step. right. apply digit_pairs. eauto. }
        eapply rst_trans; [apply rst_sym|]; apply Hf; auto.
      + apply rst_refl.
      + now apply rst_sym.
      + eapply rst_trans; eauto. }
  split; [|split; [|split]].
  - f_equal. rewrite map_map. rewrite map_map. reflexivity.
  - apply NoDup_Permutation.
    + clear - NDg Hmem. induction g as [|[r vs] t IH]; simpl; [constructor|].
      inversion NDg; subst. apply NoDup_app_intro.
      * apply SSorted_NoDup. apply (Hmem r vs). left; auto.
      * apply IH; auto. intros; apply Hmem; right; auto.
      * intros x Hx H. apply in_concat in H. destruct H as (vs' & H & Hx').
        apply in_map_iff in H. destruct H as ([r' vs0] & Heq & Hin). simpl in Heq. subst vs0.
        apply (Hmem r vs) in Hx; [|left; auto]. apply (Hmem r' vs') in Hx'; [|right; auto].
        assert (r = r') by (eapply rooted_fun; [apply Hx|apply Hx']). subst r'.
        apply H1. apply in_map_iff; eexists; split; [|exact Hin]; reflexivity.
    + apply seq_NoDup.
    + intro x. rewrite in_concat, in_seq. split.
      * intros (vs & H & Hx). apply in_map_iff in H. destruct H as ([r vs0] & Heq & Hin). simpl in Heq; subst.
        apply (Hmem r vs) in Hx; auto. lia.
      * intros [_ Hx]. destruct (Hroot x) as (r & vs & A & B); auto. exists vs. split; auto.
        apply in_map_iff; exists (r, vs); auto.
  - intros vs H. apply in_map_iff in H. destruct H as ([r vs0] & Heq & Hin). simpl in Heq; subst.
    split; [eapply NEg; eauto|]. apply (Hmem r vs); auto.
  - intros i j Hi Hj. rewrite <- Hclos by auto. split.
    + intros (vs & H & A & B). apply in_map_iff in H. destruct H as ([r vs0] & Heq & Hin). simpl in Heq; subst.
      exists r. split; [apply (Hmem r vs) in A|apply (Hmem r vs) in B]; tauto.
    + intros (r & A & B). destruct (Hroot i Hi) as (r' & vs & Hin & Hi').
      assert (r' = r). { apply (Hmem r' vs) in Hi'; auto. eapply rooted_fun; [apply Hi'|apply A]. }
      subst r'. exists vs. split; [now apply (in_map snd) in Hin|]. split; auto.
      apply (Hmem r vs); auto.
Qed.
