(* k-d tree: deletion, depth of reachable trees, k nearest neighbours. *)
From Coq Require Import List ZArith Bool QArith Qcanon Permutation Sorted Lia Arith.
From Verif Require Import Common ListLib QcLib KdModel KdSpec KdProofs.
Import ListNotations.
Local Open Scope nat_scope.

Lemma find_min_in a : forall t, t <> Empty -> exists m, find_min t a = Some m /\ In m (collect t).
Proof.
  induction t as [|p b l IHl r IHr s]; intro N; [congruence|]. cbn [find_min collect].
  destruct (b =? a).
  - destruct l as [|pl bl ll lr ls] eqn:El. { exists p. split; auto. left; auto. }
    rewrite <- El in *. destruct IHl as [m [E H]]; [rewrite El; discriminate|].
    rewrite El in *. exists m. split; auto. right. apply in_or_app; auto.
  - assert (G : forall x t, In x (p :: collect l ++ collect r) -> (forall y, find_min t a = Some y -> In y (p :: collect l ++ collect r)) ->
      In (min_key a x (find_min t a)) (p :: collect l ++ collect r)).
    { intros x t Hx Hy. unfold min_key. destruct (find_min t a) as [y|]; auto. destruct (qlt _ _); auto. }
    eexists. split; [reflexivity|]. apply G; [apply G|].
    + left; auto.
    + intros y Hy. destruct l as [|pl bl ll lr ls] eqn:El; [discriminate|]. rewrite <- El in *.
      destruct IHl as [m [E H]]; [rewrite El; discriminate|]. rewrite E in Hy. inversion Hy; subst y.
      right. apply in_or_app; auto.
    + intros y Hy. destruct r as [|pr br rl rr rs] eqn:Er; [discriminate|]. rewrite <- Er in *.
      destruct IHr as [m [E H]]; [rewrite Er; discriminate|]. rewrite E in Hy. inversion Hy; subst y.
      right. apply in_or_app; auto.
Qed.

(* the minimum really is one, on a correctly split tree *)
Lemma find_min_least a k : forall t d m, split_ok k d t -> find_min t a = Some m ->
  forall q, In q (collect t) -> (coord m a <= coord q a)%Qc.
Proof.
  induction t as [|p b l IHl r IHr s]; intros d m S E q Hq; [discriminate|].
  cbn [split_ok] in S. destruct S as [Hb [_ [Hl [Hr [Sl Sr]]]]]. cbn [find_min] in E. cbn [collect] in Hq.
  destruct (b =? a) eqn:Eb.
  - apply Nat.eqb_eq in Eb. subst a.
    destruct l as [|pl bl ll lr ls] eqn:El.
    + inversion E; subst m. destruct Hq as [<-|Hq]; [apply Qcle_refl|]. apply Hr; auto.
    + rewrite <- El in *. assert (Em : find_min l b = Some m) by (rewrite El in *; auto).
      destruct (find_min_in b l) as [m' [E' I']]; [rewrite El; discriminate|]. rewrite Em in E'. inversion E'; subst m'.
      destruct Hq as [<-|Hq]; auto. apply in_app_or in Hq. destruct Hq as [Hq|Hq]; [eapply IHl; eauto|].
      eapply Qcle_trans; [apply Hl; auto|apply Hr; auto].
  - inversion E as [E']. clear E.
    assert (G : forall x o, (coord (min_key a x o) a <= coord x a)%Qc /\ forall y, o = Some y -> (coord (min_key a x o) a <= coord y a)%Qc).
    { intros x o. unfold min_key. destruct o as [y|]; [|split; [apply Qcle_refl|discriminate]].
      destruct (qlt (coord y a) (coord x a)) eqn:Q; [apply qlt_true in Q|apply qlt_false in Q]; split; try apply Qcle_refl; auto.
      - apply Qclt_le_weak; auto.
      - intros z Hz. inversion Hz. subst. apply Qcle_refl.
      - intros z Hz. inversion Hz. subst. auto. }
    destruct (G p (find_min l a)) as [G1 G2]. destruct (G (min_key a p (find_min l a)) (find_min r a)) as [G3 G4].
    destruct Hq as [<-|Hq]. { eapply Qcle_trans; eauto. }
    apply in_app_or in Hq. destruct Hq as [Hq|Hq].
    + destruct (find_min_in a l) as [y [Ey Iy]]. { intro X. rewrite X in Hq. destruct Hq. }
      eapply Qcle_trans; [exact G3|]. eapply Qcle_trans; [apply (G2 y); auto|]. eapply IHl; eauto.
    + destruct (find_min_in a r) as [y [Ey Iy]]. { intro X. rewrite X in Hq. destruct Hq. }
      eapply Qcle_trans; [apply (G4 y); auto|]. eapply IHr; eauto.
Qed.

Lemma point_eqb_eq p q : point_eqb p q = true <-> p = q.
Proof. unfold point_eqb. destruct (list_eq_dec Qc_eq_dec p q); split; intro; auto; try discriminate; contradiction. Qed.

(* deleting something that is not there *)
Lemma delete_absent k q : forall t d, ~ In q (collect t) -> dims k (collect t) -> split_ok k d t ->
  Permutation (collect (delete_rec t q d)) (collect t) /\ split_ok k d (delete_rec t q d).
Proof.
  induction t as [|p a l IHl r IHr s]; intros d N D S; cbn [delete_rec]; auto.
  cbn [collect] in D, N. apply dims_cons in D. destruct D as [Dp D]. apply dims_app in D. destruct D as [Dl Dr].
  cbn [split_ok] in S. destruct S as [Ha [_ [Hl [Hr [Sl Sr]]]]].
  destruct (point_eqb p q) eqn:E. { apply point_eqb_eq in E. subst. exfalso. apply N. left; auto. }
  assert (Nl : ~ In q (collect l)) by (intro; apply N; right; apply in_or_app; auto).
  assert (Nr : ~ In q (collect r)) by (intro; apply N; right; apply in_or_app; auto).
  destruct (IHl (d + 1) Nl Dl Sl) as [Pl S1]. destruct (IHr (d + 1) Nr Dr Sr) as [Pr S2].
  destruct (qle (coord q a) (coord p a)).
  - assert (D' : dims k (p :: collect (delete_rec l q (d + 1)) ++ collect r)).
    { apply dims_cons. split; auto. apply dims_app. split; auto. apply (dims_perm _ _ _ (Permutation_sym Pl)); auto. }
    split.
    + rewrite (settle_collect k) by auto. cbn [collect]. now rewrite Pl.
    + apply settle_split; auto. intros x Hx. apply Hl. eapply Permutation_in; eauto.
  - assert (D' : dims k (p :: collect l ++ collect (delete_rec r q (d + 1)))).
    { apply dims_cons. split; auto. apply dims_app. split; auto. apply (dims_perm _ _ _ (Permutation_sym Pr)); auto. }
    split.
    + rewrite (settle_collect k) by auto. cbn [collect]. now rewrite Pr.
    + apply settle_split; auto. intros x Hx. apply Hr. eapply Permutation_in; eauto.
Qed.

Lemma distinct_sub k l l' : (forall x, In x l -> In x l') -> NoDup l -> distinct_coords k l' -> distinct_coords k l.
Proof. intros H N [_ D]. split; auto. intros p q a Hp Hq. apply D; auto. Qed.

Lemma nodup_app_l {A} (l r : list A) : NoDup (l ++ r) -> NoDup l.
Proof. induction l; cbn [app]; intro H; constructor; inversion H; subst; auto. intro X. apply H2. apply in_or_app; auto. Qed.
Lemma nodup_app_r {A} (l r : list A) : NoDup (l ++ r) -> NoDup r.
Proof. induction l; cbn [app]; intro H; auto. inversion H; auto. Qed.

(* distinct coordinates: exactly the given point goes *)
Lemma delete_present k : 0 < k -> forall t d q, In q (collect t) -> dims k (collect t) -> split_ok k d t ->
  distinct_coords k (collect t) -> Permutation (q :: collect (delete_rec t q d)) (collect t).
Proof.
  intros Hk. induction t as [|p a l IHl r IHr s]; intros d q I D S DC; [destruct I|].
  pose proof DC as [ND DI]. cbn [collect] in ND. apply NoDup_cons_iff in ND. destruct ND as [Np ND].
  assert (NDl : NoDup (collect l)) by (eapply nodup_app_l; eauto).
  assert (NDr : NoDup (collect r)) by (eapply nodup_app_r; eauto).
  assert (DCl : distinct_coords k (collect l)).
  { eapply distinct_sub; [|auto|apply DC]. intros; right; apply in_or_app; auto. }
  assert (DCr : distinct_coords k (collect r)).
  { eapply distinct_sub; [|auto|apply DC]. intros; right; apply in_or_app; auto. }
  cbn [collect] in D, I. apply dims_cons in D. destruct D as [Dp D]. apply dims_app in D. destruct D as [Dl Dr].
  cbn [split_ok] in S. destruct S as [Ha [_ [Hl [Hr [Sl Sr]]]]].
  assert (Hak : a < k) by (rewrite Ha; apply Nat.mod_upper_bound; lia).
  cbn [delete_rec collect]. destruct (point_eqb p q) eqn:E.
  - apply point_eqb_eq in E. subst q.
    destruct r as [|pr ar rl rr rs] eqn:Er.
    + destruct l as [|pl al ll lr ls] eqn:El; [reflexivity|]. rewrite <- El in *.
      destruct (find_min_in a l) as [m [Em Im]]. { rewrite El; discriminate. } rewrite Em.
      pose proof (IHl (d + 1) m Im Dl Sl DCl) as PL.
      rewrite (settle_collect k).
      2:{ cbn [collect]. rewrite app_nil_r. apply (dims_perm _ _ _ (Permutation_sym PL)). auto. }
      cbn [collect]. rewrite !app_nil_r. now rewrite PL.
    + rewrite <- Er in *. destruct (find_min_in a r) as [m [Em Im]]. { rewrite Er; discriminate. } rewrite Em.
      pose proof (IHr (d + 1) m Im Dr Sr DCr) as PR.
      assert (PM : Permutation (m :: collect l ++ collect (delete_rec r m (d + 1))) (collect l ++ collect r)).
      { rewrite Permutation_middle. now rewrite PR. }
      rewrite (settle_collect k). { now rewrite PM. }
      apply (dims_perm _ _ _ (Permutation_sym PM)). apply dims_app; auto.
  - destruct I as [<-|I]. { rewrite (proj2 (point_eqb_eq p p) eq_refl) in E. discriminate. }
    apply in_app_or in I.
    destruct (qle (coord q a) (coord p a)) eqn:Q.
    + apply qle_true in Q. assert (Il : In q (collect l)).
      { destruct I as [I|I]; auto. exfalso. pose proof (Hr q I) as X.
        assert (Eq : coord q a = coord p a) by (apply Qcle_antisym; auto).
        assert (q = p). { apply (DI q p a); auto. right; apply in_or_app; auto. left; auto. }
        subst. rewrite (proj2 (point_eqb_eq p p) eq_refl) in E. discriminate. }
      pose proof (IHl (d + 1) q Il Dl Sl DCl) as PL.
      assert (PM : Permutation (q :: p :: collect (delete_rec l q (d + 1)) ++ collect r) (p :: collect l ++ collect r)).
      { rewrite perm_swap. constructor. rewrite <- PL. reflexivity. }
      rewrite (settle_collect k). { auto. }
      eapply (proj1 (dims_cons k q _)). apply (dims_perm _ _ _ (Permutation_sym PM)). apply dims_cons. split; auto. apply dims_app; auto.
    + apply qle_false in Q. assert (Ir : In q (collect r)).
      { destruct I as [I|I]; auto. exfalso. pose proof (Hl q I). qlra. }
      pose proof (IHr (d + 1) q Ir Dr Sr DCr) as PR.
      assert (PM : Permutation (q :: p :: collect l ++ collect (delete_rec r q (d + 1))) (p :: collect l ++ collect r)).
      { rewrite perm_swap. constructor. rewrite <- PR. apply Permutation_middle. }
      rewrite (settle_collect k). { auto. }
      eapply (proj1 (dims_cons k q _)). apply (dims_perm _ _ _ (Permutation_sym PM)). apply dims_cons. split; auto. apply dims_app; auto.
Qed.

Lemma kd_delete_distinct k t q : 0 < k -> length q = k -> dims k (collect t) -> split_ok k 0 t ->
  distinct_coords k (collect t) ->
  exists t', kd_delete t q = Ok t' /\
    (In q (collect t) -> Permutation (q :: collect t') (collect t)) /\
    (~ In q (collect t) -> Permutation (collect t') (collect t)).
Proof.
  intros Hk Lq D S DC. unfold kd_delete. destruct t as [|p a l r s] eqn:E.
  - exists Empty. split; auto. split; auto. intros [].
  - rewrite <- E in *. assert (Lp : length p = k) by (apply D; rewrite E; left; auto). rewrite Lq, Lp, Nat.eqb_refl.
    eexists. split; [reflexivity|]. split; intro H.
    + apply (delete_present k); auto.
    + apply (delete_absent k q); auto.
Qed.

Lemma kd_delete_absent k t q : length q = k -> dims k (collect t) -> split_ok k 0 t -> ~ In q (collect t) ->
  exists t', kd_delete t q = Ok t' /\ Permutation (collect t') (collect t) /\ split_ok k 0 t'.
Proof.
  intros Lq D S N. unfold kd_delete. destruct t as [|p a l r s] eqn:E.
  - exists Empty. auto.
  - rewrite <- E in *. assert (Lp : length p = k) by (apply D; rewrite E; left; auto). rewrite Lq, Lp, Nat.eqb_refl.
    eexists. split; [reflexivity|]. apply (delete_absent k q); auto.
Qed.

(* ---- depth ---------------------------------------------------------- *)

Lemma insert_wb k q : length q = k -> forall t d, dims k (collect t) -> sized t -> wb t ->
  wb (insert_rec t q d) /\ sized (insert_rec t q d) /\ Permutation (collect (insert_rec t q d)) (q :: collect t).
Proof.
  intros Lq. induction t as [|p a l IHl r IHr s]; intros d D Z W; cbn [insert_rec].
  - cbn. repeat split; auto; lia.
  - cbn [collect] in D. apply dims_cons in D. destruct D as [Dp D]. apply dims_app in D. destruct D as [Dl Dr].
    cbn [sized] in Z. destruct Z as [_ [Zl Zr]]. cbn [wb] in W. destruct W as [_ [_ [Wl Wr]]].
    destruct (qle (coord q a) (coord p a)).
    + destruct (IHl (d + 1) Dl Zl Wl) as [A [B P1]].
      assert (D' : dims k (p :: collect (insert_rec l q (d + 1)) ++ collect r)).
      { apply dims_cons. split; auto. apply dims_app. split; auto.
        apply (dims_perm _ _ _ (Permutation_sym P1)). apply dims_cons; auto. }
      destruct (settle_wb k p a _ r d D' B Zr A Wr) as [X Y]. split; auto. split; auto.
      rewrite (settle_collect k) by auto. cbn [collect]. rewrite P1. cbn [app]. apply perm_swap.
    + destruct (IHr (d + 1) Dr Zr Wr) as [A [B P1]].
      assert (D' : dims k (p :: collect l ++ collect (insert_rec r q (d + 1)))).
      { apply dims_cons. split; auto. apply dims_app. split; auto.
        apply (dims_perm _ _ _ (Permutation_sym P1)). apply dims_cons; auto. }
      destruct (settle_wb k p a l _ d D' Zl B Wl A) as [X Y]. split; auto. split; auto.
      rewrite (settle_collect k) by auto. cbn [collect]. rewrite P1. rewrite <- Permutation_middle. apply perm_swap.
Qed.

Lemma delete_wb k : forall t d q, dims k (collect t) -> sized t -> wb t ->
  wb (delete_rec t q d) /\ sized (delete_rec t q d) /\ dims k (collect (delete_rec t q d)).
Proof.
  assert (ST : forall p a l r d, length p = k -> dims k (collect l) -> dims k (collect r) ->
     wb l -> wb r -> sized l -> sized r ->
     wb (settle p a l r d) /\ sized (settle p a l r d) /\ dims k (collect (settle p a l r d))).
  { intros p a l r d Lp Dl Dr Wl Wr Zl Zr.
    assert (D' : dims k (p :: collect l ++ collect r)).
    { apply dims_cons. split; auto. apply dims_app. auto. }
    destruct (settle_wb k p a l r d D' Zl Zr Wl Wr). split; auto. split; auto.
    apply (dims_perm _ _ _ (Permutation_sym (settle_collect k p a l r d D'))). auto. }
  induction t as [|p a l IHl r IHr s]; intros d q D Z W; cbn [delete_rec]; auto.
  pose proof (conj W (conj Z D)) as Same.
  cbn [collect] in D. apply dims_cons in D. destruct D as [Dp D]. apply dims_app in D. destruct D as [Dl Dr].
  cbn [sized] in Z. destruct Z as [_ [Zl Zr]]. cbn [wb] in W. destruct W as [_ [_ [Wl Wr]]].
  destruct (point_eqb p q).
  - destruct r as [|pr ar rl rr rs] eqn:Er.
    + destruct l as [|pl al ll lr ls] eqn:El. { cbn. repeat split; auto; try (intros ? []). }
      rewrite <- El in *. destruct (find_min_in a l) as [m [Em Im]]. { rewrite El; discriminate. } rewrite Em.
      destruct (IHl (d + 1) m Dl Zl Wl) as [A [B C]]. apply ST; auto.
    + rewrite <- Er in *. destruct (find_min_in a r) as [m [Em Im]]. { rewrite Er; discriminate. } rewrite Em.
      destruct (IHr (d + 1) m Dr Zr Wr) as [A [B C]]. apply ST; auto.
  - destruct (qle (coord q a) (coord p a)).
    + destruct (IHl (d + 1) q Dl Zl Wl) as [A [B C]]. apply ST; auto.
    + destruct (IHr (d + 1) q Dr Zr Wr) as [A [B C]]. apply ST; auto.
Qed.

Definition op_dim (k : nat) (o : kop) : Prop :=
  match o with OpInsert p => length p = k | OpDelete p => length p = k end.

Lemma run_wb k : forall os t, Forall (op_dim k) os -> dims k (collect t) -> sized t -> wb t ->
  exists t', kd_run t os = Ok t' /\ dims k (collect t') /\ sized t' /\ wb t'.
Proof.
  induction os as [|o os IH]; intros t F D Z W; cbn [kd_run]; [eauto|].
  inversion F as [|? ? F1 F2]; subst.
  assert (Step : exists t1, kd_step t o = Ok t1 /\ dims k (collect t1) /\ sized t1 /\ wb t1).
  { destruct o as [q|q]; cbn [op_dim kd_step] in *; unfold kd_insert, kd_delete; destruct t as [|p a l r s] eqn:E.
    - eexists. split; [reflexivity|]. cbn. repeat split; auto; try lia. intros x [<-|[]]; auto.
    - rewrite <- E in *. assert (Lp : length p = k) by (apply D; rewrite E; left; auto). rewrite F1, Lp, Nat.eqb_refl.
      destruct (insert_wb k q F1 t 0 D Z W) as [A [B C]]. eexists. split; [reflexivity|]. split; auto.
      apply (dims_perm _ _ _ (Permutation_sym C)). apply dims_cons; auto.
    - eauto.
    - rewrite <- E in *. assert (Lp : length p = k) by (apply D; rewrite E; left; auto). rewrite F1, Lp, Nat.eqb_refl.
      destruct (delete_wb k t 0 q D Z W) as [A [B C]]. eexists. split; [reflexivity|]. auto. }
  destruct Step as [t1 [E1 [D1 [Z1 W1]]]]. rewrite E1. cbn [bind]. auto.
Qed.

Lemma wb_height : forall t, t <> Empty -> sized t -> wb t -> 10 ^ (height t - 1) <= size_of t * 7 ^ (height t - 1).
Proof.
  induction t as [|p a l IHl r IHr s]; intros N Z W; [congruence|].
  cbn [height size_of]. cbn [sized] in Z. destruct Z as [Hs [Zl Zr]]. cbn [wb] in W. destruct W as [W1 [W2 [Wl Wr]]].
  assert (1 <= s) by (rewrite Hs; simpl; lia).
  assert (G : forall c, (c = Empty \/ 10 ^ (height c - 1) <= size_of c * 7 ^ (height c - 1)) -> 10 * size_of c <= 7 * s ->
    10 ^ height c <= s * 7 ^ height c).
  { intros c [->|H1] H2; [simpl; lia|].
    destruct c as [|cp ca cl cr cs]; [simpl; lia|]. set (h := height (Node cp ca cl cr cs)) in *.
    assert (Hh : h = S (h - 1)) by (unfold h; simpl; lia). rewrite Hh. set (g := h - 1) in *.
    rewrite !Nat.pow_succ_r'. set (x := 10 ^ g) in *. set (y := 7 ^ g) in *. nia. }
  replace (S (max (height l) (height r)) - 1) with (max (height l) (height r)) by lia.
  destruct (Nat.max_spec (height l) (height r)) as [[_ ->]|[_ ->]].
  - apply G; auto. destruct r; [left; auto|right; apply IHr; auto; discriminate].
  - apply G; auto. destruct l; [left; auto|right; apply IHl; auto; discriminate].
Qed.

Lemma reachable_depth k pts os : dims k pts -> Forall (op_dim k) os ->
  exists t0 l0 t, kd_new pts = Ok (t0, l0) /\ kd_run t0 os = Ok t /\
    size_of t = length (collect t) /\
    (t <> Empty -> 10 ^ (height t - 1) <= length (collect t) * 7 ^ (height t - 1)).
Proof.
  intros D F. destruct (kd_new_ok k pts D) as [t0 [E [P [S [W _]]]]].
  destruct (run_wb k os t0 F) as [t [E' [D' [Z' W']]]].
  { apply (dims_perm _ _ _ (Permutation_sym P)); auto. }
  { eapply split_sized; eauto. } { auto. }
  exists t0, (sort_key (0 mod k) pts), t. split; auto. split; auto. rewrite <- (sized_size t) by auto. split; auto.
  intro N. apply wb_height; auto.
Qed.

(* ---- k nearest ------------------------------------------------------ *)

Lemma heap_push_perm x h : Permutation (heap_push x h) (x :: h).
Proof.
  induction h as [|y h IH]; cbn [heap_push]; auto. destruct (item_le x y); auto. rewrite IH. apply perm_swap.
Qed.

(* heap order implies decreasing distance *)
Definition far_first (x y : item) : Prop := (fst y <= fst x)%Qc.
Lemma item_le_far x y : item_le x y = true -> far_first x y.
Proof.
  unfold item_le, far_first. destruct (qeq (fst x) (fst y)) eqn:E.
  - apply qeq_true in E. rewrite E. intros _. apply Qcle_refl.
  - intro H. apply qlt_true in H. apply Qclt_le_weak; auto.
Qed.
Lemma item_gt_far x y : item_le x y = false -> far_first y x.
Proof.
  unfold item_le, far_first. destruct (qeq (fst x) (fst y)) eqn:E.
  - apply qeq_true in E. rewrite E. intros _. apply Qcle_refl.
  - intro H. apply qlt_false in H. auto.
Qed.
Lemma heap_push_sorted x h : StronglySorted far_first h -> StronglySorted far_first (heap_push x h).
Proof.
  induction 1 as [|y h H IH F]; cbn [heap_push].
  - repeat constructor.
  - destruct (item_le x y) eqn:E.
    + apply item_le_far in E. constructor; [constructor; auto|]. constructor; auto.
      eapply Forall_impl; [|apply F]. intros z Hz. unfold far_first in *. eapply Qcle_trans; eauto.
    + apply item_gt_far in E. constructor; auto. rewrite Forall_forall. intros z Hz.
      apply (Permutation_in _ (heap_push_perm x h)) in Hz. destruct Hz as [<-|Hz]; auto.
      rewrite Forall_forall in F. auto.
Qed.

Definition heap_ok (target : point) (k : nat) (h : list item) : Prop :=
  StronglySorted far_first h /\ length h <= k /\ forall x, In x h -> fst x = dist2 (snd x) target.

Definition grows (h h' : list item) (S : list point) : Prop :=
  length h <= length h' /\ exists rest, Permutation (map snd h ++ S) (map snd h' ++ rest).

Lemma grows_refl h S : grows h h S.
Proof. split; auto. exists S. auto. Qed.
Lemma grows_trans h1 h2 h3 S T : grows h1 h2 S -> grows h2 h3 T -> grows h1 h3 (S ++ T).
Proof.
  intros [L1 [r1 P1]] [L2 [r2 P2]]. split; [lia|]. exists (r2 ++ r1).
  rewrite app_assoc, P1. rewrite <- app_assoc. rewrite (Permutation_app_comm r1 T).
  rewrite app_assoc, P2. now rewrite <- app_assoc.
Qed.

Lemma knn_step target k h p : heap_ok target k h -> 0 < k ->
  let d := dist2 p target in
  let h1 := if length h <? k then heap_push (d, p) h
            else if heap_closer d h then heap_push (d, p) (tl h) else h in
  heap_ok target k h1 /\ grows h h1 [p] /\ 1 <= length h1.
Proof.
  intros [SS [L F]] Hk d h1. unfold h1. destruct (Nat.ltb_spec (length h) k) as [Lt|Ge].
  - pose proof (heap_push_perm (d, p) h) as P. split; [split; [|split]|split].
    + apply heap_push_sorted; auto.
    + rewrite (Permutation_length P). simpl. lia.
    + intros x Hx. apply (Permutation_in _ P) in Hx. destruct Hx as [<-|Hx]; auto.
    + split. { rewrite (Permutation_length P). simpl. lia. }
      exists []. rewrite app_nil_r, P. cbn [map snd]. rewrite Permutation_app_comm. auto.
    + rewrite (Permutation_length P). simpl. lia.
  - destruct h as [|x0 h0]; [simpl in Ge; lia|]. destruct (heap_closer d (x0 :: h0)).
    + cbn [tl]. inversion SS as [|? ? SS' FF]; subst. pose proof (heap_push_perm (d, p) h0) as P.
      split; [split; [|split]|split].
      * apply heap_push_sorted; auto.
      * rewrite (Permutation_length P). simpl in *. lia.
      * intros x Hx. apply (Permutation_in _ P) in Hx. destruct Hx as [<-|Hx]; auto. apply F; right; auto.
      * split. { rewrite (Permutation_length P). simpl. lia. }
        exists [snd x0]. rewrite P. cbn [map snd]. 
        rewrite (Permutation_app_comm (p :: map snd h0)). cbn [app]. constructor. rewrite Permutation_app_comm. auto.
      * rewrite (Permutation_length P). simpl. lia.
    + split; [split; auto|]. split; [apply grows_refl|]. simpl. lia.
Qed.

Lemma knn_rec_ok target k : 0 < k -> forall t h, heap_ok target k h ->
  heap_ok target k (knn_rec t target k h) /\ grows h (knn_rec t target k h) (collect t) /\
  (t <> Empty -> 1 <= length (knn_rec t target k h)).
Proof.
  intros Hk. induction t as [|p a l IHl r IHr s]; intros h H; cbn [knn_rec].
  - split; auto. split; [apply grows_refl|congruence].
  - cbv zeta. destruct (knn_step target k h p H Hk) as [H1 [G1 N1]].
    set (h1 := if length h <? k then _ else _) in *. cbv zeta in H1, G1, N1. fold h1 in H1, G1, N1.
    cbn [collect]. change (p :: collect l ++ collect r) with ([p] ++ (collect l ++ collect r)).
    assert (Sub : forall h0 h0' S S', grows h0 h0' S -> (forall x, Permutation (S ++ x) (S' ++ x) ) -> grows h0 h0' S').
    { intros h0 h0' S S' [A [rest B]] P. split; auto. exists rest. rewrite <- B.
      specialize (P []). rewrite !app_nil_r in P. now rewrite P. }
    destruct (qle (coord target a - coord p a)%Qc 0).
    + destruct (IHl h1 H1) as [H2 [G2 _]]. set (h2 := knn_rec l target k h1) in *.
      assert (N2 : 1 <= length h2) by (destruct G2; lia).
      destruct (heap_closer _ h2).
      * destruct (IHr h2 H2) as [H3 [G3 _]]. split; auto. split.
        { apply (grows_trans h h1); auto. apply (grows_trans h1 h2); auto. }
        intros _. destruct G3; lia.
      * split; auto. split; auto. apply (grows_trans h h1); auto. apply (grows_trans h1 h2); auto. apply grows_refl.
    + destruct (IHr h1 H1) as [H2 [G2 _]]. set (h2 := knn_rec r target k h1) in *.
      assert (N2 : 1 <= length h2) by (destruct G2; lia).
      assert (SW : forall h3, grows h1 h3 (collect r ++ collect l) -> grows h1 h3 (collect l ++ collect r)).
      { intros h3 G. eapply Sub; [apply G|]. intro x. apply Permutation_app_tail. apply Permutation_app_comm. }
      destruct (heap_closer _ h2).
      * destruct (IHl h2 H2) as [H3 [G3 _]]. split; auto. split.
        { apply (grows_trans h h1); auto. apply SW. apply (grows_trans h1 h2); auto. }
        intros _. destruct G3; lia.
      * split; auto. split; auto. apply (grows_trans h h1); auto. apply SW. apply (grows_trans h1 h2); auto. apply grows_refl.
Qed.

Lemma by_distance_rev target h : StronglySorted far_first h -> (forall x, In x h -> fst x = dist2 (snd x) target) ->
  by_distance target (rev (map snd h)).
Proof.
  assert (App : forall l1 l2, by_distance target l1 -> by_distance target l2 ->
     (forall x y, In x l1 -> In y l2 -> (dist2 target x <= dist2 target y)%Qc) -> by_distance target (l1 ++ l2)).
  { induction l1 as [|x l1 IH]; intros l2 A B C; cbn [app]; auto. destruct A as [A1 A2]. split.
    - intros y Hy. apply in_app_or in Hy. destruct Hy; auto. apply C; auto. left; auto.
    - apply IH; auto. intros; apply C; auto. right; auto. }
  induction 1 as [|x h H IH F]; intros E; cbn [map rev]; [exact I|].
  apply App.
  - apply IH. intros; apply E; right; auto.
  - split; [intros y []|exact I].
  - intros u v Hu [<-|[]]. apply in_rev in Hu. apply in_map_iff in Hu. destruct Hu as [y [<- Hy]].
    rewrite Forall_forall in F. specialize (F y Hy). unfold far_first in F.
    rewrite (dist2_sym target), (dist2_sym target (snd x)). rewrite <- !E; auto. left; auto. right; auto.
Qed.

Lemma knn_ok t q k : 0 < k -> t <> Empty ->
  1 <= length (knn t q k) <= k /\ by_distance q (knn t q k) /\
  exists rest, Permutation (knn t q k ++ rest) (collect t).
Proof.
  intros Hk N. destruct (knn_rec_ok q k Hk t []) as [[S [L F]] [[_ [rest P]] G]].
  { split; [constructor|]. split; [simpl; lia|intros ? []]. }
  assert (E : knn t q k = rev (map snd (knn_rec t q k []))).
  { unfold knn. destruct t; [congruence|]. destruct k; [lia|]. reflexivity. }
  rewrite E. split. { rewrite rev_length, map_length. specialize (G N). split; [exact G|exact L]. }
  split. { apply by_distance_rev; auto. }
  exists rest. rewrite <- Permutation_rev. symmetry. exact P.
Qed.

(* k = 1 is the nearest neighbour search *)
Definition mirror (b : best) (h : list item) : Prop :=
  match b with None => h = [] | Some (p, e) => h = [(e, p)] end.

Lemma knn_one target : forall t b h, mirror b h -> mirror (nearest_rec t target b) (knn_rec t target 1 h).
Proof.
  induction t as [|p a l IHl r IHr s]; intros b h M; cbn [nearest_rec knn_rec]; auto. cbv zeta.
  rewrite (dist2_sym p target).
  set (b1 := if closer (dist2 target p) b then Some (p, dist2 target p) else b).
  set (h1 := if length h <? 1 then _ else _).
  assert (M1 : mirror b1 h1 /\ h1 <> []).
  { unfold b1, h1, mirror in *. destruct b as [[p0 e0]|].
    - rewrite M. cbn [length Nat.ltb Nat.leb closer heap_closer fst tl heap_push].
      destruct (qlt (dist2 target p) e0); split; auto; discriminate.
    - rewrite M. cbn. split; auto. discriminate. }
  destruct M1 as [M1 _].
  assert (C : forall d b h, mirror b h -> b <> None -> heap_closer d h = closer d b).
  { intros d b' h' M' N'. destruct b' as [[p0 e0]|]; [|congruence]. cbn in M'. rewrite M'. reflexivity. }
  assert (NN : forall t' b', b' <> None -> nearest_rec t' target b' <> None).
  { clear. induction t' as [|p a l IHl r IHr s]; intros b' N; cbn [nearest_rec]; auto. cbv zeta.
    destruct (closer (dist2 target p) b'); destruct (qle _ 0);
    match goal with |- (if ?c then _ else _) <> None => destruct c end; repeat first [apply IHl|apply IHr]; auto; discriminate. }
  assert (N1 : b1 <> None).
  { unfold b1. destruct b as [[p0 e0]|]; cbn [closer]; [destruct (qlt _ _)|]; discriminate. }
  destruct (qle (coord target a - coord p a)%Qc 0).
  - pose proof (IHl b1 h1 M1) as M2. rewrite (C _ _ _ M2) by (apply NN; auto). match goal with |- mirror (if ?c then _ else _) _ => destruct c end; auto.
  - pose proof (IHr b1 h1 M1) as M2. rewrite (C _ _ _ M2) by (apply NN; auto). match goal with |- mirror (if ?c then _ else _) _ => destruct c end; auto.
Qed.

Lemma knn_1 t q : t <> Empty -> knn t q 1 = match nearest t q with Some p => [p] | None => [] end.
Proof.
  intro N. unfold knn, nearest. destruct t as [|p a l r s] eqn:E; [congruence|]. rewrite <- E in *. cbn [Nat.eqb].
  pose proof (knn_one q t None [] eq_refl) as M. unfold mirror in M.
  destruct (nearest_rec t q None) as [[x e]|]; rewrite M; reflexivity.
Qed.

(* ---- what goes wrong ------------------------------------------------ *)

Lemma qle_refl_true x : qle x x = true.
Proof. apply qle_true, Qcle_refl. Qed.
Lemma qle_gt_false x y : (y < x)%Qc -> qle x y = false.
Proof. intro. now apply qle_false. Qed.

Lemma point_eqb_neq p q : p <> q -> point_eqb p q = false.
Proof. intro H. destruct (point_eqb p q) eqn:E; auto. apply point_eqb_eq in E. contradiction. Qed.

(* three points on one vertical line *)
Lemma delete_tie_refuted x a b c : a <> c -> b <> c ->
  exists t l, kd_new [[x; a]; [x; b]; [x; c]] = Ok (t, l) /\ In [x; c] (collect t) /\
    kd_delete t [x; c] = Ok t.
Proof.
  intros H2 H3.
  assert (So : sort_key 0 [[x; a]; [x; b]; [x; c]] = [[x; a]; [x; b]; [x; c]]).
  { cbn [sort_key insert_key coord nth]. rewrite qle_refl_true. cbn [insert_key coord nth]. now rewrite qle_refl_true. }
  assert (E : build [[x; a]; [x; b]; [x; c]] 0 =
     Node [x; b] 0 (Node [x; a] 1 Empty Empty 1) (Node [x; c] 1 Empty Empty 1) 3).
  { unfold build. cbn [length build_fuel]. change (0 mod 2) with 0. rewrite So. reflexivity. }
  exists (build [[x; a]; [x; b]; [x; c]] 0), [[x; a]; [x; b]; [x; c]]. split; [|split].
  - unfold kd_new. cbn [forallb length Nat.eqb andb]. change (0 mod 2) with 0. now rewrite So.
  - rewrite E. cbn. auto.
  - rewrite E. unfold kd_delete. cbn [length Nat.eqb]. cbn [delete_rec].
    rewrite point_eqb_neq by congruence. cbn [coord nth]. rewrite qle_refl_true.
    rewrite point_eqb_neq by congruence. destruct (qle c a); reflexivity.
Qed.

(* deletion breaks the order, the nearest neighbour is then missed *)
Lemma delete_breaks_nearest a b c : (a < b)%Qc -> (b < c)%Qc ->
  exists t, kd_run Empty [OpInsert [c]; OpInsert [b]; OpInsert [a]; OpDelete [c]] = Ok t /\
    Permutation (collect t) [[a]; [b]] /\ nearest t [b] = Some [a].
Proof.
  intros H1 H2. assert (a < c)%Qc by (eapply Qclt_trans; eauto).
  assert (Q1 : qle b c = true) by (apply qle_true, Qclt_le_weak; auto).
  assert (Q2 : qle a c = true) by (apply qle_true, Qclt_le_weak; auto).
  assert (Q3 : qle a b = true) by (apply qle_true, Qclt_le_weak; auto).
  exists (Node [a] 0 (Node [b] 0 Empty Empty 1) Empty 2). split; [|split; auto].
  - cbn [kd_run kd_step kd_insert bind length Nat.eqb insert_rec coord nth]. rewrite Q1.
    cbn [settle mk size_of unbalanced Nat.add Nat.mul Nat.ltb Nat.leb orb kd_insert bind length Nat.eqb insert_rec coord nth Nat.modulo Nat.divmod fst snd Nat.sub].
    rewrite Q2. rewrite Q3. 
    cbn [settle mk size_of unbalanced Nat.add Nat.mul Nat.ltb Nat.leb orb kd_delete bind length Nat.eqb delete_rec coord nth Nat.modulo Nat.divmod fst snd Nat.sub].
    rewrite (proj2 (point_eqb_eq [c] [c]) eq_refl).
    cbn [find_min mk Nat.eqb delete_rec]. rewrite (point_eqb_neq [b] [a]) by (intro X; inversion X; subst; qlra).
    cbn [coord nth]. rewrite Q3. rewrite (proj2 (point_eqb_eq [a] [a]) eq_refl). reflexivity.
  - unfold nearest. cbn [nearest_rec coord nth dist2 closer]. 
    assert (Q4 : qle (b - a)%Qc 0 = false) by (apply qle_gt_false; qlra). rewrite Q4.
    assert (Q5 : qlt ((b - a) * (b - a))%Qc ((b - a) * (b - a) + 0)%Qc = false) by (apply qlt_false; qlra).
    rewrite Q5. reflexivity.
Qed.

(* two stored points, two asked for, one returned *)
Lemma knn_refuted p q t : (p < q)%Qc -> (t <= p)%Qc ->
  exists tr, kd_run Empty [OpInsert [p]; OpInsert [q]] = Ok tr /\
    Permutation (collect tr) [[p]; [q]] /\ knn tr [t] 2 = [[p]].
Proof.
  intros H1 H2. exists (Node [p] 0 Empty (Node [q] 0 Empty Empty 1) 2). split; [|split; auto].
  - cbn [kd_run kd_step kd_insert bind length Nat.eqb insert_rec coord nth]. rewrite (qle_gt_false q p) by auto. reflexivity.
  - unfold knn. cbn [Nat.eqb knn_rec length Nat.ltb Nat.leb heap_push coord nth dist2].
    assert (Q : qle (t - p)%Qc 0 = true) by (apply qle_true; qlra). rewrite Q. cbn [heap_closer fst].
    assert (Q5 : qlt ((t - p) * (t - p))%Qc ((p - t) * (p - t) + 0)%Qc = false).
    { apply qlt_false. assert (E : ((t - p) * (t - p) = (p - t) * (p - t) + 0)%Qc) by ring. rewrite E. apply Qcle_refl. }
    rewrite Q5. reflexivity.
Qed.

(* the constructor reorders its argument *)
Lemma new_mutates k pts : dims k pts -> ~ StronglySorted (key_le (0 mod k)) pts ->
  exists t l, kd_new pts = Ok (t, l) /\ l <> pts.
Proof.
  intros D N. destruct (kd_new_ok k pts D) as [t [E _]]. exists t, (sort_key (0 mod k) pts). split; auto.
  intro X. apply N. rewrite <- X. apply sort_key_sorted.
Qed.
