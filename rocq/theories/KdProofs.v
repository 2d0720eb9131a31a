(* Proofs about the k-d tree model. *)
From Coq Require Import List ZArith Bool QArith Qcanon Permutation Sorted Lia Arith.
From Verif Require Import Common ListLib QcLib KdModel KdSpec.
Import ListNotations.
Local Open Scope nat_scope.

(* ---- sorting -------------------------------------------------------- *)

Lemma insert_key_perm a x l : Permutation (insert_key a x l) (x :: l).
Proof.
  induction l as [|y l IH]; cbn [insert_key]; auto.
  destruct (qle (coord x a) (coord y a)); auto. rewrite IH. apply perm_swap.
Qed.
Lemma sort_key_perm a l : Permutation (sort_key a l) l.
Proof. induction l as [|x l IH]; cbn [sort_key]; auto. rewrite insert_key_perm. auto. Qed.

Definition key_le (a : nat) (p q : point) : Prop := (coord p a <= coord q a)%Qc.

Lemma insert_key_sorted a x l : StronglySorted (key_le a) l -> StronglySorted (key_le a) (insert_key a x l).
Proof.
  induction 1 as [|y l H IH F]; cbn [insert_key].
  - repeat constructor.
  - destruct (qle (coord x a) (coord y a)) eqn:E.
    + apply qle_true in E. constructor; [constructor; auto|]. constructor; auto.
      eapply Forall_impl; [|apply F]. intros z Hz. unfold key_le in *. eapply Qcle_trans; eauto.
    + apply qle_false in E. constructor; auto. rewrite Forall_forall. intros z Hz.
      apply (Permutation_in _ (insert_key_perm a x l)) in Hz. destruct Hz as [<-|Hz].
      * apply Qclt_le_weak; auto.
      * rewrite Forall_forall in F. auto.
Qed.
Lemma sort_key_sorted a l : StronglySorted (key_le a) (sort_key a l).
Proof. induction l; cbn [sort_key]; [constructor|apply insert_key_sorted; auto]. Qed.

Lemma sorted_split {A} (R : A -> A -> Prop) l m d : StronglySorted R l -> m < length l ->
  l = firstn m l ++ nth m l d :: skipn (m + 1) l /\
  (forall x, In x (firstn m l) -> R x (nth m l d)) /\
  (forall x, In x (skipn (m + 1) l) -> R (nth m l d) x).
Proof.
  revert m. induction l as [|x l IH]; intros m H Hm; [simpl in Hm; lia|].
  inversion H as [|? ? H1 H2]; subst. rewrite Forall_forall in H2.
  destruct m as [|m].
  - simpl. split; auto. split; [intros ? []|auto].
  - simpl in Hm. destruct (IH m H1 ltac:(lia)) as [E [L R']]. cbn [firstn skipn nth Nat.add app].
    split; [congruence|]. split; auto. intros y [<-|Hy]; auto. apply H2. apply nth_In. lia.
Qed.

(* ---- sizes, weight balance ------------------------------------------ *)

Fixpoint sized (t : kd) : Prop :=
  match t with Empty => True | Node _ _ l r s => s = length (collect t) /\ sized l /\ sized r end.
Lemma sized_size t : sized t -> size_of t = length (collect t).
Proof. destruct t; simpl; tauto. Qed.
Lemma split_sized k : forall t d, split_ok k d t -> sized t.
Proof. induction t as [|p a l IHl r IHr s]; cbn [split_ok sized]; auto. intros d [_ [H [_ [_ [H1 H2]]]]]. eauto. Qed.

Fixpoint wb (t : kd) : Prop :=
  match t with
  | Empty => True
  | Node _ _ l r s => 10 * size_of l <= 7 * s /\ 10 * size_of r <= 7 * s /\ wb l /\ wb r
  end.

Lemma mk_sized p a l r : sized l -> sized r -> sized (mk p a l r).
Proof.
  intros H1 H2. unfold mk. cbn [sized collect]. rewrite (sized_size l), (sized_size r) by auto.
  split; auto. simpl. rewrite app_length. lia.
Qed.
Lemma mk_collect p a l r : collect (mk p a l r) = p :: collect l ++ collect r.
Proof. reflexivity. Qed.

Lemma log2_half n : 2 <= n -> Nat.log2 n = S (Nat.log2 (n / 2)).
Proof.
  intro H. assert (Q : 1 <= n / 2) by (apply Nat.div_le_lower_bound; lia).
  destruct (Nat.log2_spec (n / 2) Q) as [A B]. set (c := Nat.log2 (n / 2)) in *.
  pose proof (Nat.mul_div_le n 2 ltac:(lia)). pose proof (Nat.mul_succ_div_gt n 2 ltac:(lia)).
  apply Nat.log2_unique; [lia|]. rewrite !Nat.pow_succ_r' in *. lia.
Qed.

(* ---- build ---------------------------------------------------------- *)

Lemma build_fuel_ok k : forall fuel pts d, length pts <= fuel -> dims k pts ->
  let t := build_fuel fuel pts d in
  Permutation (collect t) pts /\ split_ok k d t /\ wb t /\ (pts <> [] -> height t <= Nat.log2 (length pts) + 1).
Proof.
  induction fuel as [|f IH]; intros pts d Hf Hd.
  - destruct pts; [|simpl in Hf; lia]. simpl. repeat split; auto; try congruence.
  - destruct pts as [|p0 pts']. { simpl. repeat split; auto; try congruence. }
    cbn [build_fuel]. set (pts := p0 :: pts') in *. cbv zeta.
    rewrite (Hd p0) by (left; auto).
    set (a := d mod k). set (so := sort_key a pts). set (m := length pts / 2).
    pose proof (sort_key_perm a pts : Permutation so pts) as PS.
    assert (LS : length so = length pts) by (apply Permutation_length; auto).
    assert (NE : 1 <= length pts) by (simpl; lia).
    assert (Hm : m < length so). { rewrite LS. unfold m. apply Nat.div_lt; lia. }
    assert (H2m : 2 * m <= length pts) by (unfold m; apply Nat.mul_div_le; lia).
    assert (H2m' : length pts < 2 * (m + 1)).
    { pose proof (Nat.mul_succ_div_gt (length pts) 2 ltac:(lia)). unfold m. lia. }
    destruct (sorted_split (key_le a) so m [] (sort_key_sorted a pts) Hm) as [E [SL SR]].
    set (x := nth m so []) in *.
    assert (L1 : length (firstn m so) = m) by (rewrite firstn_length; lia).
    assert (L2 : length (skipn (m + 1) so) = length pts - (m + 1)) by (rewrite skipn_length; lia).
    assert (D : dims k so). { intros p Hp. apply Hd. eapply Permutation_in; eauto. }
    destruct (IH (firstn m so) (d + 1)) as [P1 [S1 [W1 H1]]].
    { rewrite L1. simpl in Hf. simpl in H2m. lia. }
    { intros p Hp. apply D. rewrite E. apply in_or_app; auto. }
    destruct (IH (skipn (m + 1) so) (d + 1)) as [P2 [S2 [W2 H2]]].
    { rewrite L2. lia. }
    { intros p Hp. apply D. rewrite E. apply in_or_app; right; right; auto. }
    set (l := build_fuel f (firstn m so) (d + 1)) in *. set (r := build_fuel f (skipn (m + 1) so) (d + 1)) in *.
    assert (PC : Permutation (collect (mk x a l r)) pts).
    { rewrite mk_collect. rewrite <- PS, E. rewrite P1, P2. apply Permutation_middle. }
    assert (Zl : size_of l = m). { rewrite sized_size by (eapply split_sized; eauto). rewrite (Permutation_length P1). auto. }
    assert (Zr : size_of r = length pts - (m + 1)). { rewrite sized_size by (eapply split_sized; eauto). rewrite (Permutation_length P2). auto. }
    split; [auto|]. split; [|split].
    + unfold mk. cbn [split_ok]. split; [auto|]. split.
      { rewrite Zl, Zr. change (collect _) with (collect (mk x a l r)). rewrite (Permutation_length PC). lia. }
      split. { intros q Hq. apply SL. eapply Permutation_in; eauto. }
      split; auto. intros q Hq. apply SR. eapply Permutation_in; eauto.
    + unfold mk. cbn [wb]. rewrite Zl, Zr. repeat split; auto; lia.
    + intros _. unfold mk. cbn [height].
      assert (Hl : height l <= Nat.log2 (length pts)).
      { destruct (firstn m so) as [|y ys] eqn:F.
        - unfold l. destruct f; simpl; lia.
        - assert (Y : y :: ys <> []) by discriminate. specialize (H1 Y). rewrite L1 in H1.
          assert (1 <= m) by (simpl in L1; lia).
          rewrite (log2_half (length pts)) by lia. fold m. lia. }
      assert (Hr : height r <= Nat.log2 (length pts)).
      { destruct (skipn (m + 1) so) as [|y ys] eqn:F.
        - unfold r. destruct f; simpl; lia.
        - assert (Y : y :: ys <> []) by discriminate. specialize (H2 Y). rewrite L2 in H2.
          assert (1 <= length pts - (m + 1)) by (change (length (y :: ys)) with (S (length ys)) in L2; lia).
          assert (Nat.log2 (length pts - (m + 1)) <= Nat.log2 m) by (apply Nat.log2_le_mono; lia).
          rewrite (log2_half (length pts)) by lia. fold m. lia. }
      lia.
Qed.

Lemma build_ok k pts d : dims k pts ->
  Permutation (collect (build pts d)) pts /\ split_ok k d (build pts d) /\ wb (build pts d) /\
  (pts <> [] -> height (build pts d) <= Nat.log2 (length pts) + 1).
Proof. apply (build_fuel_ok k (length pts) pts d). lia. Qed.

Lemma kd_new_ok k pts : dims k pts ->
  exists t, kd_new pts = Ok (t, sort_key (0 mod k) pts) /\
    Permutation (collect t) pts /\ split_ok k 0 t /\ wb t /\ (pts <> [] -> height t <= Nat.log2 (length pts) + 1).
Proof.
  intro D. unfold kd_new. destruct pts as [|p0 r] eqn:E.
  - exists Empty. repeat split; auto; try congruence.
  - rewrite <- E in *. assert (F : forallb (fun p => length p =? length p0) pts = true).
    { rewrite forallb_forall. intros p Hp. apply Nat.eqb_eq. rewrite (D p Hp). rewrite (D p0); auto. rewrite E; left; auto. }
    rewrite F. exists (build pts 0). rewrite (D p0) by (rewrite E; left; auto). split; auto.
    destruct (build_ok k pts 0 D) as [A [B [C H]]]. auto.
Qed.

Lemma kd_new_mixed pts p q : In p pts -> In q pts -> length p <> length q -> kd_new pts = Err ValueError.
Proof.
  intros Hp Hq H. unfold kd_new. destruct pts as [|p0 r] eqn:E; [destruct Hp|]. rewrite <- E in *.
  destruct (forallb (fun p => length p =? length p0) pts) eqn:F; auto.
  rewrite forallb_forall in F. apply F in Hp, Hq. apply Nat.eqb_eq in Hp, Hq. congruence.
Qed.

(* ---- settle --------------------------------------------------------- *)

Lemma settle_collect k p a l r d : dims k (p :: collect l ++ collect r) ->
  Permutation (collect (settle p a l r d)) (p :: collect l ++ collect r).
Proof.
  intro D. unfold settle. cbv zeta. destruct (unbalanced _); auto.
  unfold rebalance. apply (build_ok k); auto.
Qed.
Lemma settle_split k p a l r d : dims k (p :: collect l ++ collect r) -> a = d mod k ->
  (forall q, In q (collect l) -> (coord q a <= coord p a)%Qc) ->
  (forall q, In q (collect r) -> (coord p a <= coord q a)%Qc) ->
  split_ok k (d + 1) l -> split_ok k (d + 1) r -> split_ok k d (settle p a l r d).
Proof.
  intros D Ha Hl Hr Sl Sr. unfold settle. cbv zeta. destruct (unbalanced _).
  - unfold rebalance. apply (build_ok k); auto.
  - unfold mk. cbn [split_ok]. repeat split; auto.
    rewrite (sized_size l), (sized_size r) by (eapply split_sized; eauto). simpl. rewrite app_length. lia.
Qed.
Lemma settle_wb k p a l r d : dims k (p :: collect l ++ collect r) -> sized l -> sized r -> wb l -> wb r ->
  wb (settle p a l r d) /\ sized (settle p a l r d).
Proof.
  intros D Zl Zr Wl Wr. unfold settle. cbv zeta. destruct (unbalanced (mk p a l r)) eqn:E.
  - unfold rebalance. destruct (build_ok k (collect (mk p a l r)) d D) as [_ [A [B _]]].
    split; auto. eapply split_sized; eauto.
  - unfold mk, unbalanced in E. apply orb_false_iff in E. destruct E as [E1 E2].
    apply Nat.ltb_ge in E1, E2. split; [|apply mk_sized; auto]. unfold mk. cbn [wb]. auto.
Qed.

Lemma dims_perm k l l' : Permutation l l' -> dims k l -> dims k l'.
Proof. intros P D p Hp. apply D. eapply Permutation_in; [symmetry|]; eauto. Qed.
Lemma dims_app k l l' : dims k (l ++ l') <-> dims k l /\ dims k l'.
Proof.
  unfold dims. split.
  - intro H. split; intros; apply H, in_or_app; auto.
  - intros [A B] p Hp. apply in_app_or in Hp. destruct Hp; auto.
Qed.
Lemma dims_cons k p l : dims k (p :: l) <-> length p = k /\ dims k l.
Proof.
  unfold dims. split.
  - intro H. split; [apply H; left; auto|intros; apply H; right; auto].
  - intros [A B] q [<-|Hq]; auto.
Qed.

(* ---- insertion ------------------------------------------------------ *)

Lemma insert_rec_ok k q : length q = k -> forall t d, dims k (collect t) -> split_ok k d t ->
  Permutation (collect (insert_rec t q d)) (q :: collect t) /\ split_ok k d (insert_rec t q d).
Proof.
  intros Lq. induction t as [|p a l IHl r IHr s]; intros d D S; cbn [insert_rec].
  - cbn [collect app]. split; auto. cbn [split_ok collect app length]. rewrite Lq. repeat split; auto; intros ? [].
  - cbn [collect] in D. apply dims_cons in D. destruct D as [Dp D]. apply dims_app in D. destruct D as [Dl Dr].
    cbn [split_ok] in S. destruct S as [Ha [_ [Hl [Hr [Sl Sr]]]]].
    destruct (qle (coord q a) (coord p a)) eqn:E.
    + apply qle_true in E. destruct (IHl (d + 1) Dl Sl) as [P1 S1].
      assert (D' : dims k (p :: collect (insert_rec l q (d + 1)) ++ collect r)).
      { apply dims_cons. split; auto. apply dims_app. split; auto.
        apply (dims_perm _ _ _ (Permutation_sym P1)). apply dims_cons; auto. }
      split.
      * rewrite (settle_collect k) by auto. cbn [collect]. rewrite P1. cbn [app]. apply perm_swap.
      * apply settle_split; auto. intros x Hx. apply (Permutation_in _ P1) in Hx. destruct Hx as [<-|Hx]; auto.
    + apply qle_false in E. destruct (IHr (d + 1) Dr Sr) as [P1 S1].
      assert (D' : dims k (p :: collect l ++ collect (insert_rec r q (d + 1)))).
      { apply dims_cons. split; auto. apply dims_app. split; auto.
        apply (dims_perm _ _ _ (Permutation_sym P1)). apply dims_cons; auto. }
      split.
      * rewrite (settle_collect k) by auto. cbn [collect]. rewrite P1.
        rewrite <- Permutation_middle. apply perm_swap.
      * apply settle_split; auto. intros x Hx. apply (Permutation_in _ P1) in Hx.
        destruct Hx as [<-|Hx]; auto. apply Qclt_le_weak; auto.
Qed.

Lemma kd_insert_ok k q t : 0 < k -> length q = k -> dims k (collect t) -> split_ok k 0 t ->
  exists t', kd_insert t q = Ok t' /\ Permutation (collect t') (q :: collect t) /\ split_ok k 0 t'.
Proof.
  intros Hk Lq D S. unfold kd_insert. destruct t as [|p a l r s].
  - eexists. split; [reflexivity|]. cbn [collect app]. split; auto.
    cbn [split_ok collect app length]. rewrite Nat.mod_0_l by lia. repeat split; auto; intros ? [].
  - assert (Lp : length p = k) by (apply D; left; auto). rewrite Lq, Lp, Nat.eqb_refl.
    eexists. split; [reflexivity|]. apply insert_rec_ok; auto.
Qed.

Lemma kd_inserts k : 0 < k -> forall os t, only_inserts os -> dims k (inserted os) ->
  dims k (collect t) -> split_ok k 0 t ->
  exists t', kd_run t os = Ok t' /\ Permutation (collect t') (collect t ++ inserted os) /\ split_ok k 0 t'.
Proof.
  intros Hk. induction os as [|o os IH]; intros t O Di Dt St.
  - exists t. cbn [inserted flat_map kd_run]. rewrite app_nil_r. auto.
  - inversion O as [|? ? O1 O2]; subst. destruct o as [q|q]; [|contradiction].
    cbn [inserted flat_map app] in Di. fold (inserted os) in Di. apply dims_cons in Di. destruct Di as [Lq Di].
    destruct (kd_insert_ok k q t Hk Lq Dt St) as [t1 [E [P S1]]].
    assert (D1 : dims k (collect t1)). { apply (dims_perm _ _ _ (Permutation_sym P)). apply dims_cons; auto. }
    destruct (IH t1 O2 Di D1 S1) as [t' [E' [P' S']]].
    exists t'. cbn [kd_run kd_step]. rewrite E. cbn [bind]. split; auto. split; auto.
    rewrite P', P. cbn [inserted flat_map app]. fold (inserted os). apply Permutation_middle.
Qed.

(* ---- distances ------------------------------------------------------ *)

Lemma sq_nonneg (x : Qc) : (0 <= x * x)%Qc.
Proof. qnra. Qed.
Lemma dist2_nonneg p : forall q, (0 <= dist2 p q)%Qc.
Proof.
  induction p as [|a p IH]; intros [|b q]; cbn [dist2]; try apply Qcle_refl.
  pose proof (sq_nonneg (a - b)). specialize (IH q). qlra.
Qed.
Lemma dist2_sym p : forall q, dist2 p q = dist2 q p.
Proof. induction p as [|a p IH]; intros [|b q]; cbn [dist2]; auto. rewrite IH. ring. Qed.
Lemma dist2_axis p : forall q a, length p = length q -> a < length p ->
  ((coord p a - coord q a) * (coord p a - coord q a) <= dist2 p q)%Qc.
Proof.
  induction p as [|x p IH]; intros [|y q] a L Ha; simpl in L, Ha; try lia.
  cbn [dist2]. destruct a as [|a]; unfold coord; cbn [nth].
  - pose proof (dist2_nonneg p q). qlra.
  - pose proof (sq_nonneg (x - y)). assert (H' := IH q a ltac:(lia) ltac:(lia)). unfold coord in H'. qlra.
Qed.

(* a point on the other side of the splitting plane *)
Lemma far_side t p q a k : length t = k -> length q = k -> a < k ->
  ((coord t a <= coord p a)%Qc /\ (coord p a <= coord q a)%Qc
   \/ (coord p a <= coord t a)%Qc /\ (coord q a <= coord p a)%Qc) ->
  ((coord t a - coord p a) * (coord t a - coord p a) <= dist2 t q)%Qc.
Proof.
  intros Lt Lq Ha H. eapply Qcle_trans; [|apply (dist2_axis t q a); lia].
  set (x := coord t a) in *. set (y := coord p a) in *. set (z := coord q a) in *.
  destruct H as [[A B]|[A B]].
  - assert (0 <= (z - y) * ((z - x) + (y - x)))%Qc. { apply qc_mul_nonneg; qlra. }
    assert (E : ((x - z) * (x - z) - (x - y) * (x - y) = (z - y) * ((z - x) + (y - x)))%Qc) by ring. qlra.
  - assert (0 <= (y - z) * ((x - z) + (x - y)))%Qc. { apply qc_mul_nonneg; qlra. }
    assert (E : ((x - z) * (x - z) - (x - y) * (x - y) = (y - z) * ((x - z) + (x - y)))%Qc) by ring. qlra.
Qed.

(* ---- nearest -------------------------------------------------------- *)

Definition bound (b : best) (x : Qc) : Prop := exists p e, b = Some (p, e) /\ (e <= x)%Qc.
Definition bok (target : point) (S : list point) (b b' : best) : Prop :=
  (b' = b \/ exists p, b' = Some (p, dist2 target p) /\ In p S) /\
  (forall x, bound b x -> bound b' x) /\
  (forall q, In q S -> bound b' (dist2 target q)).

Lemma closer_true d b : closer d b = true -> b = None \/ exists p e, b = Some (p, e) /\ (d < e)%Qc.
Proof. destruct b as [[p e]|]; cbn; auto. intro H. right. exists p, e. split; auto. now apply qlt_true. Qed.
Lemma closer_false d b : closer d b = false -> bound b d.
Proof. destruct b as [[p e]|]; cbn; [|discriminate]. intro H. exists p, e. split; auto. now apply qlt_false. Qed.
Lemma bound_le b x y : bound b x -> (x <= y)%Qc -> bound b y.
Proof. intros [p [e [E H]]] L. exists p, e. split; auto. eapply Qcle_trans; eauto. Qed.

Lemma bok_self target p b : bok target [p] b (if closer (dist2 target p) b then Some (p, dist2 target p) else b).
Proof.
  destruct (closer (dist2 target p) b) eqn:E.
  - split; [right; exists p; split; auto; left; auto|]. split.
    + intros x [p' [e [-> H]]]. destruct (closer_true _ _ E) as [X|[p2 [e2 [X L]]]]; [discriminate|].
      inversion X; subst. exists p, (dist2 target p). split; auto. qlra.
    + intros q [<-|[]]. exists p, (dist2 target p). split; auto. apply Qcle_refl.
  - split; auto. split; auto. intros q [<-|[]]. apply closer_false; auto.
Qed.
Lemma bok_trans target S1 S2 b b1 b2 : bok target S1 b b1 -> bok target S2 b1 b2 -> bok target (S1 ++ S2) b b2.
Proof.
  intros [A1 [B1 C1]] [A2 [B2 C2]]. split; [|split].
  - destruct A2 as [->|[p [E H]]].
    + destruct A1 as [->|[p [E H]]]; auto. right. exists p. split; auto. apply in_or_app; auto.
    + right. exists p. split; auto. apply in_or_app; auto.
  - auto.
  - intros q Hq. apply in_app_or in Hq. destruct Hq; auto.
Qed.
Lemma bok_skip target S b : (forall q, In q S -> bound b (dist2 target q)) -> bok target S b b.
Proof. split; auto. Qed.
Lemma bok_perm target S S' b b' : Permutation S S' -> bok target S b b' -> bok target S' b b'.
Proof.
  intros P [A [B C]]. split; [|split]; auto.
  - destruct A as [->|[p [E H]]]; auto. right. exists p. split; auto. eapply Permutation_in; eauto.
  - intros q Hq. apply C. eapply Permutation_in; [symmetry|]; eauto.
Qed.

Lemma nearest_rec_ok k target : 0 < k -> length target = k -> forall t d b, dims k (collect t) -> split_ok k d t ->
  bok target (collect t) b (nearest_rec t target b).
Proof.
  intros Hk Lt. induction t as [|p a l IHl r IHr s]; intros d b D S; cbn [nearest_rec].
  - apply bok_skip. intros q [].
  - cbn [collect] in D. apply dims_cons in D. destruct D as [Dp D]. apply dims_app in D. destruct D as [Dl Dr].
    cbn [split_ok] in S. destruct S as [Ha [_ [Hl [Hr [Sl Sr]]]]].
    assert (Hak : a < k) by (rewrite Ha; apply Nat.mod_upper_bound; lia).
    set (b1 := if closer (dist2 target p) b then Some (p, dist2 target p) else b).
    pose proof (bok_self target p b : bok target [p] b b1) as B1.
    cbv zeta. fold b1. set (diff := (coord target a - coord p a)%Qc).
    destruct (qle diff 0) eqn:Q.
    + apply qle_true in Q. pose proof (IHl (d + 1) b1 Dl Sl) as B2.
      set (b2 := nearest_rec l target b1) in *.
      assert (Q' : (coord target a <= coord p a)%Qc) by (unfold diff in Q; qlra).
      change (p :: collect l ++ collect r) with ([p] ++ (collect l ++ collect r)).
      apply (bok_trans target [p] _ b b1); auto. apply (bok_trans target _ _ b1 b2); auto.
      destruct (closer (diff * diff)%Qc b2) eqn:C. { apply (IHr (d + 1)); auto. }
      apply bok_skip. intros q Hq. eapply bound_le; [apply closer_false; eauto|].
      apply (far_side target p q a k); auto.
    + apply qle_false in Q. pose proof (IHr (d + 1) b1 Dr Sr) as B2.
      set (b2 := nearest_rec r target b1) in *.
      assert (Q' : (coord p a <= coord target a)%Qc) by (unfold diff in Q; qlra).
      apply (bok_perm target ([p] ++ (collect r ++ collect l))).
      { cbn [app]. constructor. apply Permutation_app_comm. }
      apply (bok_trans target [p] _ b b1); auto. apply (bok_trans target _ _ b1 b2); auto.
      destruct (closer (diff * diff)%Qc b2) eqn:C. { apply (IHl (d + 1)); auto. }
      apply bok_skip. intros q Hq. eapply bound_le; [apply closer_false; eauto|].
      apply (far_side target p q a k); auto.
Qed.

Lemma nearest_ok k q t : 0 < k -> length q = k -> dims k (collect t) -> split_ok k 0 t -> t <> Empty ->
  exists p, nearest t q = Some p /\ is_nearest q p (collect t).
Proof.
  intros Hk Lq D S N. pose proof (nearest_rec_ok k q Hk Lq t 0 None D S) as [A [_ C]].
  unfold nearest. destruct t as [|p a l r s] eqn:E; [congruence|]. rewrite <- E in *.
  assert (I : In p (collect t)) by (rewrite E; left; auto).
  destruct (C p I) as [x [e [X _]]].
  destruct A as [A|[y [A Hy]]]; [congruence|]. rewrite A. exists y. split; auto. split; auto.
  intros z Hz. destruct (C z Hz) as [y' [e' [Y L]]]. rewrite A in Y. inversion Y; subst. auto.
Qed.
