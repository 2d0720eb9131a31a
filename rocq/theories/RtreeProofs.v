(* R*-tree: proofs. *)
From Coq Require Import List Arith ZArith Bool QArith Qcanon Lia Permutation.
From Verif Require Import Common QcLib RtreeModel RtreeSpec.
Import ListNotations.

Lemma qmin_spec a b : (qmin a b <= a /\ qmin a b <= b)%Qc.
Proof. unfold qmin. destruct (qlt b a) eqn:E; [apply qlt_true in E|apply qlt_false in E]; split; qlra. Qed.
Lemma qmax_spec a b : (a <= qmax a b /\ b <= qmax a b)%Qc.
Proof. unfold qmax. destruct (qlt a b) eqn:E; [apply qlt_true in E|apply qlt_false in E]; split; qlra. Qed.
Lemma box_lawful : lawful Box.
Proof.
  intros a b q H. cbn [meets Box union bx0 bx1 by0 by1 bz0 bz1] in *. rewrite !negb_true_iff, !orb_false_iff, !qlt_false in *.
  destruct (qmin_spec (bx0 a) (bx0 b)), (qmin_spec (by0 a) (by0 b)), (qmin_spec (bz0 a) (bz0 b)), (qmax_spec (bx1 a) (bx1 b)), (qmax_spec (by1 a) (by1 b)), (qmax_spec (bz1 a) (bz1 b)).
  destruct H as [[[[[[? ?] ?] ?] ?] ?]|[[[[[? ?] ?] ?] ?] ?]]; repeat split; qlra.
Qed.
Lemma rectangle_lawful : lawful Rectangle.
Proof.
  intros a b q H. cbn [meets Rectangle union rx0 rx1 ry0 ry1] in *. rewrite !negb_true_iff, !orb_false_iff, !qlt_false in *.
  destruct (qmin_spec (rx0 a) (rx0 b)), (qmin_spec (ry0 a) (ry0 b)), (qmax_spec (rx1 a) (rx1 b)), (qmax_spec (ry1 a) (ry1 b)).
  destruct H as [[[[? ?] ?] ?]|[[[? ?] ?] ?]]; repeat split; qlra.
Qed.

Section S.
Context {sh : shape}.
Notation R := (rect sh).

Lemma rtree_ind2 (P : rtree R -> Prop) : (forall m es, P (Leaf m es)) -> (forall m cs, Forall P cs -> P (Inner m cs)) -> forall t, P t.
Proof.
  intros HL HI. fix IH 1. intros [m es|m cs]; [apply HL|]. apply HI. induction cs as [|c cs IHc]; constructor; auto.
Qed.

(* ---- sorting ---- *)
Lemma put_perm {A} (key : A -> Qc) x l : Permutation (put key x l) (x :: l).
Proof. induction l as [|y l IH]; cbn [put]; auto. destruct (qlt _ _); auto. rewrite IH. apply perm_swap. Qed.
Lemma sort_perm {A} (key : A -> Qc) l : Permutation (sort_by key l) l.
Proof. induction l as [|x l IH]; cbn; auto. fold (sort_by key l). rewrite put_perm. auto. Qed.

(* ---- boxes of lists ---- *)
Lemma compute_mbr_ok {A} (l : list (R * A)) : l <> [] -> exists m, compute_mbr sh l = Ok m.
Proof. destruct l; [congruence|]. cbn. eauto. Qed.
Lemma cuts_in mn k i : In i (cuts mn k) -> (mn <= i /\ i <= k - mn)%nat.
Proof. unfold cuts. rewrite in_seq. lia. Qed.
Lemma firstn_ne {A} (l : list A) i : (0 < i)%nat -> (i <= length l)%nat -> firstn i l <> [].
Proof. destruct l, i; cbn; intros; try lia. discriminate. Qed.
Lemma skipn_ne {A} (l : list A) i : (i < length l)%nat -> skipn i l <> [].
Proof. intros H E. apply (f_equal (@length A)) in E. rewrite skipn_length in E. cbn in E. lia. Qed.
Lemma margins_ok {A} mn (l : list (R * A)) is : (1 <= mn)%nat -> (forall i, In i is -> (mn <= i /\ i <= length l - mn)%nat) -> (1 <= length l)%nat -> forall acc, exists g, margins sh l is acc = Ok g.
Proof.
  intros H1 HI HL. induction is as [|i is IH]; intro acc; cbn [margins]; eauto.
  destruct (HI i (or_introl eq_refl)) as [A1 A2].
  destruct (compute_mbr_ok (firstn i l)) as [a ->]; [apply firstn_ne; lia|]. destruct (compute_mbr_ok (skipn i l)) as [b ->]; [apply skipn_ne; lia|]. cbn [bind].
  apply IH. intros j Hj. apply HI. right; auto.
Qed.
Lemma distribution_ok {A} mn (l : list (R * A)) is : (1 <= mn)%nat -> (1 <= length l)%nat -> forall best, (forall i, In i is -> (mn <= i /\ i <= length l - mn)%nat) ->
  match best with None => is <> [] | Some (i, _) => (mn <= i /\ i <= length l - mn)%nat end ->
  exists i g, distribution sh l is best = Ok (Some (i, g)) /\ (mn <= i /\ i <= length l - mn)%nat.
Proof.
  intros H1 HL. induction is as [|i is IH]; intros best HI HB; cbn [distribution].
  - destruct best as [[i g]|]; [|congruence]. exists i, g. auto.
  - destruct (HI i (or_introl eq_refl)) as [A1 A2].
    destruct (compute_mbr_ok (firstn i l)) as [a ->]; [apply firstn_ne; lia|]. destruct (compute_mbr_ok (skipn i l)) as [b ->]; [apply skipn_ne; lia|]. cbn [bind]. cbn zeta.
    apply IH; [intros j Hj; apply HI; right; auto|]. destruct best as [[j g]|]; [destruct (qlt _ g); auto|auto].
Qed.
Lemma split_ok {A} mn (l : list (R * A)) : (1 <= mn)%nat -> (2 * mn <= length l)%nat ->
  exists a b, split_children sh mn l = Ok (a, b) /\ Permutation (a ++ b) l /\ (mn <= length a /\ length a <= length l - mn)%nat /\ (mn <= length b /\ length b <= length l - mn)%nat.
Proof.
  intros H1 H2. unfold split_children. cbn zeta. set (lx := sort_by (fun c => minx sh (fst c)) l). set (ly := sort_by (fun c => miny sh (fst c)) lx).
  assert (PX : Permutation lx l) by apply sort_perm. assert (PY : Permutation ly l) by (unfold ly; rewrite sort_perm; auto).
  assert (LX := Permutation_length PX). assert (LY := Permutation_length PY).
  destruct (margins_ok mn lx (cuts mn (length l)) H1) with (acc := 0%Qc) as [gx ->]; [intros i Hi; apply cuts_in in Hi; rewrite LX; auto|lia|]. cbn [bind].
  destruct (margins_ok mn ly (cuts mn (length l)) H1) with (acc := 0%Qc) as [gy ->]; [intros i Hi; apply cuts_in in Hi; rewrite LY; auto|lia|]. cbn [bind].
  set (ls := if qle gx gy then _ else _). assert (PS : Permutation ls l) by (unfold ls; destruct (qle gx gy); rewrite sort_perm; auto). assert (LS := Permutation_length PS).
  destruct (distribution_ok mn ls (cuts mn (length l)) H1 ltac:(lia) None) as [i [g [E [I1 I2]]]].
  - intros i Hi. apply cuts_in in Hi. rewrite LS. auto.
  - unfold cuts. destruct (length l + 1 - mn - mn)%nat eqn:Z; [lia|]. discriminate.
  - rewrite E. cbn [bind]. exists (firstn i ls), (skipn i ls). split; auto. rewrite firstn_skipn. split; auto. rewrite firstn_length, skipn_length. lia.
Qed.
Lemma split_no_room {A} mn (l : list (R * A)) : (length l < 2 * mn)%nat -> split_children sh mn l = Err TypeError.
Proof.
  intro H. unfold split_children. cbn zeta. replace (cuts mn (length l)) with (@nil nat) by (unfold cuts; replace (length l + 1 - mn - mn)%nat with 0%nat by lia; reflexivity). reflexivity.
Qed.
Lemma split_zero {A} (l : list (R * A)) : l <> [] -> split_children sh 0 l = Err IndexError.
Proof. intro H. unfold split_children. cbn zeta. unfold cuts. destruct (length l + 1 - 0 - 0)%nat eqn:Z; [lia|]. cbn [seq margins]. cbn [firstn compute_mbr bind]. reflexivity. Qed.

(* ---- choosing a child ---- *)
Lemma least_ok (ms : list R) r : forall i best, match best with None => ms <> [] | Some (j, _) => (j < i + length ms)%nat end -> exists j, least_enlargement sh ms r i best = Some j /\ (j < i + length ms)%nat.
Proof.
  induction ms as [|m ms IH]; intros i best H; cbn [least_enlargement].
  - destruct best as [[j b]|]; [|congruence]. exists j. auto.
  - cbn zeta. replace (i + length (m :: ms))%nat with (S i + length ms)%nat by (cbn; lia). cbn [length] in H. apply IH. destruct best as [[j b]|]; [destruct (qlt _ b)|]; lia.
Qed.

(* every node has a box and between mn and mx children *)
Inductive solid (mn mx : nat) : rtree R -> Prop :=
| Sol_leaf m es : (mn <= length es <= mx)%nat -> solid mn mx (Leaf (Some m) es)
| Sol_inner m cs : (mn <= length cs <= mx)%nat -> Forall (solid mn mx) cs -> solid mn mx (Inner (Some m) cs).
Definition solid_root mn mx (t : rtree R) : Prop :=
  match t with Leaf _ es => (length es <= mx)%nat | Inner _ cs => (2 <= length cs <= mx)%nat /\ Forall (solid mn mx) cs end.
Lemma solid_occupied mn mx t : solid mn mx t -> occupied mn mx t.
Proof.
  induction t using rtree_ind2; intro S; inversion S; subst; constructor; auto. rewrite Forall_forall in *. auto.
Qed.
Lemma solid_root_occupied mn mx t : solid_root mn mx t -> occupied_root mn mx t.
Proof. destruct t; cbn; auto. intros [A B]. split; auto. eapply Forall_impl; [|exact B]. intros; apply solid_occupied; auto. Qed.
Lemma solid_mbr mn mx t : solid mn mx t -> exists m, mbr_of t = Ok m.
Proof. intro S. inversion S; subst; cbn; eauto. Qed.
Lemma mbrs_ok mn mx cs : Forall (solid mn mx) cs -> exists ps, mbrs_of cs = Ok ps /\ map snd ps = cs /\ (forall p, In p ps -> mbr_of (snd p) = Ok (fst p)) /\ length ps = length cs.
Proof.
  induction 1 as [|c cs S F IH]; cbn [mbrs_of]; [exists []; repeat split; auto; intros ? []|].
  destruct (solid_mbr _ _ _ S) as [m Hm]. rewrite Hm. cbn [bind]. destruct IH as [ps [-> [E1 [E2 E3]]]]. cbn [bind]. exists ((m, c) :: ps). split; auto. cbn. rewrite E1. split; auto. split; [|lia].
  intros p [<-|I]; auto.
Qed.

(* the nested loop of insert_down *)
Lemma go_nth mx mn r m cs i : forall l j, 
  (fix go (l : list (rtree R)) (j : nat) : res (rtree R * option (rtree R)) :=
     match l, j with [], _ => Err IndexError | c :: _, O => do (c', s) <- insert_down mx mn r c ; Ok (Inner m (upd cs i c'), s) | _ :: l', S j' => go l' j' end) l j
  = match nth_error l j with None => Err IndexError | Some c => do (c', s) <- insert_down mx mn r c ; Ok (Inner m (upd cs i c'), s) end.
Proof. induction l as [|c l IH]; intros [|j]; cbn; auto. Qed.
Lemma insert_down_inner mx mn r m cs : insert_down mx mn r (Inner m cs) =
  (do ps <- mbrs_of cs ; match least_enlargement sh (map fst ps) r 0 None with None => Err AttributeError | Some i =>
     match nth_error cs i with None => Err IndexError | Some c => do (c', s) <- insert_down mx mn r c ; Ok (Inner m (upd cs i c'), s) end end).
Proof. cbn [insert_down]. destruct (mbrs_of cs); cbn [bind]; auto. destruct (least_enlargement _ _ _ _ _); auto. rewrite go_nth. auto. Qed.

Lemma upd_split {A} (l : list A) i c : nth_error l i = Some c -> exists a b, l = a ++ c :: b /\ length a = i /\ forall x, upd l i x = a ++ x :: b.
Proof.
  revert i. induction l as [|y l IH]; intros [|i] H; cbn in H; try discriminate.
  - injection H as ->. exists [], l. auto.
  - destruct (IH i H) as [a [b [-> [L U]]]]. exists (y :: a), b. split; auto. split; [cbn; lia|]. intro x. cbn. now rewrite U.
Qed.
Lemma entries_make_leaf l : entries (make_leaf sh l) = map snd l. Proof. reflexivity. Qed.
Lemma leaf_pairs_snd es : map snd (leaf_pairs sh es) = es.
Proof. unfold leaf_pairs. rewrite map_map. cbn. apply map_id. Qed.
Lemma solid_make_leaf mn mx l : (1 <= mn)%nat -> (mn <= length l <= mx)%nat -> solid mn mx (make_leaf sh l).
Proof. intros H1 H. unfold make_leaf, update_mbr. destruct (compute_mbr_ok l) as [m ->]; [destruct l; [cbn in H; lia|discriminate]|]. constructor. rewrite map_length. auto. Qed.
Lemma solid_make_inner mn mx l : (1 <= mn)%nat -> (mn <= length l <= mx)%nat -> Forall (solid mn mx) (map snd l) -> solid mn mx (make_inner sh l).
Proof. intros H1 H F. unfold make_inner, update_mbr. destruct (compute_mbr_ok l) as [m ->]; [destruct l; [cbn in H; lia|discriminate]|]. constructor; auto. rewrite map_length. auto. Qed.

Lemma perm_mid {A} (a b c c' s : list A) r : Permutation (c' ++ s) (r :: c) -> Permutation ((a ++ c' ++ b) ++ s) (r :: a ++ c ++ b).
Proof.
  intro P. transitivity ((c' ++ s) ++ a ++ b).
  - rewrite <- !app_assoc. rewrite (Permutation_app_comm a). rewrite <- !app_assoc. apply Permutation_app_head. rewrite (Permutation_app_comm b). now rewrite <- app_assoc.
  - rewrite P. cbn. constructor. rewrite (Permutation_app_comm a (c ++ b)). rewrite <- app_assoc. apply Permutation_app_head. apply Permutation_app_comm.
Qed.
Definition opt_entries (s : option (rtree R)) : list R := match s with None => [] | Some t => entries t end.
(* inserting into a node; the first component is a node of the same kind *)
Lemma insert_down_ok mx mn r : (1 <= mn)%nat -> (2 * mn <= mx + 1)%nat -> forall t, solid mn mx t ->
  exists t' s, insert_down mx mn r t = Ok (t', s) /\ solid mn mx t' /\ match s with None => True | Some n => solid mn mx n end /\
    Permutation (entries t' ++ opt_entries s) (r :: entries t) /\
    match t with Leaf _ _ => True | Inner m cs => exists cs', t' = Inner m cs' /\ length cs' = length cs end.
Proof.
  intros H1 H2. induction t as [m es|m cs IH] using rtree_ind2; intro S.
  - inversion S; subst. cbn [insert_down]. cbn zeta. rewrite app_length. cbn [length]. destruct (mx <? length es + 1)%nat eqn:Q.
    + apply Nat.ltb_lt in Q. destruct (split_ok mn (leaf_pairs sh (es ++ [r])) H1) as [a [b [E [P [[A1 A2] [B1 B2]]]]]]; [unfold leaf_pairs; rewrite map_length, app_length; cbn; lia|]. rewrite E. cbn [bind].
      assert (LL : length (leaf_pairs sh (es ++ [r])) = (length es + 1)%nat) by (unfold leaf_pairs; rewrite map_length, app_length; reflexivity). rewrite LL in *.
      exists (make_leaf sh a), (Some (make_leaf sh b)). split; auto. split; [apply solid_make_leaf; auto; lia|]. split; [apply solid_make_leaf; auto; lia|]. split; auto.
      cbn [opt_entries]. rewrite !entries_make_leaf, <- map_app. rewrite P, leaf_pairs_snd. cbn. apply Permutation_sym, Permutation_cons_append.
    + apply Nat.ltb_ge in Q. do 2 eexists. split; [reflexivity|]. split; [apply solid_make_leaf; auto; unfold leaf_pairs; rewrite map_length, app_length; cbn; lia|]. split; auto. split; auto.
      cbn [opt_entries]. rewrite app_nil_r, entries_make_leaf, leaf_pairs_snd. cbn. apply Permutation_sym, Permutation_cons_append.
  - inversion S; subst. rewrite insert_down_inner. destruct (mbrs_ok _ _ _ H4) as [ps [-> [E1 [E2 E3]]]]. cbn [bind].
    destruct (least_ok (map fst ps) r 0 None) as [i [-> Li]]; [destruct ps; [cbn in E3; lia|discriminate]|]. cbn in Li. rewrite map_length, E3 in Li.
    destruct (nth_error cs i) as [c|] eqn:N; [|apply nth_error_None in N; lia]. destruct (upd_split cs i c N) as [a [b [EC [LA U]]]].
    assert (IC : In c cs) by (eapply nth_error_In; eauto). rewrite Forall_forall in IH, H4. destruct (IH c IC (H4 c IC)) as [c' [s [E [S1 [S2 [P _]]]]]]. rewrite E. cbn [bind].
    exists (Inner (Some m0) (upd cs i c')), s. split; auto. rewrite U. assert (LL : length (a ++ c' :: b) = length cs) by (rewrite EC, !app_length; reflexivity). split; [|split; [|split]]; auto.
    + constructor; [lia|]. rewrite Forall_forall. intros x Ix. apply in_app_iff in Ix. destruct Ix as [Ix|[<-|Ix]]; auto; apply H4; rewrite EC; apply in_app_iff; [left|right; right]; auto.
    + cbn [entries]. rewrite EC, !flat_map_app. cbn [flat_map]. apply perm_mid; auto.
    + exists (a ++ c' :: b). split; auto.
Qed.

(* ---- the whole tree ---- *)
Lemma inner_step mx mn r m cs : (1 <= mn)%nat -> (2 * mn <= mx + 1)%nat -> Forall (solid mn mx) cs -> cs <> [] ->
  exists a c b c' s, cs = a ++ c :: b /\ insert_down mx mn r c = Ok (c', s) /\ insert_down mx mn r (Inner m cs) = Ok (Inner m (a ++ c' :: b), s) /\
    solid mn mx c' /\ match s with None => True | Some n => solid mn mx n end /\ Permutation (entries c' ++ opt_entries s) (r :: entries c).
Proof.
  intros H1 H2 F NE. rewrite insert_down_inner. destruct (mbrs_ok _ _ _ F) as [ps [-> [E1 [E2 E3]]]]. cbn [bind].
  destruct (least_ok (map fst ps) r 0 None) as [i [-> Li]]; [destruct ps; [destruct cs; [congruence|discriminate]|discriminate]|]. cbn in Li. rewrite map_length, E3 in Li.
  destruct (nth_error cs i) as [c|] eqn:N; [|apply nth_error_None in N; lia]. destruct (upd_split cs i c N) as [a [b [EC [LA U]]]].
  assert (IC : In c cs) by (eapply nth_error_In; eauto). rewrite Forall_forall in F. destruct (insert_down_ok mx mn r H1 H2 c (F c IC)) as [c' [s [E [S1 [S2 [P _]]]]]].
  exists a, c, b, c', s. rewrite E. cbn [bind]. rewrite U. repeat split; auto.
Qed.
Lemma forall_mid {A} (P : A -> Prop) a c b c' : Forall P (a ++ c :: b) -> P c' -> Forall P (a ++ c' :: b).
Proof. rewrite !Forall_app. intros [X Y] Hc. inversion Y; subst. split; auto. Qed.
Lemma insert_ok mx mn r t : (1 <= mn)%nat -> (2 * mn <= mx + 1)%nat -> (2 <= mx)%nat -> solid_root mn mx t ->
  exists t', insert mx mn t r = Ok t' /\ solid_root mn mx t' /\ Permutation (entries t') (r :: entries t).
Proof.
  intros H1 H2 H3 S. unfold insert. destruct t as [m es|m cs].
  - cbn in S. cbn [insert_down]. cbn zeta. rewrite app_length. cbn [length]. destruct (mx <? length es + 1)%nat eqn:Q.
    + apply Nat.ltb_lt in Q. assert (LL : length (leaf_pairs sh (es ++ [r])) = (length es + 1)%nat) by (unfold leaf_pairs; rewrite map_length, app_length; reflexivity).
      destruct (split_ok mn (leaf_pairs sh (es ++ [r])) H1) as [a [b [E [P [[A1 A2] [B1 B2]]]]]]; [lia|]. rewrite E. cbn [bind make_leaf]. rewrite LL in *.
      eexists. split; [reflexivity|]. split.
      * split; [cbn; lia|]. constructor; [apply (solid_make_leaf mn mx a); auto; lia|]. constructor; [apply (solid_make_leaf mn mx b); auto; lia|constructor].
      * cbn. rewrite app_nil_r, <- map_app. rewrite P, leaf_pairs_snd. apply Permutation_sym, Permutation_cons_append.
    + apply Nat.ltb_ge in Q. cbn [bind]. eexists. split; [reflexivity|]. cbn. rewrite leaf_pairs_snd, app_length. cbn. split; [lia|]. apply Permutation_sym, Permutation_cons_append.
  - destruct S as [L F]. destruct (inner_step mx mn r m cs H1 H2 F) as [a [c [b [c' [s [EC [E [E2 [S1 [S2 P]]]]]]]]]]; [intro X; rewrite X in L; cbn in L; lia|].
    rewrite E2. cbn [bind]. assert (F' : Forall (solid mn mx) (a ++ c' :: b)) by (rewrite EC in F; eapply forall_mid; eauto).
    assert (LL : length (a ++ c' :: b) = length cs) by (rewrite EC, !app_length; reflexivity).
    destruct s as [n|].
    + assert (F2 : Forall (solid mn mx) ((a ++ c' :: b) ++ [n])) by (apply Forall_app; split; auto).
      destruct (mbrs_ok _ _ _ F2) as [ps [-> [E3 [E4 E5]]]]. cbn [bind]. rewrite app_length, LL in E5. cbn in E5.
      assert (PE : Permutation (flat_map entries (map snd ps)) (r :: entries (Inner m cs))).
      { rewrite E3, flat_map_app. cbn. rewrite app_nil_r. rewrite EC, !flat_map_app. cbn [flat_map]. apply perm_mid; auto. }
      rewrite E5. destruct (mx <? length cs + 1)%nat eqn:Q.
      * apply Nat.ltb_lt in Q. destruct (split_ok mn ps H1) as [pa [pb [E6 [P6 [[A1 A2] [B1 B2]]]]]]; [lia|]. rewrite E6. cbn [bind]. rewrite E5 in *.
        assert (F3 : Forall (solid mn mx) (map snd pa ++ map snd pb)). { rewrite <- map_app. rewrite Forall_forall. intros x Ix. rewrite Forall_forall in F2. apply F2. rewrite <- E3. eapply Permutation_in; [apply Permutation_map; exact P6|auto]. }
        apply Forall_app in F3. destruct F3 as [F3 F4]. eexists. split; [reflexivity|]. split.
        -- split; [cbn; lia|]. constructor; [apply solid_make_inner; auto; lia|]. constructor; [apply solid_make_inner; auto; lia|constructor].
        -- cbn [entries flat_map make_inner]. rewrite app_nil_r, <- flat_map_app, <- map_app. rewrite (Permutation_flat_map entries (Permutation_map snd P6)). exact PE.
      * apply Nat.ltb_ge in Q. eexists. split; [reflexivity|]. split; [|exact PE]. cbn. rewrite map_length, E3. split; [lia|auto].
    + eexists. split; [reflexivity|]. split; [split; [lia|auto]|]. cbn [opt_entries] in P. rewrite app_nil_r in P. cbn [entries]. rewrite EC, !flat_map_app. cbn [flat_map].
      assert (PM := perm_mid (flat_map entries a) (flat_map entries b) (entries c) (entries c') [] r). rewrite !app_nil_r in PM. apply PM. auto.
Qed.
Lemma insert_all_ok mx mn : (1 <= mn)%nat -> (2 * mn <= mx + 1)%nat -> (2 <= mx)%nat -> forall l t, solid_root mn mx t ->
  exists t', insert_all mx mn t l = Ok t' /\ solid_root mn mx t' /\ Permutation (entries t') (rev l ++ entries t).
Proof.
  intros H1 H2 H3. induction l as [|r l IH]; intros t S; cbn [insert_all]; [exists t; auto|].
  destruct (insert_ok mx mn r t H1 H2 H3 S) as [t1 [-> [S1 P1]]]. cbn [bind]. destruct (IH t1 S1) as [t2 [-> [S2 P2]]]. exists t2. split; auto. split; auto. rewrite P2, P1. cbn [rev]. rewrite <- app_assoc. reflexivity.
Qed.
Lemma empty_solid mn mx : solid_root mn mx (empty_tree sh).
Proof. cbn. lia. Qed.
Lemma stored mx mn l : (1 <= mn)%nat -> (2 * mn <= mx + 1)%nat -> (2 <= mx)%nat ->
  exists t, insert_all mx mn (empty_tree sh) l = Ok t /\ Permutation (entries t) l /\ occupied_root mn mx t.
Proof.
  intros H1 H2 H3. destruct (insert_all_ok mx mn H1 H2 H3 l (empty_tree sh) (empty_solid mn mx)) as [t [E [S P]]]. exists t. split; auto. cbn in P. rewrite app_nil_r in P. split; [rewrite P; apply Permutation_sym, Permutation_rev|apply solid_root_occupied; auto].
Qed.

(* ---- searching ---- *)
Fixpoint search_list (q : R) (l : list (rtree R)) : res (list R) :=
  match l with [] => Ok [] | c :: l' => do m <- mbr_of c ; do a <- (if meets sh m q then search q c else Ok []) ; do b <- search_list q l' ; Ok (a ++ b) end.
Lemma search_inner q m cs : search q (Inner m cs) = search_list q cs.
Proof. cbn [search]. induction cs as [|c cs IH]; cbn; auto. destruct (mbr_of c); cbn; auto. destruct (if meets sh a q then _ else _); cbn; auto. rewrite IH. auto. Qed.
Definition hits (q : R) (t : rtree R) : list R := filter (fun e => meets sh e q) (entries t).
Lemma search_list_sub mn mx q cs : Forall (solid mn mx) cs -> (forall c, In c cs -> exists l rest, search q c = Ok l /\ Permutation (l ++ rest) (hits q c)) ->
  exists l rest, search_list q cs = Ok l /\ Permutation (l ++ rest) (filter (fun e => meets sh e q) (flat_map entries cs)).
Proof.
  induction 1 as [|c cs S F IH]; intro H; cbn [search_list flat_map]; [exists [], []; auto|].
  destruct (solid_mbr _ _ _ S) as [m ->]. cbn [bind]. destruct IH as [l2 [r2 [E2 P2]]]; [intros; apply H; right; auto|].
  destruct (H c (or_introl eq_refl)) as [l1 [r1 [E1 P1]]]. unfold hits in P1. rewrite filter_app. destruct (meets sh m q).
  - rewrite E1. cbn [bind]. rewrite E2. cbn [bind]. exists (l1 ++ l2), (r1 ++ r2). split; auto. rewrite <- P1, <- P2, <- !app_assoc. apply Permutation_app_head. rewrite !app_assoc. apply Permutation_app_tail. apply Permutation_app_comm.
  - cbn [bind]. rewrite E2. cbn [bind app]. exists l2, (r2 ++ filter (fun e => meets sh e q) (entries c)). split; auto. rewrite app_assoc, P2. apply Permutation_app_comm.
Qed.
Lemma search_solid mn mx q t : solid mn mx t -> exists l rest, search q t = Ok l /\ Permutation (l ++ rest) (hits q t).
Proof.
  induction t as [m es|m cs IH] using rtree_ind2; intro S.
  - exists (filter (fun e => meets sh e q) es), []. cbn. rewrite app_nil_r. auto.
  - inversion S; subst. rewrite search_inner. apply (search_list_sub mn mx); auto. rewrite Forall_forall in *. intros. apply IH; auto.
Qed.
Lemma search_root mn mx q t : solid_root mn mx t -> exists l rest, search q t = Ok l /\ Permutation (l ++ rest) (hits q t).
Proof.
  destruct t as [m es|m cs]; intro S.
  - exists (filter (fun e => meets sh e q) es), []. cbn. rewrite app_nil_r. auto.
  - destruct S as [L F]. rewrite search_inner. apply (search_list_sub mn mx); auto. rewrite Forall_forall in F. intros. apply (search_solid mn mx). auto.
Qed.
Lemma perm_filter {A} (f : A -> bool) l l' : Permutation l l' -> Permutation (filter f l) (filter f l').
Proof. induction 1; cbn; auto; [destruct (f x); auto|destruct (f x), (f y); auto; constructor|eapply Permutation_trans; eauto]. Qed.
Lemma search_sound mx mn l q : (1 <= mn)%nat -> (2 * mn <= mx + 1)%nat -> (2 <= mx)%nat ->
  exists t found missed, insert_all mx mn (empty_tree sh) l = Ok t /\ search q t = Ok found /\ Permutation (found ++ missed) (filter (fun e => meets sh e q) l).
Proof.
  intros H1 H2 H3. destruct (insert_all_ok mx mn H1 H2 H3 l (empty_tree sh) (empty_solid mn mx)) as [t [E [S P]]]. destruct (search_root mn mx q t S) as [found [missed [E2 P2]]]. exists t, found, missed. split; auto. split; auto.
  rewrite P2. unfold hits. apply perm_filter. rewrite P. cbn. rewrite app_nil_r. apply Permutation_sym, Permutation_rev.
Qed.

(* ---- completeness while the tree has at most two levels ---- *)
Definition tight_leaf mn (t : rtree R) : Prop := exists es, t = make_leaf sh (leaf_pairs sh es) /\ (mn <= length es)%nat.
Definition flat mn (t : rtree R) : Prop := match t with Leaf _ _ => True | Inner _ cs => Forall (tight_leaf mn) cs end.
Lemma fold_meets {A} : lawful sh -> forall (l : list (R * A)) m q, (meets sh m q = true \/ exists p, In p l /\ meets sh (fst p) q = true) -> meets sh (fold_left (fun m x => union sh m (fst x)) l m) q = true.
Proof.
  intro LW. induction l as [|p l IH]; intros m q H; cbn [fold_left].
  - destruct H as [H|[p [[] _]]]; auto.
  - apply IH. destruct H as [H|[p' [[->|I] H]]]; [left; apply LW; auto|left; apply LW; auto|right; eauto].
Qed.
Lemma tight_search mn q c : lawful sh -> (1 <= mn)%nat -> tight_leaf mn c -> exists m, mbr_of c = Ok m /\ (if meets sh m q then search q c else Ok []) = Ok (hits q c).
Proof.
  intros LW H1 [es [-> L]]. destruct es as [|e es]; [cbn in L; lia|].
  exists (fold_left (fun m x => union sh m (fst x)) (leaf_pairs sh es) e). split; [reflexivity|].
  unfold hits. rewrite entries_make_leaf, leaf_pairs_snd. cbn [search make_leaf]. rewrite leaf_pairs_snd. destruct (meets sh (fold_left _ _ _) q) eqn:M; auto. f_equal. symmetry.
  assert (N : forall x, In x (e :: es) -> meets sh x q = false).
  { intros x I. destruct (meets sh x q) eqn:MX; auto. exfalso. assert (T : meets sh (fold_left (fun m x => union sh m (fst x)) (leaf_pairs sh es) e) q = true); [|congruence].
    apply fold_meets; auto. destruct I as [->|I]; [left; auto|]. right. exists (x, x). split; auto. unfold leaf_pairs. apply in_map_iff. eauto. }
  clear M L. induction (e :: es) as [|x xs IH]; cbn; auto. rewrite (N x) by (left; auto). apply IH. intros; apply N; right; auto.
Qed.
Lemma flat_search mn q t : lawful sh -> (1 <= mn)%nat -> flat mn t -> search q t = Ok (hits q t).
Proof.
  intros LW H1. destruct t as [m es|m cs]; intro F; [reflexivity|]. rewrite search_inner. unfold hits. cbn [entries]. cbn in F. induction F as [|c cs T F IH]; cbn [search_list flat_map]; auto.
  destruct (tight_search mn q c LW H1 T) as [mc [-> E]]. cbn [bind]. rewrite E. cbn [bind]. rewrite IH. cbn [bind]. rewrite filter_app. reflexivity.
Qed.
Lemma same_pairs (a : list (R * R)) : Forall (fun p => fst p = snd p) a -> a = leaf_pairs sh (map snd a).
Proof. induction 1 as [|[x y] a H F IH]; cbn; auto. cbn in H. subst. rewrite <- IH at 1. reflexivity. Qed.
Lemma pairs_same es : Forall (fun p : R * R => fst p = snd p) (leaf_pairs sh es).
Proof. unfold leaf_pairs. rewrite Forall_map. apply Forall_forall. reflexivity. Qed.
Lemma split_pairs_same (l a b : list (R * R)) : Forall (fun p => fst p = snd p) l -> Permutation (a ++ b) l -> a = leaf_pairs sh (map snd a) /\ b = leaf_pairs sh (map snd b).
Proof. intros F P. assert (FA : Forall (fun p => fst p = snd p) (a ++ b)) by (rewrite Forall_forall in *; intros x I; apply F; eapply Permutation_in; eauto). apply Forall_app in FA. split; apply same_pairs; tauto. Qed.
Lemma insert_down_tight mx mn r t : (1 <= mn)%nat -> (2 * mn <= mx + 1)%nat -> (match t with Leaf _ es => (length es <= mx)%nat | Inner _ _ => False end) -> 
  forall t' s, insert_down mx mn r t = Ok (t', s) -> match s with None => exists es, t' = make_leaf sh (leaf_pairs sh es) | Some n => tight_leaf mn t' /\ tight_leaf mn n end.
Proof.
  intros H1 H2 K t' s. destruct t as [m es|]; [|contradiction]. cbn [insert_down]. cbn zeta. rewrite app_length. cbn [length]. destruct (mx <? length es + 1)%nat eqn:Q.
  - apply Nat.ltb_lt in Q. assert (LL : length (leaf_pairs sh (es ++ [r])) = (length es + 1)%nat) by (unfold leaf_pairs; rewrite map_length, app_length; reflexivity).
    destruct (split_ok mn (leaf_pairs sh (es ++ [r])) H1) as [a [b [E [P [[A1 A2] [B1 B2]]]]]]; [lia|]. rewrite E. cbn [bind]. intro X. inversion X; subst.
    destruct (split_pairs_same _ a b (pairs_same _) P) as [PA PB]. split; [exists (map snd a)|exists (map snd b)]; rewrite map_length; split; auto; [rewrite <- PA|rewrite <- PB]; auto.
  - cbn [bind]. intro X. inversion X; subst. eauto.
Qed.
Lemma tight_entries mn cs : Forall (tight_leaf mn) cs -> (length cs * mn <= length (flat_map entries cs))%nat.
Proof. induction 1 as [|c cs T F IH]; cbn; auto. destruct T as [es [-> L]]. rewrite app_length, entries_make_leaf, leaf_pairs_snd. lia. Qed.
Lemma insert_flat mx mn r t t' : (1 <= mn)%nat -> (2 * mn <= mx + 1)%nat -> (2 <= mx)%nat -> solid_root mn mx t -> flat mn t -> (length (entries t) + 1 < (mx + 1) * mn)%nat -> insert mx mn t r = Ok t' -> flat mn t'.
Proof.
  intros H1 H2 H3 S F B. unfold insert. destruct t as [m es|m cs].
  - destruct (insert_down mx mn r (Leaf m es)) as [[t1 s]|] eqn:E; [|discriminate]. cbn [bind]. assert (T := insert_down_tight mx mn r (Leaf m es) H1 H2 S _ _ E). destruct s as [n|].
    + destruct T as [T1 T2]. destruct T1 as [es1 [-> L1]]. cbn [make_leaf]. intro X. injection X as <-. cbn. constructor; [exists es1; auto|]. constructor; auto.
    + destruct T as [es1 ->]. intro X. injection X as <-. cbn. auto.
  - destruct S as [L FS]. cbn in F. destruct (inner_step mx mn r m cs H1 H2 FS) as [a [c [b [c' [s [EC [E [E2 [S1 [S2 P]]]]]]]]]]; [intro X; rewrite X in L; cbn in L; lia|].
    rewrite E2. cbn [bind]. assert (TC : tight_leaf mn c) by (rewrite Forall_forall in F; apply F; rewrite EC; apply in_app_iff; right; left; auto).
    assert (SC : solid mn mx c) by (rewrite Forall_forall in FS; apply FS; rewrite EC; apply in_app_iff; right; left; auto).
    assert (KC : match c with Leaf _ es => (length es <= mx)%nat | Inner _ _ => False end) by (destruct TC as [es [-> _]]; inversion SC; subst; cbn; lia).
    assert (T := insert_down_tight mx mn r c H1 H2 KC c' s E).
    destruct s as [n|].
    + destruct T as [T1 T2]. assert (F2 : Forall (tight_leaf mn) ((a ++ c' :: b) ++ [n])) by (apply Forall_app; split; [rewrite EC in F; eapply forall_mid; eauto|auto]).
      assert (FS2 : Forall (solid mn mx) ((a ++ c' :: b) ++ [n])) by (apply Forall_app; split; [rewrite EC in FS; eapply forall_mid; eauto|auto]).
      destruct (mbrs_ok _ _ _ FS2) as [ps [-> [E3 [E4 E5]]]]. cbn [bind].
      assert (CNT := tight_entries mn _ F2). rewrite flat_map_app in CNT. cbn [flat_map] in CNT. rewrite app_nil_r in CNT.
      assert (PL : length (flat_map entries (a ++ c' :: b) ++ entries n) = S (length (flat_map entries cs))).
      { rewrite EC, !flat_map_app. cbn [flat_map]. rewrite (Permutation_length (perm_mid _ _ _ _ _ _ P)). reflexivity. }
      cbn [entries] in B. rewrite PL in CNT. rewrite E5. destruct (mx <? length ((a ++ c' :: b) ++ [n]))%nat eqn:Q; [apply Nat.ltb_lt in Q; nia|].
      intro X. injection X as <-. cbn. rewrite E3. auto.
    + intro X. injection X as <-. cbn. destruct T as [es' ->]. rewrite EC in F. eapply forall_mid; eauto. exists es'. split; auto. cbn [opt_entries] in P. rewrite app_nil_r, entries_make_leaf, leaf_pairs_snd in P. apply Permutation_length in P. destruct TC as [es0 [-> L0]]. rewrite entries_make_leaf, leaf_pairs_snd in P. cbn in P. lia.
Qed.
Lemma search_small mx mn l q : lawful sh -> (1 <= mn)%nat -> (2 * mn <= mx + 1)%nat -> (2 <= mx)%nat -> (length l < (mx + 1) * mn)%nat ->
  exists t found, insert_all mx mn (empty_tree sh) l = Ok t /\ search q t = Ok found /\ Permutation found (filter (fun e => meets sh e q) l).
Proof.
  intros LW H1 H2 H3 B.
  assert (G : forall l t, solid_root mn mx t -> flat mn t -> (length l + length (entries t) < (mx + 1) * mn)%nat -> exists t', insert_all mx mn t l = Ok t' /\ flat mn t' /\ Permutation (entries t') (rev l ++ entries t)).
  { clear l B. induction l as [|r l IH]; intros t S F B; cbn [insert_all]; [exists t; auto|]. destruct (insert_ok mx mn r t H1 H2 H3 S) as [t1 [E1 [S1 P1]]]. rewrite E1. cbn [bind]. cbn [length] in B.
    assert (F1 : flat mn t1) by (eapply (insert_flat mx mn r t); eauto; lia). assert (L1 := Permutation_length P1). cbn in L1. destruct (IH t1 S1 F1) as [t2 [E2 [F2 P2]]]; [lia|].
    exists t2. split; auto. split; auto. rewrite P2, P1. cbn [rev]. rewrite <- app_assoc. reflexivity. }
  destruct (G l (empty_tree sh) (empty_solid mn mx) I) as [t [E [F P]]]; [cbn; lia|]. exists t, (hits q t). split; auto. split; [apply (flat_search mn); auto|]. unfold hits. apply perm_filter. rewrite P. cbn. rewrite app_nil_r. apply Permutation_sym, Permutation_rev.
Qed.

(* ---- what goes wrong in deeper trees ---- *)
Lemma insert_down_leaves mx mn (r : R) : forall t t' s, insert_down mx mn r t = Ok (t', s) ->
  match s with None => leaf_count t' = leaf_count t | Some n => (leaf_count t' = leaf_count t /\ leaf_count n = 1)%nat end.
Proof.
  induction t as [m es|m cs IH] using rtree_ind2; intros t' s.
  - cbn [insert_down]. cbn zeta. destruct (mx <? _)%nat.
    + destruct (split_children sh mn _) as [[a b]|]; [|discriminate]. cbn [bind]. intro X. injection X as <- <-. split; reflexivity.
    + intro X. injection X as <- <-. reflexivity.
  - rewrite insert_down_inner. destruct (mbrs_of cs) as [ps|]; [|discriminate]. cbn [bind]. destruct (least_enlargement _ _ _ _ _) as [i|]; [|discriminate]. destruct (nth_error cs i) as [c|] eqn:N; [|discriminate].
    destruct (insert_down mx mn r c) as [[c' s']|] eqn:E; [|discriminate]. cbn [bind]. intro X. injection X as <- <-. destruct (upd_split cs i c N) as [a [b [EC [LA U]]]]. rewrite U.
    rewrite Forall_forall in IH. assert (H := IH c (nth_error_In _ _ N) _ _ E).
    assert (L : leaf_count c' = leaf_count c) by (destruct s'; tauto). 
    assert (G : leaf_count (Inner m (a ++ c' :: b)) = leaf_count (Inner m cs)) by (unfold leaf_count in *; cbn [depths]; rewrite EC, !map_length, !flat_map_app; cbn [flat_map]; rewrite !app_length; lia).
    destruct s'; tauto.
Qed.
(* no split: the box of an inner child stays as it was *)
Lemma stale_search mx mn m cs (r : R) t' : Forall is_inner cs -> (forall c b, In c cs -> mbr_of c = Ok b -> meets sh b r = false) ->
  insert mx mn (Inner m cs) r = Ok t' -> leaf_count t' = leaf_count (Inner m cs) -> search r t' = Ok [].
Proof.
  intros FI D. unfold insert. destruct (insert_down mx mn r (Inner m cs)) as [[t1 s]|] eqn:E; [|discriminate]. cbn [bind]. assert (LC := insert_down_leaves mx mn r _ _ _ E). 
  assert (SH := E). rewrite insert_down_inner in SH. destruct (mbrs_of cs) as [ps|] eqn:EM; [|discriminate]. cbn [bind] in SH. destruct (least_enlargement _ _ _ _ _) as [i|]; [|discriminate]. destruct (nth_error cs i) as [c|] eqn:N; [|discriminate].
  destruct (insert_down mx mn r c) as [[c' s']|] eqn:E'; [|discriminate]. cbn [bind] in SH. injection SH as <- <-. destruct (upd_split cs i c N) as [a [b [EC [LA U]]]]. rewrite U in *.
  assert (MC : exists mc ccs, c = Inner mc ccs) by (rewrite Forall_forall in FI; assert (H := FI c (nth_error_In _ _ N)); destruct c; [contradiction|eauto]). destruct MC as [mc [ccs ->]].
  assert (MB : mbr_of c' = mbr_of (Inner mc ccs)). { rewrite insert_down_inner in E'. destruct (mbrs_of ccs); [|discriminate]. cbn [bind] in E'. destruct (least_enlargement _ _ _ _ _) as [k|]; [|discriminate]. destruct (nth_error ccs k) as [c0|]; [|discriminate]. destruct (insert_down mx mn r c0) as [[? ?]|]; [|discriminate]. cbn [bind] in E'. injection E' as <- <-. reflexivity. }
  destruct s' as [n|].
  - intros X LEQ. exfalso. destruct LC as [LC LN]. destruct (mbrs_of ((a ++ c' :: b) ++ [n])) as [ps2|] eqn:EP; [|discriminate]. cbn [bind] in X.
    assert (SND : forall (l : list (rtree R)) p, mbrs_of l = Ok p -> map snd p = l). { clear. induction l as [|x l IH]; intros p H; cbn in H; [injection H as <-; auto|]. destruct (mbr_of x); [|discriminate]. cbn in H. destruct (mbrs_of l); [|discriminate]. cbn in H. injection H as <-. cbn. f_equal. auto. }
    apply SND in EP. assert (CNT : leaf_count (Inner m (map snd ps2)) = (leaf_count (Inner m cs) + 1)%nat).
    { rewrite EP. rewrite <- LC, <- LN. unfold leaf_count. cbn [depths]. rewrite !map_length, !flat_map_app, !app_length. cbn [flat_map]. rewrite app_nil_r. reflexivity. }
    destruct (mx <? length ps2)%nat.
    + destruct (split_children sh mn ps2) as [[pa pb]|] eqn:ES; [|discriminate]. cbn [bind] in X. injection X as <-.
      assert (PP : Permutation (pa ++ pb) ps2).
      { unfold split_children in ES. cbn zeta in ES. destruct (margins sh _ _ _); [|discriminate]. cbn [bind] in ES. destruct (margins sh _ _ _); [|discriminate]. cbn [bind] in ES. destruct (distribution sh _ _ _) as [[[j g]|]|]; [|discriminate|discriminate]. cbn [bind] in ES. injection ES as <- <-. rewrite firstn_skipn. destruct (qle _ _); rewrite !sort_perm; reflexivity. }
      assert (Z : leaf_count (Inner None [make_inner sh pa; make_inner sh pb]) = leaf_count (Inner m (map snd ps2))).
      { unfold leaf_count. cbn [depths flat_map make_inner]. rewrite app_nil_r, !map_length, !app_length, !map_length. rewrite <- app_length, <- flat_map_app, <- map_app. apply Permutation_length. apply Permutation_flat_map, Permutation_map. auto. }
      unfold leaf_count in *. lia.
    + injection X as <-. unfold leaf_count in *. cbn [make_inner depths] in *. lia.
  - intros X LEQ. injection X as <-. rewrite search_inner.
    assert (D' : forall x bx, In x (a ++ c' :: b) -> mbr_of x = Ok bx -> meets sh bx r = false).
    { intros x bx I Hx. apply in_app_iff in I. destruct I as [I|[<-|I]]; [apply (D x); auto; rewrite EC; apply in_app_iff; auto|rewrite MB in Hx; apply (D (Inner mc ccs)); auto; eapply nth_error_In; eauto|apply (D x); auto; rewrite EC; apply in_app_iff; right; right; auto]. }
    assert (OKM : forall x, In x (a ++ c' :: b) -> exists bx, mbr_of x = Ok bx).
    { assert (ALL : forall (l : list (rtree R)) p, mbrs_of l = Ok p -> forall x, In x l -> exists bx, mbr_of x = Ok bx). { clear. induction l as [|y l IH]; intros p H x I; [contradiction|]. cbn in H. destruct (mbr_of y) eqn:Y; [|discriminate]. cbn in H. destruct (mbrs_of l); [|discriminate]. destruct I as [<-|I]; eauto. }
      intros x I. apply in_app_iff in I. destruct I as [I|[<-|I]]; [apply (ALL cs ps); auto; rewrite EC; apply in_app_iff; auto|rewrite MB; apply (ALL cs ps); auto; eapply nth_error_In; eauto|apply (ALL cs ps); auto; rewrite EC; apply in_app_iff; right; right; auto]. }
    clear - D' OKM. induction (a ++ c' :: b) as [|x l IH]; cbn [search_list]; auto. destruct (OKM x (or_introl eq_refl)) as [bx Hx]. rewrite Hx. cbn [bind]. rewrite (D' x bx (or_introl eq_refl) Hx). cbn [bind]. rewrite IH; [reflexivity| |]; intros; [eapply D'; eauto; right; auto|apply OKM; right; auto].
Qed.
Lemma unbalanced mx mn m cs (r : R) t' : (1 <= mn)%nat -> (2 * mn <= mx + 1)%nat -> Forall is_inner cs -> Forall (solid mn mx) cs -> (1 <= length cs < mx)%nat ->
  insert mx mn (Inner m cs) r = Ok t' -> leaf_count t' <> leaf_count (Inner m cs) -> In 1%nat (depths t') /\ exists d, (2 <= d)%nat /\ In d (depths t').
Proof.
  intros H1 H2 FI FS L. unfold insert. destruct (inner_step mx mn r m cs H1 H2 FS) as [a [c [b [c' [s [EC [E [E2 [S1 [S2 P]]]]]]]]]]; [intro X; rewrite X in L; cbn in L; lia|].
  rewrite E2. cbn [bind]. assert (LC := insert_down_leaves mx mn r _ _ _ E2). destruct s as [n|]; [|intros X NE; injection X as <-; congruence].
  assert (FS2 : Forall (solid mn mx) ((a ++ c' :: b) ++ [n])) by (apply Forall_app; split; [rewrite EC in FS; eapply forall_mid; eauto|auto]).
  destruct (mbrs_ok _ _ _ FS2) as [ps [-> [E3 [E4 E5]]]]. cbn [bind]. rewrite E5.
  assert (LL : length ((a ++ c' :: b) ++ [n]) = (length cs + 1)%nat) by (rewrite EC, !app_length; cbn; lia). rewrite LL. destruct (mx <? length cs + 1)%nat eqn:Q; [apply Nat.ltb_lt in Q; lia|].
  intros X _. injection X as <-. cbn [make_inner depths]. rewrite E3.
  assert (LEAF : forall t : rtree R, In 0%nat (depths t) <-> match t with Leaf _ _ => True | _ => False end). { intros [mm es|mm ccs]; cbn; [tauto|]. rewrite in_map_iff. split; [intros [x [X _]]; lia|tauto]. }
  assert (NL : match n with Leaf _ _ => True | _ => False end).
  { clear - E. revert c' n E. induction c as [mm es|mm ccs IH] using rtree_ind2; intros c' n E.
    - cbn [insert_down] in E. cbn zeta in E. destruct (mx <? _)%nat; [|discriminate]. destruct (split_children sh mn _) as [[x y]|]; [|discriminate]. cbn [bind] in E. injection E as <- <-. exact I.
    - rewrite insert_down_inner in E. destruct (mbrs_of ccs); [|discriminate]. cbn [bind] in E. destruct (least_enlargement _ _ _ _ _) as [k|]; [|discriminate]. destruct (nth_error ccs k) as [c0|] eqn:N; [|discriminate]. destruct (insert_down mx mn r c0) as [[? ?]|] eqn:E'; [|discriminate]. cbn [bind] in E. injection E as <- ->. rewrite Forall_forall in IH. eapply IH; eauto. eapply nth_error_In; eauto. }
  split.
  - apply in_map_iff. exists 0%nat. split; auto. apply in_flat_map. exists n. split; [apply in_app_iff; right; left; auto|]. apply LEAF. auto.
  - assert (IC' : is_inner c') by (assert (IC : is_inner c) by (rewrite Forall_forall in FI; apply FI; rewrite EC; apply in_app_iff; right; left; auto); destruct c as [|mc ccs]; [contradiction|];
      rewrite insert_down_inner in E; destruct (mbrs_of ccs); [|discriminate]; cbn [bind] in E; destruct (least_enlargement _ _ _ _ _) as [k|]; [|discriminate]; destruct (nth_error ccs k) as [c0|]; [|discriminate]; destruct (insert_down mx mn r c0) as [[? ?]|]; [|discriminate]; cbn [bind] in E; inversion E; subst; exact I).
    assert (SOME : forall t, solid mn mx t -> exists d, In d (depths t)).
    { induction t as [mm es|mm ccs IH] using rtree_ind2; intro SS; [exists 0%nat; cbn; auto|]. inversion SS as [|mm' ccs' LN FN]; subst. destruct ccs as [|x ccs]; [cbn in LN; lia|]. destruct (Forall_inv IH (Forall_inv FN)) as [d Hd]. exists (S d). cbn [depths]. apply in_map. cbn. apply in_app_iff. auto. }
    destruct (SOME c' S1) as [d Hd]. exists (S d). split; [|apply in_map; apply in_flat_map; exists c'; split; auto; apply in_app_iff; left; apply in_app_iff; right; left; auto].
    destruct d; [apply LEAF in Hd; destruct c'; contradiction|lia].
Qed.
Lemma unbalanced_reached mx mn (l : list R) r t t' : (1 <= mn)%nat -> (2 * mn <= mx + 1)%nat -> (2 <= mx)%nat -> insert_all mx mn (empty_tree sh) l = Ok t -> insert mx mn t r = Ok t' ->
  Forall is_inner (children t) -> (1 <= length (children t) < mx)%nat -> leaf_count t' <> leaf_count t -> In 1%nat (depths t') /\ exists d, (2 <= d)%nat /\ In d (depths t').
Proof.
  intros H1 H2 H3 E E' FI L NE. destruct (insert_all_ok mx mn H1 H2 H3 l (empty_tree sh) (empty_solid mn mx)) as [t0 [E0 [S _]]]. assert (t0 = t) by congruence. subst t0.
  destruct t as [m es|m cs]; [cbn in L; lia|]. destruct S as [_ FS]. apply (unbalanced mx mn m cs r); auto.
Qed.
(* too few children for two halves *)
Lemma no_room mx mn l (r : R) : length l = mx -> (mx + 1 < 2 * mn)%nat -> insert mx mn (Leaf None l) r = Err TypeError.
Proof.
  intros L H. unfold insert. cbn [insert_down]. cbn zeta. rewrite app_length. cbn [length]. replace (mx <? length l + 1)%nat with true by (symmetry; apply Nat.ltb_lt; lia).
  rewrite split_no_room; auto. unfold leaf_pairs. rewrite map_length, app_length. cbn. lia.
Qed.
Lemma fill mx mn : forall (l : list R) m es, (length es + length l <= mx)%nat -> exists m', insert_all mx mn (Leaf m es) l = Ok (Leaf m' (es ++ l)).
Proof.
  induction l as [|r l IH]; intros m es H; cbn [insert_all]; [rewrite app_nil_r; eauto|]. cbn [length] in H. unfold insert. cbn [insert_down]. cbn zeta. rewrite app_length. cbn [length].
  replace (mx <? length es + 1)%nat with false by (symmetry; apply Nat.ltb_ge; lia). cbn [bind]. unfold make_leaf. rewrite leaf_pairs_snd. destruct (IH (update_mbr sh (leaf_pairs sh (es ++ [r]))) (es ++ [r])) as [m' E]; [rewrite app_length; cbn; lia|].
  rewrite E. rewrite <- app_assoc. eauto.
Qed.
Lemma fill_fails mx mn l (r : R) : length l = mx -> ((mx + 1 < 2 * mn)%nat -> insert_all mx mn (empty_tree sh) (l ++ [r]) = Err TypeError) /\ (mn = 0%nat -> insert_all mx mn (empty_tree sh) (l ++ [r]) = Err IndexError).
Proof.
  intro L. assert (APP : forall (l1 : list R) t l2, insert_all mx mn t (l1 ++ l2) = (do t' <- insert_all mx mn t l1 ; insert_all mx mn t' l2)) by (induction l1 as [|x l1 IH]; intros t l2; cbn; auto; destruct (insert mx mn t x); cbn; auto).
  destruct (fill mx mn l None []) as [m E]; [cbn; lia|]. unfold empty_tree. rewrite APP, E. cbn [bind app insert_all]. unfold insert. cbn [insert_down]. cbn zeta. rewrite app_length. cbn [length]. replace (mx <? length l + 1)%nat with true by (symmetry; apply Nat.ltb_lt; lia).
  split; intro H.
  - rewrite split_no_room; auto. unfold leaf_pairs. rewrite map_length, app_length. cbn. lia.
  - subst mn. rewrite split_zero; auto. unfold leaf_pairs. intro X. apply (f_equal (@length _)) in X. rewrite map_length, app_length in X. cbn in X. lia.
Qed.
End S.
