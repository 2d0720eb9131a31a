(* Sorted sequences: every call does what the list says. *)
From Coq Require Import List Arith ZArith Bool Sorted Lia.
From Verif Require Import Common ListLib SkipModel SkipSpec SkipProofs SkipProofs2 SseqModel SseqSpec SseqProofs1 SseqProofs2.
Import ListNotations.

Section Sseq.
Context {V : Type}.
Notation node := (node V).
Notation item := (@item V).

(* ---- values ---- *)
Lemma change_inf_ok (s : skip V) H X Y a k w v : srep (heap s) H (X ++ (a, (k, w)) :: Y) ->
  exists s', change_inf s a v = Ok s' /\ srep (heap s') H (X ++ (a, (k, v)) :: Y) /\ length (heap s') = length (heap s) /\ size s' = size s.
Proof.
  intro G. set (h := heap s) in *. unfold change_inf, node_at. fold h.
  assert (IA : In a (map fst (X ++ (a, (k, w)) :: Y))) by (rewrite map_app; apply in_or_app; right; left; auto).
  assert (LA : a < length h) by (eapply alive; eauto; right; right; auto).
  destruct (nth_error h a) as [n|] eqn:EN; [|apply nth_error_None in EN; lia]. cbn [bind]. eexists. split; [reflexivity|]. cbn [heap size].
  set (h' := upd h a _). split; [|split; [apply upd_length|auto]].
  assert (NE : forall x, nth_error h' x = if Nat.eq_dec a x then Some (mkNode (key n) v (succ n) (prev n)) else nth_error h x).
  { intro x. unfold h'. rewrite nth_error_upd. destruct (Nat.eq_dec a x) as [<-|]; auto. destruct (lt_dec a (length h)); [auto|lia]. }
  assert (SC : forall x l, sc h' x l = sc h x l). { intros x l. unfold sc. rewrite NE. destruct (Nat.eq_dec a x) as [<-|]; auto. now rewrite EN. }
  assert (PV : forall x l, pv h' x l = pv h x l). { intros x l. unfold pv. rewrite NE. destruct (Nat.eq_dec a x) as [<-|]; auto. now rewrite EN. }
  assert (HG : forall x, hgt h' x = hgt h x). { intros x. unfold hgt. rewrite NE. destruct (Nat.eq_dec a x) as [<-|]; auto. now rewrite EN. }
  assert (PL : forall x, plen h' x = plen h x). { intros x. unfold plen. rewrite NE. destruct (Nat.eq_dec a x) as [<-|]; auto. now rewrite EN. }
  assert (KD : forall x, x <> a -> kd h' x = kd h x). { intros x D. unfold kd. rewrite NE. destruct (Nat.eq_dec a x) as [<-|]; [congruence|auto]. }
  destruct (not_ends _ _ _ _ G IA) as [NH NT].
  assert (ML : map fst (X ++ (a, (k, v)) :: Y) = map fst (X ++ (a, (k, w)) :: Y)) by (rewrite !map_app; auto).
  pose proof (g_nd _ _ _ G) as ND. rewrite map_app in ND. pose proof (NoDup_remove_2 (HEAD :: TAIL :: map fst X) (map fst Y) a ND) as NA.
  split; rewrite ?ML.
  - intros i I. unfold entry_ok. rewrite HG, PL. apply in_app_or in I.
    assert (D : i = (a, (k, v)) \/ (In i (X ++ (a, (k, w)) :: Y) /\ fst i <> a)).
    { destruct I as [I|[I|I]]; auto; right; (split; [apply in_or_app; cbn; auto|]); intro E; apply NA; right; right; apply in_or_app; [left|right]; rewrite <- E; now apply in_map. }
    destruct D as [->|[D N]]; [|rewrite KD by auto; now apply (g_ent _ _ _ G)].
    destruct (g_ent _ _ _ G (a, (k, w))) as [E1 E2]; [apply in_or_app; right; left; auto|]. cbn [fst snd] in *. split; auto.
    unfold kd in *. rewrite NE. destruct (Nat.eq_dec a a); [|congruence]. rewrite EN in E1. cbn. congruence.
  - apply (g_nd _ _ _ G).
  - apply (g_H _ _ _ G).
  - rewrite HG, KD by auto. apply (g_head _ _ _ G).
  - rewrite PL, KD by auto. apply (g_tail _ _ _ G).
  - intros m L1 L2. rewrite PL in L2. rewrite PV. now apply (g_far _ _ _ G).
  - intros m L. rewrite (fl_ext h h' m) by auto. apply path_frame with (f := fun x => sc h x m); [apply (g_path _ _ _ G); auto|]. intros; apply SC.
  - intros m x b I E. rewrite SC in E. rewrite PV. now apply (g_prev _ _ _ G).
Qed.

(* ---- insertAt ---- *)
Lemma prv_snoc (X : list item) i : prv (X ++ [i]) = fst i.
Proof. unfold prv. rewrite map_app. cbn [map]. apply last_snoc. Qed.
Lemma in_node h H X Y a k w : srep h H (X ++ (a, (k, w)) :: Y) -> exists n : node, nth_error h a = Some n /\ key n = Key k.
Proof.
  intro G. destruct (g_ent _ _ _ G (a, (k, w))) as [E _]; [apply in_or_app; right; left; auto|]. unfold kd in E. cbn in E.
  destruct (nth_error h a) as [n|]; [|discriminate]. exists n. split; auto. now injection E.
Qed.
Lemma node_prev (h : list node) H X Y a kw : srep h H (X ++ (a, kw) :: Y) -> pv h a 0 = Some (prv X).
Proof.
  intro G. destruct (adjacent h H X ((a, kw) :: Y) G) as [m0 [np [nc [_ [_ [_ [_ [_ [_ E]]]]]]]]]; [destruct X; discriminate|]. cbn [nxt fst] in E.
  apply (g_prev _ _ _ G); auto. unfold prv. destruct (last_in (map fst X) HEAD) as [<-|I]; [left; auto|]. right. rewrite map_app. apply in_or_app. auto.
Qed.
Lemma node_next (h : list node) H X Y a kw : srep h H (X ++ (a, kw) :: Y) -> sc h a 0 = Some (nxt Y).
Proof.
  intro G. replace (X ++ (a, kw) :: Y) with ((X ++ [(a, kw)]) ++ Y) in G by (rewrite <- app_assoc; auto).
  destruct (adjacent h H (X ++ [(a, kw)]) Y G) as [m0 [np [nc [_ [_ [_ [_ [_ [_ E]]]]]]]]]; [destruct X; discriminate|].
  rewrite prv_snoc in E. exact E.
Qed.
Lemma head_next (h : list node) H l : srep h H l -> sc h HEAD 0 = Some (nxt l).
Proof.
  intro G. pose proof (g_path _ _ _ G 0 (g_H _ _ _ G)) as P. apply path_hd in P. rewrite P. f_equal.
  destruct l as [|i l]; [reflexivity|]. cbn [map nxt]. unfold fl. cbn [filter]. destruct (g_ent _ _ _ G i (or_introl eq_refl)) as [_ [B _]].
  destruct (Nat.ltb_spec 0 (hgt h (fst i))); [auto|lia].
Qed.
Lemma insert_at_old (s : skip V) H X Y a k w v : srep (heap s) H (X ++ (a, (k, w)) :: Y) ->
  exists s', insert_at s a k v = Ok (a, s') /\ srep (heap s') H (X ++ (a, (k, v)) :: Y) /\ length (heap s') = length (heap s) /\ size s' = size s.
Proof.
  intro G. unfold insert_at, node_at. destruct (in_node _ _ _ _ _ _ _ G) as [n [-> KN]]. cbn [bind]. rewrite KN. cbn [key_eq]. rewrite Z.eqb_refl.
  destruct (change_inf_ok s H X Y a k w v G) as [s' [-> Q]]. cbn [bind]. exists s'. auto.
Qed.
Lemma insert_at_after (s : skip V) H X Y a k ka w v : srep (heap s) H (X ++ (a, (ka, w)) :: Y) -> (ka < k)%Z ->
  exists s', insert_at s a k v = Ok (length (heap s), s') /\ srep (heap s') H (X ++ (a, (ka, w)) :: (length (heap s), (k, v)) :: Y) /\
   length (heap s') = S (length (heap s)) /\ size s' = (size s + 1)%Z.
Proof.
  intros G L. unfold insert_at, node_at. destruct (in_node _ _ _ _ _ _ _ G) as [n [EN KN]]. rewrite EN. cbn [bind]. rewrite KN. cbn [key_eq key_gt bind].
  destruct (Z.eqb_spec ka k); [lia|]. destruct (Z.ltb_spec ka k); [|lia]. cbn [bind].
  rewrite (get_succ_ok _ _ _ _ (node_next _ _ _ _ _ _ G)). cbn [bind]. rewrite EN. cbn [bind].
  replace (X ++ (a, (ka, w)) :: Y) with ((X ++ [(a, (ka, w))]) ++ Y) in G by (rewrite <- app_assoc; auto).
  destruct (insert_between (heap s) H (X ++ [(a, (ka, w))]) Y k v G) as [np [nc [h' [E1 [E2 [E3 [G' L']]]]]]]; [destruct X; discriminate|].
  rewrite prv_snoc in E1, E3. cbn [fst] in E1, E3. rewrite E2. cbn [bind]. rewrite EN in E1. injection E1 as <-. rewrite E3. cbn [bind].
  eexists. split; [reflexivity|]. cbn [heap size]. rewrite <- app_assoc in G'. auto.
Qed.
Lemma insert_at_before (s : skip V) H X Y a k ka w v : srep (heap s) H (X ++ (a, (ka, w)) :: Y) -> (k < ka)%Z ->
  exists s', insert_at s a k v = Ok (length (heap s), s') /\ srep (heap s') H (X ++ (length (heap s), (k, v)) :: (a, (ka, w)) :: Y) /\
   length (heap s') = S (length (heap s)) /\ size s' = (size s + 1)%Z.
Proof.
  intros G L. unfold insert_at, node_at. destruct (in_node _ _ _ _ _ _ _ G) as [n [EN KN]]. rewrite EN. cbn [bind]. rewrite KN. cbn [key_eq key_gt bind].
  destruct (Z.eqb_spec ka k); [lia|]. destruct (Z.ltb_spec ka k); [lia|]. cbn [bind].
  rewrite (get_prev_ok _ _ _ _ (node_prev _ _ _ _ _ _ G)). cbn [bind].
  destruct (insert_between (heap s) H X ((a, (ka, w)) :: Y) k v G) as [np [nc [h' [E1 [E2 [E3 [G' L']]]]]]]; [destruct X; discriminate|].
  destruct (adjacent (heap s) H X ((a, (ka, w)) :: Y) G) as [m0 [np' [nc' [_ [_ [_ [_ [_ [_ E]]]]]]]]]; [destruct X; discriminate|].
  rewrite (get_succ_ok _ _ _ _ E). cbn [bind]. rewrite E1. cbn [bind]. rewrite E2. cbn [bind]. rewrite E3. cbn [bind].
  eexists. split; [reflexivity|]. cbn [heap size]. auto.
Qed.

(* ---- reverseItems ---- *)
Lemma nodup_items h H (l : list item) : srep h H l -> NoDup (map fst l).
Proof. intro G. pose proof (g_nd _ _ _ G) as ND. inversion ND as [|? ? _ N]; subst. now inversion N. Qed.
Lemma reverse_ok b kb R X : forall P (s : skip V) H fuel a, srep (heap s) H (X ++ P ++ (b, kb) :: R) -> hd_error (map fst (P ++ [(b, kb)])) = Some a -> length P <= fuel ->
  exists s' H', reverse_items fuel s a b = Ok s' /\ srep (heap s') H' (X ++ (b, kb) :: rev P ++ R) /\ length (heap s') = length (heap s) /\ size s' = size s.
Proof.
  intros P. revert R. induction P as [|[c kc] P IH]; intros R s H fuel a G E L.
  - injection E as <-. exists s, H. destruct fuel; cbn [reverse_items]; rewrite Nat.eqb_refl; auto.
  - injection E as <-. destruct fuel as [|f]; [cbn in L; lia|]. cbn [reverse_items].
    pose proof (nodup_items _ _ _ G) as ND. rewrite map_app in ND. cbn [map app fst] in ND.
    destruct (Nat.eqb_spec c b) as [EQ|NB].
    { exfalso. subst c. apply NoDup_remove_2 in ND. apply ND. apply in_or_app. right. rewrite map_app. apply in_or_app. right. left. auto. }
    cbn [app] in G. rewrite (get_succ_ok _ _ _ _ (node_next _ _ _ _ _ _ G)). cbn [bind].
    destruct (del_item_ok s H X (P ++ (b, kb) :: R) c kc G) as [s1 [H1 [-> [G1 [L1 [Z1 K1]]]]]]. cbn [bind].
    assert (KC : kd (heap s1) c = Some (Key (fst kc), snd kc)).
    { rewrite K1. destruct (g_ent _ _ _ G (c, kc)) as [Q _]; [apply in_or_app; right; left; auto|]. exact Q. }
    replace (X ++ P ++ (b, kb) :: R) with ((X ++ P) ++ (b, kb) :: R) in G1 by (now rewrite <- app_assoc).
    pose proof (g_nd _ _ _ G) as ND0. rewrite map_app in ND0. pose proof (NoDup_remove_2 (HEAD :: TAIL :: map fst X) (map fst (P ++ (b, kb) :: R)) c ND0) as NC.
    destruct (put_after_ok s1 H1 (X ++ P) R b kb c (fst kc) (snd kc) G1) as [s2 [-> [G2 [L2 Z2]]]]; auto.
    { rewrite <- app_assoc, map_app. exact NC. }
    cbn [bind]. assert (SK : (fst kc, snd kc) = kc) by (now destruct kc). rewrite SK in G2. rewrite <- app_assoc in G2.
    destruct (IH ((c, kc) :: R) s2 H1 f (nxt (P ++ (b, kb) :: R))) as [s' [H' [-> [G' [L' Z']]]]]; auto.
    + destruct P as [|i P]; reflexivity.
    + cbn in L. lia.
    + exists s', H'. split; auto. split; [|split; lia]. cbn [rev]. rewrite <- !app_assoc. exact G'.
Qed.

(* ---- insert ---- *)
Lemma grow_srep (h : list node) H l nh : srep h H l -> exists hd tl, node_at h HEAD = Ok hd /\
  let h1 := upd h HEAD (mkNode (key hd) (data hd) (succ hd ++ repeat TAIL (nh - H)) (prev hd)) in
  node_at h1 TAIL = Ok tl /\
  let h2 := upd h1 TAIL (mkNode (key tl) (data tl) (succ tl) (prev tl ++ repeat HEAD (nh - H))) in
  length h2 = length h /\ srep h2 (max H nh) l /\ (forall a, a <> HEAD -> hgt h2 a = hgt h a).
Proof.
  intro G. destruct (g_head _ _ _ G) as [HH [dh KH]]. destruct (g_tail _ _ _ G) as [TP [dt KT]].
  pose proof (alive _ _ _ HEAD G (or_introl eq_refl)) as LH. pose proof (alive _ _ _ TAIL G (or_intror (or_introl eq_refl))) as LT.
  unfold hgt in HH. unfold kd in KH. unfold node_at at 1. assert (N0 : HEAD <> TAIL) by discriminate.
  destruct (nth_error h HEAD) as [hd|] eqn:E0; [|discriminate]. exists hd.
  unfold plen in TP. unfold kd in KT. destruct (nth_error h TAIL) as [tl|] eqn:E1; [|discriminate]. exists tl. split; auto.
  cbv zeta. set (h1 := upd h HEAD _).
  assert (L1 : length h1 = length h) by (unfold h1; apply upd_length).
  assert (E1' : nth_error h1 TAIL = Some tl) by (unfold h1; rewrite nth_error_upd_neq by auto; auto).
  split; [unfold node_at; now rewrite E1'|]. set (h2 := upd h1 TAIL _).
  split; [unfold h2; now rewrite upd_length|].
  assert (NE : forall a, a <> HEAD -> a <> TAIL -> nth_error h2 a = nth_error h a).
  { intros a A B. unfold h2, h1. rewrite !nth_error_upd_neq by auto. auto. }
  assert (NH : nth_error h2 HEAD = Some (mkNode (key hd) (data hd) (succ hd ++ repeat TAIL (nh - H)) (prev hd))).
  { unfold h2. rewrite nth_error_upd_neq by auto. unfold h1. apply nth_error_upd_eq. auto. }
  assert (NT : nth_error h2 TAIL = Some (mkNode (key tl) (data tl) (succ tl) (prev tl ++ repeat HEAD (nh - H)))).
  { unfold h2. apply nth_error_upd_eq. rewrite L1. auto. }
  assert (HG : forall a, a <> HEAD -> hgt h2 a = hgt h a).
  { intros a A. destruct (Nat.eq_dec a TAIL) as [->|B]; unfold hgt; [rewrite NT, E1; auto|now rewrite NE]. }
  split; auto.
  assert (SA : forall a m, a <> HEAD -> sc h2 a m = sc h a m).
  { intros a m A. destruct (Nat.eq_dec a TAIL) as [->|B]; unfold sc; [rewrite NT, E1; auto|now rewrite NE]. }
  assert (SH : forall m, m < H -> sc h2 HEAD m = sc h HEAD m) by (intros m L; unfold sc; rewrite NH, E0; cbn; apply nth_error_app1; lia).
  assert (SH2 : forall m, H <= m -> forall b, sc h2 HEAD m = Some b -> b = TAIL /\ m < max H nh).
  { intros m L b. unfold sc. rewrite NH. cbn. rewrite nth_error_app2 by lia. intro E. pose proof (nth_error_lt _ _ _ E) as Q. rewrite repeat_length in Q. rewrite nth_error_repeat in E by lia.
    injection E as <-. split; auto. lia. }
  assert (PT : forall m, m < plen h TAIL -> pv h2 TAIL m = pv h TAIL m).
  { intros m L. unfold pv, plen in *. rewrite NT, E1 in *. cbn. apply nth_error_app1. auto. }
  assert (PT2 : forall m, plen h TAIL <= m -> m < plen h2 TAIL -> pv h2 TAIL m = Some HEAD).
  { intros m A B. unfold pv, plen in *. rewrite NT in *. rewrite E1 in *. cbn in *. rewrite app_length, repeat_length in B. rewrite nth_error_app2 by lia. apply nth_error_repeat. lia. }
  assert (LT2 : plen h2 TAIL = plen h TAIL + (nh - H)) by (unfold plen; rewrite NT, E1; cbn; now rewrite app_length, repeat_length).
  assert (LP : H <= plen h TAIL) by (apply (g_tail _ _ _ G)).
  split.
  - intros i I. destruct (not_ends _ _ _ (fst i) G) as [A B]; [now apply in_map|]. destruct (g_ent _ _ _ G i I) as [Q1 [Q2 Q3]].
    unfold entry_ok. rewrite HG by auto. unfold kd, plen in *. rewrite NE by auto. repeat split; auto; lia.
  - apply (g_nd _ _ _ G).
  - pose proof (g_H _ _ _ G). lia.
  - unfold hgt, kd. rewrite NH. cbn. rewrite app_length, repeat_length. split; [lia|]. inversion KH. eauto.
  - rewrite LT2. split; [lia|]. unfold kd. rewrite NT. cbn. inversion KT. eauto.
  - intros m L2 L3. destruct (lt_dec m (plen h TAIL)) as [A|A]; [rewrite PT by auto; apply (g_far _ _ _ G); lia|]. apply PT2; lia.
  - intros m L. rewrite (fl_ext h h2 m) by (intros a I; apply HG, (not_ends _ _ _ _ G I)).
    destruct (lt_dec m H) as [A|A].
    + apply path_frame with (f := fun a => sc h a m); [now apply (g_path _ _ _ G)|]. intros x [<-|I]; [now apply SH|]. apply fl_in in I. apply SA. apply (not_ends _ _ _ _ G (proj1 I)).
    + assert (EF : fl h m (map fst l) = []).
      { destruct (fl h m (map fst l)) as [|a r] eqn:EF; auto. exfalso. assert (I : In a (fl h m (map fst l))) by (rewrite EF; left; auto). apply fl_in in I. destruct I as [I J].
        destruct (ent_of _ _ _ _ G I) as [kv [_ [B _]]]. lia. }
      rewrite EF. cbn. unfold sc. rewrite NH. cbn. rewrite nth_error_app2 by lia. apply nth_error_repeat. lia.
  - intros m a b I E.
    assert (PB : forall b', In b' (TAIL :: map fst l) -> b' <> TAIL -> pv h2 b' m = pv h b' m).
    { intros b' J N. unfold pv. rewrite NE; auto. intros ->. apply (head_not_in _ _ _ G J). }
    assert (OLD : sc h a m = Some b -> pv h2 b m = Some a).
    { intro E'. pose proof (g_prev _ _ _ G m a b I E') as P. destruct (succ_in _ _ _ _ _ _ G I E') as [J _].
      destruct (Nat.eq_dec b TAIL) as [->|N]; [rewrite PT; [auto|eapply pv_lt; eauto]|]. now rewrite PB. }
    destruct (Nat.eq_dec a HEAD) as [->|N]; [|apply OLD; now rewrite <- SA].
    destruct (lt_dec m H) as [A|A]; [apply OLD; now rewrite <- SH|]. destruct (SH2 m ltac:(lia) b E) as [-> B].
    destruct (lt_dec m (plen h TAIL)) as [C|C]; [rewrite PT by auto; apply (g_far _ _ _ G); lia|]. apply PT2; lia.
Qed.
Lemma cut_of (h : list node) H X Y k : around k X Y -> cut h H (map fst (X ++ Y)) (map snd (X ++ Y)) k (map fst X) (map fst Y) (map snd X) (map snd Y) None.
Proof.
  intros [A B]. split; cbn [app]; rewrite ?map_app; auto.
  - now rewrite !map_length.
  - apply Forall_forall. intros kv I. apply in_map_iff in I. destruct I as [i [<- I]]. rewrite Forall_forall in A. auto.
  - apply Forall_forall. intros kv I. apply in_map_iff in I. destruct I as [i [<- I]]. rewrite Forall_forall in B. auto.
Qed.
Lemma seq_insert_new (s : skip V) H X Y k v ht : srep (heap s) H (X ++ Y) -> sorted_items (X ++ Y) -> around k X Y ->
  exists s' H', seq_insert s k v ht = Ok (length (heap s), s') /\ srep (heap s') H' (X ++ (length (heap s), (k, v)) :: Y) /\
   length (heap s') = S (length (heap s)) /\ size s' = (size s + 1)%Z.
Proof.
  intros G St AR. pose proof (srep_rep _ _ _ G St) as R. pose proof (cut_of (heap s) H X Y k AR) as C. unfold seq_insert, insert.
  destruct (cut_scan_none _ _ _ _ _ _ _ _ _ _ R C eq_refl) as [pu [-> [LPV PV]]]. cbn [bind].
  rewrite (height_ok _ _ _ _ R). cbn [bind]. set (nh := ht + 1) in *.
  destruct (grow_srep _ _ _ nh G) as [hd [tl [-> Q]]]. cbn [bind]. cbv zeta in Q. destruct Q as [-> [L2 [G2 HG2]]]. cbn [bind].
  set (h2 := upd _ TAIL _) in *. set (H' := max H nh) in *. set (up := pu ++ repeat HEAD (nh - H)).
  assert (IA : forall a, In a (map fst X) -> In a (map fst (X ++ Y))) by (intros; rewrite map_app; apply in_or_app; auto).
  set (at_ := fun l => last (fl h2 l (map fst X)) HEAD).
  assert (UP : forall l, l < H' -> nth_error up l = Some (at_ l)).
  { intros l L. unfold up, at_. rewrite (fl_ext (heap s) h2 l) by (intros a I; apply HG2, (not_ends _ _ _ _ G (IA _ I))).
    destruct (lt_dec l H) as [LH|LH].
    - rewrite nth_error_app1 by lia. apply PV; auto.
    - rewrite nth_error_app2 by lia. rewrite nth_error_repeat by lia.
      assert (EF : fl (heap s) l (map fst X) = []); [|now rewrite EF].
      destruct (fl (heap s) l (map fst X)) as [|a r] eqn:EF; auto. exfalso. assert (I : In a (fl (heap s) l (map fst X))) by (rewrite EF; left; auto). apply fl_in in I. destruct I as [I J].
      destruct (ent_of _ _ _ _ G (IA _ I)) as [kv [_ [B _]]]. lia. }
  assert (AI : forall m, In (at_ m) (HEAD :: map fst (X ++ Y))).
  { intro m. unfold at_. destruct (last_in (fl h2 m (map fst X)) HEAD) as [<-|I]; [left; auto|]. right. apply fl_in in I. apply IA. tauto. }
  assert (HA : forall m, m < H' -> m < hgt h2 (at_ m)).
  { intros m L. unfold at_. destruct (last_in (fl h2 m (map fst X)) HEAD) as [<-|I]; [rewrite (proj1 (g_head _ _ _ G2)); auto|]. apply fl_in in I. tauto. }
  set (sg := fun l => match sc h2 (at_ l) l with Some b => b | None => 0 end).
  assert (SG : forall l, l < H' -> sc h2 (at_ l) l = Some (sg l)). { intros l L. unfold sg. destruct (sc_some h2 (at_ l) l (HA l L)) as [b ->]. auto. }
  rewrite collect_ok with (g := sg).
  2:{ intros i Hi. rewrite (proj2 (getR_Ok up i (at_ i))) by (apply UP; lia). cbn [bind]. apply get_succ_ok. apply SG. lia. }
  cbn [bind]. rewrite collect_ok with (g := at_).
  2:{ intros i Hi. apply getR_Ok, UP. lia. }
  cbn [bind]. set (ss := map sg (seq 0 nh)). set (ps := map at_ (seq 0 nh)).
  assert (LS : length ss = nh) by (unfold ss; now rewrite map_length, seq_length).
  assert (LPs : length ps = nh) by (unfold ps; now rewrite map_length, seq_length).
  assert (NS : forall l, l < nh -> nth_error ss l = Some (sg l)). { intros l L. unfold ss. rewrite (map_nth_error sg l (seq 0 nh) (d := l)); auto. rewrite nth_error_seq; auto. }
  assert (NP : forall l, l < nh -> nth_error ps l = Some (at_ l)). { intros l L. unfold ps. rewrite (map_nth_error at_ l (seq 0 nh) (d := l)); auto. rewrite nth_error_seq; auto. }
  clearbody ss ps. unfold new_node. rewrite L2. set (n := length (heap s)) in *. set (h0 := h2 ++ [mkNode (Key k) v ss ps]).
  assert (NO : forall a, a <> n -> nth_error h0 a = nth_error h2 a).
  { intros a N. destruct (lt_dec a n) as [L|L]; [unfold h0; apply nth_error_app1; rewrite L2; auto|]. transitivity (@None node); [|symmetry]; apply nth_error_None; unfold h0; rewrite ?app_length; cbn; lia. }
  assert (NW : nth_error h0 n = Some (mkNode (Key k) v ss ps)) by (unfold h0; rewrite nth_error_app2 by lia; rewrite L2, Nat.sub_diag; auto).
  assert (LA : forall a, In a (HEAD :: TAIL :: map fst (X ++ Y)) -> a < n) by (intros a I; rewrite <- L2; eapply alive; eauto).
  assert (ATN : forall m, at_ m <> n). { intros m E. pose proof (AI m) as I. rewrite E in I. assert (n < n); [|lia]. apply LA. destruct I as [I|I]; [left; auto|right; right; auto]. }
  assert (SGI : forall m, m < H' -> In (sg m) (TAIL :: map fst (X ++ Y))) by (intros m L; apply (succ_in _ _ _ _ _ _ G2 (AI m) (SG m L))).
  assert (SGN : forall m, m < H' -> sg m <> n). { intros m L E. pose proof (SGI m L) as I. rewrite E in I. assert (n < n); [|lia]. apply LA. right. auto. }
  rewrite LPs. destruct (link_full h0 n nh ss ps at_ sg) with (c := nh) (l := 0) (h := h0) as [h3 [-> [L3 [HG3 [PL3 [KD3 [SC3 PV3]]]]]]]; auto; try lia.
  { intros l L. unfold plen. rewrite NO by (apply SGN; lia). fold (plen h2 (sg l)). destruct (succ_in _ _ _ _ _ _ G2 (AI l) (SG l ltac:(lia))) as [J1 J2]. eapply plen_of; eauto. lia. }
  { intros l L. unfold hgt. rewrite NO by auto. apply HA. lia. }
  cbn [bind]. exists (mkSkip h3 (size s + 1)), H'. split; [reflexivity|]. cbn [heap size]. split; [|split; auto; rewrite L3; unfold h0; rewrite app_length; cbn; lia].
  apply (splice h2 h3 H' X Y n nh k v sg); auto.
  - intro I. apply LA in I. lia.
  - unfold H', nh. lia.
  - intros m L. apply SG. lia.
  - intros x N. rewrite HG3, PL3, KD3. unfold hgt, plen, kd. rewrite NO by auto. auto.
  - rewrite HG3. unfold hgt. rewrite NW. auto.
  - rewrite PL3. unfold plen. rewrite NW. auto.
  - rewrite KD3. unfold kd. rewrite NW. auto.
  - intros x m N. rewrite SC3. unfold sc. rewrite NO by auto. auto.
  - intros m L. rewrite SC3. destruct (Nat.eqb_spec n (at_ m)) as [E|_]; [exfalso; apply (ATN m); auto|]. rewrite andb_false_r. unfold sc. rewrite NW. cbn. auto.
  - intros x m N. rewrite PV3. unfold pv. rewrite NO by auto. auto.
  - intros m L. rewrite PV3. destruct (Nat.eqb_spec n (sg m)) as [E|_]; [exfalso; apply (SGN m); [lia|auto]|]. rewrite andb_false_r. unfold pv. rewrite NW. cbn. exact (NP m L).
Qed.
Lemma cut_old (h : list node) H X Y a k w : sorted_items (X ++ (a, (k, w)) :: Y) ->
  cut h H (map fst (X ++ (a, (k, w)) :: Y)) (map snd (X ++ (a, (k, w)) :: Y)) k (map fst X) (map fst Y) (map snd X) (map snd Y) (Some (a, w)).
Proof.
  intro St. unfold sorted_items in St. rewrite map_app in St. cbn [map snd] in St. destruct (strict_app _ _ St) as [S1 [S2 S3]].
  destruct (strict_app [(k, w)] (map snd Y) S2) as [_ [_ S4]]. split; rewrite ?map_app; auto.
  - now rewrite !map_length.
  - apply Forall_forall. intros kv I. apply (S3 kv (k, w)); [auto|left; auto].
  - apply Forall_forall. intros kv I. apply (S4 (k, w) kv); [left; auto|auto].
Qed.
Lemma seq_insert_old (s : skip V) H X Y a k w v ht : srep (heap s) H (X ++ (a, (k, w)) :: Y) -> sorted_items (X ++ (a, (k, w)) :: Y) ->
  exists s', seq_insert s k v ht = Ok (a, s') /\ srep (heap s') H (X ++ (a, (k, v)) :: Y) /\ length (heap s') = length (heap s) /\ size s' = size s.
Proof.
  intros G St. unfold seq_insert. destruct (cut_scan_some _ _ _ _ _ _ _ _ _ _ (srep_rep _ _ _ G St) (cut_old (heap s) H X Y a k w St) a w eq_refl) as [pu [-> _]]. cbn [bind].
  destruct (change_inf_ok s H X Y a k w v G) as [s' [-> Q]]. cbn [bind]. exists s'. auto.
Qed.

(* ---- all calls ---- *)
Definition inv (s : skip V) (st : nat * list item) : Prop := exists H, srep (heap s) H (snd st) /\ size s = Z.of_nat (length (snd st)) /\ fst st = length (heap s).
Lemma inv_new : inv skip_new (2, []).
Proof.
  exists 1. cbn [fst snd heap size skip_new]. split; [|split; reflexivity]. split.
  - intros i [].
  - constructor; [intros [E|[]]; discriminate|constructor; [intros []|constructor]].
  - lia.
  - split; [reflexivity|]. exists None. reflexivity.
  - split; [cbn; lia|]. exists None. reflexivity.
  - intros m A B. cbn in B. lia.
  - intros m L. assert (m = 0) by lia. subst. reflexivity.
  - intros m a b [<-|[]] E. destruct m as [|m]; cbn in E; [injection E as <-; reflexivity|destruct m; discriminate].
Qed.
Lemma step_inv s st o x st' : inv s st -> does st o x st' -> exists s', seq_step s o = Ok (x, s') /\ inv s' st'.
Proof.
  intros [H [G [Z N]]] D. destruct D; cbn [fst snd seq_step] in *.
  - destruct (seq_insert_old s H X Y a k w v ht G H0) as [s' [-> [G' [L' Z']]]]. cbn [bind]. exists s'. split; auto. exists H. cbn [fst snd]. split; auto. split; [|lia]. rewrite Z', Z, !app_length. reflexivity.
  - destruct (seq_insert_new s H X Y k v ht G H0 H1) as [s' [H' [-> [G' [L' Z']]]]]. cbn [bind]. exists s'. subst n. split; auto. exists H'. cbn [fst snd]. split; auto. split; [|lia]. rewrite Z', Z, !app_length. cbn [length]. lia.
  - destruct (insert_at_old s H X Y a k w v G) as [s' [-> [G' [L' Z']]]]. cbn [bind]. exists s'. split; auto. exists H. cbn [fst snd]. split; auto. split; [|lia]. rewrite Z', Z, !app_length. reflexivity.
  - destruct (insert_at_after s H X Y a k ka w v G H0) as [s' [-> [G' [L' Z']]]]. cbn [bind]. exists s'. subst n. split; auto. exists H. cbn [fst snd]. split; auto. split; [|lia]. rewrite Z', Z, !app_length. cbn [length]. lia.
  - destruct (insert_at_before s H X Y a k ka w v G H0) as [s' [-> [G' [L' Z']]]]. cbn [bind]. exists s'. subst n. split; auto. exists H. cbn [fst snd]. split; auto. split; [|lia]. rewrite Z', Z, !app_length. cbn [length]. lia.
  - destruct (del_item_ok s H X Y a kw G) as [s' [H' [-> [G' [L' [Z' _]]]]]]. cbn [bind]. exists s'. split; auto. exists H'. cbn [fst snd]. split; auto. split; [|lia]. rewrite Z', Z, !app_length. cbn [length]. lia.
  - destruct (exists_last (l := M)) as [P [[b' kb] ->]]; [intros ->; discriminate|]. rewrite rev_app_distr in H1 |- *. cbn [rev app map hd_error fst] in H1 |- *. injection H1 as ->.
    rewrite <- app_assoc in G. cbn [app] in G.
    destruct (reverse_ok b kb Y X P s H (length (heap s)) a G H0) as [s' [H' [-> [G' [L' Z']]]]].
    { pose proof (nodup_items _ _ _ G) as ND. assert (LE : length (map fst (X ++ P ++ (b, kb) :: Y)) <= length (seq 0 (length (heap s)))).
      { apply NoDup_incl_length; auto. intros y I. apply in_seq. split; [lia|]. cbn. eapply alive; eauto. right. right. auto. }
      rewrite map_length, seq_length, !app_length in LE. lia. }
    cbn [bind]. exists s'. split; auto. exists H'. cbn [fst snd]. split; [exact G'|]. split; [|lia]. rewrite Z', Z. rewrite !app_length. cbn [length]. rewrite !app_length, rev_length. cbn [length]. lia.
  - destruct (change_inf_ok s H X Y a k w v G) as [s' [-> [G' [L' Z']]]]. cbn [bind]. exists s'. split; auto. exists H. cbn [fst snd]. split; auto. split; [|lia]. rewrite Z', Z, !app_length. reflexivity.
Qed.
Lemma run_inv os : forall s st xs st', inv s st -> does_all st os xs st' -> exists s', seq_run s os = Ok (xs, s') /\ inv s' st'.
Proof.
  induction os as [|o os IH]; intros s st xs st' I D; inversion D; subst.
  - exists s. auto.
  - destruct (step_inv _ _ _ _ _ I H2) as [s1 [E1 I1]]. destruct (IH _ _ _ _ I1 H5) as [s2 [E2 I2]]. exists s2. cbn [seq_run]. rewrite E1. cbn [bind]. rewrite E2. auto.
Qed.
Lemma nxt_hd (Y : list item) h H X : srep h H (X ++ Y) -> (if nxt Y =? TAIL then None else Some (nxt Y)) = hd_error (map fst Y).
Proof.
  intro G. destruct Y as [|i Y]; cbn; auto. destruct (not_ends h H _ (fst i) G) as [_ N]; [rewrite map_app; apply in_or_app; right; left; auto|].
  destruct (Nat.eqb_spec (fst i) TAIL); [contradiction|auto].
Qed.
Lemma prv_hd (X : list item) h H Y : srep h H (X ++ Y) -> (if prv X =? HEAD then None else Some (prv X)) = hd_error (map fst (rev X)).
Proof.
  intro G. unfold prv. destruct (list_eq_dec Nat.eq_dec (map fst X) []) as [E|N]; [apply map_eq_nil in E; subst; reflexivity|].
  destruct X as [|i0 X0]; [exfalso; apply N; reflexivity|]. destruct (exists_last (l := i0 :: X0)) as [X' [i E]]; [discriminate|]. rewrite E in *. rewrite map_app. cbn [map]. rewrite last_snoc, rev_app_distr. cbn [rev app map hd_error fst].
  destruct (not_ends h H _ (fst i) G) as [NH _]; [rewrite !map_app; apply in_or_app; left; apply in_or_app; right; left; auto|].
  destruct (Nat.eqb_spec (fst i) HEAD); [contradiction|auto].
Qed.
Lemma inv_shows s st : inv s st -> shows s (snd st).
Proof.
  intros [H [G [Z N]]]. set (l := snd st) in *. split.
  - apply iter_ok with (ns := map fst l).
    + pose proof (g_path _ _ _ G 0 (g_H _ _ _ G)) as P.
      assert (F : fl (heap s) 0 (map fst l) = map fst l).
      { unfold fl. assert (Q : forall a, In a (map fst l) -> 0 < hgt (heap s) a). { intros a I. destruct (ent_of _ _ _ _ G I) as [kv [_ [B _]]]. lia. }
        clear - Q. induction (map fst l) as [|a r IH]; cbn [filter]; auto. destruct (Nat.ltb_spec 0 (hgt (heap s) a)); [|specialize (Q a (or_introl eq_refl)); lia]. f_equal. apply IH. intros b I. apply Q. right; auto. }
      rewrite F in P. apply path_level; auto.
      * intro I. destruct (not_ends _ _ _ _ G I). congruence.
      * pose proof (nodup_items _ _ _ G) as ND. assert (LE : length (map fst l) <= length (seq 0 (length (heap s)))).
        { apply NoDup_incl_length; auto. intros y I. apply in_seq. split; [lia|]. cbn. eapply alive; eauto. right. right. auto. }
        rewrite seq_length in LE. auto.
    + pose proof (g_ent _ _ _ G) as E. clear - E. unfold items_of. induction l as [|i l IH]; cbn; constructor; [apply (E i); left; auto|]. apply IH. intros j J. apply E. right. auto.
  - exact Z.
  - unfold seq_min, seq_empty. rewrite Z. destruct l as [|i l'] eqn:El; [reflexivity|]. cbn [length]. destruct (Z.eqb_spec (Z.of_nat (S (length l'))) 0); [lia|].
    rewrite (get_succ_ok _ _ _ _ (head_next _ _ _ G)). reflexivity.
  - intros X [a kw] Y E. rewrite E in G. unfold seq_succ. cbn [fst]. rewrite (get_succ_ok _ _ _ _ (node_next _ _ _ _ _ _ G)). cbn [bind]. f_equal.
    apply (nxt_hd Y (heap s) H (X ++ [(a, kw)])). rewrite <- app_assoc. exact G.
  - intros X [a kw] Y E. rewrite E in G. unfold seq_pred. cbn [fst]. rewrite (get_prev_ok _ _ _ _ (node_prev _ _ _ _ _ _ G)). cbn [bind]. f_equal. now apply (prv_hd X (heap s) H ((a, kw) :: Y)).
  - intros St k. pose proof (srep_rep _ _ _ G St) as R.
    destruct (cut_exists (heap s) H k _ _ (r_ent _ _ _ _ R) (r_sort _ _ _ _ R)) as [nA [nB [kA [kB [o C]]]]]. unfold lookup. destruct o as [[x w]|].
    + destruct (cut_scan_some _ _ _ _ _ _ _ _ _ _ R C x w eq_refl) as [pu [-> _]]. cbn [bind]. exists (Some x). split; auto.
      pose proof (c_ns _ _ _ _ _ _ _ _ _ _ C) as E1. pose proof (c_kv _ _ _ _ _ _ _ _ _ _ C) as E2. pose proof (c_len _ _ _ _ _ _ _ _ _ _ C) as E3. cbn [app] in E1, E2.
      assert (IN : In (x, (k, w)) l).
      { clear - E1 E2 E3. revert nA kA E1 E2 E3. induction l as [|i l IH]; intros nA kA E1 E2 E3; [destruct nA; discriminate|].
        destruct nA as [|a nA], kA as [|b kA]; try discriminate; cbn in E1, E2.
        - injection E1 as E1 _. injection E2 as E2 _. left. destruct i; cbn in *; congruence.
        - injection E1 as _ E1. injection E2 as _ E2. right. apply (IH nA kA); auto. }
      intro a. split; [intro E; injection E as <-; exists w; auto|]. intros [v I]. f_equal.
      pose proof (g_ent _ _ _ G _ IN) as [Q1 _]. pose proof (g_ent _ _ _ G _ I) as [Q2 _]. cbn [fst snd] in Q1, Q2.
      unfold sorted_items, strict in St. clear - St IN I. assert (ND : NoDup (map fst (map snd l))).
      { clear - St. induction St as [|z r S1 IH F]; constructor; auto. intro I. rewrite Forall_forall in F. specialize (F z I). lia. }
      clear St. induction l as [|i l IH]; [destruct I|]. inversion ND as [|? ? N1 N2]; subst. destruct I as [->|I], IN as [J|J].
      * congruence.
      * exfalso. apply N1. cbn. apply in_map_iff. exists (k, w). split; auto. apply in_map_iff. exists (x, (k, w)). auto.
      * exfalso. subst i. apply N1. cbn. apply in_map_iff. exists (k, v). split; auto. apply in_map_iff. exists (a, (k, v)). auto.
      * auto.
    + destruct (cut_scan_none _ _ _ _ _ _ _ _ _ _ R C eq_refl) as [pu [-> _]]. cbn [bind]. exists None. split; auto. intro a. split; [discriminate|]. intros [v I]. exfalso.
      pose proof (c_kv _ _ _ _ _ _ _ _ _ _ C) as E2. cbn [app] in E2. assert (J : In (k, v) (map snd l)) by (apply in_map_iff; exists (a, (k, v)); auto).
      rewrite E2 in J. destruct C as [_ _ _ F1 F2]. rewrite Forall_forall in F1, F2. apply in_app_or in J. destruct J as [J|J]; [specialize (F1 _ J)|specialize (F2 _ J)]; cbn in *; lia.
Qed.
Lemma sequence_refines (os : list (sop V)) xs n (l : list item) : does_all (2, []) os xs (n, l) -> exists s, seq_run skip_new os = Ok (xs, s) /\ shows s l.
Proof. intro D. destruct (run_inv _ _ _ _ _ inv_new D) as [s [E I]]. exists s. split; auto. exact (inv_shows _ _ I). Qed.

(* ---- locate ---- *)
Lemma locate_absent (s : skip V) n X Y k : inv s (n, X ++ Y) -> sorted_items (X ++ Y) -> around k X Y -> locate s k = Ok (nxt Y).
Proof.
  intros [H [G _]] St AR. cbn [snd] in G. unfold locate. destruct (cut_scan_none _ _ _ _ _ _ _ _ _ _ (srep_rep _ _ _ G St) (cut_of (heap s) H X Y k AR) eq_refl) as [pu [-> [L PV]]]. cbn [bind].
  pose proof (g_H _ _ _ G). rewrite (proj2 (getR_Ok pu 0 (last (fl (heap s) 0 (map fst X)) HEAD))) by (apply PV; lia). cbn [bind]. apply get_succ_ok.
  pose proof (g_path _ _ _ G 0 ltac:(lia)) as P. rewrite map_app, fl_app in P. apply path_tail, path_hd in P. etransitivity; [exact P|]. f_equal.
  destruct Y as [|i Y]; [reflexivity|]. cbn [map nxt]. unfold fl. cbn [filter]. destruct (g_ent _ _ _ G i) as [_ [B _]]; [apply in_or_app; right; left; auto|].
  destruct (Nat.ltb_spec 0 (hgt (heap s) (fst i))); [auto|lia].
Qed.
Lemma locate_present (s : skip V) n X Y a k w : inv s (n, X ++ (a, (k, w)) :: Y) -> sorted_items (X ++ (a, (k, w)) :: Y) -> locate s k = Ok (nxt (X ++ (a, (k, w)) :: Y)).
Proof.
  intros [H [G _]] St. cbn [snd] in G. unfold locate.
  destruct (cut_scan_some _ _ _ _ _ _ _ _ _ _ (srep_rep _ _ _ G St) (cut_old (heap s) H X Y a k w St) a w eq_refl) as [pu [-> [L PV]]]. cbn [bind].
  destruct (g_ent _ _ _ G (a, (k, w))) as [_ [B _]]; [apply in_or_app; right; left; auto|]. cbn [fst] in B.
  rewrite (proj2 (getR_Ok pu 0 HEAD)) by (apply PV; lia). cbn [bind]. apply get_succ_ok. now apply (head_next _ _ _ G).
Qed.
Lemma locate_run (os : list (sop V)) xs n l (s : skip V) : does_all (2, []) os xs (n, l) -> seq_run skip_new os = Ok (xs, s) -> inv s (n, l).
Proof. intros D E. destruct (run_inv _ _ _ _ _ inv_new D) as [s' [E' I]]. rewrite E in E'. injection E' as <-. auto. Qed.
End Sseq.
