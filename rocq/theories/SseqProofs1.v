(* Sorted sequences: the invariant and splicing. *)
From Coq Require Import List Arith ZArith Bool Sorted Lia.
From Verif Require Import Common ListLib SkipModel SkipSpec SkipProofs SkipProofs2 SseqModel SseqSpec.
Import ListNotations.

Section Sseq.
Context {V : Type}.
Notation node := (node V).
Notation item := (@item V).

Definition pv (h : list node) (a l : nat) : option nat :=
  match nth_error h a with Some n => nth_error (prev n) l | None => None end.
Lemma get_prev_ok h a l b : pv h a l = Some b -> get_prev h a l = Ok b.
Proof. unfold pv, get_prev, node_at. destruct (nth_error h a); [|discriminate]. cbn. intro H. now apply getR_Ok. Qed.
Lemma pv_lt h a l b : pv h a l = Some b -> l < plen h a.
Proof. unfold pv, plen. destruct (nth_error h a) as [n|]; [|discriminate]. intro H. now apply nth_error_lt in H. Qed.

Lemma set_succ_pv h a l v h' : set_succ h a l v = Ok h' -> forall x m, pv h' x m = pv h x m.
Proof.
  unfold set_succ, node_at, set_item. destruct (nth_error h a) as [n|] eqn:E; [|discriminate]. cbn [bind]. destruct (l <? length (succ n)); [|discriminate]. cbn [bind].
  intro H. injection H as <-. intros x m. unfold pv. rewrite nth_error_upd. pose proof (nth_error_lt _ _ _ E). destruct (Nat.eq_dec a x) as [->|]; auto.
  destruct (lt_dec x (length h)); [|lia]. now rewrite E.
Qed.
Lemma set_prev_pv h a l v h' : set_prev h a l v = Ok h' -> forall x m, pv h' x m = if (x =? a) && (m =? l) then Some v else pv h x m.
Proof.
  unfold set_prev, node_at, set_item. destruct (nth_error h a) as [n|] eqn:E; [|discriminate]. cbn [bind]. destruct (Nat.ltb_spec l (length (prev n))) as [L|]; [|discriminate]. cbn [bind].
  intro H. injection H as <-. intros x m. unfold pv. rewrite nth_error_upd. pose proof (nth_error_lt _ _ _ E). destruct (Nat.eq_dec a x) as [->|NX].
  - destruct (lt_dec x (length h)); [|lia]. rewrite Nat.eqb_refl. cbn. rewrite nth_error_upd. destruct (Nat.eqb_spec m l) as [->|M].
    + destruct (Nat.eq_dec l l); [|congruence]. destruct (lt_dec l (length (prev n))); [auto|lia].
    + destruct (Nat.eq_dec l m); [congruence|]. now rewrite E.
  - destruct (Nat.eqb_spec x a); [congruence|]. auto.
Qed.

(* ---- the invariant ---- *)
Record srep (h : list node) (H : nat) (l : list item) : Prop := {
  g_ent : forall i, In i l -> entry_ok h H (fst i) (snd i);
  g_nd : NoDup (HEAD :: TAIL :: map fst l);
  g_H : 1 <= H;
  g_head : hgt h HEAD = H /\ exists d, kd h HEAD = Some (KHead, d);
  g_tail : H <= plen h TAIL /\ exists d, kd h TAIL = Some (KTail, d);
  g_far : forall m, H <= m -> m < plen h TAIL -> pv h TAIL m = Some HEAD;
  g_path : forall m, m < H -> path (fun a => sc h a m) HEAD (fl h m (map fst l)) TAIL;
  g_prev : forall m a b, In a (HEAD :: map fst l) -> sc h a m = Some b -> pv h b m = Some a }.

Lemma srep_rep h H l : srep h H l -> sorted_items l -> rep h H (map fst l) (map snd l).
Proof.
  intros G S. split.
  - pose proof (g_ent _ _ _ G) as E. clear - E. induction l as [|i l IH]; cbn; constructor; [apply E; left; auto|]. apply IH. intros j J. apply E. right. auto.
  - exact S.
  - apply (g_H _ _ _ G).
  - apply (g_head _ _ _ G).
  - apply (g_tail _ _ _ G).
  - apply (g_path _ _ _ G).
Qed.
Lemma ent_of h H l a : srep h H l -> In a (map fst l) -> exists kv, entry_ok h H a kv.
Proof. intros G I. apply in_map_iff in I. destruct I as [i [<- I]]. exists (snd i). now apply (g_ent _ _ _ G). Qed.
Lemma not_ends h H l a : srep h H l -> In a (map fst l) -> a <> HEAD /\ a <> TAIL.
Proof.
  intros G I. pose proof (g_nd _ _ _ G) as ND. inversion ND as [|? ? N1 N2]; subst. inversion N2 as [|? ? N3 N4]; subst.
  split; intros ->; [apply N1; right; auto|apply N3; auto].
Qed.
Lemma hgt_le h H l a : srep h H l -> In a (HEAD :: map fst l) -> hgt h a <= H.
Proof. intros G [<-|I]; [rewrite (proj1 (g_head _ _ _ G)); auto|]. destruct (ent_of _ _ _ _ G I) as [kv [_ [B _]]]. lia. Qed.
Lemma alive h H l a : srep h H l -> In a (HEAD :: TAIL :: map fst l) -> a < length h.
Proof.
  intros G I. assert (K : kd h a <> None).
  { destruct I as [<-|[<-|I]]; [destruct (g_head _ _ _ G) as [_ [d ->]]|destruct (g_tail _ _ _ G) as [_ [d ->]]|destruct (ent_of _ _ _ _ G I) as [kv [-> _]]]; discriminate. }
  unfold kd in K. destruct (nth_error h a) eqn:E; [|congruence]. now apply nth_error_lt in E.
Qed.
Lemma path_in f e : forall L a x b, path f a L e -> In x (a :: L) -> f x = Some b -> In b (e :: L).
Proof.
  induction L as [|c L IH]; intros a x b P I F; cbn [path] in P.
  - destruct I as [<-|[]]. left. congruence.
  - destruct P as [P1 P2]. destruct I as [<-|I]; [right; left; congruence|]. destruct (IH c x b P2 I F) as [E|E]; [left; auto|right; right; auto].
Qed.
Lemma in_level h H l a m b : srep h H l -> In a (HEAD :: map fst l) -> sc h a m = Some b -> m < H /\ In a (HEAD :: fl h m (map fst l)).
Proof.
  intros G I E. apply sc_lt in E. pose proof (hgt_le _ _ _ _ G I). split; [lia|]. destruct I as [<-|I]; [left; auto|]. right. apply fl_in. auto.
Qed.
Lemma succ_in h H l a m b : srep h H l -> In a (HEAD :: map fst l) -> sc h a m = Some b -> In b (TAIL :: map fst l) /\ (b = TAIL \/ m < hgt h b).
Proof.
  intros G I E. destruct (in_level _ _ _ _ _ _ G I E) as [L J]. destruct (path_in _ _ _ _ _ _ (g_path _ _ _ G m L) J E) as [<-|K]; [split; left; auto|].
  apply fl_in in K. split; [right|right]; tauto.
Qed.
Lemma head_not_in h H l : srep h H l -> ~ In HEAD (TAIL :: map fst l).
Proof. intros G I. pose proof (g_nd _ _ _ G) as ND. inversion ND; subst. auto. Qed.
Lemma level_nodup h H l m : srep h H l -> NoDup (HEAD :: fl h m (map fst l)).
Proof.
  intros G. pose proof (g_nd _ _ _ G) as ND. inversion ND as [|? ? N1 N2]; subst. inversion N2 as [|? ? N3 N4]; subst. constructor.
  - intro I. apply fl_in in I. apply N1. right. tauto.
  - now apply fl_nodup.
Qed.
Lemma plen_of h H l b m : srep h H l -> In b (TAIL :: map fst l) -> b = TAIL \/ m < hgt h b -> m < H -> m < plen h b.
Proof.
  intros G [<-|I] B L.
  - pose proof (proj1 (g_tail _ _ _ G)). lia.
  - destruct (not_ends _ _ _ _ G I) as [_ N]. destruct (ent_of _ _ _ _ G I) as [kv [_ [_ ->]]]. destruct B; [contradiction|auto].
Qed.

(* ---- adding a node at one place of every level ---- *)
Lemma splice h h' H X Y n nh k v sg : srep h H (X ++ Y) -> ~ In n (HEAD :: TAIL :: map fst (X ++ Y)) -> 1 <= nh <= H ->
  let at_ := fun m => last (fl h m (map fst X)) HEAD in
  (forall m, m < nh -> sc h (at_ m) m = Some (sg m)) ->
  (forall x, x <> n -> hgt h' x = hgt h x /\ plen h' x = plen h x /\ kd h' x = kd h x) ->
  hgt h' n = nh -> plen h' n = nh -> kd h' n = Some (Key k, v) ->
  (forall x m, x <> n -> sc h' x m = if (m <? nh) && (x =? at_ m) then Some n else sc h x m) ->
  (forall m, m < nh -> sc h' n m = Some (sg m)) ->
  (forall x m, x <> n -> pv h' x m = if (m <? nh) && (x =? sg m) then Some n else pv h x m) ->
  (forall m, m < nh -> pv h' n m = Some (at_ m)) ->
  srep h' H (X ++ (n, (k, v)) :: Y).
Proof.
  intros G NI NH at_ SG FR HN PN KN SC SN PV PVN.
  assert (NH1 : n <> HEAD) by (intros ->; apply NI; left; auto). assert (NT1 : n <> TAIL) by (intros ->; apply NI; right; left; auto).
  assert (ML : map fst (X ++ (n, (k, v)) :: Y) = map fst X ++ n :: map fst Y) by (rewrite map_app; auto).
  assert (AT : forall m, In (at_ m) (HEAD :: map fst (X ++ Y))).
  { intro m. unfold at_. destruct (last_in (fl h m (map fst X)) HEAD) as [<-|I]; [left; auto|]. right. apply fl_in in I. rewrite map_app. apply in_or_app. tauto. }
  assert (SGI : forall m, m < nh -> In (sg m) (TAIL :: map fst (X ++ Y))) by (intros m L; apply (succ_in _ _ _ _ _ _ G (AT m) (SG m L))).
  split.
  - intros i I. apply in_app_or in I. assert (D : In i (X ++ Y) \/ i = (n, (k, v))) by (rewrite in_app_iff; destruct I as [I|[I|I]]; auto).
    destruct D as [D| ->].
    + assert (NE : fst i <> n). { intro E. apply NI. right. right. rewrite <- E. now apply in_map. }
      destruct (FR _ NE) as [F1 [F2 F3]]. unfold entry_ok. rewrite F1, F2, F3. now apply (g_ent _ _ _ G).
    + cbn [fst snd]. unfold entry_ok. rewrite HN, PN. cbn. auto.
  - rewrite ML. pose proof (g_nd _ _ _ G) as ND. rewrite map_app in ND, NI.
    change (HEAD :: TAIL :: map fst X ++ n :: map fst Y) with ((HEAD :: TAIL :: map fst X) ++ n :: map fst Y). apply NoDup_Add with (a := n) (l := (HEAD :: TAIL :: map fst X) ++ map fst Y).
    + apply Add_app.
    + split; auto.
  - apply (g_H _ _ _ G).
  - destruct (FR HEAD) as [-> [_ ->]]; auto. apply (g_head _ _ _ G).
  - destruct (FR TAIL) as [_ [-> ->]]; auto. apply (g_tail _ _ _ G).
  - intros m L1 L2. destruct (FR TAIL) as [_ [E _]]; auto. rewrite E in L2. rewrite PV by auto. destruct (Nat.ltb_spec m nh); [lia|]. cbn. now apply (g_far _ _ _ G).
  - intros m L. rewrite ML. pose proof (g_path _ _ _ G m L) as P. rewrite map_app, fl_app in P.
    assert (FE : forall Z0, (forall a, In a Z0 -> In a (map fst (X ++ Y))) -> fl h' m Z0 = fl h m Z0).
    { intros Z0 IZ. apply fl_ext. intros a I. destruct (FR a) as [-> _]; auto. intros ->. apply NI. right. right. auto. }
    change (map fst X ++ n :: map fst Y) with (map fst X ++ [n] ++ map fst Y). rewrite !fl_app.
    rewrite (FE (map fst X)), (FE (map fst Y)) by (intros a I; rewrite map_app; apply in_or_app; auto).
    assert (NIL : ~ In n (HEAD :: fl h m (map fst X) ++ fl h m (map fst Y))).
    { rewrite <- fl_app, <- map_app. intros [E|I]; [congruence|]. apply fl_in in I. apply NI. right. right. tauto. }
    destruct (Nat.ltb_spec m nh) as [LN|LN].
    + replace (fl h' m [n]) with [n] by (unfold fl; cbn [filter]; rewrite HN; destruct (Nat.ltb_spec m nh); [auto|lia]). cbn [app].
      apply path_insert with (f := fun a => sc h a m); auto.
      * rewrite <- fl_app, <- map_app. now apply (level_nodup _ _ _ _ G).
      * intros x X1 X2. rewrite SC by auto. fold (at_ m) in X1. destruct (Nat.eqb_spec x (at_ m)); [congruence|]. now rewrite andb_false_r.
      * fold (at_ m). rewrite SC. rewrite Nat.eqb_refl. destruct (Nat.ltb_spec m nh); [auto|lia]. intro E. destruct (AT m) as [A|A]; [apply NH1; rewrite <- E; symmetry; exact A|]. apply NI. right. right. rewrite <- E. exact A.
      * fold (at_ m). rewrite SN, SG; auto.
    + replace (fl h' m [n]) with (@nil nat) by (unfold fl; cbn [filter]; rewrite HN; destruct (Nat.ltb_spec m nh); [lia|auto]). cbn [app].
      apply path_frame with (f := fun a => sc h a m); auto. intros x I. rewrite SC. destruct (Nat.ltb_spec m nh); [lia|]. auto. intros ->. auto.
  - intros m a b I E. rewrite ML in I.
    assert (D : a = n \/ In a (HEAD :: map fst (X ++ Y))).
    { rewrite map_app. destruct I as [<-|I]; [right; left; auto|]. apply in_app_or in I. destruct I as [I|[I|I]]; auto; right; right; apply in_or_app; auto. }
    destruct D as [->|D].
    + assert (L : m < nh) by (rewrite <- HN; eapply sc_lt; eauto). rewrite SN in E by auto. injection E as <-.
      assert (sg m <> n). { intro E. destruct (SGI m L) as [A|A]; [apply NT1; rewrite <- E; symmetry; exact A|]. apply NI. right. right. rewrite <- E. exact A. }
      rewrite PV by auto. rewrite Nat.eqb_refl. destruct (Nat.ltb_spec m nh); [auto|lia].
    + assert (NA : a <> n). { intros ->. destruct D as [A|A]; [apply NH1; symmetry; exact A|]. apply NI. right. right. auto. }
      rewrite SC in E by auto. destruct (Nat.ltb_spec m nh) as [L|L]; cbn [andb] in E.
      * destruct (Nat.eqb_spec a (at_ m)) as [EA|NEA].
        -- injection E as <-. rewrite PVN; congruence.
        -- pose proof (g_prev _ _ _ G m a b D E) as P. pose proof (g_prev _ _ _ G m _ _ (AT m) (SG m L)) as P2.
           destruct (succ_in _ _ _ _ _ _ G D E) as [IB _]. assert (b <> n). { intros ->. destruct IB as [A|A]; [apply NT1; symmetry; exact A|]. apply NI. right. right. auto. }
           rewrite PV by auto. destruct (Nat.eqb_spec b (sg m)) as [->|]; [|now rewrite andb_false_r]. congruence.
      * pose proof (g_prev _ _ _ G m a b D E) as P. destruct (succ_in _ _ _ _ _ _ G D E) as [IB _].
        assert (b <> n). { intros ->. destruct IB as [A|A]; [apply NT1; symmetry; exact A|]. apply NI. right. right. auto. }
        rewrite PV by auto. destruct (Nat.ltb_spec m nh); [lia|]. auto.
Qed.

(* ---- taking a node out ---- *)
Lemma path_delete f g c b Y : forall X a, path f a (X ++ c :: Y) b -> NoDup (a :: X ++ c :: Y) ->
  (forall x, x <> last X a -> x <> c -> g x = f x) -> g (last X a) = f c -> path g a (X ++ Y) b.
Proof.
  induction X as [|x X IH]; intros a P ND G1 G2.
  - cbn [app last] in *. destruct P as [P1 P2]. inversion ND as [|? ? N1 N2]; subst. inversion N2 as [|? ? N3 N4]; subst.
    assert (F : forall y, In y Y -> g y = f y). { intros y Hy. apply G1; intros ->; auto. apply N1. right. auto. }
    destruct Y as [|d Y]; cbn [path] in *.
    + congruence.
    + destruct P2 as [Q1 Q2]. split; [congruence|]. apply path_frame with (f := f); auto.
  - rewrite last_cons in *. cbn [app path] in *. destruct P as [P1 P2]. inversion ND as [|? ? N1 N2]; subst. split.
    + rewrite G1; auto.
      * intros ->. destruct (last_in X x) as [E|E]; apply N1; [left; auto|right; apply in_or_app; auto].
      * intros ->. apply N1. right. apply in_or_app. right. left. auto.
    + apply IH; auto.
Qed.
Lemma cutout h h' H X Y c kv sg : srep h H (X ++ (c, kv) :: Y) ->
  let at_ := fun m => last (fl h m (map fst X)) HEAD in
  (forall m, m < hgt h c -> sc h c m = Some (sg m)) ->
  (forall x, hgt h' x = hgt h x /\ plen h' x = plen h x /\ kd h' x = kd h x) ->
  (forall x m, sc h' x m = if (m <? hgt h c) && (x =? at_ m) then sc h c m else sc h x m) ->
  (forall x m, pv h' x m = if (m <? hgt h c) && (x =? sg m) then Some (at_ m) else pv h x m) ->
  srep h' H (X ++ Y).
Proof.
  intros G at_ SG FR SC PV.
  assert (ML : map fst (X ++ (c, kv) :: Y) = map fst X ++ c :: map fst Y) by (rewrite map_app; auto).
  assert (IC : In c (HEAD :: map fst (X ++ (c, kv) :: Y))) by (rewrite ML; right; apply in_or_app; right; left; auto).
  assert (IXY : forall a, In a (map fst (X ++ Y)) -> In a (map fst (X ++ (c, kv) :: Y))).
  { intros a I. rewrite ML. rewrite map_app in I. apply in_app_or in I. apply in_or_app. destruct I; [left|right; right]; auto. }
  pose proof (g_nd _ _ _ G) as ND. rewrite ML in ND.
  assert (NC : ~ In c (HEAD :: TAIL :: map fst X ++ map fst Y)) by (apply (NoDup_remove_2 (HEAD :: TAIL :: map fst X) (map fst Y) c); exact ND).
  assert (HC : hgt h c <= H) by (eapply hgt_le; eauto).
  split.
  - intros i I. destruct (FR (fst i)) as [F1 [F2 F3]]. unfold entry_ok. rewrite F1, F2, F3. apply (g_ent _ _ _ G). apply in_app_or in I. apply in_or_app. destruct I; [left|right; right]; auto.
  - rewrite map_app. apply (NoDup_remove_1 (HEAD :: TAIL :: map fst X) (map fst Y) c). exact ND.
  - apply (g_H _ _ _ G).
  - destruct (FR HEAD) as [-> [_ ->]]; auto. apply (g_head _ _ _ G).
  - destruct (FR TAIL) as [_ [-> ->]]; auto. apply (g_tail _ _ _ G).
  - intros m L1 L2. destruct (FR TAIL) as [_ [E _]]; auto. rewrite E in L2. rewrite PV by auto. destruct (Nat.ltb_spec m (hgt h c)); [lia|]. cbn. now apply (g_far _ _ _ G).
  - intros m L. pose proof (g_path _ _ _ G m L) as P. rewrite ML in P. change (map fst X ++ c :: map fst Y) with (map fst X ++ [c] ++ map fst Y) in P. rewrite !fl_app in P.
    rewrite (fl_ext h h' m) by (intros; apply FR). rewrite map_app, fl_app.
    destruct (Nat.ltb_spec m (hgt h c)) as [LN|LN].
    + replace (fl h m [c]) with [c] in P by (unfold fl; cbn [filter]; destruct (Nat.ltb_spec m (hgt h c)); [auto|lia]). cbn [app] in P.
      apply path_delete with (f := fun a => sc h a m) (c := c); auto.
      * pose proof (level_nodup _ _ _ m G) as N. rewrite ML in N. change (map fst X ++ c :: map fst Y) with (map fst X ++ [c] ++ map fst Y) in N. rewrite !fl_app in N.
        replace (fl h m [c]) with [c] in N by (unfold fl; cbn [filter]; destruct (Nat.ltb_spec m (hgt h c)); [auto|lia]). exact N.
      * intros x X1 X2. rewrite SC. fold (at_ m) in X1. destruct (Nat.eqb_spec x (at_ m)); [congruence|]. now rewrite andb_false_r.
      * fold (at_ m). rewrite SC, Nat.eqb_refl. destruct (Nat.ltb_spec m (hgt h c)); [auto|lia].
    + replace (fl h m [c]) with (@nil nat) in P by (unfold fl; cbn [filter]; destruct (Nat.ltb_spec m (hgt h c)); [lia|auto]). cbn [app] in P.
      apply path_frame with (f := fun a => sc h a m); auto. intros x I. rewrite SC. destruct (Nat.ltb_spec m (hgt h c)); [lia|]. auto.
  - intros m a b I E. assert (D : In a (HEAD :: map fst (X ++ (c, kv) :: Y))) by (destruct I as [I|I]; [left; auto|right; auto]).
    assert (NA : a <> c). { intros ->. apply NC. rewrite map_app in I. destruct I as [I|I]; [left; auto|right; right; auto]. }
    rewrite SC in E. rewrite PV. destruct (Nat.ltb_spec m (hgt h c)) as [L|L]; cbn [andb] in *.
    + destruct (Nat.eqb_spec a (at_ m)) as [EA|NEA].
      * rewrite SG in E by auto. injection E as <-. rewrite Nat.eqb_refl. congruence.
      * pose proof (g_prev _ _ _ G m a b D E) as P. pose proof (g_prev _ _ _ G m _ _ IC (SG m L)) as P2.
        destruct (Nat.eqb_spec b (sg m)) as [->|]; congruence.
    + now apply (g_prev _ _ _ G).
Qed.
End Sseq.
