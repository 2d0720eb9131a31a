(* Sorted sequences: the writes of the operations. *)
From Coq Require Import List Arith ZArith Bool Sorted Lia.
From Verif Require Import Common ListLib SkipModel SkipSpec SkipProofs SkipProofs2 SseqModel SseqSpec SseqProofs1.
Import ListNotations.

Section Sseq.
Context {V : Type}.
Notation node := (node V).
Notation item := (@item V).

(* ---- linking ---- *)
Lemma link_full (h0 : list node) (n nh : nat) (ss ps : list nat) (at_ sg : nat -> nat) :
  (forall l, l < nh -> nth_error ps l = Some (at_ l)) -> (forall l, l < nh -> nth_error ss l = Some (sg l)) ->
  (forall l, l < nh -> l < plen h0 (sg l)) -> (forall l, l < nh -> l < hgt h0 (at_ l)) ->
  forall c l h, c + l = nh -> length h = length h0 -> (forall x, hgt h x = hgt h0 x) -> (forall x, plen h x = plen h0 x) -> (forall x, kd h x = kd h0 x) ->
  (forall x m, sc h x m = if (m <? l) && (x =? at_ m) then Some n else sc h0 x m) ->
  (forall x m, pv h x m = if (m <? l) && (x =? sg m) then Some n else pv h0 x m) ->
  exists h', link c l h n ss ps = Ok h' /\ length h' = length h0 /\ (forall x, hgt h' x = hgt h0 x) /\ (forall x, plen h' x = plen h0 x) /\ (forall x, kd h' x = kd h0 x) /\
  (forall x m, sc h' x m = if (m <? nh) && (x =? at_ m) then Some n else sc h0 x m) /\
  (forall x m, pv h' x m = if (m <? nh) && (x =? sg m) then Some n else pv h0 x m).
Proof.
  intros P1 P2 P3 P4. induction c as [|c IH]; intros l h E L0 HG PL KD SC PV; cbn [link].
  - exists h. cbn in E. subst l. auto 10.
  - rewrite (proj2 (getR_Ok ps l (at_ l))) by (apply P1; lia). cbn [bind].
    destruct (set_succ_ok h (at_ l) l n) as [h1 [E1 [A1 [A2 [A3 [A4 A5]]]]]]; [rewrite HG; apply P4; lia|]. pose proof (set_succ_pv _ _ _ _ _ E1) as A6. rewrite E1. cbn [bind].
    rewrite (proj2 (getR_Ok ss l (sg l))) by (apply P2; lia). cbn [bind].
    destruct (set_prev_ok h1 (sg l) l n) as [h2 [E2 [C1 [C2 [C3 [C4 C5]]]]]]; [rewrite A4, PL; apply P3; lia|]. pose proof (set_prev_pv _ _ _ _ _ E2) as C6. rewrite E2. cbn [bind].
    apply IH; try lia; intros; rewrite ?C3, ?A3, ?C4, ?A4, ?C5, ?A5; auto.
    + rewrite C2, A2, SC. destruct (Nat.eqb_spec m l) as [->|NM]; destruct (Nat.ltb_spec l (S l)); try lia.
      * rewrite Nat.ltb_irrefl. destruct (x =? at_ l); auto.
      * rewrite andb_false_r. destruct (Nat.ltb_spec m l); destruct (Nat.ltb_spec m (S l)); try lia; auto.
    + rewrite C6, A6, PV. destruct (Nat.eqb_spec m l) as [->|NM]; destruct (Nat.ltb_spec l (S l)); try lia.
      * rewrite Nat.ltb_irrefl. destruct (x =? sg l); auto.
      * rewrite andb_false_r. destruct (Nat.ltb_spec m l); destruct (Nat.ltb_spec m (S l)); try lia; auto.
Qed.

(* ---- neighbours ---- *)
Lemma same_repeat x m0 : forall L, (forall m y, nth_error L m = Some y -> (y = x <-> m < m0)) -> m0 <= length L -> same x L = repeat x m0.
Proof.
  revert m0. intros m0 L. revert m0. induction L as [|y L IH]; intros m0 E B; cbn in B.
  - assert (m0 = 0) by lia. subst. reflexivity.
  - cbn [same filter]. pose proof (E 0 y eq_refl) as E0. destruct m0 as [|m0].
    + destruct (Nat.eqb_spec y x) as [->|N]; [exfalso; assert (0 < 0) by (apply E0; auto); lia|]. apply (IH 0); [|lia]. intros m z Q. pose proof (E (S m) z Q). lia.
    + destruct (Nat.eqb_spec y x) as [->|N]; [|exfalso; apply N, E0; lia]. cbn [repeat]. f_equal. apply (IH m0); [|lia]. intros m z Q. pose proof (E (S m) z Q). lia.
Qed.
Lemma last_snoc {A} (X : list A) a d : last (X ++ [a]) d = a.
Proof. apply last_last. Qed.
Lemma at_has (h : list node) m X p : p = last X HEAD -> m < hgt h p -> last (fl h m X) HEAD = p.
Proof.
  intros -> L. destruct (list_eq_dec Nat.eq_dec X []) as [->|N]; [reflexivity|]. destruct (exists_last N) as [X' [y ->]]. rewrite last_snoc in *.
  rewrite fl_app. unfold fl at 2. cbn [filter]. destruct (Nat.ltb_spec m (hgt h y)); [|lia]. apply last_snoc.
Qed.
Lemma at_misses (h : list node) m X : ~ m < hgt h (last X HEAD) -> X <> [] -> ~ In HEAD X -> last (fl h m X) HEAD <> last X HEAD.
Proof.
  intros L D NH E. destruct (last_in (fl h m X) HEAD) as [A|A].
  - rewrite <- A in E. destruct (exists_last D) as [X' [y ->]]. rewrite last_snoc in E. apply NH. apply in_or_app. right. left. auto.
  - apply fl_in in A. rewrite E in A. tauto.
Qed.
Definition nxt (Y : list item) : nat := match Y with [] => TAIL | i :: _ => fst i end.
Definition prv (X : list item) : nat := last (map fst X) HEAD.
Lemma path_hd f a L e : path f a L e -> f a = Some (match L with [] => e | c :: _ => c end).
Proof. destruct L; cbn; tauto. Qed.
Lemma adjacent (h : list node) H X Y : srep h H (X ++ Y) -> X ++ Y <> [] -> exists m0 (np nc : node), 1 <= m0 <= H /\ nth_error h (prv X) = Some np /\ nth_error h (nxt Y) = Some nc /\
  same (nxt Y) (succ np) = repeat (nxt Y) m0 /\ same (prv X) (prev nc) = repeat (prv X) m0 /\
  (forall m, m < m0 -> last (fl h m (map fst X)) HEAD = prv X /\ sc h (prv X) m = Some (nxt Y)) /\ sc h (prv X) 0 = Some (nxt Y).
Proof.
  intros G NE. set (p := prv X). set (s := nxt Y).
  assert (IP : In p (HEAD :: map fst (X ++ Y))).
  { unfold p, prv. destruct (last_in (map fst X) HEAD) as [<-|I]; [left; auto|]. right. rewrite map_app. apply in_or_app. auto. }
  assert (IS : In s (TAIL :: map fst (X ++ Y))).
  { unfold s, nxt. destruct Y as [|i Y]; [left; auto|]. right. rewrite map_app. apply in_or_app. right. left. auto. }
  assert (HP : hgt h p <= H) by (eapply hgt_le; eauto).
  assert (HP1 : 1 <= hgt h p).
  { destruct IP as [<-|I]; [rewrite (proj1 (g_head _ _ _ G)); apply (g_H _ _ _ G)|]. destruct (ent_of _ _ _ _ G I) as [kv [_ [B _]]]. lia. }
  set (hs := match Y with [] => H | i :: _ => hgt h (fst i) end).
  assert (HS : 1 <= hs <= H).
  { unfold hs. destruct Y as [|i Y]; [pose proof (g_H _ _ _ G); lia|]. destruct (g_ent _ _ _ G i) as [_ [B _]]; [apply in_or_app; right; left; auto|]. lia. }
  assert (PM : forall m, m < H -> sc h (last (fl h m (map fst X)) HEAD) m = Some (match fl h m (map fst Y) with [] => TAIL | c :: _ => c end)).
  { intros m L. pose proof (g_path _ _ _ G m L) as P. rewrite map_app, fl_app in P. apply path_tail in P. exact (path_hd _ _ _ _ P). }
  assert (FB : forall m, m < H -> (match fl h m (map fst Y) with [] => TAIL | c :: _ => c end = s <-> m < hs)).
  { intros m L. unfold s, nxt, hs. destruct Y as [|i Y]; [cbn; tauto|]. cbn [map fl filter]. destruct (Nat.ltb_spec m (hgt h (fst i))) as [B|B]; [tauto|].
    split; [|lia]. intro E. exfalso. pose proof (g_nd _ _ _ G) as ND. rewrite map_app in ND. cbn [map] in ND.
    pose proof (NoDup_remove_2 (HEAD :: TAIL :: map fst X) (map fst Y) (fst i) ND) as N. apply N. fold (fl h m (map fst Y)) in E.
    destruct (fl h m (map fst Y)) as [|c r] eqn:F; [right; left; auto|]. subst c. assert (I : In (fst i) (fl h m (map fst Y))) by (rewrite F; left; auto). apply fl_in in I.
    apply in_or_app. right. tauto. }
  assert (AP : forall m, m < hgt h p -> last (fl h m (map fst X)) HEAD = p) by (intros m L; apply at_has; auto).
  assert (SP : forall m, m < hgt h p -> (sc h p m = Some s <-> m < hs)).
  { intros m L. rewrite <- (AP m L). rewrite PM by lia. rewrite <- FB by lia. split; [intro E; now injection E|congruence]. }
  assert (PS : forall m, m < H -> m < hs -> pv h s m = Some (last (fl h m (map fst X)) HEAD)).
  { intros m L1 L2. apply (g_prev _ _ _ G).
    - destruct (last_in (fl h m (map fst X)) HEAD) as [<-|I]; [left; auto|]. right. rewrite map_app. apply in_or_app. apply fl_in in I. tauto.
    - rewrite PM by auto. f_equal. apply FB; auto. }
  assert (NHX : ~ In HEAD (map fst X)).
  { intro I. apply (head_not_in _ _ _ G). right. rewrite map_app. apply in_or_app. auto. }
  assert (AM : forall m, m < hs -> (last (fl h m (map fst X)) HEAD = p <-> m < hgt h p)).
  { intros m L. split; [|apply AP]. intro E. destruct (lt_dec m (hgt h p)) as [B|B]; auto. exfalso.
    destruct X as [|i X]; [unfold p, prv in B; cbn in B; pose proof (proj1 (g_head _ _ _ G)); lia|]. revert E. unfold p. apply at_misses; auto. discriminate. }
  assert (LP : p < length h) by (eapply alive; eauto; destruct IP as [I|I]; [left; auto|right; right; auto]).
  assert (LS : s < length h) by (eapply alive; eauto; right; auto).
  destruct (nth_error h p) as [np|] eqn:EP; [|apply nth_error_None in EP; lia]. destruct (nth_error h s) as [nc|] eqn:ES; [|apply nth_error_None in ES; lia].
  exists (min (hgt h p) hs), np, nc. split; [lia|]. split; [auto|]. split; [auto|].
  assert (LPL : hs <= plen h s).
  { unfold s, nxt, hs. destruct Y as [|i Y]; [apply (g_tail _ _ _ G)|]. destruct (g_ent _ _ _ G i) as [_ [_ Q]]; [apply in_or_app; right; left; auto|]. lia. }
  split; [|split; [|split]].
  - apply same_repeat.
    + intros m y E. assert (SE : sc h p m = Some y) by (unfold sc; now rewrite EP). pose proof (sc_lt _ _ _ _ SE) as L. pose proof (SP m L) as Q. rewrite SE in Q.
      split; [intros ->; assert (m < hs) by (apply Q; auto); lia|]. intro B. assert (Some y = Some s) by (apply Q; lia). congruence.
    + unfold hgt. rewrite EP. lia.
  - apply same_repeat.
    + intros m y E. assert (SE : pv h s m = Some y) by (unfold pv; now rewrite ES). pose proof (pv_lt _ _ _ _ SE) as L. split.
      * intros ->. destruct (lt_dec m hs) as [B|B].
        -- rewrite PS in SE by lia. injection SE as SE. assert (m < hgt h p) by (apply (AM m B); auto). lia.
        -- exfalso. unfold s, nxt, hs in *. destruct Y as [|i Y].
           ++ assert (F : pv h TAIL m = Some HEAD) by (apply (g_far _ _ _ G); [lia|auto]). assert (PH : p = HEAD) by congruence.
              unfold p, prv in PH. destruct (list_eq_dec Nat.eq_dec (map fst X) []) as [Z|Z]; [apply map_eq_nil in Z; subst X; apply NE; reflexivity|].
              destruct (exists_last Z) as [X' [z ZE]]. rewrite ZE, last_snoc in PH. apply NHX. rewrite ZE, PH. apply in_or_app. right. left. auto.
           ++ destruct (g_ent _ _ _ G i) as [_ [_ Q]]; [apply in_or_app; right; left; auto|]. lia.
      * intro B. rewrite PS in SE by lia. injection SE as <-. apply AM; lia.
    + unfold plen in LPL. rewrite ES in LPL. lia.
  - intros m B. split; [apply AP; lia|]. apply SP; lia.
  - apply SP; lia.
Qed.

(* ---- the end of delItem ---- *)
Lemma trim_srep (h : list node) H l : srep h H l -> exists h' H', trim H h = Ok h' /\ srep h' H' l /\ length h' = length h /\ forall x, kd h' x = kd h x.
Proof.
  intro G. destruct (trim_ok h H h) as [h' [H' [T [L [HH [B [NE [KD [SC TL]]]]]]]]]; auto.
  { apply (g_head _ _ _ G). }
  { pose proof (g_H _ _ _ G). rewrite (proj1 (g_head _ _ _ G)). lia. }
  exists h', H'. split; auto.
  assert (KA : forall x, kd h' x = kd h x). { intro x. destruct (Nat.eq_dec x HEAD) as [->|N]; auto. unfold kd. now rewrite NE. }
  assert (HA : forall x, x <> HEAD -> hgt h' x = hgt h x) by (intros x N; unfold hgt; now rewrite NE).
  assert (SA : forall x m, x <> HEAD -> sc h' x m = sc h x m) by (intros x m N; unfold sc; now rewrite NE).
  assert (PA : forall x m, x <> HEAD -> pv h' x m = pv h x m) by (intros x m N; unfold pv; now rewrite NE).
  assert (QA : forall x, x <> HEAD -> plen h' x = plen h x) by (intros x N; unfold plen; now rewrite NE).
  assert (NT : TAIL <> HEAD) by discriminate.
  assert (LOW : forall i, In i l -> hgt h (fst i) <= H').
  { intros i I. destruct (le_lt_dec (hgt h (fst i)) H') as [A|A]; auto. exfalso.
    destruct (g_ent _ _ _ G i I) as [_ [B1 _]]. pose proof (g_path _ _ _ G H' ltac:(lia)) as P. apply path_hd in P. rewrite (TL H') in P by lia.
    destruct (fl h H' (map fst l)) as [|c r] eqn:F.
    - assert (J : In (fst i) (fl h H' (map fst l))) by (apply fl_in; split; [now apply in_map|lia]). rewrite F in J. destruct J.
    - injection P as P. assert (J : In c (fl h H' (map fst l))) by (rewrite F; left; auto). apply fl_in in J. destruct (not_ends _ _ _ _ G (proj1 J)). congruence. }
  split; [|split; auto]. split.
  - intros i I. destruct (not_ends _ _ _ (fst i) G) as [N _]; [now apply in_map|]. destruct (g_ent _ _ _ G i I) as [E1 [E2 E3]]. unfold entry_ok. rewrite KA, HA, QA by auto. pose proof (LOW i I). repeat split; auto; lia.
  - apply (g_nd _ _ _ G).
  - lia.
  - rewrite KA. split; auto. apply (g_head _ _ _ G).
  - rewrite KA, QA by auto. pose proof (g_tail _ _ _ G) as [T1 T2]. split; auto. lia.
  - intros m L1 L2. rewrite QA in L2 by auto. rewrite PA by auto. destruct (le_lt_dec H m) as [A|A]; [now apply (g_far _ _ _ G)|].
    apply (g_prev _ _ _ G); [left; auto|]. apply TL. lia.
  - intros m L1. rewrite (fl_ext h h' m) by (intros a I; apply HA; apply (not_ends _ _ _ _ G I)). apply path_frame with (f := fun a => sc h a m). apply (g_path _ _ _ G); lia.
    intros x [<-|I]; [apply SC; auto|]. apply fl_in in I. apply SA. apply (not_ends _ _ _ _ G (proj1 I)).
  - intros m a b I E. destruct (Nat.eq_dec a HEAD) as [->|N].
    + assert (L1 : m < H') by (rewrite <- HH; eapply sc_lt; eauto). rewrite SC in E by auto.
      destruct (succ_in _ _ _ _ _ _ G (or_introl eq_refl) E) as [J _]. rewrite PA; [|intros ->; apply (head_not_in _ _ _ G); auto]. now apply (g_prev _ _ _ G).
    + rewrite SA in E by auto. destruct (succ_in _ _ _ _ _ _ G I E) as [J _]. rewrite PA; [|intros ->; apply (head_not_in _ _ _ G); auto]. now apply (g_prev _ _ _ G).
Qed.

(* ---- delItem ---- *)
Lemma bypass_ok (h0 : list node) c (at_ sg : nat -> nat) :
  (forall m, m < hgt h0 c -> sc h0 c m = Some (sg m)) -> (forall m, m < hgt h0 c -> pv h0 c m = Some (at_ m)) ->
  (forall m, m < hgt h0 c -> m < hgt h0 (at_ m) /\ m < plen h0 (sg m) /\ at_ m <> c /\ sg m <> c) ->
  forall k l h, k + l = hgt h0 c -> length h = length h0 -> (forall x, hgt h x = hgt h0 x) -> (forall x, plen h x = plen h0 x) -> (forall x, kd h x = kd h0 x) ->
  (forall x m, sc h x m = if (m <? l) && (x =? at_ m) then sc h0 c m else sc h0 x m) ->
  (forall x m, pv h x m = if (m <? l) && (x =? sg m) then Some (at_ m) else pv h0 x m) ->
  exists h', bypass k l h c = Ok h' /\ length h' = length h0 /\ (forall x, hgt h' x = hgt h0 x) /\ (forall x, plen h' x = plen h0 x) /\ (forall x, kd h' x = kd h0 x) /\
  (forall x m, sc h' x m = if (m <? hgt h0 c) && (x =? at_ m) then sc h0 c m else sc h0 x m) /\
  (forall x m, pv h' x m = if (m <? hgt h0 c) && (x =? sg m) then Some (at_ m) else pv h0 x m).
Proof.
  intros P1 P2 P3. induction k as [|k IH]; intros l h E L0 HG PL KD SC PV; cbn [bypass].
  - exists h. cbn in E. subst l. auto 10.
  - assert (L : l < hgt h0 c) by lia. destruct (P3 l L) as [Q1 [Q2 [Q3 Q4]]].
    assert (PC : pv h c l = Some (at_ l)). { rewrite PV. destruct (Nat.ltb_spec l l); [lia|]. cbn. auto. }
    assert (SCc : sc h c l = Some (sg l)). { rewrite SC. destruct (Nat.ltb_spec l l); [lia|]. cbn. auto. }
    rewrite (get_prev_ok _ _ _ _ PC), (get_succ_ok _ _ _ _ SCc). cbn [bind].
    destruct (set_succ_ok h (at_ l) l (sg l)) as [h1 [E1 [A1 [A2 [A3 [A4 A5]]]]]]; [rewrite HG; auto|]. pose proof (set_succ_pv _ _ _ _ _ E1) as A6. rewrite E1. cbn [bind].
    assert (SC1 : sc h1 c l = Some (sg l)). { rewrite A2. destruct (Nat.eqb_spec c (at_ l)); [congruence|]. cbn. auto. }
    assert (PC1 : pv h1 c l = Some (at_ l)) by (rewrite A6; auto).
    rewrite (get_succ_ok _ _ _ _ SC1), (get_prev_ok _ _ _ _ PC1). cbn [bind].
    destruct (set_prev_ok h1 (sg l) l (at_ l)) as [h2 [E2 [C1 [C2 [C3 [C4 C5]]]]]]; [rewrite A4, PL; auto|]. pose proof (set_prev_pv _ _ _ _ _ E2) as C6. rewrite E2. cbn [bind].
    apply IH; try lia; intros; rewrite ?C3, ?A3, ?C4, ?A4, ?C5, ?A5; auto.
    + rewrite C2, A2, SC. destruct (Nat.eqb_spec m l) as [->|NM]; destruct (Nat.ltb_spec l (S l)); try lia.
      * rewrite Nat.ltb_irrefl. destruct (x =? at_ l); cbn; auto. symmetry. auto.
      * rewrite andb_false_r. destruct (Nat.ltb_spec m l); destruct (Nat.ltb_spec m (S l)); try lia; auto.
    + rewrite C6, A6, PV. destruct (Nat.eqb_spec m l) as [->|NM]; destruct (Nat.ltb_spec l (S l)); try lia.
      * rewrite Nat.ltb_irrefl. destruct (x =? sg l); auto.
      * rewrite andb_false_r. destruct (Nat.ltb_spec m l); destruct (Nat.ltb_spec m (S l)); try lia; auto.
Qed.
Lemma del_item_ok (s : skip V) H X Y c kv : srep (heap s) H (X ++ (c, kv) :: Y) ->
  exists s' H', del_item s c = Ok s' /\ srep (heap s') H' (X ++ Y) /\ length (heap s') = length (heap s) /\ size s' = (size s - 1)%Z /\ forall x, kd (heap s') x = kd (heap s) x.
Proof.
  intro G. set (h := heap s) in *. unfold del_item. fold h.
  assert (ML : map fst (X ++ (c, kv) :: Y) = map fst X ++ c :: map fst Y) by (rewrite map_app; auto).
  assert (IC0 : In c (map fst (X ++ (c, kv) :: Y))) by (rewrite ML; apply in_or_app; right; left; auto).
  assert (IC : In c (HEAD :: map fst (X ++ (c, kv) :: Y))) by (right; auto).
  set (at_ := fun m => last (fl h m (map fst X)) HEAD). set (sg := fun m => match sc h c m with Some b => b | None => 0 end).
  assert (SG : forall m, m < hgt h c -> sc h c m = Some (sg m)). { intros m L. unfold sg. destruct (sc_some h c m L) as [b ->]. auto. }
  assert (HC : hgt h c <= H) by (eapply hgt_le; eauto).
  assert (AI : forall m, In (at_ m) (HEAD :: map fst (X ++ (c, kv) :: Y))).
  { intro m. unfold at_. destruct (last_in (fl h m (map fst X)) HEAD) as [<-|I]; [left; auto|]. right. rewrite ML. apply in_or_app. apply fl_in in I. tauto. }
  assert (AC : forall m, m < hgt h c -> sc h (at_ m) m = Some c).
  { intros m L. pose proof (g_path _ _ _ G m ltac:(lia)) as P. rewrite ML, fl_app in P. apply path_tail, path_hd in P. unfold at_. rewrite P. unfold fl. cbn [filter].
    destruct (Nat.ltb_spec m (hgt h c)); [auto|lia]. }
  pose proof (g_nd _ _ _ G) as ND. rewrite ML in ND.
  pose proof (NoDup_remove_2 (HEAD :: TAIL :: map fst X) (map fst Y) c ND) as NC.
  destruct (not_ends _ _ _ _ G IC0) as [NCH NCT].
  assert (LC : c < length h) by (eapply alive; eauto; right; right; auto).
  unfold node_at. destruct (nth_error h c) as [n|] eqn:EN; [|apply nth_error_None in EN; lia]. cbn [bind].
  assert (HL : length (succ n) = hgt h c) by (unfold hgt; now rewrite EN).
  destruct (bypass_ok h c at_ sg) with (k := hgt h c) (l := 0) (h := h) as [h1 [B1 [B2 [B3 [B4 [B5 [B6 B7]]]]]]]; auto; try lia.
  { intros m L. apply (g_prev _ _ _ G); auto. }
  { intros m L. pose proof (AC m L) as Q. split; [eapply sc_lt; eauto|]. pose proof (SG m L) as Q2. destruct (succ_in _ _ _ _ _ _ G IC Q2) as [J1 J2].
    split; [eapply plen_of; eauto; lia|]. split.
    - unfold at_. intro E. destruct (last_in (fl h m (map fst X)) HEAD) as [F|F]; rewrite E in F; [congruence|]. apply fl_in in F. apply NC. right. right. apply in_or_app. tauto.
    - intro E. rewrite E in Q2. pose proof (g_prev _ _ _ G m c c IC Q2) as Q3. pose proof (g_prev _ _ _ G m _ _ (AI m) Q) as Q4. rewrite Q3 in Q4. injection Q4 as Q4.
      destruct (last_in (fl h m (map fst X)) HEAD) as [F|F]; fold (at_ m) in F; rewrite <- Q4 in F; [congruence|]. apply fl_in in F. apply NC. right. right. apply in_or_app. tauto. }
  rewrite HL, B1. cbn [bind].
  assert (G1 : srep h1 H (X ++ Y)) by (eapply (cutout h h1 H X Y c kv sg); eauto).
  assert (HE : height h1 = Ok H).
  { unfold height, node_at. pose proof (proj1 (g_head _ _ _ G1)) as Q. unfold hgt in Q. pose proof (g_H _ _ _ G1). destruct (nth_error h1 HEAD); [|lia]. cbn. now rewrite Q. }
  rewrite HE. cbn [bind]. destruct (trim_srep _ _ _ G1) as [h2 [H' [-> [G2 [L2 K2]]]]]. cbn [bind]. eexists _, H'. split; [reflexivity|]. cbn [heap size].
  split; auto. split; [lia|]. split; auto. intro x. rewrite K2. auto.
Qed.

(* ---- insertAt at a place ---- *)
Lemma insert_between (h : list node) H X Y k v : srep h H (X ++ Y) -> X ++ Y <> [] ->
  exists np nc h', nth_error h (prv X) = Some np /\ nth_error h (nxt Y) = Some nc /\
   new_node h (Key k) v (same (nxt Y) (succ np)) (same (prv X) (prev nc)) = Ok h' /\ srep h' H (X ++ (length h, (k, v)) :: Y) /\ length h' = S (length h).
Proof.
  intros G NE. destruct (adjacent _ _ _ _ G NE) as [m0 [np [nc [B [EP [EC [S1 [S2 [AD _]]]]]]]]]. set (p := prv X) in *. set (s := nxt Y) in *.
  set (n := length h). set (h0 := h ++ [mkNode (Key k) v (repeat s m0) (repeat p m0)]).
  assert (LA : forall a, In a (HEAD :: TAIL :: map fst (X ++ Y)) -> a < n) by (intros a I; eapply alive; eauto).
  assert (LP : p < n) by (unfold n; apply nth_error_lt in EP; auto). assert (LS : s < n) by (unfold n; apply nth_error_lt in EC; auto).
  assert (NO : forall a, a <> n -> nth_error h0 a = nth_error h a).
  { intros a N. destruct (lt_dec a n) as [L|L]; [unfold h0; apply nth_error_app1; auto|]. transitivity (@None node); [|symmetry]; apply nth_error_None; unfold h0; rewrite ?app_length; cbn; unfold n in *; lia. }
  assert (NW : nth_error h0 n = Some (mkNode (Key k) v (repeat s m0) (repeat p m0))) by (unfold h0; rewrite nth_error_app2 by (unfold n; lia); unfold n; rewrite Nat.sub_diag; auto).
  exists np, nc. rewrite S1, S2. unfold new_node. fold h0. fold n. rewrite repeat_length.
  assert (IPX : In p (HEAD :: map fst (X ++ Y))).
  { unfold p, prv. destruct (last_in (map fst X) HEAD) as [<-|I]; [left; auto|]. right. rewrite map_app. apply in_or_app. auto. }
  destruct (link_full h0 n m0 (repeat s m0) (repeat p m0) (fun _ => p) (fun _ => s)) with (c := m0) (l := 0) (h := h0) as [h' [E [L [C1 [C2 [C3 [C4 C5]]]]]]]; auto; try lia.
  { intros l L. apply nth_error_repeat. auto. }
  { intros l L. apply nth_error_repeat. auto. }
  { intros l L. unfold plen. rewrite NO by lia. fold (plen h s). destruct (AD l L) as [_ Q]. destruct (succ_in _ _ _ _ _ _ G IPX Q) as [J1 J2]. eapply plen_of; eauto. lia. }
  { intros l L. unfold hgt. rewrite NO by lia. fold (hgt h p). destruct (AD l L) as [_ Q]. eapply sc_lt; eauto. }
  exists h'. split; auto. split; auto. split; auto. split; [|rewrite L; unfold h0; rewrite app_length; cbn; lia].
  apply (splice h h' H X Y n m0 k v (fun _ => s)); auto.
  - intro I. apply LA in I. lia.
  - intros m Lm. destruct (AD m Lm) as [-> Q]. auto.
  - intros x N. rewrite C1, C2, C3. unfold hgt, plen, kd. rewrite NO by auto. auto.
  - rewrite C1. unfold hgt. rewrite NW. cbn. apply repeat_length.
  - rewrite C2. unfold plen. rewrite NW. cbn. apply repeat_length.
  - rewrite C3. unfold kd. rewrite NW. auto.
  - intros x m N. rewrite C4. unfold sc. rewrite NO by auto. destruct (Nat.ltb_spec m m0) as [Lm|Lm]; cbn [andb]; auto. destruct (AD m Lm) as [-> _]. auto.
  - intros m Lm. rewrite C4. destruct (Nat.eqb_spec n p); [lia|]. rewrite andb_false_r. unfold sc. rewrite NW. cbn. apply nth_error_repeat. auto.
  - intros x m N. rewrite C5. unfold pv. rewrite NO by auto. auto.
  - intros m Lm. rewrite C5. destruct (Nat.eqb_spec n s); [lia|]. rewrite andb_false_r. unfold pv. rewrite NW. cbn. destruct (AD m Lm) as [-> _]. apply nth_error_repeat. auto.
Qed.
(* a node taken out before is put in again *)
Lemma put_after_ok (s : skip V) H X Y b kb c k v : srep (heap s) H (X ++ (b, kb) :: Y) -> ~ In c (HEAD :: TAIL :: map fst (X ++ (b, kb) :: Y)) -> kd (heap s) c = Some (Key k, v) ->
  exists s', put_after s c b = Ok s' /\ srep (heap s') H (X ++ (b, kb) :: (c, (k, v)) :: Y) /\ length (heap s') = length (heap s) /\ size s' = (size s + 1)%Z.
Proof.
  intros G NI KC. set (h := heap s) in *. assert (EX : X ++ (b, kb) :: Y = (X ++ [(b, kb)]) ++ Y) by (rewrite <- app_assoc; auto).
  assert (NE : (X ++ [(b, kb)]) ++ Y <> []) by (rewrite <- EX; destruct X; discriminate).
  assert (EP : prv (X ++ [(b, kb)]) = b) by (unfold prv; rewrite map_app; apply last_snoc).
  rewrite EX in G, NI. destruct (adjacent _ _ _ _ G NE) as [m0 [np [nc [B [E1 [E2 [S1 [S2 [AD A0]]]]]]]]]. rewrite EP in *. set (sn := nxt Y) in *.
  unfold put_after. fold h. unfold node_at. rewrite E1. cbn [bind]. rewrite (get_succ_ok _ _ _ _ A0). cbn [bind]. rewrite E2. cbn [bind].
  unfold kd in KC. destruct (nth_error h c) as [nn|] eqn:EC; [|discriminate]. injection KC as K1 K2. cbn [bind]. rewrite S1, S2, repeat_length.
  set (h0 := upd h c (mkNode (key nn) (data nn) (repeat sn m0) (repeat b m0))). pose proof (nth_error_lt _ _ _ EC) as LC.
  assert (NO : forall a, a <> c -> nth_error h0 a = nth_error h a) by (intros a N; unfold h0; apply nth_error_upd_neq; auto).
  assert (NW : nth_error h0 c = Some (mkNode (key nn) (data nn) (repeat sn m0) (repeat b m0))) by (unfold h0; apply nth_error_upd_eq; auto).
  assert (IB : In b (HEAD :: map fst ((X ++ [(b, kb)]) ++ Y))) by (right; rewrite !map_app; apply in_or_app; left; apply in_or_app; right; left; auto).
  destruct (succ_in _ _ _ _ _ _ G IB A0) as [JS _].
  assert (NB : b <> c). { intros <-. apply NI. destruct IB as [I|I]; [left; auto|right; right; auto]. }
  assert (NS : sn <> c). { intro E0. apply NI. right. rewrite <- E0. auto. }
  destruct (link_full h0 c m0 (repeat sn m0) (repeat b m0) (fun _ => b) (fun _ => sn)) with (c := m0) (l := 0) (h := h0) as [h' [E [L [C1 [C2 [C3 [C4 C5]]]]]]]; auto; try lia.
  { intros l L. apply nth_error_repeat. auto. }
  { intros l L. apply nth_error_repeat. auto. }
  { intros l L. unfold plen. rewrite NO by auto. fold (plen h sn). destruct (AD l L) as [_ Q]. destruct (succ_in _ _ _ _ _ _ G IB Q) as [J1 J2]. eapply plen_of; eauto. lia. }
  { intros l L. unfold hgt. rewrite NO by auto. fold (hgt h b). destruct (AD l L) as [_ Q]. eapply sc_lt; eauto. }
  rewrite E. cbn [bind]. eexists. split; [reflexivity|]. cbn [heap size].
  split; [|split; auto; rewrite L; unfold h0; apply upd_length].
  replace (X ++ (b, kb) :: (c, (k, v)) :: Y) with ((X ++ [(b, kb)]) ++ (c, (k, v)) :: Y) by (rewrite <- app_assoc; auto).
  apply (splice h h' H (X ++ [(b, kb)]) Y c m0 k v (fun _ => sn)); auto.
  - intros m Lm. destruct (AD m Lm) as [-> Q]. auto.
  - intros x N. rewrite C1, C2, C3. unfold hgt, plen, kd. rewrite NO by auto. auto.
  - rewrite C1. unfold hgt. rewrite NW. cbn. apply repeat_length.
  - rewrite C2. unfold plen. rewrite NW. cbn. apply repeat_length.
  - rewrite C3. unfold kd. rewrite NW. cbn. congruence.
  - intros x m N. rewrite C4. unfold sc. rewrite NO by auto. destruct (Nat.ltb_spec m m0) as [Lm|Lm]; cbn [andb]; auto. destruct (AD m Lm) as [-> _]. auto.
  - intros m Lm. rewrite C4. destruct (Nat.eqb_spec c b); [congruence|]. rewrite andb_false_r. unfold sc. rewrite NW. cbn. apply nth_error_repeat. auto.
  - intros x m N. rewrite C5. unfold pv. rewrite NO by auto. auto.
  - intros m Lm. rewrite C5. destruct (Nat.eqb_spec c sn); [congruence|]. rewrite andb_false_r. unfold pv. rewrite NW. cbn. destruct (AD m Lm) as [-> _]. apply nth_error_repeat. auto.
Qed.
End Sseq.
