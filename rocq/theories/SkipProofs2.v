(* Skip list: insertion, lookup, iteration and removal. *)
From Coq Require Import List Arith ZArith Bool Sorted Lia.
From Verif Require Import Common ListLib SkipModel SkipSpec SkipProofs.
Import ListNotations.

Section Skip.
Context {V : Type}.
Notation node := (node V).
Implicit Types (h : list node) (kvs : list (Z * option V)).

Lemma fl_ext h h' l X : (forall a, In a X -> hgt h' a = hgt h a) -> fl h' l X = fl h l X.
Proof. intro E. unfold fl. apply filter_ext_in. intros a I. now rewrite E. Qed.

(* the position of a key in a sorted list *)
Lemma strict_app kA kB : @strict V (kA ++ kB) -> strict kA /\ strict kB /\ forall a b, In a kA -> In b kB -> (fst a < fst b)%Z.
Proof.
  unfold strict. induction kA as [|x kA IH]; cbn [app map]; intros S.
  - split; [constructor|]. split; auto. intros a b [].
  - inversion S as [|? ? S1 S2]; subst. destruct (IH S1) as [A [B C]]. rewrite Forall_forall in S2. split; [|split]; auto.
    + constructor; auto. apply Forall_forall. intros z I. apply S2. rewrite map_app. apply in_or_app. auto.
    + intros a b [<-|I] J; auto. apply S2. rewrite map_app. apply in_or_app. right. apply in_map. auto.
Qed.
Lemma strict_join kA kB : strict kA -> strict kB -> (forall a b, In a kA -> In b kB -> (fst a < fst b)%Z) -> @strict V (kA ++ kB).
Proof.
  unfold strict. induction kA as [|x kA IH]; cbn [app map]; intros SA SB C; auto.
  inversion SA as [|? ? S1 S2]; subst. constructor; [apply IH; auto; intros a b I J; apply C; auto; right; auto|].
  rewrite map_app. apply Forall_app. split; auto. apply Forall_forall. intros z I. apply in_map_iff in I. destruct I as [b [<- J]]. apply C; auto. left; auto.
Qed.
Lemma strict_mid k v kA kB : strict kA -> strict kB -> Forall (fun kv => (fst kv < k)%Z) kA -> Forall (fun kv => (k < fst kv)%Z) kB ->
  @strict V (kA ++ (k, v) :: kB).
Proof.
  intros SA SB FA FB. rewrite Forall_forall in *. apply strict_join; auto.
  - unfold strict. cbn. constructor; auto. apply Forall_forall. intros z I. apply in_map_iff in I. destruct I as [b [<- J]]. auto.
  - intros a b I [<-|J]; cbn; auto. specialize (FA a I). specialize (FB b J). lia.
Qed.

(* the split of a represented list at k, with the entry at k singled out *)
Record cut h (H : nat) (ns : list nat) kvs (k : Z) (nA nB : list nat) kA kB (o : option (nat * option V)) : Prop := {
  c_ns : ns = nA ++ match o with Some (x, _) => [x] | None => [] end ++ nB;
  c_kv : kvs = kA ++ match o with Some (_, w) => [(k, w)] | None => [] end ++ kB;
  c_len : length nA = length kA;
  c_lt : Forall (fun kv => (fst kv < k)%Z) kA;
  c_gt : Forall (fun kv => (k < fst kv)%Z) kB }.

Lemma cut_exists h H k ns kvs : Forall2 (entry_ok h H) ns kvs -> strict kvs -> exists nA nB kA kB o, cut h H ns kvs k nA nB kA kB o.
Proof.
  intros E S. destruct (split_exists h H k ns kvs E S) as [nA [nB [kA [kB [-> [-> [L [_ [FA FB]]]]]]]]].
  destruct (strict_app _ _ S) as [SA _].
  destruct (list_eq_dec Nat.eq_dec nA []) as [->|NE].
  - destruct kA; [|discriminate]. exists [], nB, [], kB, None. split; auto.
  - destruct (exists_last NE) as [nA' [x ->]]. rewrite app_length in L. cbn in L.
    destruct kA as [|kv0 kA0]; [cbn in L; lia|]. destruct (exists_last (l := kv0 :: kA0)) as [kA' [[z w] EK]]; [discriminate|].
    rewrite EK in *. rewrite app_length in L. cbn in L. apply Forall_app in FA. destruct FA as [FA FX]. inversion FX as [|? ? Lz _]; subst. cbn in Lz.
    destruct (strict_app _ _ SA) as [_ [_ C]].
    destruct (Z.eq_dec z k) as [->|NZ].
    + exists nA', nB, kA', kB, (Some (x, w)). split; auto; try (now rewrite <- app_assoc); [lia|].
      apply Forall_forall. intros a I. apply (C a (k, w)); auto. left; auto.
    + exists (nA' ++ [x]), nB, (kA' ++ [(z, w)]), kB, None. split; auto. { rewrite !app_length. cbn. lia. }
      apply Forall_app. split; [|constructor; auto; cbn; lia]. apply Forall_forall. intros a I. specialize (C a (z, w) I (or_introl eq_refl)). cbn in C. lia.
Qed.

Lemma Forall2_split {A B} (P : A -> B -> Prop) a1 : forall b1 a2 b2, length a1 = length b1 -> Forall2 P (a1 ++ a2) (b1 ++ b2) -> Forall2 P a1 b1 /\ Forall2 P a2 b2.
Proof.
  induction a1 as [|x a1 IH]; intros [|y b1] a2 b2 L F; try discriminate; cbn in *; auto.
  inversion F; subst. destruct (IH b1 a2 b2) as [? ?]; auto.
Qed.
Lemma ent_below h H k nA kA : Forall2 (entry_ok h H) nA kA -> Forall (fun kv => (fst kv < k)%Z) kA -> forall x, In x nA -> exists z, key_is h x z /\ (z < k)%Z.
Proof.
  induction 1 as [|a kv nA kA [K _] _ IH]; intros F x [].
  - subst. inversion F; subst. exists (fst kv). split; auto. exists (snd kv). auto.
  - inversion F; subst. auto.
Qed.
Lemma key_is_fun h a z z' : key_is h a z -> key_is h a z' -> z = z'.
Proof. intros [d E] [d' E']. congruence. Qed.

Section Cut.
Variables (h : list node) (H : nat) (ns : list nat) (kvs : list (Z * option V)) (k : Z) (nA nB : list nat) (kA kB : list (Z * option V)) (o : option (nat * option V)).
Hypothesis R : rep h H ns kvs.
Hypothesis C : cut h H ns kvs k nA nB kA kB o.

Lemma cut_ent : Forall2 (entry_ok h H) nA kA /\ Forall2 (entry_ok h H) nB kB /\ match o with Some (x, w) => entry_ok h H x (k, w) | None => True end.
Proof.
  pose proof (r_ent _ _ _ _ R) as E. destruct C as [C1 C2 C3 _ _]. rewrite C1, C2 in E. apply Forall2_split in E; auto. destruct E as [E1 E2].
  split; auto. destruct o as [[x w]|]; cbn [app] in E2; auto. inversion E2; auto.
Qed.
Lemma cut_split_some x w : o = Some (x, w) -> split_at h k (nA ++ [x]) nB.
Proof.
  intros E. destruct cut_ent as [E1 [E2 E3]]. rewrite E in E3. split.
  - apply Forall_app. split.
    + apply Forall_forall. intros a I. destruct (ent_below h H k nA kA E1 (c_lt _ _ _ _ _ _ _ _ _ _ C) a I) as [z [Kz Lz]]. exists z. split; auto. lia.
    + constructor; auto. exists k. split; [|lia]. destruct E3 as [K _]. exists w. auto.
  - apply (ent_above h H k nB kB E2). apply (c_gt _ _ _ _ _ _ _ _ _ _ C).
Qed.
Lemma cut_split_none : o = None -> split_at h k nA nB.
Proof.
  intros E. destruct cut_ent as [E1 [E2 E3]]. split.
  - apply Forall_forall. intros a I. destruct (ent_below h H k nA kA E1 (c_lt _ _ _ _ _ _ _ _ _ _ C) a I) as [z [Kz Lz]]. exists z. split; auto. lia.
  - apply (ent_above h H k nB kB E2). apply (c_gt _ _ _ _ _ _ _ _ _ _ C).
Qed.
Lemma cut_lt : Forall (fun x => forall z, key_is h x z -> (z < k)%Z) nA.
Proof.
  destruct cut_ent as [E1 _]. apply Forall_forall. intros a I z Kz.
  destruct (ent_below h H k nA kA E1 (c_lt _ _ _ _ _ _ _ _ _ _ C) a I) as [z' [Kz' Lz']]. rewrite (key_is_fun _ _ _ _ Kz Kz'). auto.
Qed.
Lemma cut_scan_some x w : o = Some (x, w) -> exists prevs, scan h k = Ok (Some x, prevs) /\ length prevs = H /\ forall l, l < hgt h x -> nth_error prevs l = Some HEAD.
Proof.
  intros E. pose proof (cut_split_some x w E) as SP. pose proof (c_ns _ _ _ _ _ _ _ _ _ _ C) as En. rewrite E in En. cbn [app] in En.
  apply (scan_some h H ns kvs k (nA ++ [x]) nB R) with (nA' := nA); auto.
  - rewrite <- app_assoc. auto.
  - destruct cut_ent as [_ [_ E3]]. rewrite E in E3. destruct E3 as [K _]. exists w. auto.
  - apply cut_lt.
Qed.
Lemma cut_scan_none : o = None -> exists prevs, scan h k = Ok (None, prevs) /\ length prevs = H /\
  forall l, l < H -> nth_error prevs l = Some (last (fl h l nA) HEAD).
Proof.
  intros E. pose proof (c_ns _ _ _ _ _ _ _ _ _ _ C) as En. rewrite E in En. cbn [app] in En.
  apply (scan_none h H ns kvs k nA nB R); auto. apply cut_split_none; auto. apply cut_lt.
Qed.
End Cut.

(* ---- lookup ---- *)
Lemma get_ok (s : skip V) H ns kvs k : rep (heap s) H ns kvs -> exists r, get s k = Ok r /\ value_at kvs k r.
Proof.
  intros R. destruct (cut_exists (heap s) H k ns kvs (r_ent _ _ _ _ R) (r_sort _ _ _ _ R)) as [nA [nB [kA [kB [o C]]]]].
  unfold get. destruct o as [[x w]|].
  - destruct (cut_scan_some _ _ _ _ _ _ _ _ _ _ R C x w eq_refl) as [pv [-> _]]. cbn [bind].
    destruct (cut_ent _ _ _ _ _ _ _ _ _ _ R C) as [_ [_ [K _]]]. unfold kd in K. unfold node_at. destruct (nth_error (heap s) x); [|discriminate].
    inversion K. cbn [bind]. exists w. cbn [snd] in *. split; [congruence|]. left. rewrite (c_kv _ _ _ _ _ _ _ _ _ _ C). apply in_or_app. right. left. auto.
  - destruct (cut_scan_none _ _ _ _ _ _ _ _ _ _ R C eq_refl) as [pv [-> _]]. cbn [bind]. exists None. split; auto. right. split; auto.
    rewrite (c_kv _ _ _ _ _ _ _ _ _ _ C). cbn [app]. rewrite map_app. intro I. apply in_app_or in I. rewrite !in_map_iff in I.
    destruct C as [_ _ _ F1 F2]. rewrite Forall_forall in F1, F2.
    destruct I as [[a [E I]]|[a [E I]]]; [specialize (F1 a I)|specialize (F2 a I)]; lia.
Qed.

(* ---- iteration ---- *)
Lemma collect_ok {A} (f : nat -> res A) (g : nat -> A) : forall c l, (forall i, l <= i < l + c -> f i = Ok (g i)) -> collect c l f = Ok (map g (seq l c)).
Proof.
  induction c as [|c IH]; intros l E; cbn [collect seq map]; auto. rewrite E by lia. cbn [bind]. rewrite IH; auto. intros i Hi. apply E. lia.
Qed.
Lemma level_from_ok h l : forall ns fuel a b, path (fun x => sc h x l) a ns TAIL -> sc h a l = Some b -> ~ In TAIL ns -> length ns < fuel ->
  level_from fuel h b l = Ok ns.
Proof.
  induction ns as [|c ns IH]; intros [|fuel] a b P Sb NI L; cbn [length] in L; try lia; cbn [path] in P; cbn [level_from].
  - assert (b = TAIL) by congruence. subst. reflexivity.
  - destruct P as [P1 P2]. assert (b = c) by congruence. subst.
    assert (c <> TAIL) by (intros ->; apply NI; left; auto). destruct (Nat.eqb_spec c TAIL); [congruence|].
    assert (exists d, sc h c l = Some d) as [d Sd]. { destruct ns; cbn in P2; [eauto|destruct P2; eauto]. }
    rewrite (get_succ_ok _ _ _ _ Sd). cbn [bind]. rewrite (IH fuel c d); auto. intro I. apply NI. right; auto. lia.
Qed.
Lemma path_level (s : skip V) l ns : path (fun x => sc (heap s) x l) HEAD ns TAIL -> ~ In TAIL ns -> length ns <= length (heap s) -> level_nodes s l = Ok ns.
Proof.
  intros P NI L. unfold level_nodes. assert (exists b, sc (heap s) HEAD l = Some b) as [b Sb].
  { destruct ns; cbn in P; [eauto|destruct P; eauto]. }
  rewrite (get_succ_ok _ _ _ _ Sb). cbn [bind]. apply level_from_ok with (a := HEAD); auto. lia.
Qed.
Lemma level_ok (s : skip V) H ns kvs l : rep (heap s) H ns kvs -> l < H -> level_nodes s l = Ok (fl (heap s) l ns).
Proof.
  intros R L. pose proof (rep_nodup _ _ _ _ R) as ND. inversion ND as [|? ? _ N2]; subst. inversion N2 as [|? ? N3 _]; subst.
  apply path_level. apply (r_path _ _ _ _ R l L). rewrite fl_in. tauto. pose proof (fl_len (heap s) l ns). pose proof (rep_len _ _ _ _ R). lia.
Qed.
Definition items_of h (ns : list nat) kvs : Prop := Forall2 (fun a kv => kd h a = Some (Key (fst kv), snd kv)) ns kvs.
Lemma map_nth_seq {A} (d : A) e : map (fun i => nth i e d) (seq 0 (length e)) = e.
Proof. induction e as [|x e IH]; auto. cbn [length seq map nth]. f_equal. rewrite <- seq_shift, map_map. apply IH. Qed.
Lemma iter_ok (s : skip V) ns kvs : level_nodes s 0 = Ok ns -> items_of (heap s) ns kvs -> iteritems s = Ok (entries kvs).
Proof.
  intros L E. unfold iteritems. rewrite L. cbn [bind]. pose proof (Forall2_length _ _ _ E) as LE.
  rewrite collect_ok with (g := fun i => nth i (entries kvs) (KHead, None)).
  - f_equal. rewrite LE. replace (length kvs) with (length (entries kvs)) by apply map_length. apply map_nth_seq.
  - intros i [_ Hi]. cbn in Hi. destruct (getR_lt ns i Hi) as [a [-> Ea]]. cbn [bind].
    assert (exists kv, nth_error kvs i = Some kv /\ kd (heap s) a = Some (Key (fst kv), snd kv)) as [kv [K1 K2]].
    { clear - E Ea. revert i Ea. induction E; intros [|i] Ea; cbn in *; try discriminate; [inversion Ea; subst; eauto|eauto]. }
    unfold kd in K2. unfold node_at. destruct (nth_error (heap s) a); [|discriminate]. cbn [bind]. inversion K2. f_equal.
    unfold entries. rewrite (nth_error_nth _ _ _ (map_nth_error (fun kv => (Key (fst kv), snd kv)) i kvs K1)). congruence.
Qed.
Lemma ent_items h H ns kvs : Forall2 (entry_ok h H) ns kvs -> items_of h ns kvs.
Proof. intro E. induction E as [|a kv ns kvs [K _] _ IH]; constructor; auto. Qed.
Lemma rep_iter (s : skip V) H ns kvs : rep (heap s) H ns kvs -> iteritems s = Ok (entries kvs).
Proof.
  intro R. apply iter_ok with (ns := ns).
  - rewrite (level_ok s H ns kvs) by (auto; apply (r_H _ _ _ _ R)). now rewrite (fl_zero _ _ _ _ (r_ent _ _ _ _ R)).
  - apply ent_items with (H := H). apply (r_ent _ _ _ _ R).
Qed.
Lemma fl_subseq h l X : subseq (fl h (S l) X) (fl h l X).
Proof.
  unfold fl. induction X as [|x X IH]; cbn [filter]; [constructor|].
  destruct (Nat.ltb_spec (S l) (hgt h x)); destruct (Nat.ltb_spec l (hgt h x)); try lia; try constructor; auto.
Qed.

(* ---- replacing a value ---- *)
Lemma insert_found (s : skip V) H ns kvs k v ht nA nB kA kB x w : rep (heap s) H ns kvs -> cut (heap s) H ns kvs k nA nB kA kB (Some (x, w)) ->
  exists s', insert s k v ht = Ok s' /\ size s' = size s /\ rep (heap s') H ns (kA ++ (k, v) :: kB).
Proof.
  intros R C. unfold insert. destruct (cut_scan_some _ _ _ _ _ _ _ _ _ _ R C x w eq_refl) as [pv [-> _]]. cbn [bind].
  destruct (cut_ent _ _ _ _ _ _ _ _ _ _ R C) as [EA [EB EX]]. pose proof EX as [K _]. unfold kd in K. unfold node_at.
  destruct (nth_error (heap s) x) as [n|] eqn:N; [|discriminate]. cbn [bind]. inversion K as [[K1 K2]]. eexists. split; [reflexivity|]. split; [reflexivity|]. cbn [heap].
  set (h := heap s) in *. set (h' := upd h x _).
  pose proof (nth_error_lt _ _ _ N) as LX.
  assert (NE : forall a, nth_error h' a = if Nat.eq_dec x a then Some (mkNode (key n) v (succ n) (prev n)) else nth_error h a).
  { intro a. unfold h'. rewrite nth_error_upd. destruct (Nat.eq_dec x a) as [<-|]; auto. destruct (lt_dec x (length h)); [auto|lia]. }
  assert (SC : forall a l, sc h' a l = sc h a l). { intros a l. unfold sc. rewrite NE. destruct (Nat.eq_dec x a) as [<-|]; auto. now rewrite N. }
  assert (HG : forall a, hgt h' a = hgt h a). { intros a. unfold hgt. rewrite NE. destruct (Nat.eq_dec x a) as [<-|]; auto. now rewrite N. }
  assert (PL : forall a, plen h' a = plen h a). { intros a. unfold plen. rewrite NE. destruct (Nat.eq_dec x a) as [<-|]; auto. now rewrite N. }
  assert (KD : forall a, a <> x -> kd h' a = kd h a). { intros a D. unfold kd. rewrite NE. destruct (Nat.eq_dec x a) as [<-|]; [congruence|auto]. }
  assert (KX : kd h' x = Some (Key k, v)). { unfold kd. rewrite NE. destruct (Nat.eq_dec x x); [|congruence]. cbn. now rewrite K1. }
  pose proof (rep_nodup _ _ _ _ R) as ND. pose proof (c_ns _ _ _ _ _ _ _ _ _ _ C) as En. cbn [app] in En.
  pose proof (c_kv _ _ _ _ _ _ _ _ _ _ C) as Ek. cbn [app] in Ek.
  assert (NX : x <> HEAD /\ x <> TAIL /\ ~ In x nA /\ ~ In x nB).
  { inversion ND as [|? ? N1 N2]; subst. inversion N2 as [|? ? N3 N4]; subst. apply NoDup_remove_2 in N4. repeat split.
    - intros ->. apply N1. right. apply in_or_app. right. left. auto.
    - intros ->. apply N3. apply in_or_app. right. left. auto.
    - intro I. apply N4. apply in_or_app. auto.
    - intro I. apply N4. apply in_or_app. auto. }
  destruct NX as [NX1 [NX2 [NX3 NX4]]].
  assert (FR : forall X K0, ~ In x X -> Forall2 (entry_ok h H) X K0 -> Forall2 (entry_ok h' H) X K0).
  { intros X K0 NI F. induction F as [|a kv X K0 [Q1 [Q2 Q3]] _ IH]; constructor.
    - split; [rewrite KD; auto; intros ->; apply NI; left; auto|]. rewrite HG, PL. auto.
    - apply IH. intro I. apply NI. right. auto. }
  split.
  - rewrite En. apply Forall2_app; auto. constructor; auto. destruct EX as [_ [X2 X3]]. split; auto. rewrite HG, PL. auto.
  - pose proof (r_sort _ _ _ _ R) as St. rewrite Ek in St. destruct (strict_app _ _ St) as [S1 [S2 _]]. destruct C.
    apply strict_mid; auto. destruct (strict_app [(k, w)] kB S2) as [_ [S3 _]]. auto.
  - apply (r_H _ _ _ _ R).
  - rewrite HG. rewrite KD by auto. apply (r_head _ _ _ _ R).
  - rewrite PL. rewrite KD by auto. apply (r_tail _ _ _ _ R).
  - intros l L. rewrite (fl_ext h h' l ns) by auto. apply path_frame with (f := fun a => sc h a l). apply (r_path _ _ _ _ R l L). intros; apply SC.
Qed.

(* ---- adding a node ---- *)
Lemma link_ok (h0 : list node) (n nh : nat) (ss ps : list nat) (at_ : nat -> nat) :
  length ps = nh -> (forall l, l < nh -> nth_error ps l = Some (at_ l)) ->
  (forall l, l < nh -> exists b, nth_error ss l = Some b /\ l < plen h0 b) -> (forall l, l < nh -> l < hgt h0 (at_ l)) ->
  forall c l h, c + l = nh -> length h = length h0 -> (forall x, hgt h x = hgt h0 x) -> (forall x, plen h x = plen h0 x) -> (forall x, kd h x = kd h0 x) ->
  (forall x m, sc h x m = if (m <? l) && (x =? at_ m) then Some n else sc h0 x m) ->
  exists h', link c l h n ss ps = Ok h' /\ length h' = length h0 /\ (forall x, hgt h' x = hgt h0 x) /\ (forall x, plen h' x = plen h0 x) /\ (forall x, kd h' x = kd h0 x) /\
  (forall x m, sc h' x m = if (m <? nh) && (x =? at_ m) then Some n else sc h0 x m).
Proof.
  intros LP P1 P2 P3. induction c as [|c IH]; intros l h E L0 HG PL KD SC; cbn [link].
  - exists h. cbn in E. subst l. auto 10.
  - rewrite (proj2 (getR_Ok ps l (at_ l))) by (apply P1; lia). cbn [bind].
    destruct (set_succ_ok h (at_ l) l n) as [h1 [-> [A1 [A2 [A3 [A4 A5]]]]]]; [rewrite HG; apply P3; lia|]. cbn [bind].
    destruct (P2 l ltac:(lia)) as [b [B1 B2]]. rewrite (proj2 (getR_Ok ss l b) B1). cbn [bind].
    destruct (set_prev_ok h1 b l n) as [h2 [-> [C1 [C2 [C3 [C4 C5]]]]]]; [rewrite A4, PL; auto|]. cbn [bind].
    apply IH; try lia; intros; rewrite ?C3, ?A3, ?C4, ?A4, ?C5, ?A5; auto.
    rewrite C2, A2, SC. destruct (Nat.eqb_spec m l) as [->|NM]; destruct (Nat.ltb_spec l (S l)); try lia.
    + rewrite Nat.ltb_irrefl. destruct (x =? at_ l); auto.
    + rewrite andb_false_r. destruct (Nat.ltb_spec m l); destruct (Nat.ltb_spec m (S l)); try lia; auto.
Qed.

(* the head and the tail grow to nh levels *)
Lemma grow_ok h H ns kvs nh : rep h H ns kvs ->
  exists hd tl, node_at h HEAD = Ok hd /\
   let h1 := upd h HEAD (mkNode (key hd) (data hd) (succ hd ++ repeat TAIL (nh - H)) (prev hd)) in
   node_at h1 TAIL = Ok tl /\
   let h2 := upd h1 TAIL (mkNode (key tl) (data tl) (succ tl) (prev tl ++ repeat HEAD (nh - H))) in
   length h2 = length h /\ rep h2 (max H nh) ns kvs /\ (forall a, a <> HEAD -> hgt h2 a = hgt h a).
Proof.
  intro R. pose proof (rep_len _ _ _ _ R) as LN. destruct (r_head _ _ _ _ R) as [HH [dh KH]]. destruct (r_tail _ _ _ _ R) as [TP [dt KT]].
  unfold hgt in HH. unfold kd in KH. unfold node_at at 1.
  assert (N0 : HEAD <> TAIL) by discriminate.
  destruct (nth_error h HEAD) as [hd|] eqn:E0; [|discriminate]. exists hd.
  unfold plen in TP. unfold kd in KT. destruct (nth_error h TAIL) as [tl|] eqn:E1; [|discriminate]. exists tl. split; auto.
  cbv zeta. set (h1 := upd h HEAD _).
  assert (L1 : length h1 = length h) by (unfold h1; apply upd_length).
  assert (E1' : nth_error h1 TAIL = Some tl) by (unfold h1; rewrite nth_error_upd_neq by auto; auto).
  split; [unfold node_at; now rewrite E1'|]. set (h2 := upd h1 TAIL _).
  split; [unfold h2; now rewrite upd_length|].
  assert (NE : forall a, a <> HEAD -> a <> TAIL -> nth_error h2 a = nth_error h a).
  { intros a A B. unfold h2, h1. rewrite !nth_error_upd_neq by auto. auto. }
  assert (NH : nth_error h2 HEAD = Some (mkNode (key hd) (data hd) (succ hd ++ repeat TAIL (nh - H)) (prev hd))).
  { unfold h2. rewrite nth_error_upd_neq by auto. unfold h1. apply nth_error_upd_eq. unfold HEAD. lia. }
  assert (NT : nth_error h2 TAIL = Some (mkNode (key tl) (data tl) (succ tl) (prev tl ++ repeat HEAD (nh - H)))).
  { unfold h2. apply nth_error_upd_eq. rewrite L1. unfold TAIL. lia. }
  assert (HG : forall a, a <> HEAD -> hgt h2 a = hgt h a).
  { intros a A. destruct (Nat.eq_dec a TAIL) as [->|B]; unfold hgt; [rewrite NT, E1; auto|now rewrite NE]. }
  split; auto.
  pose proof (rep_nodup _ _ _ _ R) as ND.
  assert (NN : forall a, In a ns -> a <> HEAD /\ a <> TAIL).
  { intros a I. inversion ND as [|? ? N1 N2]; subst. inversion N2 as [|? ? N3 N4]; subst. split; intros ->; [apply N1; right; auto|apply N3; auto]. }
  split.
  - pose proof (r_ent _ _ _ _ R) as E. clear - E NN NE HG. induction E as [|a kv ns kvs [A [B C]] _ IH]; constructor.
    + destruct (NN a (or_introl eq_refl)) as [X Y]. split; [unfold kd in *; now rewrite NE|]. rewrite HG by auto. split; [lia|]. unfold plen in *. now rewrite NE.
    + apply IH. intros x I. apply NN. right. auto.
  - apply (r_sort _ _ _ _ R).
  - pose proof (r_H _ _ _ _ R). lia.
  - unfold hgt, kd. rewrite NH. cbn. rewrite app_length, repeat_length. split; [lia|]. inversion KH. eauto.
  - unfold plen, kd. rewrite NT. cbn. rewrite app_length, repeat_length. split; [lia|]. inversion KT. eauto.
  - intros l L. rewrite (fl_ext h h2 l ns) by (intros a I; apply HG, NN; auto).
    destruct (lt_dec l H) as [LH|LH].
    + apply path_frame with (f := fun a => sc h a l). apply (r_path _ _ _ _ R l LH). intros x [<-|I].
      * unfold sc. rewrite NH, E0. cbn. apply nth_error_app1. lia.
      * apply fl_in in I. destruct (NN x) as [X Y]; [tauto|]. unfold sc. now rewrite NE.
    + assert (EF : fl h l ns = []).
      { destruct (fl h l ns) as [|a r] eqn:EF; auto. exfalso. assert (I : In a (fl h l ns)) by (rewrite EF; left; auto). apply fl_in in I. destruct I as [I J].
        destruct (ent_in _ _ _ _ _ (r_ent _ _ _ _ R) I) as [kv [_ [_ [B _]]]]. lia. }
      rewrite EF. cbn. unfold sc. rewrite NH. cbn. rewrite nth_error_app2 by lia. apply nth_error_repeat. lia.
Qed.

Lemma insert_new (s : skip V) H ns kvs k v ht nA nB kA kB : rep (heap s) H ns kvs -> cut (heap s) H ns kvs k nA nB kA kB None ->
  exists s' n, insert s k v ht = Ok s' /\ size s' = (size s + 1)%Z /\ rep (heap s') (max H (ht + 1)) (nA ++ n :: nB) (kA ++ (k, v) :: kB) /\ hgt (heap s') n = ht + 1.
Proof.
  intros R C. unfold insert. destruct (cut_scan_none _ _ _ _ _ _ _ _ _ _ R C eq_refl) as [pv [-> [LPV PV]]]. cbn [bind].
  rewrite (height_ok _ _ _ _ R). cbn [bind]. set (nh := ht + 1) in *.
  destruct (grow_ok _ _ _ _ nh R) as [hd [tl [-> G]]]. cbn [bind]. cbv zeta in G. destruct G as [-> [L2 [R2 HG2]]]. cbn [bind].
  set (h2 := upd _ TAIL _) in *. set (H' := max H nh) in *. set (up := pv ++ repeat HEAD (nh - H)).
  pose proof (c_ns _ _ _ _ _ _ _ _ _ _ C) as En. cbn [app] in En. pose proof (c_kv _ _ _ _ _ _ _ _ _ _ C) as Ek. cbn [app] in Ek.
  destruct (cut_ent _ _ _ _ _ _ _ _ _ _ R C) as [EA0 [EB0 _]].
  pose proof (rep_nodup _ _ _ _ R2) as ND.
  assert (NN : forall a, In a ns -> a <> HEAD /\ a <> TAIL).
  { intros a I. inversion ND as [|? ? N1 N2]; subst. inversion N2 as [|? ? N3 N4]; subst. split; intros ->; [apply N1; right; auto|apply N3; auto]. }
  assert (IA : forall a, In a nA -> In a ns) by (intros; rewrite En; apply in_or_app; auto).
  assert (IB : forall a, In a nB -> In a ns) by (intros; rewrite En; apply in_or_app; auto).
  set (at_ := fun l => last (fl h2 l nA) HEAD).
  assert (UP : forall l, l < H' -> nth_error up l = Some (at_ l)).
  { intros l L. unfold up, at_. rewrite (fl_ext (heap s) h2 l nA) by (intros a I; apply HG2, NN, IA; auto).
    destruct (lt_dec l H) as [LH|LH].
    - rewrite nth_error_app1 by lia. apply PV; auto.
    - rewrite nth_error_app2 by lia. rewrite nth_error_repeat by lia.
      assert (EF : fl (heap s) l nA = []); [|now rewrite EF].
      destruct (fl (heap s) l nA) as [|a r] eqn:EF; auto. exfalso. assert (I : In a (fl (heap s) l nA)) by (rewrite EF; left; auto). apply fl_in in I. destruct I as [I J].
      destruct (ent_in _ _ _ _ _ EA0 I) as [kv [_ [_ [B _]]]]. lia. }
  (* successors *)
  assert (C2 : cut h2 H' ns kvs k nA nB kA kB None) by (destruct C; split; auto).
  pose proof (cut_split_none _ _ _ _ _ _ _ _ _ _ R2 C2 eq_refl) as SP2.
  assert (SS : forall l, l < H' -> exists b, sc h2 (at_ l) l = Some b /\ l < plen h2 b /\ (b = TAIL \/ In b (fl h2 l nB))).
  { intros l L. destruct (above_first h2 H' ns kvs k nA nB R2 En SP2 l L) as [b [B1 [_ B3]]]. exists b. split; auto. split; auto.
    destruct B3 as [->|B3]; [destruct (r_tail _ _ _ _ R2); lia|]. apply fl_in in B3. destruct B3 as [I J].
    destruct (ent_in _ _ _ _ _ (r_ent _ _ _ _ R2) (IB _ I)) as [kv [_ [_ [_ Q]]]]. lia. }
  set (sg := fun l => match sc h2 (at_ l) l with Some b => b | None => 0 end).
  assert (SG : forall l, l < H' -> sc h2 (at_ l) l = Some (sg l)). { intros l L. destruct (SS l L) as [b [B1 _]]. unfold sg. now rewrite B1. }
  rewrite collect_ok with (g := sg).
  2:{ intros i Hi. rewrite (proj2 (getR_Ok up i (at_ i))) by (apply UP; lia). cbn [bind]. apply get_succ_ok. apply SG. lia. }
  cbn [bind]. rewrite collect_ok with (g := at_).
  2:{ intros i Hi. apply getR_Ok, UP. lia. }
  cbn [bind]. set (ss := map sg (seq 0 nh)). set (ps := map at_ (seq 0 nh)).
  assert (LS : length ss = nh) by (unfold ss; now rewrite map_length, seq_length).
  assert (LPs : length ps = nh) by (unfold ps; now rewrite map_length, seq_length).
  assert (NS : forall l, l < nh -> nth_error ss l = Some (sg l)). { intros l L. unfold ss. rewrite (map_nth_error sg l (seq 0 nh) (d := l)); auto. rewrite nth_error_seq; auto. }
  assert (NP : forall l, l < nh -> nth_error ps l = Some (at_ l)). { intros l L. unfold ps. rewrite (map_nth_error at_ l (seq 0 nh) (d := l)); auto. rewrite nth_error_seq; auto. }
  clearbody ss ps. unfold new_node. set (n := length h2). set (h0 := h2 ++ [mkNode (Key k) v ss ps]).
  assert (NO : forall a, a < n -> nth_error h0 a = nth_error h2 a) by (intros a L; unfold h0; apply nth_error_app1; auto).
  assert (NW : nth_error h0 n = Some (mkNode (Key k) v ss ps)) by (unfold h0; rewrite nth_error_app2 by (unfold n; lia); unfold n; rewrite Nat.sub_diag; auto).
  assert (LT : forall a, In a (HEAD :: TAIL :: ns) -> a < n) by (intros a I; apply (rep_lt _ _ _ _ a R2 I)).
  assert (AT : forall l, In (at_ l) (HEAD :: fl h2 l nA)) by (intro l; unfold at_; apply last_in).
  assert (ATN : forall l, at_ l < n). { intro l. apply LT. destruct (AT l) as [E|E]; [left; auto|]. apply fl_in in E. right. right. apply IA. tauto. }
  assert (FR : forall a, a < n -> hgt h0 a = hgt h2 a /\ plen h0 a = plen h2 a /\ kd h0 a = kd h2 a /\ forall l, sc h0 a l = sc h2 a l).
  { intros a L. unfold hgt, plen, kd, sc. rewrite (NO a L). auto. }
  assert (Hat : forall l, l < nh -> l < hgt h2 (at_ l)).
  { intros l L. destruct (SS l ltac:(lia)) as [b [B1 _]]. eapply sc_lt; eauto. }
  rewrite LPs. destruct (link_ok h0 n nh ss ps at_) with (c := nh) (l := 0) (h := h0) as [h3 [-> [L3 [HG3 [PL3 [KD3 SC3]]]]]]; auto; try lia.
  { intros l L. exists (sg l). split; [apply NS; auto|]. destruct (SS l ltac:(lia)) as [b [B1 [B2 B3]]]. assert (sg l = b) by (unfold sg; now rewrite B1).
    rewrite H0. assert (b < n). { apply LT. destruct B3 as [->|B3]; [right; left; auto|]. apply fl_in in B3. right; right. apply IB. tauto. }
    destruct (FR b H1) as [_ [-> _]]. auto. }
  { intros l L. destruct (FR (at_ l) (ATN l)) as [-> _]. auto. }
  { cbn [bind]. exists (mkSkip h3 (size s + 1)), n. split; [reflexivity|]. split; [reflexivity|]. cbn [heap].
    assert (HN : hgt h3 n = nh). { rewrite HG3. unfold hgt. rewrite NW. cbn. auto. }
    split; auto.
    assert (FE : forall X K0, (forall a, In a X -> In a ns) -> Forall2 (entry_ok h2 H') X K0 -> Forall2 (entry_ok h3 H') X K0).
    { intros X K0 IX F. induction F as [|a kv X K0 [Q1 [Q2 Q3]] _ IH]; constructor.
      - assert (La : a < n) by (apply LT; right; right; apply IX; left; auto). destruct (FR a La) as [F1 [F2 [F3 _]]].
        split; [rewrite KD3, F3; auto|]. rewrite HG3, F1, PL3, F2. auto.
      - apply IH. intros b I. apply IX. right. auto. }
    destruct (cut_ent _ _ _ _ _ _ _ _ _ _ R2 C2) as [EA [EB _]].
    split.
    - apply Forall2_app; [apply FE; auto|]. constructor; [|apply FE; auto].
      split; [rewrite KD3; unfold kd; rewrite NW; auto|]. rewrite HN. split; [lia|]. rewrite PL3. unfold plen. rewrite NW. cbn. auto.
    - pose proof (r_sort _ _ _ _ R) as St. rewrite Ek in St. destruct (strict_app _ _ St) as [S1 [S2 _]]. destruct C. apply strict_mid; auto.
    - apply (r_H _ _ _ _ R2).
    - assert (L0 : HEAD < n) by (apply LT; left; auto). destruct (FR HEAD L0) as [F1 [_ [F3 _]]]. rewrite HG3, F1, KD3, F3. apply (r_head _ _ _ _ R2).
    - assert (L0 : TAIL < n) by (apply LT; right; left; auto). destruct (FR TAIL L0) as [_ [F2 [F3 _]]]. rewrite PL3, F2, KD3, F3. apply (r_tail _ _ _ _ R2).
    - intros l L. pose proof (r_path _ _ _ _ R2 l L) as P. rewrite En, fl_app in P.
      assert (FLE : forall X, (forall a, In a X -> In a ns) -> fl h3 l X = fl h2 l X).
      { intros X IX. apply fl_ext. intros a I. rewrite HG3. apply FR. apply LT. right; right; auto. }
      rewrite fl_app. change (fl h3 l (n :: nB)) with (fl h3 l ([n] ++ nB)). rewrite fl_app. rewrite (FLE nA), (FLE nB) by auto.
      assert (NI : forall a, In a (HEAD :: fl h2 l nA ++ fl h2 l nB) -> a < n).
      { intros a [<-|I]; [apply LT; left; auto|]. apply LT. right; right. apply in_app_or in I. destruct I as [I|I]; apply fl_in in I; [apply IA|apply IB]; tauto. }
      destruct (lt_dec l nh) as [LN|LN].
      + replace (fl h3 l [n]) with [n] by (unfold fl; cbn [filter]; rewrite HN; destruct (Nat.ltb_spec l nh); [auto|lia]). cbn [app].
        apply path_insert with (f := fun a => sc h2 a l); auto.
        * inversion ND as [|? ? N1 N2]; subst. inversion N2 as [|? ? N3 N4]; subst. constructor.
          -- intro I. apply N1. right. apply in_app_or in I. apply in_or_app. destruct I as [I|I]; apply fl_in in I; tauto.
          -- rewrite <- fl_app. apply fl_nodup. auto.
        * intro I. apply NI in I. lia.
        * intros x X1 X2. rewrite SC3. fold (at_ l) in X1. destruct (Nat.eqb_spec x (at_ l)); [congruence|]. rewrite andb_false_r.
          destruct (lt_dec x n) as [Lx|Lx]; [destruct (FR x Lx) as [_ [_ [_ F]]]; auto|]. unfold sc. 
          assert (nth_error h2 x = None) by (apply nth_error_None; unfold n in *; lia).
          assert (nth_error h0 x = None). { apply nth_error_None. unfold h0. rewrite app_length. cbn. unfold n in *. lia. }
          now rewrite H0, H1.
        * fold (at_ l). rewrite SC3. rewrite Nat.eqb_refl. destruct (Nat.ltb_spec l nh); [auto|lia].
        * fold (at_ l). rewrite SC3. destruct (Nat.eqb_spec n (at_ l)) as [E|_]; [pose proof (ATN l); lia|]. rewrite andb_false_r.
          unfold sc at 1. rewrite NW. cbn [succ]. rewrite NS by auto. symmetry. apply SG. auto.
      + replace (fl h3 l [n]) with (@nil nat) by (unfold fl; cbn [filter]; rewrite HN; destruct (Nat.ltb_spec l nh); [lia|auto]). cbn [app].
        apply path_frame with (f := fun a => sc h2 a l); auto. intros x I. rewrite SC3. destruct (Nat.ltb_spec l nh); [lia|]. cbn [andb]. apply FR. apply NI. auto. }
Qed.

(* ---- removal ---- *)
Lemma unlink_ok (x H : nat) (up : list nat) h0 : x <> HEAD -> hgt h0 x <= hgt h0 HEAD ->
  (forall l, l < hgt h0 x -> nth_error up l = Some HEAD) ->
  forall c l h, c + l = hgt h0 x -> length h = length h0 -> (forall a, hgt h a = hgt h0 a) -> (forall a, plen h a = plen h0 a) -> (forall a, kd h a = kd h0 a) ->
  (forall a m, sc h a m = if (m <? l) && (a =? HEAD) then sc h0 x m else sc h0 a m) ->
  exists h', unlink c l h x up = Ok h' /\ length h' = length h0 /\ (forall a, hgt h' a = hgt h0 a) /\ (forall a, plen h' a = plen h0 a) /\ (forall a, kd h' a = kd h0 a) /\
  (forall a m, sc h' a m = if (m <? hgt h0 x) && (a =? HEAD) then sc h0 x m else sc h0 a m).
Proof.
  intros NX LX UP. induction c as [|c IH]; intros l h E L0 HG PL KD SC; cbn [unlink].
  - exists h. cbn in E. subst l. auto 10.
  - destruct (sc_some h0 x l) as [b Sb]; [lia|].
    assert (Sb' : sc h x l = Some b). { rewrite SC. destruct (Nat.eqb_spec x HEAD); [congruence|]. now rewrite andb_false_r. }
    rewrite (get_succ_ok _ _ _ _ Sb'). cbn [bind]. rewrite (proj2 (getR_Ok up l HEAD)) by (apply UP; lia). cbn [bind].
    destruct (set_succ_ok h HEAD l b) as [h1 [-> [A1 [A2 [A3 [A4 A5]]]]]]; [rewrite HG; lia|]. cbn [bind].
    apply IH; try lia; intros; rewrite ?A3, ?A4, ?A5; auto.
    rewrite A2, SC. destruct (Nat.eqb_spec m l) as [->|NM].
    + destruct (Nat.ltb_spec l (S l)); [|lia]. rewrite Nat.ltb_irrefl. destruct (Nat.eqb_spec a HEAD) as [->|]; cbn; auto.
    + rewrite andb_false_r. destruct (Nat.ltb_spec m l); destruct (Nat.ltb_spec m (S l)); try lia; auto.
Qed.

Lemma trim_ok h0 : forall c h, length h = length h0 -> hgt h HEAD = c -> (forall a, a <> HEAD -> nth_error h a = nth_error h0 a) ->
  kd h HEAD = kd h0 HEAD -> (forall l, l < c -> sc h HEAD l = sc h0 HEAD l) -> 1 <= c <= hgt h0 HEAD ->
  exists h' H', trim c h = Ok h' /\ length h' = length h0 /\ hgt h' HEAD = H' /\ 1 <= H' <= c /\ (forall a, a <> HEAD -> nth_error h' a = nth_error h0 a) /\
    kd h' HEAD = kd h0 HEAD /\ (forall l, l < H' -> sc h' HEAD l = sc h0 HEAD l) /\ (forall l, H' <= l < c -> sc h0 HEAD l = Some TAIL).
Proof.
  induction c as [|i IH]; intros h L0 HC NE KD SC B; [lia|]. cbn [trim].
  destruct (sc_some h HEAD i) as [b Sb]; [lia|]. rewrite (get_succ_ok _ _ _ _ Sb). cbn [bind].
  destruct (Nat.eqb_spec b TAIL) as [->|NT]; cbn [negb].
  2:{ exists h, (S i). repeat split; auto; lia. }
  destruct (Nat.ltb_spec 0 i) as [Pi|Pi].
  - unfold hgt in HC. unfold node_at. unfold kd in KD. destruct (nth_error h HEAD) as [n|] eqn:E; [|lia]. cbn [bind].
    pose proof (nth_error_lt _ _ _ E) as LH.
    set (h1 := upd h HEAD (mkNode (key n) (data n) (removelast (succ n)) (prev n))).
    assert (E1 : nth_error h1 HEAD = Some (mkNode (key n) (data n) (removelast (succ n)) (prev n))) by (unfold h1; apply nth_error_upd_eq; auto).
    assert (RL : exists s z, succ n = s ++ [z]). { destruct (exists_last (l := succ n)) as [s [z ->]]; [destruct (succ n); [discriminate|congruence]|]. eauto. }
    destruct RL as [s [z RL]].
    assert (LS : length s = i). { rewrite RL, app_length in HC. cbn in HC. lia. }
    destruct (IH h1) as [h' [H' [A1 [A2 [A3 [A4 [A5 [A6 [A7 A8]]]]]]]]].
    + unfold h1. rewrite upd_length. auto.
    + unfold hgt. rewrite E1. cbn. rewrite RL, removelast_last. auto.
    + intros a D. unfold h1. rewrite nth_error_upd_neq by auto. auto.
    + unfold kd at 1. rewrite E1. cbn. auto.
    + intros l Ll. rewrite <- SC by lia. unfold sc. rewrite E1, E. cbn. rewrite RL, removelast_last. rewrite nth_error_app1; auto. lia.
    + lia.
    + exists h', H'. repeat split; auto; try lia. intros l Hl. destruct (Nat.eq_dec l i) as [->|]; [|apply A8; lia]. rewrite <- SC by lia. auto.
  - assert (i = 0) by lia. subst i. cbn [trim]. exists h, 1. repeat split; auto; lia.
Qed.

Lemma remove_absent (s : skip V) H ns kvs k : rep (heap s) H ns kvs -> ~ In k (map fst kvs) -> remove s k = Ok s.
Proof.
  intros R NI. destruct (cut_exists (heap s) H k ns kvs (r_ent _ _ _ _ R) (r_sort _ _ _ _ R)) as [nA [nB [kA [kB [o C]]]]].
  unfold remove. destruct o as [[x w]|].
  - exfalso. apply NI. rewrite (c_kv _ _ _ _ _ _ _ _ _ _ C). apply in_map_iff. exists (k, w). split; auto. apply in_or_app. right. left. auto.
  - destruct (cut_scan_none _ _ _ _ _ _ _ _ _ _ R C eq_refl) as [pv [-> _]]. reflexivity.
Qed.

(* removing a present key: every smaller key goes with it *)
Lemma remove_present (s : skip V) H ns kvs k nA nB kA kB x w : rep (heap s) H ns kvs -> cut (heap s) H ns kvs k nA nB kA kB (Some (x, w)) ->
  exists s' H', remove s k = Ok s' /\ size s' = (size s - 1)%Z /\ iteritems s' = Ok (entries kB) /\ (nA = [] -> rep (heap s') H' nB kB).
Proof.
  intros R C. unfold remove. destruct (cut_scan_some _ _ _ _ _ _ _ _ _ _ R C x w eq_refl) as [pv [-> [LPV PV]]]. cbn [bind].
  destruct (cut_ent _ _ _ _ _ _ _ _ _ _ R C) as [EA [EB EX]]. set (h := heap s) in *.
  pose proof EX as [K [Bx _]]. unfold kd in K. unfold node_at at 1. assert (Hx : exists n, nth_error h x = Some n) by (destruct (nth_error h x); [eauto|discriminate]).
  destruct Hx as [n En0]. rewrite En0. cbn [bind].
  assert (Hn : length (succ n) = hgt h x) by (unfold hgt; now rewrite En0).
  pose proof (rep_nodup _ _ _ _ R) as ND. pose proof (c_ns _ _ _ _ _ _ _ _ _ _ C) as En. cbn [app] in En.
  destruct (r_head _ _ _ _ R) as [HH [dh KH]]. destruct (r_tail _ _ _ _ R) as [TP KT].
  assert (NN : forall a, In a ns -> a <> HEAD /\ a <> TAIL).
  { intros a I. inversion ND as [|? ? N1 N2]; subst. inversion N2 as [|? ? N3 N4]; subst. split; intros ->; [apply N1; right; auto|apply N3; auto]. }
  assert (Ix : In x ns) by (rewrite En; apply in_or_app; right; left; auto).
  assert (IB : forall a, In a nB -> In a ns) by (intros; rewrite En; apply in_or_app; right; right; auto).
  rewrite Hn. destruct (unlink_ok x H pv h) with (c := hgt h x) (l := 0) (h := h) as [h1 [-> [L1 [HG1 [PL1 [KD1 SC1]]]]]]; auto.
  { apply NN; auto. }
  { lia. }
  cbn [bind]. assert (HT : height h1 = Ok H).
  { unfold height, node_at. assert (E := HG1 HEAD). unfold hgt at 1 in E. rewrite HH in E. pose proof (r_H _ _ _ _ R).
    destruct (nth_error h1 HEAD); [cbn; congruence|lia]. }
  rewrite HT. cbn [bind].
  destruct (trim_ok h1 H h1) as [h2 [H' [-> [L2 [HG2 [BH [NE2 [KD2 [SC2 TL2]]]]]]]]]; auto.
  { rewrite HG1. auto. } { rewrite HG1, HH. pose proof (r_H _ _ _ _ R). lia. }
  cbn [bind]. exists (mkSkip h2 (size s - 1)), H'. split; [reflexivity|]. split; [reflexivity|].
  (* paths after the change *)
  assert (P1 : forall l, l < hgt h x -> path (fun a => sc h1 a l) HEAD (fl h l nB) TAIL).
  { intros l L. pose proof (r_path _ _ _ _ R l ltac:(lia)) as P. rewrite En, fl_app in P.
    change (x :: nB) with ([x] ++ nB) in P. rewrite fl_app in P.
    replace (fl h l [x]) with [x] in P by (unfold fl; cbn [filter]; destruct (Nat.ltb_spec l (hgt h x)); [auto|lia]).
    cbn [app] in P. apply path_app in P. destruct P as [_ P].
    assert (G0 : sc h1 HEAD l = sc h x l). { rewrite SC1. destruct (Nat.ltb_spec l (hgt h x)); [auto|lia]. }
    assert (G1 : forall a, In a (fl h l nB) -> sc h1 a l = sc h a l).
    { intros a I. rewrite SC1. apply fl_in in I. destruct (NN a) as [Na _]; [apply IB; tauto|]. destruct (Nat.eqb_spec a HEAD); [congruence|]. now rewrite andb_false_r. }
    destruct (fl h l nB) as [|c r]; cbn [path] in *; [congruence|]. destruct P as [Pa Pb]. split; [congruence|].
    apply path_frame with (f := fun a => sc h a l); auto. }
  assert (SC12 : forall a l, a <> HEAD -> sc h2 a l = sc h1 a l) by (intros a l D; unfold sc; now rewrite NE2).
  assert (HG12 : forall a, a <> HEAD -> hgt h2 a = hgt h a) by (intros a D; rewrite <- HG1; unfold hgt; now rewrite NE2).
  assert (KD12 : forall a, a <> HEAD -> kd h2 a = kd h a) by (intros a D; rewrite <- KD1; unfold kd; now rewrite NE2).
  assert (PL12 : forall a, a <> HEAD -> plen h2 a = plen h a) by (intros a D; rewrite <- PL1; unfold plen; now rewrite NE2).
  assert (FLB : forall l, fl h2 l nB = fl h l nB) by (intro l; apply fl_ext; intros a I; apply HG12, NN, IB; auto).
  assert (P2 : forall l, l < hgt h x -> l < H' -> path (fun a => sc h2 a l) HEAD (fl h2 l nB) TAIL).
  { intros l La Lb. rewrite FLB. apply path_frame with (f := fun a => sc h1 a l); [apply P1; auto|].
    intros a [<-|I]; [apply SC2; auto|]. apply SC12. apply fl_in in I. apply NN, IB. tauto. }
  split.
  - apply iter_ok with (ns := nB).
    + apply path_level; cbn [heap].
      * pose proof (P2 0 ltac:(lia) ltac:(lia)) as P. rewrite FLB in P. rewrite (fl_zero h H nB kB EB) in P. auto.
      * intro I. apply IB in I. apply NN in I. destruct I; auto.
      * rewrite L2, L1. pose proof (rep_len _ _ _ _ R) as Q. rewrite En, app_length in Q. cbn in Q. apply Nat.le_trans with (2 := Q). lia.
    + cbn [heap]. assert (FB : forall a, In a nB -> a <> HEAD) by (intros a I; apply NN, IB; auto).
      clear - EB FB KD12. unfold items_of. induction EB as [|a kv nB kB [Ka _] _ IH]; constructor.
      * rewrite KD12; auto. apply FB. left; auto.
      * apply IH. intros b I. apply FB. right; auto.
  - intros ->. cbn [app] in En. cbn [heap].
    assert (EQ1 : forall l, hgt h x <= l -> l < H -> path (fun a => sc h1 a l) HEAD (fl h l nB) TAIL).
    { intros l La Lb. pose proof (r_path _ _ _ _ R l Lb) as P. rewrite En in P.
      replace (fl h l (x :: nB)) with (fl h l nB) in P by (unfold fl; cbn [filter]; destruct (Nat.ltb_spec l (hgt h x)); [lia|auto]).
      apply path_frame with (f := fun a => sc h a l); auto. intros a _. rewrite SC1. destruct (Nat.ltb_spec l (hgt h x)); [lia|auto]. }
    assert (AllP : forall l, l < H -> path (fun a => sc h1 a l) HEAD (fl h l nB) TAIL).
    { intros l L. destruct (lt_dec l (hgt h x)); [apply P1; auto|apply EQ1; auto; lia]. }
    assert (TOP : forall a, In a nB -> hgt h a <= H').
    { intros a I. destruct (le_dec (hgt h a) H') as [|G]; auto. exfalso.
      destruct (ent_in _ _ _ _ _ EB I) as [kv [_ [_ [B _]]]].
      assert (L : H' <= hgt h a - 1 < H) by lia. specialize (AllP (hgt h a - 1) ltac:(lia)). pose proof (TL2 (hgt h a - 1) L) as T.
      assert (J : In a (fl h (hgt h a - 1) nB)) by (apply fl_in; split; auto; lia).
      destruct (fl h (hgt h a - 1) nB) as [|c r] eqn:Ef; [destruct J|]. cbn in AllP. destruct AllP as [Ac _]. assert (c = TAIL) by congruence. subst c.
      assert (In TAIL (fl h (hgt h a - 1) nB)) by (rewrite Ef; left; auto). apply fl_in in H0. destruct H0 as [H0 _]. apply IB, NN in H0. destruct H0; auto. }
    split.
    + clear - EB TOP KD12 PL12 HG12 NN IB. induction EB as [|a kv nB kB [Ka [Kb Kc]] _ IH]; constructor.
      * assert (a <> HEAD) by (apply NN, IB; left; auto). split; [rewrite KD12; auto|]. rewrite HG12, PL12 by auto. split; auto. split; [lia|]. apply TOP. left; auto.
      * apply IH; intros b I; [apply IB|apply TOP]; right; auto.
    + pose proof (r_sort _ _ _ _ R) as St. rewrite (c_kv _ _ _ _ _ _ _ _ _ _ C) in St. destruct (strict_app _ _ St) as [_ [S2 _]].
      destruct (strict_app _ _ S2) as [_ [S3 _]]. auto.
    + lia.
    + split; auto. rewrite KD2, KD1. eauto.
    + rewrite PL12, KD12 by discriminate. split; [lia|auto].
    + intros l L. rewrite FLB. apply path_frame with (f := fun a => sc h1 a l); [apply AllP; lia|].
      intros a [<-|I]; [apply SC2; auto|]. apply SC12. apply fl_in in I. apply NN, IB. tauto.
Qed.

(* ---- histories ---- *)
Lemma rep_new : rep (heap (@skip_new V)) 1 [] [].
Proof.
  split; try (constructor; fail); auto.
  - split; auto. exists None. reflexivity.
  - split; auto. exists None. reflexivity.
  - intros l L. assert (l = 0) by lia. subst. reflexivity.
Qed.

Definition models (s : skip V) (os : list (op V)) : Prop := exists H ns kvs, rep (heap s) H ns kvs /\ size s = Z.of_nat (length kvs) /\
  forall k v, In (k, v) kvs <-> last_set os k = Some v.

Lemma insert_models s os k v ht : models s os -> exists s', insert s k v ht = Ok s' /\ models s' (os ++ [Set_ k v ht]).
Proof.
  intros [H [ns [kvs [R [Sz M]]]]].
  destruct (cut_exists (heap s) H k ns kvs (r_ent _ _ _ _ R) (r_sort _ _ _ _ R)) as [nA [nB [kA [kB [o C]]]]].
  assert (MK : forall s' H' ns', rep (heap s') H' ns' (kA ++ (k, v) :: kB) -> size s' = Z.of_nat (length (kA ++ (k, v) :: kB)) -> models s' (os ++ [Set_ k v ht])).
  { intros s' H' ns' R' S'. exists H', ns', (kA ++ (k, v) :: kB). split; auto. split; auto. intros k0 v0.
    unfold last_set. rewrite fold_left_app. cbn. fold (last_set os k0). rewrite in_app_iff. cbn [In].
    destruct C as [_ Ek _ F1 F2]. rewrite Forall_forall in F1, F2. destruct (Z.eqb_spec k k0) as [<-|NE].
    - split; [|intro E; inversion E; auto]. intros [I|[E|I]]; [specialize (F1 _ I); cbn in F1; lia|congruence|specialize (F2 _ I); cbn in F2; lia].
    - rewrite <- M, Ek. rewrite !in_app_iff. destruct o as [[x w]|]; cbn [In].
      + split; [intros [I|[E|I]]; auto; congruence|]. intros [I|[[E|[]]|I]]; auto. congruence.
      + split; [intros [I|[E|I]]; auto; congruence|]. intros [I|[[]|I]]; auto. }
  destruct o as [[x w]|].
  - destruct (insert_found s H ns kvs k v ht nA nB kA kB x w R C) as [s' [E [Sz' R']]]. exists s'. split; auto.
    apply MK with (H' := H) (ns' := ns); auto. rewrite Sz', Sz, (c_kv _ _ _ _ _ _ _ _ _ _ C). rewrite !app_length. cbn. lia.
  - destruct (insert_new s H ns kvs k v ht nA nB kA kB R C) as [s' [n [E [Sz' [R' _]]]]]. exists s'. split; auto.
    apply (MK s' _ _ R'). rewrite Sz', Sz, (c_kv _ _ _ _ _ _ _ _ _ _ C). rewrite !app_length. cbn [length]. lia.
Qed.

Lemma run_models os : forall s os0, only_sets os -> models s os0 -> exists s', run s os = Ok s' /\ models s' (os0 ++ os).
Proof.
  induction os as [|o os IH]; intros s os0 O M.
  - exists s. rewrite app_nil_r. auto.
  - inversion O as [|? ? O1 O2]; subst. destruct o as [k v ht|k]; [|destruct O1]. cbn [run step].
    destruct (insert_models s os0 k v ht M) as [s1 [-> M1]]. cbn [bind].
    destruct (IH s1 _ O2 M1) as [s2 [E M2]]. exists s2. rewrite <- app_assoc in M2. auto.
Qed.
Lemma new_models : models (@skip_new V) [].
Proof.
  exists 1, [], []. split; [apply rep_new|]. split; auto. intros k v. cbn. split; [intros []|discriminate].
Qed.

(* everything observable about a represented list *)
Lemma models_agrees s os : models s os -> agrees s os.
Proof.
  intros [H [ns [kvs [R [Sz M]]]]]. split.
  - exists kvs. split; [apply (rep_iter s H ns kvs R)|]. split; [apply (r_sort _ _ _ _ R)|]. auto.
  - intro k. destruct (get_ok s H ns kvs k R) as [r [-> [I|[-> NI]]]]; f_equal.
    + apply M in I. now rewrite I.
    + destruct (last_set os k) as [v|] eqn:L; auto. apply M in L. exfalso. apply NI. apply in_map_iff. exists (k, v). auto.
  - exists H. split; [apply (height_ok _ _ _ _ R)|]. intros l L. exists (fl (heap s) l ns), (fl (heap s) (S l) ns).
    split; [apply (level_ok s H ns kvs); auto; lia|]. split; [apply (level_ok s H ns kvs); auto; lia|]. apply fl_subseq.
Qed.
(* deleting the smallest key keeps a working list *)
Lemma remove_smallest s os k : models s os -> last_set os k <> None -> (forall k', last_set os k' <> None -> (k <= k')%Z) ->
  exists s', remove s k = Ok s' /\ models s' (os ++ [Del k]).
Proof.
  intros [H [ns [kvs [R [Sz M]]]]] P Min.
  destruct (cut_exists (heap s) H k ns kvs (r_ent _ _ _ _ R) (r_sort _ _ _ _ R)) as [nA [nB [kA [kB [o C]]]]].
  destruct (last_set os k) as [v|] eqn:LS; [|congruence]. apply M in LS.
  pose proof (c_lt _ _ _ _ _ _ _ _ _ _ C) as F1. pose proof (c_gt _ _ _ _ _ _ _ _ _ _ C) as F2. pose proof (c_kv _ _ _ _ _ _ _ _ _ _ C) as Ek.
  rewrite Forall_forall in F1, F2.
  assert (KA : kA = []).
  { destruct kA as [|a kA]; auto. exfalso. specialize (F1 a (or_introl eq_refl)). destruct a as [ka va]. cbn in F1.
    assert (I : In (ka, va) kvs) by (rewrite Ek; left; auto). apply M in I. assert (k <= ka)%Z by (apply Min; congruence). lia. }
  pose proof (c_len _ _ _ _ _ _ _ _ _ _ C) as LL. rewrite KA in LL. destruct nA; [|discriminate]. subst kA.
  destruct o as [[x w]|].
  - destruct (remove_present s H ns kvs k [] nB [] kB x w R C) as [s' [H' [E1 [E2 [_ E4]]]]]. exists s'. split; auto.
    exists H', nB, kB. split; [apply E4; auto|]. split; [rewrite E2, Sz, Ek; cbn [app length]; lia|].
    intros k0 v0. unfold last_set. rewrite fold_left_app. cbn. fold (last_set os k0). destruct (Z.eqb_spec k k0) as [<-|NE].
    + split; [|discriminate]. intro I. specialize (F2 _ I). cbn in F2. lia.
    + rewrite <- M, Ek. cbn. split; auto. intros [X|X]; auto. congruence.
  - exfalso. rewrite Ek in LS. cbn in LS. specialize (F2 _ LS). cbn in F2. lia.
Qed.
Lemma remove_missing s os k : models s os -> last_set os k = None -> remove s k = Ok s /\ models s (os ++ [Del k]).
Proof.
  intros Md L. destruct Md as [H [ns [kvs [R [Sz M]]]]]. split.
  - apply (remove_absent s H ns kvs); auto. intro I. apply in_map_iff in I. destruct I as [[a v] [E1 I]]. cbn in E1. subst a. apply M in I. congruence.
  - exists H, ns, kvs. split; auto. split; auto. intros k0 v0. unfold last_set. rewrite fold_left_app. cbn. fold (last_set os k0).
    destruct (Z.eqb_spec k k0) as [<-|NE]; auto. rewrite M, L. tauto.
Qed.
Lemma run_app (os1 os2 : list (op V)) : forall s, run s (os1 ++ os2) = (do s' <- run s os1 ; run s' os2).
Proof. induction os1 as [|o os1 IH]; intros s; cbn [app run]; auto. destruct (step s o) as [s'|e]; cbn [bind]; auto. Qed.
Lemma tame_models os : deletes_smallest os -> exists s, run skip_new os = Ok s /\ models s os.
Proof.
  induction os as [|o os IH] using rev_ind; intro T.
  - exists skip_new. split; auto. apply new_models.
  - destruct IH as [s [E M]]. { intros p k q Eq. apply (T p k (q ++ [o])). rewrite Eq, <- app_assoc. auto. }
    rewrite run_app, E. cbn [bind run step]. destruct o as [k v ht|k]; cbn [step].
    + destruct (insert_models s os k v ht M) as [s' [-> M']]. cbn. eauto.
    + destruct (last_set os k) as [v|] eqn:L.
      * destruct (T os k [] eq_refl) as [Z0|Mn]; [congruence|]. destruct (remove_smallest s os k M) as [s' [-> M']]; auto; [congruence|]. cbn. eauto.
      * destruct (remove_missing s os k M L) as [-> M']. cbn. eauto.
Qed.
Lemma history (os : list (op V)) : only_sets os -> exists s, run skip_new os = Ok s /\ agrees s os.
Proof. intro O. destruct (run_models os skip_new [] O new_models) as [s [E M]]. exists s. split; auto. apply models_agrees. auto. Qed.
Lemma history_tame (os : list (op V)) : deletes_smallest os -> exists s, run skip_new os = Ok s /\ agrees s os.
Proof. intro O. destruct (tame_models os O) as [s [E M]]. exists s. split; auto. apply models_agrees. auto. Qed.
Lemma history_lost (os : list (op V)) k : deletes_smallest os -> last_set os k <> None ->
  exists s s' kvs, run skip_new os = Ok s /\ iteritems s = Ok (entries kvs) /\ remove s k = Ok s' /\
   iteritems s' = Ok (entries (filter (fun kv => k <? fst kv)%Z kvs)) /\ len s' = (len s - 1)%Z /\
   forall k' v, In (k', v) kvs <-> last_set os k' = Some v.
Proof.
  intros O L. destruct (tame_models os O) as [s [E [H [ns [kvs [R [Sz M]]]]]]].
  destruct (last_set os k) as [v|] eqn:LS; [|congruence]. apply M in LS.
  destruct (cut_exists (heap s) H k ns kvs (r_ent _ _ _ _ R) (r_sort _ _ _ _ R)) as [nA [nB [kA [kB [o C]]]]].
  pose proof (c_lt _ _ _ _ _ _ _ _ _ _ C) as F1. pose proof (c_gt _ _ _ _ _ _ _ _ _ _ C) as F2. pose proof (c_kv _ _ _ _ _ _ _ _ _ _ C) as Ek.
  destruct o as [[x w]|].
  - destruct (remove_present s H ns kvs k nA nB kA kB x w R C) as [s' [H' [E1 [E2 [E3 _]]]]]. exists s, s', kvs. split; auto. split; [apply (rep_iter s H ns kvs R)|].
    split; auto. split; auto.
    rewrite E3. do 2 f_equal. rewrite Ek. cbn [app]. rewrite filter_app. cbn [filter fst]. rewrite Z.ltb_irrefl.
    assert (X1 : filter (fun kv => (k <? fst kv)%Z) kA = []).
    { clear - F1. induction F1 as [|a l L _ IH]; auto. cbn [filter]. destruct (Z.ltb_spec k (fst a)); [lia|auto]. }
    assert (X2 : filter (fun kv => (k <? fst kv)%Z) kB = kB).
    { clear - F2. induction F2 as [|a l L _ IH]; auto. cbn [filter]. destruct (Z.ltb_spec k (fst a)); [now rewrite IH|lia]. }
    rewrite X1, X2. auto.
  - exfalso. rewrite Ek in LS. cbn [app] in LS. apply in_app_or in LS. rewrite Forall_forall in F1, F2.
    destruct LS as [I|I]; [specialize (F1 _ I); cbn in F1|specialize (F2 _ I); cbn in F2]; lia.
Qed.
Lemma lost_refuted (os : list (op V)) k k' : deletes_smallest os -> last_set os k <> None -> last_set os k' <> None -> (k' < k)%Z ->
  exists s, run skip_new (os ++ [Del k]) = Ok s /\ ~ agrees s (os ++ [Del k]).
Proof.
  intros O L L' Lt. destruct (history_lost os k O L) as [s [s' [kvs [E [E2 [E3 [E4 [_ M]]]]]]]]. exists s'.
  rewrite run_app, E. cbn [bind run step]. rewrite E3. cbn [bind]. split; auto. intros [[kvs' [I1 [_ [_ M']]]] _ _].
  rewrite E4 in I1. assert (EK : filter (fun kv => (k <? fst kv)%Z) kvs = kvs').
  { assert (INJ : forall a b : list (Z * option V), entries a = entries b -> a = b).
    { induction a as [|[x y] a IH]; intros [|[x' y'] b] Q; cbn in Q; try discriminate; auto. inversion Q. f_equal. apply IH. auto. }
    apply INJ. congruence. }
  destruct (last_set os k') as [v|] eqn:Q; [|congruence].
  assert (J : In (k', v) kvs'). { apply M'. unfold last_set. rewrite fold_left_app. cbn. fold (last_set os k'). destruct (Z.eqb_spec k k'); [lia|auto]. }
  rewrite <- EK in J. apply filter_In in J. destruct J as [_ J]. cbn in J. apply Z.ltb_lt in J. lia.
Qed.
End Skip.
