(* Skip list: lemmas. *)
From Coq Require Import List Arith ZArith Bool Sorted Lia.
From Verif Require Import Common ListLib SkipModel SkipSpec.
Import ListNotations.

Section Skip.
Context {V : Type}.
Notation node := (node V).

Definition sc (h : list node) (a l : nat) : option nat :=
  match nth_error h a with Some n => nth_error (succ n) l | None => None end.
Definition hgt (h : list node) (a : nat) : nat := match nth_error h a with Some n => length (succ n) | None => 0 end.
Definition plen (h : list node) (a : nat) : nat := match nth_error h a with Some n => length (prev n) | None => 0 end.
Definition kd (h : list node) (a : nat) : option (skey * option V) :=
  match nth_error h a with Some n => Some (key n, data n) | None => None end.

Lemma get_succ_ok h a l b : sc h a l = Some b -> get_succ h a l = Ok b.
Proof. unfold sc, get_succ, node_at. destruct (nth_error h a); [|discriminate]. cbn. intro H. now apply getR_Ok. Qed.
Lemma sc_some h a l : l < hgt h a -> exists b, sc h a l = Some b.
Proof. unfold sc, hgt. destruct (nth_error h a) as [n|]; [|lia]. intro H. destruct (nth_error (succ n) l) eqn:E; eauto. apply nth_error_None in E. lia. Qed.
Lemma sc_lt h a l b : sc h a l = Some b -> l < hgt h a.
Proof. unfold sc, hgt. destruct (nth_error h a) as [n|]; [|discriminate]. intro H. now apply nth_error_lt in H. Qed.

(* effects of the two writes *)
Lemma set_succ_ok h a l v : l < hgt h a -> exists h', set_succ h a l v = Ok h' /\ length h' = length h /\
  (forall x m, sc h' x m = if (x =? a) && (m =? l) then Some v else sc h x m) /\
  (forall x, hgt h' x = hgt h x) /\ (forall x, plen h' x = plen h x) /\ (forall x, kd h' x = kd h x).
Proof.
  unfold hgt, set_succ, node_at, set_item. destruct (nth_error h a) as [n|] eqn:E; [|lia]. intro L. cbn [bind].
  apply Nat.ltb_lt in L as L'. rewrite L'. cbn [bind]. eexists. split; [reflexivity|]. split; [now rewrite upd_length|].
  pose proof (nth_error_lt _ _ _ E) as LA. unfold sc, plen, kd.
  split; [|split; [|split]]; intros x; [intro m| | |]; rewrite nth_error_upd; destruct (Nat.eq_dec a x) as [->|N]; try (destruct (lt_dec x (length h)); [|lia]); cbn.
  - rewrite Nat.eqb_refl. cbn. rewrite nth_error_upd. destruct (Nat.eqb_spec m l) as [->|M].
    + destruct (Nat.eq_dec l l); [|congruence]. destruct (lt_dec l (length (succ n))); [auto|lia].
    + destruct (Nat.eq_dec l m); [congruence|]. now rewrite E.
  - destruct (Nat.eqb_spec x a); [congruence|]. reflexivity.
  - rewrite upd_length, E. auto.
  - auto.
  - now rewrite E.
  - auto.
  - now rewrite E.
  - auto.
Qed.
Lemma set_prev_ok h a l v : l < plen h a -> exists h', set_prev h a l v = Ok h' /\ length h' = length h /\
  (forall x m, sc h' x m = sc h x m) /\
  (forall x, hgt h' x = hgt h x) /\ (forall x, plen h' x = plen h x) /\ (forall x, kd h' x = kd h x).
Proof.
  unfold plen, set_prev, node_at, set_item. destruct (nth_error h a) as [n|] eqn:E; [|lia]. intro L. cbn [bind].
  apply Nat.ltb_lt in L as L'. rewrite L'. cbn [bind]. eexists. split; [reflexivity|]. split; [now rewrite upd_length|].
  pose proof (nth_error_lt _ _ _ E) as LA. unfold sc, hgt, kd.
  split; [|split; [|split]]; intros x; [intro m| | |]; rewrite nth_error_upd; destruct (Nat.eq_dec a x) as [->|N]; try (destruct (lt_dec x (length h)); [|lia]); cbn; try (now rewrite E); auto.
  rewrite upd_length, E. auto.
Qed.

(* ---- paths ---- *)
Fixpoint path (f : nat -> option nat) (a : nat) (ns : list nat) (b : nat) : Prop :=
  match ns with [] => f a = Some b | c :: r => f a = Some c /\ path f c r b end.

Lemma path_frame f g a ns b : path f a ns b -> (forall x, In x (a :: ns) -> g x = f x) -> path g a ns b.
Proof.
  revert a. induction ns as [|c r IH]; cbn [path]; intros a P E.
  - rewrite E by (left; auto). auto.
  - destruct P as [P1 P2]. split; [rewrite E by (left; auto); auto|]. apply IH; auto. intros x Hx. apply E. right. auto.
Qed.
Lemma path_app f a X c Y b : path f a (X ++ c :: Y) b <-> path f a X c /\ path f c Y b.
Proof. revert a. induction X as [|x X IH]; intros a; cbn; [tauto|]. rewrite IH. tauto. Qed.
Lemma last_cons {A} (x : A) X d : last (x :: X) d = last X x.
Proof. revert x d. induction X as [|y X IH]; intros x d; auto. change (last (y :: X) d = last (y :: X) x). now rewrite !IH. Qed.
Lemma last_in {A} (X : list A) d : In (last X d) (d :: X).
Proof. revert d. induction X as [|x X IH]; intro d; [left; auto|]. rewrite last_cons. right. apply IH. Qed.
Lemma path_end f a X b : path f a X b -> f (last X a) = Some b.
Proof. revert a. induction X as [|x X IH]; intros a P; [exact P|]. rewrite last_cons. apply IH. apply P. Qed.
Lemma path_tail f a X Y b : path f a (X ++ Y) b -> path f (last X a) Y b.
Proof. revert a. induction X as [|x X IH]; intros a P; [exact P|]. rewrite last_cons. apply IH. apply P. Qed.

Lemma path_insert f g n b Y : forall X a, path f a (X ++ Y) b -> NoDup (a :: X ++ Y) -> ~ In n (a :: X ++ Y) ->
  (forall x, x <> last X a -> x <> n -> g x = f x) -> g (last X a) = Some n -> g n = f (last X a) ->
  path g a (X ++ n :: Y) b.
Proof.
  induction X as [|x X IH]; intros a P ND NI G1 G2 G3.
  - cbn [app last] in *. split; auto. assert (F : forall y, In y Y -> g y = f y).
    { intros y Hy. apply G1; intros ->; [inversion ND; auto|apply NI; right; auto]. }
    destruct Y as [|c Y]; cbn [path] in *.
    + congruence.
    + destruct P as [P1 P2]. split; [congruence|]. apply path_frame with (f := f); auto.
  - rewrite last_cons in *. cbn [app path] in *. destruct P as [P1 P2]. split.
    + rewrite G1; auto.
      * inversion ND as [|? ? H1 H2]; subst. intros ->. destruct (last_in X x) as [E|E].
        -- rewrite <- E in H1. apply H1. left. auto.
        -- apply H1. right. apply in_or_app. auto.
      * intros ->. apply NI. left. auto.
    + apply IH; auto. inversion ND; auto. intro H. apply NI. right. auto.
Qed.

(* ---- representation ---- *)
Definition fl (h : list node) (l : nat) (X : list nat) : list nat := filter (fun a => l <? hgt h a) X.
Definition entry_ok (h : list node) (H : nat) (a : nat) (kv : Z * option V) : Prop :=
  kd h a = Some (Key (fst kv), snd kv) /\ 1 <= hgt h a <= H /\ plen h a = hgt h a.
Record rep (h : list node) (H : nat) (ns : list nat) (kvs : list (Z * option V)) : Prop := {
  r_ent : Forall2 (entry_ok h H) ns kvs;
  r_sort : strict kvs;
  r_H : 1 <= H;
  r_head : hgt h HEAD = H /\ exists d, kd h HEAD = Some (KHead, d);
  r_tail : H <= plen h TAIL /\ exists d, kd h TAIL = Some (KTail, d);
  r_path : forall l, l < H -> path (fun a => sc h a l) HEAD (fl h l ns) TAIL }.

Lemma ent_in h H ns kvs a : Forall2 (entry_ok h H) ns kvs -> In a ns -> exists kv, In kv kvs /\ entry_ok h H a kv.
Proof. induction 1; intros I; [destruct I|]. destruct I as [->|I]; [exists y; split; auto; left; auto|]. destruct (IHForall2 I) as [kv [? ?]]. exists kv. split; auto. right; auto. Qed.

Lemma rep_nodup h H ns kvs : rep h H ns kvs -> NoDup (HEAD :: TAIL :: ns).
Proof.
  intros [E S _ [_ [hd Hh]] [_ [tl Ht]] _].
  assert (NH : forall a, In a ns -> a <> HEAD /\ a <> TAIL).
  { intros a I. destruct (ent_in _ _ _ _ _ E I) as [kv [_ [K _]]]. split; intros ->; congruence. }
  assert (ND : NoDup ns).
  { clear NH Hh Ht. unfold strict in S. revert S. induction E as [|a kv ns kvs E1 E2 IH]; intros; constructor.
    - intro I. cbn in S. inversion S as [|? ? S1 S2]; subst. rewrite Forall_forall in S2.
      destruct (ent_in _ _ _ _ _ E2 I) as [kv' [I' [K' _]]]. destruct E1 as [K1 _]. assert (fst kv = fst kv') by congruence.
      specialize (S2 (fst kv')). assert (fst kv < fst kv')%Z by (apply S2; apply in_map; auto). lia.
    - apply IH. cbn in S. inversion S; auto. }
  constructor; [|constructor; auto].
  - intros [D|I]; [discriminate|]. destruct (NH HEAD I); auto.
  - intro I. destruct (NH TAIL I); auto.
Qed.
Lemma rep_lt h H ns kvs a : rep h H ns kvs -> In a (HEAD :: TAIL :: ns) -> a < length h.
Proof.
  intros R I. assert (exists x, kd h a = Some x).
  { destruct I as [<-|[<-|I]]; [destruct (r_head _ _ _ _ R) as [_ [d E]]; eauto|destruct (r_tail _ _ _ _ R) as [_ [d E]]; eauto|].
    destruct (ent_in _ _ _ _ _ (r_ent _ _ _ _ R) I) as [kv [_ [K _]]]. eauto. }
  destruct H0 as [x E]. unfold kd in E. destruct (nth_error h a) eqn:N; [|discriminate]. now apply nth_error_lt in N.
Qed.
Lemma rep_len h H ns kvs : rep h H ns kvs -> length ns + 2 <= length h.
Proof.
  intro R. pose proof (rep_nodup _ _ _ _ R) as ND.
  assert (I : incl (HEAD :: TAIL :: ns) (seq 0 (length h))). { intros a Ha. apply in_seq. pose proof (rep_lt _ _ _ _ a R Ha). lia. }
  pose proof (NoDup_incl_length ND I) as L. rewrite seq_length in L. cbn [length] in L. lia.
Qed.
Lemma fl_app h l X Y : fl h l (X ++ Y) = fl h l X ++ fl h l Y.
Proof. apply filter_app. Qed.
Lemma fl_in h l X a : In a (fl h l X) <-> In a X /\ l < hgt h a.
Proof. unfold fl. rewrite filter_In, Nat.ltb_lt. tauto. Qed.
Lemma fl_len h l X : length (fl h l X) <= length X.
Proof. unfold fl. induction X as [|x X IH]; auto. cbn [filter]. destruct (l <? hgt h x); cbn [length]; lia. Qed.
Lemma fl_nodup h l X : NoDup X -> NoDup (fl h l X).
Proof. apply NoDup_filter. Qed.
Lemma fl_zero h H ns kvs : Forall2 (entry_ok h H) ns kvs -> fl h 0 ns = ns.
Proof. induction 1 as [|a kv ns kvs [_ [L _]] _ IH]; auto. unfold fl in *. cbn [filter]. destruct (Nat.ltb_spec 0 (hgt h a)); [|lia]. now rewrite IH. Qed.

(* ---- walking one level ---- *)
Definition key_is (h : list node) (a : nat) (z : Z) : Prop := exists d, kd h a = Some (Key z, d).
Definition above (h : list node) (k : Z) (a : nat) : Prop := (exists d, kd h a = Some (KTail, d)) \/ exists z, key_is h a z /\ (k < z)%Z.

Lemma goes_on_yes h l k a b z : sc h a l = Some b -> key_is h b z -> (z <= k)%Z -> goes_on h l k a = Ok true.
Proof.
  intros S [d K] L. unfold goes_on. rewrite (get_succ_ok _ _ _ _ S). cbn [bind]. unfold kd in K. unfold node_at.
  destruct (nth_error h b); [|discriminate]. inversion K as [[K1 K2]]. cbn. rewrite K1. cbn. f_equal. now apply Z.leb_le.
Qed.
Lemma goes_on_no h l k a b : sc h a l = Some b -> above h k b -> goes_on h l k a = Ok false.
Proof.
  intros S A. unfold goes_on. rewrite (get_succ_ok _ _ _ _ S). cbn [bind]. unfold node_at.
  destruct A as [[d K]|[z [[d K] L]]]; unfold kd in K; destruct (nth_error h b); try discriminate; inversion K as [[K1 K2]]; cbn; rewrite K1; cbn; auto.
  f_equal. apply Z.leb_gt. lia.
Qed.
Lemma drop_from_ok h l k c : forall Q fuel a R b, path (fun x => sc h x l) a (Q ++ R) TAIL -> ~ In TAIL (a :: Q) ->
  Forall (fun x => exists z, key_is h x z /\ (z <= k)%Z) Q -> sc h (last Q a) l = Some b -> above h k b -> length Q < fuel -> c = last Q a ->
  drop_from fuel h l k a = Ok c.
Proof.
  induction Q as [|q Q IH]; intros fuel a R b P NT F S A L ->; destruct fuel as [|fuel]; cbn [length] in L; try lia; cbn [drop_from].
  - assert (a <> TAIL) by (intros ->; apply NT; left; auto). destruct (Nat.eqb_spec a TAIL); [congruence|].
    cbn [last] in *. rewrite (goes_on_no _ _ _ _ _ S A). reflexivity.
  - assert (a <> TAIL) by (intros ->; apply NT; left; auto). destruct (Nat.eqb_spec a TAIL); [congruence|].
    cbn [app path] in P. destruct P as [P1 P2]. inversion F as [|? ? [z [K L1]] F']; subst.
    rewrite (goes_on_yes _ _ _ _ _ _ P1 K L1). cbn [bind]. rewrite (get_succ_ok _ _ _ _ P1). cbn [bind].
    rewrite last_cons in *. apply IH with (R := R) (b := b); auto. intro I. apply NT. right. auto. lia.
Qed.

(* the nodes split at key k *)
Definition split_at (h : list node) (k : Z) (nA nB : list nat) : Prop :=
  Forall (fun x => exists z, key_is h x z /\ (z <= k)%Z) nA /\ Forall (fun x => exists z, key_is h x z /\ (k < z)%Z) nB.
Lemma ent_above h H k ns kvs : Forall2 (entry_ok h H) ns kvs -> Forall (fun kv => (k < fst kv)%Z) kvs ->
  Forall (fun x => exists z, key_is h x z /\ (k < z)%Z) ns.
Proof.
  induction 1 as [|x y N K [Kd _] _ IH]; intro All; constructor; inversion All; subst; auto. exists (fst y). split; auto. exists (snd y). auto.
Qed.
Lemma split_exists h H k : forall ns kvs, Forall2 (entry_ok h H) ns kvs -> strict kvs ->
  exists nA nB kA kB, ns = nA ++ nB /\ kvs = kA ++ kB /\ length nA = length kA /\ split_at h k nA nB /\
    Forall (fun kv => (fst kv <= k)%Z) kA /\ Forall (fun kv => (k < fst kv)%Z) kB.
Proof.
  intros ns kvs E. induction E as [|a kv ns kvs E1 E2 IH]; intros S.
  - exists [], [], [], []. repeat split; constructor.
  - unfold strict in S. cbn in S. inversion S as [|? ? S1 S2]; subst.
    destruct (IH S1) as [nA [nB [kA [kB [-> [-> [L [[SA SB] [FA FB]]]]]]]]].
    destruct (Z_le_gt_dec (fst kv) k) as [Le|Gt].
    + exists (a :: nA), nB, (kv :: kA), kB. cbn. repeat split; auto.
      constructor; auto. exists (fst kv). split; auto. destruct E1 as [K _]. exists (snd kv). auto.
    + rewrite Forall_forall in S2.
      assert (All : Forall (fun kv => (k < fst kv)%Z) (kA ++ kB)).
      { apply Forall_forall. intros x I. specialize (S2 (fst x) (in_map fst _ _ I)). lia. }
      exists [], (a :: nA ++ nB), [], (kv :: kA ++ kB). repeat split; auto; try constructor; auto; try lia.
      * exists (fst kv). split; [|lia]. destruct E1 as [K _]. exists (snd kv). auto.
      * apply (ent_above h H k _ _ E2 All).
Qed.

Section At.
Variables (h : list node) (H : nat) (ns : list nat) (kvs : list (Z * option V)) (k : Z) (nA nB : list nat).
Hypothesis R : rep h H ns kvs.
Hypothesis Ens : ns = nA ++ nB.
Hypothesis SP : split_at h k nA nB.

Let at_level l := last (fl h l nA) HEAD.

Lemma above_first l : l < H -> exists b, sc h (at_level l) l = Some b /\ above h k b /\ (b = TAIL \/ In b (fl h l nB)).
Proof.
  intro L. pose proof (r_path _ _ _ _ R l L) as P. rewrite Ens, fl_app in P. apply path_tail in P. fold (at_level l) in P.
  destruct SP as [_ SB]. destruct (fl h l nB) as [|b r] eqn:E; cbn [path] in P.
  - exists TAIL. split; auto. split; auto. left. apply (r_tail _ _ _ _ R).
  - exists b. destruct P as [P _]. split; auto. split; [|right; left; auto]. right. rewrite Forall_forall in SB. apply SB.
    assert (I : In b (fl h l nB)) by (rewrite E; left; auto). apply fl_in in I. tauto.
Qed.

Lemma drop_ok l a : l < H -> (fl h l nA <> [] -> In a (HEAD :: fl h l nA)) -> drop h l k a = Ok (at_level l).
Proof.
  intros L Ha. destruct (above_first l L) as [b [Sb [Ab _]]]. pose proof (r_path _ _ _ _ R l L) as P. rewrite Ens, fl_app in P.
  pose proof (rep_nodup _ _ _ _ R) as ND. pose proof (rep_len _ _ _ _ R) as LN.
  unfold drop, at_level in *. destruct (fl h l nA) as [|q Q] eqn:E.
  - cbn [last] in *. rewrite (goes_on_no _ _ _ _ _ Sb Ab). reflexivity.
  - assert (FA : Forall (fun x => exists z, key_is h x z /\ (z <= k)%Z) (q :: Q)).
    { rewrite <- E. apply Forall_forall. intros x I. apply fl_in in I. destruct SP as [SA _]. rewrite Forall_forall in SA. apply SA. tauto. }
    assert (IN : forall x, In x (q :: Q) -> In x ns). { intros x I. rewrite <- E in I. apply fl_in in I. rewrite Ens. apply in_or_app. tauto. }
    assert (LQ : length (q :: Q) <= length ns). { rewrite <- E, Ens, app_length. pose proof (fl_len h l nA). lia. }
    pose proof P as P0. cbn [app path] in P0. destruct P0 as [P1 _]. inversion FA as [|? ? [z [K1 K2]] _]; subst x l0.
    rewrite (goes_on_yes _ _ _ _ _ _ P1 K1 K2). cbn [bind].
    specialize (Ha ltac:(discriminate)).
    apply in_split in Ha. destruct Ha as [X [Y EQ]].
    assert (PA : path (fun x => sc h x l) a (Y ++ fl h l nB) TAIL /\ last Y a = last (q :: Q) HEAD /\ incl Y (q :: Q) /\ length Y <= length (q :: Q)).
    { destruct X as [|x X]; cbn [app] in EQ; inversion EQ; subst.
      - split; [exact P|]. split; auto. split; [apply incl_refl|auto].
      - rewrite H2 in *. rewrite <- app_assoc in P. cbn [app] in P. apply path_app in P. destruct P as [_ P]. split; auto.
        split; [|split]. 
        + generalize HEAD. intro d0. clear. revert d0. induction X as [|x X IH]; intro d; cbn [app]; rewrite !last_cons; [auto|]. rewrite <- (IH x). now rewrite ?last_cons.
        + intros y I. apply in_or_app. right. right. auto.
        + rewrite app_length. cbn. lia. }
    destruct PA as [PA [LY [IY LYQ]]].
    apply drop_from_ok with (Q := Y) (R := fl h l nB) (b := b); auto.
    + intro I. assert (I' : In TAIL (HEAD :: q :: Q)). { rewrite EQ. apply in_or_app. right. exact I. }
      destruct I' as [D|I']; [discriminate|]. apply IN in I'. inversion ND as [|? ? _ N2]; subst. inversion N2; auto.
    + apply Forall_forall. intros x I. rewrite Forall_forall in FA. apply FA. apply IY. auto.
    + rewrite LY. auto.
    + lia.
Qed.

Lemma fl_sub l l' X a : l <= l' -> In a (fl h l' X) -> In a (fl h l X).
Proof. rewrite !fl_in. intros. split; [tauto|lia]. Qed.
Lemma next_start l l' : l <= l' -> fl h l nA <> [] -> In (at_level l') (HEAD :: fl h l nA).
Proof.
  intros L _. unfold at_level. destruct (last_in (fl h l' nA) HEAD) as [E|E]; [left; auto|right].
  apply fl_sub with (l' := l'); auto.
Qed.

Lemma at_key l : at_level l = HEAD \/ In (at_level l) nA.
Proof. unfold at_level. destruct (last_in (fl h l nA) HEAD) as [E|E]; [left; auto|right]. apply fl_in in E. tauto. Qed.
Lemma key_eq_at a z : key_is h a z -> exists n, node_at h a = Ok n /\ key_eq (key n) k = (z =? k)%Z.
Proof. intros [d K]. unfold kd in K. unfold node_at. destruct (nth_error h a) as [n|]; [|discriminate]. inversion K. exists n. rewrite H1. auto. Qed.
Lemma key_eq_head : exists n, node_at h HEAD = Ok n /\ key_eq (key n) k = false.
Proof. destruct (r_head _ _ _ _ R) as [_ [d K]]. unfold kd in K. unfold node_at. destruct (nth_error h HEAD) as [n|]; [|discriminate]. inversion K. exists n. rewrite H1. auto. Qed.

(* key absent *)
Lemma scan_absent : Forall (fun x => forall z, key_is h x z -> (z < k)%Z) nA ->
  forall lv a prevs, lv <= H -> length prevs = H -> (forall l, S l = lv -> fl h l nA <> [] -> In a (HEAD :: fl h l nA)) ->
  exists prevs', scan_loop lv h k a None prevs = Ok (None, prevs') /\ length prevs' = H /\
    (forall l, l < lv -> nth_error prevs' l = Some (at_level l)) /\ (forall l, lv <= l -> nth_error prevs' l = nth_error prevs l).
Proof.
  intro NE. induction lv as [|l IH]; intros a prevs L LP Ha; cbn [scan_loop].
  - exists prevs. repeat split; auto. intros; lia.
  - rewrite (drop_ok l a) by (auto; lia). cbn [bind].
    assert (KE : exists n, node_at h (at_level l) = Ok n /\ key_eq (key n) k = false).
    { destruct (at_key l) as [E|E]; [rewrite E; apply key_eq_head|].
      destruct SP as [SA _]. rewrite Forall_forall in SA, NE. destruct (SA _ E) as [z [Kz Lz]]. specialize (NE _ E z Kz).
      destruct (key_eq_at _ _ Kz) as [n [N1 N2]]. exists n. split; auto. rewrite N2. apply Z.eqb_neq. lia. }
    destruct KE as [n [N1 N2]]. rewrite N1. cbn [bind]. rewrite N2.
    destruct (IH (at_level l) (upd prevs l (at_level l))) as [p' [S1 [S2 [S3 S4]]]]; [lia|now rewrite upd_length| |].
    + intros l0 E. apply next_start. lia.
    + exists p'. split; auto. split; auto. split.
      * intros l0 Hl. destruct (Nat.eq_dec l0 l) as [->|]; [|apply S3; lia]. rewrite S4 by lia. apply nth_error_upd_eq. lia.
      * intros l0 Hl. rewrite S4 by lia. apply nth_error_upd_neq. lia.
Qed.

(* key present: nA ends with x *)
Lemma scan_present nA' x : nA = nA' ++ [x] -> key_is h x k -> Forall (fun y => forall z, key_is h y z -> (z < k)%Z) nA' ->
  forall lv a rv prevs, lv <= H -> length prevs = H -> (forall l, S l = lv -> fl h l nA <> [] -> In a (HEAD :: fl h l nA)) ->
  exists prevs', scan_loop lv h k a rv prevs = Ok (if 0 <? lv then Some x else rv, prevs') /\ length prevs' = H /\
    (forall l, l < hgt h x -> nth_error prevs' l = nth_error prevs l).
Proof.
  intros EA Kx NE. assert (Hx : 1 <= hgt h x).
  { assert (I : In x ns) by (rewrite Ens, EA; apply in_or_app; left; apply in_or_app; right; left; auto).
    destruct (ent_in _ _ _ _ _ (r_ent _ _ _ _ R) I) as [kv [_ [_ [B _]]]]. lia. }
  induction lv as [|l IH]; intros a rv prevs L LP Ha; cbn [scan_loop].
  - exists prevs. repeat split; auto.
  - rewrite (drop_ok l a) by (auto; lia). cbn [bind].
    destruct (lt_dec l (hgt h x)) as [Lx|Lx].
    + assert (AT : at_level l = x).
      { unfold at_level. rewrite EA, fl_app. replace (fl h l [x]) with [x]; [apply last_last|]. unfold fl. cbn [filter]. apply Nat.ltb_lt in Lx. now rewrite Lx. }
      rewrite AT. destruct (key_eq_at _ _ Kx) as [n [N1 N2]]. rewrite N1. cbn [bind]. rewrite N2, Z.eqb_refl.
      destruct (IH x (Some x) prevs) as [p' [S1 [S2 S3]]]; [lia|auto| |].
      * intros l0 E HN. rewrite <- AT. apply next_start; auto. lia.
      * exists p'. split; auto. rewrite S1. destruct l; auto.
    + assert (AT : at_level l = HEAD \/ In (at_level l) nA').
      { unfold at_level. rewrite EA, fl_app. replace (fl h l [x]) with (@nil nat).
        2:{ unfold fl. cbn [filter]. destruct (Nat.ltb_spec l (hgt h x)); [lia|auto]. }
        rewrite app_nil_r. destruct (last_in (fl h l nA') HEAD) as [E|E]; [left; auto|right]. apply fl_in in E. tauto. }
      assert (KE : exists n, node_at h (at_level l) = Ok n /\ key_eq (key n) k = false).
      { destruct AT as [E|E]; [rewrite E; apply key_eq_head|].
        assert (IA : In (at_level l) nA) by (rewrite EA; apply in_or_app; auto).
        destruct SP as [SA _]. rewrite Forall_forall in SA, NE. destruct (SA _ IA) as [z [Kz Lz]]. specialize (NE _ E z Kz).
        destruct (key_eq_at _ _ Kz) as [n [N1 N2]]. exists n. split; auto. rewrite N2. apply Z.eqb_neq. lia. }
      destruct KE as [n [N1 N2]]. rewrite N1. cbn [bind]. rewrite N2.
      destruct (IH (at_level l) rv (upd prevs l (at_level l))) as [p' [S1 [S2 S3]]]; [lia|now rewrite upd_length| |].
      * intros l0 E. apply next_start. lia.
      * exists p'. rewrite S1. split; [destruct l; [exfalso; lia|auto]|]. split; auto.
        intros l0 Hl. rewrite S3 by auto. apply nth_error_upd_neq. lia.
Qed.

Lemma top_start : fl h (H - 1) nA <> [] -> forall b, sc h HEAD (H - 1) = Some b -> In b (HEAD :: fl h (H - 1) nA).
Proof.
  intros NE b Sb. pose proof (r_H _ _ _ _ R). pose proof (r_path _ _ _ _ R (H - 1) ltac:(lia)) as P. rewrite Ens, fl_app in P.
  destruct (fl h (H - 1) nA) as [|q Q]; [congruence|]. cbn in P. destruct P as [P _]. right. left. congruence.
Qed.

Lemma height_ok : height h = Ok H.
Proof.
  destruct (r_head _ _ _ _ R) as [E _]. pose proof (r_H _ _ _ _ R). unfold height, hgt in *. unfold node_at.
  destruct (nth_error h HEAD); [cbn; congruence|lia].
Qed.
Lemma scan_start : exists top, (if H =? 0 then Err IndexError else get_succ h HEAD (H - 1)) = Ok top /\
  forall l, S l = H -> fl h l nA <> [] -> In top (HEAD :: fl h l nA).
Proof.
  pose proof (r_H _ _ _ _ R). destruct (r_head _ _ _ _ R) as [E _].
  destruct (sc_some h HEAD (H - 1)) as [top T]; [lia|]. exists top. destruct (Nat.eqb_spec H 0); [lia|].
  split; [now apply get_succ_ok|]. intros l El NE. replace l with (H - 1) in * by lia. apply top_start; auto.
Qed.

Lemma scan_none : Forall (fun x => forall z, key_is h x z -> (z < k)%Z) nA ->
  exists prevs, scan h k = Ok (None, prevs) /\ length prevs = H /\ forall l, l < H -> nth_error prevs l = Some (at_level l).
Proof.
  intro NE. unfold scan. rewrite height_ok. cbn [bind]. destruct scan_start as [top [-> Ht]]. cbn [bind].
  destruct (scan_absent NE H top (repeat HEAD H)) as [p [A [B [C _]]]]; auto. now rewrite repeat_length. exists p. auto.
Qed.
Lemma scan_some nA' x : nA = nA' ++ [x] -> key_is h x k -> Forall (fun y => forall z, key_is h y z -> (z < k)%Z) nA' ->
  exists prevs, scan h k = Ok (Some x, prevs) /\ length prevs = H /\ forall l, l < hgt h x -> nth_error prevs l = Some HEAD.
Proof.
  intros EA Kx NE. unfold scan. rewrite height_ok. cbn [bind]. destruct scan_start as [top [-> Ht]]. cbn [bind].
  destruct (scan_present nA' x EA Kx NE H top None (repeat HEAD H)) as [p [A [B C]]]; auto. now rewrite repeat_length.
  exists p. pose proof (r_H _ _ _ _ R). rewrite A. destruct (Nat.ltb_spec 0 H); [|lia]. split; auto. split; auto.
  intros l L. rewrite C by auto. apply nth_error_repeat.
  assert (I : In x ns) by (rewrite Ens, EA; apply in_or_app; left; apply in_or_app; right; left; auto).
  destruct (ent_in _ _ _ _ _ (r_ent _ _ _ _ R) I) as [kv [_ [_ [Bd _]]]]. lia.
Qed.
End At.
End Skip.
