(* Lemmas for PolyProps.v: Polygon.clip ends and uses only its own vertices. *)
From Coq Require Import List Arith ZArith Bool QArith Qcanon Lia Permutation Sorting.Sorted.
From Verif Require Import Common QcLib ListLib ArrZ AabbModel AabbSpec AabbProofs ImplModel RtreeModel RtreeProofs PolyModel PolySpec PolyProofs PolyProofs2 PolyProofs3 PolyProofs4 PolyProofs5.
Import ListNotations.
Local Open Scope Qc_scope.

Fixpoint xids (l : list node) : list nat := match l with [] => [] | nd :: r => match xing nd with Some (k, _) => k :: xids r | None => xids r end end.
Lemma xids_app l m : xids (l ++ m) = xids l ++ xids m.
Proof. induction l as [|nd l IH]; [reflexivity|]. cbn. destruct (xing nd) as [[k e]|]; rewrite IH; reflexivity. Qed.
Lemma xids_in l k : In k (xids l) <-> exists i nd e, nth_error l i = Some nd /\ xing nd = Some (k, e).
Proof.
  induction l as [|nd l IH]; [cbn; split; [tauto|intros [[|i] [nd [e [H _]]]]; discriminate]|]. cbn [xids]. split.
  - intros H. destruct (xing nd) as [[k' e']|] eqn:E; [destruct H as [->|H]; [exists 0%nat, nd, e'; auto|]|]; apply IH in H; destruct H as [i [nd' [e [A B]]]]; exists (S i), nd', e; auto.
  - intros [[|i] [nd' [e [A B]]]].
    + injection A as ->. rewrite B. left; reflexivity.
    + assert (K : In k (xids l)) by (apply IH; eauto). destruct (xing nd) as [[k' e']|]; [right|]; exact K.
Qed.

(* ---- phase two ---- *)
Lemma flag_cuts_spec e l : xids (fst (flag_cuts e l)) = map cut_id l /\ map at_ (fst (flag_cuts e l)) = map cut_at l.
Proof. revert e. induction l as [|c l IH]; intros e; [auto|]. cbn. specialize (IH (negb e)). destruct (flag_cuts (negb e) l) as [t e']. cbn in *. destruct IH as [A B]. rewrite A, B. auto. Qed.
Lemma flag_ids e a : xids (flag e a) = map cut_id (all_cuts a).
Proof.
  revert e. induction a as [|[p l] a IH]; intros e; [reflexivity|]. cbn [flag all_cuts flat_map snd]. pose proof (flag_cuts_spec e l) as [A _]. destruct (flag_cuts e l) as [t e']. cbn [fst] in A. cbn [xids xing]. rewrite xids_app, A, IH, map_app. reflexivity.
Qed.
Lemma flag_pts e a : map at_ (flag e a) = flat_map (fun sd => fst sd :: map cut_at (snd sd)) a.
Proof.
  revert e. induction a as [|[p l] a IH]; intros e; [reflexivity|]. cbn [flag flat_map fst snd]. pose proof (flag_cuts_spec e l) as [_ A]. destruct (flag_cuts e l) as [t e']. cbn [fst] in A. cbn [map at_ app]. rewrite map_app, A, IH. reflexivity.
Qed.

(* ---- walking ---- *)
Definition is_x (l : list node) (i : nat) : Prop := exists nd k e, nth_error l i = Some nd /\ xing nd = Some (k, e).
Definition gap (n : nat) (fwd : bool) (i t : nat) : nat := if fwd then if (i <? t)%nat then t - i else t + n - i else if (t <? i)%nat then i - t else i + n - t.
Lemma walk_ok l fwd t : is_x l t -> forall fuel i, (i < length l)%nat -> (gap (length l) fwd i t <= fuel)%nat ->
  exists ps j k nd e, walk fuel l fwd i = Ok (ps, j, k) /\ nth_error l j = Some nd /\ xing nd = Some (k, e) /\ Forall (fun p => In p (map at_ l)) ps /\ In (at_ nd) ps.
Proof.
  intros T. assert (Tl : (t < length l)%nat) by (destruct T as [nd [k [e [A _]]]]; apply nth_error_Some; congruence).
  induction fuel as [|fuel IH]; intros i L G.
  { exfalso. unfold gap in G. destruct fwd; [destruct (Nat.ltb_spec i t)|destruct (Nat.ltb_spec t i)]; lia. }
  cbn [walk]. set (j := if fwd then if (S i =? length l)%nat then 0%nat else S i else match i with O => (length l - 1)%nat | S i' => i' end).
  assert (J : (j < length l)%nat) by (unfold j; destruct fwd; [destruct (Nat.eqb_spec (S i) (length l)); lia|destruct i; lia]).
  destruct (nth_error l j) as [nd|] eqn:N; [|apply nth_error_None in N; lia]. assert (I : In (at_ nd) (map at_ l)) by (apply in_map, nth_error_In with j, N).
  destruct (xing nd) as [[k e]|] eqn:E.
  { exists [at_ nd], j, k, nd, e. repeat split; auto. left; reflexivity. }
  assert (D : j <> t) by (intros ->; destruct T as [nd' [k [e [A B]]]]; congruence).
  destruct (IH j J) as [ps [j' [k [nd' [e [A [B [C [F H]]]]]]]]].
  { unfold gap in *. unfold j in *. destruct fwd.
    - destruct (Nat.eqb_spec (S i) (length l)); destruct (Nat.ltb_spec i t); [destruct (Nat.ltb_spec 0 t)|destruct (Nat.ltb_spec 0 t)|destruct (Nat.ltb_spec (S i) t)|destruct (Nat.ltb_spec (S i) t)]; lia.
    - destruct i as [|i']; [destruct (Nat.ltb_spec t 0); destruct (Nat.ltb_spec t (length l - 1)); lia|]. destruct (Nat.ltb_spec t (S i')); destruct (Nat.ltb_spec t i'); lia. }
  rewrite A. cbn [bind]. exists (at_ nd :: ps), j', k, nd', e. repeat split; auto. right. exact H.
Qed.
Lemma gap_le n fwd i t : (i < n)%nat -> (t < n)%nat -> (gap n fwd i t <= n)%nat.
Proof. intros. unfold gap. destruct fwd; [destruct (Nat.ltb_spec i t)|destruct (Nat.ltb_spec t i)]; lia. Qed.
Lemma place_ok k l i : In k (xids l) -> exists j nd e, place k l i = Some (i + j)%nat /\ nth_error l j = Some nd /\ xing nd = Some (k, e).
Proof.
  revert i. induction l as [|nd l IH]; intros i H; [destruct H|]. cbn [place xids] in *. destruct (xing nd) as [[k' e']|] eqn:E.
  - destruct (Nat.eqb_spec k k') as [->|D]; [exists 0%nat, nd, e'; rewrite Nat.add_0_r; auto|]. destruct H as [H|H]; [congruence|]. destruct (IH (S i) H) as [j [nd' [e [A B]]]]. exists (S j), nd', e. rewrite A. split; [f_equal; lia|exact B].
  - destruct (IH (S i) H) as [j [nd' [e [A B]]]]. exists (S j), nd', e. rewrite A. split; [f_equal; lia|exact B].
Qed.
Lemma seen_in k ch : seen k ch = true <-> In k ch.
Proof. unfold seen. rewrite existsb_exists. split; [intros [x [A B]]; apply Nat.eqb_eq in B; subst; exact A|intros H; exists k; split; [exact H|apply Nat.eqb_refl]]. Qed.
(* numbers not yet passed *)
Definition left_over (I ch : list nat) : nat := length (filter (fun k => negb (seen k ch)) I).
Lemma left_cons I k ch : NoDup I -> In k I -> ~ In k ch -> left_over I ch = S (left_over I (k :: ch)).
Proof.
  intros N. unfold left_over. induction N as [|x I X N IH]; intros H K; [destruct H|]. cbn [filter]. destruct (Nat.eq_dec x k) as [->|D].
  - assert (seen k ch = false) as -> by (apply not_true_iff_false; rewrite seen_in; exact K). assert (seen k (k :: ch) = true) as -> by (apply seen_in; left; reflexivity). cbn [negb length]. f_equal.
    clear - X. induction I as [|y I IH]; [reflexivity|]. cbn [filter]. assert (D : y <> k) by (intros ->; apply X; left; reflexivity). specialize (IH (fun Z => X (or_intror Z))).
    assert (seen y (k :: ch) = seen y ch) as ->. { unfold seen. cbn [existsb]. rewrite (proj2 (Nat.eqb_neq y k) D). reflexivity. }
    destruct (negb (seen y ch)); cbn [length]; congruence.
  - destruct H as [H|H]; [congruence|]. assert (seen x (k :: ch) = seen x ch) as ->. { unfold seen. cbn [existsb]. rewrite (proj2 (Nat.eqb_neq x k) D). reflexivity. }
    destruct (negb (seen x ch)); cbn [length]; rewrite IH by assumption; reflexivity.
Qed.
Lemma left_mono I ch ch' : incl ch ch' -> (left_over I ch' <= left_over I ch)%nat.
Proof.
  intros S. unfold left_over. induction I as [|x I IH]; [reflexivity|]. cbn [filter]. destruct (seen x ch) eqn:A.
  - assert (seen x ch' = true) as -> by (apply seen_in, S, seen_in, A). exact IH.
  - destruct (seen x ch'); cbn [negb length]; lia.
Qed.

Section Trace.
Context (I : list nat) (ND : NoDup I) (V : list p2).
Definition host (l : list node) : Prop := (forall k, In k (xids l) <-> In k I) /\ incl (map at_ l) V.
Lemma trace_ok fuel : forall l o i k e nd ch, host l -> host o -> nth_error l i = Some nd -> xing nd = Some (k, e) -> ~ In k ch -> (left_over I ch <= fuel)%nat ->
  exists ps ch', trace fuel l o i ch = Ok (ps, ch') /\ incl (k :: ch) ch' /\ Forall (fun p => In p V) ps /\ ps <> [].
Proof.
  induction fuel as [|fuel IH]; intros l o i k e nd ch Hl Ho N X K L.
  { assert (In k I) by (apply Hl, xids_in; eauto 6). rewrite (left_cons I k ch ND) in L by assumption. lia. }
  cbn [trace]. rewrite N. destruct nd as [p x]. cbn [xing] in X. subst x.
  assert (Li : (i < length l)%nat) by (apply nth_error_Some; congruence).
  destruct (walk_ok l e i) with (fuel := S (length l)) (i := i) as [ps [j [k' [nd' [e' [A [B [C [F _]]]]]]]]]; [exists {| at_ := p; xing := Some (k, e) |}, k, e; auto|exact Li|pose proof (gap_le (length l) e i i Li Li); lia|].
  rewrite A. cbn [bind]. assert (F' : Forall (fun p => In p V) ps) by (eapply Forall_impl; [|exact F]; intros q Q; apply Hl, Q).
  assert (P : ps <> []) by (intros ->; clear - A; cbn [walk] in A; destruct (nth_error l _) as [n|]; [|discriminate]; destruct (xing n) as [[? ?]|]; [discriminate|]; destruct (walk _ _ _ _) as [[[? ?] ?]|]; discriminate).
  destruct (seen k' (k :: ch)) eqn:S.
  { exists ps, (k :: ch). repeat split; auto using incl_refl. }
  assert (K' : In k' (xids o)). { apply Ho, Hl, xids_in. eauto 6. }
  destruct (place_ok k' o 0 K') as [j' [nd'' [e'' [A' [B' C']]]]]. rewrite A'. cbn [Nat.add].
  assert (K2 : ~ In k' (k :: ch)) by (rewrite <- seen_in, S; discriminate).
  destruct (IH o l j' k' e'' nd'' (k :: ch) Ho Hl B' C' K2) as [qs [ch' [T [J [G _]]]]].
  { assert (KI : In k I) by (apply Hl, xids_in; exists i, {| at_ := p; xing := Some (k, e) |}, e; auto). rewrite (left_cons I k ch ND KI K) in L. lia. }
  rewrite T. cbn [bind]. exists (ps ++ qs), ch'. repeat split.
  - intros y Y. apply J. right. exact Y.
  - apply Forall_app. auto.
  - intro Z. apply app_eq_nil in Z. tauto.
Qed.
Lemma first_ok l ch i : (exists j nd k e, first_unchecked l ch i = Some ((i + j)%nat, at_ nd) /\ nth_error l j = Some nd /\ xing nd = Some (k, e) /\ ~ In k ch) \/
  (first_unchecked l ch i = None /\ incl (xids l) ch).
Proof.
  revert i. induction l as [|nd l IH]; intros i; [right; split; [reflexivity|intros x []]|]. cbn [first_unchecked xids]. destruct (xing nd) as [[k e]|] eqn:X.
  - destruct (seen k ch) eqn:SN.
    + apply seen_in in SN. destruct (IH (S i)) as [[j [nd' [k' [e' [A B]]]]]|[A B]]; [left; exists (S j), nd', k', e'; rewrite A; split; [f_equal; f_equal; lia|exact B]|right; split; [exact A|]]. intros y [<-|Y]; auto.
    + left. exists 0%nat, nd, k, e. rewrite Nat.add_0_r. repeat split; auto. rewrite <- seen_in, SN. discriminate.
  - destruct (IH (S i)) as [[j [nd' [k' [e' [A B]]]]]|[A B]]; [left; exists (S j), nd', k', e'; rewrite A; split; [f_equal; f_equal; lia|exact B]|right; split; assumption].
Qed.
Lemma phase3_ok fuel : forall a b ch, host a -> host b -> (left_over I ch < fuel)%nat -> exists ps, phase3 fuel a b ch = Ok ps /\ Forall (Forall (fun p => In p V)) ps /\ Forall (fun l => (2 <= length l)%nat) ps /\
  (ps = [] -> incl I ch).
Proof.
  induction fuel as [|fuel IH]; intros a b ch Ha Hb L; [lia|]. cbn [phase3]. destruct (first_ok a ch 0) as [[j [nd [k [e [A [B [C D]]]]]]]|[A B]]; rewrite A.
  - cbn [Nat.add]. assert (KI : In k I) by (apply Ha, xids_in; eauto 6).
    destruct (trace_ok fuel a b j k e nd ch Ha Hb B C D) as [ps [ch' [T [J [F P]]]]]; [lia|]. rewrite T. cbn [bind].
    destruct (IH a b ch' Ha Hb) as [qs [E [G [G2 _]]]].
    { pose proof (left_mono I _ _ J) as M. rewrite (left_cons I k ch ND KI D) in L. lia. }
    rewrite E. cbn [bind]. eexists. split; [reflexivity|]. split; [constructor; [constructor; [|exact F]|exact G]|]. { apply Ha. apply in_map, nth_error_In with j, B. }
    split; [|discriminate]. constructor; [|exact G2]. destruct ps; [congruence|]. cbn. lia.
  - eexists. split; [reflexivity|]. split; [constructor|]. split; [constructor|]. intros _ y Y. apply B, Ha, Y.
Qed.
End Trace.

Lemma sides_points es a p : sides_ok es a -> In p (flat_map (fun sd => fst sd :: map cut_at (snd sd)) a) -> In p (map fst es) \/ In p (map cut_at (all_cuts a)).
Proof.
  intros S H. apply in_flat_map in H. destruct H as [sd [I [K|K]]].
  - left. unfold sides_ok in S. clear - S I K. induction S as [|e s es a [E _] S IH]; [destruct I|]. cbn. destruct I as [->|I]; [left; congruence|right; auto].
  - right. apply in_map_iff in K. destruct K as [c [<- C]]. apply in_map. unfold all_cuts. apply in_flat_map. eauto.
Qed.
Lemma clip_total s c se ce : s <> [] -> c <> [] -> exists n, forall fuel, (n < fuel)%nat -> exists ps, poly_clip fuel s c se ce = Ok ps /\
  Forall (Forall (fun p => In p s \/ In p c \/ crossing_point (outline s) (outline c) p)) ps /\ ps <> [] /\
  ((exists e f, In e (outline s) /\ In f (outline c) /\ crosses (e, f)) -> Forall (fun l => (2 <= length l)%nat) ps).
Proof.
  intros Hs Hc. destruct (phase1_ok s c) as [X [P [C F]]]. exists (length X). intros fuel L. unfold poly_clip. destruct s as [|hs s]; [congruence|]. destruct c as [|hc c]; [congruence|].
  destruct (phase1 (hs :: s) (hc :: c)) as [[a b] k] eqn:E. set (na := flag _ a). set (nb := flag _ b). destruct P as [Pa Pb Pn Pna Pnb Pma Pmb]. cbn [fst snd] in *.
  set (Is := seq 0 (length X)). set (V := map at_ na ++ map at_ nb).
  assert (Ha : host Is V na). { split; [|intros x H; apply in_or_app; left; exact H]. intros z. unfold na. rewrite flag_ids. unfold numbered in Pna. rewrite <- Pn in Pna. split; intros H; [eapply Permutation_in; [exact Pna|exact H]|eapply Permutation_in; [symmetry; exact Pna|exact H]]. }
  assert (Hb : host Is V nb). { split; [|intros x H; apply in_or_app; right; exact H]. intros z. unfold nb. rewrite flag_ids. unfold numbered in Pnb. rewrite <- Pn in Pnb. split; intros H; [eapply Permutation_in; [exact Pnb|exact H]|eapply Permutation_in; [symmetry; exact Pnb|exact H]]. }
  destruct (phase3_ok Is (seq_NoDup _ _) V fuel na nb [] Ha Hb) as [ps [R [G [G2 Z]]]].
  { unfold left_over. assert (M : forall (f : nat -> bool) l, (length (filter f l) <= length l)%nat) by (intros f l; induction l as [|z l IHl]; cbn; [lia|destruct (f z); cbn; lia]). pose proof (M (fun k => negb (seen k [])) Is) as M1. unfold Is in M1 at 2. rewrite seq_length in M1. lia. }
  rewrite R. cbn [bind].
  assert (VP : forall p, In p V -> In p (hs :: s) \/ In p (hc :: c) \/ crossing_point (outline (hs :: s)) (outline (hc :: c)) p).
  { intros p H. rewrite Forall_forall in F. assert (XP : forall a, marks X a -> In p (map cut_at (all_cuts a)) -> crossing_point (outline (hs :: s)) (outline (hc :: c)) p).
    { intros a' M I. apply in_map_iff in I. destruct I as [ct [<- I]]. unfold marks in M. rewrite Forall_forall in M. apply F. eapply nth_error_In. apply M, I. }
    unfold V in H. apply in_app_or in H. destruct H as [H|H]; unfold na, nb in H; rewrite flag_pts in H.
    - apply (sides_points _ _ _ Pa) in H. rewrite outline_fst in H. destruct H as [H|H]; [left; exact H|right; right; eauto].
    - apply (sides_points _ _ _ Pb) in H. rewrite outline_fst in H. destruct H as [H|H]; [right; left; exact H|right; right; eauto]. }
  assert (G' : Forall (Forall (fun p => In p (hs :: s) \/ In p (hc :: c) \/ crossing_point (outline (hs :: s)) (outline (hc :: c)) p)) ps).
  { eapply Forall_impl; [|exact G]. intros q. apply Forall_impl. exact VP. }
  destruct ps as [|p0 ps]; eexists; (split; [reflexivity|]).
  - split; [|split; [discriminate|]].
    + constructor; [|constructor]. apply Forall_forall. intros p H. apply VP. apply in_or_app. left. exact H.
    + intros [e [f [I1 [I2 K]]]]. exfalso. assert (X = []). { destruct X as [|x X]; [reflexivity|]. specialize (Z eq_refl 0%nat). destruct Z. unfold Is. cbn. left. reflexivity. } subst X. cbn [length] in C.
      assert (Q : forall l : list ((p2 * p2) * (p2 * p2)), counted crosses l 0 -> ~ In (e, f) l). { intros l H. remember 0%nat as z. induction H; intros H1; [destruct H1|discriminate|]. destruct H1 as [->|H1]; [contradiction|]. apply IHcounted; assumption. }
      apply (Q _ C). apply in_prod; assumption.
  - split; [exact G'|]. split; [discriminate|]. intros _. exact G2.
Qed.
