(* Lemmas for PolyProps.v: Polygon.clip follows the right parts of the outlines (continued). *)
From Coq Require Import List Arith ZArith Bool QArith Qcanon Lia Permutation Sorting.Sorted.
From Verif Require Import Common QcLib ListLib ArrZ AabbModel AabbSpec AabbProofs ImplModel RtreeModel RtreeProofs PolyModel PolySpec PolyProofs PolyProofs2 PolyProofs3 PolyProofs4 PolyProofs5 PolyProofs6 PolyProofs7 PolyProofs8 PolyProofs11 PolyProofs12.
From Verif Require ImplProofs3.
Import ListNotations.
Local Open Scope Qc_scope.

Lemma along_sym s c d p q : along s c d (p, q) -> along s c d (q, p).
Proof. intros [e [ta [tb [I [A [B [E1 [E2 H]]]]]]]]. exists e, tb, ta. cbn [fst snd] in *. split; [exact I|]. split; [exact B|]. split; [exact A|]. split; [exact E2|]. split; [exact E1|]. intros t K. apply H. tauto. Qed.
Lemma before_after n i : (i < n)%nat -> before n (after n i) = i.
Proof. intros H. unfold after. destruct (Nat.eqb_spec (S i) n) as [E|E]; cbn [before]; lia. Qed.
Lemma after_before n i : (i < n)%nat -> after n (before n i) = i.
Proof. intros H. unfold after, before. destruct i as [|i]; [destruct (Nat.eqb_spec (S (n - 1)) n) as [E|E]|destruct (Nat.eqb_spec (S i) n) as [E|E]]; lia. Qed.
Lemma before_lt n i : (i < n)%nat -> (before n i < n)%nat.
Proof. unfold before. destruct i; lia. Qed.
Definition ahead (g : nat -> bool) (n : nat) (fwd : bool) (i : nat) : bool := if fwd then g i else g (before n i).
Definition go (fwd : bool) (n i : nat) : nat := if fwd then after n i else before n i.
Lemma ring_step s c se l g fwd i nd nd' : ring s c se l g -> nth_error l i = Some nd -> nth_error l (go fwd (length l) i) = Some nd' -> along s c (ahead g (length l) fwd i) (at_ nd, at_ nd').
Proof.
  intros R E E'. assert (L : (i < length l)%nat) by (apply nth_error_Some; congruence). destruct fwd; cbn [ahead go] in *; [apply (r_link _ _ _ _ _ R _ _ _ E E')|]. apply along_sym. apply (r_link _ _ _ _ _ R _ _ _ E'). rewrite after_before by exact L. exact E.
Qed.
Lemma ring_on s c se l g fwd i nd' : ring s c se l g -> (i < length l)%nat -> nth_error l (go fwd (length l) i) = Some nd' -> xing nd' = None -> ahead g (length l) fwd (go fwd (length l) i) = ahead g (length l) fwd i.
Proof.
  intros R L E X. pose proof (r_pass _ _ _ _ _ R _ _ E X) as H. destruct fwd; cbn [ahead go] in *; [rewrite before_after in H by exact L; exact H|]. symmetry. exact H.
Qed.
Lemma walk_side s c se l g : ring s c se l g -> forall fuel fwd i nd ps j k, nth_error l i = Some nd -> walk fuel l fwd i = Ok (ps, j, k) ->
  exists nd' f, nth_error l j = Some nd' /\ xing nd' = Some (k, f) /\ Forall (along s c (ahead g (length l) fwd i)) (successive (at_ nd :: ps)) /\ ps <> [] /\ last ps (at_ nd) = at_ nd'.
Proof.
  intros R. induction fuel as [|fuel IH]; intros fwd i nd ps j k E W; [discriminate|]. cbn [walk] in W. assert (L : (i < length l)%nat) by (apply nth_error_Some; congruence).
  change (if fwd then if (S i =? length l)%nat then 0%nat else S i else match i with O => (length l - 1)%nat | S i' => i' end) with (go fwd (length l) i) in W.
  destruct (nth_error l (go fwd (length l) i)) as [nd'|] eqn:E'; [|discriminate]. pose proof (ring_step _ _ _ _ _ _ _ _ _ R E E') as A. destruct (xing nd') as [[k' f']|] eqn:X.
  - injection W as <- <- <-. exists nd', f'. split; [exact E'|]. split; [exact X|]. split; [constructor; [exact A|constructor]|]. split; [discriminate|reflexivity].
  - destruct (walk fuel l fwd (go fwd (length l) i)) as [[[ps' j'] k']|] eqn:W'; [|discriminate]. cbn [bind] in W. injection W as <- <- <-. destruct (IH _ _ _ _ _ _ E' W') as [n2 [f2 [B1 [B2 [B3 [B4 B5]]]]]]. exists n2, f2. split; [exact B1|]. split; [exact B2|]. rewrite (ring_on _ _ _ _ _ _ _ _ R L E' X) in B3. split; [constructor; [exact A|exact B3]|]. split; [discriminate|]. destruct ps' as [|q ps']; [congruence|]. cbn [last]. rewrite <- B5. destruct ps'; [reflexivity|]. cbn [last]. clear. revert p. induction ps' as [|b ps' IH]; intros p; [reflexivity|]. cbn [last]. apply IH.
Qed.
Lemma flagged s c se l g i nd k f : ring s c se l g -> nth_error l i = Some nd -> xing nd = Some (k, f) -> ahead g (length l) f i = se.
Proof.
  intros R E X. destruct (r_turn _ _ _ _ _ R _ _ _ _ E X) as [A B]. subst f. unfold ahead. rewrite A. destruct (g (before (length l) i)), se; reflexivity.
Qed.
Lemma successive_app (p : p2) ps qs : successive (p :: ps ++ qs) = successive (p :: ps) ++ successive (last ps p :: qs).
Proof.
  revert p. induction ps as [|a ps IH]; intros p; [destruct qs; reflexivity|]. cbn [app]. change (successive (p :: a :: ps ++ qs)) with ((p, a) :: successive (a :: ps ++ qs)). rewrite IH. change (successive (p :: a :: ps)) with ((p, a) :: successive (a :: ps)). cbn [app]. do 3 f_equal. 
  destruct ps as [|b ps]; [reflexivity|]. cbn [last]. clear. revert b. induction ps as [|d ps IH]; intros b; [reflexivity|]. cbn [last]. apply IH.
Qed.
Lemma place_at k l : forall i j, place k l i = Some j -> exists m nd f, j = (i + m)%nat /\ nth_error l m = Some nd /\ xing nd = Some (k, f).
Proof.
  induction l as [|nd l IH]; intros i j H; [discriminate|]. cbn [place] in H. destruct (xing nd) as [[k' f]|] eqn:X.
  - destruct (Nat.eqb_spec k k') as [->|D]; [injection H as <-; exists 0%nat, nd, f; rewrite Nat.add_0_r; auto|]. destruct (IH _ _ H) as [m [n2 [f2 [A [B C]]]]]. exists (S m), n2, f2. split; [lia|auto].
  - destruct (IH _ _ H) as [m [n2 [f2 [A [B C]]]]]. exists (S m), n2, f2. split; [lia|auto].
Qed.
Definition agree (l o : list node) : Prop := forall n1 n2 k f1 f2, In n1 l -> In n2 o -> xing n1 = Some (k, f1) -> xing n2 = Some (k, f2) -> at_ n1 = at_ n2.
Lemma agree_sym l o : agree l o -> agree o l.
Proof. intros H n1 n2 k f1 f2 A B C D. symmetry. exact (H _ _ _ _ _ B A D C). Qed.
Lemma trace_side (OK : p2 * p2 -> Prop) fuel : forall s1 c1 e1 g1 s2 c2 e2 g2 l o i nd ch ps ch', ring s1 c1 e1 l g1 -> ring s2 c2 e2 o g2 -> (forall ab, along s1 c1 e1 ab -> OK ab) -> (forall ab, along s2 c2 e2 ab -> OK ab) -> agree l o ->
  nth_error l i = Some nd -> trace fuel l o i ch = Ok (ps, ch') -> Forall OK (successive (at_ nd :: ps)).
Proof.
  induction fuel as [|fuel IH]; intros s1 c1 e1 g1 s2 c2 e2 g2 l o i nd ch ps ch' R1 R2 O1 O2 Ag E T; [discriminate|]. cbn [trace] in T. rewrite E in T. destruct nd as [p [[k f]|]]; [|discriminate].
  destruct (walk (S (length l)) l f i) as [[[ps1 j1] k1]|] eqn:W; [|discriminate]. cbn [bind] in T. destruct (walk_side _ _ _ _ _ R1 _ _ _ _ _ _ _ E W) as [n1 [f1 [B1 [B2 [B3 [B4 B5]]]]]]. rewrite (flagged _ _ _ _ _ _ _ k f R1 E eq_refl) in B3. cbn [at_] in *.
  assert (F1 : Forall OK (successive (p :: ps1))) by (eapply Forall_impl; [|exact B3]; exact O1).
  destruct (seen k1 (k :: ch)); [injection T as <- <-; exact F1|]. destruct (place k1 o 0) as [i'|] eqn:P; [|discriminate]. destruct (place_at _ _ _ _ P) as [m [n2 [f2 [-> [C1 C2]]]]]. cbn [Nat.add] in T.
  destruct (trace fuel o l m (k :: ch)) as [[qs ch2]|] eqn:T2; [|discriminate]. cbn [bind] in T. injection T as <- <-. rewrite successive_app. apply Forall_app. split; [exact F1|].
  rewrite B5, (Ag n1 n2 k1 f1 f2) by (try eapply nth_error_In; eassumption). apply (IH s2 c2 e2 g2 s1 c1 e1 g1 o l m n2 (k :: ch) qs ch2); try assumption. apply agree_sym, Ag.
Qed.
Lemma phase3_side (OK : p2 * p2 -> Prop) s1 c1 e1 g1 s2 c2 e2 g2 a b : ring s1 c1 e1 a g1 -> ring s2 c2 e2 b g2 -> (forall ab, along s1 c1 e1 ab -> OK ab) -> (forall ab, along s2 c2 e2 ab -> OK ab) -> agree a b ->
  forall fuel ch ps, phase3 fuel a b ch = Ok ps -> Forall (fun l => Forall OK (successive l)) ps.
Proof.
  intros R1 R2 O1 O2 Ag. induction fuel as [|fuel IH]; intros ch ps H; [discriminate|]. cbn [phase3] in H. destruct (first_ok a ch 0) as [[j [nd [k [e [A [B [C D]]]]]]]|[A B]]; rewrite A in H; [|injection H as <-; constructor]. cbn [Nat.add] in H.
  destruct (trace fuel a b j ch) as [[qs ch2]|] eqn:T; [|discriminate]. cbn [bind] in H. destruct (phase3 fuel a b ch2) as [rest|] eqn:P; [|discriminate]. cbn [bind] in H. injection H as <-. constructor; [|apply (IH _ _ P)].
  exact (trace_side OK fuel _ _ _ _ _ _ _ _ _ _ _ _ _ _ _ R1 R2 O1 O2 Ag B T).
Qed.
Lemma flag_cuts_marks X : forall l e, Forall (fun c => nth_error X (cut_id c) = Some (cut_at c)) l -> Forall (fun nd => forall k f, xing nd = Some (k, f) -> nth_error X k = Some (at_ nd)) (fst (flag_cuts e l)).
Proof.
  induction l as [|c l IH]; intros e H; [constructor|]. inversion H; subst. cbn [flag_cuts]. specialize (IH (negb e) H3). destruct (flag_cuts (negb e) l) as [t e']. cbn [fst] in *. constructor; [|exact IH]. cbn. intros k f [= <- <-]. assumption.
Qed.
Lemma flag_marks X : forall a e, marks X a -> Forall (fun nd => forall k f, xing nd = Some (k, f) -> nth_error X k = Some (at_ nd)) (flag e a).
Proof.
  induction a as [|[p l] a IH]; intros e H; [constructor|]. unfold marks in H. cbn [all_cuts flat_map snd] in H. apply Forall_app in H. destruct H as [H1 H2]. cbn [flag]. pose proof (flag_cuts_marks X l e H1) as M. destruct (flag_cuts e l) as [t e']. cbn [fst] in M. constructor; [discriminate|]. apply Forall_app. split; [exact M|]. apply IH, H2.
Qed.
Lemma flag_ring o r c se a : general (o :: r) c -> sides_ok (outline (o :: r)) a -> full (outline (o :: r)) (outline c) a -> exists g, ring (o :: r) c se (flag (xorb se (is_inside o c)) a) g.
Proof.
  intros [G1 [G2 G3]] So Fu. assert (B : inb c o (is_inside o c)) by (apply is_inside_ok; [apply G2; left; reflexivity|intros w W; apply (G3 o w eq_refl W)]).
  rewrite xorb_comm. destruct (sides_chain (o :: r) c se (outline (o :: r)) a o (is_inside o c) (outline_ne o r) (outline_linked o r) (incl_refl _)) as [nd [rest [d' [J1 [J2 [J3 [J4 J5]]]]]]].
  { intros e I. destruct (outline_in _ _ I) as [I1 I2]. split; [apply G2, I1|]. split; [apply G2, I2|]. intros w W. apply (G1 e w I W). }
  { exact So. } { exact Fu. } { intros e t E. rewrite (outline_hd _ _ _ _ E). exact B. }
  assert (At : at_ nd = o). { destruct (outline (o :: r)) as [|e t] eqn:E; [exfalso; exact (outline_ne o r E)|]. rewrite (J5 e t eq_refl). apply (outline_hd _ _ _ _ E). }
  rewrite J1. assert (d' = is_inside o c) as -> by (apply (inb_fun c o); assumption). exists (fun i => nth i (sg (is_inside o c) rest) false). apply chain_ring; [exact J2|]. rewrite At in *. exact J3.
Qed.
Lemma clip_along s c se ce : s <> [] -> c <> [] -> general s c -> general c s -> (exists e f, In e (outline s) /\ In f (outline c) /\ crosses (e, f)) ->
  forall fuel ps, poly_clip fuel s c se ce = Ok ps -> Forall (fun l => Forall (fun ab => along s c se ab \/ along c s ce ab) (successive l)) ps.
Proof.
  intros Hs Hc Gs Gc [e [f [I1 [I2 K]]]] fuel ps. destruct (phase1_ok s c) as [X [P [C F]]]. destruct (phase1_full s c) as [Fa Fb]. unfold poly_clip. destruct s as [|hs s]; [congruence|]. destruct c as [|hc c]; [congruence|].
  destruct (phase1 (hs :: s) (hc :: c)) as [[a b] k] eqn:E. destruct P as [Pa Pb Pn Pna Pnb Pma Pmb]. cbn [fst snd] in *.
  destruct (flag_ring hs s (hc :: c) se a Gs Pa Fa) as [ga Ra]. destruct (flag_ring hc c (hs :: s) ce b Gc Pb Fb) as [gb Rb].
  pose proof (flag_marks X a (xorb se (is_inside hs (hc :: c))) Pma) as Ma. pose proof (flag_marks X b (xorb ce (is_inside hc (hs :: s))) Pmb) as Mb. pose proof (flag_ids (xorb se (is_inside hs (hc :: c))) a) as Ia.
  set (na := flag _ a) in *. set (nb := flag _ b) in *. intros H. destruct (phase3 fuel na nb []) as [l|] eqn:P3; [|discriminate]. cbn [bind] in H. injection H as <-.
  assert (Ag : agree na nb). { intros n1 n2 k0 f1 f2 A1 A2 X1 X2. rewrite Forall_forall in Ma, Mb. specialize (Ma n1 A1 _ _ X1). specialize (Mb n2 A2 _ _ X2). congruence. }
  pose proof (phase3_side (fun ab => along (hs :: s) (hc :: c) se ab \/ along (hc :: c) (hs :: s) ce ab) _ _ _ _ _ _ _ _ na nb Ra Rb (fun ab H => or_introl H) (fun ab H => or_intror H) Ag fuel [] l P3) as Q. destruct l as [|p0 l]; [|exact Q].
  exfalso. destruct fuel as [|fuel]; [discriminate|]. cbn [phase3] in P3. destruct (first_ok na [] 0) as [[j [nd [k' [e' [A [B [D1 D2]]]]]]]|[A B]]; rewrite A in P3.
  - destruct (trace fuel na nb (0 + j) []) as [[qs ch2]|]; [|discriminate]. cbn [bind] in P3. destruct (phase3 fuel na nb ch2); discriminate.
  - rewrite Ia in B. unfold numbered in Pna. assert (X = []). { destruct X as [|x X]; [reflexivity|]. exfalso. cbn [length] in Pn. assert (Hx : In 0%nat (map cut_id (all_cuts a))) by (eapply Permutation_in; [symmetry; exact Pna|]; apply in_seq; lia). destruct (B 0%nat Hx). } subst X. cbn [length] in C.
    assert (Q0 : forall l : list ((p2 * p2) * (p2 * p2)), counted crosses l 0 -> ~ In (e, f) l). { intros l H. remember 0%nat as z. induction H; intros H1; [destruct H1|discriminate|]. destruct H1 as [->|H1]; [contradiction|]. apply IHcounted; assumption. }
    apply (Q0 _ C). apply in_prod; assumption.
Qed.
