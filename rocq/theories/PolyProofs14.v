(* Lemmas for PolyProps.v: the polygons of Polygon.clip close up. *)
From Coq Require Import List Arith ZArith Bool QArith Qcanon Lia Permutation Sorting.Sorted.
From Verif Require Import Common QcLib ListLib ArrZ AabbModel AabbSpec AabbProofs ImplModel RtreeModel RtreeProofs PolyModel PolySpec PolyProofs PolyProofs2 PolyProofs3 PolyProofs4 PolyProofs5 PolyProofs6 PolyProofs7 PolyProofs8 PolyProofs11 PolyProofs12 PolyProofs13.
Import ListNotations.
Local Open Scope Qc_scope.

(* ---- walking there and back ---- *)
Definition plain (l : list node) (i : nat) : Prop := exists nd, nth_error l i = Some nd /\ xing nd = None.
Inductive run (l : list node) (fwd : bool) : nat -> nat -> nat -> Prop :=
| run1 i : (i < length l)%nat -> run l fwd 1 i (go fwd (length l) i)
| runS m i j : (i < length l)%nat -> plain l (go fwd (length l) i) -> run l fwd m (go fwd (length l) i) j -> run l fwd (S m) i j.
Lemma go_lt fwd n i : (i < n)%nat -> (go fwd n i < n)%nat.
Proof. intros H. destruct fwd; cbn [go]; [unfold after; destruct (Nat.eqb_spec (S i) n); lia|apply before_lt, H]. Qed.
Lemma go_back fwd n i : (i < n)%nat -> go (negb fwd) n (go fwd n i) = i.
Proof. intros H. destruct fwd; cbn [go negb]; [apply before_after, H|apply after_before, H]. Qed.
Lemma walk_run l : forall fuel fwd i ps j k, (i < length l)%nat -> walk fuel l fwd i = Ok (ps, j, k) -> exists m nd f, (m <= fuel)%nat /\ run l fwd m i j /\ nth_error l j = Some nd /\ xing nd = Some (k, f).
Proof.
  induction fuel as [|fuel IH]; intros fwd i ps j k L W; [discriminate|]. cbn [walk] in W.
  change (if fwd then if (S i =? length l)%nat then 0%nat else S i else match i with O => (length l - 1)%nat | S i' => i' end) with (go fwd (length l) i) in W.
  destruct (nth_error l (go fwd (length l) i)) as [nd'|] eqn:E'; [|discriminate]. destruct (xing nd') as [[k' f']|] eqn:X.
  - injection W as <- <- <-. exists 1%nat, nd', f'. split; [lia|]. split; [constructor; exact L|]. auto.
  - destruct (walk fuel l fwd (go fwd (length l) i)) as [[[ps' j'] k']|] eqn:W'; [|discriminate]. cbn [bind] in W. injection W as <- <- <-. destruct (IH _ _ _ _ _ (go_lt _ _ _ L) W') as [m [nd [f [A [B C]]]]]. exists (S m), nd, f. split; [lia|]. split; [|exact C]. apply runS; [exact L|exists nd'; auto|exact B].
Qed.
Lemma run_walk l fwd m i j nd k f : run l fwd m i j -> nth_error l j = Some nd -> xing nd = Some (k, f) -> forall fuel, (m <= fuel)%nat -> exists ps, walk fuel l fwd i = Ok (ps, j, k).
Proof.
  intros R E X. induction R as [i L|m i j L [nd' [E' X']] R IH]; intros [|fuel] Lf; try lia; cbn [walk];
  change (if fwd then if (S i =? length l)%nat then 0%nat else S i else match i with O => (length l - 1)%nat | S i' => i' end) with (go fwd (length l) i).
  - rewrite E, X. eexists. reflexivity.
  - rewrite E', X'. destruct (IH E fuel) as [ps P]; [lia|]. rewrite P. cbn [bind]. eexists. reflexivity.
Qed.
Lemma run_lt l fwd m i j : run l fwd m i j -> (i < length l)%nat /\ (j < length l)%nat.
Proof. induction 1 as [i L|m i j L P R IH]; [split; [exact L|apply go_lt, L]|tauto]. Qed.
Lemma run_snoc l fwd m i j : run l fwd m i j -> plain l j -> run l fwd (S m) i (go fwd (length l) j).
Proof.
  induction 1 as [i L|m i j L P R IH]; intros Pj.
  - apply runS; [exact L|exact Pj|]. constructor. apply go_lt, L.
  - apply runS; [exact L|exact P|]. apply IH, Pj.
Qed.
Lemma run_back l fwd m i j : run l fwd m i j -> run l (negb fwd) m j i.
Proof.
  induction 1 as [i L|m i j L P R IH].
  - rewrite <- (go_back fwd (length l) i L) at 2. constructor. apply go_lt, L.
  - rewrite <- (go_back fwd (length l) i L). apply run_snoc; assumption.
Qed.
Lemma run_ahead s c se l g fwd m i j : ring s c se l g -> run l fwd m i j -> ahead g (length l) (negb fwd) j = ahead g (length l) fwd i.
Proof.
  intros R. induction 1 as [i L|m i j L [nd [E X]] Ru IH].
  - destruct fwd; cbn [ahead go negb]; [rewrite before_after by exact L|]; reflexivity.
  - rewrite IH. apply (ring_on _ _ _ _ _ _ _ _ R L E X).
Qed.
Lemma xids_unique l : NoDup (xids l) -> forall i j n1 n2 k f1 f2, nth_error l i = Some n1 -> nth_error l j = Some n2 -> xing n1 = Some (k, f1) -> xing n2 = Some (k, f2) -> i = j.
Proof.
  induction l as [|nd l IH]; intros N i j n1 n2 k f1 f2 E1 E2 X1 X2; [destruct i; discriminate|].
  assert (N' : NoDup (xids l)) by (cbn [xids] in N; destruct (xing nd) as [[k' f']|]; [inversion N; assumption|exact N]).
  assert (Z : forall m n f, nth_error l m = Some n -> xing n = Some (k, f) -> xing nd = Some (k, f1) \/ xing nd = Some (k, f2) -> False).
  { intros m n f A B C. assert (In k (xids l)) by (apply xids_in; eauto). cbn [xids] in N. destruct C as [C|C]; rewrite C in N; inversion N; contradiction. }
  destruct i as [|i], j as [|j]; cbn [nth_error] in *; [reflexivity| | |f_equal; eapply IH; eassumption].
  - exfalso. injection E1 as ->. eapply Z; [exact E2|exact X2|left; exact X1].
  - exfalso. injection E2 as ->. eapply Z; [exact E1|exact X1|right; exact X2].
Qed.

(* the crossing at the other end of the piece of l that is kept *)
Definition mate (l : list node) (k k' : nat) : Prop := exists i nd f ps j, nth_error l i = Some nd /\ xing nd = Some (k, f) /\ walk (S (length l)) l f i = Ok (ps, j, k').
Lemma mate_fun l k k1 k2 : NoDup (xids l) -> mate l k k1 -> mate l k k2 -> k1 = k2.
Proof.
  intros N [i [nd [f [ps [j [E [X W]]]]]]] [i' [nd' [f' [ps' [j' [E' [X' W']]]]]]]. assert (i = i') by (eapply xids_unique; eassumption). subst i'. rewrite E in E'. injection E' as <-. rewrite X in X'. injection X' as <-. congruence.
Qed.
Lemma mate_sym s c se l g k k' : ring s c se l g -> mate l k k' -> mate l k' k.
Proof.
  intros R [i [nd [f [ps [j [E [X W]]]]]]]. assert (L : (i < length l)%nat) by (apply nth_error_Some; congruence). destruct (walk_run _ _ _ _ _ _ _ L W) as [m [nd' [f' [A [B [C D]]]]]].
  assert (F : f' = negb f). { pose proof (run_ahead _ _ _ _ _ _ _ _ _ R B) as H. rewrite (flagged _ _ _ _ _ _ _ _ _ R E X) in H. pose proof (flagged _ _ _ _ _ _ _ _ _ R C D) as H'. destruct (r_turn _ _ _ _ _ R _ _ _ _ C D) as [T _]. destruct f, f'; cbn [negb] in *; try reflexivity; unfold ahead in *; exfalso; rewrite T in *; destruct (g (before (length l) j)), se; discriminate. }
  subst f'. destruct (run_walk l (negb f) m j i nd k f (run_back _ _ _ _ _ B) E X (S (length l)) A) as [qs Q]. exists j, nd', (negb f), qs, i. auto.
Qed.
Lemma mate_irr s c se l g k : ring s c se l g -> NoDup (xids l) -> ~ mate l k k.
Proof.
  intros R N [i [nd [f [ps [j [E [X W]]]]]]]. assert (L : (i < length l)%nat) by (apply nth_error_Some; congruence). destruct (walk_run _ _ _ _ _ _ _ L W) as [m [nd' [f' [A [B [C D]]]]]].
  assert (j = i) by (eapply xids_unique; eassumption). subst j. rewrite E in C. injection C as <-. pose proof (run_ahead _ _ _ _ _ _ _ _ _ R B) as H. destruct (r_turn _ _ _ _ _ R _ _ _ _ E X) as [T _]. destruct f; unfold ahead in H; cbn [negb] in H; rewrite T in H; destruct (g (before (length l) i)); discriminate.
Qed.

Section Close.
  Variables (s c : list p2) (se ce : bool) (a b : list node) (ga gb : nat -> bool).
  Hypothesis (Ra : ring s c se a ga) (Rb : ring c s ce b gb) (Na : NoDup (xids a)) (Nb : NoDup (xids b)) (Ag : agree a b).
  Definition complete (ch : list nat) : Prop := forall x y, In x ch -> mate a x y \/ mate b x y -> In y ch.
  (* tt: now in a *)
  Record inv (tt : bool) (k k0 : nat) (ch : list nat) : Prop := {
    v_new : ~ In k ch; v_start : if tt then k = k0 \/ In k0 ch else In k0 ch;
    v_a : forall x y, In x ch -> mate a x y -> In y (if tt then ch else k :: ch);
    v_b : forall x y, In x ch -> x <> k0 -> mate b x y -> In y (if tt then k :: ch else ch);
    v_from : if tt then k <> k0 -> exists y, In y ch /\ mate b k y else exists y, In y ch /\ mate a k y }.
  Lemma inv_next_a k k0 ch k' : inv true k k0 ch -> mate a k k' -> ~ In k' (k :: ch) /\ inv false k' k0 (k :: ch).
  Proof.
    intros [V1 V2 V3 V4 V5] M. assert (N : ~ In k' (k :: ch)). { intros [->|H]; [exact (mate_irr _ _ _ _ _ _ Ra Na M)|]. apply V1. apply (V3 k' k H). exact (mate_sym _ _ _ _ _ _ _ Ra M). }
    split; [exact N|]. constructor.
    - exact N.
    - destruct V2 as [->|V2]; [left; reflexivity|right; exact V2].
    - intros x y [<-|H] Mx; [left; exact (mate_fun _ _ _ _ Na M Mx)|]. right. right. exact (V3 x y H Mx).
    - intros x y [<-|H] D Mx; [|exact (V4 x y H D Mx)]. destruct (V5 D) as [z [Z1 Z2]]. rewrite (mate_fun _ _ _ _ Nb Mx Z2). right. exact Z1.
    - exists k. split; [left; reflexivity|]. exact (mate_sym _ _ _ _ _ _ _ Ra M).
  Qed.
  Lemma inv_next_b k k0 ch k' : inv false k k0 ch -> mate b k k' -> (In k' (k :: ch) /\ k' = k0 /\ complete (k :: ch)) \/ (~ In k' (k :: ch) /\ inv true k' k0 (k :: ch)).
  Proof.
    intros [V1 V2 V3 V4 V5] M. destruct (in_dec Nat.eq_dec k' (k :: ch)) as [H|H]; [left|right].
    - split; [exact H|]. assert (K : k' = k0). { destruct H as [->|H]; [exfalso; exact (mate_irr _ _ _ _ _ _ Rb Nb M)|]. destruct (Nat.eq_dec k' k0) as [D|D]; [exact D|]. exfalso. apply V1. apply (V4 k' k H D). exact (mate_sym _ _ _ _ _ _ _ Rb M). }
      split; [exact K|]. subst k'. intros x y X [Mx|Mx].
      + destruct X as [<-|X]; [|exact (V3 x y X Mx)]. destruct V5 as [z [Z1 Z2]]. rewrite (mate_fun _ _ _ _ Na Mx Z2). right. exact Z1.
      + destruct X as [<-|X]; [rewrite (mate_fun _ _ _ _ Nb Mx M); exact H|]. destruct (Nat.eq_dec x k0) as [->|D]; [|right; exact (V4 x y X D Mx)]. left. apply (mate_fun b k0 k y Nb); [exact (mate_sym _ _ _ _ _ _ _ Rb M)|exact Mx].
    - split; [exact H|]. constructor.
      + exact H.
      + right. right. exact V2.
      + intros x y [<-|X] Mx; [|exact (V3 x y X Mx)]. destruct V5 as [z [Z1 Z2]]. rewrite (mate_fun _ _ _ _ Na Mx Z2). right. exact Z1.
      + intros x y [<-|X] D Mx; [left; exact (mate_fun _ _ _ _ Nb M Mx)|]. right. right. exact (V4 x y X D Mx).
      + intros _. exists k. split; [left; reflexivity|]. exact (mate_sym _ _ _ _ _ _ _ Rb M).
  Qed.
  Definition spot (k : nat) (p : p2) : Prop := exists nd f, (In nd a \/ In nd b) /\ xing nd = Some (k, f) /\ at_ nd = p.
  Lemma spot_fun k p q : spot k p -> spot k q -> p = q.
  Proof.
    assert (U : forall l n1 n2 f1 f2, NoDup (xids l) -> In n1 l -> In n2 l -> xing n1 = Some (k, f1) -> xing n2 = Some (k, f2) -> n1 = n2).
    { intros l n1 n2 f1 f2 N I1 I2 X1 X2. destruct (In_nth_error _ _ I1) as [i E1]. destruct (In_nth_error _ _ I2) as [j E2]. assert (i = j) by (eapply xids_unique; eassumption). congruence. }
    intros [n1 [f1 [I1 [X1 <-]]]] [n2 [f2 [I2 [X2 <-]]]]. destruct I1 as [I1|I1], I2 as [I2|I2].
    - f_equal. exact (U a n1 n2 f1 f2 Na I1 I2 X1 X2).
    - eapply Ag; eassumption.
    - symmetry. eapply Ag; eassumption.
    - f_equal. exact (U b n1 n2 f1 f2 Nb I1 I2 X1 X2).
  Qed.
  Lemma trace_close fuel : forall (tt : bool) i nd k f k0 ch ps ch', nth_error (if tt then a else b) i = Some nd -> xing nd = Some (k, f) -> inv tt k k0 ch ->
    trace fuel (if tt then a else b) (if tt then b else a) i ch = Ok (ps, ch') -> complete ch' /\ incl (k :: ch) ch' /\ spot k0 (last ps (at_ nd)) /\ (forall x, In x ch' -> In x ch \/ exists p, spot x p /\ In p (at_ nd :: ps)).
  Proof.
    induction fuel as [|fuel IH]; intros tt i nd k f k0 ch ps ch' E X V T; [discriminate|]. cbn [trace] in T. rewrite E in T. destruct nd as [p xo]. cbn [xing at_] in *. subst xo.
    destruct (walk (S (length (if tt then a else b))) (if tt then a else b) f i) as [[[ps1 j1] k1]|] eqn:W; [|discriminate]. cbn [bind] in T.
    assert (Rl : exists s1 c1 e1 g1, ring s1 c1 e1 (if tt then a else b) g1) by (destruct tt; [exists s, c, se, ga|exists c, s, ce, gb]; assumption). destruct Rl as [s1 [c1 [e1 [g1 Rl]]]].
    destruct (walk_side _ _ _ _ _ Rl _ _ _ _ _ _ _ E W) as [n1 [f1 [B1 [B2 [_ [B4 B5]]]]]]. cbn [at_] in B5.
    assert (M : mate (if tt then a else b) k k1) by (exists i; do 4 eexists; split; [exact E|]; split; [reflexivity|exact W]).
    assert (S1 : spot k1 (at_ n1)) by (exists n1, f1; split; [apply nth_error_In in B1; destruct tt; [left|right]; exact B1|auto]). assert (Sk : spot k p) by (eexists _, f; split; [apply nth_error_In in E; destruct tt; [left|right]; exact E|auto]).
    assert (Step : (tt = false /\ In k1 (k :: ch) /\ k1 = k0 /\ complete (k :: ch)) \/ (~ In k1 (k :: ch) /\ inv (negb tt) k1 k0 (k :: ch))) by (destruct tt; [right; apply inv_next_a; assumption|destruct (inv_next_b k k0 ch k1 V M); tauto]).
    destruct Step as [[-> [I1 [-> C1]]]|[I1 V1]].
    - rewrite (proj2 (seen_in _ _) I1) in T. injection T as <- <-. split; [exact C1|]. split; [apply incl_refl|]. split; [rewrite B5; exact S1|]. intros x [<-|H]; [right; exists p; split; [exact Sk|left; reflexivity]|left; exact H].
    - assert (seen k1 (k :: ch) = false) as Sn by (apply not_true_iff_false; rewrite seen_in; exact I1). rewrite Sn in T. destruct (place k1 (if tt then b else a) 0) as [i'|] eqn:P; [|discriminate]. destruct (place_at _ _ _ _ P) as [m [n2 [f2 [-> [C1 C2]]]]]. cbn [Nat.add] in T.
      destruct (trace fuel (if tt then b else a) (if tt then a else b) m (k :: ch)) as [[qs ch2]|] eqn:T2; [|discriminate]. cbn [bind] in T. injection T as <- <-.
      assert (S2 : spot k1 (at_ n2)) by (exists n2, f2; split; [apply nth_error_In in C1; destruct tt; [right|left]; exact C1|auto]). assert (Eq : at_ n1 = at_ n2) by (apply (spot_fun k1); assumption).
      destruct (IH (negb tt) m n2 k1 f2 k0 (k :: ch) qs ch2) as [D1 [D2 [D3 D4]]]; [destruct tt; exact C1|exact C2|exact V1|destruct tt; exact T2|]. split; [exact D1|]. split; [intros x H; apply D2; right; exact H|]. split.
      + destruct qs as [|q qs]; [rewrite app_nil_r, B5, Eq; exact D3|]. assert (LL : forall (d d' : p2) ws, ws <> [] -> last ws d = last ws d') by (intros d d' ws; induction ws as [|w1 ws IHw]; [congruence|]; intros _; destruct ws; [reflexivity|]; cbn [last] in *; apply IHw; discriminate). assert (LA : forall us ws (d : p2), ws <> [] -> last (us ++ ws) d = last ws d) by (intros us ws d Nw; induction us as [|u us IHu]; [reflexivity|]; cbn [app last]; destruct (us ++ ws) eqn:Z; [destruct us; [contradiction|discriminate]|]; exact IHu). rewrite LA by discriminate. rewrite (LL p (at_ n2)) by discriminate. exact D3.
      + intros x H. destruct (D4 x H) as [[<-|H']|[z [Z1 [Z2|Z2]]]]; [right; exists p; split; [exact Sk|left; reflexivity]|left; exact H'| |].
        * right. exists z. split; [exact Z1|]. right. apply in_or_app. left. rewrite <- Z2, <- Eq, <- B5. clear - B4. revert p. induction ps1 as [|q1 ps1 IHp]; intros p; [congruence|]. destruct ps1 as [|q2 ps1]; [left; reflexivity|]. right. apply (IHp ltac:(discriminate)).
        * right. exists z. split; [exact Z1|]. right. apply in_or_app. right. exact Z2.
  Qed.
  Lemma phase3_close : forall fuel ch ps, complete ch -> phase3 fuel a b ch = Ok ps -> Forall (fun l => forall d, hd d l = last l d) ps /\ (forall k p, spot k p -> In k (xids a) -> In k ch \/ exists l, In l ps /\ In p l).
  Proof.
    induction fuel as [|fuel IH]; intros ch ps C H; [discriminate|]. cbn [phase3] in H. destruct (first_ok a ch 0) as [[j [nd [k [e [A [B [X D]]]]]]]|[A B]]; rewrite A in H; [|injection H as <-; split; [constructor|]; intros k p _ K; left; apply B, K]. cbn [Nat.add] in H.
    destruct (trace fuel a b j ch) as [[qs ch2]|] eqn:T; [|discriminate]. cbn [bind] in H. destruct (phase3 fuel a b ch2) as [rest|] eqn:P; [|discriminate]. cbn [bind] in H. injection H as <-.
    assert (V : inv true k k ch). { constructor; [exact D|left; reflexivity|intros x y I M; exact (C x y I (or_introl M))|intros x y I _ M; right; exact (C x y I (or_intror M))|congruence]. }
    destruct (trace_close fuel true j nd k e k ch qs ch2 B X V T) as [C2 [I2 [S2 Q2]]]. destruct (IH ch2 rest C2 P) as [J1 J2]. split.
    - constructor; [|exact J1]. intros d. cbn [hd]. assert (E : at_ nd = last qs (at_ nd)) by (apply (spot_fun k); [exists nd, e; split; [left; apply nth_error_In in B; exact B|auto]|exact S2]). rewrite E at 1. destruct qs as [|q qs]; [reflexivity|]. change (last (at_ nd :: q :: qs) d) with (last (q :: qs) d). clear. revert q. induction qs as [|r qs IH]; intros q; [reflexivity|]. exact (IH r).
    - intros k1 p Sp K. destruct (in_dec Nat.eq_dec k1 ch) as [I|I]; [left; exact I|right]. destruct (J2 k1 p Sp K) as [H|[l [L1 L2]]]; [|exists l; split; [right; exact L1|exact L2]]. destruct (Q2 k1 H) as [H'|[z [Z1 Z2]]]; [contradiction|]. exists (at_ nd :: qs). split; [left; reflexivity|]. rewrite (spot_fun k1 p z Sp Z1). exact Z2.
  Qed.
End Close.

Lemma clip_close s c se ce : s <> [] -> c <> [] -> general s c -> general c s -> (exists e f, In e (outline s) /\ In f (outline c) /\ crosses (e, f)) ->
  forall fuel ps, poly_clip fuel s c se ce = Ok ps -> Forall (fun l => forall d, hd d l = last l d) ps /\
  forall e f p t t', In e (outline s) -> In f (outline c) -> crosses (e, f) -> p = lerp t (fst e) (snd e) -> p = lerp t' (fst f) (snd f) -> exists l, In l ps /\ In p l.
Proof.
  intros Hs Hc Gs Gc Ex fuel ps Hp. assert (NE : forall fuel ps, poly_clip fuel s c se ce = Ok ps -> exists l, phase3 fuel (flag (xorb se (is_inside (hd (0,0) s) c)) (fst (fst (phase1 s c)))) (flag (xorb ce (is_inside (hd (0, 0) c) s)) (snd (fst (phase1 s c)))) [] = Ok l /\ ps = match l with [] => [map at_ (flag (xorb se (is_inside (hd (0,0) s) c)) (fst (fst (phase1 s c))))] | _ => l end).
  { clear - Hs Hc. intros fuel ps. unfold poly_clip. destruct s as [|hs s]; [congruence|]. destruct c as [|hc c]; [congruence|]. cbn [hd]. destruct (phase1 (hs :: s) (hc :: c)) as [[a b] k]. cbn [fst snd]. destruct (phase3 fuel _ _ []) as [l|]; [|discriminate]. cbn [bind]. intros [= <-]. exists l. auto. }
  destruct (NE _ _ Hp) as [l [P3 El]]. clear NE Hp.
  destruct (phase1_ok s c) as [X [P [C F]]]. destruct (phase1_full s c) as [Fa Fb]. destruct s as [|hs s]; [congruence|]. destruct c as [|hc c]; [congruence|]. cbn [hd] in *.
  destruct (phase1 (hs :: s) (hc :: c)) as [[a b] k] eqn:E. destruct P as [Pa Pb Pn Pna Pnb Pma Pmb]. cbn [fst snd] in *.
  destruct (flag_ring hs s (hc :: c) se a Gs Pa Fa) as [ga Ra]. destruct (flag_ring hc c (hs :: s) ce b Gc Pb Fb) as [gb Rb].
  pose proof (flag_marks X a (xorb se (is_inside hs (hc :: c))) Pma) as Ma. pose proof (flag_marks X b (xorb ce (is_inside hc (hs :: s))) Pmb) as Mb. pose proof (flag_ids (xorb se (is_inside hs (hc :: c))) a) as Ia. pose proof (flag_ids (xorb ce (is_inside hc (hs :: s))) b) as Ib.
  (* every cut is a node *)
  assert (Nd : forall e0 a0 ct, In ct (all_cuts a0) -> exists nd f, In nd (flag e0 a0) /\ xing nd = Some (cut_id ct, f) /\ at_ nd = cut_at ct).
  { clear. intros e0 a0. revert e0. induction a0 as [|[p l] a0 IH]; intros e0 ct I; [destruct I|]. cbn [all_cuts flat_map snd] in I. cbn [flag]. assert (Q : forall l e1 ct, In ct l -> exists nd f, In nd (fst (flag_cuts e1 l)) /\ xing nd = Some (cut_id ct, f) /\ at_ nd = cut_at ct).
    { clear. induction l as [|c l IH]; intros e1 ct I; [destruct I|]. cbn [flag_cuts]. specialize (IH (negb e1)). destruct (flag_cuts (negb e1) l) as [t e']. cbn [fst] in *. destruct I as [->|I]; [eexists _, e1; split; [left; reflexivity|auto]|]. destruct (IH ct I) as [nd [f [A B]]]. exists nd, f. split; [right; exact A|exact B]. }
    specialize (Q l e0). destruct (flag_cuts e0 l) as [t e']. cbn [fst] in Q. apply in_app_or in I. destruct I as [I|I].
    - destruct (Q ct I) as [nd [f [A B]]]. exists nd, f. split; [right; apply in_or_app; left; exact A|exact B].
    - destruct (IH e' ct I) as [nd [f [A B]]]. exists nd, f. split; [right; apply in_or_app; right; exact A|exact B]. }
  specialize (Nd (xorb se (is_inside hs (hc :: c))) a). set (na := flag _ a) in *. set (nb := flag _ b) in *.
  assert (Na : NoDup (xids na)) by (rewrite Ia; eapply Permutation_NoDup; [symmetry; exact Pna|apply seq_NoDup]). assert (Nb : NoDup (xids nb)) by (rewrite Ib; eapply Permutation_NoDup; [symmetry; exact Pnb|apply seq_NoDup]).
  assert (Ag : agree na nb). { intros n1 n2 k0 f1 f2 A1 A2 X1 X2. rewrite Forall_forall in Ma, Mb. specialize (Ma n1 A1 _ _ X1). specialize (Mb n2 A2 _ _ X2). congruence. }
  destruct (phase3_close _ _ _ _ _ _ _ _ Ra Rb Na Nb Ag fuel [] l (fun x y H => match H with end) P3) as [J1 J2].
  (* every crossing point is a cut *)
  assert (Ct : forall e f p t t', In e (outline (hs :: s)) -> In f (outline (hc :: c)) -> crosses (e, f) -> p = lerp t (fst e) (snd e) -> p = lerp t' (fst f) (snd f) -> exists k0, spot na nb k0 p /\ In k0 (xids na)).
  { intros e f p t t' I1 I2 K Ep Ep'. destruct e as [u v], f as [x y]. cbn [fst snd] in *. unfold crosses in K. cbn [fst snd] in K. destruct (intersect_proper u v x y K) as [[[p' us] uc] R]. destruct (intersect_some _ _ _ _ _ _ _ R) as [_ [_ [_ [R1 R2]]]].
    assert (Et : t = us). { destruct K as [K _]. assert (Z1 : orient x y u + us * (orient x y v - orient x y u) = 0). { assert (orient x y p' = orient x y u + us * (orient x y v - orient x y u)) as <- by (rewrite R1; unfold orient, lerp; cbn [fst snd]; ring). rewrite R2. unfold orient, lerp. cbn [fst snd]. ring. }
      assert (Z2 : orient x y u + t * (orient x y v - orient x y u) = 0). { assert (orient x y p = orient x y u + t * (orient x y v - orient x y u)) as <- by (rewrite Ep; unfold orient, lerp; cbn [fst snd]; ring). rewrite Ep'. unfold orient, lerp. cbn [fst snd]. ring. }
      set (A := orient x y u) in *. set (B := orient x y v) in *. assert (Z : (t - us) * (B - A) = 0) by qlra. destruct (Qcmult_integral _ _ Z) as [Y|Y]; [qlra|]. exfalso. destruct K as [[? ?]|[? ?]]; qlra. }
    assert (Q : exists ct, In ct (all_cuts a) /\ cut_at ct = p).
    { clear - Pa Fa I1 I2 R Et Ep. unfold sides_ok in Pa. unfold full in Fa. set (es := outline (hs :: s)) in *. clearbody es. revert a Pa Fa. induction es as [|e es IH]; intros a Pa Fa; [destruct I1|]. inversion Pa as [|? sd ? a' [E1 E2] Pa']; subst. inversion Fa as [|? ? ? ? Q1 Fa']; subst. destruct I1 as [->|I1].
      - assert (H : In us (map cut_alpha (snd sd))). { eapply Permutation_in; [symmetry; exact Q1|]. apply in_flat_map. exists (x, y). split; [exact I2|]. unfold pa, along_param. cbn [fst snd]. rewrite R. left. reflexivity. }
        apply in_map_iff in H. destruct H as [ct [H1 H2]]. exists ct. split; [unfold all_cuts; cbn [flat_map]; apply in_or_app; left; exact H2|]. destruct E2 as [E2 _]. rewrite Forall_forall in E2. destruct (E2 ct H2) as [_ [_ E3]]. rewrite E3, H1. reflexivity.
      - destruct (IH I1 a' Pa' Fa') as [ct [H1 H2]]. exists ct. split; [unfold all_cuts; cbn [flat_map]; apply in_or_app; right; exact H1|exact H2]. }
    destruct Q as [ct [Q1 Q2]]. destruct (Nd ct Q1) as [nd [g [N1 [N2 N3]]]]. exists (cut_id ct). split; [exists nd, g; split; [left; exact N1|split; [exact N2|congruence]]|]. rewrite Ia. apply in_map, Q1. }
  assert (L : l <> []). { intros ->. destruct Ex as [e [f [I1 [I2 K]]]]. destruct e as [u v], f as [x y]. pose proof K as K'. unfold crosses in K'. cbn [fst snd] in K'. destruct (intersect_proper u v x y K') as [[[p' us] uc] R]. destruct (intersect_some _ _ _ _ _ _ _ R) as [_ [_ [_ [R1 R2]]]]. destruct (Ct _ _ p' us uc I1 I2 K R1 R2) as [k0 [S0 N0]]. destruct (J2 k0 p' S0 N0) as [[]|[l' [[] _]]]. }
  assert (ps = l) as -> by (destruct l; [congruence|exact El]). split; [exact J1|]. intros e f p t t' I1 I2 K Ep Ep'. destruct (Ct _ _ p t t' I1 I2 K Ep Ep') as [k0 [S0 N0]]. destruct (J2 k0 p S0 N0) as [[]|H]. exact H.
Qed.
