(* Lemmas for PolyProps.v: Polygon.clip follows the right parts of the outlines (continued). *)
From Coq Require Import List Arith ZArith Bool QArith Qcanon Lia Permutation Sorting.Sorted.
From Verif Require Import Common QcLib ListLib ArrZ AabbModel AabbSpec AabbProofs ImplModel RtreeModel RtreeProofs PolyModel PolySpec PolyProofs PolyProofs2 PolyProofs3 PolyProofs4 PolyProofs5 PolyProofs6 PolyProofs7 PolyProofs8 PolyProofs11.
Import ListNotations.
Local Open Scope Qc_scope.

Lemma xsum_const {A} (f : A -> bool) l (b : bool) : Forall (fun a => f a = b) l -> xsum f l = if b then Nat.odd (length l) else false.
Proof.
  unfold xsum. induction 1 as [|a l E H IH]; [destruct b; reflexivity|]. cbn [fold_right length]. rewrite IH, E. destruct b; [rewrite Nat.odd_succ, <- Nat.negb_odd; destruct (Nat.odd (length l)); reflexivity|reflexivity].
Qed.

Section Chain.
  Variables (s c : list p2) (se : bool).
  (* from p through the nodes of l to z; d is the side of the piece ahead of p, d' of the last one *)
  Fixpoint chain (d : bool) (p : p2) (l : list node) (z : p2) (d' : bool) : Prop :=
    match l with
    | [] => along s c d (p, z) /\ d = d'
    | nd :: r => along s c d (p, at_ nd) /\ match xing nd with None => chain d (at_ nd) r z d' | Some (_, f) => f = xorb d se /\ chain (negb d) (at_ nd) r z d' end
    end.

  (* one edge *)
  Lemma edge_chain u v b (pre r : list cut) tp : In (u, v) (outline s) -> clear_of u c -> (forall w, In w c -> orient u v w <> 0) -> inb c u b ->
    Permutation (map cut_alpha (pre ++ r)) (flat_map (pa (u, v)) (outline c)) -> cuts_ok (u, v) r -> 0 <= tp -> tp <= 1 ->
    Forall (fun x => cut_alpha x <= tp) pre -> Forall (fun x => tp <= cut_alpha x) r -> forall rest z d',
    (forall d p, along s c d (p, v) -> d = xorb b (Nat.odd (length (pre ++ r))) -> chain d p rest z d') ->
    let d := xorb b (Nat.odd (length pre)) in chain d (lerp tp u v) (fst (flag_cuts (xorb d se) r) ++ rest) z d' /\ snd (flag_cuts (xorb d se) r) = xorb (xorb b (Nat.odd (length (pre ++ r)))) se.
  Proof.
    intros I Cu N B. revert pre tp. induction r as [|x r IH]; intros pre tp P K T0 T1 F1 F2 rest z d' H; cbn zeta.
    - cbn [flag_cuts fst snd app]. rewrite app_nil_r in *. split; [|reflexivity]. apply H; [|reflexivity].
      exists (u, v), tp, 1. cbn [fst snd]. split; [exact I|]. split; [split; assumption|]. split; [split; qlra|]. split; [reflexivity|]. split; [destruct v as [v1 v2], u as [u1 u2]; unfold lerp; cbn; f_equal; ring|].
      intros t [[L1 L2]|[L1 L2]] Cx; [|qlra]. assert (St := status u v c b (map cut_alpha pre) t Cu N B P). assert (Tp : 0 < t) by qlra. specialize (St Tp (Qclt_le_weak _ _ L2) Cx). rewrite (xsum_const _ _ true) in St by (rewrite Forall_map; eapply Forall_impl; [|exact F1]; intros y Y; apply qlt_true; cbn in Y; qlra). rewrite map_length in St. unfold inb in St. rewrite <- St. reflexivity.
    - destruct K as [K1 K2]. inversion K1 as [|? ? X1 X2]; subst. inversion K2 as [|? ? Y1 Y2]; subst. destruct X1 as [A1 [A2 A3]]. inversion F2 as [|? ? G1 G2]; subst.
      assert (E : pre ++ x :: r = (pre ++ [x]) ++ r) by (rewrite <- app_assoc; reflexivity). rewrite E in P, H |- *.
      assert (O : Nat.odd (length (pre ++ [x])) = negb (Nat.odd (length pre))) by (rewrite app_length, Nat.add_1_r, Nat.odd_succ, <- Nat.negb_odd; reflexivity).
      assert (A20 : cut_alpha x <= 1) by qlra. assert (A10 : 0 <= cut_alpha x) by qlra.
      destruct (IH (pre ++ [x]) (cut_alpha x) P (conj X2 Y1) A10 A20) with (rest := rest) (z := z) (d' := d') as [J1 J2].
      { apply Forall_app. split; [eapply Forall_impl; [|exact F1]; intros y Y; cbn in *; qlra|constructor; [qlra|constructor]]. }
      { exact Y2. }
      { exact H. }
      set (d := xorb b (Nat.odd (length pre))) in *. assert (D : xorb b (Nat.odd (length (pre ++ [x]))) = negb d) by (rewrite O; unfold d; destruct b, (Nat.odd (length pre)); reflexivity). rewrite D in J1, J2. assert (D2 : xorb (negb d) se = negb (xorb d se)) by (destruct d, se; reflexivity). rewrite D2 in J1, J2.
      cbn [flag_cuts]. destruct (flag_cuts (negb (xorb d se)) r) as [t e'] eqn:Ef. cbn [fst snd app chain at_ xing] in *. split; [|exact J2]. split; [|split; [reflexivity|]].
      + rewrite A3. cbn [fst snd]. exists (u, v), tp, (cut_alpha x). cbn [fst snd]. split; [exact I|]. split; [split; assumption|]. split; [split; assumption|]. split; [reflexivity|]. split; [reflexivity|].
        intros w [[L1 L2]|[L1 L2]] Cx; [|qlra]. assert (St := status u v c b _ w Cu N B P). assert (W0 : 0 < w) by qlra. assert (W1 : w <= 1) by qlra. specialize (St W0 W1 Cx).
        rewrite <- E, map_app, xsum_app in St. rewrite (xsum_const _ (map cut_alpha pre) true) in St by (rewrite Forall_map; eapply Forall_impl; [|exact F1]; intros y Y; apply qlt_true; cbn in Y; qlra). rewrite (xsum_const _ (map cut_alpha (x :: r)) false) in St.
        * rewrite map_length, xorb_false_r in St. unfold inb in St. rewrite <- St. reflexivity.
        * rewrite Forall_map. constructor; [apply qlt_false; qlra|]. rewrite Forall_forall in Y2 |- *. intros y Y. specialize (Y2 y Y). unfold cut_le in Y2. apply qlt_false. qlra.
      + rewrite A3. cbn [fst snd]. exact J1.
  Qed.
  Lemma edge_end u v b l : clear_of u c -> clear_of v c -> (forall w, In w c -> orient u v w <> 0) -> inb c u b -> Permutation (map cut_alpha l) (flat_map (pa (u, v)) (outline c)) -> Forall (cut_on (u, v)) l -> inb c v (xorb b (Nat.odd (length l))).
  Proof.
    intros Cu Cv N B P F. assert (E : lerp 1 u v = v) by (destruct v as [v1 v2], u as [u1 u2]; unfold lerp; cbn; f_equal; ring). assert (St := status u v c b _ 1 Cu N B P). rewrite E in St. specialize (St (eq_refl : 0 < 1) (Qcle_refl 1) Cv). rewrite (xsum_const _ _ true) in St; [rewrite map_length in St; exact St|]. rewrite Forall_map. eapply Forall_impl; [|exact F]. intros x [X1 [X2 X3]]. apply qlt_true. exact X2.
  Qed.
  Fixpoint linked (es : list (p2 * p2)) (z : p2) : Prop := match es with [] => True | e :: r => snd e = match r with [] => z | f :: _ => fst f end /\ linked r z end.
  Lemma sides_chain es a z d : es <> [] -> linked es z -> incl es (outline s) -> (forall e, In e es -> clear_of (fst e) c /\ clear_of (snd e) c /\ (forall w, In w c -> orient (fst e) (snd e) w <> 0)) ->
    sides_ok es a -> full es (outline c) a -> (forall e r, es = e :: r -> inb c (fst e) d) ->
    exists nd rest d', flag (xorb d se) a = nd :: rest /\ xing nd = None /\ chain d (at_ nd) rest z d' /\ inb c z d' /\ (forall e r, es = e :: r -> at_ nd = fst e).
  Proof.
    intros NE L I G So Fu. revert a d So Fu NE L I G. induction es as [|e es IH]; intros a d So Fu NE L I G B; [congruence|]. inversion So as [|? sd ? a' [E1 E2] So']; subst. inversion Fu as [|? ? ? ? Q1 Fu']; subst. destruct sd as [p l]. cbn [fst snd] in *. subst p. destruct L as [L1 L2]. specialize (B e es eq_refl) as Be.
    destruct (G e (or_introl eq_refl)) as [Cu [Cv N]]. assert (Ev := edge_end (fst e) (snd e) d l Cu Cv N Be). destruct e as [u v]. cbn [fst snd] in *. specialize (Ev Q1 (proj1 E2)).
    cbn [flag]. destruct (flag_cuts (xorb d se) l) as [t e'] eqn:Ef. set (d1 := xorb d (Nat.odd (length l))) in *.
    assert (Ec := edge_chain u v d [] l 0 (I _ (or_introl eq_refl)) Cu N Be Q1 E2 (Qcle_refl 0) (Qclt_le_weak _ _ (eq_refl : 0 < 1)) (Forall_nil _)). cbn [app length Nat.odd Nat.even negb] in Ec. change (Nat.odd 0) with false in Ec. rewrite xorb_false_r in Ec. rewrite Ef in Ec. cbn [fst snd] in Ec.
    assert (F0 : Forall (fun x => 0 <= cut_alpha x) l) by (eapply Forall_impl; [|exact (proj1 E2)]; intros x [X _]; qlra). specialize (Ec F0).
    assert (Z0 : lerp 0 u v = u) by (destruct v as [v1 v2], u as [u1 u2]; unfold lerp; cbn; f_equal; ring). rewrite Z0 in Ec. fold d1 in Ec.
    exists {| at_ := u; xing := None |}. destruct es as [|f es].
    - inversion So'; subst. exists (t ++ flag e' []), d1. cbn [at_ xing flag]. split; [reflexivity|]. split; [reflexivity|]. split; [|split; [exact Ev|intros ? ? [= <- _]; reflexivity]]. apply (Ec [] z d1). intros d2 p A ->. cbn [chain]. split; [exact A|reflexivity].
    - destruct (IH a' d1 So' Fu') as [nd [rest [d' [J1 [J2 [J3 [J4 J5]]]]]]]; [discriminate|exact L2|intros g Hg; apply I; right; exact Hg|intros g Hg; apply G; right; exact Hg|intros ? ? [= <- _]; rewrite <- L1; exact Ev|].
      specialize (J5 f es eq_refl). assert (Q : forall d2 p, along s c d2 (p, v) -> d2 = d1 -> chain d2 p (nd :: rest) z d') by (intros d2 p A ->; cbn [chain]; rewrite J2, J5, <- L1; split; [exact A|]; rewrite J5, <- L1 in J3; exact J3).
      destruct (Ec (nd :: rest) z d' Q) as [C1 C2]. exists (t ++ flag e' a'), d'. cbn [at_ xing]. rewrite C2, J1. split; [reflexivity|]. split; [reflexivity|]. split; [exact C1|]. split; [exact J4|]. intros ? ? [= <- _]. reflexivity.
  Qed.
End Chain.
Lemma outline_linked o r : linked (outline (o :: r)) o.
Proof.
  unfold outline. cut (forall z, linked (combine (o :: r) (r ++ [z])) z); [intros H; apply H|]. intros z. revert o. induction r as [|a r IH]; intros o; [cbn; auto|]. cbn [app combine linked snd fst]. split; [destruct r; reflexivity|]. apply IH.
Qed.
Lemma outline_ne o r : outline (o :: r) <> [].
Proof. destruct r; discriminate. Qed.
Lemma outline_hd o r e t : outline (o :: r) = e :: t -> fst e = o.
Proof. intros H. pose proof (outline_fst (o :: r)) as F. rewrite H in F. cbn in F. congruence. Qed.

(* ---- the circular list ---- *)
Definition after (n i : nat) : nat := if (S i =? n)%nat then 0%nat else S i.
Definition before (n i : nat) : nat := match i with O => (n - 1)%nat | S i' => i' end.
Record ring (s c : list p2) (se : bool) (l : list node) (g : nat -> bool) : Prop := {
  r_link : forall i nd nd', nth_error l i = Some nd -> nth_error l (after (length l) i) = Some nd' -> along s c (g i) (at_ nd, at_ nd');
  r_pass : forall i nd, nth_error l i = Some nd -> xing nd = None -> g i = g (before (length l) i);
  r_turn : forall i nd k f, nth_error l i = Some nd -> xing nd = Some (k, f) -> g i = negb (g (before (length l) i)) /\ f = xorb (g (before (length l) i)) se }.
Fixpoint sg (d : bool) (l : list node) : list bool := match l with [] => [d] | nd :: r => d :: sg (match xing nd with None => d | Some _ => negb d end) r end.
Lemma sg_len d l : length (sg d l) = S (length l).
Proof. revert d. induction l as [|nd l IH]; intros d; cbn; [reflexivity|]. rewrite IH. reflexivity. Qed.
(* pieces: l is the nodes after p *)
Lemma chain_pieces s c se l : forall d p z d', chain s c se d p l z d' ->
  (forall i, (i <= length l)%nat -> along s c (nth i (sg d l) false) (nth i (p :: map at_ l) p, nth (S i) (p :: map at_ l ++ [z]) p)) /\
  (forall i nd, nth_error l i = Some nd -> match xing nd with None => nth (S i) (sg d l) false = nth i (sg d l) false | Some (_, f) => nth (S i) (sg d l) false = negb (nth i (sg d l) false) /\ f = xorb (nth i (sg d l) false) se end) /\
  nth (length l) (sg d l) false = d'.
Proof.
  induction l as [|nd l IH]; intros d p z d' H.
  - destruct H as [H <-]. split; [intros i Hi; assert (i = 0)%nat as -> by (cbn in Hi; lia); exact H|]. split; [intros [|i] nd K; discriminate|reflexivity].
  - cbn [chain] in H. destruct H as [A H]. set (d1 := match xing nd with None => d | Some _ => negb d end).
    assert (H' : chain s c se d1 (at_ nd) l z d' /\ match xing nd with None => True | Some (_, f) => f = xorb d se end) by (unfold d1; destruct (xing nd) as [[k f]|]; tauto). destruct H' as [H1 H2].
    destruct (IH _ _ _ _ H1) as [I1 [I2 I3]]. cbn [sg]. fold d1. split; [|split].
    + intros [|i] Hi; [exact A|]. cbn [length] in Hi. specialize (I1 i ltac:(lia)).
      change (nth (S i) (p :: map at_ (nd :: l)) p) with (nth i (at_ nd :: map at_ l) p). change (nth (S (S i)) (p :: map at_ (nd :: l) ++ [z]) p) with (nth (S i) (at_ nd :: map at_ l ++ [z]) p). change (nth (S i) (d :: sg d1 l) false) with (nth i (sg d1 l) false).
      rewrite (nth_indep (at_ nd :: map at_ l) p (at_ nd)) by (cbn [length]; rewrite map_length; lia). rewrite (nth_indep (at_ nd :: map at_ l ++ [z]) p (at_ nd)) by (cbn [length]; rewrite app_length, map_length; cbn [length]; lia). exact I1.
    + intros [|i] nd' K; [|exact (I2 i nd' K)]. cbn [nth_error] in K. injection K as <-. assert (N0 : nth 0 (sg d1 l) false = d1) by (destruct l; reflexivity). cbn [nth]. rewrite N0. unfold d1. destruct (xing nd) as [[k f]|]; [split; [reflexivity|exact H2]|reflexivity].
    + cbn [length nth]. exact I3.
Qed.
Lemma chain_ring s c se nd rest d : xing nd = None -> chain s c se d (at_ nd) rest (at_ nd) d -> ring s c se (nd :: rest) (fun i => nth i (sg d rest) false).
Proof.
  intros X H. destruct (chain_pieces _ _ _ _ _ _ _ _ H) as [I1 [I2 I3]]. constructor.
  - intros i n1 n2 E1 E2. assert (Li : (i <= length rest)%nat) by (assert (i < length (nd :: rest))%nat by (apply nth_error_Some; congruence); cbn in *; lia). specialize (I1 i Li).
    assert (nth i (at_ nd :: map at_ rest) (at_ nd) = at_ n1) as F1 by (change (at_ nd :: map at_ rest) with (map at_ (nd :: rest)); apply nth_error_nth; rewrite nth_error_map, E1; reflexivity). rewrite F1 in I1.
    replace (at_ n2) with (nth (S i) (at_ nd :: map at_ rest ++ [at_ nd]) (at_ nd)); [exact I1|]. unfold after in E2. cbn [length] in E2. destruct (Nat.eqb_spec (S i) (S (length rest))) as [K|K].
    + injection K as ->. cbn [nth_error] in E2. injection E2 as <-. cbn [nth]. rewrite app_nth2, map_length, Nat.sub_diag by (rewrite map_length; lia). reflexivity.
    + cbn [nth_error nth] in *. rewrite app_nth1 by (rewrite map_length; lia). apply nth_error_nth. rewrite nth_error_map, E2. reflexivity.
  - intros [|i] n E Xn; cbn [before length].
    + replace (S (length rest) - 1)%nat with (length rest) by lia. rewrite I3. destruct rest; reflexivity.
    + cbn [nth_error] in E. specialize (I2 i n E). rewrite Xn in I2. exact I2.
  - intros [|i] n k f E Xn; cbn [before length]; [cbn in E; congruence|]. cbn [nth_error] in E. specialize (I2 i n E). rewrite Xn in I2. exact I2.
Qed.
