(* Lemmas for PolyProps.v: convex_hull2d, the scan. *)
From Coq Require Import List Arith ZArith Bool QArith Qcanon Lia Permutation Sorting.Sorted.
From Verif Require Import Common QcLib ListLib ArrZ AabbModel AabbSpec AabbProofs ImplModel RtreeModel RtreeProofs PolyModel PolySpec PolyProofs PolyProofs2 PolyProofs3 PolyProofs5 PolyProofs9.
Import ListNotations.
Local Open Scope Qc_scope.

Section Scan.
Context (o : p2).
(* a stack, top first, with strict left turns *)
Inductive good : list p2 -> Prop :=
| good1 : good [o]
| good2 t : t <> o -> good [t; o]
| good3 t u v l : good (u :: v :: l) -> 0 < orient o u t -> 0 < orient v u t -> good (t :: u :: v :: l).
Fixpoint left_of (v : p2) (st : list p2) : Prop := match st with t :: (u :: _) as r => 0 <= orient u t v /\ left_of v r | _ => True end.
Lemma left_tl v t st : left_of v (t :: st) -> left_of v st.
Proof. destruct st; cbn; tauto. Qed.
Lemma good_inv st : good st -> st = [o] \/ (exists t, t <> o /\ st = [t; o]) \/ (exists t u v l, st = t :: u :: v :: l /\ good (u :: v :: l) /\ 0 < orient o u t /\ 0 < orient v u t).
Proof. destruct 1 as [|t N|t u v l G T1 T2]; [left; reflexivity|right; left; exists t; auto|right; right; exists t, u, v, l; auto]. Qed.
Lemma good_one t : good [t] -> t = o.
Proof. intros H. destruct (good_inv _ H) as [E|[[? [_ E]]|[? [? [? [? [E _]]]]]]]; [congruence|discriminate|discriminate]. Qed.
Lemma good_two t u : good [t; u] -> t <> o /\ u = o.
Proof. intros H. destruct (good_inv _ H) as [E|[[t' [N E]]|[? [? [? [? [E _]]]]]]]; [discriminate|injection E as -> ->; auto|discriminate]. Qed.
Lemma good_three t u v l : good (t :: u :: v :: l) -> good (u :: v :: l) /\ 0 < orient o u t /\ 0 < orient v u t.
Proof. intros H. destruct (good_inv _ H) as [E|[[t' [N E]]|[? [? [? [? [E K]]]]]]]; [discriminate|discriminate|injection E as -> -> -> ->; exact K]. Qed.
Lemma good_tl t u l : good (t :: u :: l) -> good (u :: l).
Proof. intros H. destruct l as [|v l]; [apply good_two in H; destruct H as [_ ->]; constructor|apply good_three in H; tauto]. Qed.
Lemma good_top t u l : good (t :: u :: l) -> t <> o.
Proof. intros H. destruct l as [|v l]; [apply good_two in H; tauto|]. apply good_three in H. destruct H as [_ [H _]]. intros ->. assert (orient o u o = 0) by (unfold orient; ring). qlra. Qed.
Lemma good_turn t u l : good (t :: u :: l) -> (l = [] /\ u = o) \/ (l <> [] /\ 0 < orient o u t).
Proof. intros H. destruct l as [|v l]; [apply good_two in H; left; tauto|apply good_three in H; right; split; [discriminate|tauto]]. Qed.

(* p strictly left of the top edge is left of every edge *)
Lemma below_left p t u l : good (t :: u :: l) -> 0 < orient u t p -> (forall s, In s (t :: u :: l) -> 0 <= orient o s p) -> left_of p (t :: u :: l).
Proof.
  revert t u. induction l as [|v l IH]; intros t u G H L.
  - cbn [left_of]. split; [qlra|trivial].
  - split; [qlra|]. destruct (good_three _ _ _ _ G) as [G' [T1 T2]]. destruct (good_turn _ _ _ G') as [[-> ->]|[Nl T3]].
    + cbn [left_of]. split; [|trivial]. apply L. right. left. reflexivity.
    + apply IH; [exact G'| |intros s I; apply L; right; exact I].
      (* e1 = u - v, e2 = t - u, g = u - o *)
      apply (pos_of_mul (orient o u t)); [exact T1|].
      assert (I : orient o u t * orient v u p = orient v u t * orient o u p + orient o v u * orient u t p) by (unfold orient; ring). rewrite I.
      assert (0 <= orient v u t * orient o u p) by (apply qc_mul_nonneg; [qlra|apply L; right; left; reflexivity]). assert (0 < orient o v u * orient u t p) by (apply qc_mul_pos; assumption). qlra.
Qed.
(* why every processed point is left of the new edge *)
Definition reason (P : p2 -> Prop) (p t : p2) : Prop :=
  (forall v, P v -> ang_le o v t) \/
  (exists t', orient t t' p <= 0 /\ (t <> o -> 0 < orient o t t') /\ t' <> o /\ ang_le o t' p /\ forall v, P v -> 0 <= orient t t' v).
Lemma new_left (P : p2 -> Prop) p t st : good (t :: st) -> reason P p t -> (forall u l, st = u :: l -> 0 < orient u t p) -> ang_le o t p -> (forall v, P v -> ang_le o v p) -> (forall v, P v -> left_of v (t :: st)) ->
  forall v, P v -> 0 <= orient t p v.
Proof.
  intros G R T Tp A Lf v Hv. destruct (p2_dec t o) as [->|Nt].
  - destruct R as [R|[t' [R1 [_ [N [R3 R4]]]]]].
    + specialize (R v Hv). apply ang_null in R. subst v. assert (orient o p o = 0) as -> by (unfold orient; ring). apply Qcle_refl.
    + destruct R3 as [C1 C2]. destruct C2 as [u [u0 [u1 E]]]; [qlra|]. specialize (R4 v Hv). subst t'.
      assert (Up : 0 < u). { destruct (Qclt_le_dec 0 u) as [K|K]; [exact K|]. exfalso. apply N. assert (u = 0) as -> by qlra. unfold lerp. apply p2_eq; cbn [fst snd]; ring. }
      apply (nn_of_mul u); [exact Up|]. assert (u * orient o p v = orient o (lerp u o p) v) as -> by (unfold orient, lerp; cbn [fst snd]; ring). exact R4.
  - destruct st as [|u l]; [exfalso; apply Nt, good_one, G|]. specialize (T u l eq_refl).
    assert (Lv : 0 <= orient u t v) by (apply (Lf v Hv)). destruct Tp as [Tp TpC].
    destruct (Qclt_le_dec 0 (orient o v t)) as [B|B].
    + (* v before t: by the edge below *)
      destruct (good_turn _ _ _ G) as [[-> ->]|[Nl T3]].
      * exfalso. assert (orient o t v = - orient o v t) by (unfold orient; ring). qlra.
      * apply (nn_of_mul (orient o u t)); [exact T3|]. assert (I : orient o u t * orient t p v = orient u t p * orient o v t + orient o t p * orient u t v) by (unfold orient; ring). rewrite I.
        assert (0 < orient u t p * orient o v t) by (apply qc_mul_pos; assumption). assert (0 <= orient o t p * orient u t v) by (apply qc_mul_nonneg; assumption). qlra.
    + destruct R as [R|[t' [R1 [R2 [N [R3 R4]]]]]].
      * destruct (R v Hv) as [C1 C2]. destruct C2 as [m [m0 [m1 ->]]]; [qlra|].
        assert (orient t p (lerp m o t) = (1 - m) * orient o t p) as -> by (unfold orient, lerp; cbn [fst snd]; ring). apply qc_mul_nonneg; [qlra|exact Tp].
      * specialize (R2 Nt). specialize (R4 v Hv). apply (nn_of_mul (orient o t t')); [exact R2|].
        assert (I : orient o t t' * orient t p v = (- orient t t' p) * (- orient o v t) + orient o t p * orient t t' v) by (unfold orient; ring). rewrite I.
        assert (0 <= (- orient t t' p) * (- orient o v t)) by (apply qc_mul_nonneg; qlra). assert (0 <= orient o t p * orient t t' v) by (apply qc_mul_nonneg; assumption). qlra.
Qed.
(* pushing *)
Lemma push_good p t st : good (t :: st) -> (forall u l, st = u :: l -> 0 < orient u t p) -> ang_le o t p -> p <> o -> good (p :: t :: st).
Proof.
  intros G T [Tp TpC] N. destruct st as [|u l]; [apply good_one in G; subst t; apply good2; exact N|]. apply good3; [exact G| |apply (T u l eq_refl)]. specialize (T u l eq_refl). pose proof (good_top _ _ _ G) as Nt.
  destruct (sgn3 (orient o t p)) as [K|[K|K]]; [qlra| |exact K]. exfalso. destruct (TpC K) as [m [m0 [m1 E]]].
  assert (Mp : 0 < m). { destruct (Qclt_le_dec 0 m) as [M|M]; [exact M|]. exfalso. apply Nt. rewrite E. assert (m = 0) as -> by qlra. unfold lerp. apply p2_eq; cbn [fst snd]; ring. }
  assert (U : 0 <= orient o u t) by (destruct (good_turn _ _ _ G) as [[_ ->]|[_ U]]; [assert (orient o o t = 0) as -> by (unfold orient; ring); apply Qcle_refl|qlra]).
  assert (I : m * orient u t p = - ((1 - m) * orient o u t)). { rewrite E. unfold orient, lerp. cbn [fst snd]. ring. }
  assert (0 < m * orient u t p) by (apply qc_mul_pos; assumption). assert (0 <= (1 - m) * orient o u t) by (apply qc_mul_nonneg; qlra). qlra.
Qed.

Definition exact2 (Q : p2 -> Prop) : Prop := forall a b c, Q a -> Q b -> Q c -> (orientation a b c = 2%nat <-> 0 < orient a b c).
Lemma pop_ok (Q P : p2 -> Prop) p t st : exact2 Q -> Q p -> (forall s, In s (t :: st) -> Q s) -> good (t :: st) -> p <> o -> reason P p t ->
  (forall s, In s (t :: st) -> P s) -> (forall v, P v -> ang_le o v p) -> (forall v, P v -> left_of v (t :: st)) ->
  exists t' st', pop_right p (t :: st) = t' :: st' /\ good (p :: t' :: st') /\ (forall s, In s (t' :: st') -> In s (t :: st)) /\ (forall v, P v \/ v = p -> left_of v (p :: t' :: st')).
Proof.
  intros EX Qp. revert t. induction st as [|u l IH]; intros t Qs G N R Ps A Lf.
  - exists t, []. split; [reflexivity|]. assert (t = o) as -> by (apply good_one, G). split; [apply good2, N|]. split; [auto|].
    intros v [Hv| ->]; cbn [left_of]; (split; [|trivial]); [|assert (orient o p p = 0) as -> by (unfold orient; ring); apply Qcle_refl].
    apply (new_left P p o []); auto; [congruence|apply ang_o].
  - cbn [pop_right]. destruct (orientation u t p =? 2)%nat eqn:E.
    + apply Nat.eqb_eq in E. apply (EX u t p) in E; [|apply Qs; right; left; reflexivity|apply Qs; left; reflexivity|exact Qp].
      assert (T : forall u' l', u :: l = u' :: l' -> 0 < orient u' t p) by (intros u' l' K; injection K as <- <-; exact E).
      assert (At : ang_le o t p) by (apply A, Ps; left; reflexivity).
      exists t, (u :: l). split; [reflexivity|]. split; [apply push_good; assumption|]. split; [auto|].
      intros v [Hv| ->]; (split; [|auto]).
      * apply (new_left P p t (u :: l)); auto.
      * assert (orient t p p = 0) as -> by (unfold orient; ring). apply Qcle_refl.
      * apply below_left; [exact G|exact E|]. intros s I. apply A, Ps, I.
    + apply Nat.eqb_neq in E. assert (E' : orient u t p <= 0). { destruct (Qclt_le_dec 0 (orient u t p)) as [K|K]; [|exact K]. exfalso. apply E. apply EX; [apply Qs; right; left; reflexivity|apply Qs; left; reflexivity|exact Qp|exact K]. }
      destruct (IH u) as [t' [st' [H1 [H2 [H3 H4]]]]].
      * intros s I. apply Qs. right. exact I.
      * eapply good_tl, G.
      * exact N.
      * right. exists t. split; [exact E'|]. split; [intros Nu; destruct (good_turn _ _ _ G) as [[_ K]|[_ K]]; [congruence|exact K]|]. split; [eapply good_top, G|]. split; [apply A, Ps; left; reflexivity|]. intros v Hv. apply (Lf v Hv).
      * intros s I. apply Ps. right. exact I.
      * exact A.
      * intros v Hv. eapply left_tl. apply (Lf v Hv).
      * exists t', st'. split; [exact H1|]. split; [exact H2|]. split; [intros s I; right; apply H3, I|exact H4].
Qed.

(* the whole scan *)
Definition state (P : p2 -> Prop) (st : list p2) : Prop :=
  exists t r, st = t :: r /\ (forall s, In s st -> P s) /\ (forall v, P v -> ang_le o v t) /\
  ((good st /\ forall v, P v -> left_of v st) \/ (st = [o; o] /\ forall v, P v -> v = o)).
Lemma scan_step (Q P : p2 -> Prop) p st : exact2 Q -> Q p -> (forall v, P v -> Q v) -> P o -> (forall v, P v -> ang_le o v p) -> state P st -> state (fun v => P v \/ v = p) (p :: pop_right p st).
Proof.
  intros EX Qp PQ Po A [t [r [-> [Ps [Tm H]]]]].
  assert (Top : forall v, P v \/ v = p -> ang_le o v p) by (intros v [Hv| ->]; [apply A, Hv|apply ang_refl]).
  destruct (p2_dec p o) as [->|N].
  - assert (AO : forall v, P v -> v = o) by (intros v Hv; apply ang_null, A, Hv).
    assert (pop_right o (t :: r) = [o]) as ->.
    { assert (t = o) as -> by (apply AO, Ps; left; reflexivity). destruct H as [[G _]|[K _]].
      - destruct r as [|u l]; [reflexivity|]. exfalso. apply (good_top _ _ _ G). reflexivity.
      - injection K as ->. cbn [pop_right]. destruct (orientation o o o =? 2)%nat eqn:E; [|reflexivity]. apply Nat.eqb_eq in E. apply EX in E; try (apply PQ, Po). assert (orient o o o = 0) by (unfold orient; ring). qlra. }
    exists o, [o]. split; [reflexivity|]. split; [intros s [<-|[<-|[]]]; right; reflexivity|]. split; [exact Top|]. right. split; [reflexivity|]. intros v [Hv|Hv]; [apply AO, Hv|exact Hv].
  - destruct H as [[G Lf]|[K AO]].
    + destruct (pop_ok Q P p t r EX Qp) as [t' [st' [H1 [H2 [H3 H4]]]]]; auto.
      { left. exact Tm. }
      rewrite H1. exists p, (t' :: st'). split; [reflexivity|]. split; [intros s [<-|I]; [right; reflexivity|left; apply Ps, H3, I]|]. split; [exact Top|]. left. split; assumption.
    + injection K as -> ->. assert (pop_right p [o; o] = [o]) as ->.
      { cbn [pop_right]. destruct (orientation o o p =? 2)%nat eqn:E; [|reflexivity]. apply Nat.eqb_eq in E. apply EX in E; try (apply PQ, Po); [|exact Qp]. assert (orient o o p = 0) by (unfold orient; ring). qlra. }
      exists p, [o]. split; [reflexivity|]. split; [intros s [<-|[<-|[]]]; [right; reflexivity|left; exact Po]|]. split; [exact Top|]. left. split; [apply good2, N|].
      intros v [Hv| ->]; cbn [left_of]; (split; [|trivial]); [rewrite (AO v Hv); assert (orient o p o = 0) as -> by (unfold orient; ring); apply Qcle_refl|assert (orient o p p = 0) as -> by (unfold orient; ring); apply Qcle_refl].
Qed.
Lemma state_ext (P P' : p2 -> Prop) st : (forall v, P v <-> P' v) -> state P st -> state P' st.
Proof.
  intros E [t [r [H1 [H2 [H3 H4]]]]]. exists t, r. split; [exact H1|]. split; [intros s I; apply E, H2, I|]. split; [intros v Hv; apply H3, E, Hv|]. destruct H4 as [[G L]|[K L]]; [left|right]; (split; [assumption|]); intros v Hv; apply L, E, Hv.
Qed.
Lemma graham_ok (Q : p2 -> Prop) l : forall (P : p2 -> Prop) st, exact2 Q -> (forall v, In v l -> Q v) -> (forall v, P v -> Q v) -> P o -> (forall v p, P v -> In p l -> ang_le o v p) -> StronglySorted (ang_le o) l ->
  state P st -> state (fun v => P v \/ In v l) (graham st l).
Proof.
  induction l as [|p l IH]; intros P st EX Ql PQ Po A S H.
  - cbn [graham fold_left]. eapply state_ext; [|exact H]. intros v. cbn [In]. tauto.
  - unfold graham. cbn [fold_left]. fold (graham (p :: pop_right p st) l). inversion_clear S as [|? ? S' F]. rewrite Forall_forall in F.
    pose proof (scan_step Q P p st EX (Ql p (or_introl eq_refl)) PQ Po (fun v Hv => A v p Hv (or_introl eq_refl)) H) as H1.
    eapply state_ext; [|apply (IH (fun v => P v \/ v = p) (p :: pop_right p st) EX)].
    + intros v. cbn [In]. intuition.
    + intros v I. apply Ql. right. exact I.
    + intros v [Hv| ->]; [apply PQ, Hv|apply Ql; left; reflexivity].
    + left. exact Po.
    + intros v q [Hv| ->] I; [apply A; [exact Hv|right; exact I]|apply F, I].
    + exact S'.
    + exact H1.
Qed.

(* reading the stack from the bottom *)
Lemma steps_snoc l a b : steps (l ++ [a; b]) = steps (l ++ [a]) ++ [(a, b)].
Proof.
  induction l as [|x l IH]; [reflexivity|]. destruct l as [|y l]; [reflexivity|]. cbn [app] in *. change (steps (x :: y :: l ++ [a; b])) with ((x, y) :: steps (y :: l ++ [a; b])). rewrite IH. reflexivity.
Qed.
Lemma threes_snoc l a b c : threes (l ++ [a; b; c]) = threes (l ++ [a; b]) ++ [(a, b, c)].
Proof.
  induction l as [|x l IH]; [reflexivity|]. destruct l as [|y [|z l]]; [reflexivity|reflexivity|]. cbn [app] in *. change (threes (x :: y :: z :: l ++ [a; b; c])) with ((x, y, z) :: threes (y :: z :: l ++ [a; b; c])). rewrite IH. reflexivity.
Qed.
Lemma good_bottom st : good st -> exists r, rev st = o :: r.
Proof.
  induction 1 as [|t N|t u v l G IH T1 T2]; [exists []; reflexivity|exists [t]; reflexivity|]. destruct IH as [r E]. exists (r ++ [t]). change (rev (t :: u :: v :: l)) with (rev (u :: v :: l) ++ [t]). rewrite E. reflexivity.
Qed.
Lemma left_steps v st : left_of v st -> Forall (fun ab => 0 <= orient (fst ab) (snd ab) v) (steps (rev st)).
Proof.
  induction st as [|t [|u r] IH]; intros H; [constructor|constructor|]. destruct H as [H1 H2]. specialize (IH H2). change (rev (t :: u :: r)) with ((rev r ++ [u]) ++ [t]). rewrite <- app_assoc. cbn [app]. rewrite steps_snoc. apply Forall_app. split; [exact IH|]. constructor; [exact H1|constructor].
Qed.
Lemma good_threes st : good st -> Forall (fun abc => 0 < orient (fst (fst abc)) (snd (fst abc)) (snd abc)) (threes (rev st)).
Proof.
  induction 1 as [|t N|t u v l G IH T1 T2]; [constructor|constructor|]. change (rev (t :: u :: v :: l)) with (((rev l ++ [v]) ++ [u]) ++ [t]). rewrite <- !app_assoc. cbn [app]. rewrite threes_snoc. apply Forall_app. split; [|constructor; [exact T2|constructor]]. change (rev (u :: v :: l)) with ((rev l ++ [v]) ++ [u]) in IH. rewrite <- app_assoc in IH. exact IH.
Qed.
Lemma steps_closed l a : l <> [] -> hd a l = a -> outline l = steps (l ++ [a]).
Proof. destruct l as [|x l]; [congruence|]. cbn [hd]. intros _ ->. rewrite <- outline_edges, edges_steps. reflexivity. Qed.
(* the second vertex comes first in angle *)
Lemma good_first st : good st -> (forall s, In s st -> upper o s) -> forall t u v l, st = t :: u :: v :: l -> exists s1 r, rev st = o :: s1 :: r /\ 0 < orient o s1 t.
Proof.
  induction 1 as [|t N|t u v l G IH T1 T2]; intros U t0 u0 v0 l0 E; [discriminate|discriminate|]. injection E as <- <- <- <-.
  destruct l as [|x l].
  - assert (v = o) as -> by (apply (good_two _ _ G)). exists u, [t]. split; [reflexivity|exact T1].
  - destruct (IH (fun s I => U s (or_intror I)) u v x l eq_refl) as [s1 [r [E H]]]. exists s1, (r ++ [t]). split; [change (rev (t :: u :: v :: x :: l)) with (rev (u :: v :: x :: l) ++ [t]); rewrite E; reflexivity|].
    assert (I1 : In s1 (u :: v :: x :: l)) by (apply in_rev; rewrite E; right; left; reflexivity).
    apply (strict_trans o s1 u t); [apply U; right; exact I1|apply U; right; left; reflexivity|apply U; left; reflexivity|exact H|exact T1].
Qed.
Lemma state_result (P : p2 -> Prop) st : P o -> (forall v, P v -> upper o v) -> state P st ->
  (forall s, In s (rev st) -> P s) /\ hd_error (rev st) = Some o /\
  (forall a b v, In (a, b) (outline (rev st)) -> P v -> 0 <= orient a b v) /\
  ((3 <= length st)%nat -> forall a b c, In (a, b, c) (corners (rev st)) -> 0 < orient a b c).
Proof.
  intros Po U [t [r [-> [Ps [Tm H]]]]]. split; [intros s I; apply Ps, in_rev, I|]. destruct H as [[G Lf]|[K AO]].
  - destruct (good_bottom _ G) as [r' E]. split; [rewrite E; reflexivity|]. split.
    + intros a b v I Hv. rewrite (steps_closed _ o) in I; [|rewrite E; congruence|rewrite E; reflexivity].
      cbn [rev] in I. rewrite <- app_assoc in I. cbn [app] in I. rewrite steps_snoc in I. apply in_app_iff in I. destruct I as [I|[I|[]]].
      * pose proof (left_steps v _ (Lf v Hv)) as F. rewrite Forall_forall in F. apply (F (a, b)). exact I.
      * injection I as <- <-. destruct (Tm v Hv) as [C _]. assert (orient t o v = orient o v t) as -> by (unfold orient; ring). exact C.
    + intros L a b c I. destruct r as [|u [|v l]]; [cbn in L; lia|cbn in L; lia|].
      destruct (good_first _ G (fun s J => U s (Ps s J)) t u v l eq_refl) as [s1 [r2 [E2 H]]].
      assert (C : corners (rev (t :: u :: v :: l)) = threes (rev (t :: u :: v :: l) ++ [o; s1])) by (rewrite E2; reflexivity). rewrite C in I.
      change (rev (t :: u :: v :: l)) with ((rev (v :: l) ++ [u]) ++ [t]) in I. rewrite <- !app_assoc in I. cbn [app] in I.
      assert (J : threes (rev (v :: l) ++ [u; t; o; s1]) = threes (rev (t :: u :: v :: l)) ++ [(u, t, o); (t, o, s1)]).
      { change (rev (v :: l) ++ [u; t; o; s1]) with (rev (v :: l) ++ ([u] ++ [t; o; s1])). rewrite app_assoc, threes_snoc, <- app_assoc. cbn [app]. rewrite threes_snoc, <- app_assoc. cbn [app]. f_equal. f_equal. change (rev (t :: u :: v :: l)) with ((rev (v :: l) ++ [u]) ++ [t]). rewrite <- app_assoc. reflexivity. }
      rewrite J in I. apply in_app_iff in I. destruct I as [I|[I|[I|[]]]].
      * pose proof (good_threes _ G) as F. rewrite Forall_forall in F. apply (F (a, b, c)). exact I.
      * injection I as <- <- <-. destruct (good_three _ _ _ _ G) as [G' [T1 T2]]. assert (orient u t o = orient o u t) as -> by (unfold orient; ring). exact T1.
      * injection I as <- <- <-. assert (orient t o s1 = orient o s1 t) as -> by (unfold orient; ring). exact H.
  - injection K as -> ->. split; [reflexivity|]. split; [|cbn; lia]. intros a b v I Hv. rewrite (AO v Hv). cbn in I. assert (orient o o o = 0) as Z by (unfold orient; ring). destruct I as [I|[I|[]]]; injection I as <- <-; rewrite Z; apply Qcle_refl.
Qed.
End Scan.

(* ---- the start point ---- *)
Lemma ll_trans a b c : lower_left a b -> lower_left b c -> lower_left a c.
Proof. unfold lower_left. intros [H|[H K]] [L|[L M]]; [left; qlra|left; qlra|left; qlra|right; split; [congruence|qlra]]. Qed.
Lemma ll_refl a : lower_left a a.
Proof. right. split; [reflexivity|apply Qcle_refl]. Qed.
Lemma eps_eq : eps9 = Q2Qc (1 # 1000000000). Proof. reflexivity. Qed.
Lemma fabs_zero : fabs 0 = 0. Proof. apply Qc_is_canon. vm_compute. reflexivity. Qed.
Lemma lowest_ok all l : coarse all -> (forall v, In v l -> In v all) -> forall i bi bp, In bp all -> 
  exists j q, lowest l i (bi, bp) = (j, q) /\ In q all /\ (forall v, In v l \/ v = bp -> lower_left q v) /\ ((j = bi /\ q = bp) \/ exists k, (j = i + k)%nat /\ nth_error l k = Some q).
Proof.
  intros C. induction l as [|p l IH]; intros Sub i bi bp Ib; cbn [lowest].
  - exists bi, bp. split; [reflexivity|]. split; [exact Ib|]. split; [intros v [[]| ->]; apply ll_refl|left; auto].
  - assert (Ip : In p all) by (apply Sub; left; reflexivity). assert (Sub' : forall v, In v l -> In v all) by (intros v I; apply Sub; right; exact I). cbn [snd]. unfold px, py.
    destruct (qlt (snd p) (snd bp) || (qlt (fabs (snd p - snd bp)) eps9 && qlt (fst p) (fst bp))) eqn:E.
    + destruct (IH Sub' (S i) i p Ip) as [j [q [E1 [I1 [L1 W]]]]]. exists j, q. split; [exact E1|]. split; [exact I1|].
      assert (LB : lower_left p bp). { apply orb_true_iff in E. destruct E as [E|E]; [left; apply qlt_true, E|]. apply andb_true_iff in E. destruct E as [E F]. apply qlt_true in E. apply qlt_true in F. destruct (proj1 C p bp Ip Ib) as [K|K]; [right; split; [exact K|qlra]|rewrite <- eps_eq in K; qlra]. }
      split; [intros v [[<-|I]| ->]; [apply L1; right; reflexivity|apply L1; left; exact I|eapply ll_trans; [apply L1; right; reflexivity|exact LB]]|].
      right. destruct W as [[-> ->]|[k [-> K]]]; [exists 0%nat; split; [lia|reflexivity]|exists (S k); split; [lia|exact K]].
    + destruct (IH Sub' (S i) bi bp Ib) as [j [q [E1 [I1 [L1 W]]]]]. exists j, q. split; [exact E1|]. split; [exact I1|].
      assert (LB : lower_left bp p). { apply orb_false_iff in E. destruct E as [E F]. apply qlt_false in E. destruct (Qc_eq_dec (snd bp) (snd p)) as [K|K].
        - right. split; [exact K|]. apply andb_false_iff in F. destruct F as [F|F]; [|apply qlt_false, F]. exfalso. apply qlt_false in F. rewrite K in F. assert (Zz : snd p - snd p = 0) by ring. rewrite Zz, fabs_zero in F. assert (0 < eps9) by (apply qlt_true; vm_compute; reflexivity). qlra.
        - left. destruct (Qclt_le_dec (snd bp) (snd p)) as [M|M]; [exact M|]. exfalso. apply K. qlra. }
      split; [intros v [[<-|I]| ->]; [eapply ll_trans; [apply L1; right; reflexivity|exact LB]|apply L1; left; exact I|apply L1; right; reflexivity]|].
      destruct W as [[-> ->]|[k [-> K]]]; [left; auto|right; exists (S k); split; [lia|exact K]].
Qed.
Lemma upd_perm {A} (l : list A) k a q : nth_error l k = Some q -> Permutation (q :: upd l k a) (a :: l).
Proof.
  revert k. induction l as [|x l IH]; intros [|k] E; try discriminate; cbn [nth_error] in E.
  - injection E as ->. cbn [upd]. apply perm_swap.
  - cbn [upd]. rewrite perm_swap, (IH _ E), perm_swap. reflexivity.
Qed.

Lemma orientation_exact all : coarse all -> exact2 (fun v => In v all).
Proof.
  intros [_ C] a b c Ia Ib Ic. unfold orientation, px, py. set (val := (snd b - snd a) * (fst c - fst b) - (fst b - fst a) * (snd c - snd b)). assert (V : val = - orient a b c) by (unfold val, orient; ring). rewrite V. clear V val. rewrite fabs_opp.
  destruct (C a b c Ia Ib Ic) as [Z|Z].
  - rewrite Z, fabs_zero. assert (qlt 0 eps9 = true) as -> by (vm_compute; reflexivity). split; [discriminate|intros K; exfalso; qlra].
  - rewrite <- eps_eq in Z. assert (qlt (fabs (orient a b c)) eps9 = false) as -> by (apply qlt_false; exact Z). destruct (qlt 0 (- orient a b c)) eqn:E; [apply qlt_true in E; split; [discriminate|intros K; exfalso; qlra]|apply qlt_false in E]. split; [intros _|reflexivity].
    destruct (Qclt_le_dec 0 (orient a b c)) as [K|K]; [exact K|]. exfalso. assert (O0 : orient a b c = 0) by qlra. rewrite O0, fabs_zero in Z. assert (0 < eps9) by (apply qlt_true; vm_compute; reflexivity). qlra.
Qed.

Lemma hull_ok points : (3 <= length points)%nat -> coarse points -> exists o r, convex_hull2d points = o :: r /\
  (forall v, In v points -> lower_left o v) /\
  (forall s, In s (convex_hull2d points) -> In s points) /\
  (forall a b v, In (a, b) (outline (convex_hull2d points)) -> In v points -> 0 <= orient a b v) /\
  ((3 <= length (convex_hull2d points))%nat -> forall a b c, In (a, b, c) (corners (convex_hull2d points)) -> 0 < orient a b c).
Proof.
  intros L C. destruct points as [|a [|b [|c rest]]]; try (cbn in L; lia). set (pts := a :: b :: c :: rest) in *.
  destruct (lowest_ok pts (tl pts) C) with (i := 1%nat) (bi := 0%nat) (bp := a) as [j [o [E [Io [LL W]]]]]; [intros v I; right; exact I|left; reflexivity|].
  assert (EH : convex_hull2d pts = rev (graham [o] (sort_pts o (tl (upd pts j a))))) by (unfold convex_hull2d; unfold pts at 1; fold pts; rewrite E; reflexivity). rewrite EH. clear EH.
  assert (LL' : forall v, In v pts -> lower_left o v) by (intros v [<-|I]; apply LL; auto).
  assert (P : Permutation (o :: tl (upd pts j a)) pts).
  { destruct W as [[-> ->]|[k [-> K]]].
    - reflexivity.
    - change (tl (upd pts (1 + k) a)) with (upd (tl pts) k a). apply (upd_perm (tl pts) k a o K). }
  set (others := tl (upd pts j a)) in *. 
  assert (U : Forall (upper o) others). { apply Forall_forall. intros v I. assert (J : In v pts) by (eapply Permutation_in; [exact P|right; exact I]). destruct (LL' v J) as [K|[K M]]; [left; exact K|right; split; [congruence|exact M]]. }
  destruct (sort_sorted o others U) as [S Pm].
  assert (St : state o (fun v => v = o \/ In v (sort_pts o others)) (graham [o] (sort_pts o others))).
  { apply (graham_ok o (fun v => In v pts) (sort_pts o others) (fun v => v = o) [o]); [apply orientation_exact, C|intros v I; eapply Permutation_in; [exact P|]; right; eapply Permutation_in; [apply Permutation_sym, Pm|exact I]|intros v ->; exact Io|reflexivity|intros v p -> _; apply ang_o|exact S|].
    exists o, []. split; [reflexivity|]. split; [intros s [<-|[]]; reflexivity|]. split; [intros v ->; apply ang_refl|]. left. split; [constructor|intros; exact I]. }
  assert (EQ : forall v, (v = o \/ In v (sort_pts o others)) <-> In v pts).
  { intros v. split.
    - intros [->|I]; [exact Io|]. eapply Permutation_in; [exact P|]. right. eapply Permutation_in; [apply Permutation_sym, Pm|exact I].
    - intros I. apply (Permutation_in _ (Permutation_sym P)) in I. destruct I as [<-|I]; [left; reflexivity|right; eapply Permutation_in; [exact Pm|exact I]]. }
  assert (UP : forall v, v = o \/ In v (sort_pts o others) -> upper o v).
  { intros v [->|I]; [right; split; [reflexivity|apply Qcle_refl]|]. rewrite Forall_forall in U. apply U. eapply Permutation_in; [apply Permutation_sym, Pm|exact I]. }
  destruct (state_result o _ _ (or_introl eq_refl) UP St) as [R1 [R2 [R3 R4]]].
  destruct (rev (graham [o] (sort_pts o others))) as [|o' r] eqn:ER; [discriminate|]. injection R2 as ->. exists o, r. split; [reflexivity|]. split; [exact LL'|]. split; [intros s I; apply EQ, R1, I|]. split; [intros x y v I J; apply (R3 x y v I), EQ, J|].
    intros Len. apply R4. rewrite <- rev_length, ER. exact Len.
Qed.

(* a small triangle loses a corner *)
Lemma hull_small d : eps9 <= d -> d * d < eps9 -> convex_hull2d [(0, 0); (d, 0); (0, d)] = [(0, 0); (0, d)].
Proof.
  intros D1 D2. assert (E0 : 0 < eps9) by (apply qlt_true; vm_compute; reflexivity). assert (D : 0 < d) by qlra.
  assert (Q0 : qlt 0 0 = false) by (vm_compute; reflexivity). assert (Z0 : 0 - 0 = 0) by ring. assert (Zd : d - 0 = d) by ring. assert (Q1 : qlt d 0 = false) by (apply qlt_false; qlra). assert (Q2 : qlt 0 d = true) by (apply qlt_true; exact D).
  assert (EH : lowest [(d, 0); (0, d)] 1 (0%nat, (0, 0)) = (0%nat, (0, 0))).
  { cbn [lowest snd]. unfold px, py. cbn [fst snd]. rewrite Q0, Q1, andb_false_r. cbn [orb snd fst]. rewrite Q0, Q1, andb_false_r. reflexivity. }
  change (convex_hull2d [(0, 0); (d, 0); (0, d)]) with (let '(ymin, p0) := lowest [(d, 0); (0, d)] 1 (0%nat, (0, 0)) in rev (graham [p0] (sort_pts p0 (tl (upd [(0, 0); (d, 0); (0, d)] ymin (0, 0)))))). rewrite EH. cbn [upd tl].
  assert (ES : sort_pts (0, 0) [(d, 0); (0, d)] = [(d, 0); (0, d)]).
  { cbn [sort_pts fold_right put_pt]. unfold before, vec, px, py. cbn [fst snd]. rewrite Zd, Z0. assert (angle_lt (0, d) (d, 0) = false) as -> by (unfold angle_lt, sector, px, py; cbn [fst snd]; rewrite ?Q0, ?Q1, ?Q2; reflexivity). assert (angle_lt (d, 0) (0, d) = true) as -> by (unfold angle_lt, sector, px, py; cbn [fst snd]; rewrite ?Q0, ?Q1, ?Q2; reflexivity). reflexivity. }
  rewrite ES. unfold graham. cbn [fold_left pop_right]. unfold orientation, px, py. cbn [fst snd]. assert ((0 - 0) * (0 - d) - (d - 0) * (d - 0) = - (d * d)) as -> by ring. rewrite fabs_opp.
  assert (0 < d * d) by (apply qc_mul_pos; assumption). assert (fabs (d * d) = d * d) as -> by (unfold fabs; destruct (qlt (d * d) 0) eqn:E; [apply qlt_true in E; qlra|reflexivity]).
  assert (qlt (d * d) eps9 = true) as -> by (apply qlt_true; exact D2). reflexivity.
Qed.
