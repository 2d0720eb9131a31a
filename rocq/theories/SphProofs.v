(* Separation on the sphere: lemmas. *)
From Coq Require Import List Arith ZArith Bool QArith Qcanon Lia Lra Permutation.
From Verif Require Import Common QcLib ListLib SortModel SortSpec SortProofs NcsModel NcsProofs MchModel MchProofs2 SphModel SphSpec.
Import ListNotations.
Local Open Scope Qc_scope.

(* --- hulls in the plane --- *)
Lemma sq_zero a b : a * a + b * b = 0 -> a = 0.
Proof. intros H. apply Qcle_antisym; qnra. Qed.

Lemma dot2_zero v : dot2 v v = 0 <-> v = (0, 0).
Proof.
  destruct v as [a b]. unfold dot2. cbn [fst snd]. split.
  - intros H. pose proof (sq_zero a b H). assert (b * b + a * a = 0) as H' by (rewrite <- H; ring). pose proof (sq_zero b a H'). congruence.
  - intros E. injection E as -> ->. ring.
Qed.

Lemma dot2_pos v : v <> (0, 0) -> 0 < dot2 v v.
Proof.
  intros H. assert (dot2 v v <> 0) as Z by (rewrite dot2_zero; exact H). destruct v as [a b]. unfold dot2 in *. cbn [fst snd] in *.
  destruct (Qclt_le_dec 0 (a * a + b * b)) as [L|L]; [exact L|]. exfalso. apply Z. apply Qcle_antisym; [exact L|qnra].
Qed.

Lemma pos_neq x : 0 < x -> x <> 0.
Proof. intros H E. rewrite E in H. now apply (Qclt_not_eq 0 0 H). Qed.

Lemma mult_cancel a b c : c <> 0 -> a * c = b * c -> a = b.
Proof. intros H E. transitivity (a * c / c); [field; exact H|]. rewrite E. field. exact H. Qed.

(* the coordinate along a unit side is a positive multiple of the linear form of the side *)
Lemma unit_coordinate n v : 0 < n -> v <> (0, 0) -> exists c, 0 < c /\ forall p, dot2 p (fst v / n, snd v / n) / dot2 (fst v / n, snd v / n) (fst v / n, snd v / n) = c * form2 v p.
Proof.
  intros Hn Hv. pose proof (dot2_pos v Hv) as Hd. exists (n / dot2 v v). split.
  - unfold Qcdiv. pose proof (qc_inv_pos (dot2 v v) Hd) as Hi. revert Hi Hn. generalize (/ dot2 v v) as i. intros. qnra.
  - intros p. pose proof (pos_neq _ Hn) as N. pose proof (pos_neq _ Hd) as D. destruct v as [a b], p as [x y]. unfold dot2, form2 in *. cbn [fst snd] in *.
    replace (a / n * (a / n) + b / n * (b / n)) with ((a * a + b * b) / (n * n)) by (field; exact N). field. split; [exact D|exact N].
Qed.

Lemma range_list (k : Qc * Qc -> Qc) h : h <> [] -> exists x r, map k h = x :: r /\
  (exists p, In p h /\ k p = least_of x r) /\ (exists p, In p h /\ k p = greatest_of x r) /\ forall p, In p h -> least_of x r <= k p /\ k p <= greatest_of x r.
Proof.
  intros Hh. destruct (map k h) as [|x r] eqn:M; [destruct h; [congruence|discriminate]|]. exists x, r. split; [reflexivity|].
  destruct (least_of_ok r x) as [A1 A2], (greatest_of_ok r x) as [B1 B2]. rewrite <- M in *. rewrite Forall_forall in A2, B2.
  apply in_map_iff in A1 as (p & P1 & P2). apply in_map_iff in B1 as (q & Q1 & Q2).
  split; [exists p; auto|]. split; [exists q; auto|]. intros z Hz. split; [apply A2|apply B2]; now apply in_map.
Qed.

Lemma side_separates_iff n v h1 h2 : 0 < n -> v <> (0, 0) -> h1 <> [] -> h2 <> [] ->
  side_separates h1 h2 (Some (fst v / n, snd v / n)) = true <-> weakly_apart v h1 h2.
Proof.
  intros Hn Hv H1 H2. destruct (unit_coordinate n v Hn Hv) as (c & Hc & Hk). unfold side_separates, shadow.
  set (u := (fst v / n, snd v / n)) in *. destruct (range_list (fun p => dot2 p u / dot2 u u) h1 H1) as (x1 & r1 & -> & (p1 & P1 & P1') & (q1 & Q1 & Q1') & R1).
  destruct (range_list (fun p => dot2 p u / dot2 u u) h2 H2) as (x2 & r2 & -> & (p2 & P2 & P2') & (q2 & Q2 & Q2') & R2).
  cbv beta in *. rewrite Hk in P1', Q1', P2', Q2'. rewrite negb_true_iff, andb_false_iff, !qlt_false. unfold weakly_apart. split.
  - intros [H|H].
    + right. intros p q Hp Hq. destruct (R1 p Hp) as [A _], (R2 q Hq) as [_ B]. rewrite Hk in A, B.
      apply (Qcmult_lt_0_le_reg_r _ _ c Hc). rewrite !(Qcmult_comm _ c). qlra.
    + left. intros p q Hp Hq. destruct (R1 p Hp) as [_ A], (R2 q Hq) as [B _]. rewrite Hk in A, B.
      apply (Qcmult_lt_0_le_reg_r _ _ c Hc). rewrite !(Qcmult_comm _ c). qlra.
  - intros [H|H].
    + right. rewrite <- Q1', <- P2'. specialize (H q1 p2 Q1 P2). revert H Hc. generalize (form2 v q1) (form2 v p2). intros. qnra.
    + left. rewrite <- P1', <- Q2'. specialize (H p1 q2 P1 Q2). revert H Hc. generalize (form2 v q2) (form2 v p1). intros. qnra.
Qed.

Lemma hull_edges_in h d : In d (hull_edges h) <-> exists a b, neighbours h a b /\ d = (fst a - fst b, snd a - snd b).
Proof.
  unfold hull_edges. rewrite in_map_iff. split.
  - intros (i & <- & H). apply in_seq in H. exists (nth i h (0, 0)), (nth ((i + 1) mod length h)%nat h (0, 0)). split; [exists i; repeat split; lia|reflexivity].
  - intros (a & b & (i & Hi & -> & ->) & ->). exists i. split; [reflexivity|]. apply in_seq. lia.
Qed.

Lemma hull_sides_in h d : In d (hull_sides h) <-> side_direction h d.
Proof.
  unfold hull_sides, side_direction. rewrite in_app_iff, in_map_iff. split.
  - intros [H|(v & <- & H)]; apply hull_edges_in in H as (a & b & N & ->); exists a, b; cbn [fst snd]; auto.
  - intros (a & b & N & [->| ->]); [left|right].
    + apply hull_edges_in. eauto.
    + exists (fst a - fst b, snd a - snd b). split; [reflexivity|]. apply hull_edges_in. eauto.
Qed.

Lemma side_nonzero h d : no_repeats h -> side_direction h d -> d <> (0, 0).
Proof.
  intros H (a & b & N & Hd) E. apply (H a b N). destruct a as [a1 a2], b as [b1 b2]. cbn [fst snd] in *.
  destruct Hd as [Hd|Hd]; rewrite E in Hd; pose proof (f_equal fst Hd) as E1; pose proof (f_equal snd Hd) as E2; cbn [fst snd] in E1, E2;
    (assert (a1 = b1 /\ a2 = b2) as [-> ->]; [split; apply Qcle_antisym; qlra|reflexivity]).
Qed.

Lemma hulls_separable_iff norm h1 h2 : (forall v, v <> (0, 0) -> 0 < norm v) -> h1 <> [] -> h2 <> [] -> no_repeats h1 -> no_repeats h2 ->
  exists b, hulls_separable norm h1 h2 = Ok b /\ (b = true <-> exists d, (side_direction h1 d \/ side_direction h2 d) /\ weakly_apart d h1 h2).
Proof.
  intros Hn H1 H2 N1 N2. unfold hulls_separable.
  assert (E : match h1, h2 with _ :: _, _ :: _ => Ok (existsb (side_separates h1 h2) (map (unit2 norm) (hull_sides h1 ++ hull_sides h2))) | _, _ => Err ValueError end
    = Ok (existsb (side_separates h1 h2) (map (unit2 norm) (hull_sides h1 ++ hull_sides h2)))) by (destruct h1, h2; congruence || reflexivity).
  rewrite E. eexists. split; [reflexivity|]. rewrite existsb_exists. split.
  - intros (o & Ho & S). apply in_map_iff in Ho as (v & <- & Hv). apply in_app_iff in Hv. rewrite !hull_sides_in in Hv.
    assert (v <> (0, 0)) as Z by (destruct Hv as [Hv|Hv]; [exact (side_nonzero h1 v N1 Hv)|exact (side_nonzero h2 v N2 Hv)]).
    exists v. split; [exact Hv|]. unfold unit2 in S. replace (qeq (dot2 v v) 0) with false in S by (symmetry; apply qeq_false; rewrite dot2_zero; exact Z).
    apply side_separates_iff in S; auto.
  - intros (v & Hv & S). assert (v <> (0, 0)) as Z by (destruct Hv as [Hv|Hv]; [exact (side_nonzero h1 v N1 Hv)|exact (side_nonzero h2 v N2 Hv)]).
    exists (unit2 norm v). split; [apply in_map; apply in_app_iff; now rewrite !hull_sides_in|].
    unfold unit2. replace (qeq (dot2 v v) 0) with false by (symmetry; apply qeq_false; rewrite dot2_zero; exact Z). apply side_separates_iff; auto.
Qed.

Lemma repeated_vertex norm h1 h2 a : h1 <> [] -> h2 <> [] -> neighbours h1 a a \/ neighbours h2 a a -> hulls_separable norm h1 h2 = Ok true.
Proof.
  intros H1 H2 N. unfold hulls_separable.
  assert (existsb (side_separates h1 h2) (map (unit2 norm) (hull_sides h1 ++ hull_sides h2)) = true) as ->; [|destruct h1, h2; congruence || reflexivity].
  apply existsb_exists. exists None. split; [|reflexivity]. apply in_map_iff. exists (0, 0). split; [reflexivity|]. apply in_app_iff. rewrite !hull_sides_in.
  assert (forall h, neighbours h a a -> side_direction h (0, 0)) as W; [|destruct N as [N|N]; auto].
  intros h N'. exists a, a. split; [exact N'|]. left. f_equal; ring.
Qed.

(* --- wedges of angles --- *)
Lemma diffs_length l : length (diffs l) = (length l - 1)%nat.
Proof. induction l as [|a [|b l] IH]; [reflexivity|reflexivity|]. change (diffs (a :: b :: l)) with ((b - a) :: diffs (b :: l)). cbn [length] in *. rewrite IH. lia. Qed.

Lemma diffs_nth l : forall i, (S i < length l)%nat -> nth i (diffs l) 0 = nth (S i) l 0 - nth i l 0.
Proof.
  induction l as [|a [|b l] IH]; intros i H; [cbn in H; lia|cbn in H; lia|].
  change (diffs (a :: b :: l)) with ((b - a) :: diffs (b :: l)). destruct i as [|i]; [reflexivity|]. cbn [nth]. apply (IH i). cbn [length] in *. lia.
Qed.

Lemma ascending_nth l : ascending l -> forall i j, (i <= j)%nat -> (j < length l)%nat -> nth i l 0 <= nth j l 0.
Proof.
  intros H. induction H as [|a l Hl IH Ha]; intros i j Hij Hj; [cbn in Hj; lia|]. rewrite Forall_forall in Ha.
  destruct i as [|i], j as [|j]; cbn [nth length] in *; [apply Qcle_refl| |lia|apply IH; lia]. apply Ha, nth_In. lia.
Qed.

Lemma wedge_ok two_pi angles : angles <> [] ->
  let s := qsort angles in
  exists g, wedge two_pi angles = Ok (nth g s 0, nth ((g + 1) mod length s)%nat s 0) /\ (g < length s)%nat /\
    (forall i, (S i < length s)%nat -> nth (S i) s 0 - nth i s 0 <= (if (S g =? length s)%nat then two_pi - nth g s 0 + nth 0 s 0 else nth (S g) s 0 - nth g s 0)) /\
    two_pi - nth (length s - 1) s 0 + nth 0 s 0 <= (if (S g =? length s)%nat then two_pi - nth g s 0 + nth 0 s 0 else nth (S g) s 0 - nth g s 0).
Proof.
  intros Ha s. assert (Hs : (0 < length s)%nat).
  { destruct (qsort_ok angles) as [P _]. unfold s. rewrite <- (Permutation_length P). destruct angles; [congruence|cbn; lia]. }
  unfold wedge. fold s. set (d := diffs s ++ [two_pi - last s 0 + hd 0 s]).
  assert (Hd : length d = length s) by (unfold d; rewrite app_length, diffs_length; cbn [length]; lia).
  assert (Hl : last s 0 = nth (length s - 1) s 0).
  { destruct s as [|x s'] using rev_ind; [cbn in Hs; lia|]. rewrite last_last, app_length. cbn [length]. rewrite app_nth2 by lia. replace (length s' + 1 - 1 - length s')%nat with 0%nat by lia. reflexivity. }
  assert (Hh : hd 0 s = nth 0 s 0) by (destruct s; reflexivity).
  assert (Hn : forall i, (i < length s)%nat -> nth i d 0 = if (S i =? length s)%nat then two_pi - nth i s 0 + nth 0 s 0 else nth (S i) s 0 - nth i s 0).
  { intros i Hi. unfold d. destruct (Nat.eqb_spec (S i) (length s)) as [E|E].
    - rewrite app_nth2 by (rewrite diffs_length; lia). rewrite diffs_length. replace (i - (length s - 1))%nat with 0%nat by lia. cbn [nth]. rewrite Hl, Hh. replace (length s - 1)%nat with i by lia. reflexivity.
    - rewrite app_nth1 by (rewrite diffs_length; lia). apply diffs_nth. lia. }
  destruct (argmin (map Qcopp d)) as [g|] eqn:G.
  - apply argmin_spec in G as (G1 & G2 & _). rewrite map_length in G1, G2. rewrite Hd in G1, G2. exists g. split; [destruct angles; [congruence|reflexivity]|]. split; [exact G1|].
    assert (M : forall i, (i < length s)%nat -> nth i d 0 <= nth g d 0).
    { intros i Hi. specialize (G2 i Hi). rewrite (nth_indep (map Qcopp d) 0 (- (0)) (n := g)) in G2 by (rewrite map_length; lia). rewrite map_nth in G2.
      rewrite (nth_indep (map Qcopp d) 0 (- (0))) in G2 by (rewrite map_length; lia). rewrite map_nth in G2. qlra. }
    split.
    + intros i Hi. rewrite <- (Hn g G1). specialize (M i ltac:(lia)). rewrite (Hn i ltac:(lia)) in M. destruct (Nat.eqb_spec (S i) (length s)); [lia|exact M].
    + rewrite <- (Hn g G1). specialize (M (length s - 1)%nat ltac:(lia)). rewrite (Hn (length s - 1)%nat ltac:(lia)) in M. destruct (Nat.eqb_spec (S (length s - 1)) (length s)); [exact M|lia].
  - exfalso. destruct d as [|x d']; [cbn in Hd; lia|]. cbn in G. discriminate.
Qed.

Lemma wedge_spec two_pi angles : angles <> [] -> exists st en, wedge two_pi angles = Ok (st, en) /\ In st angles /\ In en angles /\ exists gap,
  (forall a b, In a angles -> In b angles -> a < b -> (forall c, In c angles -> c <= a \/ b <= c) -> b - a <= gap) /\
  (forall a b, (forall c, In c angles -> a <= c /\ c <= b) -> two_pi - (b - a) <= gap) /\
  ((gap = two_pi - (st - en) /\ forall a, In a angles -> en <= a /\ a <= st) \/ (gap = en - st /\ st <= en /\ forall a, In a angles -> a <= st \/ en <= a)).
Proof.
  intros Ha. destruct (wedge_ok two_pi angles Ha) as (g & W & Hg & M1 & M2). set (s := qsort angles) in *.
  destruct (qsort_ok angles) as [P A]. fold s in P, A. pose proof (ascending_nth s A) as N.
  assert (I : forall a, In a angles -> exists i, (i < length s)%nat /\ nth i s 0 = a).
  { intros a H. apply (Permutation_in _ P) in H. apply In_nth with (d := 0) in H. exact H. }
  assert (J : forall i, (i < length s)%nat -> In (nth i s 0) angles).
  { intros i H. apply (Permutation_in _ (Permutation_sym P)). now apply nth_In. }
  eexists _, _. split; [exact W|]. split; [now apply J|]. split; [apply J; apply Nat.mod_upper_bound; lia|].
  eexists. split; [|split].
  - intros a b H1 H2 Hab Hc. destruct (I a H1) as (i & Hi & <-), (I b H2) as (j & Hj & <-).
    assert (L : (i < j)%nat).
    { destruct (Nat.le_gt_cases j i) as [L|L]; [|exact L]. exfalso. pose proof (N j i L Hi). now apply (Qclt_not_le _ _ Hab). }
    assert (K : forall k, (i + k <= j)%nat -> nth (i + k) s 0 = nth i s 0 \/ exists m, (S m < length s)%nat /\ nth m s 0 = nth i s 0 /\ nth (S m) s 0 <> nth i s 0).
    { induction k as [|k IH]; intros Hk; [left; now rewrite Nat.add_0_r|]. destruct (IH ltac:(lia)) as [IH'|IH']; [|right; exact IH'].
      destruct (Qc_eq_dec (nth (i + S k) s 0) (nth i s 0)) as [Q|Q]; [now left|]. right. exists (i + k)%nat. rewrite <- plus_n_Sm in *. split; [lia|]. split; assumption. }
    destruct (K (j - i)%nat ltac:(lia)) as [Q|(m & Hm & Q1 & Q2)].
    + exfalso. replace (i + (j - i))%nat with j in Q by lia. rewrite Q in Hab. now apply (Qclt_not_eq _ _ Hab).
    + pose proof (M1 m Hm) as D. rewrite Q1 in D. destruct (Hc _ (J (S m) Hm)) as [C|C].
      * exfalso. apply Q2. apply Qcle_antisym; [exact C|]. rewrite <- Q1. apply N; lia.
      * eapply Qcle_trans; [|exact D]. revert C. generalize (nth (S m) s 0) (nth i s 0) (nth j s 0). intros. qlra.
  - intros a b H. pose proof (H _ (J 0%nat ltac:(lia))) as [H1 _]. pose proof (H _ (J (length s - 1)%nat ltac:(lia))) as [_ H2].
    eapply Qcle_trans; [|exact M2]. revert H1 H2. generalize (nth 0 s 0) (nth (length s - 1) s 0). intros. qlra.
  - clear M1 M2. destruct (Nat.eqb_spec (S g) (length s)) as [E|E].
    + left. replace ((g + 1) mod length s)%nat with 0%nat by (replace (g + 1)%nat with (length s) by lia; symmetry; apply Nat.mod_same; lia).
      split; [ring|]. intros a H. destruct (I a H) as (i & Hi & <-). split; apply N; lia.
    + right. replace ((g + 1) mod length s)%nat with (S g) by (rewrite Nat.mod_small; lia). split; [reflexivity|]. split; [apply N; lia|].
      intros a H. destruct (I a H) as (i & Hi & <-). destruct (Nat.le_gt_cases i g); [left|right]; apply N; lia.
Qed.
