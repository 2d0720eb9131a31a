(* Decomposition of a surface into Bezier patches. *)
From Coq Require Import List ZArith Lia Bool QArith Qcanon Permutation Sorted.
From Verif Require Import Common ListLib QcLib ArrZ SplineTheory SplineTheory2 NurbsModel NurbsSpec NurbsProofs NurbsProofs2 NurbsProofs3 NurbsEditModel NurbsEditSpec NurbsInsert NurbsEditProofs NurbsEditProofs2 NurbsSplit SurfModel SurfSpec SurfProofs1 SurfProofs2 SurfProofs3 SurfProofs4.
Import ListNotations.
Local Open Scope Z_scope.
Local Open Scope Qc_scope.

(* ---- sorted(set(...)) -------------------------------------------------------- *)
Lemma insert_sorted_In x y l : In y (insert_sorted x l) <-> y = x \/ In y l.
Proof.
  induction l as [|z l IH]; cbn [insert_sorted].
  - simpl. intuition.
  - destruct (qlt x z); [simpl; intuition|]. destruct (qeq x z) eqn:E.
    + apply qeq_true in E. subst. simpl. intuition.
    + simpl. rewrite IH. intuition.
Qed.
Lemma sorted_set_In y l : In y (sorted_set l) <-> In y l.
Proof. induction l as [|x l IH]; [simpl; tauto|]. cbn [sorted_set fold_right]. rewrite insert_sorted_In. fold (sorted_set l). rewrite IH. simpl. intuition. Qed.
Lemma insert_sorted_sorted x l : StronglySorted Qclt l -> StronglySorted Qclt (insert_sorted x l).
Proof.
  induction l as [|z l IH]; cbn [insert_sorted]; intro S; [constructor; auto|].
  inversion S as [|? ? Sl F]; subst. destruct (qlt x z) eqn:E1.
  - apply qlt_true in E1. constructor; auto. constructor; auto. rewrite Forall_forall in *. intros y Hy. specialize (F y Hy). qlra.
  - apply qlt_false in E1. destruct (qeq x z) eqn:E2; auto. apply qeq_false in E2. constructor; auto.
    rewrite Forall_forall in *. intros y Hy. apply insert_sorted_In in Hy. destruct Hy as [->|Hy]; auto.
    apply Qcnot_le_lt. intro C. apply E2. apply Qcle_antisym; auto.
Qed.
Lemma sorted_set_sorted l : StronglySorted Qclt (sorted_set l).
Proof. induction l as [|x l IH]; [constructor|]. apply insert_sorted_sorted; auto. Qed.

Lemma sorted_set_head t m l : (forall x, In x l -> t < x) -> sorted_set (repeat t (S m) ++ l) = t :: sorted_set l.
Proof.
  intro H. assert (H' : forall x, In x (sorted_set l) -> t < x) by (intros x Hx; apply H; now apply sorted_set_In).
  induction m as [|m IH].
  - cbn [repeat app]. cbn [sorted_set fold_right]. fold (sorted_set l). destruct (sorted_set l) as [|z r]; [reflexivity|].
    cbn [insert_sorted]. assert (E : qlt t z = true) by (apply qlt_true; apply H'; left; auto). now rewrite E.
  - change (repeat t (S (S m)) ++ l) with (t :: (repeat t (S m) ++ l)). cbn [sorted_set fold_right]. fold (sorted_set (repeat t (S m) ++ l)).
    rewrite IH. cbn [insert_sorted]. assert (E : qlt t t = false) by (apply qlt_false; apply Qcle_refl). rewrite E.
    assert (E' : qeq t t = true) by (apply qeq_true; auto). now rewrite E'.
Qed.

(* the leading run of a sorted list *)
Lemma leading_run l : StronglySorted Qcle l -> l = [] \/
  exists t m r, l = repeat t (S m) ++ r /\ (forall x, In x r -> t < x) /\ StronglySorted Qcle r.
Proof.
  induction l as [|t l IH]; intro So; [left; auto|]. right. inversion So as [|? ? Sl F]; subst.
  destruct (IH Sl) as [->|[t' [m [r [-> [H Sr]]]]]].
  - exists t, O, []. split; auto. split; [intros x []|constructor].
  - rewrite Forall_forall in F. destruct (Qc_eq_dec t t') as [->|Ne].
    + exists t', (S m), r. auto.
    + assert (t < t'). { apply Qcnot_le_lt. intro C. apply Ne. apply Qcle_antisym; auto. apply F. left; auto. }
      exists t, O, (repeat t' (S m) ++ r). split; auto. split; auto.
      intros x Hx. apply in_app_iff in Hx. destruct Hx as [Hx|Hx]; [apply repeat_spec in Hx; subst; auto|]. specialize (H x Hx). qlra.
Qed.

(* ---- the shape of a knot vector that is being decomposed ------------------------- *)
Definition framed (p : Z) (a : Qc) (M : list Qc) (b : Qc) : list Qc :=
  repeat a (Z.to_nat (p + 1)) ++ M ++ repeat b (Z.to_nat (p + 1)).

Lemma lenZ_framed p a M b : (0 <= p)%Z -> lenZ (framed p a M b) = (2 * p + 2 + lenZ M)%Z.
Proof. intro H. unfold framed. rewrite !lenZ_app, !lenZ_repeat by lia. lia. Qed.
Lemma framed_lo p a M b i : (0 <= i <= p)%Z -> knot (framed p a M b) i = a.
Proof. intro H. unfold framed, knot. rewrite atZ_app1 by (rewrite lenZ_repeat; lia). apply atZ_repeat_in. lia. Qed.
Lemma framed_mid p a M b i : (0 <= p)%Z -> (0 <= i < lenZ M)%Z -> knot (framed p a M b) (p + 1 + i) = atZ 0 M i.
Proof.
  intros Hp H. unfold framed, knot. rewrite atZ_app2 by (rewrite lenZ_repeat; lia). rewrite lenZ_repeat by lia.
  rewrite atZ_app1 by lia. f_equal. lia.
Qed.
Lemma framed_hi p a M b i : (0 <= p)%Z -> (p + 1 + lenZ M <= i <= 2 * p + 1 + lenZ M)%Z -> knot (framed p a M b) i = b.
Proof.
  intros Hp H. assert (0 <= lenZ M)%Z by (unfold lenZ; lia). unfold framed, knot. rewrite atZ_app2 by (rewrite lenZ_repeat; lia). rewrite lenZ_repeat by lia.
  rewrite atZ_app2 by lia. apply atZ_repeat_in. lia.
Qed.
Lemma framed_inner p a M b : (0 <= p)%Z -> inner_slice (framed p a M b) p = M.
Proof.
  intro Hp. unfold inner_slice, framed. rewrite skipn_app, repeat_length, Nat.sub_diag.
  rewrite (skipn_all2 (repeat a (Z.to_nat (p + 1)))) by (rewrite repeat_length; lia). cbn [app skipn].
  rewrite !app_length, !repeat_length. replace (Z.to_nat (p + 1) + (length M + Z.to_nat (p + 1)) - 2 * Z.to_nat (p + 1))%nat with (length M) by lia.
  rewrite firstn_app, Nat.sub_diag, firstn_all. cbn [firstn]. apply app_nil_r.
Qed.
Lemma framed_mult p a M b t : a < t -> t < b -> multiplicity (framed p a M b) t = Z.of_nat (count_occ Qc_eq_dec M t).
Proof.
  intros H1 H2. unfold multiplicity, framed. rewrite !count_occ_app.
  assert (R : forall c k, c <> t -> count_occ Qc_eq_dec (repeat c k) t = 0%nat).
  { intros c k Hc. apply count_occ_not_In. intro X. apply repeat_spec in X. auto. }
  rewrite !R; [f_equal; lia| |]; intro X; subst; qlra.
Qed.
Lemma framed_In p a M b x : In x (framed p a M b) -> x = a \/ In x M \/ x = b.
Proof.
  unfold framed. rewrite !in_app_iff. intros [H|[H|H]]; auto; apply repeat_spec in H; auto.
Qed.

Definition spaced_in (a b : Qc) (M : list Qc) : Prop := spaced (a :: M ++ [b]).

Lemma spaced_separated U V t : spaced V -> In t V -> (forall x, In x U -> In x V) -> separated t U.
Proof.
  intros S Ht Sub x Hx. destruct (Qc_eq_dec x t) as [->|Ne]; [left; auto|right].
  destruct (Qclt_le_dec x t) as [L|L].
  - destruct (S x t) as [_ [A _]]; auto. apply Qclt_le_trans with (t - x); auto. unfold qabs. destruct (qlt (t - x) 0) eqn:E.
    + apply qlt_true in E. qlra.
    + apply Qcle_refl.
  - assert (L' : t < x). { apply Qcnot_le_lt. intro C. apply Ne. apply Qcle_antisym; auto. }
    destruct (S t x) as [_ [_ A]]; auto. unfold qabs. destruct (qlt (t - x) 0) eqn:E.
    + qlra.
    + apply qlt_false in E. qlra.
Qed.

(* the first inner knot: the cut is just after the p+1 copies of a *)
Lemma framed_cut p a t m r b span : (0 <= p)%Z -> a < t ->
  let M := repeat t (S m) ++ r in let U := framed p a M b in
  mult_at U t span (multiplicity U t) -> (p <= span - multiplicity U t <= p + lenZ M)%Z ->
  (forall x, In x r -> t < x) -> t < b -> (multiplicity U t = Z.of_nat (S m))%Z /\ (span - multiplicity U t = p)%Z.
Proof.
  intros Hp Ha M U [A [B [C D]]] Hd Hr Hb.
  assert (LM : lenZ M = (Z.of_nat (S m) + lenZ r)%Z) by (unfold M; rewrite lenZ_app, lenZ_repeat; lia).
  assert (T : forall i, (p + 1 <= i <= p + lenZ M)%Z -> t <= knot U i).
  { intros i Hi. replace i with (p + 1 + (i - p - 1))%Z by lia. unfold U. rewrite framed_mid by lia. unfold M.
    destruct (Z_lt_dec (i - p - 1) (Z.of_nat (S m))).
    - rewrite atZ_app1 by (rewrite lenZ_repeat; lia). rewrite atZ_repeat_in by lia. apply Qcle_refl.
    - rewrite atZ_app2 by (rewrite lenZ_repeat; lia). rewrite lenZ_repeat by lia. apply Qclt_le_weak, Hr. unfold atZ. apply nth_In. unfold lenZ in *. lia. }
  split.
  - unfold U. rewrite framed_mult by auto. unfold M. rewrite count_occ_app. f_equal.
    assert (E : count_occ Qc_eq_dec r t = 0%nat) by (apply count_occ_not_In; intro X; apply Hr in X; qlra).
    rewrite E. assert (Q : forall k, count_occ Qc_eq_dec (repeat t k) t = k).
    { induction k; cbn [repeat count_occ]; auto. destruct (Qc_eq_dec t t); [|congruence]. now rewrite IHk. }
    rewrite Q. lia.
  - destruct (Z_le_dec (span - multiplicity U t) p); [lia|]. exfalso.
    assert (t <= knot U (span - multiplicity U t)) by (apply T; lia).
    assert (knot U (span - multiplicity U t) < t) by (apply C; lia). qlra.
Qed.
Lemma framed_first p a M b t : (0 <= p)%Z -> firstn (Z.to_nat (p + 1)) (framed p a M b) ++ repeat t (Z.to_nat (p + 1)) = framed p a [] t.
Proof.
  intro Hp. unfold framed. rewrite firstn_app, repeat_length, Nat.sub_diag. cbn [firstn]. rewrite app_nil_r.
  rewrite firstn_all2 by (rewrite repeat_length; lia). reflexivity.
Qed.
Lemma framed_second p a t m r b : (0 <= p)%Z ->
  repeat t (Z.to_nat (p + 1)) ++ skipn (Z.to_nat (p + 1 + Z.of_nat (S m))) (framed p a (repeat t (S m) ++ r) b) = framed p t r b.
Proof.
  intro Hp. unfold framed. f_equal. rewrite skipn_app, repeat_length.
  rewrite skipn_all2 by (rewrite repeat_length; lia). cbn [app].
  rewrite <- app_assoc, skipn_app, repeat_length. rewrite skipn_all2 by (rewrite repeat_length; lia).
  replace (Z.to_nat (p + 1 + Z.of_nat (S m)) - Z.to_nat (p + 1) - S m)%nat with 0%nat by lia. reflexivity.
Qed.

(* ---- the loop, direction u ------------------------------------------------------------ *)
Definition good (s : surface) : Prop := valid_surface s /\ interval_current s.
Definition same_v (s q : surface) : Prop :=
  s_du q = s_du s /\ s_dv q = s_dv s /\ s_kv q = s_kv s /\ s_nv q = s_nv s /\ snd (s_int q) = snd (s_int s).
Definition same_u (s q : surface) : Prop :=
  s_du q = s_du s /\ s_dv q = s_dv s /\ s_ku q = s_ku s /\ s_nu q = s_nu s /\ fst (s_int q) = fst (s_int s).

Lemma framed_count s p a M b : valid_knots p (s - 1) (framed p a M b) -> (s = p + 1 + lenZ M)%Z.
Proof. intros [Hp [L _]]. rewrite lenZ_framed in L by lia. lia. Qed.

Lemma good_int s : good s -> s_int s = ((knot (s_ku s) 0, knot (s_ku s) (s_nu s + s_du s)), (knot (s_kv s) 0, knot (s_kv s) (s_nv s + s_dv s))).
Proof. intros [V I]. now apply interval_current_eq. Qed.

Lemma spaced_sub l l' : spaced l -> (forall x, In x l' -> In x l) -> spaced l'.
Proof. intros S H x y Hx Hy L. apply S; auto. Qed.

Lemma decompose_loop_u : forall ts s M a b k junk, good s -> (1 <= s_du s)%Z -> s_ku s = framed (s_du s) a M b -> a < b ->
  (forall x, In x M -> a < x < b) -> StronglySorted Qcle M -> sorted_set M = ts ->
  spaced_in a b M -> (forall t, (Z.of_nat (count_occ Qc_eq_dec M t) <= s_du s)%Z) ->
  exists l, decompose_loop true s ts k junk = Ok l /\ covers s l /\
    (forall q, In q l -> good q /\ same_v s q /\ bezier_u q) /\
    map (fun q => fst (s_int q)) l = consecutive (a :: ts ++ [b]).
Proof.
  induction ts as [|t ts IH]; intros s M a b k junk G Hp EK Hab HM SM ES SP MU.
  - assert (M = []). { destruct M as [|x M]; auto. exfalso. assert (X : In x (sorted_set (x :: M))) by (apply sorted_set_In; left; auto). rewrite ES in X. destruct X. }
    subst M. exists [s]. split; [reflexivity|]. split; [|split].
    + split. { intros q u v [<-|[]] D. auto. } intros u v D. exists s. split; [left; auto|auto].
    + intros q [<-|[]]. split; auto. split; [repeat split|]. exists a, b. split; auto.
    + pose proof (good_int s G) as EI. destruct G as [[_ [VU _]] _]. rewrite EK in VU. pose proof (framed_count _ _ _ _ _ VU) as N.
      cbn [map]. rewrite EI. cbn [fst]. rewrite EK. rewrite framed_lo by lia. rewrite framed_hi by (unfold lenZ in *; simpl length in *; lia). reflexivity.
  - destruct (leading_run M SM) as [->|[t' [m [r [EM [Hr Sr]]]]]]; [discriminate ES|].
    assert (X : sorted_set M = t' :: sorted_set r) by (rewrite EM; now apply sorted_set_head). rewrite ES in X. injection X as <- Ets.
    assert (Ht : In t M) by (rewrite EM; left; auto). destruct (HM t Ht) as [Ha Hb].
    pose proof G as [V I]. pose proof V as [Sh [VU VV]]. pose proof VU as [Hpn _]. rewrite EK in VU. pose proof (framed_count _ _ _ _ _ VU) as N.
    assert (LM : (0 < lenZ M)%Z) by (rewrite EM; unfold lenZ; rewrite app_length; simpl length; lia).
    assert (IV : forall x, In x (framed (s_du s) a M b) -> In x (a :: M ++ [b])).
    { intros x Hx. apply framed_In in Hx. destruct Hx as [->|[Hx| ->]]; [left; auto|right; apply in_app_iff; auto|right; apply in_app_iff; right; left; auto]. }
    assert (tol0 : 0 <= split_tol) by (apply qle_true; vm_compute; reflexivity).
    assert (Etol : split_tol = Q2Qc (1 # 10000000)) by (apply Qc_is_canon; vm_compute; reflexivity).
    destruct (SP a t) as [T1 _]; [left; auto|right; apply in_app_iff; auto|auto|].
    destruct (SP t b) as [T2 _]; [right; apply in_app_iff; auto|right; apply in_app_iff; right; left; auto|auto|].
    rewrite <- Etol in T1, T2.
    destruct (split_u_raw s t split_tol (junk k)) as [s1 [s2 [span [E [C [I1 [I2 [MA [Hd [K1 K2]]]]]]]]]]; auto.
    { rewrite EK, framed_lo by lia. qlra. }
    { rewrite EK, framed_hi by lia. qlra. }
    { rewrite EK, framed_lo by lia. auto. }
    { rewrite EK, framed_hi by lia. auto. }
    { rewrite EK. apply (spaced_separated _ (a :: M ++ [b])); auto. right; apply in_app_iff; auto. }
    { rewrite EK, framed_mult; auto. }
    rewrite EK, EM in MA, Hd, K1, K2. destruct (framed_cut (s_du s) a t m r b span) as [Q1 Q2]; auto; try lia.
    { rewrite <- EM. rewrite <- EM in Hd. lia. }
    rewrite Q2 in K1. rewrite framed_first in K1 by lia.
    replace (span + 1)%Z with (s_du s + 1 + Z.of_nat (S m))%Z in K2 by (rewrite Q1 in Q2; lia). rewrite framed_second in K2 by lia.
    destruct C as [V1 [V2 [J1 [J2 [C1 [C2 [C3 [C4 [C5 [C6 [C7 [C8 [D1 [D2 [F1 F2]]]]]]]]]]]]]]].
    destruct (IH s2 r t b (S k) junk) as [l [El [[Cv1 Cv2] [Pl Il]]]]; auto.
    { split; auto. } { lia. } { rewrite C3. auto. }
    { intros x Hx. split; auto. apply HM. rewrite EM. apply in_app_iff; auto. }
    { apply (spaced_sub _ _ SP). intros x [<-|Hx]; [right; apply in_app_iff; auto|]. apply in_app_iff in Hx.
      right. apply in_app_iff. destruct Hx as [Hx|Hx]; [left; rewrite EM; apply in_app_iff; auto|right; auto]. }
    { intro x. specialize (MU x). rewrite EM, count_occ_app in MU. rewrite C3. lia. }
    exists (s1 :: l). split; [|split; [|split]].
    + cbn [decompose_loop]. rewrite E. cbn [bind]. rewrite El. reflexivity.
    + split.
      * intros q u v [<-|Hq] D.
        { split; [apply D1 in D; tauto|auto]. }
        { destruct (Cv1 q u v Hq D) as [Da Eq]. split; [apply D2 in Da; tauto|]. rewrite Eq. auto. }
      * intros u v D. destruct (Qclt_le_dec u t) as [L|L].
        { exists s1. split; [left; auto|]. apply D1. split; auto. now apply Qclt_le_weak. }
        { destruct (Cv2 u v) as [q [Hq Dq]]. { apply D2. auto. } exists q. split; [right; auto|auto]. }
    + intros q [<-|Hq].
      * split; [split; auto|]. split; [repeat split; auto; rewrite I1; auto|]. exists a, t. split; auto. rewrite C1. auto.
      * destruct (Pl q Hq) as [Gq [[S1 [S2 [S3 [S4 S5]]]] Bq]]. split; auto. split; auto. repeat split; try congruence. rewrite S5, I2. auto.
    + cbn [map]. rewrite Il, I1. cbn [fst]. pose proof (good_int s G) as EI. rewrite EI. cbn [fst]. rewrite EK, framed_lo by lia. reflexivity.
Qed.

(* ---- the loop, direction v ------------------------------------------------------------ *)
Lemma decompose_loop_v : forall ts s M a b k junk, good s -> (1 <= s_dv s)%Z -> s_kv s = framed (s_dv s) a M b -> a < b ->
  (forall x, In x M -> a < x < b) -> StronglySorted Qcle M -> sorted_set M = ts ->
  spaced_in a b M -> (forall t, (Z.of_nat (count_occ Qc_eq_dec M t) <= s_dv s)%Z) ->
  exists l, decompose_loop false s ts k junk = Ok l /\ covers s l /\
    (forall q, In q l -> good q /\ same_u s q /\ bezier_v q) /\
    map (fun q => snd (s_int q)) l = consecutive (a :: ts ++ [b]).
Proof.
  induction ts as [|t ts IH]; intros s M a b k junk G Hp EK Hab HM SM ES SP MU.
  - assert (M = []). { destruct M as [|x M]; auto. exfalso. assert (X : In x (sorted_set (x :: M))) by (apply sorted_set_In; left; auto). rewrite ES in X. destruct X. }
    subst M. exists [s]. split; [reflexivity|]. split; [|split].
    + split. { intros q u v [<-|[]] D. auto. } intros u v D. exists s. split; [left; auto|auto].
    + intros q [<-|[]]. split; auto. split; [repeat split|]. exists a, b. split; auto.
    + pose proof (good_int s G) as EI. destruct G as [[_ [_ VU]] _]. rewrite EK in VU. pose proof (framed_count _ _ _ _ _ VU) as N.
      cbn [map]. rewrite EI. cbn [fst snd]. rewrite EK. rewrite framed_lo by lia. rewrite framed_hi by (unfold lenZ in *; simpl length in *; lia). reflexivity.
  - destruct (leading_run M SM) as [->|[t' [m [r [EM [Hr Sr]]]]]]; [discriminate ES|].
    assert (X : sorted_set M = t' :: sorted_set r) by (rewrite EM; now apply sorted_set_head). rewrite ES in X. injection X as <- Ets.
    assert (Ht : In t M) by (rewrite EM; left; auto). destruct (HM t Ht) as [Ha Hb].
    pose proof G as [V I]. pose proof V as [Sh [VV VU]]. pose proof VU as [Hpn _]. rewrite EK in VU. pose proof (framed_count _ _ _ _ _ VU) as N.
    assert (LM : (0 < lenZ M)%Z) by (rewrite EM; unfold lenZ; rewrite app_length; simpl length; lia).
    assert (IV : forall x, In x (framed (s_dv s) a M b) -> In x (a :: M ++ [b])).
    { intros x Hx. apply framed_In in Hx. destruct Hx as [->|[Hx| ->]]; [left; auto|right; apply in_app_iff; auto|right; apply in_app_iff; right; left; auto]. }
    assert (tol0 : 0 <= split_tol) by (apply qle_true; vm_compute; reflexivity).
    assert (Etol : split_tol = Q2Qc (1 # 10000000)) by (apply Qc_is_canon; vm_compute; reflexivity).
    destruct (SP a t) as [T1 _]; [left; auto|right; apply in_app_iff; auto|auto|].
    destruct (SP t b) as [T2 _]; [right; apply in_app_iff; auto|right; apply in_app_iff; right; left; auto|auto|].
    rewrite <- Etol in T1, T2.
    destruct (split_v_raw s t split_tol (junk k)) as [s1 [s2 [span [E [C [I1 [I2 [MA [Hd [K1 K2]]]]]]]]]]; auto.
    { rewrite EK, framed_lo by lia. qlra. }
    { rewrite EK, framed_hi by lia. qlra. }
    { rewrite EK, framed_lo by lia. auto. }
    { rewrite EK, framed_hi by lia. auto. }
    { rewrite EK. apply (spaced_separated _ (a :: M ++ [b])); auto. right; apply in_app_iff; auto. }
    { rewrite EK, framed_mult; auto. }
    rewrite EK, EM in MA, Hd, K1, K2. destruct (framed_cut (s_dv s) a t m r b span) as [Q1 Q2]; auto; try lia.
    { rewrite <- EM. rewrite <- EM in Hd. lia. }
    rewrite Q2 in K1. rewrite framed_first in K1 by lia.
    replace (span + 1)%Z with (s_dv s + 1 + Z.of_nat (S m))%Z in K2 by (rewrite Q1 in Q2; lia). rewrite framed_second in K2 by lia.
    destruct C as [V1 [V2 [J1 [J2 [C1 [C2 [C3 [C4 [C5 [C6 [C7 [C8 [D1 [D2 [F1 F2]]]]]]]]]]]]]]].
    destruct (IH s2 r t b (S k) junk) as [l [El [[Cv1 Cv2] [Pl Il]]]]; auto.
    { split; auto. } { lia. } { rewrite C4. auto. }
    { intros x Hx. split; auto. apply HM. rewrite EM. apply in_app_iff; auto. }
    { apply (spaced_sub _ _ SP). intros x [<-|Hx]; [right; apply in_app_iff; auto|]. apply in_app_iff in Hx.
      right. apply in_app_iff. destruct Hx as [Hx|Hx]; [left; rewrite EM; apply in_app_iff; auto|right; auto]. }
    { intro x. specialize (MU x). rewrite EM, count_occ_app in MU. rewrite C4. lia. }
    exists (s1 :: l). split; [|split; [|split]].
    + cbn [decompose_loop]. rewrite E. cbn [bind]. rewrite El. reflexivity.
    + split.
      * intros q u v [<-|Hq] D.
        { split; [apply D1 in D; tauto|auto]. }
        { destruct (Cv1 q u v Hq D) as [Da Eq]. split; [apply D2 in Da; tauto|]. rewrite Eq. auto. }
      * intros u v D. destruct (Qclt_le_dec v t) as [L|L].
        { exists s1. split; [left; auto|]. apply D1. split; auto. now apply Qclt_le_weak. }
        { destruct (Cv2 u v) as [q [Hq Dq]]. { apply D2. auto. } exists q. split; [right; auto|auto]. }
    + intros q [<-|Hq].
      * split; [split; auto|]. split; [repeat split; auto; rewrite I1; auto|]. exists a, t. split; auto. rewrite C2. auto.
      * destruct (Pl q Hq) as [Gq [[S1 [S2 [S3 [S4 S5]]]] Bq]]. split; auto. split; auto. repeat split; try congruence. rewrite S5, I2. auto.
    + cbn [map]. rewrite Il, I1. cbn [fst snd]. pose proof (good_int s G) as EI. rewrite EI. cbn [fst snd]. rewrite EK, framed_lo by lia. reflexivity.
Qed.

(* ---- the whole ------------------------------------------------------------------------ *)
Lemma sorted_of_knots U : sorted_knots U -> StronglySorted Qcle U.
Proof.
  induction U as [|x U IH]; intro H; constructor.
  - apply IH. intros i j H1 H2 H3. specialize (H (i + 1)%Z (j + 1)%Z).
    assert (Q : forall k, (0 <= k)%Z -> knot (x :: U) (k + 1) = knot U k).
    { intros k Hk. unfold knot, atZ. replace (Z.to_nat (k + 1)) with (S (Z.to_nat k)) by lia. reflexivity. }
    rewrite !Q in H by lia. apply H; try lia. unfold lenZ in *. simpl length. lia.
  - apply Forall_forall. intros y Hy. apply (In_nth _ _ 0) in Hy. destruct Hy as [k [Hk <-]].
    specialize (H 0%Z (Z.of_nat (S k))). unfold knot, atZ in H. rewrite Nat2Z.id in H. apply H; try lia. unfold lenZ. simpl length. lia.
Qed.
Lemma sorted_app_r (l l' : list Qc) : StronglySorted Qcle (l ++ l') -> StronglySorted Qcle l'.
Proof. induction l as [|x l IH]; auto. intro H. inversion H; auto. Qed.
Lemma sorted_app_l (l l' : list Qc) : StronglySorted Qcle (l ++ l') -> StronglySorted Qcle l.
Proof.
  induction l as [|x l IH]; intro H; [constructor|]. inversion H as [|? ? S F]; subst. constructor; auto.
  rewrite Forall_forall in *. intros y Hy. apply F. apply in_app_iff. auto.
Qed.

Lemma decomposable_framed p n U a b : valid_knots p n U -> decomposable p U a b ->
  exists M, U = framed p a M b /\ a < b /\ (forall x, In x M -> a < x < b) /\ StronglySorted Qcle M /\ spaced_in a b M /\
    (forall t, (Z.of_nat (count_occ Qc_eq_dec M t) <= p)%Z) /\ (forall t, In t M <-> In t U /\ a < t < b).
Proof.
  intros [_ [_ [So _]]] [Hp [[Hab [M [-> HM]]] [Sp Mu]]]. fold (framed p a M b) in *. exists M. split; auto. split; auto. split; auto.
  assert (IU : forall x, In x (a :: M ++ [b]) -> In x (framed p a M b)).
  { intros x Hx. unfold framed. replace (Z.to_nat (p + 1)) with (S (Z.to_nat p)) by lia. simpl repeat. simpl app.
    destruct Hx as [<-|Hx]; [left; auto|]. right. apply in_app_iff. right. apply in_app_iff in Hx. apply in_app_iff.
    destruct Hx as [Hx|[<-|[]]]; [left; auto|right; left; auto]. }
  split. { apply sorted_of_knots in So. unfold framed in So. apply sorted_app_r in So. now apply sorted_app_l in So. }
  split. { apply (spaced_sub _ _ Sp). auto. }
  split.
  { intro t. destruct (in_dec Qc_eq_dec t M) as [Hi|Hi].
    - destruct (HM t Hi). specialize (Mu t). rewrite framed_mult in Mu; auto.
    - apply (count_occ_not_In Qc_eq_dec) in Hi. rewrite Hi. lia. }
  intro t. split.
  - intro Ht. split; auto. apply IU. right. apply in_app_iff. auto.
  - intros [Ht [L1 L2]]. apply framed_In in Ht. destruct Ht as [->|[Ht| ->]]; auto; exfalso; qlra.
Qed.

Lemma decompose_u_ok s a b junk : valid_surface s -> interval_current s -> decomposable (s_du s) (s_ku s) a b ->
  exists l ts, decompose_direction true s junk = Ok l /\ covers s l /\
    (forall q, In q l -> good q /\ same_v s q /\ bezier_u q) /\
    inner_knots (s_ku s) a b ts /\ map (fun q => fst (s_int q)) l = consecutive (a :: ts ++ [b]).
Proof.
  intros V I D. pose proof V as [_ [VU _]]. destruct (decomposable_framed _ _ _ _ _ VU D) as [M [EK [Hab [HM [SM [SP [MU IM]]]]]]].
  destruct D as [Hp _]. destruct (decompose_loop_u (sorted_set M) s M a b 0 junk) as [l [E [C [P J]]]]; auto. { split; auto. }
  exists l, (sorted_set M). split. { unfold decompose_direction. rewrite EK, framed_inner by lia. auto. }
  split; auto. split; auto. split; auto. split; [apply sorted_set_sorted|]. intro t. rewrite sorted_set_In. auto.
Qed.
Lemma decompose_v_ok s a b junk : valid_surface s -> interval_current s -> decomposable (s_dv s) (s_kv s) a b ->
  exists l ts, decompose_direction false s junk = Ok l /\ covers s l /\
    (forall q, In q l -> good q /\ same_u s q /\ bezier_v q) /\
    inner_knots (s_kv s) a b ts /\ map (fun q => snd (s_int q)) l = consecutive (a :: ts ++ [b]).
Proof.
  intros V I D. pose proof V as [_ [_ VU]]. destruct (decomposable_framed _ _ _ _ _ VU D) as [M [EK [Hab [HM [SM [SP [MU IM]]]]]]].
  destruct D as [Hp _]. destruct (decompose_loop_v (sorted_set M) s M a b 0 junk) as [l [E [C [P J]]]]; auto. { split; auto. }
  exists l, (sorted_set M). split. { unfold decompose_direction. rewrite EK, framed_inner by lia. auto. }
  split; auto. split; auto. split; auto. split; [apply sorted_set_sorted|]. intro t. rewrite sorted_set_In. auto.
Qed.

Lemma sorted_In_unique (l l' : list Qc) : StronglySorted Qclt l -> StronglySorted Qclt l' -> (forall x, In x l <-> In x l') -> l = l'.
Proof.
  revert l'. induction l as [|x l IH]; intros [|y l'] S S' H; auto.
  - exfalso. apply (H y). left; auto.
  - exfalso. apply (H x). left; auto.
  - inversion S as [|? ? S1 F1]; inversion S' as [|? ? S2 F2]; subst. rewrite Forall_forall in F1, F2.
    assert (x = y).
    { destruct (proj1 (H x)) as [->|A]; [left; auto|auto|]. destruct (proj2 (H y)) as [->|B]; [left; auto|auto|].
      specialize (F1 _ B). specialize (F2 _ A). qlra. }
    subst y. f_equal. apply IH; auto. intro z. split; intro Hz.
    + destruct (proj1 (H z)) as [->|A]; [right; auto| |auto]. specialize (F1 _ Hz). qlra.
    + destruct (proj2 (H z)) as [->|A]; [right; auto| |auto]. specialize (F2 _ Hz). qlra.
Qed.

Lemma decompose_all_ok s c d ts0 : inner_knots (s_kv s) c d ts0 -> decomposable (s_dv s) (s_kv s) c d ->
  forall l k junk, (forall q, In q l -> good q /\ same_v s q) ->
  exists l', decompose_all l k junk = Ok l' /\
    (forall q u v, In q l -> in_dom q u v -> exists q', In q' l' /\ in_dom q' u v) /\
    (forall q' u v, In q' l' -> in_dom q' u v -> exists q, In q l /\ in_dom q u v /\ evaluate_surface q' u v = evaluate_surface q u v) /\
    (forall q', In q' l' -> exists q, In q l /\ good q' /\ same_u q q' /\ bezier_v q') /\
    map s_int l' = flat_map (fun q => map (fun iv => (fst (s_int q), iv)) (consecutive (c :: ts0 ++ [d]))) l.
Proof.
  intros IK D. induction l as [|q l IH]; intros k junk H.
  - exists []. split; [reflexivity|]. split; [intros ? ? ? []|]. split; [intros ? ? ? []|]. split; [intros ? []|reflexivity].
  - destruct (H q) as [[V I] Sm]; [left; auto|]. pose proof Sm as [S1 [S2 [S3 [S4 S5]]]].
    assert (D' : decomposable (s_dv q) (s_kv q) c d) by (rewrite S2, S3; auto).
    destruct (decompose_v_ok q c d (junk k) V I D') as [a [ts [E [[C1 C2] [P [IT J]]]]]].
    assert (ts = ts0). { rewrite S3 in IT. destruct IT as [I1 I2], IK as [I3 I4]. apply sorted_In_unique; auto. intro x. rewrite I2, I4. tauto. }
    subst ts. destruct (IH (S k) junk) as [l' [E' [A1 [A2 [A3 A4]]]]]. { intros; apply H; right; auto. }
    exists (a ++ l'). split. { cbn [decompose_all]. rewrite E. cbn [bind]. rewrite E'. reflexivity. }
    split; [|split; [|split]].
    + intros q0 u v [<-|Hq] Dq.
      * destruct (C2 u v Dq) as [q' [X Y]]. exists q'. split; auto. apply in_app_iff; auto.
      * destruct (A1 q0 u v Hq Dq) as [q' [X Y]]. exists q'. split; auto. apply in_app_iff; auto.
    + intros q' u v Hq Dq. apply in_app_iff in Hq. destruct Hq as [Hq|Hq].
      * destruct (C1 q' u v Hq Dq). exists q. split; [left; auto|auto].
      * destruct (A2 q' u v Hq Dq) as [q0 [X Y]]. exists q0. split; [right; auto|auto].
    + intros q' Hq. apply in_app_iff in Hq. destruct Hq as [Hq|Hq].
      * exists q. split; [left; auto|auto].
      * destruct (A3 q' Hq) as [q0 [X Y]]. exists q0. split; [right; auto|auto].
    + rewrite map_app, A4. cbn [flat_map]. f_equal. rewrite <- J, map_map. apply map_ext_in. intros x Hx.
      destruct (P x Hx) as [_ [[_ [_ [_ [_ F]]]] _]]. rewrite <- F. destruct (s_int x); reflexivity.
Qed.

Lemma decompose_uv_ok s a b c d junk : valid_surface s -> interval_current s ->
  decomposable (s_du s) (s_ku s) a b -> decomposable (s_dv s) (s_kv s) c d ->
  exists l us vs, decompose_surface s DirUV junk = Ok l /\ covers s l /\
    (forall q, In q l -> valid_surface q /\ interval_current q /\ s_du q = s_du s /\ s_dv q = s_dv s /\ bezier_u q /\ bezier_v q) /\
    inner_knots (s_ku s) a b us /\ inner_knots (s_kv s) c d vs /\
    map s_int l = list_prod (consecutive (a :: us ++ [b])) (consecutive (c :: vs ++ [d])).
Proof.
  intros V I D D'. destruct (decompose_u_ok s a b (junk 0%nat) V I D) as [l [us [E [[C1 C2] [P [IU J]]]]]].
  assert (IV : exists vs, inner_knots (s_kv s) c d vs).
  { pose proof V as [_ [_ VV]]. destruct (decomposable_framed _ _ _ _ _ VV D') as [M [_ [_ [_ [_ [_ [_ IM]]]]]]].
    exists (sorted_set M). split; [apply sorted_set_sorted|]. intro t. rewrite sorted_set_In. auto. }
  destruct IV as [vs IV].
  destruct (decompose_all_ok s c d vs IV D' l 1 junk) as [l' [E' [A1 [A2 [A3 A4]]]]]. { intros q Hq. destruct (P q Hq) as [X [Y _]]. auto. }
  exists l', us, vs. split. { cbn [decompose_surface]. rewrite E. cbn [bind]. auto. }
  split; [|split; [|split; [|split]]]; auto.
  - split.
    + intros q' u v Hq Dq. destruct (A2 q' u v Hq Dq) as [q [X [Y W]]]. destruct (C1 q u v X Y) as [Z1 Z2]. split; auto. congruence.
    + intros u v Dq. destruct (C2 u v Dq) as [q [X Y]]. apply (A1 q); auto.
  - intros q' Hq. destruct (A3 q' Hq) as [q [X [[G1 G2] [[T1 [T2 [T3 [T4 T5]]]] B]]]]. destruct (P q X) as [_ [[U1 [U2 _]] Bu]].
    split; auto. split; auto. split; [congruence|]. split; [congruence|]. split; auto.
    destruct Bu as [x [y [L Ek]]]. exists x, y. split; auto. rewrite T1, T3. auto.
  - rewrite A4. rewrite <- J. clear. induction l as [|q l IH]; [reflexivity|]. cbn [flat_map map list_prod]. now rewrite IH.
Qed.
