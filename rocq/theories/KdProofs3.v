(* k-d tree: one deletion from a freshly built tree. *)
From Coq Require Import List ZArith Bool QArith Qcanon Permutation Sorted Lia Arith.
From Verif Require Import Common ListLib QcLib KdModel KdSpec KdProofs KdProofs2.
Import ListNotations.
Local Open Scope nat_scope.

(* a node without a right subtree has at most one point on the left *)
Fixpoint lean (t : kd) : Prop :=
  match t with Empty => True | Node _ _ l r _ => (r = Empty -> length (collect l) <= 1) /\ lean l /\ lean r end.

Lemma build_lean : forall fuel pts d, length pts <= fuel -> lean (build_fuel fuel pts d).
Proof.
  induction fuel as [|f IH]; intros pts d L; [destruct pts; exact I|].
  destruct pts as [|p0 pts']; [exact I|]. cbn [build_fuel].
  set (pts := p0 :: pts') in *. cbv zeta.
  set (a := d mod length p0). set (sorted := sort_key a pts). set (m := length pts / 2).
  assert (Ls : length sorted = length pts) by (apply Permutation_length, sort_key_perm).
  assert (Lp : 1 <= length pts) by (unfold pts; simpl; lia).
  assert (Dm : length pts = 2 * m + length pts mod 2) by (unfold m; rewrite <- Nat.div_mod; lia).
  pose proof (Nat.mod_upper_bound (length pts) 2 ltac:(lia)).
  assert (L1 : length (firstn m sorted) = m) by (rewrite firstn_length; lia).
  assert (L2 : length (skipn (m + 1) sorted) = length pts - (m + 1)) by (rewrite skipn_length; lia).
  unfold mk. cbn [lean]. split; [|split; apply IH; [rewrite L1|rewrite L2]; cbn [length] in *; lia].
  intro E. assert (length (skipn (m + 1) sorted) = 0).
  { destruct (skipn (m + 1) sorted) as [|x xs] eqn:Es; auto. exfalso.
    destruct f; [cbn [length] in L2; lia|]. cbn [build_fuel] in E. unfold mk in E. discriminate. }
  assert (C : forall fl ps e, length (collect (build_fuel fl ps e)) <= length ps).
  { clear. induction fl as [|f IH]; intros ps e; [destruct ps; simpl; lia|]. destruct ps as [|p ps]; [simpl; lia|].
    cbn [build_fuel]. set (pts := p :: ps). cbv zeta. unfold mk. cbn [collect]. cbn [length]. rewrite app_length.
    set (a := e mod length p). set (m := length pts / 2).
    assert (length (sort_key a pts) = length pts) by (apply Permutation_length, sort_key_perm).
    pose proof (IH (firstn m (sort_key a pts)) (e + 1)). pose proof (IH (skipn (m + 1) (sort_key a pts)) (e + 1)).
    rewrite firstn_length in *. rewrite skipn_length in *.
    assert (m < length pts) by (unfold m; apply Nat.div_lt; unfold pts; simpl; lia). lia. }
  specialize (C f (firstn m sorted) (d + 1)). lia.
Qed.

Lemma delete_keeps_split k : 0 < k -> forall t d q, dims k (collect t) -> split_ok k d t -> lean t ->
  distinct_coords k (collect t) -> split_ok k d (delete_rec t q d).
Proof.
  intros Hk. induction t as [|p a l IHl r IHr s]; intros d q D Sp Le DC; cbn [delete_rec]; auto.
  pose proof Sp as Sp0. pose proof D as D0. pose proof DC as [ND DI].
  cbn [collect] in ND. apply NoDup_cons_iff in ND. destruct ND as [Np ND].
  assert (NDl : NoDup (collect l)) by (eapply nodup_app_l; eauto).
  assert (NDr : NoDup (collect r)) by (eapply nodup_app_r; eauto).
  assert (DCl : distinct_coords k (collect l)).
  { eapply distinct_sub; [|auto|apply DC]. intros; right; apply in_or_app; auto. }
  assert (DCr : distinct_coords k (collect r)).
  { eapply distinct_sub; [|auto|apply DC]. intros; right; apply in_or_app; auto. }
  cbn [collect] in D. apply dims_cons in D. destruct D as [Dp D]. apply dims_app in D. destruct D as [Dl Dr].
  cbn [split_ok] in Sp. destruct Sp as [Ha [_ [Hl [Hr [Sl Sr]]]]]. cbn [lean] in Le. destruct Le as [L0 [Ll Lr]].
  assert (Sub : forall t d x, dims k (collect t) -> split_ok k d t -> distinct_coords k (collect t) ->
     forall y, In y (collect (delete_rec t x d)) -> In y (collect t)).
  { intros t d' x Dt St DCt y Hy. destruct (in_dec (list_eq_dec Qc_eq_dec) x (collect t)) as [I|I].
    - eapply Permutation_in; [apply (delete_present k Hk t d' x); eauto|]. right; auto.
    - eapply Permutation_in; [apply (delete_absent k x t d'); eauto|]. auto. }
  destruct (point_eqb p q) eqn:E.
  - destruct r as [|pr ar rl rr rs] eqn:Er.
    + destruct l as [|pl al ll lr ls] eqn:El; [exact I|]. rewrite <- El in *.
      destruct (find_min_in a l) as [m [Em Im]]. { rewrite El; discriminate. } rewrite Em.
      specialize (L0 eq_refl).
      pose proof (delete_present k Hk l (d + 1) m Im Dl Sl DCl) as PL.
      assert (E0 : collect (delete_rec l m (d + 1)) = []).
      { apply Permutation_length in PL. cbn [length] in PL. destruct (collect (delete_rec l m (d + 1))); auto. simpl in PL. lia. }
      apply settle_split; auto.
      * rewrite E0. cbn. apply dims_cons. split; [apply Dl; auto|intros ? []].
      * rewrite E0. intros ? [].
      * intros ? [].
    + rewrite <- Er in *. destruct (find_min_in a r) as [m [Em Im]]. { rewrite Er; discriminate. } rewrite Em.
      apply settle_split; auto.
      * apply dims_cons. split; [apply Dr; auto|]. apply dims_app. split; auto. intros x Hx. apply Dr. eapply Sub; eauto.
      * intros x Hx. eapply Qcle_trans; [apply Hl; auto|]. apply Hr; auto.
      * intros x Hx. apply (find_min_least a k r (d + 1) m); auto. eapply Sub; eauto.
  - destruct (qle (coord q a) (coord p a)).
    + apply settle_split; auto.
      * apply dims_cons. split; auto. apply dims_app. split; auto. intros x Hx. apply Dl. eapply Sub; eauto.
      * intros x Hx. apply Hl. eapply Sub; eauto.
    + apply settle_split; auto.
      * apply dims_cons. split; auto. apply dims_app. split; auto. intros x Hx. apply Dr. eapply Sub; eauto.
      * intros x Hx. apply Hr. eapply Sub; eauto.
Qed.

Lemma nearest_after_one_delete k pts r q : 0 < k -> dims k pts -> distinct_coords k pts -> In r pts -> length q = k -> 2 <= length pts ->
  exists t0 l t p rest, kd_new pts = Ok (t0, l) /\ kd_delete t0 r = Ok t /\ Permutation (r :: rest) pts /\
    Permutation (collect t) rest /\ nearest t q = Some p /\ is_nearest q p rest.
Proof.
  intros Hk D DC Ir Lq L2. destruct (kd_new_ok k pts D) as [t0 [E [Pm [S _]]]].
  assert (D0 : dims k (collect t0)) by (apply (dims_perm _ _ _ (Permutation_sym Pm)); auto).
  assert (DC0 : distinct_coords k (collect t0)).
  { destruct DC as [N X]. split. { apply (Permutation_NoDup (Permutation_sym Pm)); auto. }
    intros x y a Hx Hy. apply X; eapply Permutation_in; eauto. }
  assert (I0 : In r (collect t0)) by (eapply Permutation_in; [symmetry; eauto|auto]).
  destruct (kd_delete_distinct k t0 r Hk (D r Ir) D0 S DC0) as [t [Ed [P1 _]]]. specialize (P1 I0).
  assert (St : split_ok k 0 t).
  { assert (t = delete_rec t0 r 0) as ->.
    { unfold kd_delete in Ed. destruct t0 as [|p a l0 r0 s]; [destruct I0|].
      destruct (length r =? length p); inversion Ed; auto. }
    apply delete_keeps_split; auto.
    unfold kd_new in E. destruct pts as [|p0 pts]; [simpl in L2; lia|]. destruct (forallb _ _); inversion E; subst.
    apply build_lean. auto. }
  assert (Dt : dims k (collect t)).
  { eapply (proj1 (dims_cons k r _)). apply (dims_perm _ _ _ (Permutation_sym P1)). auto. }
  assert (Nt : t <> Empty).
  { intros ->. pose proof (Permutation_length (Permutation_trans P1 Pm)) as PT. destruct pts as [|x1 [|x2 pts]]; simpl in *; try lia; discriminate. }
  destruct (nearest_ok k q t Hk Lq Dt St Nt) as [p [En In1]].
  exists t0, (sort_key (0 mod k) pts), t, p, (collect t). split; auto. split; auto. split; [now rewrite P1|]. auto.
Qed.
