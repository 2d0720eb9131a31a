(* Knot insertion keeps the curve. *)
From Coq Require Import List ZArith Lia Bool QArith Qcanon Qround Permutation.
From Verif Require Import Common ListLib QcLib ArrZ SplineTheory NurbsModel NurbsSpec NurbsProofs NurbsProofs2 NurbsEditModel NurbsEditSpec.
Import ListNotations.
Local Open Scope Z_scope.
Local Open Scope Qc_scope.

Lemma copy_rows_ok {A} (d : A) lo hi off soff src dst :
  (forall i, (lo <= i < hi)%Z -> (0 <= i + soff < lenZ src)%Z /\ (0 <= i + off < lenZ dst)%Z) ->
  exists r, copy_rows lo hi off soff src dst = Ok r /\ lenZ r = lenZ dst /\
    (forall i, (lo <= i < hi)%Z -> atZ d r (i + off) = atZ d src (i + soff)) /\
    (forall k, (0 <= k)%Z -> ~ (lo + off <= k < hi + off)%Z -> atZ d r k = atZ d dst k).
Proof.
  intros H. unfold copy_rows. destruct (Z_le_dec lo hi) as [L|L].
  2:{ rewrite forZ_empty by lia. exists dst. repeat split; auto. intros; lia. }
  destruct (forZ_inv (fun m r => lenZ r = lenZ dst /\
    (forall i, (lo <= i < m)%Z -> atZ d r (i + off) = atZ d src (i + soff)) /\
    (forall k, (0 <= k)%Z -> ~ (lo + off <= k < m + off)%Z -> atZ d r k = atZ d dst k))
    (fun i r => do q <- rdZ src (i + soff); wrZ r (i + off) q) lo hi dst) as [r [E [I1 [I2 I3]]]].
  - auto.
  - repeat split; auto. intros; lia.
  - intros i r Hi [I1 [I2 I3]]. destruct (H i Hi) as [H1 H2].
    rewrite (rdZ_ok d) by auto. cbn [bind]. rewrite wrZ_ok by lia. eexists. split; [reflexivity|].
    split; [now rewrite lenZ_upd|]. split.
    + intros k Hk. destruct (Z.eq_dec k i) as [->|].
      * apply atZ_upd_eq. lia.
      * rewrite atZ_upd_neq; try lia. apply I2; lia. destruct (H k); lia.
    + intros k Hk Hn. rewrite atZ_upd_neq by lia. apply I3; lia.
  - exists r. auto.
Qed.

(* ---- knot vector ---------------------------------------------------- *)

Definition kv_after (U : list Qc) (u : Qc) (span r : Z) (V : list Qc) : Prop :=
  lenZ V = (lenZ U + r)%Z /\
  (forall i, (0 <= i <= span)%Z -> knot V i = knot U i) /\
  (forall i, (span < i <= span + r)%Z -> knot V i = u) /\
  (forall i, (span + r < i < lenZ U + r)%Z -> knot V i = knot U (i - r)).

Lemma knot_insertion_kv_ok U u span r : (0 <= r)%Z -> (0 <= span < lenZ U)%Z ->
  exists V, knot_insertion_kv U u span r = Ok V /\ kv_after U u span r V.
Proof.
  intros Hr Hs. unfold knot_insertion_kv.
  destruct (copy_rows_ok 0 0 (span + 1) 0 0 U (repeat (0:Qc) (Z.to_nat (lenZ U + r)))) as [k1 [E1 [L1 [A1 _]]]].
  { intros. rewrite lenZ_repeat. lia. }
  rewrite E1. cbn [bind]. rewrite lenZ_repeat in L1.
  destruct (forZ_inv (fun m kv => lenZ kv = lenZ k1 /\
     (forall i, (0 <= i <= span)%Z -> atZ 0 kv i = atZ 0 k1 i) /\
     (forall i, (span < i < span + m)%Z -> atZ 0 kv i = u))
     (fun i kv => wrZ kv (span + i) u) 1 (r + 1) k1) as [k2 [E2 [L2 [B1 B2]]]].
  { lia. }
  { repeat split; auto. intros; lia. }
  { intros i kv Hi [I1 [I2 I3]]. rewrite wrZ_ok by lia. eexists. split; [reflexivity|].
    split; [now rewrite lenZ_upd|]. split.
    - intros k Hk. rewrite atZ_upd_neq by lia. apply I2; lia.
    - intros k Hk. destruct (Z.eq_dec k (span + i)) as [->|].
      + apply atZ_upd_eq. lia.
      + rewrite atZ_upd_neq by lia. apply I3; lia. }
  rewrite E2. cbn [bind].
  destruct (copy_rows_ok 0 (span + 1) (lenZ U) r 0 U k2) as [k3 [E3 [L3 [C1 C2]]]].
  { intros. lia. }
  exists k3. split; auto. unfold kv_after, knot. repeat split.
  - lia.
  - intros i Hi. rewrite C2 by lia. rewrite B1 by lia.
    specialize (A1 i ltac:(lia)). rewrite !Z.add_0_r in A1. auto.
  - intros i Hi. rewrite C2 by lia. apply B2. lia.
  - intros i Hi. specialize (C1 (i - r)%Z ltac:(lia)). rewrite Z.add_0_r in C1.
    replace (i - r + r)%Z with i in C1 by lia. auto.
Qed.

Lemma kv_after_valid p n U u span r V : valid_knots p n U -> (0 <= r)%Z -> (p <= span <= n)%Z ->
  knot U span <= u -> u < knot U (span + 1) -> kv_after U u span r V ->
  valid_knots p (n + r) V.
Proof.
  intros [Hp [LU [M N]]] Hr Hs H1 H2 [LV [A [B C]]].
  assert (Lo : forall i, (0 <= i <= span)%Z -> knot U i <= u). { intros. eapply Qcle_trans; [apply M|apply H1]; lia. }
  assert (Hi : forall i, (span < i < lenZ U)%Z -> u < knot U i). { intros. eapply Qclt_le_trans; [apply H2|apply M]; lia. }
  split; [lia|]. split; [lia|]. split.
  - intros i j Hi0 Hij Hj. rewrite LV in Hj.
    destruct (Z_le_dec j span). { rewrite !A by lia. apply M; lia. }
    destruct (Z_le_dec j (span + r)).
    { rewrite (B j) by lia. destruct (Z_le_dec i span). rewrite A by lia. apply Lo; lia. rewrite B by lia. apply Qcle_refl. }
    rewrite (C j) by lia. destruct (Z_le_dec i span). { rewrite A by lia. apply M; lia. }
    destruct (Z_le_dec i (span + r)). { rewrite B by lia. apply Qclt_le_weak, Hi; lia. }
    rewrite C by lia. apply M; lia.
  - rewrite (C (n + r + 1)%Z) by lia. replace (n + r + 1 - r)%Z with (n + 1)%Z by lia.
    destruct (Z.eq_dec span n) as [->|].
    + destruct (Z.eq_dec r 0) as [->|]. { rewrite A by lia. replace (n+0)%Z with n by lia. auto. }
      rewrite B by lia. apply Hi; lia.
    + rewrite C by lia. replace (n + r - r)%Z with n by lia. auto.
Qed.

(* ---- multiplicity --------------------------------------------------- *)

(* u has multiplicity s, its copies end at index span *)
Definition mult_at (U : list Qc) (u : Qc) (span s : Z) : Prop :=
  (0 <= s <= span + 1)%Z /\
  (forall k, (span - s < k <= span)%Z -> knot U k = u) /\
  (forall k, (0 <= k <= span - s)%Z -> knot U k < u) /\
  (forall k, (span < k < lenZ U)%Z -> u < knot U k).

Lemma qabs_nonneg x : 0 <= qabs x.
Proof. unfold qabs. destruct (qlt x 0) eqn:E; [apply qlt_true in E|apply qlt_false in E]; qlra. Qed.
Lemma calc_epsilon_nonneg x : 0 <= calc_epsilon x.
Proof.
  unfold calc_epsilon. destruct (qlt (qabs x) eps_delta).
  - unfold denorm_min. rewrite qc_le_Q, this_Q2Qc. unfold Qle. simpl. lia.
  - apply qc_mul_nonneg; [|apply qabs_nonneg]. unfold dbl_epsilon. rewrite qc_le_Q, this_Q2Qc. unfold Qle. simpl. lia.
Qed.

Lemma first_ge U u span : sorted_knots U -> (0 <= span < lenZ U)%Z -> knot U span <= u ->
  exists a, (0 <= a <= span + 1)%Z /\ (forall k, (0 <= k < a)%Z -> knot U k < u) /\ (forall k, (a <= k <= span)%Z -> knot U k = u).
Proof.
  intros M Hs H.
  assert (G : forall m, (m <= Z.to_nat (span + 1))%nat ->
     exists a, (span + 1 - Z.of_nat m <= a <= span + 1)%Z /\
       (forall k, (span + 1 - Z.of_nat m <= k < a)%Z -> knot U k < u) /\ (forall k, (a <= k <= span)%Z -> knot U k = u)).
  { induction m as [|m IH]; intro Hm.
    - exists (span + 1)%Z. split; [lia|]. split; intros; lia.
    - destruct IH as [a [A1 [A2 A3]]]; [lia|].
      destruct (Z.eq_dec a (span + 1 - Z.of_nat m)) as [Ea|Ea].
      + destruct (Qclt_le_dec (knot U (a - 1)) u) as [L|L].
        * exists a. split; [lia|]. split; auto. intros k Hk. assert (k = a - 1)%Z by lia. subst; auto.
        * exists (a - 1)%Z. split; [lia|]. split. { intros; lia. }
          intros k Hk. destruct (Z.eq_dec k (a - 1)) as [->|]; [|apply A3; lia].
          assert (knot U (a-1) <= knot U span) by (apply M; lia). apply Qcle_antisym; qlra.
      + exists a. split; [lia|]. split; auto. intros k Hk.
        destruct (Z.eq_dec k (span + 1 - Z.of_nat (S m))) as [->|]; [|apply A2; lia].
        assert (knot U (span + 1 - Z.of_nat (S m)) <= knot U (span + 1 - Z.of_nat m)) by (apply M; lia).
        assert (knot U (span + 1 - Z.of_nat m) < u) by (apply A2; lia). qlra. }
  destruct (G (Z.to_nat (span + 1)) ltac:(lia)) as [a [A1 [A2 A3]]].
  exists a. split; [lia|]. split; auto. intros; apply A2; lia.
Qed.

Lemma find_multiplicity_ok U u span : sorted_knots U -> (0 <= span)%Z -> (span + 1 < lenZ U)%Z ->
  knot U span <= u -> u < knot U (span + 1) -> separated u U ->
  exists s, find_multiplicity u U = Ok s /\ mult_at U u span s.
Proof.
  intros M H0 HL H1 H2 Sep0.
  assert (Sep : forall i, (0 <= i < lenZ U)%Z -> knot U i = u \/ calc_epsilon (knot U i) < qabs (u - knot U i)).
  { intros i Hi. apply Sep0. unfold knot, atZ. apply nth_In. unfold lenZ in Hi. lia. }
  destruct (first_ge U u span M ltac:(lia) H1) as [a [A1 [A2 A3]]].
  assert (A4 : forall k, (span < k < lenZ U)%Z -> u < knot U k).
  { intros. eapply Qclt_le_trans; [apply H2|apply M]; lia. }
  exists (span + 1 - a)%Z. split.
  2:{ split; [lia|]. split. { intros; apply A3; lia. } split; auto. intros; apply A2; lia. }
  unfold find_multiplicity.
  destruct (forZ_inv (fun i m => m = Z.max 0 (Z.min i (span + 1) - a))
    (fun i mult => do x <- rdZ U i; Ok (if qle (qabs (u - x)) (calc_epsilon x) then (mult + 1)%Z else mult))
    0 (lenZ U) 0%Z) as [m [E I]].
  - lia.
  - lia.
  - intros i m Hi ->. rewrite rd_knot by lia. cbn [bind]. eexists. split; [reflexivity|].
    destruct (qle (qabs (u - knot U i)) (calc_epsilon (knot U i))) eqn:Q.
    + apply qle_true in Q. destruct (Sep i Hi) as [Eq|Ne]; [|qlra].
      assert (a <= i)%Z. { destruct (Z_lt_dec i a); [|lia]. pose proof (A2 i ltac:(lia)). rewrite Eq in H. qlra. }
      assert (i <= span)%Z. { destruct (Z_le_dec i span); [lia|]. pose proof (A4 i ltac:(lia)). rewrite Eq in H3. qlra. }
      lia.
    + apply qle_false in Q.
      assert (~ (a <= i <= span)%Z).
      { intro X. rewrite (A3 i X) in Q. replace (u - u) with 0 in Q by ring.
        unfold qabs in Q. pose proof (calc_epsilon_nonneg u).
        assert (E0 : qlt 0 0 = false) by (apply qlt_false; apply Qcle_refl). rewrite E0 in Q. qlra. }
      lia.
  - rewrite E, I. f_equal. lia.
Qed.

(* ---- control points ------------------------------------------------- *)

(* a coordinate of a row *)
Definition coord (f : pt -> Qc) : Prop := forall a x y, f (lerp a x y) = a * f x + (1 - a) * f y.
Lemma coord_px : coord px. Proof. intros a x y. reflexivity. Qed.
Lemma coord_py : coord py. Proof. intros a x y. reflexivity. Qed.
Lemma coord_pz : coord pz. Proof. intros a x y. reflexivity. Qed.
Lemma coord_pw : coord pw. Proof. intros a x y. reflexivity. Qed.

(* the temp array after j rounds *)
Fixpoint T (U : Z -> Qc) (p span : Z) (u : Qc) (P : Z -> pt) (j : nat) (i : Z) : pt :=
  match j with
  | O => P (span - p + i)%Z
  | S q => let L := (span - p + Z.of_nat j)%Z in
           let alpha := (u - U (L + i)%Z) / (U (i + span + 1)%Z - U (L + i)%Z) in
           lerp alpha (T U p span u P q (i + 1)) (T U p span u P q i)
  end.

Lemma insertion_inner_loop p U u span j s tmp G :
  (1 <= j)%Z -> (0 <= s)%Z -> (j + s <= p)%Z -> lenZ tmp = (p + 1)%Z ->
  (p <= span)%Z -> (span + p + 1 < lenZ U + j + s)%Z ->
  (forall i, (0 <= i <= p - j - s)%Z -> knot U (span - p + j + i) <> knot U (i + span + 1)) ->
  (forall i, (0 <= i <= p - j - s + 1)%Z -> atZ pt0 tmp i = T (knot U) p span u G (Z.to_nat (j - 1)) i) ->
  exists tmp', forZ 0 (p - j - s + 1) tmp (insertion_inner u U span (span - p + j)) = Ok tmp' /\
    lenZ tmp' = (p + 1)%Z /\
    forall i, (0 <= i <= p - j - s)%Z -> atZ pt0 tmp' i = T (knot U) p span u G (Z.to_nat j) i.
Proof.
  intros Hj Hs Hjs LT Hsp HU Nd HT.
  destruct (forZ_inv (fun m t => lenZ t = (p+1)%Z /\
     (forall i, (0 <= i < m)%Z -> atZ pt0 t i = T (knot U) p span u G (Z.to_nat j) i) /\
     (forall i, (m <= i <= p - j - s + 1)%Z -> atZ pt0 t i = T (knot U) p span u G (Z.to_nat (j-1)) i))
     (insertion_inner u U span (span - p + j)) 0 (p - j - s + 1) tmp) as [t [E [I1 [I2 _]]]].
  - lia.
  - split; [auto|]. split; [intros; lia|]. intros; apply HT; lia.
  - intros i t Hi [I1 [I2 I3]]. unfold insertion_inner, knot_insertion_alpha.
    rewrite !rd_knot by lia. cbn [bind].
    assert (knot U (i + span + 1) - knot U (span - p + j + i) <> 0).
    { intro X. apply (Nd i); [lia|]. qlra. }
    rewrite divR_ok by auto. cbn [bind].
    rewrite !(rdZ_ok pt0) by lia. cbn [bind]. rewrite wrZ_ok by lia. eexists. split; [reflexivity|].
    split; [now rewrite lenZ_upd|]. split.
    + intros k Hk. destruct (Z.eq_dec k i) as [->|].
      * rewrite atZ_upd_eq by lia. rewrite !I3 by lia.
        replace (Z.to_nat j) with (S (Z.to_nat (j - 1))) by lia. cbn [T].
        replace (span - p + Z.of_nat (S (Z.to_nat (j - 1))) + i)%Z with (span - p + j + i)%Z by lia. auto.
      * rewrite atZ_upd_neq by lia. apply I2; lia.
    + intros k Hk. rewrite atZ_upd_neq by lia. apply I3; lia.
  - exists t. split; auto. split; auto. intros; apply I2; lia.
Qed.

(* What knot_insertion stores, region by region. *)
Definition rows_after (U : list Qc) (P : list pt) (p : Z) (u : Qc) (num s span : Z) (R : list pt) : Prop :=
  lenZ R = (lenZ P + num)%Z /\
  (forall i, (0 <= i <= span - p)%Z -> ctrl R i = ctrl P i) /\
  (forall i, (span - s + num <= i < lenZ P + num)%Z -> ctrl R i = ctrl P (i - num)) /\
  (forall j, (1 <= j <= num)%Z -> ctrl R (span - p + j) = T (knot U) p span u (ctrl P) (Z.to_nat j) 0) /\
  (forall j, (1 <= j <= num)%Z -> ctrl R (span - s + num - j) = T (knot U) p span u (ctrl P) (Z.to_nat j) (p - s - j)) /\
  (forall i, (span - p + num < i < span - s)%Z -> ctrl R i = T (knot U) p span u (ctrl P) (Z.to_nat num) (i - (span - p + num))).

Lemma knot_insertion_ok p n U P u num s span junk :
  valid_knots p n U -> lenZ P = (n + 1)%Z -> lenZ junk = (n + 1 + num)%Z ->
  (0 <= num)%Z -> (0 <= s)%Z -> (num + s <= p)%Z -> (p <= span <= n)%Z ->
  knot U span < knot U (span + 1) ->
  exists R, knot_insertion p U P u num s span junk = Ok R /\ rows_after U P p u num s span R.
Proof.
  intros V LP LJ Hnum Hs Hns Hsp Hlt. pose proof V as [Hp [LU [M _]]].
  unfold knot_insertion.
  destruct (copy_rows_ok pt0 0 (span - p + 1) 0 0 P junk) as [r1 [E1 [L1 [A1 _]]]]. { intros; lia. }
  rewrite E1. cbn [bind].
  destruct (copy_rows_ok pt0 (span - s) (lenZ P) num 0 P r1) as [r2 [E2 [L2 [B1 B2]]]]. { intros; lia. }
  rewrite E2. cbn [bind].
  destruct (copy_rows_ok pt0 0 (p - s + 1) 0 (span - p) P (repeat (mkpt 0 0 0 0) (Z.to_nat (p + 1)))) as [t0 [E3 [L3 [C1 _]]]].
  { intros. rewrite lenZ_repeat. lia. }
  rewrite E3. cbn [bind]. rewrite lenZ_repeat in L3.
  set (TT := T (knot U) p span u (ctrl P)).
  destruct (forZ_inv (fun j st => let '(t, r) := st in
     lenZ t = (p+1)%Z /\ lenZ r = (n + 1 + num)%Z /\
     (forall i, (0 <= i <= p - s - (j - 1))%Z -> atZ pt0 t i = TT (Z.to_nat (j - 1)) i) /\
     (forall i, (0 <= i <= span - p)%Z -> atZ pt0 r i = ctrl P i) /\
     (forall i, (span - s + num <= i < lenZ P + num)%Z -> atZ pt0 r i = ctrl P (i - num)) /\
     (forall k, (1 <= k < j)%Z -> atZ pt0 r (span - p + k) = TT (Z.to_nat k) 0%Z) /\
     (forall k, (1 <= k < j)%Z -> atZ pt0 r (span - s + num - k) = TT (Z.to_nat k) (p - s - k)%Z))
     (insertion_outer p U u num s span) 1 (num + 1) (t0, r2)) as [[t r] [E4 [I1 [I2 [I3 [I4 [I5 [I6 I7]]]]]]]].
  - lia.
  - split; [lia|]. split; [lia|]. split.
    { intros i Hi. specialize (C1 i ltac:(lia)). rewrite Z.add_0_r in C1. rewrite C1. unfold TT, ctrl.
      replace (Z.to_nat (1 - 1)) with O by lia. cbn [T]. f_equal. lia. }
    split. { intros i Hi. destruct (Z_lt_dec i (span - s + num)).
      - rewrite B2 by lia. specialize (A1 i ltac:(lia)). rewrite !Z.add_0_r in A1. auto.
      - specialize (B1 i ltac:(lia)). rewrite Z.add_0_r in B1. replace (i + num)%Z with i in B1 by lia. auto. }
    split. { intros i Hi. specialize (B1 (i - num)%Z ltac:(lia)). rewrite Z.add_0_r in B1.
      replace (i - num + num)%Z with i in B1 by lia. auto. }
    split; intros; lia.
  - intros j [t r] Hj [I1 [I2 [I3 [I4 [I5 [I6 I7]]]]]]. unfold insertion_outer.
    destruct (insertion_inner_loop p U u span j s t (ctrl P)) as [t' [F1 [F2 F3]]]; auto; try lia.
    { intros i Hi X. assert (knot U (span - p + j + i) <= knot U span) by (apply M; lia).
      assert (knot U (span + 1) <= knot U (i + span + 1)) by (apply M; lia). rewrite X in H. qlra. }
    { intros i Hi. apply I3. lia. }
    rewrite F1. cbn [bind]. rewrite !(rdZ_ok pt0 t') by lia. cbn [bind].
    rewrite wrZ_ok by lia. cbn [bind]. rewrite wrZ_ok by (rewrite lenZ_upd; lia). cbn [bind].
    rewrite !F3 by lia.
    eexists. split; [reflexivity|]. cbv beta iota. rewrite !lenZ_upd.
    split; [lia|]. split; [lia|]. split. { intros i Hi. replace (j + 1 - 1)%Z with j by lia. apply F3. lia. }
    split. { intros i Hi. rewrite !atZ_upd_neq by lia. apply I4; lia. }
    split. { intros i Hi. rewrite !atZ_upd_neq by lia. apply I5; lia. }
    replace (span + num - j - s)%Z with (span - s + num - j)%Z by lia.
    replace (p - j - s)%Z with (p - s - j)%Z by lia.
    split.
    + intros k Hk. destruct (Z.eq_dec (span - p + k) (span - s + num - j)) as [Eq|Ne].
      * rewrite Eq. rewrite atZ_upd_eq by (rewrite lenZ_upd; lia). fold (TT (Z.to_nat j)).
        assert (k = j /\ p - s - j = 0)%Z as [-> ->] by lia. auto.
      * rewrite atZ_upd_neq by lia. destruct (Z.eq_dec k j) as [->|].
        -- rewrite atZ_upd_eq by lia. auto.
        -- rewrite atZ_upd_neq by lia. apply I6; lia.
    + intros k Hk. destruct (Z.eq_dec k j) as [->|].
      * rewrite atZ_upd_eq by (rewrite lenZ_upd; lia). auto.
      * rewrite atZ_upd_neq by lia. rewrite atZ_upd_neq by lia. apply I7; lia.
  - rewrite E4. cbn [bind].
    destruct (copy_rows_ok pt0 (span - p + num + 1) (span - s) 0 (- (span - p + num)) t r) as [R [E5 [L5 [D1 D2]]]].
    { intros; lia. }
    exists R. split; auto. unfold rows_after, ctrl.
    split; [lia|].
    split. { intros i Hi. rewrite D2 by lia. apply I4; lia. }
    split. { intros i Hi. rewrite D2 by lia. apply I5; lia. }
    split. { intros j Hj. rewrite D2 by lia. apply I6; lia. }
    split. { intros j Hj. rewrite D2 by lia. apply I7; lia. }
    intros i Hi. specialize (D1 i ltac:(lia)). rewrite Z.add_0_r in D1. rewrite D1.
    rewrite I3 by lia. replace (Z.to_nat (num + 1 - 1)) with (Z.to_nat num) by lia.
    unfold TT, ctrl. f_equal.
Qed.

(* ---- blossom of the triangle ---------------------------------------- *)

Lemma T_blossom U p span u P f s' :
  coord f ->
  (forall i j, (span - p + 1 <= i)%Z -> (i <= span)%Z -> (span + 1 <= j)%Z -> (j <= span + p)%Z -> U i <> U j) ->
  ndg U s' (Z.to_nat p) -> (0 <= p)%Z ->
  forall j i, (Z.of_nat j <= p)%Z -> (0 <= i)%Z -> (i + Z.of_nat j <= p)%Z ->
  (s' - p <= span - p + i)%Z -> (span - p + i + Z.of_nat j <= s')%Z ->
  f (T U p span u P j i)
  = chain U s' (kn U (span - p + i + Z.of_nat j) (Z.to_nat p - j) ++ repeat u j) (fun k => f (P k)).
Proof.
  intros Cf Nd Ng Hp. pose proof (chain_blossom U s' (Z.to_nat p) (fun k => f (P k)) Ng) as B.
  pose proof B as [Sy _].
  induction j as [|j IH]; intros i Hj Hi Hij W1 W2.
  - cbn [T repeat]. rewrite app_nil_r, Nat.sub_0_r. rewrite chain_dual; auto; [f_equal; f_equal; lia|lia].
  - cbn [T]. rewrite Cf. rewrite !IH by lia.
    set (q := (Z.to_nat p - S j)%nat).
    replace (Z.to_nat p - j)%nat with (S q) by (unfold q; lia).
    replace (span - p + (i + 1) + Z.of_nat j)%Z with (span - p + i + Z.of_nat (S j))%Z by lia.
    set (b := (span - p + i + Z.of_nat (S j))%Z).
    replace (span - p + Z.of_nat (S j) + i)%Z with b by (unfold b; lia).
    rewrite kn_snoc. cbn [kn].
    replace (span - p + i + Z.of_nat j + 1)%Z with b by (unfold b; lia).
    replace (span - p + i + Z.of_nat j)%Z with (b - 1)%Z by (unfold b; lia).
    replace (b - 1 + 1)%Z with b by lia.
    replace (b + Z.of_nat (S q))%Z with (i + span + 1)%Z by (unfold b, q; lia).
    assert (Lq : length (kn U b q ++ repeat u j) = Nat.pred (Z.to_nat p)).
    { rewrite app_length, kn_length, repeat_length. unfold q. lia. }
    assert (E1 : chain U s' ((kn U b q ++ [U (i + span + 1)%Z]) ++ repeat u j) (fun k => f (P k))
               = chain U s' (U (i + span + 1)%Z :: kn U b q ++ repeat u j) (fun k => f (P k))).
    { apply Sy. { rewrite !app_length, kn_length, repeat_length. simpl. unfold q. lia. }
      rewrite <- app_assoc. symmetry. apply Permutation_middle. }
    rewrite E1.
    assert (E2 : chain U s' (kn U b q ++ repeat u (S j)) (fun k => f (P k)) = chain U s' (u :: kn U b q ++ repeat u j) (fun k => f (P k))).
    { apply Sy. { rewrite app_length, kn_length, repeat_length. unfold q. lia. }
      cbn [repeat]. symmetry. apply Permutation_middle. }
    rewrite E2.
    assert (Hd : U b <> U (i + span + 1)%Z). { apply Nd; unfold b; lia. }
    assert (Hd' : U (i + span + 1)%Z - U b <> 0) by (intro; apply Hd; qlra).
    rewrite <- (blossom_combine (Z.to_nat p) _ B (U b) (U (i + span + 1)%Z) u (kn U b q ++ repeat u j)); auto.
    cbn [app]. field. auto.
Qed.

(* ---- old and new spans ---------------------------------------------- *)

Lemma span_new_old p n U u span num s V t sn :
  valid_knots p n U -> (0 <= num)%Z -> (p <= span <= n)%Z -> mult_at U u span s ->
  kv_after U u span num V -> knot V p <= t -> span_of p (n + num) V t sn ->
  exists so, span_of p n U t so /\ (((sn <= span - s)%Z /\ so = sn) \/ ((span + num <= sn)%Z /\ so = (sn - num)%Z)).
Proof.
  intros VU Hn Hs [M1 [M2 [M3 M4]]] KV Ht S. pose proof VU as [Hp [LU [Mo NN]]].
  pose proof KV as [LV [A [B C]]].
  assert (H1 : knot U span <= u).
  { destruct (Z_le_dec s 0). apply Qclt_le_weak, M3; lia. rewrite M2 by lia. apply Qcle_refl. }
  assert (H2 : u < knot U (span + 1)) by (apply M4; lia).
  assert (VV : valid_knots p (n + num) V) by (apply (kv_after_valid p n U u span num V); auto).
  pose proof (span_of_pos p (n+num) V t sn VV S) as Pos. pose proof S as [S1 [S2 S3]].
  assert (Top : knot V (n + num + 1) = knot U (n + 1)). { rewrite C by lia. f_equal. lia. }
  destruct (Z_le_dec sn (span - s)) as [L|L].
  - exists sn. split; [|left; auto].
    split; [lia|]. rewrite <- Top. split.
    + intro X. destruct (S2 X) as [T1 T2]. rewrite A in T1 by lia. split; auto.
      destruct (Z.eq_dec sn span) as [->|].
      * destruct (Z.eq_dec num 0) as [->|]. { rewrite C in T2 by lia. replace (span + 1 - 0)%Z with (span + 1)%Z in T2 by lia. auto. }
        rewrite B in T2 by lia. qlra.
      * rewrite A in T2 by lia. auto.
    + intro X. apply S3 in X. lia.
  - assert (G : (span + num <= sn)%Z).
    { destruct (Z_le_dec (span + num) sn); auto. exfalso.
      assert (knot V sn = u). { destruct (Z_le_dec sn span). rewrite A by lia. apply M2; lia. apply B; lia. }
      assert (knot V (sn + 1) = u). { destruct (Z_le_dec (sn + 1) span). rewrite A by lia. apply M2; lia. apply B; lia. }
      rewrite H, H0 in Pos. qlra. }
    exists (sn - num)%Z. split; [|right; auto]. split; [lia|]. rewrite <- Top. split.
    + intro X. destruct (S2 X) as [T1 T2]. rewrite C in T2 by lia.
      replace (sn + 1 - num)%Z with (sn - num + 1)%Z in T2 by lia. split; auto.
      destruct (Z.eq_dec sn (span + num)) as [->|].
      * replace (span + num - num)%Z with span by lia.
        destruct (Z.eq_dec num 0) as [->|]. { rewrite A in T1 by lia. replace (span + 0)%Z with span in T1 by lia. auto. }
        rewrite B in T1 by lia. qlra.
      * rewrite C in T1 by lia. auto.
    + intro X. apply S3 in X. lia.
Qed.

(* ---- the new control values are blossom values ---------------------- *)

Section NewControl.
Variables (p n : Z) (U V : list Qc) (P R : list pt) (u : Qc) (num s span : Z) (f : pt -> Qc).
Hypothesis VU : valid_knots p n U.
Hypothesis Hnum : (0 <= num)%Z.
Hypothesis Hns : (num + s <= p)%Z.
Hypothesis Hsp : (p <= span <= n)%Z.
Hypothesis Hm : mult_at U u span s.
Hypothesis KV : kv_after U u span num V.
Hypothesis LP : lenZ P = (n + 1)%Z.
Hypothesis RA : rows_after U P p u num s span R.
Hypothesis Cf : coord f.

Let d := fun i => f (ctrl P i).
Let e := fun i => f (ctrl R i).
Let pn := Z.to_nat p.

Lemma kn_V_left i j : (span - p <= i)%Z -> (0 <= j)%Z -> (i = span - p + j)%Z -> (j <= num)%Z ->
  kn (knot V) i pn = kn (knot U) i (pn - Z.to_nat j) ++ repeat u (Z.to_nat j).
Proof.
  destruct VU as [Hp _]. destruct KV as [LV [A [B C]]]. destruct Hm as [M1 _]. intros H1 H2 -> H4.
  replace pn with ((pn - Z.to_nat j) + Z.to_nat j)%nat at 1 by (unfold pn; lia).
  rewrite kn_app. f_equal.
  - apply kn_ext. intros k Hk. apply A. unfold pn in Hk. lia.
  - apply kn_const. intros k Hk. apply B. unfold pn in *. lia.
Qed.

Lemma kn_V_mid i : (span - p + num <= i)%Z -> (i <= span - s)%Z ->
  Permutation (kn (knot V) i pn) (kn (knot U) i (pn - Z.to_nat num) ++ repeat u (Z.to_nat num)).
Proof.
  destruct VU as [Hp [LU _]]. destruct KV as [LV [A [B C]]]. destruct Hm as [M1 _]. intros H1 H2.
  set (a := Z.to_nat (span - i)). set (b := (pn - Z.to_nat num - a)%nat).
  assert (E1 : kn (knot V) i pn = kn (knot V) i a ++ kn (knot V) (i + Z.of_nat a) (Z.to_nat num) ++ kn (knot V) (i + Z.of_nat a + num) b).
  { replace num with (Z.of_nat (Z.to_nat num)) at 2 by lia. rewrite <- !kn_app. f_equal. unfold b, a, pn. lia. }
  assert (E2 : kn (knot U) i (pn - Z.to_nat num) = kn (knot U) i a ++ kn (knot U) (i + Z.of_nat a) b).
  { rewrite <- kn_app. f_equal. unfold b, a, pn. lia. }
  rewrite E1, E2.
  rewrite (kn_ext (knot V) (knot U) a i i).
  2:{ intros k Hk. apply A. unfold a in Hk. lia. }
  rewrite (kn_const (knot V) u (Z.to_nat num)).
  2:{ intros k Hk. apply B. unfold a. lia. }
  rewrite (kn_ext (knot V) (knot U) b (i + Z.of_nat a + num) (i + Z.of_nat a)).
  2:{ intros k Hk. rewrite C by (unfold a, b, pn in *; lia). f_equal. lia. }
  rewrite <- app_assoc. apply Permutation_app_head. apply Permutation_app_comm.
Qed.

Lemma kn_V_right i j : (0 <= j)%Z -> (i = span - s + num - j)%Z -> (j <= num)%Z ->
  Permutation (kn (knot V) i pn) (kn (knot U) (span - s) (pn - Z.to_nat j) ++ repeat u (Z.to_nat j)).
Proof.
  destruct VU as [Hp [LU _]]. destruct KV as [LV [A [B C]]]. destruct Hm as [M1 [M2 _]]. intros H1 H2 H3.
  set (a := Z.to_nat (s + j)). set (b := (pn - a)%nat).
  assert (E1 : kn (knot V) i pn = repeat u (Z.to_nat s) ++ repeat u (Z.to_nat j) ++ kn (knot V) (i + Z.of_nat a) b).
  { rewrite app_assoc, <- repeat_app. rewrite <- (kn_const (knot V) u (Z.to_nat s + Z.to_nat j) i).
    - replace (Z.of_nat a) with (Z.of_nat (Z.to_nat s + Z.to_nat j)) by (unfold a; lia). rewrite <- kn_app. f_equal. unfold b, a, pn. lia.
    - intros k Hk. destruct (Z_le_dec (i + k) span). rewrite A by lia. apply M2. lia. apply B. lia. }
  assert (E2 : kn (knot U) (span - s) (pn - Z.to_nat j) = repeat u (Z.to_nat s) ++ kn (knot U) span b).
  { rewrite <- (kn_const (knot U) u (Z.to_nat s) (span - s)).
    - replace span with (span - s + Z.of_nat (Z.to_nat s))%Z at 3 by lia. rewrite <- kn_app. f_equal. unfold b, a, pn. lia.
    - intros k Hk. apply M2. lia. }
  rewrite E1, E2. rewrite (kn_ext (knot V) (knot U) b (i + Z.of_nat a) span).
  2:{ intros k Hk. rewrite C by (unfold a, b, pn in *; lia). f_equal. unfold a. lia. }
  rewrite <- app_assoc. apply Permutation_app_head. apply Permutation_app_comm.
Qed.

Lemma new_control so sn i : ndg (knot U) so pn -> (p <= so <= n)%Z -> (p <= sn <= n + num)%Z ->
  (((sn <= span - s)%Z /\ so = sn) \/ ((span + num <= sn)%Z /\ so = (sn - num)%Z)) ->
  (sn - p <= i <= sn)%Z ->
  e i = chain (knot U) so (kn (knot V) i pn) d.
Proof.
  intros Nd Ho Hn Hc Hi. pose proof VU as [Hp [LU [Mo _]]]. pose proof KV as [LV [A [B C]]].
  pose proof Hm as [M1 [M2 [M3 M4]]]. pose proof RA as [LR [RA1 [RB [RL [RR RM]]]]].
  pose proof (chain_blossom (knot U) so pn d Nd) as [Sy _].
  assert (Hlt : forall i j, (span - p + 1 <= i)%Z -> (i <= span)%Z -> (span + 1 <= j)%Z -> (j <= span + p)%Z -> knot U i <> knot U j).
  { intros a b H1 H2 H3 H4 X. assert (knot U a <= u).
    { destruct (Z_le_dec a (span - s)). apply Qclt_le_weak, M3; lia. rewrite M2 by lia. apply Qcle_refl. }
    assert (u < knot U b) by (apply M4; lia). rewrite X in H. qlra. }
  assert (TB : forall j k, (0 <= j <= p)%Z -> (0 <= k)%Z -> (k + j <= p)%Z -> (so - p <= span - p + k)%Z -> (span - p + k + j <= so)%Z ->
     f (T (knot U) p span u (ctrl P) (Z.to_nat j) k) = chain (knot U) so (kn (knot U) (span - p + k + j) (pn - Z.to_nat j) ++ repeat u (Z.to_nat j)) d).
  { intros j k H1 H2 H3 H4 H5. rewrite (T_blossom (knot U) p span u (ctrl P) f so Cf Hlt Nd) by lia.
    rewrite Z2Nat.id by lia. auto. }
  assert (Pm : forall l, Permutation (kn (knot V) i pn) l -> chain (knot U) so (kn (knot V) i pn) d = chain (knot U) so l d).
  { intros l Hl. apply Sy; auto. apply kn_length. }
  assert (LN : (lenZ P + num)%Z = (n + 1 + num)%Z) by lia.
  (* the middle rows, ends included *)
  assert (MID : (span - p + num <= i)%Z -> (i <= span - s)%Z -> (so - p <= i - num)%Z -> (i <= so)%Z ->
     e i = f (T (knot U) p span u (ctrl P) (Z.to_nat num) (i - (span - p + num)))).
  { intros H1 H2 H3 H4. unfold e. destruct (Z.eq_dec num 0) as [Z0|Z0].
    - replace (Z.to_nat num) with O by lia. cbn [T]. f_equal.
      replace (span - p + (i - (span - p + num)))%Z with i by lia.
      destruct (Z_le_dec i (span - p)). apply RA1; lia.
      destruct (Z.eq_dec i (span - s)). rewrite RB by lia. f_equal. lia.
      rewrite RM by lia. replace (Z.to_nat num) with O by lia. cbn [T]. f_equal. lia.
    - destruct (Z.eq_dec i (span - p + num)) as [Ei|].
      + rewrite Ei, RL by lia. do 2 f_equal. lia.
      + destruct (Z.eq_dec i (span - s)) as [Ei|].
        * replace i with (span - s + num - num)%Z at 1 by lia. rewrite RR by lia. do 2 f_equal. lia.
        * rewrite RM by lia. auto. }
  assert (MIDF : (span - p + num <= i)%Z -> (i <= span - s)%Z -> (so - p <= i - num)%Z -> (i <= so)%Z ->
     e i = chain (knot U) so (kn (knot V) i pn) d).
  { intros H1 H2 H3 H4. rewrite MID by auto. rewrite TB by lia.
    rewrite (Pm _ (kn_V_mid i H1 H2)). do 3 f_equal. lia. }
  destruct Hc as [[C1 ->]|[C1 C2]].
  - (* left of the new knots *)
    destruct (Z_le_dec i (span - p)) as [L|L].
    + rewrite (kn_ext (knot V) (knot U) pn i i).
      2:{ intros k Hk. apply A. unfold pn in Hk. lia. }
      rewrite chain_dual by (auto; unfold pn; lia). unfold e, d. f_equal. apply RA1; lia.
    + destruct (Z_le_dec i (span - p + num)) as [L2|L2].
      * set (j := (i - (span - p))%Z). unfold e. replace i with (span - p + j)%Z at 1 by (unfold j; lia).
        rewrite RL by (unfold j; lia). rewrite TB by (unfold j; lia).
        rewrite (kn_V_left i j) by (unfold j; lia). do 3 f_equal. unfold j. lia.
      * apply MIDF; lia.
  - (* right of the new knots *)
    destruct (Z_le_dec (span - s + num) i) as [L|L].
    + rewrite (kn_ext (knot V) (knot U) pn i (i - num)).
      2:{ intros k Hk. unfold pn in Hk. destruct (Z_le_dec (i + k) (span + num)).
          - transitivity u.
            + destruct (Z_le_dec (i + k) span). rewrite A by lia. apply M2; lia. apply B; lia.
            + symmetry. apply M2. lia.
          - rewrite C by lia. f_equal. lia. }
      rewrite chain_dual by (auto; unfold pn; lia). unfold e, d. f_equal. apply RB; lia.
    + destruct (Z_le_dec (span - s) i) as [L2|L2].
      * set (j := (span - s + num - i)%Z). unfold e. replace i with (span - s + num - j)%Z at 1 by (unfold j; lia).
        rewrite RR by (unfold j; lia). rewrite TB by (unfold j; lia).
        rewrite (Pm _ (kn_V_right i j ltac:(unfold j; lia) ltac:(unfold j; lia) ltac:(unfold j; lia))).
        do 3 f_equal. lia.
      * apply MIDF; lia.
Qed.

(* every coordinate keeps its value, at every parameter *)
Lemma insertion_keeps_coord t : knot U p <= t ->
  sum_to (n + num) (fun i => cox_de_boor V (n + num) (Z.to_nat p) i t * f (ctrl R i))
  = sum_to n (fun i => cox_de_boor U n (Z.to_nat p) i t * f (ctrl P i)).
Proof.
  intro Ht. pose proof VU as [Hp [LU [Mo _]]]. pose proof Hm as [M1 [M2 [M3 M4]]]. pose proof KV as [LV [A _]].
  assert (H1 : knot U span <= u).
  { destruct (Z_le_dec s 0). apply Qclt_le_weak, M3; lia. rewrite M2 by lia. apply Qcle_refl. }
  assert (H2 : u < knot U (span + 1)) by (apply M4; lia).
  assert (VV : valid_knots p (n + num) V) by (apply (kv_after_valid p n U u span num V); auto).
  assert (Ht' : knot V p <= t) by (rewrite A by lia; auto).
  destruct (find_span_span_of p (n + num) V t VV Ht') as [sn [_ SN]].
  destruct (span_new_old p n U u span num s V t sn VU Hnum Hsp Hm KV Ht' SN) as [so [SO Hc]].
  rewrite (cdb_sum_chain p (n+num) V t sn _ VV SN), (cdb_sum_chain p n U t so _ VU SO).
  pose proof (span_ndg p n U t so VU SO) as Nd.
  rewrite (blossom_chain pn (fun ts => chain (knot U) so ts d) (knot V) sn) with (rest := []).
  - rewrite app_nil_r. reflexivity.
  - apply chain_blossom. auto.
  - apply (span_ndg p (n+num) V t); auto.
  - rewrite repeat_length. simpl. unfold pn. lia.
  - intros i Hi. rewrite repeat_length in *. rewrite app_nil_r.
    pose proof SN as [SN1 _]. pose proof SO as [SO1 _].
    apply (new_control so sn i); auto; lia.
Qed.

End NewControl.
