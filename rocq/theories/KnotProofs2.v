(* calc_basis_functions of bspline_utils.py: right for degrees 0 and 1, and
   for every higher degree the last value is zero. *)
From Coq Require Import List ZArith Lia Bool QArith Qcanon.
From Verif Require Import Common ListLib QcLib ArrZ SplineTheory NurbsModel NurbsSpec NurbsProofs NurbsProofs2
  NurbsProofs3 NurbsEditModel KnotModel KnotProofs.
Import ListNotations.
Local Open Scope Z_scope.
Local Open Scope Qc_scope.

(* partial correctness of the counting loop *)
Lemma for_n_ok {S} (Inv : Z -> S -> Prop) body : forall count lo st st',
  for_n count lo st body = Ok st' -> Inv lo st ->
  (forall i st st', (lo <= i < lo + Z.of_nat count)%Z -> Inv i st -> body i st = Ok st' -> Inv (i + 1)%Z st') ->
  Inv (lo + Z.of_nat count)%Z st'.
Proof.
  induction count as [|c IH]; intros lo st st' E I H; cbn [for_n] in E.
  - injection E as <-. now replace (lo + Z.of_nat 0)%Z with lo by lia.
  - destruct (body lo st) as [s1|] eqn:E1; cbn [bind] in E; [|discriminate].
    replace (lo + Z.of_nat (Datatypes.S c))%Z with (lo + 1 + Z.of_nat c)%Z by lia.
    apply (IH _ s1); auto. { apply (H lo st); auto. lia. }
    intros i s s' Hi. apply H. lia.
Qed.

Lemma forZ_ok {S} (Inv : Z -> S -> Prop) body lo hi st st' :
  forZ lo hi st body = Ok st' -> (lo <= hi)%Z -> Inv lo st ->
  (forall i st st', (lo <= i < hi)%Z -> Inv i st -> body i st = Ok st' -> Inv (i + 1)%Z st') ->
  Inv hi st'.
Proof.
  intros E Hle I H. unfold forZ in E.
  pose proof (for_n_ok Inv body _ _ _ _ E I) as X.
  replace (lo + Z.of_nat (Z.to_nat (hi - lo)))%Z with hi in X by lia. apply X.
  intros i s s' Hi. apply H. lia.
Qed.

Lemma wrZ_inv {A} (l l' : list A) i v : wrZ l i v = Ok l' -> (0 <= i < lenZ l)%Z /\ l' = upd l (Z.to_nat i) v.
Proof.
  intro E. destruct (Z_le_dec 0 i) as [H|H]; [destruct (Z_lt_dec i (lenZ l)) as [H1|H1]|].
  - rewrite wrZ_ok in E by lia. injection E as <-. auto.
  - rewrite wrZ_out in E by lia. discriminate.
  - rewrite wrZ_out in E by lia. discriminate.
Qed.

Lemma divR_inv a b c : divR a b = Ok c -> b <> 0 /\ c = a / b.
Proof.
  unfold divR. destruct (qeq b 0) eqn:E; [discriminate|]. apply qeq_false in E. intros [= <-]. auto.
Qed.

Lemma bindX {A B} (r : res A) (k : A -> res B) v : bind r k = Ok v -> exists a, r = Ok a /\ k a = Ok v.
Proof. destruct r; cbn [bind]; intro H; [eauto|discriminate]. Qed.

Lemma calc_inner_vanish p j lft rgt N N' sv : (1 <= j)%Z ->
  atZ 0 N (j - 1) * atZ 0 lft (p - (j - 1)) = 0 ->
  forZ 0 j (N, 0) (calc_inner lft rgt p) = Ok (N', sv) ->
  sv = 0 /\ lenZ N' = lenZ N.
Proof.
  intros Hj H0 E.
  pose proof (forZ_ok (fun r (st : list Qc * Qc) => let '(M, s) := st in
    lenZ M = lenZ N /\ (forall k, (r <= k)%Z -> atZ 0 M k = atZ 0 N k) /\ (r = j -> s = 0))
    (calc_inner lft rgt p) 0 j _ _ E) as X. cbv beta iota in X.
  destruct X as [A [_ B]]; auto.
  - lia.
  - intros r [M s] [M' s'] Hr [I1 [I2 _]] Eb. unfold calc_inner in Eb.
    apply bindX in Eb. destruct Eb as [rv [_ Eb]].
    apply bindX in Eb. destruct Eb as [lv [E2 Eb]]. apply (rdZ_inv 0) in E2. destruct E2 as [_ ->].
    apply bindX in Eb. destruct Eb as [nr [E3 Eb]]. apply (rdZ_inv 0) in E3. destruct E3 as [_ ->].
    apply bindX in Eb. destruct Eb as [tp [E4 Eb]]. apply divR_inv in E4. destruct E4 as [_ ->].
    apply bindX in Eb. destruct Eb as [M1 [E5 Eb]]. apply wrZ_inv in E5. destruct E5 as [R ->].
    injection Eb as <- <-. rewrite lenZ_upd. split; auto. split.
    + intros k Hk. rewrite atZ_upd_neq by lia. apply I2. lia.
    + intro Hrj. assert (r = j - 1)%Z by lia. subst r. rewrite I2 by lia. unfold Qcdiv.
      replace (atZ 0 lft (p - (j - 1)) * (atZ 0 N (j - 1) * / (rv + atZ 0 lft (p - (j - 1)))))
        with (atZ 0 N (j - 1) * atZ 0 lft (p - (j - 1)) * / (rv + atZ 0 lft (p - (j - 1)))) by ring.
      rewrite H0. ring.
Qed.

Lemma calc_last_zero s u p U N : (2 <= p)%Z -> calc_basis_functions s u p U = Ok N -> atZ 0 N p = 0.
Proof.
  intros Hp E. unfold calc_basis_functions in E.
  set (zs := repeat (0 : Qc) (Z.to_nat (p + 1))) in *.
  assert (Lz : lenZ zs = (p + 1)%Z) by (unfold zs; rewrite lenZ_repeat; lia).
  rewrite wrZ_ok in E by lia. cbn [bind] in E.
  apply bindX in E. destruct E as [[[N1 l1] r1] [E E']]. injection E' as <-.
  pose proof (forZ_ok (fun j (st : list Qc * list Qc * list Qc) => let '(N, l, r) := st in
    lenZ N = (p + 1)%Z /\ lenZ l = (p + 1)%Z /\
    ((j <= p)%Z -> atZ 0 l p = 0) /\ ((2 <= j)%Z -> atZ 0 N (j - 1) = 0))
    (calc_outer s u p U) 1 (p + 1) _ _ E) as X. cbv beta iota in X.
  destruct X as [_ [_ [_ X]]].
  - lia.
  - rewrite lenZ_upd. split; auto. split; auto. split; [|lia]. intros _. unfold zs. apply atZ_repeat.
  - intros j [[M l] r] [[M' l'] r'] Hj [I1 [I2 [I3 I4]]] Eb. unfold calc_outer in Eb.
    apply bindX in Eb. destruct Eb as [a [_ Eb]].
    apply bindX in Eb. destruct Eb as [la [E2 Eb]]. apply wrZ_inv in E2. destruct E2 as [R2 ->].
    apply bindX in Eb. destruct Eb as [b [_ Eb]].
    apply bindX in Eb. destruct Eb as [ra [_ Eb]].
    apply bindX in Eb. destruct Eb as [[M1 sv] [E5 Eb]].
    apply bindX in Eb. destruct Eb as [M2 [E6 Eb]]. injection Eb as <- <- <-.
    apply calc_inner_vanish in E5; try lia.
    2:{ destruct (Z.eq_dec j 1) as [->|].
        - rewrite atZ_upd_neq by lia. replace (p - (1 - 1))%Z with p by lia. rewrite I3 by lia. ring.
        - rewrite I4 by lia. ring. }
    destruct E5 as [-> LM]. apply wrZ_inv in E6. destruct E6 as [R6 ->]. rewrite !lenZ_upd.
    split; [lia|]. split; [lia|]. split.
    + intro. rewrite atZ_upd_neq by lia. apply I3; lia.
    + intros _. replace (j + 1 - 1)%Z with j by lia. apply atZ_upd_eq. lia.
  - replace p with (p + 1 - 1)%Z at 1 by lia. apply X. lia.
Qed.

(* the last basis function is positive inside the span *)
Lemma Bs_last_pos U s t : forall q, (forall k, (1 <= k <= Z.of_nat q)%Z -> U s < U (s + k)%Z) -> U s < t ->
  0 < Bs U s t q s.
Proof.
  induction q as [|q IH]; intros H Ht; cbn [Bs].
  - rewrite Z.eqb_refl. apply qlt_true. vm_compute. auto.
  - rewrite (Bs_support U s t q (s + 1)) by lia.
    assert (0 < (t - U s) / (U (s + Z.of_nat (S q))%Z - U s)).
    { apply qc_div_pos. qlra. assert (U s < U (s + Z.of_nat (S q))%Z) by (apply H; lia). qlra. }
    assert (0 < Bs U s t q s) by (apply IH; auto; intros; apply H; lia).
    assert (0 < (t - U s) / (U (s + Z.of_nat (S q))%Z - U s) * Bs U s t q s) by (apply qc_mul_pos; auto).
    set (a := (t - U s) / (U (s + Z.of_nat (S q))%Z - U s) * Bs U s t q s) in *.
    set (b := (U (s + Z.of_nat (S q) + 1)%Z - t) / (U (s + Z.of_nat (S q) + 1)%Z - U (s + 1)%Z)) in *.
    replace (a + b * 0) with a by ring. auto.
Qed.

Lemma calc_wrong p n U u s N : (2 <= p)%Z -> valid_knots p n U -> (p <= s <= n)%Z ->
  knot U s < u -> u < knot U (s + 1) ->
  calc_basis_functions s u p U = Ok N ->
  atZ 0 N p = 0 /\ 0 < cox_de_boor U n (Z.to_nat p) s u.
Proof.
  intros Hp V Hs H1 H2 E. split; [now apply (calc_last_zero s u p U)|].
  assert (S : span_of p n U u s).
  { split; auto. split. { intros _. split; auto. qlra. }
    intro H. destruct V as [_ [L [M _]]]. assert (knot U (s + 1) <= knot U (n + 1)) by (apply M; lia). qlra. }
  rewrite (cdb_Bs p n U u s) by (auto; lia). apply Bs_last_pos; auto.
  intros k Hk. destruct V as [_ [L [M _]]]. assert (knot U (s + 1) <= knot U (s + k)) by (apply M; lia). qlra.
Qed.

(* degrees 0 and 1 *)
Lemma calc_low p n U u s : (p <= 1)%Z -> valid_knots p n U -> span_of p n U u s ->
  exists N, calc_basis_functions s u p U = Ok N /\ lenZ N = (p + 1)%Z /\
    forall r, (0 <= r <= p)%Z -> atZ 0 N r = cox_de_boor U n (Z.to_nat p) (s - p + r) u.
Proof.
  intros Hp V S. pose proof V as [Hp0 [L [M HN]]]. pose proof S as [Hs _].
  assert (Hc : (p = 0 \/ p = 1)%Z) by lia. destruct Hc as [-> | ->].
  - exists [1]. split; [reflexivity|]. split; [reflexivity|]. intros r Hr. assert (r = 0)%Z by lia. subst r.
    rewrite (cdb_Bs 0 n U u s) by (auto; lia). cbn [Bs Z.to_nat]. replace (s - 0 + 0)%Z with s by lia.
    rewrite Z.eqb_refl. reflexivity.
  - pose proof (span_of_pos 1 n U u s V S) as Hpos.
    set (R := knot U (s + 1) - u). set (Lf := u - knot U s).
    assert (Hne : R + Lf <> 0) by (unfold R, Lf; intro X; qlra).
    exists [0 + R * (1 / (R + Lf)); Lf * (1 / (R + Lf))].
    split.
    + unfold calc_basis_functions. change (Z.to_nat (1 + 1)) with 2%nat. cbn [repeat].
      rewrite wrZ_ok by (unfold lenZ; cbn; lia). cbn [bind]. change (upd [0; 0] (Z.to_nat 0) 1) with [1; 0 : Qc].
      unfold forZ. change (Z.to_nat (1 + 1 - 1)) with 1%nat. cbn [for_n]. unfold calc_outer at 1.
      rewrite ?rd_knot by lia. cbn [bind]. rewrite wrZ_ok by (unfold lenZ; cbn; lia). cbn [bind].
      rewrite wrZ_ok by (unfold lenZ; cbn; lia). cbn [bind].
      replace (s + 1 - 1)%Z with s by lia. fold R Lf. change (Z.to_nat 1) with 1%nat.
      change (upd [0; 0] 1 Lf) with [0; Lf]. change (upd [0; 0] 1 R) with [0; R].
      change (forZ 0 1 ([1; 0], 0) (calc_inner [0; Lf] [0; R] 1)) with
        (do st' <- calc_inner [0; Lf] [0; R] 1 0 ([1; 0], 0) ; Ok st').
      assert (Ein : calc_inner [0; Lf] [0; R] 1 0 ([1; 0], 0) = Ok ([0 + R * (1 / (R + Lf)); 0], Lf * (1 / (R + Lf)))).
      { unfold calc_inner. change (rdZ [0; R] (0 + 1)) with (Ok R). cbn [bind].
        change (rdZ [0; Lf] (1 - 0)) with (Ok Lf). cbn [bind]. change (rdZ [1; 0 : Qc] 0) with (Ok (1 : Qc)). cbn [bind].
        rewrite divR_ok by auto. reflexivity. }
      rewrite Ein. cbn [bind]. rewrite wrZ_ok by (unfold lenZ; cbn; lia). reflexivity.
    + split; [reflexivity|]. intros r Hr. rewrite (cdb_Bs 1 n U u s) by (auto; lia).
      change (Z.to_nat 1) with 1%nat. cbn [Bs]. change (Z.of_nat 1) with 1%Z.
      assert (Hc : (r = 0 \/ r = 1)%Z) by lia. destruct Hc as [-> | ->].
      * replace (s - 1 + 0)%Z with (s - 1)%Z by lia. replace (s - 1 + 1)%Z with s by lia.
        rewrite Z.eqb_refl. destruct (Z.eqb_spec (s - 1) s); [lia|].
        change (atZ 0 [0 + R * (1 / (R + Lf)); Lf * (1 / (R + Lf))] 0) with (0 + R * (1 / (R + Lf))).
        unfold R, Lf. replace (knot U (s + 1) - u + (u - knot U s)) with (knot U (s + 1) - knot U s) by ring.
        unfold Qcdiv. ring.
      * replace (s - 1 + 1)%Z with s by lia. rewrite Z.eqb_refl. destruct (Z.eqb_spec (s + 1) s); [lia|].
        change (atZ 0 [0 + R * (1 / (R + Lf)); Lf * (1 / (R + Lf))] 1) with (Lf * (1 / (R + Lf))).
        unfold R, Lf. replace (knot U (s + 1) - u + (u - knot U s)) with (knot U (s + 1) - knot U s) by ring.
        unfold Qcdiv. ring.
Qed.

(* the point computed by calc_b_spline_point does not depend on the control
   point P[span] when the degree is at least 2 *)
Lemma calc_point_blind fuel p U P P' u s : (2 <= p)%Z ->
  utils_find_span fuel p u U = Ok s -> lenZ P = lenZ P' ->
  (forall i, i <> s -> atZ pt0 P i = atZ pt0 P' i) ->
  calc_b_spline_point fuel p U P u = calc_b_spline_point fuel p U P' u.
Proof.
  intros Hp Es HL Hag. unfold calc_b_spline_point. rewrite Es. cbn [bind].
  destruct (calc_basis_functions s u p U) as [N|] eqn:EN; cbn [bind]; auto.
  pose proof (calc_last_zero _ _ _ _ _ Hp EN) as HZ.
  assert (X : forall c lo st, (0 <= lo)%Z -> for_n c lo st (calc_point_step s p P N) = for_n c lo st (calc_point_step s p P' N)).
  { induction c as [|c IH]; intros lo st H0; cbn [for_n]; auto.
    assert (Y : calc_point_step s p P N lo st = calc_point_step s p P' N lo st).
    { unfold calc_point_step. destruct st as [[[c0 c1] c2] c3].
      destruct (Z_le_dec 0 (s - p + lo)) as [Q|Q]; [destruct (Z_lt_dec (s - p + lo) (lenZ P)) as [Q1|Q1]|].
      - rewrite !(rdZ_ok pt0) by lia. cbn [bind].
        destruct (Z.eq_dec lo p) as [->|].
        + destruct (rdZ N p) as [np|] eqn:ENp; cbn [bind]; auto.
          apply (rdZ_inv 0) in ENp. destruct ENp as [_ ->]. rewrite HZ. f_equal.
          repeat (f_equal; [|ring]). ring.
        + rewrite Hag by lia. reflexivity.
      - rewrite (rdZ_out P), (rdZ_out P') by lia. auto.
      - rewrite (rdZ_out P), (rdZ_out P') by lia. auto. }
    rewrite Y. destruct (calc_point_step s p P' N lo st); cbn [bind]; auto. apply IH. lia. }
  unfold forZ. apply X. lia.
Qed.
