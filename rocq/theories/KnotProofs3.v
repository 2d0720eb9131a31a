(* deboor.pyx: the closed intervals at degree 0 count a knot twice, which
   cancels in the quotient when the multiplicities are at most the degree. *)
From Coq Require Import List ZArith Lia Bool QArith Qcanon.
From Verif Require Import Common ListLib QcLib ArrZ SplineTheory NurbsModel NurbsSpec NurbsProofs NurbsProofs2
  NurbsProofs3 NurbsEditModel KnotModel KnotProofs KnotProofs2.
Import ListNotations.
Local Open Scope Z_scope.
Local Open Scope Qc_scope.

Definition spans_sum (U : Z -> Qc) (t : Qc) (k : nat) (i : Z) (S : list Z) : Qc :=
  total (map (fun s => Bs U s t k i) S).

Lemma spans_sum_step U t k i S :
  spans_sum U t (Datatypes.S k) i S =
  (t - U i) / (U (i + Z.of_nat (Datatypes.S k))%Z - U i) * spans_sum U t k i S
  + (U (i + Z.of_nat (Datatypes.S k) + 1)%Z - t) / (U (i + Z.of_nat (Datatypes.S k) + 1)%Z - U (i + 1)%Z)
    * spans_sum U t k (i + 1) S.
Proof.
  unfold spans_sum. induction S as [|s S IH]; cbn [map total]. { ring. } rewrite IH. cbn [Bs]. ring.
Qed.

(* S lists the non-empty spans whose closed interval contains t *)
Definition covers (U : list Qc) (t : Qc) (S : list Z) : Prop :=
  forall i, (0 <= i)%Z -> (i + 1 < lenZ U)%Z -> knot U i <> knot U (i + 1) ->
    (if qle (knot U i) t && qle t (knot U (i + 1)) then 1 else 0) = spans_sum (knot U) t 0 i S.

Lemma cdeboor_step U t q i : (0 <= i)%Z -> (i + Z.of_nat (S q) + 1 < lenZ U)%Z -> forall v1 v2,
  cdeboor U t q i = Ok v1 -> cdeboor U t q (i + 1) = Ok v2 ->
  cdeboor U t (S q) i =
  Ok ((t - knot U i) / (knot U (i + Z.of_nat (S q)) - knot U i) * v1
      + (knot U (i + Z.of_nat (S q) + 1) - t) / (knot U (i + Z.of_nat (S q) + 1) - knot U (i + 1)) * v2).
Proof.
  intros H0 H1 v1 v2 E1 E2. cbn [cdeboor]. rewrite !rd_knot by lia. cbn [bind]. rewrite E1, E2. cbn [bind].
  assert (Z0 : forall a b v : Qc, a / (b - b) * v = 0).
  { intros. replace (b - b) with 0 by ring. unfold Qcdiv. replace (/ 0) with 0 by (apply Qc_is_canon; reflexivity). ring. }
  destruct (qeq (knot U (i + Z.of_nat (S q))) (knot U i)) eqn:A; cbn [bind];
  destruct (qeq (knot U (i + Z.of_nat (S q) + 1)) (knot U (i + 1))) eqn:B; cbn [bind];
  repeat match goal with H : qeq _ _ = true |- _ => apply qeq_true in H; rewrite H, Z0 end; f_equal; ring.
Qed.

Lemma cdeboor_zero U t i : (0 <= i)%Z -> (i + 1 < lenZ U)%Z ->
  cdeboor U t 0 i = Ok (if qle (knot U i) t && qle t (knot U (i + 1)) then 1 else 0).
Proof. intros. cbn [cdeboor]. rewrite !rd_knot by lia. reflexivity. Qed.

Lemma coef_zero a b v w : (b <> 0 -> v = w) -> a / b * v = a / b * w.
Proof.
  intro H. destruct (Qc_eq_dec b 0) as [->|N]; [|now rewrite H].
  unfold Qcdiv. replace (/ 0) with 0 by (apply Qc_is_canon; reflexivity). ring.
Qed.

Lemma cdeboor_spans U t S : covers U t S -> forall k i, (0 <= i)%Z -> (i + Z.of_nat k + 2 < lenZ U)%Z ->
  cdeboor U t (Datatypes.S k) i = Ok (spans_sum (knot U) t (Datatypes.S k) i S).
Proof.
  intros C. induction k as [|k IH]; intros i H0 H1.
  - rewrite (cdeboor_step U t 0 i H0 ltac:(lia) _ _ (cdeboor_zero U t i H0 ltac:(lia)) (cdeboor_zero U t (i + 1) ltac:(lia) ltac:(lia))).
    rewrite (spans_sum_step (knot U) t 0 i S). change (Z.of_nat 1) with 1%Z. f_equal. f_equal.
    + apply coef_zero. intro N. apply C; try lia. intro X. apply N. rewrite X. ring.
    + apply coef_zero. intro N. apply C; try lia. intro X. apply N. rewrite X. ring.
  - rewrite (cdeboor_step U t (Datatypes.S k) i H0 ltac:(lia) _ _ (IH i H0 ltac:(lia)) (IH (i + 1)%Z ltac:(lia) ltac:(lia))).
    f_equal. symmetry. apply spans_sum_step.
Qed.

(* ---- the two polynomial pieces that meet at a knot ---------------------- *)
Lemma one_and_zero a x : a <> 0 -> a / a * 1 + x * 0 = 1.
Proof. intro H. field. auto. Qed.
Lemma zero_and_one a x : a <> 0 -> x * 0 + a / a * 1 = 1.
Proof. intro H. field. auto. Qed.

Lemma Bs_left_delta U a t m : U a < t -> (forall j, (1 <= j <= Z.of_nat m)%Z -> U (a + j)%Z = t) ->
  forall k i, (k <= m)%nat -> Bs U a t k i = if (i =? a)%Z then 1 else 0.
Proof.
  intros Ha Hm. induction k as [|k IH]; intros i Hk; cbn [Bs]; auto.
  rewrite !IH by lia. destruct (Z.eqb_spec i a) as [->|N].
  - destruct (Z.eqb_spec (a + 1) a); [lia|]. rewrite Hm by lia.
    apply one_and_zero. intro; qlra.
  - destruct (Z.eqb_spec (i + 1) a) as [E|]; [|ring].
    replace (i + Z.of_nat (S k) + 1)%Z with (a + Z.of_nat (S k))%Z by lia. rewrite Hm by lia. unfold Qcdiv. ring.
Qed.

Lemma Bs_right_delta U b t m : t < U (b + 1)%Z -> (forall j, (0 <= j < Z.of_nat m)%Z -> U (b - j)%Z = t) ->
  forall k i, (k <= m)%nat -> Bs U b t k i = if (i =? b - Z.of_nat k)%Z then 1 else 0.
Proof.
  intros Hb Hm. induction k as [|k IH]; intros i Hk; cbn [Bs].
  - now replace (b - Z.of_nat 0)%Z with b by lia.
  - rewrite !IH by lia. destruct (Z.eqb_spec i (b - Z.of_nat (S k))) as [->|N].
    + destruct (Z.eqb_spec (b - Z.of_nat (S k)) (b - Z.of_nat k)); [lia|].
      destruct (Z.eqb_spec (b - Z.of_nat (S k) + 1) (b - Z.of_nat k)); [|lia].
      replace (b - Z.of_nat (S k) + Z.of_nat (S k) + 1)%Z with (b + 1)%Z by lia.
      replace (b - Z.of_nat (S k) + 1)%Z with (b - Z.of_nat k)%Z by lia. rewrite (Hm (Z.of_nat k)) by lia.
      apply zero_and_one. intro; qlra.
    + destruct (Z.eqb_spec (i + 1) (b - Z.of_nat k)); [lia|].
      destruct (Z.eqb_spec i (b - Z.of_nat k)) as [->|]; [|ring]. rewrite (Hm (Z.of_nat k)) by lia. unfold Qcdiv. ring.
Qed.

Lemma pieces_agree U a b t : (a < b)%Z -> U a < t -> t < U (b + 1)%Z ->
  (forall j, (a < j <= b)%Z -> U j = t) ->
  forall k i, (b - a <= Z.of_nat k)%Z -> Bs U a t k i = Bs U b t k i.
Proof.
  intros Hab Ha Hb Hm. assert (X : forall d i, Bs U a t (Z.to_nat (b - a) + d) i = Bs U b t (Z.to_nat (b - a) + d) i).
  { induction d as [|d IH]; intro i.
    - rewrite Nat.add_0_r. rewrite (Bs_left_delta U a t (Z.to_nat (b - a))); auto.
      2:{ intros; apply Hm; lia. }
      rewrite (Bs_right_delta U b t (Z.to_nat (b - a))); auto. 2:{ intros; apply Hm; lia. }
      now replace (b - Z.of_nat (Z.to_nat (b - a)))%Z with a by lia.
    - rewrite Nat.add_succ_r. cbn [Bs]. now rewrite !IH. }
  intros k i Hk. replace k with (Z.to_nat (b - a) + (k - Z.to_nat (b - a)))%nat by lia. apply X.
Qed.

(* ---- which spans contain t ----------------------------------------------- *)
Lemma last_below U t : forall s, (0 <= s)%Z -> (forall j, (0 <= j <= s)%Z -> knot U j <= t) -> sorted_knots U -> (s < lenZ U)%Z ->
  knot U s = t -> knot U 0 < t -> exists a, (0 <= a < s)%Z /\ knot U a < t /\ forall j, (a < j <= s)%Z -> knot U j = t.
Proof.
  intros s Hs. pattern s. apply natlike_ind; auto.
  - intros _ _ _ E H. rewrite E in H. exfalso. qlra.
  - intros x Hx IH Hle M HL E H0. destruct (Qc_eq_dec (knot U x) t) as [Ex|N].
    + destruct IH as [a [A [B C]]]; auto; try lia. { intros; apply Hle; lia. }
      exists a. split; [lia|]. split; auto. intros j Hj. destruct (Z.eq_dec j (Z.succ x)) as [->|]; auto. apply C; lia.
    + exists x. split; [lia|]. split.
      { assert (knot U x <= t) by (apply Hle; lia). apply Qcnot_le_lt. intro. apply N. apply Qcle_antisym; auto. }
      intros j Hj. assert (j = Z.succ x) by lia. now subst j.
Qed.

Lemma first_above U t s : sorted_knots U -> (0 <= s < lenZ U)%Z -> knot U s = t -> t < knot U (lenZ U - 1) ->
  exists b, (s <= b)%Z /\ (b + 1 < lenZ U)%Z /\ t < knot U (b + 1) /\ forall j, (s <= j <= b)%Z -> knot U j = t.
Proof.
  intros M Hs E Hl.
  assert (X : forall d, (0 <= d)%Z -> (s + d < lenZ U)%Z -> t < knot U (s + d) ->
    exists b, (s <= b)%Z /\ (b + 1 < lenZ U)%Z /\ t < knot U (b + 1) /\ forall j, (s <= j <= b)%Z -> knot U j = t).
  { intros d Hd. pattern d. apply natlike_ind; auto.
    - intros _ H. replace (s + 0)%Z with s in H by lia. rewrite E in H. exfalso. qlra.
    - intros x Hx IH HL H. destruct (Qc_eq_dec (knot U (s + x)) t) as [Ex|N].
      + exists (s + x)%Z. split; [lia|]. split; [lia|]. replace (s + x + 1)%Z with (s + Z.succ x)%Z by lia. split; auto.
        intros j Hj. assert (knot U s <= knot U j) by (apply M; lia). assert (knot U j <= knot U (s + x)) by (apply M; lia).
        apply Qcle_antisym; qlra.
      + apply IH; [lia|]. assert (knot U s <= knot U (s + x)) by (apply M; lia).
        apply Qcnot_le_lt. intro. apply N. apply Qcle_antisym; auto. qlra. }
  apply (X (lenZ U - 1 - s)%Z); try lia. now replace (s + (lenZ U - 1 - s))%Z with (lenZ U - 1)%Z by lia.
Qed.

Lemma ind_false U t i : knot U (i + 1) < t \/ t < knot U i -> qle (knot U i) t && qle t (knot U (i + 1)) = false.
Proof.
  intros H. apply andb_false_iff. destruct H; [right|left]; apply qle_false; auto.
Qed.
Lemma ind_true U t i : knot U i <= t -> t <= knot U (i + 1) -> qle (knot U i) t && qle t (knot U (i + 1)) = true.
Proof. intros. apply andb_true_intro. split; now apply qle_true. Qed.

Lemma one_span U t s : sorted_knots U -> (0 <= s)%Z -> (s + 1 < lenZ U)%Z ->
  knot U s <= t -> t <= knot U (s + 1) -> knot U s < knot U (s + 1) ->
  (knot U s < t \/ knot U 0 = t) -> (t < knot U (s + 1) \/ knot U (lenZ U - 1) = t) -> covers U t [s].
Proof.
  intros M H0 HL H1 H2 H3 C1 C2 i Hi Hl Hne. unfold spans_sum. cbn [map total Bs].
  destruct (Z.eqb_spec i s) as [->|N]. { rewrite ind_true by auto. ring. }
  rewrite ind_false. { ring. }
  assert (L0 : knot U i <= knot U (i + 1)) by (apply M; lia).
  assert (L1 : knot U i < knot U (i + 1)) by (apply Qcnot_le_lt; intro; apply Hne; apply Qcle_antisym; auto).
  destruct (Z_lt_dec i s).
  - assert (knot U (i + 1) <= knot U s) by (apply M; lia). assert (knot U 0 <= knot U i) by (apply M; lia).
    destruct C1; [left; qlra|]. right. subst t. exfalso. qlra.
  - assert (knot U (s + 1) <= knot U i) by (apply M; lia). assert (knot U (i + 1) <= knot U (lenZ U - 1)) by (apply M; lia).
    destruct C2; [right; qlra|]. left. subst t. exfalso. qlra.
Qed.

Lemma two_spans U t a b : sorted_knots U -> (0 <= a < b)%Z -> (b + 1 < lenZ U)%Z ->
  knot U a < t -> t < knot U (b + 1) -> (forall j, (a < j <= b)%Z -> knot U j = t) -> covers U t [a; b].
Proof.
  intros M H0 HL H1 H2 H3 i Hi Hl Hne. unfold spans_sum. cbn [map total Bs].
  destruct (Z.eqb_spec i a) as [->|N].
  { destruct (Z.eqb_spec a b); [lia|]. rewrite ind_true. ring. qlra. rewrite H3 by lia. apply Qcle_refl. }
  destruct (Z.eqb_spec i b) as [->|N1].
  { rewrite ind_true. ring. rewrite H3 by lia. apply Qcle_refl. qlra. }
  rewrite ind_false. { ring. }
  destruct (Z_lt_dec i a). { assert (knot U (i + 1) <= knot U a) by (apply M; lia). left; qlra. }
  destruct (Z_lt_dec b i). { assert (knot U (b + 1) <= knot U i) by (apply M; lia). right; qlra. }
  exfalso. apply Hne. now rewrite !H3 by lia.
Qed.

(* interior knots have multiplicity at most the degree *)
Definition inner_mult (p : Z) (U : list Qc) : Prop :=
  forall i, (0 <= i)%Z -> (i + p < lenZ U)%Z -> knot U 0 < knot U i -> knot U (i + p) < knot U (lenZ U - 1) ->
    knot U i < knot U (i + p).

Lemma cdeboor_scaled p n U t s : (1 <= p)%Z -> valid_knots p n U -> inner_mult p U ->
  span_of p n U t s -> knot U p <= t -> t <= knot U (n + 1) ->
  exists c, 0 < c /\ forall i, (0 <= i <= n)%Z ->
    cdeboor U t (Z.to_nat p) i = Ok (c * cox_de_boor U n (Z.to_nat p) i t).
Proof.
  intros Hp1 V IM S Ht0 Ht1. pose proof V as [Hp [L [M HN]]]. pose proof S as [Hs [S1 S2]].
  destruct (span_of_bounds p n U t s V S Ht1) as [B1 B2]. pose proof (span_of_pos p n U t s V S) as B3.
  assert (HB : forall i, (0 <= i <= n)%Z -> cox_de_boor U n (Z.to_nat p) i t = Bs (knot U) s t (Z.to_nat p) i).
  { intros. apply (cdb_Bs p n U t s); auto; lia. }
  assert (HP : exists k, Z.to_nat p = Datatypes.S k) by (exists (Z.to_nat (p - 1)); lia). destruct HP as [k Hk].
  assert (One : covers U t [s] -> exists c, 0 < c /\ forall i, (0 <= i <= n)%Z ->
    cdeboor U t (Z.to_nat p) i = Ok (c * cox_de_boor U n (Z.to_nat p) i t)).
  { intro C. exists 1. split; [apply qlt_true; vm_compute; auto|]. intros i Hi. rewrite HB by auto. rewrite Hk.
    rewrite (cdeboor_spans U t [s] C) by lia. unfold spans_sum. cbn [map total]. f_equal. ring. }
  assert (Two : forall a b, covers U t [a; b] -> (a = s \/ b = s) -> (0 <= a < b)%Z -> (b + 1 < lenZ U)%Z ->
    knot U a < t -> t < knot U (b + 1) -> (forall j, (a < j <= b)%Z -> knot U j = t) ->
    exists c, 0 < c /\ forall i, (0 <= i <= n)%Z ->
    cdeboor U t (Z.to_nat p) i = Ok (c * cox_de_boor U n (Z.to_nat p) i t)).
  { intros a b C Hor Hab Hb Ha Htb Hj. exists (1 + 1). split; [apply qlt_true; vm_compute; auto|]. intros i Hi.
    assert (Hm : (b - a <= p)%Z).
    { destruct (Z_le_dec (b - a) p); auto. exfalso.
      assert (knot U 0 <= knot U a) by (apply M; lia).
      assert (knot U (b + 1) <= knot U (lenZ U - 1)) by (apply M; lia).
      assert (K1 : knot U (a + 1) = t) by (apply Hj; lia). assert (K2 : knot U (a + 1 + p) = t) by (apply Hj; lia).
      assert (knot U (a + 1) < knot U (a + 1 + p)) by (apply IM; try lia; rewrite ?K1, ?K2; qlra).
      rewrite K1, K2 in *. qlra. }
    rewrite HB by auto. rewrite Hk. rewrite (cdeboor_spans U t [a; b] C) by lia. unfold spans_sum. cbn [map total].
    rewrite <- Hk. pose proof (pieces_agree (knot U) a b t ltac:(lia) Ha Htb Hj (Z.to_nat p) i ltac:(lia)) as PA.
    f_equal. destruct Hor as [<- | <-]; [rewrite <- PA|rewrite PA]; ring. }
  destruct (Qc_eq_dec (knot U s) t) as [Es|Es].
  - assert (t < knot U (s + 1)) by (rewrite <- Es; auto).
    destruct (Qc_eq_dec (knot U 0) t) as [E0|E0].
    + apply One. apply one_span; auto; lia.
    + assert (knot U 0 <= knot U s) by (apply M; lia).
      assert (knot U 0 < t) by (apply Qcnot_le_lt; intro; apply E0; apply Qcle_antisym; qlra).
      destruct (last_below U t s) as [a [A1 [A2 A3]]]; auto; try lia.
      { intros j Hj. assert (knot U j <= knot U s) by (apply M; lia). qlra. }
      apply (Two a s); auto; try lia. apply two_spans; auto; lia.
  - assert (knot U s < t) by (apply Qcnot_le_lt; intro; apply Es; apply Qcle_antisym; auto).
    destruct (Qc_eq_dec (knot U (s + 1)) t) as [E1|E1].
    + destruct (Qc_eq_dec (knot U (lenZ U - 1)) t) as [E2|E2].
      * apply One. apply one_span; auto; lia.
      * assert (knot U (s + 1) <= knot U (lenZ U - 1)) by (apply M; lia).
        assert (t < knot U (lenZ U - 1)) by (apply Qcnot_le_lt; intro; apply E2; apply Qcle_antisym; qlra).
        destruct (first_above U t (s + 1)) as [b [C1 [C2 [C3 C4]]]]; auto; try lia.
        apply (Two s b); auto; try lia; [apply two_spans; auto; try lia|]; intros j Hj; apply C4; lia.
    + assert (t < knot U (s + 1)) by (apply Qcnot_le_lt; intro; apply E1; apply Qcle_antisym; auto).
      apply One. apply one_span; auto; lia.
Qed.

(* ---- evaluate_nurbs ---------------------------------------------------- *)
Lemma quad_eq (a b c d a' b' c' d' : Qc) : a = a' -> b = b' -> c = c' -> d = d' -> (a, b, c, d) = (a', b', c', d').
Proof. intros; subst; auto. Qed.

Lemma db_loop_ok t P U k (B : Z -> Qc) x0 y0 z0 :
  (forall i, (0 <= i < lenZ P)%Z -> cdeboor U t k i = Ok (B i)) ->
  let S f := sum_n (Z.to_nat (lenZ P)) 0 (fun i => B i * pw (ctrl P i) * f (ctrl P i)) in
  forZ 0 (lenZ P) (x0, y0, z0, 0) (db_step t P U k)
  = Ok (x0 + S px, y0 + S py, z0 + S pz, S (fun _ => 1)).
Proof.
  intros HB S.
  set (T := fun (c : Z) f => sum_n (Z.to_nat c) 0 (fun i => B i * pw (ctrl P i) * f (ctrl P i))).
  destruct (forZ_inv (fun i st => st = (x0 + T i px, y0 + T i py, z0 + T i pz, T i (fun _ => 1)))
             (db_step t P U k) 0 (lenZ P) (x0, y0, z0, 0)) as [st [E I]].
  - apply lenZ_nonneg.
  - unfold T. change (Z.to_nat 0) with O. cbn [sum_n]. apply quad_eq; ring.
  - intros i st Hi ->. unfold db_step. rewrite HB by lia. cbn [bind].
    rewrite (rdZ_ok pt0) by lia. cbn [bind]. eexists. split; [reflexivity|].
    fold (ctrl P i).
    assert (X : forall f, T (i + 1)%Z f = T i f + B i * pw (ctrl P i) * f (ctrl P i)).
    { intro f. unfold T. replace (Z.to_nat (i + 1)) with (Datatypes.S (Z.to_nat i)) by lia.
      rewrite sum_n_last. rewrite Z2Nat.id by lia. now rewrite Z.add_0_l. }
    rewrite !X. apply quad_eq; ring.
  - rewrite E, I. reflexivity.
Qed.

Lemma div_scale a b c : c <> 0 -> b <> 0 -> (c * a) / (c * b) = a / b.
Proof. intros. field. auto. Qed.

Lemma mul_ne a b : a <> 0 -> b <> 0 -> a * b <> 0.
Proof. intros H1 H2 E. destruct (Qcmult_integral _ _ E); auto. Qed.

(* entered with the accumulator (x0, y0, z0) *)
Lemma cevaluate_acc p n U P t s x0 y0 z0 : (1 <= p)%Z -> valid_knots p n U -> inner_mult p U -> lenZ P = (n + 1)%Z ->
  span_of p n U t s -> knot U p <= t -> t <= knot U (n + 1) -> den U n p P t <> 0 ->
  exists c, 0 < c /\ cevaluate_nurbs t P U (Z.to_nat p) (x0, y0, z0) =
    Ok (rational U n p P px t + x0 / (c * den U n p P t),
        rational U n p P py t + y0 / (c * den U n p P t),
        rational U n p P pz t + z0 / (c * den U n p P t)).
Proof.
  intros Hp V IM LP S H1 H2 Hd. destruct (cdeboor_scaled p n U t s Hp V IM S H1 H2) as [c [Hc HB]].
  exists c. split; auto. unfold cevaluate_nurbs.
  rewrite (db_loop_ok t P U (Z.to_nat p) (fun i => c * cox_de_boor U n (Z.to_nat p) i t)).
  2:{ intros i Hi. apply HB. lia. }
  cbn [bind].
  assert (X : forall f, sum_n (Z.to_nat (lenZ P)) 0 (fun i => c * cox_de_boor U n (Z.to_nat p) i t * pw (ctrl P i) * f (ctrl P i))
      = c * sum_to n (fun i => cox_de_boor U n (Z.to_nat p) i t * pw (ctrl P i) * f (ctrl P i))).
  { intro f. rewrite LP. unfold sum_to. rewrite <- sum_n_scal. apply sum_n_ext. intros; ring. }
  rewrite (X px), (X py), (X pz). pose proof (X (fun _ => 1)) as X1. cbv beta in X1. rewrite X1.
  assert (Y : sum_to n (fun i => cox_de_boor U n (Z.to_nat p) i t * pw (ctrl P i) * 1) = den U n p P t).
  { unfold den, sum_to. apply sum_n_ext. intros; ring. }
  rewrite Y. assert (c <> 0) by (intro; subst c; qlra).
  rewrite !divR_ok by (apply mul_ne; auto). cbn [bind]. unfold rational. fold (den U n p P t).
  f_equal. f_equal; [f_equal|]; field; auto.
Qed.

Lemma evaluate_nurbs_ok p n U P t : (1 <= p)%Z -> valid_knots p n U -> inner_mult p U -> lenZ P = (n + 1)%Z ->
  knot U p <= t -> t <= knot U (n + 1) -> den U n p P t <> 0 ->
  evaluate_nurbs t P U (Z.to_nat p) = Ok (nurbs_point U n p P t).
Proof.
  intros Hp V IM LP H1 H2 Hd. destruct (find_span_span_of p n U t V H1) as [s [_ S]].
  destruct (cevaluate_acc p n U P t s 0 0 0 Hp V IM LP S H1 H2 Hd) as [c [_ E]].
  unfold evaluate_nurbs. rewrite E. unfold nurbs_point. unfold Qcdiv.
  f_equal. f_equal; [f_equal|]; ring.
Qed.

(* several parameters: the second row is wrong *)
Lemma multi_two p n U P t1 t2 : (1 <= p)%Z -> valid_knots p n U -> inner_mult p U -> lenZ P = (n + 1)%Z ->
  knot U p <= t1 -> t1 <= knot U (n + 1) -> den U n p P t1 <> 0 ->
  knot U p <= t2 -> t2 <= knot U (n + 1) -> den U n p P t2 <> 0 ->
  nurbs_point U n p P t1 <> (0, 0, 0) ->
  exists v1 v2, evaluate_nurbs_multi [t1; t2] P U (Z.to_nat p) = Ok [v1; v2] /\
    v1 = nurbs_point U n p P t1 /\ v2 <> nurbs_point U n p P t2.
Proof.
  intros Hp V IM LP A1 A2 A3 B1 B2 B3 Hnz. unfold evaluate_nurbs_multi. cbn [multi_loop].
  pose proof (evaluate_nurbs_ok p n U P t1 Hp V IM LP A1 A2 A3) as E1. unfold evaluate_nurbs in E1. rewrite E1. cbn [bind].
  destruct (find_span_span_of p n U t2 V B1) as [s [_ S]]. unfold nurbs_point at 1.
  destruct (cevaluate_acc p n U P t2 s (rational U n p P px t1) (rational U n p P py t1) (rational U n p P pz t1)
             Hp V IM LP S B1 B2 B3) as [c [Hc E]].
  rewrite E. cbn [bind]. eexists. eexists. split; [reflexivity|]. split; auto.
  unfold nurbs_point. intro X. apply Hnz. unfold nurbs_point.
  assert (Hcd : c * den U n p P t2 <> 0) by (apply mul_ne; auto; intro; subst c; qlra).
  assert (Z : forall a b d : Qc, d <> 0 -> a + b / d = a -> b = 0).
  { intros a b d Hd E0. assert (E2 : b / d = 0) by (transitivity (a + b / d - a); [ring|rewrite E0; ring]).
    transitivity (b / d * d); [field; auto|rewrite E2; ring]. }
  pose proof (f_equal (fun v : Qc * Qc * Qc => fst (fst v)) X) as X1.
  pose proof (f_equal (fun v : Qc * Qc * Qc => snd (fst v)) X) as X2.
  pose proof (f_equal (fun v : Qc * Qc * Qc => snd v) X) as X3. cbn [fst snd] in X1, X2, X3. apply Z in X1; auto. apply Z in X2; auto. apply Z in X3; auto. now rewrite X1, X2, X3.
Qed.

(* ---- the basis value itself ---------------------------------------------- *)
Lemma cdeboor_inside p n U t s : valid_knots p n U -> (p <= s <= n)%Z -> knot U s < t -> t < knot U (s + 1) ->
  forall k i, (Z.of_nat k <= p)%Z -> (0 <= i <= n)%Z ->
  cdeboor U t k i = Ok (cox_de_boor U n k i t).
Proof.
  intros V Hs H1 H2 k i Hk Hi. pose proof V as [Hp [L [M HN]]].
  assert (S : span_of p n U t s).
  { split; auto. split. { intros _. split; auto. qlra. }
    intro H. assert (knot U (s + 1) <= knot U (n + 1)) by (apply M; lia). qlra. }
  assert (C : covers U t [s]) by (apply one_span; auto; try lia; qlra).
  destruct k as [|k].
  - rewrite cdeboor_zero by lia. rewrite (cdb_Bs p n U t s) by (auto; lia). cbn [Bs].
    destruct (Qc_eq_dec (knot U i) (knot U (i + 1))) as [E|E].
    + rewrite ind_false. { destruct (Z.eqb_spec i s) as [->|]; auto. rewrite E in H1. exfalso. qlra. }
      destruct (Z_lt_dec i s). { left. assert (knot U (i + 1) <= knot U s) by (apply M; lia). qlra. }
      destruct (Z.eq_dec i s) as [->|]. { rewrite E in H1. exfalso. qlra. }
      right. assert (knot U (s + 1) <= knot U i) by (apply M; lia). qlra.
    + rewrite (C i) by (auto; lia). unfold spans_sum. cbn [map total Bs]. f_equal. ring.
  - rewrite (cdeboor_spans U t [s] C) by lia. unfold spans_sum. cbn [map total].
    rewrite (cdb_Bs p n U t s) by (auto; lia). f_equal. ring.
Qed.

(* at an inner knot every value is doubled *)
Lemma cdeboor_knot p n U s : (1 <= p)%Z -> valid_knots p n U -> inner_mult p U -> (p < s <= n)%Z ->
  knot U p < knot U s -> knot U s < knot U (n + 1) ->
  forall i, (0 <= i <= n)%Z ->
  cdeboor U (knot U s) (Z.to_nat p) i = Ok ((1 + 1) * cox_de_boor U n (Z.to_nat p) i (knot U s)).
Proof.
  intros Hp1 V IM Hs0 HL HR. set (t := knot U s) in *. pose proof V as [Hp [L [M HN]]].
  destruct (last_below U t s) as [a [A1 [A2 A3]]]; auto; try lia.
  { intros j Hj. apply M; lia. }
  { assert (knot U 0 <= knot U p) by (apply M; lia). qlra. }
  assert (Hlast : t < knot U (lenZ U - 1)).
  { assert (knot U (n + 1) <= knot U (lenZ U - 1)) by (apply M; lia). qlra. }
  destruct (first_above U t s) as [b [C1 [C2 [C3 C4]]]]; auto; try lia.
  assert (Hj : forall j, (a < j <= b)%Z -> knot U j = t).
  { intros j Hj. destruct (Z_le_dec j s); [apply A3|apply C4]; lia. }
  assert (C : covers U t [a; b]) by (apply two_spans; auto; lia).
  assert (Hm : (b - a <= p)%Z).
  { destruct (Z_le_dec (b - a) p); auto. exfalso.
    assert (knot U 0 <= knot U a) by (apply M; lia).
    assert (knot U (b + 1) <= knot U (lenZ U - 1)) by (apply M; lia).
    assert (K1 : knot U (a + 1) = t) by (apply Hj; lia). assert (K2 : knot U (a + 1 + p) = t) by (apply Hj; lia).
    assert (knot U (a + 1) < knot U (a + 1 + p)) by (apply IM; try lia; rewrite ?K1, ?K2; qlra).
    rewrite K1, K2 in *. qlra. }
  assert (Hb : (b <= n)%Z).
  { destruct (Z_le_dec b n); auto. assert (knot U (n + 1) <= knot U b) by (apply M; lia).
    rewrite (Hj b) in * by lia. exfalso. qlra. }
  assert (S : span_of p n U t b).
  { split; [lia|]. split. { intros _. rewrite (Hj b) by lia. split; auto. apply Qcle_refl. } intro. exfalso. qlra. }
  intros i Hi. replace (Z.to_nat p) with (Datatypes.S (Z.to_nat (p - 1))) by lia.
  rewrite (cdeboor_spans U t [a; b] C) by lia. unfold spans_sum. cbn [map total].
  replace (Datatypes.S (Z.to_nat (p - 1))) with (Z.to_nat p) by lia.
  rewrite (cdb_Bs p n U t b) by (auto; lia).
  rewrite (pieces_agree (knot U) a b t ltac:(lia) A2 C3 Hj (Z.to_nat p) i ltac:(lia)). f_equal. ring.
Qed.
