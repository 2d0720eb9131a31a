(* Derivatives of the basis functions: the two-row table of ders_basis_funs. *)
From Coq Require Import List ZArith Lia Bool QArith Qcanon.
From Verif Require Import Common ListLib QcLib ArrZ SumLib SplineTheory NurbsModel NurbsSpec NurbsProofs SurfModel DerModel DerProofs1 DerProofs2.
Import ListNotations.
Local Open Scope Z_scope.
Local Open Scope Qc_scope.

(* N_l^{(k)} = p (p - 1) ... (p - k + 1) sum_j acoef k j N_{l+j, p-k} *)
Fixpoint acoef (U : Z -> Qc) (l : Z) (p k : nat) (j : Z) : Qc :=
  match k with
  | O => if (j =? 0)%Z then 1 else 0
  | S k' => (acoef U l p k' j - acoef U l p k' (j - 1)) / (U (l + j + Z.of_nat (p - k'))%Z - U (l + j)%Z)
  end.
Fixpoint ff (p k : nat) : Qc := match k with O => 1 | S k' => ff p k' * zq (Z.of_nat (p - k')) end.
Definition ind (l i : Z) : Qc := if (i =? l)%Z then 1 else 0.

Lemma dcoef_acoef U l p : forall k j, dcoef U p k (ind l) (l + j) = ff p k * acoef U l p k j.
Proof.
  induction k as [|k IH]; intro j; cbn [dcoef acoef ff].
  - unfold ind. destruct (Z.eqb_spec (l + j) l), (Z.eqb_spec j 0); try lia; ring.
  - unfold dstep. replace (l + j - 1)%Z with (l + (j - 1))%Z by lia. rewrite !IH. unfold Qcdiv. ring.
Qed.

Lemma acoef_zero U l p : forall k j, ~ (0 <= j <= Z.of_nat k)%Z -> acoef U l p k j = 0.
Proof.
  induction k as [|k IH]; intros j H; cbn [acoef].
  - destruct (Z.eqb_spec j 0); auto. lia.
  - rewrite !IH by lia. unfold Qcdiv. ring.
Qed.

Section Ders.
Variables (U : Z -> Qc) (s : Z) (u : Qc) (p : Z) (ndu : mat).
Hypothesis Hp : (0 <= p)%Z.
Hypothesis Nd : ndg U s (Z.to_nat p).
Hypothesis T : tri_ok U s u p (p + 1) ndu.

Let ac r k j := acoef U (s - p + r) (Z.to_nat p) (Z.to_nat k) j.
Let fj r k j := ac r k j * Bs U s u (Z.to_nat (p - k)) (s - p + r + j).
Definition val (r k : Z) : Qc := sum_n (S (Z.to_nat k)) 0 (fj r k).

Lemma ac_step r k j : (1 <= k)%Z ->
  ac r k j = (ac r (k - 1) j - ac r (k - 1) (j - 1)) / (U (s - p + r + j + (p - k + 1))%Z - U (s - p + r + j)%Z) \/ (p < k)%Z.
Proof.
  intros Hk. destruct (Z_lt_dec p k); [auto|]. left. unfold ac. replace (Z.to_nat k) with (S (Z.to_nat (k - 1))) by lia. cbn [acoef].
  replace (Z.of_nat (Z.to_nat p - Z.to_nat (k - 1))) with (p - k + 1)%Z by lia. auto.
Qed.

Lemma fj_zero r k j : (0 <= k <= p)%Z -> (j < k - r \/ p - r < j)%Z -> fj r k j = 0.
Proof. intros Hk H. unfold fj. rewrite Bs_support by lia. ring. Qed.

Lemma ndu_b r c : (0 <= r <= c)%Z -> (c <= p)%Z -> rdM ndu r c = Ok (Bs U s u (Z.to_nat c) (s - c + r)).
Proof. intros H1 H2. destruct T as [S1 [T1 _]]. rewrite (rdM_ok 0 _ (p + 1) (p + 1)) by (auto; lia). rewrite T1 by lia. auto. Qed.
Lemma ndu_d c r : (0 <= r < c)%Z -> (c <= p)%Z -> rdM ndu c r = Ok (U (s + r + 1)%Z - U (s + 1 - c + r)%Z).
Proof. intros H1 H2. destruct T as [S1 [_ T2]]. rewrite (rdM_ok 0 _ (p + 1) (p + 1)) by (auto; lia). rewrite T2 by lia. auto. Qed.
(* the divisor for the entry j of step k *)
Lemma ndu_div r k j : (0 <= r <= p)%Z -> (1 <= k <= p)%Z -> (k - r <= j <= p - r)%Z ->
  let x := U (s - p + r + j + (p - k + 1))%Z - U (s - p + r + j)%Z in
  rdM ndu (p - k + 1) (r - k + j) = Ok x /\ x <> 0.
Proof.
  intros Hr Hk Hj x. rewrite ndu_d by lia. subst x.
  replace (s + (r - k + j) + 1)%Z with (s - p + r + j + (p - k + 1))%Z by lia.
  replace (s + 1 - (p - k + 1) + (r - k + j))%Z with (s - p + r + j)%Z by lia. split; auto.
  intro H. apply (Nd (s - p + r + j)%Z (p - k + 1)%Z); try lia. clear - H. qlra.
Qed.
Lemma ndu_bas r k j : (0 <= r <= p)%Z -> (1 <= k <= p)%Z -> (k - r <= j <= p - r)%Z ->
  rdM ndu (r - k + j) (p - k) = Ok (Bs U s u (Z.to_nat (p - k)) (s - p + r + j)).
Proof. intros Hr Hk Hj. rewrite ndu_b by lia. f_equal. f_equal. lia. Qed.

Definition row_ok (r k s1 : Z) (a : mat) : Prop :=
  forall j, (0 <= j)%Z -> (k - r <= j)%Z -> (j <= k)%Z -> (j <= p - r)%Z -> atM 0 a s1 j = ac r k j.

Lemma val_split r k m : (0 <= m <= k)%Z -> (0 <= k <= p)%Z -> (forall j, (m < j <= k)%Z -> fj r k j = 0) ->
  sum_n (S (Z.to_nat m)) 0 (fj r k) = val r k.
Proof.
  intros Hm Hk H. unfold val. replace (S (Z.to_nat k)) with (S (Z.to_nat m) + Z.to_nat (k - m))%nat by lia.
  rewrite sum_n_app. rewrite (sum_n_zero (Z.to_nat (k - m))); [ring|]. intros i Hi. apply H. lia.
Qed.

Lemma ders_k_ok n r k a ders s1 s2 :
  (0 <= r <= p)%Z -> (1 <= k <= n)%Z -> (n <= p)%Z ->
  shapeM 2 (p + 1) a -> shapeM (n + 1) (p + 1) ders ->
  (s1 = 0 /\ s2 = 1 \/ s1 = 1 /\ s2 = 0)%Z -> row_ok r (k - 1) s1 a ->
  exists a', ders_k ndu p r k (a, ders, s1, s2) = Ok (a', updM ders k r (val r k), s2, s1) /\
    shapeM 2 (p + 1) a' /\ row_ok r k s2 a'.
Proof.
  intros Hr Hk Hn Sa Sd H12 R. unfold ders_k.
  assert (B1 : (0 <= s1 < 2)%Z) by lia. assert (B2 : (0 <= s2 < 2)%Z) by lia. assert (NE : s1 <> s2) by lia.
  assert (STEP : forall j, ac r k j = (ac r (k - 1) j - ac r (k - 1) (j - 1)) / (U (s - p + r + j + (p - k + 1))%Z - U (s - p + r + j)%Z)).
  { intro j. destruct (ac_step r k j); auto; lia. }
  set (j1 := if (-1 <=? r - k)%Z then 1%Z else (- (r - k))%Z).
  set (j2 := if (r - 1 <=? p - k)%Z then (k - 1)%Z else (p - r)%Z).
  assert (J1 : j1 = Z.max 1 (k - r)). { unfold j1. destruct (Z.leb_spec (-1) (r - k)); lia. }
  assert (J2 : j2 = Z.min (k - 1) (p - r)). { unfold j2. destruct (Z.leb_spec (r - 1) (p - k)); lia. }
  set (Inv := fun j (st : mat * Qc) => let '(m, d) := st in
    shapeM 2 (p + 1) m /\ (forall i, (0 <= i)%Z -> atM 0 m s1 i = atM 0 a s1 i) /\
    (forall i, (0 <= i < j)%Z -> (k - r <= i)%Z -> (i <= k)%Z -> (i <= p - r)%Z -> atM 0 m s2 i = ac r k i) /\
    d = sum_n (Z.to_nat j) 0 (fj r k)).
  (* the entry 0 *)
  assert (E1 : exists st, (if (k <=? r)%Z then
       do x <- rdM a s1 0 ; do z <- rdM ndu (p - k + 1) (r - k) ; do q <- divR x z ; do a' <- wrM a s2 0 q ;
       do w <- rdM ndu (r - k) (p - k) ; Ok (a', q * w) else Ok (a, 0)) = Ok st /\ Inv j1 st).
  { destruct (Z.leb_spec k r) as [L|L].
    - rewrite (rdM_ok 0 _ 2 (p + 1)) by (auto; lia). cbn [bind].
      destruct (ndu_div r k 0) as [D1 D2]; try lia. replace (r - k + 0)%Z with (r - k)%Z in D1 by lia. rewrite D1. cbn [bind].
      rewrite divR_ok by auto. cbn [bind]. rewrite (wrM_ok _ 2 (p + 1)) by (auto; lia). cbn [bind].
      pose proof (ndu_bas r k 0 ltac:(lia) ltac:(lia) ltac:(lia)) as W. replace (r - k + 0)%Z with (r - k)%Z in W by lia. rewrite W. cbn [bind].
      eexists. split; [reflexivity|].
      assert (Q0 : atM 0 a s1 0 / (U (s - p + r + 0 + (p - k + 1))%Z - U (s - p + r + 0)%Z) = ac r k 0).
      { rewrite (STEP 0%Z). rewrite R by lia. f_equal. unfold ac at 3. rewrite acoef_zero by lia. ring. }
      rewrite Q0. split; [apply shapeM_updM; auto; lia|]. split; [|split].
      + intros i Hi. apply (atM_updM_neq 0 _ 2 (p + 1)); auto; try lia.
      + intros i Hi _ _ _. assert (i = 0%Z) by lia. subst i. apply (atM_updM_eq 0 _ 2 (p + 1)); auto; lia.
      + replace (Z.to_nat j1) with 1%nat by lia. cbn [sum_n]. unfold fj. ring.
    - eexists. split; [reflexivity|]. split; auto. split; auto. split; [intros; lia|].
      rewrite sum_n_zero; auto. intros i Hi. apply fj_zero; lia. }
  destruct E1 as [[a1 d1] [E1 I1]]. cbv zeta. unfold mat in *. rewrite E1. cbn [bind]. clear E1.
  destruct (forZ_inv Inv (ders_mid ndu s1 s2 (r - k) (p - k)) j1 (j2 + 1) (a1, d1)) as [[a2 d2] [E2 I2]]; auto; try lia.
  { intros j [m d] Hj [A1 [A2 [A3 A4]]]. unfold ders_mid.
    rewrite (rdM_ok 0 _ 2 (p + 1)) by (auto; lia). cbn [bind]. rewrite (rdM_ok 0 _ 2 (p + 1)) by (auto; lia). cbn [bind].
    destruct (ndu_div r k j) as [D1 D2]; try lia. rewrite D1. cbn [bind]. rewrite divR_ok by auto. cbn [bind].
    rewrite (wrM_ok _ 2 (p + 1)) by (auto; lia). cbn [bind]. rewrite (ndu_bas r k j) by lia. cbn [bind].
    eexists. split; [reflexivity|]. rewrite !A2 by lia. rewrite !R by lia. rewrite <- (STEP j).
    split; [apply shapeM_updM; auto; lia|]. split; [|split].
    - intros i Hi. rewrite (atM_updM_neq 0 _ 2 (p + 1)) by (auto; lia). auto.
    - intros i Hi H3 H4 H5. destruct (Z.eq_dec i j) as [->|].
      + apply (atM_updM_eq 0 _ 2 (p + 1)); auto; lia.
      + rewrite (atM_updM_neq 0 _ 2 (p + 1)) by (auto; lia). apply A3; lia.
    - replace (Z.to_nat (j + 1)) with (S (Z.to_nat j)) by lia. rewrite sum_n_last. rewrite A4. unfold fj. replace (0 + Z.of_nat (Z.to_nat j))%Z with j by lia. auto. }
  unfold mat in *. rewrite E2. cbn [bind]. clear E2 I1 a1 d1. destruct I2 as [A1 [A2 [A3 A4]]].
  replace (Z.to_nat (j2 + 1)) with (S (Z.to_nat j2)) in A4 by lia.
  assert (E3 : exists m d, (if (r <=? p - k)%Z then
       do x <- rdM a2 s1 (k - 1) ; do z <- rdM ndu (p - k + 1) r ; do q <- divR (- x) z ; do a' <- wrM a2 s2 k q ;
       do w <- rdM ndu r (p - k) ; Ok (a', d2 + q * w) else Ok (a2, d2)) = Ok (m, d) /\ shapeM 2 (p + 1) m /\ row_ok r k s2 m /\ d = val r k).
  { destruct (Z.leb_spec r (p - k)) as [L|L].
    - rewrite (rdM_ok 0 _ 2 (p + 1)) by (auto; lia). cbn [bind].
      destruct (ndu_div r k k) as [D1 D2]; try lia. replace (r - k + k)%Z with r in D1 by lia. rewrite D1. cbn [bind].
      rewrite divR_ok by auto. cbn [bind]. rewrite (wrM_ok _ 2 (p + 1)) by (auto; lia). cbn [bind].
      pose proof (ndu_bas r k k ltac:(lia) ltac:(lia) ltac:(lia)) as W. replace (r - k + k)%Z with r in W by lia. rewrite W. cbn [bind].
      eexists. eexists. split; [reflexivity|].
      assert (Q0 : - atM 0 a2 s1 (k - 1) / (U (s - p + r + k + (p - k + 1))%Z - U (s - p + r + k)%Z) = ac r k k).
      { rewrite (STEP k). rewrite A2, R by lia. f_equal. unfold ac at 2. rewrite acoef_zero by lia. ring. }
      rewrite Q0. split; [apply shapeM_updM; auto; lia|]. split.
      + intros i H3 H4 H5 H6. destruct (Z.eq_dec i k) as [->|].
        * apply (atM_updM_eq 0 _ 2 (p + 1)); auto; lia.
        * rewrite (atM_updM_neq 0 _ 2 (p + 1)) by (auto; lia). apply A3; lia.
      + rewrite A4. unfold val. rewrite (sum_n_last (Z.to_nat k)). replace (S (Z.to_nat j2)) with (Z.to_nat k) by lia.
        unfold fj at 3. replace (0 + Z.of_nat (Z.to_nat k))%Z with k by lia. auto.
    - exists a2, d2. split; auto. split; auto. split.
      + intros i H3 H4 H5 H6. apply A3; lia.
      + rewrite A4. apply val_split; try lia. intros j Hj. apply fj_zero; lia. }
  destruct E3 as [m [d [E3 [M1 [M2 M3]]]]]. unfold mat in *. rewrite E3. cbn [bind]. rewrite (wrM_ok _ (n + 1) (p + 1)) by (auto; lia). cbn [bind].
  exists m. rewrite M3. auto.
Qed.

Lemma ders_r_ok n r a ders :
  (0 <= r <= p)%Z -> (0 <= n <= p)%Z -> shapeM 2 (p + 1) a -> shapeM (n + 1) (p + 1) ders ->
  exists a' ders', ders_r ndu p n r (a, ders) = Ok (a', ders') /\ shapeM 2 (p + 1) a' /\ shapeM (n + 1) (p + 1) ders' /\
    (forall k, (1 <= k <= n)%Z -> atM 0 ders' k r = val r k) /\
    (forall k c, (0 <= k)%Z -> (0 <= c)%Z -> (k = 0 \/ c <> r)%Z -> atM 0 ders' k c = atM 0 ders k c).
Proof.
  intros Hr Hn Sa Sd. unfold ders_r. rewrite (wrM_ok _ 2 (p + 1)) by (auto; lia). cbn [bind].
  set (Inv := fun k (st : mat * mat * Z * Z) => let '(m, ds, s1, s2) := st in
    shapeM 2 (p + 1) m /\ shapeM (n + 1) (p + 1) ds /\ (s1 = 0 /\ s2 = 1 \/ s1 = 1 /\ s2 = 0)%Z /\ row_ok r (k - 1) s1 m /\
    (forall i, (1 <= i < k)%Z -> atM 0 ds i r = val r i) /\
    (forall i c, (0 <= i)%Z -> (0 <= c)%Z -> (i = 0 \/ c <> r)%Z -> atM 0 ds i c = atM 0 ders i c)).
  destruct (forZ_inv Inv (ders_k ndu p r) 1 (n + 1) (updM a 0 0 1, ders, 0%Z, 1%Z)) as [[[[m ds] s1] s2] [E [I1 [I2 [I3 [I4 [I5 I6]]]]]]].
  - lia.
  - split; [apply shapeM_updM; auto; lia|]. split; auto. split; [auto|]. split; [|split; [intros; lia|auto]].
    intros j H1 H2 H3 H4. assert (j = 0%Z) by lia. subst j. rewrite (atM_updM_eq 0 _ 2 (p + 1)) by (auto; lia).
    unfold ac. replace (1 - 1)%Z with 0%Z by lia. reflexivity.
  - intros k [[[m ds] s1] s2] Hk [A1 [A2 [A3 [A4 [A5 A6]]]]].
    destruct (ders_k_ok n r k m ds s1 s2) as [m' [E [M1 M2]]]; auto; try lia.
    eexists. split; [exact E|]. split; auto. split; [apply shapeM_updM; auto; lia|]. split; [lia|].
    split; [replace (k + 1 - 1)%Z with k by lia; auto|]. split.
    + intros i Hi. destruct (Z.eq_dec i k) as [->|].
      * apply (atM_updM_eq 0 _ (n + 1) (p + 1)); auto; lia.
      * rewrite (atM_updM_neq 0 _ (n + 1) (p + 1)) by (auto; lia). apply A5. lia.
    + intros i c Hi Hc H. rewrite (atM_updM_neq 0 _ (n + 1) (p + 1)) by (auto; lia). auto.
  - unfold mat in *. rewrite E. cbn [bind]. exists m, ds. split; auto. split; auto. split; auto. split; auto. intros; apply I5; lia.
Qed.
End Ders.

Lemma val_dpiece U s u p r k : (0 <= r <= p)%Z -> (0 <= k <= p)%Z ->
  ff (Z.to_nat p) (Z.to_nat k) * val U s u p r k = dpiece U s (Z.to_nat p) (ind (s - p + r)) (Z.to_nat k) u.
Proof.
  intros Hr Hk. unfold dpiece, val, piece. destruct (Nat.leb_spec (Z.to_nat k) (Z.to_nat p)); [|lia].
  rewrite <- sum_n_scal. set (q := Z.to_nat (p - k)). replace (Z.to_nat p - Z.to_nat k)%nat with q by lia.
  set (g := fun i => Bs U s u q i * dcoef U (Z.to_nat p) (Z.to_nat k) (ind (s - p + r)) i).
  rewrite (sum_n_ext _ _ _ (fun j => g (j + (s - p + r))%Z)).
  2:{ intros j Hj. unfold g. replace (j + (s - p + r))%Z with (s - p + r + j)%Z by lia. rewrite dcoef_acoef. unfold q. ring. }
  rewrite sum_n_shift. replace (0 + (s - p + r))%Z with (s - p + r)%Z by lia.
  (* both sums are over the whole line *)
  assert (Z0 : forall i, ~ (s - Z.of_nat q <= i <= s)%Z \/ ~ (s - p + r <= i <= s - p + r + k)%Z -> g i = 0).
  { intros i [H1|H1]; unfold g; [rewrite Bs_support by auto; ring|].
    replace i with (s - p + r + (i - (s - p + r)))%Z by lia. rewrite dcoef_acoef, acoef_zero by lia. ring. }
  transitivity (sum_n (Z.to_nat (p + p + 2)) (s - p) g).
  - symmetry. apply sum_n_window; try lia. intros i Hi Hn. apply Z0. right. lia.
  - apply sum_n_window; try lia. intros i Hi Hn. apply Z0. left. lia.
Qed.

(* the factors p (p-1) ... *)
Lemma ders_basis_funs_ok p n s u U ders0 :
  (0 <= n <= p)%Z -> (p <= s)%Z -> (s + p < lenZ U)%Z -> ndg (knot U) s (Z.to_nat p) -> shapeM (n + 1) (p + 1) ders0 ->
  exists M, ders_basis_funs s u p n U ders0 = Ok M /\ shapeM (n + 1) (p + 1) M /\
    forall k j, (0 <= k <= n)%Z -> (0 <= j <= p)%Z ->
      atM 0 M k j = dpiece (knot U) s (Z.to_nat p) (ind (s - p + j)) (Z.to_nat k) u.
Proof.
  intros Hn Hs HU Nd Sh. unfold ders_basis_funs.
  destruct (all_basis_funs_ok p s u U) as [ndu [E T]]; auto; try lia. rewrite E. cbn [bind].
  destruct (forZ_inv (fun j (m : mat) => shapeM (n + 1) (p + 1) m /\ forall i, (0 <= i < j)%Z -> atM 0 m 0 i = Bs (knot U) s u (Z.to_nat p) (s - p + i))
     (fun j m => do x <- rdM ndu j p ; wrM m 0 j x) 0 (p + 1) ders0) as [d1 [E1 [S1 V1]]].
  { lia. } { split; auto. intros; lia. }
  { intros j m Hj [A1 A2]. rewrite (ndu_b (knot U) s u p ndu T) by lia. cbn [bind]. rewrite (wrM_ok _ (n + 1) (p + 1)) by (auto; lia).
    eexists. split; [reflexivity|]. split; [apply shapeM_updM; auto; lia|]. intros i Hi. destruct (Z.eq_dec i j) as [->|].
    - apply (atM_updM_eq 0 _ (n + 1) (p + 1)); auto; lia.
    - rewrite (atM_updM_neq 0 _ (n + 1) (p + 1)) by (auto; lia). apply A2. lia. }
  unfold mat in *. rewrite E1. cbn [bind].
  destruct (forZ_inv (fun r (st : mat * mat) => let '(a, m) := st in shapeM 2 (p + 1) a /\ shapeM (n + 1) (p + 1) m /\
      (forall i, (0 <= i <= p)%Z -> atM 0 m 0 i = atM 0 d1 0 i) /\
      (forall k i, (1 <= k <= n)%Z -> (0 <= i < r)%Z -> atM 0 m k i = val (knot U) s u p i k))
     (ders_r ndu p n) 0 (p + 1) (zerosM (0:Qc) 2 (p + 1), d1)) as [[a2 d2] [E2 [_ [S2 [V2 W2]]]]].
  { lia. } { split; [apply shape_zeros; lia|]. split; auto. split; auto. intros; lia. }
  { intros r [a m] Hr [A1 [A2 [A3 A4]]]. destruct (ders_r_ok (knot U) s u p ndu ltac:(lia) Nd T n r a m) as [a' [m' [E' [B1 [B2 [B3 B4]]]]]]; auto; try lia.
    exists (a', m'). split; auto. split; auto. split; auto. split.
    - intros i Hi. rewrite B4 by lia. auto.
    - intros k i Hk Hi. destruct (Z.eq_dec i r) as [->|]; [apply B3; lia|]. rewrite B4 by lia. apply A4; lia. }
  unfold mat in *. rewrite E2. cbn [bind].
  destruct (forZ_inv (fun k (st : mat * Z) => let '(m, f) := st in shapeM (n + 1) (p + 1) m /\ zq f = ff (Z.to_nat p) (Z.to_nat k) /\
      (forall i, (0 <= i <= p)%Z -> atM 0 m 0 i = atM 0 d1 0 i) /\
      (forall c i, (1 <= c < k)%Z -> (0 <= i <= p)%Z -> atM 0 m c i = ff (Z.to_nat p) (Z.to_nat c) * val (knot U) s u p i c) /\
      (forall c i, (k <= c <= n)%Z -> (0 <= i <= p)%Z -> atM 0 m c i = val (knot U) s u p i c))
     (ders_scale p) 1 (n + 1) (d2, p)) as [[d3 f3] [E3 [S3 [_ [V3 [W3 _]]]]]].
  { lia. }
  { split; auto. split. { change (Z.to_nat 1) with 1%nat. cbn [ff]. replace (Z.of_nat (Z.to_nat p - 0)) with p by lia. ring. }
    split; auto. split; [intros; lia|]. intros; apply W2; lia. }
  { intros k [m f] Hk [A1 [A2 [A3 [A4 A5]]]]. unfold ders_scale.
    destruct (forZ_inv (fun j (x : mat) => shapeM (n + 1) (p + 1) x /\
        (forall c i, (0 <= c)%Z -> (0 <= i)%Z -> (c <> k \/ j <= i)%Z -> atM 0 x c i = atM 0 m c i) /\
        (forall i, (0 <= i < j)%Z -> atM 0 x k i = atM 0 m k i * zq f))
       (fun j x => do y <- rdM x k j ; wrM x k j (y * zq f)) 0 (p + 1) m) as [m' [E' [B1 [B2 B3]]]].
    { lia. } { split; auto. split; auto. intros; lia. }
    { intros j x Hj [C1 [C2 C3]]. rewrite (rdM_ok 0 _ (n + 1) (p + 1)) by (auto; lia). cbn [bind].
      rewrite (wrM_ok _ (n + 1) (p + 1)) by (auto; lia). eexists. split; [reflexivity|]. split; [apply shapeM_updM; auto; lia|]. split.
      - intros c i Hc Hi H. rewrite (atM_updM_neq 0 _ (n + 1) (p + 1)) by (auto; lia). apply C2; lia.
      - intros i Hi. destruct (Z.eq_dec i j) as [->|].
        + rewrite (atM_updM_eq 0 _ (n + 1) (p + 1)) by (auto; lia). rewrite C2 by lia. auto.
        + rewrite (atM_updM_neq 0 _ (n + 1) (p + 1)) by (auto; lia). apply C3; lia. }
    unfold mat in *. rewrite E'. cbn [bind]. eexists. split; [reflexivity|]. split; auto. split; [|split; [|split]].
    - replace (Z.to_nat (k + 1)) with (S (Z.to_nat k)) by lia. cbn [ff]. rewrite <- A2. rewrite <- zq_mul. f_equal. f_equal. lia.
    - intros i Hi. rewrite B2 by lia. auto.
    - intros c i Hc Hi. destruct (Z.eq_dec c k) as [->|].
      + rewrite B3 by lia. rewrite A5 by lia. rewrite A2. ring.
      + rewrite B2 by lia. apply A4; lia.
    - intros c i Hc Hi. rewrite B2 by lia. apply A5; lia. }
  unfold mat in *. rewrite E3. cbn [bind]. exists d3. split; auto. split; auto. intros k j Hk Hj.
  rewrite <- val_dpiece by lia. destruct (Z.eq_dec k 0) as [->|].
  - rewrite V3, V1 by lia. change (Z.to_nat 0) with O. cbn [ff]. unfold val. change (Z.to_nat 0) with O. cbn [sum_n acoef].
    replace (p - 0)%Z with p by lia. replace (s - p + j + 0)%Z with (s - p + j)%Z by lia. cbn. ring.
  - apply W3; lia.
Qed.
