From Coq Require Import List ZArith Lia Bool QArith Qcanon Qround Permutation.
From Verif Require Import Common ListLib QcLib ArrZ SplineTheory NurbsModel NurbsSpec.
Import ListNotations.
Local Open Scope Z_scope.
Local Open Scope Qc_scope.

Lemma divR_ok a b : b <> 0 -> divR a b = Ok (a / b).
Proof. intro H. unfold divR. destruct (qeq b 0) eqn:E; auto. apply qeq_true in E. contradiction. Qed.
Lemma divR_zero a : divR a 0 = Err ZeroDivision.
Proof. unfold divR. destruct (qeq 0 0) eqn:E; auto. apply qeq_false in E. contradiction. Qed.

Lemma rd_knot U i : (0 <= i < lenZ U)%Z -> rdZ U i = Ok (knot U i).
Proof. intro. unfold knot. now rewrite (rdZ_ok 0). Qed.

(* ---- find_span ------------------------------------------------------ *)

Lemma span_search_eq fuel u U low high mid :
  (0 <= mid)%Z -> (mid + 1 < lenZ U)%Z ->
  span_search fuel u U low high mid =
  if qlt u (knot U mid) || qle (knot U (mid + 1)) u then
    match fuel with
    | O => Err OutOfFuel
    | S f => if qlt u (knot U mid) then span_search f u U low mid ((low + mid) / 2)%Z
             else span_search f u U mid high ((mid + high) / 2)%Z
    end
  else Ok mid.
Proof.
  intros H1 H2. destruct fuel; cbn [span_search]; rewrite !rd_knot by lia; cbn [bind];
  destruct (qlt u (knot U mid)); cbn [bind orb]; auto.
Qed.

Lemma span_search_ok u U : forall fuel low high,
  (0 <= low < high)%Z -> (high < lenZ U)%Z -> knot U low <= u -> u < knot U high ->
  (high - low <= Z.of_nat fuel)%Z ->
  exists m, span_search fuel u U low high ((low + high) / 2) = Ok m /\
    (low <= m < high)%Z /\ knot U m <= u /\ u < knot U (m + 1).
Proof.
  induction fuel as [|f IH]; intros low high Hl Hh Hlo Hhi Hf; [lia|].
  assert (Hm : (low <= (low + high) / 2 < high)%Z).
  { split. apply Z.div_le_lower_bound; lia. apply Z.div_lt_upper_bound; lia. }
  set (m := ((low + high) / 2)%Z) in *.
  rewrite span_search_eq by lia.
  destruct (qlt u (knot U m)) eqn:E1; cbn [orb].
  - apply qlt_true in E1. assert (m <> low) by (intro X; rewrite X in E1; qlra).
    destruct (IH low m) as [r [R1 [R2 R3]]]; auto; try lia.
    exists r. split; auto. split; auto. lia.
  - apply qlt_false in E1. destruct (qle (knot U (m + 1)) u) eqn:E2.
    + apply qle_true in E2.
      assert (m <> low).
      { intro X. assert (high = low + 1)%Z.
        { unfold m in X. pose proof (Z.div_mod (low + high) 2). pose proof (Z.mod_pos_bound (low+high) 2). lia. }
        subst high. rewrite X in E2. qlra. }
      destruct (IH m high) as [r [R1 [R2 R3]]]; auto; try lia.
      exists r. split; auto. split; auto. lia.
    + apply qle_false in E2. exists m. split; auto.
Qed.

Lemma span_fuel_ge n p u U : (n + 3 <= Z.of_nat (span_fuel n p u U))%Z.
Proof. unfold span_fuel. lia. Qed.

Lemma find_span_open p n U u : valid_knots p n U -> knot U p <= u ->
  exists s, find_span n p u U false = Ok s /\ (p <= s <= n)%Z /\
    (u < knot U (n + 1) -> knot U s <= u /\ u < knot U (s + 1)) /\
    (knot U (n + 1) <= u -> s = n).
Proof.
  intros [Hp [L [M _]]] Hu. unfold find_span, find_span_fuel.
  rewrite !rd_knot by lia. cbn [bind].
  destruct (qle (knot U (n + 1)) u) eqn:E1.
  - apply qle_true in E1. exists n. split; auto. split; [lia|]. split; auto. intro. qlra.
  - apply qle_false in E1. rewrite ?rd_knot by lia. cbn [bind].
    assert (knot U 0 <= knot U p) by (apply M; lia).
    destruct (qlt u (knot U 0)) eqn:E2. { apply qlt_true in E2. qlra. }
    destruct (qeq u (knot U (n+1))) eqn:E3. { apply qeq_true in E3. subst. qlra. }
    destruct (span_search_ok u U (span_fuel n p u U) p (n+1)) as [s [S1 [S2 [S3 S4]]]]; auto; try lia.
    { pose proof (span_fuel_ge n p u U). lia. }
    exists s. split; auto. split; [lia|]. split; auto. intro. qlra.
Qed.

Lemma find_span_below p n U u : valid_knots p n U -> u < knot U 0 ->
  find_span n p u U false = Ok p.
Proof.
  intros [Hp [L [M _]]] Hu. unfold find_span, find_span_fuel.
  rewrite !rd_knot by lia. cbn [bind].
  assert (knot U 0 <= knot U (n+1)) by (apply M; lia).
  destruct (qle (knot U (n + 1)) u) eqn:E1. { apply qle_true in E1. qlra. }
  rewrite ?rd_knot by lia. cbn [bind].
  destruct (qlt u (knot U 0)) eqn:E2; auto. apply qlt_false in E2. qlra.
Qed.

(* a parameter between U_0 and U_p: the search never stops *)
Lemma span_search_stuck u U p : (0 <= p)%Z -> (p + 1 < lenZ U)%Z -> u < knot U p ->
  forall fuel, span_search fuel u U p p p = Err OutOfFuel.
Proof.
  intros H0 H1 H. induction fuel as [|f IH]; rewrite span_search_eq by lia.
  - assert (E : qlt u (knot U p) = true) by now apply qlt_true. rewrite E. auto.
  - assert (E : qlt u (knot U p) = true) by now apply qlt_true. rewrite E. cbn [orb].
    replace ((p + p) / 2)%Z with p by (rewrite Z.add_diag, Z.mul_comm, Z.div_mul; lia). auto.
Qed.

Lemma span_search_diverges u U p : (0 <= p)%Z -> u < knot U p ->
  (forall i, (p <= i < lenZ U)%Z -> knot U p <= knot U i) ->
  forall fuel high, (p <= high)%Z -> (high + 1 < lenZ U)%Z ->
  span_search fuel u U p high ((p + high) / 2) = Err OutOfFuel.
Proof.
  intros H0 Hu M. induction fuel as [|f IH]; intros high Hh Hl;
  assert (Hm : (p <= (p + high) / 2 <= high)%Z) by
    (split; [apply Z.div_le_lower_bound; lia | apply Z.div_le_upper_bound; lia]);
  rewrite span_search_eq by lia;
  assert (E : qlt u (knot U ((p + high)/2)) = true)
    by (apply qlt_true; assert (knot U p <= knot U ((p+high)/2)) by (apply M; lia); qlra);
  rewrite E; cbn [orb]; auto.
  apply IH; lia.
Qed.

Lemma find_span_diverges p n U u fuel : valid_knots p n U ->
  knot U 0 <= u -> u < knot U p -> (1 <= p)%Z ->
  find_span_fuel fuel n p u U false = Err OutOfFuel.
Proof.
  intros [Hp [L [M _]]] H0 Hu Hp1. unfold find_span_fuel.
  rewrite !rd_knot by lia. cbn [bind].
  assert (knot U p <= knot U (n+1)) by (apply M; lia).
  destruct (qle (knot U (n + 1)) u) eqn:E1. { apply qle_true in E1. qlra. }
  rewrite ?rd_knot by lia. cbn [bind].
  destruct (qlt u (knot U 0)) eqn:E2. { apply qlt_true in E2. qlra. }
  destruct (qeq u (knot U (n+1))) eqn:E3. { apply qeq_true in E3. subst. qlra. }
  apply span_search_diverges; auto; try lia. intros. apply M; lia.
Qed.

(* ---- basis_funs ----------------------------------------------------- *)

(* after outer iteration j the buffer holds the degree-j basis functions of
   the span *)
Lemma basis_inner_ok U s u lft rgt j N :
  (1 <= j)%Z -> (j < lenZ lft)%Z -> (j < lenZ rgt)%Z -> (j < lenZ N)%Z ->
  (forall k, (1 <= k <= j)%Z -> atZ 0 lft k = u - U (s + 1 - k)%Z) ->
  (forall k, (1 <= k <= j)%Z -> atZ 0 rgt k = U (s + k)%Z - u) ->
  (forall i k, (1 <= k <= j)%Z -> (s - k + 1 <= i <= s)%Z -> U i <> U (i + k)%Z) ->
  (forall r, (0 <= r < j)%Z -> atZ 0 N r = Bs U s u (Z.to_nat (j - 1)) (s - (j - 1) + r)) ->
  exists N' saved, forZ 0 j (N, 0) (basis_inner lft rgt j) = Ok (N', saved) /\
    lenZ N' = lenZ N /\
    (forall r, (0 <= r < j)%Z -> atZ 0 N' r = Bs U s u (Z.to_nat j) (s - j + r)) /\
    saved = Bs U s u (Z.to_nat j) s.
Proof.
  intros Hj Hll Hlr HlN HL HR Hnd HN.
  set (Inv := fun r (st : list Qc * Qc) =>
     lenZ (fst st) = lenZ N /\
     (forall k, (0 <= k < r)%Z -> atZ 0 (fst st) k = Bs U s u (Z.to_nat j) (s - j + k)) /\
     (forall k, (r <= k < j)%Z -> atZ 0 (fst st) k = Bs U s u (Z.to_nat (j-1)) (s - (j-1) + k)) /\
     snd st = (u - U (s - j + r)%Z) / (U (s + r)%Z - U (s - j + r)%Z) * Bs U s u (Z.to_nat (j-1)) (s - (j-1) + (r - 1))).
  destruct (forZ_inv Inv (basis_inner lft rgt j) 0 j (N, 0)) as [[N' saved] [E [I1 [I2 [I3 I4]]]]].
  - lia.
  - split; [auto|]. split; [intros; lia|]. split; [intros; apply HN; lia|].
    cbn [snd]. rewrite Bs_support by lia. ring.
  - intros r [N1 sv] Hr [A1 [A2 [A3 A4]]]. cbn [fst snd] in *. unfold basis_inner.
    rewrite (rdZ_ok 0 N1) by lia. cbn [bind].
    rewrite (rdZ_ok 0 rgt) by lia. cbn [bind].
    rewrite (rdZ_ok 0 lft) by lia. cbn [bind].
    rewrite HR by lia. rewrite HL by lia.
    replace (s + 1 - (j - r))%Z with (s - j + r + 1)%Z by lia.
    replace (s + (r + 1))%Z with (s + r + 1)%Z by lia.
    assert (Hd : U (s - j + r + 1)%Z <> U (s + r + 1)%Z).
    { replace (s + r + 1)%Z with (s - j + r + 1 + j)%Z by lia. apply Hnd; lia. }
    assert (Hd0 : U (s + r + 1)%Z - u + (u - U (s - j + r + 1)%Z) <> 0) by (intro; apply Hd; qlra).
    rewrite divR_ok by auto. cbn [bind]. rewrite wrZ_ok by lia. cbn [bind].
    eexists. split; [reflexivity|]. repeat split; cbn [fst snd].
    + now rewrite lenZ_upd.
    + intros k Hk. destruct (Z.eq_dec k r) as [->|Hne].
      * rewrite atZ_upd_eq by lia. rewrite A4, A3 by lia.
        replace (Z.to_nat j) with (S (Z.to_nat (j - 1))) by lia. cbn [Bs].
        replace (s - j + r + Z.of_nat (S (Z.to_nat (j - 1))))%Z with (s + r)%Z by lia.
        replace (s - (j - 1) + (r - 1))%Z with (s - j + r)%Z by lia.
        replace (s - (j - 1) + r)%Z with (s - j + r + 1)%Z by lia.
        replace (U (s + r + 1)%Z - u + (u - U (s - j + r + 1)%Z)) with (U (s + r + 1)%Z - U (s - j + r + 1)%Z) by ring.
        unfold Qcdiv. ring.
      * rewrite atZ_upd_neq by lia. apply A2. lia.
    + intros k Hk. rewrite atZ_upd_neq by lia. apply A3. lia.
    + rewrite A3 by lia.
      replace (s - j + (r + 1))%Z with (s - j + r + 1)%Z by lia.
      replace (s + (r + 1))%Z with (s + r + 1)%Z by lia.
      replace (r + 1 - 1)%Z with r by lia.
      replace (U (s + r + 1)%Z - u + (u - U (s - j + r + 1)%Z)) with (U (s + r + 1)%Z - U (s - j + r + 1)%Z) by ring.
      unfold Qcdiv. ring.
  - exists N', saved. split; auto. cbn [fst snd] in *. split; auto. split; auto.
    rewrite I4. replace (Z.to_nat j) with (S (Z.to_nat (j - 1))) by lia. cbn [Bs].
    rewrite (Bs_support U s u _ (s + 1)) by lia.
    replace (s - j + j)%Z with s by lia. replace (s + Z.of_nat (S (Z.to_nat (j-1))))%Z with (s + j)%Z by lia.
    replace (s - (j - 1) + (j - 1))%Z with s by lia. ring.
Qed.

Lemma basis_funs_ok p s u U N0 :
  (0 <= p)%Z -> lenZ N0 = (p + 1)%Z -> (p <= s)%Z -> (s + p < lenZ U)%Z ->
  ndg (knot U) s (Z.to_nat p) ->
  exists N, basis_funs s u p U N0 = Ok N /\ lenZ N = (p + 1)%Z /\
    forall r, (0 <= r <= p)%Z -> atZ 0 N r = Bs (knot U) s u (Z.to_nat p) (s - p + r).
Proof.
  intros Hp HN Hs HU Nd. unfold basis_funs. rewrite wrZ_ok by lia. cbn [bind].
  set (scr := repeat (0:Qc) (Z.to_nat (p + 1))).
  assert (Hscr : lenZ scr = (p+1)%Z) by (unfold scr; rewrite lenZ_repeat; lia).
  set (Inv := fun j (st : list Qc * list Qc * list Qc) =>
    let '(N, l, r) := st in
    lenZ N = (p+1)%Z /\ lenZ l = (p+1)%Z /\ lenZ r = (p+1)%Z /\
    (forall k, (1 <= k < j)%Z -> atZ 0 l k = u - knot U (s + 1 - k)) /\
    (forall k, (1 <= k < j)%Z -> atZ 0 r k = knot U (s + k) - u) /\
    (forall k, (0 <= k < j)%Z -> atZ 0 N k = Bs (knot U) s u (Z.to_nat (j-1)) (s - (j-1) + k))).
  destruct (forZ_inv Inv (basis_outer s u U) 1 (p+1) (upd N0 (Z.to_nat 0) 1, scr, scr)) as [[[N l] r] [E I]].
  - lia.
  - unfold Inv. split; [now rewrite lenZ_upd|]. split; [auto|]. split; [auto|].
    split; [intros; lia|]. split; [intros; lia|].
    intros k Hk. assert (k = 0%Z) by lia. subst k. rewrite atZ_upd_eq by lia.
    replace (Z.to_nat (1-1)) with O by lia. cbn [Bs]. replace (s - (1-1) + 0)%Z with s by lia.
    now rewrite Z.eqb_refl.
  - intros j [[N l] r] Hj [A1 [A2 [A3 [A4 [A5 A6]]]]]. unfold basis_outer.
    rewrite ?rd_knot by lia. cbn [bind]. rewrite wrZ_ok by lia. cbn [bind].
    rewrite ?rd_knot by lia. cbn [bind]. rewrite wrZ_ok by lia. cbn [bind].
    destruct (basis_inner_ok (knot U) s u (upd l (Z.to_nat j) (u - knot U (s + 1 - j)))
               (upd r (Z.to_nat j) (knot U (s + j) - u)) j N) as [N' [sv [B1 [B2 [B3 B4]]]]].
    + lia.
    + rewrite lenZ_upd; lia.
    + rewrite lenZ_upd; lia.
    + lia.
    + intros k Hk. destruct (Z.eq_dec k j) as [->|].
      * rewrite atZ_upd_eq by lia; auto.
      * rewrite atZ_upd_neq by lia. apply A4; lia.
    + intros k Hk. destruct (Z.eq_dec k j) as [->|].
      * rewrite atZ_upd_eq by lia; auto.
      * rewrite atZ_upd_neq by lia. apply A5; lia.
    + intros i k Hk Hi. apply Nd; lia.
    + intros k Hk. apply A6. lia.
    + rewrite B1. cbn [bind]. rewrite wrZ_ok by lia. cbn [bind].
      eexists. split; [reflexivity|]. unfold Inv. rewrite !lenZ_upd.
      split; [lia|]. split; [auto|]. split; [auto|].
      split. { intros k Hk. destruct (Z.eq_dec k j) as [->|].
      * rewrite atZ_upd_eq by lia; auto.
      * rewrite atZ_upd_neq by lia. apply A4; lia. }
      split. { intros k Hk. destruct (Z.eq_dec k j) as [->|].
      * rewrite atZ_upd_eq by lia; auto.
      * rewrite atZ_upd_neq by lia. apply A5; lia. }
      intros k Hk. replace (j + 1 - 1)%Z with j by lia. destruct (Z.eq_dec k j) as [->|].
      * rewrite atZ_upd_eq by lia. rewrite B4. f_equal. lia.
      * rewrite atZ_upd_neq by lia. apply B3. lia.
  - rewrite E. cbn [bind]. destruct I as [A1 [A2 [A3 [A4 [A5 A6]]]]].
    exists N. split; auto. split; auto. intros k Hk. rewrite A6 by lia.
    f_equal; [f_equal|]; lia.
Qed.

(* ---- link with the textbook definition ------------------------------ *)

(* s is the span that contains u *)
Definition span_of (p n : Z) (U : list Qc) (u : Qc) (s : Z) : Prop :=
  (p <= s <= n)%Z /\
  (u < knot U (n + 1) -> knot U s <= u /\ u < knot U (s + 1)) /\
  (knot U (n + 1) <= u -> s = n).

Lemma span_of_pos p n U u s : valid_knots p n U -> span_of p n U u s -> knot U s < knot U (s + 1).
Proof.
  intros V [S1 [S2 S3]]. destruct (Qclt_le_dec u (knot U (n+1))) as [L|L].
  - destruct (S2 L). qlra.
  - rewrite (S3 L). apply V.
Qed.

Lemma span_of_bounds p n U u s : valid_knots p n U -> span_of p n U u s -> u <= knot U (n + 1) ->
  knot U s <= u /\ u <= knot U (s + 1).
Proof.
  intros V [S1 [S2 S3]] Hu. destruct (Qclt_le_dec u (knot U (n+1))) as [L|L].
  - destruct (S2 L). split; auto. qlra.
  - rewrite (S3 L). destruct V as [_ [_ [_ V]]]. split; qlra.
Qed.

Lemma valid_window p n U s : valid_knots p n U -> (p <= s <= n)%Z ->
  forall i j, (s - p + 1 <= i)%Z -> (i <= j)%Z -> (j <= s + p)%Z -> knot U i <= knot U j.
Proof. intros [H [L [M _]]] Hs i j H1 H2 H3. apply M; lia. Qed.

Lemma span_ndg p n U u s : valid_knots p n U -> span_of p n U u s -> ndg (knot U) s (Z.to_nat p).
Proof.
  intros V S. pose proof V as [Hp _]. apply ndg_sorted.
  - intros i j H1 H2 H3. apply (valid_window p n U s); auto; try apply S; lia.
  - apply (span_of_pos p n U u); auto.
Qed.

Lemma in_span_unique p n U u s i : valid_knots p n U -> span_of p n U u s ->
  (0 <= i <= n + p)%Z -> in_span U n i u = (i =? s)%Z.
Proof.
  intros V [S1 [S2 S3]] Hi. unfold in_span. destruct V as [Hp [L [M _]]].
  destruct (qlt u (knot U (n+1))) eqn:E.
  - apply qlt_true in E. destruct (S2 E) as [A B].
    destruct (Z.eqb_spec i s) as [->|Hne].
    + apply andb_true_intro. split; [now apply qle_true|now apply qlt_true].
    + apply andb_false_iff. destruct (Z_lt_dec i s).
      * right. apply qlt_false. assert (knot U (i+1) <= knot U s) by (apply M; lia). qlra.
      * left. apply qle_false. assert (knot U (s+1) <= knot U i) by (apply M; lia). qlra.
  - apply qlt_false in E. now rewrite (S3 E).
Qed.

Lemma cdb_Bs p n U u s : valid_knots p n U -> span_of p n U u s ->
  forall q i, (Z.of_nat q <= p)%Z -> (0 <= i <= n + p - Z.of_nat q)%Z ->
  cox_de_boor U n q i u = Bs (knot U) s u q i.
Proof.
  intros V S. induction q as [|q IH]; intros i Hq Hi.
  - cbn [cox_de_boor Bs]. rewrite (in_span_unique p n U u s) by (auto; lia). auto.
  - cbn [cox_de_boor Bs]. rewrite !IH by lia. auto.
Qed.

Lemma sum_to_window p n s f : (0 <= p <= s)%Z -> (s <= n)%Z ->
  (forall i, ~ (s - p <= i <= s)%Z -> f i = 0) ->
  sum_to n f = sum_n (S (Z.to_nat p)) (s - p) f.
Proof.
  intros H1 H2 H. unfold sum_to. apply sum_n_window; try lia.
  intros i Hi Hn. apply H. lia.
Qed.

Lemma cdb_sum p n U u s g : valid_knots p n U -> span_of p n U u s ->
  sum_to n (fun i => cox_de_boor U n (Z.to_nat p) i u * g i)
  = sum_n (S (Z.to_nat p)) (s - p) (fun i => Bs (knot U) s u (Z.to_nat p) i * g i).
Proof.
  intros V S. pose proof V as [Hp _]. pose proof S as [Hs _].
  unfold sum_to. rewrite (sum_n_ext _ _ _ (fun i => Bs (knot U) s u (Z.to_nat p) i * g i)).
  - apply (sum_to_window p n s); try lia. intros i Hi. rewrite Bs_support by lia. ring.
  - intros i Hi. rewrite (cdb_Bs p n U u s) by (auto; lia). auto.
Qed.

Lemma cdb_sum_chain p n U u s g : valid_knots p n U -> span_of p n U u s ->
  sum_to n (fun i => cox_de_boor U n (Z.to_nat p) i u * g i)
  = chain (knot U) s (repeat u (Z.to_nat p)) g.
Proof.
  intros V S. pose proof V as [Hp _]. rewrite (cdb_sum p n U u s g) by auto. rewrite <- Bs_dual.
  f_equal. lia.
Qed.

(* ---- curve_point ---------------------------------------------------- *)

Lemma point_loop_ok s p P N B :
  (0 <= p <= s)%Z -> (s < lenZ P)%Z -> lenZ N = (p+1)%Z ->
  (forall r, (0 <= r <= p)%Z -> atZ 0 N r = B (s - p + r)%Z) ->
  let S f := sum_n (Datatypes.S (Z.to_nat p)) (s - p) (fun i => B i * pw (ctrl P i) * f (ctrl P i)) in
  forZ 0 (p + 1) (0, 0, 0, 0) (point_step s p P N)
  = Ok (S (fun _ => 1), S px, S py, S pz).
Proof.
  intros Hp HP HN HB S.
  set (T := fun (c : Z) f => sum_n (Z.to_nat c) (s - p) (fun i => B i * pw (ctrl P i) * f (ctrl P i))).
  destruct (forZ_inv (fun i st => st = (T i (fun _ => 1), T i px, T i py, T i pz))
             (point_step s p P N) 0 (p+1) (0,0,0,0)) as [st [E I]].
  - lia.
  - reflexivity.
  - intros i st Hi ->. unfold point_step. rewrite (rdZ_ok 0) by lia. cbn [bind].
    rewrite (rdZ_ok pt0) by lia. cbn [bind]. eexists. split; [reflexivity|].
    rewrite HB by lia. fold (ctrl P (s - p + i)).
    assert (X : forall f, T (i + 1)%Z f = T i f + B (s - p + i)%Z * pw (ctrl P (s - p + i)) * f (ctrl P (s - p + i))).
    { intro f. unfold T. replace (Z.to_nat (i + 1)) with (Datatypes.S (Z.to_nat i)) by lia.
      rewrite sum_n_last. rewrite Z2Nat.id by lia. auto. }
    rewrite !X. f_equal. f_equal. f_equal. ring.
  - rewrite E, I. unfold T, S. replace (Z.to_nat (p+1)) with (Datatypes.S (Z.to_nat p)) by lia. auto.
Qed.

Lemma sum_one_weighted c : forall lo B w,
  (forall i, (lo <= i < lo + Z.of_nat c)%Z -> 0 <= B i) ->
  (forall i, (lo <= i < lo + Z.of_nat c)%Z -> 0 < w i) ->
  0 < sum_n c lo B -> 0 < sum_n c lo (fun i => B i * w i).
Proof.
  induction c as [|c IH]; intros lo B w HB Hw H; simpl in *; auto.
  assert (0 <= B lo) by (apply HB; lia). assert (0 < w lo) by (apply Hw; lia).
  assert (P0 : 0 <= B lo * w lo) by (apply qc_mul_nonneg; auto; qlra).
  destruct (Qclt_le_dec 0 (sum_n c (lo+1) B)) as [L|L].
  - assert (0 < sum_n c (lo+1) (fun i => B i * w i)) by (apply IH; auto; intros; [apply HB|apply Hw]; lia). qlra.
  - assert (0 < B lo * w lo) by (apply qc_mul_pos; auto; qlra).
    assert (0 <= sum_n c (lo+1) (fun i => B i * w i)).
    { apply sum_n_nonneg. intros. apply qc_mul_nonneg. apply HB; lia. apply Qclt_le_weak, Hw; lia. }
    qlra.
Qed.

Definition den (U : list Qc) (n p : Z) (P : list pt) (u : Qc) : Qc :=
  sum_to n (fun i => cox_de_boor U n (Z.to_nat p) i u * pw (ctrl P i)).

Lemma curve_point_gen n p U P u per s :
  valid_knots p n U -> lenZ P = (n + 1)%Z ->
  find_span n p u U per = Ok s -> span_of p n U u s ->
  den U n p P u <> 0 ->
  curve_point n p U P u per = Ok (nurbs_point U n p P u).
Proof.
  intros V LP E S Hd. unfold curve_point. rewrite E. cbn [bind].
  pose proof V as [Hp [LU _]]. pose proof S as [Hs _].
  destruct (basis_funs_ok p s u U (repeat (0:Qc) (Z.to_nat (p+1)))) as [N [EN [LN HN]]]; try lia.
  { rewrite lenZ_repeat; lia. }
  { apply (span_ndg p n U u); auto. }
  rewrite EN. cbn [bind].
  rewrite (point_loop_ok s p P N (Bs (knot U) s u (Z.to_nat p))) by (auto; lia).
  cbn [bind].
  assert (X : forall f, sum_n (Datatypes.S (Z.to_nat p)) (s - p) (fun i => Bs (knot U) s u (Z.to_nat p) i * pw (ctrl P i) * f (ctrl P i))
      = sum_to n (fun i => cox_de_boor U n (Z.to_nat p) i u * pw (ctrl P i) * f (ctrl P i))).
  { intro f. transitivity (sum_to n (fun i => cox_de_boor U n (Z.to_nat p) i u * (pw (ctrl P i) * f (ctrl P i)))).
    - rewrite (cdb_sum p n U u s (fun i => pw (ctrl P i) * f (ctrl P i))) by auto. apply sum_n_ext. intros; ring.
    - unfold sum_to. apply sum_n_ext. intros; ring. }
  pose proof (X (fun _ => 1)) as X1. cbv beta in X1.
  rewrite X1, (X px), (X py), (X pz).
  assert (Y : sum_to n (fun i => cox_de_boor U n (Z.to_nat p) i u * pw (ctrl P i) * 1) = den U n p P u).
  { unfold den, sum_to. apply sum_n_ext. intros; ring. }
  rewrite Y. rewrite !divR_ok by auto. reflexivity.
Qed.

Lemma den_pos n p U P u s :
  valid_knots p n U -> lenZ P = (n + 1)%Z -> Forall (fun q => 0 < pw q) P ->
  span_of p n U u s -> u <= knot U (n+1) -> 0 < den U n p P u.
Proof.
  intros V LP W S Hu. unfold den.
  pose proof V as [Hp _]. pose proof S as [Hs _].
  rewrite (cdb_sum p n U u s (fun i => pw (ctrl P i))) by auto.
  destruct (span_of_bounds p n U u s V S Hu).
  apply sum_one_weighted.
  - intros. apply Bs_nonneg; auto; try (intros; apply (valid_window p n U s); auto; lia).
    apply (span_of_pos p n U u); auto.
  - intros i Hi. rewrite Forall_forall in W. apply W. unfold ctrl, atZ. apply nth_In. unfold lenZ in LP. lia.
  - replace (s - p)%Z with (s - Z.of_nat (Z.to_nat p))%Z by lia.
    rewrite Bs_sum. { vm_compute; auto. } apply (span_ndg p n U u); auto.
Qed.

Lemma find_span_span_of p n U u : valid_knots p n U -> knot U p <= u ->
  exists s, find_span n p u U false = Ok s /\ span_of p n U u s.
Proof.
  intros V Hu. destruct (find_span_open p n U u V Hu) as [s [E [A [B C]]]].
  exists s. split; auto. split; auto.
Qed.

(* a periodic curve evaluated inside its domain: no wrapping *)
Lemma find_span_periodic_in p n U u : valid_knots p n U -> knot U p <= u -> u <= knot U (n+1) ->
  find_span n p u U true = find_span n p u U false.
Proof.
  intros [Hp [L [M _]]] H1 H2. unfold find_span, find_span_fuel.
  rewrite ?rd_knot by lia. cbn [bind].
  assert (W1 : forall f, wrap_up f u (knot U p) (knot U (n+1) - knot U p) = Ok u).
  { intros [|f]; simpl; destruct (qlt u (knot U p)) eqn:E; auto; apply qlt_true in E; qlra. }
  assert (W2 : forall f, wrap_down f u (knot U (n+1)) (knot U (n+1) - knot U p) = Ok u).
  { intros [|f]; simpl; destruct (qlt (knot U (n+1)) u) eqn:E; auto; apply qlt_true in E; qlra. }
  rewrite W1. cbn [bind]. rewrite W2. cbn [bind].
  assert (knot U 0 <= knot U p) by (apply M; lia).
  destruct (qle (knot U (n + 1)) u) eqn:E1.
  - apply qle_true in E1. assert (X : u = knot U (n+1)) by (apply Qcle_antisym; auto).
    rewrite X at 1. assert (E : qeq (knot U (n+1)) (knot U (n+1)) = true) by now apply qeq_true. now rewrite E.
  - destruct (qlt u (knot U 0)) eqn:E2; auto. apply qlt_true in E2. qlra.
Qed.

Lemma find_span_any p n U u per : valid_knots p n U -> knot U p <= u -> u <= knot U (n+1) ->
  exists s, find_span n p u U per = Ok s /\ span_of p n U u s.
Proof.
  intros V H1 H2. destruct per; [rewrite find_span_periodic_in by auto|]; apply find_span_span_of; auto.
Qed.

Lemma curve_point_ok n p U P u per :
  valid_knots p n U -> lenZ P = (n + 1)%Z ->
  knot U p <= u -> u <= knot U (n+1) -> den U n p P u <> 0 ->
  curve_point n p U P u per = Ok (nurbs_point U n p P u).
Proof.
  intros V LP H1 H2 Hd. destruct (find_span_any p n U u per V H1 H2) as [s [E S]].
  apply (curve_point_gen n p U P u per s); auto.
Qed.

Lemma evaluate_ok c u : valid_curve c -> in_domain c u ->
  den (c_knots c) (last_ix c) (c_deg c) (c_pts c) u <> 0 ->
  evaluate c u = Ok (nurbs_point (c_knots c) (last_ix c) (c_deg c) (c_pts c) u).
Proof.
  intros V [H1 H2] Hd. apply curve_point_ok; auto. unfold last_ix; lia.
Qed.

Lemma evaluate_pos c u : valid_curve c -> in_domain c u -> positive_weights c ->
  evaluate c u = Ok (nurbs_point (c_knots c) (last_ix c) (c_deg c) (c_pts c) u).
Proof.
  intros V H W. apply evaluate_ok; auto.
  destruct H as [H1 H2]. destruct (find_span_any _ _ _ u false V H1 H2) as [s [_ S]].
  assert (0 < den (c_knots c) (last_ix c) (c_deg c) (c_pts c) u).
  { apply (den_pos _ _ _ _ _ s); auto. unfold last_ix; lia. }
  intro X. rewrite X in H. qlra.
Qed.

(* ---- convex hull ---------------------------------------------------- *)

Lemma rational_bounds c u f lo hi : valid_curve c -> in_domain c u -> positive_weights c ->
  Forall (fun q => lo <= f q <= hi) (c_pts c) ->
  lo <= rational (c_knots c) (last_ix c) (c_deg c) (c_pts c) f u <= hi.
Proof.
  intros V H W HF. pose proof V as [Hp _]. destruct H as [H1 H2].
  destruct (find_span_any _ _ _ u false V H1 H2) as [s [_ S]]. pose proof S as [Hs _].
  set (U := c_knots c) in *. set (n := last_ix c) in *. set (p := c_deg c) in *. set (P := c_pts c) in *.
  assert (LP : lenZ P = (n+1)%Z) by (unfold n, last_ix, P; lia).
  assert (DP : 0 < den U n p P u) by (apply (den_pos n p U P u s); auto).
  destruct (span_of_bounds p n U u s V S H2).
  unfold rational. fold (den U n p P u).
  assert (X : sum_to n (fun i => cox_de_boor U n (Z.to_nat p) i u * pw (ctrl P i) * f (ctrl P i))
     = sum_n (Datatypes.S (Z.to_nat p)) (s - p) (fun i => Bs (knot U) s u (Z.to_nat p) i * pw (ctrl P i) * f (ctrl P i))).
  { transitivity (sum_to n (fun i => cox_de_boor U n (Z.to_nat p) i u * (pw (ctrl P i) * f (ctrl P i)))).
    - unfold sum_to. apply sum_n_ext. intros; ring.
    - rewrite (cdb_sum p n U u s (fun i => pw (ctrl P i) * f (ctrl P i))) by auto. apply sum_n_ext. intros; ring. }
  assert (Y : den U n p P u = sum_n (Datatypes.S (Z.to_nat p)) (s - p) (fun i => Bs (knot U) s u (Z.to_nat p) i * pw (ctrl P i))).
  { unfold den. apply cdb_sum; auto. }
  assert (Bn : forall i, 0 <= Bs (knot U) s u (Z.to_nat p) i).
  { apply Bs_nonneg; auto; try (intros; apply (valid_window p n U s); auto; lia). apply (span_of_pos p n U u); auto. }
  assert (In_ : forall i, (s - p <= i < s - p + Z.of_nat (Datatypes.S (Z.to_nat p)))%Z -> List.In (ctrl P i) P).
  { intros i Hi. unfold ctrl, atZ. apply nth_In. unfold lenZ in LP. lia. }
  unfold positive_weights in W. fold P in W. rewrite Forall_forall in W, HF.
  assert (Wn : forall i, (s - p <= i < s - p + Z.of_nat (Datatypes.S (Z.to_nat p)))%Z -> 0 <= Bs (knot U) s u (Z.to_nat p) i * pw (ctrl P i)).
  { intros. apply qc_mul_nonneg; auto. apply Qclt_le_weak, W, In_; auto. }
  split.
  - apply qc_le_div; auto. rewrite X, Y. rewrite <- sum_n_scal. apply sum_n_le.
    intros i Hi. destruct (HF _ (In_ i Hi)). specialize (Wn i Hi).
    set (a := Bs (knot U) s u (Z.to_nat p) i * pw (ctrl P i)) in *. qnra.
  - apply qc_div_le; auto. rewrite X, Y. rewrite <- sum_n_scal. apply sum_n_le.
    intros i Hi. destruct (HF _ (In_ i Hi)). specialize (Wn i Hi).
    set (a := Bs (knot U) s u (Z.to_nat p) i * pw (ctrl P i)) in *. qnra.
Qed.
