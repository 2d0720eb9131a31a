(* knot_removal with equal weights deletes one row, whatever the curve. *)
From Coq Require Import List ZArith Lia Bool QArith Qcanon Permutation Sorted.
From Verif Require Import Common ListLib QcLib ArrZ SplineTheory NurbsModel NurbsSpec NurbsProofs NurbsProofs2 NurbsEditModel NurbsEditSpec NurbsInsert NurbsEditProofs RefModel RefSpec RefProofs1 RefProofs2 RefProofs3.
Import ListNotations.
Local Open Scope Z_scope.
Local Open Scope Qc_scope.

Lemma divR_def a b : b <> 0 -> divR a b = Ok (a / b).
Proof. intro H. unfold divR. destruct (qeq b 0) eqn:E; auto. apply qeq_true in E. congruence. Qed.
Lemma unblend_w q o c d w : d <> 0 -> c + d = 1 -> pw q = w -> pw o = w -> exists v, unblend q o c d = Ok v /\ pw v = w.
Proof.
  intros Hd Hc Hq Ho. unfold unblend. rewrite !divR_def by auto. cbn [bind]. eexists. split; [reflexivity|]. cbn [pw].
  rewrite Hq, Ho. replace c with (1 - d) by (rewrite <- Hc; ring). field. auto.
Qed.
Lemma square_nonneg (x : Qc) : 0 <= x * x. Proof. qnra. Qed.
Lemma far_sum a b w tol : pw a = w -> pw b = w -> tol * tol < (w + w) * (w + w) -> point_near a b tol = false.
Proof.
  intros Ha Hb H. unfold point_near. rewrite Ha, Hb. destruct (qle 0 tol); auto. cbn [andb].
  match goal with |- qle ?d _ = false => destruct (qle d (tol * tol)) eqn:E; auto; apply qle_true in E end. exfalso.
  assert (0 <= (px a + px b) * (px a + px b)) by apply square_nonneg. assert (0 <= (py a + py b) * (py a + py b)) by apply square_nonneg. assert (0 <= (pz a + pz b) * (pz a + pz b)) by apply square_nonneg.
  qlra.
Qed.

Section Removal.
Variables (p n : Z) (U : list Qc) (P : list pt) (u w : Qc) (r s : Z).
Hypothesis VU : valid_knots p n U.
Hypothesis LP : lenZ P = (n + 1)%Z.
Hypothesis Hp : (1 <= p)%Z.
Hypothesis Hs : (1 <= s <= p)%Z.
Hypothesis Hr : (p < r <= n)%Z.
Hypothesis B1 : forall i, (0 <= i <= r - s)%Z -> knot U i < u.
Hypothesis B2 : forall i, (r < i < lenZ U)%Z -> u < knot U i.
Hypothesis W : forall q, In q P -> pw q = w.

Lemma ctrl_w i : (0 <= i <= n)%Z -> pw (ctrl P i) = w.
Proof. intro Hi. apply W. unfold ctrl, atZ. apply nth_In. unfold lenZ in LP. lia. Qed.
Lemma alpha_i_ok i : (r - p <= i <= r - s)%Z -> exists a, removal_alpha_i u p U 0 i = Ok a /\ a <> 0.
Proof.
  intro Hi. pose proof VU as [_ [LU _]]. unfold removal_alpha_i. rewrite !rdk by lia. cbn [bind].
  assert (knot U i < u) by (apply B1; lia). assert (u < knot U (i + p + 1 + 0)) by (apply B2; lia).
  assert (N : knot U (i + p + 1 + 0) - knot U i <> 0) by (intro E; qlra).
  rewrite divR_def by auto. eexists. split; [reflexivity|]. intro E. assert (E2 : u - knot U i = 0) by (replace (u - knot U i) with ((u - knot U i) / (knot U (i + p + 1 + 0) - knot U i) * (knot U (i + p + 1 + 0) - knot U i)) by (field; auto); rewrite E; ring). qlra.
Qed.
Lemma alpha_j_ok j : (r - p <= j <= r - s)%Z -> exists a, removal_alpha_j u p U 0 j = Ok a /\ 1 - a <> 0.
Proof.
  intro Hi. pose proof VU as [_ [LU _]]. unfold removal_alpha_j. rewrite !rdk by lia. cbn [bind].
  assert (knot U (j - 0) < u) by (apply B1; lia). assert (u < knot U (j + p + 1)) by (apply B2; lia).
  assert (N : knot U (j + p + 1) - knot U (j - 0) <> 0) by (intro E; qlra).
  rewrite divR_def by auto. eexists. split; [reflexivity|]. intro E.
  assert (E2 : knot U (j + p + 1) - u = 0).
  { replace (knot U (j + p + 1) - u) with ((1 - (u - knot U (j - 0)) / (knot U (j + p + 1) - knot U (j - 0))) * (knot U (j + p + 1) - knot U (j - 0))) by (field; auto). rewrite E. ring. }
  qlra.
Qed.
Lemma sweep_ok : forall fuel temp i j ii jj, ii = (i - (r - p) + 1)%Z -> jj = (j - (r - p) + 1)%Z -> (i + j = r - p + (r - s))%Z -> (r - p <= i)%Z -> (j <= r - s)%Z -> (i <= j + 2)%Z ->
  lenZ temp = (2 * p + 1)%Z -> (forall q, (0 <= q < ii)%Z -> pw (ctrl temp q) = w) -> (forall q, (jj < q <= p - s + 2)%Z -> pw (ctrl temp q) = w) ->
  (Z.to_nat (j - i + 1) < fuel)%nat ->
  exists temp' i' j' ii' jj', removal_sweep fuel p U P u 0 temp i j ii jj = Ok (temp', i', j', ii', jj') /\ (j' - i' < 0)%Z /\ (1 <= ii' <= 2 * p + 1)%Z /\ (-1 <= jj' < 2 * p)%Z /\
    lenZ temp' = (2 * p + 1)%Z /\ pw (ctrl temp' (ii' - 1)) = w /\ pw (ctrl temp' (jj' + 1)) = w.
Proof.
  pose proof VU as [Hpn [LU _]].
  induction fuel as [|fuel IH]; intros temp i j ii jj Eii Ejj Eij H1 H2 H3 LT T1 T2 Hf; [lia|]. cbn [removal_sweep].
  destruct (Z.leb_spec 0 (j - i)) as [L|L].
  - destruct (alpha_i_ok i ltac:(lia)) as (ai & Ea & Na). rewrite Ea. cbn [bind]. destruct (alpha_j_ok j ltac:(lia)) as (aj & Eb & Nb). rewrite Eb. cbn [bind].
    rewrite !rd_ctrl by lia. cbn [bind].
    destruct (unblend_w (ctrl P i) (ctrl temp (ii - 1)) (1 - ai) ai w Na) as (v & Ev & Wv); [ring|apply ctrl_w; lia|apply T1; lia|]. rewrite Ev. cbn [bind].
    rewrite wrZ_ok by lia. cbn [bind]. rewrite (rd_ctrl (upd _ _ _)) by (rewrite lenZ_upd; lia). cbn [bind].
    set (temp1 := upd temp (Z.to_nat ii) v).
    assert (T3 : forall q, (0 <= q <= ii)%Z -> pw (ctrl temp1 q) = w).
    { intros q Hq. unfold ctrl, temp1. destruct (Z.eq_dec q ii) as [->|Ne]; [rewrite atZ_upd_eq by lia; auto|rewrite atZ_upd_neq by lia; apply T1; lia]. }
    assert (T4 : forall q, (jj < q <= p - s + 2)%Z -> pw (ctrl temp1 q) = w).
    { intros q Hq. unfold ctrl, temp1. destruct (Z.eq_dec q ii) as [->|Ne]; [rewrite atZ_upd_eq by lia; auto|rewrite atZ_upd_neq by lia; apply T2; lia]. }
    destruct (unblend_w (ctrl P j) (ctrl temp1 (jj + 1)) aj (1 - aj) w Nb) as (v2 & Ev2 & Wv2); [ring|apply ctrl_w; lia|apply T4; lia|]. rewrite Ev2. cbn [bind].
    assert (LT1 : lenZ temp1 = (2 * p + 1)%Z) by (unfold temp1; rewrite lenZ_upd; auto).
    rewrite wrZ_ok by lia. cbn [bind]. apply IH; try lia.
    + rewrite lenZ_upd. auto.
    + intros q Hq. unfold ctrl. destruct (Z.eq_dec q jj) as [->|Ne]; [rewrite atZ_upd_eq by lia; auto|rewrite atZ_upd_neq by lia; apply T3; lia].
    + intros q Hq. unfold ctrl. destruct (Z.eq_dec q jj) as [->|Ne]; [rewrite atZ_upd_eq by lia; auto|rewrite atZ_upd_neq by lia; apply T4; lia].
  - do 5 eexists. split; [reflexivity|]. repeat (split; [lia|]). split; [apply T1|apply T2]; lia.
Qed.

Lemma pass_ok temp0 tol : lenZ temp0 = (2 * p + 1)%Z -> tol * tol < (w + w) * (w + w) ->
  exists temp, removal_pass p U P u tol 0 (temp0, P, (r - p)%Z, (r - s)%Z) = Ok (temp, P, (r - p - 1)%Z, (r - s + 1)%Z).
Proof.
  intros LT Ht. unfold removal_pass. pose proof VU as [Hpn [LU _]]. rewrite !rd_ctrl by lia. cbn [bind]. rewrite wrZ_ok by lia. cbn [bind].
  rewrite wrZ_ok by (rewrite lenZ_upd; lia). cbn [bind]. set (temp1 := upd (upd _ _ _) _ _).
  destruct (sweep_ok (Z.to_nat (r - s - (r - p) + 2)) temp1 (r - p) (r - s) 1 (r - s - (r - p) + 1)) as (temp' & i' & j' & ii' & jj' & E & Hj & Hii & Hjj & LT' & W1 & W2); try lia.
  - unfold temp1. rewrite !lenZ_upd. auto.
  - intros q Hq. assert (q = 0%Z) by lia. subst q. unfold ctrl, temp1. rewrite atZ_upd_neq by lia. rewrite atZ_upd_eq by lia. apply ctrl_w. lia.
  - intros q Hq. assert (q = (r - s - (r - p) + 2)%Z) by lia. subst q. unfold ctrl, temp1. rewrite atZ_upd_eq by (rewrite lenZ_upd; lia). apply ctrl_w. lia.
  - rewrite E. cbn [bind]. replace (j' - i' <? 0)%Z with true by (symmetry; apply Z.ltb_lt; lia).
    rewrite !rd_ctrl by lia. cbn [bind]. rewrite (far_sum _ _ w tol) by auto. cbn [bind]. eauto.
Qed.
End Removal.

Lemma shift_rows (P : list pt) j : (0 <= j < lenZ P)%Z ->
  exists new k, forZ (j + 1) (lenZ P) (P, j) (fun k st => let '(new, j) := st in do q <- rdZ P k ; do new <- wrZ new j q ; Ok (new, (j + 1)%Z)) = Ok (new, k) /\
    firstn (Z.to_nat (lenZ P - 1)) new = without_row j P.
Proof.
  intro Hj. destruct (forZ_inv (fun k (st : list pt * Z) => snd st = (k - 1)%Z /\ lenZ (fst st) = lenZ P /\ (forall q, (0 <= q < j)%Z -> ctrl (fst st) q = ctrl P q) /\ (forall q, (j <= q < k - 1)%Z -> ctrl (fst st) q = ctrl P (q + 1)))
    (fun k st => let '(new, j) := st in do q <- rdZ P k ; do new <- wrZ new j q ; Ok (new, (j + 1)%Z)) (j + 1) (lenZ P) (P, j)) as ((new & k) & E & K1 & K2 & K3 & K4).
  - lia.
  - cbn [fst snd]. split; [lia|]. split; [auto|]. split; [auto|intros; lia].
  - intros k (new & j') Hk (K1 & K2 & K3 & K4). cbn [fst snd] in *. rewrite rd_ctrl by lia. cbn [bind]. rewrite wrZ_ok by lia. cbn [bind]. eexists. split; [reflexivity|].
    cbn [fst snd]. split; [lia|]. split; [rewrite lenZ_upd; auto|]. split.
    + intros q Hq. unfold ctrl at 1. rewrite atZ_upd_neq by lia. apply K3. auto.
    + intros q Hq. unfold ctrl at 1. destruct (Z.eq_dec q j') as [->|Ne]; [rewrite atZ_upd_eq by lia; f_equal; lia|]. rewrite atZ_upd_neq by lia. apply K4. lia.
  - exists new, k. split; [exact E|]. cbn [fst snd] in *. unfold without_row.
    assert (LL : forall (A : Type) (l : list A) m, lenZ (firstn (Z.to_nat m) l) = Z.min (Z.max 0 m) (lenZ l)) by (intros; unfold lenZ; rewrite firstn_length; lia).
    assert (LS : forall (A : Type) (l : list A) m, lenZ (skipn (Z.to_nat m) l) = Z.max 0 (lenZ l - Z.max 0 m)) by (intros; unfold lenZ; rewrite skipn_length; lia).
    assert (LA : forall (A : Type) (l l' : list A), lenZ (l ++ l') = (lenZ l + lenZ l')%Z) by (intros; unfold lenZ; rewrite app_length; lia).
    apply (list_ext_atZ pt0).
    + rewrite LA, LS, !LL. lia.
    + rewrite LL. intros q Hq. replace (atZ pt0 (firstn (Z.to_nat (lenZ P - 1)) new) q) with (ctrl new q).
      2:{ unfold ctrl, atZ. symmetry. rewrite <- (firstn_skipn (Z.to_nat (lenZ P - 1)) new) at 2. rewrite app_nth1; [auto|]. pose proof (LL _ new (lenZ P - 1)%Z) as Q. unfold lenZ in *. lia. }
      unfold atZ. destruct (Z_lt_ge_dec q j) as [L|L].
      * rewrite app_nth1 by (pose proof (LL _ P j) as Q; unfold lenZ in *; lia). rewrite K3 by lia. unfold ctrl, atZ.
        rewrite <- (firstn_skipn (Z.to_nat j) P) at 1. rewrite app_nth1; [auto|]. pose proof (LL _ P j) as Q; unfold lenZ in *; lia.
      * pose proof (LL _ P j) as Q. rewrite app_nth2 by (unfold lenZ in *; lia). rewrite K4 by lia. unfold ctrl, atZ.
        replace (Z.to_nat q - length (firstn (Z.to_nat j) P))%nat with (Z.to_nat (q - j)) by (unfold lenZ in *; lia).
        pose proof (atZ_skipn pt0 P (Z.to_nat (j + 1)) (q - j) ltac:(lia)) as AK. unfold atZ in AK. rewrite AK. f_equal. lia.
Qed.

Lemma knot_removal_ok p U P u tol w per temp0 r : valid_knots p (lenZ P - 1) U -> (1 <= p)%Z -> separated u U ->
  (1 <= multiplicity U u <= p)%Z -> knot U p < u -> u < knot U (lenZ P) -> knot U r <= u -> u < knot U (r + 1) -> (p <= r < lenZ P)%Z ->
  (forall q, In q P -> pw q = w) -> tol * tol < (w + w) * (w + w) -> lenZ temp0 = (2 * p + 1)%Z ->
  knot_removal p U P u tol 1 per temp0 = Ok (without_row ((2 * r - multiplicity U u - p) / 2) P).
Proof.
  intros VU Hp SP Hm L1 L2 S1 S2 Hr HW Ht LT. unfold knot_removal. rewrite find_multiplicity_count by auto. cbn [bind]. cbv zeta.
  set (n := (lenZ P - 1)%Z) in *. pose proof VU as [Hpn [LU [M _]]].
  replace (lenZ P) with (n + 1)%Z in L2 by (unfold n; lia).
  destruct (find_span_any p n U u per VU (Qclt_le_weak _ _ L1) (Qclt_le_weak _ _ L2)) as (r' & Er & Hr' & Sr & _). destruct (Sr L2) as (Sr1 & Sr2).
  assert (r' = r).
  { destruct (Z_lt_ge_dec r' r) as [L|L]. { exfalso. assert (knot U (r' + 1) <= knot U r) by (apply M; unfold n in *; lia). qlra. }
    destruct (Z_lt_ge_dec r r') as [L'|L']; [|lia]. exfalso. assert (knot U (r + 1) <= knot U r') by (apply M; unfold n in *; lia). qlra. }
  subst r'. rewrite Er. cbn [bind]. set (s := multiplicity U u) in *.
  assert (PR : (p < r)%Z). { destruct (Z.eq_dec p r) as [<-|]; [|lia]. exfalso.
    assert (Z0 : s = 0%Z); [|lia]. unfold s, multiplicity. change 0%Z with (Z.of_nat 0). f_equal. apply count_occ_not_In. intro K. apply (In_nth _ _ 0) in K. destruct K as (q & Hq & Eq).
    assert (Eq' : knot U (Z.of_nat q) = u) by (unfold knot, atZ; rewrite Nat2Z.id; auto). destruct (Z_le_gt_dec (Z.of_nat q) p) as [Lq|Lq].
    - assert (knot U (Z.of_nat q) <= knot U p) by (apply M; unfold lenZ in *; lia). qlra.
    - assert (knot U (p + 1) <= knot U (Z.of_nat q)) by (apply M; unfold lenZ in *; lia). qlra. }
  assert (B2 : forall i, (r < i < lenZ U)%Z -> u < knot U i). { intros i Hi. assert (knot U (r + 1) <= knot U i) by (apply M; lia). qlra. }
  assert (B1 : forall i, (0 <= i <= r - s)%Z -> knot U i < u).
  { destruct (find_multiplicity_ok U u r M ltac:(lia) ltac:(lia) S1 S2 SP) as (s' & Es & MA). rewrite find_multiplicity_count in Es by auto. injection Es as <-. fold s in MA. intros i Hi. apply MA. exact Hi. }
  change (forZ 0 1 (temp0, P, (r - p)%Z, (r - s)%Z) (fun t st => removal_pass p U P u tol t st)) with (forZ 0 (0 + 1) (temp0, P, (r - p)%Z, (r - s)%Z) (fun t st => removal_pass p U P u tol t st)).
  destruct (pass_ok p n U P u w r s VU ltac:(unfold n; lia) Hp Hm ltac:(lia) B1 B2 HW temp0 tol LT Ht) as (temp & Ep).
  rewrite (forZ_next 0 (0 + 1) _ (temp, P, (r - p - 1)%Z, (r - s + 1)%Z)) by (auto; lia). rewrite forZ_empty by lia. cbn [bind].
  rewrite forZ_empty by lia. cbn [bind]. set (j := ((2 * r - s - p) / 2)%Z).
  assert (Hj : (0 <= j < lenZ P)%Z). { unfold j, n in *. split; [apply Z.div_pos; lia|]. apply Z.div_lt_upper_bound; lia. }
  destruct (shift_rows P j Hj) as (new & k & E & F). rewrite E. cbn [bind]. f_equal. exact F.
Qed.
