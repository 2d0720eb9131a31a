(* Interval arithmetic: lemmas. *)
From Coq Require Import List ZArith Bool QArith Qcanon Lia.
From Verif Require Import Common QcLib IntervalModel IntervalSpec.
Import ListNotations.
Local Open Scope Qc_scope.

Lemma qmin_spec a b : qmin a b <= a /\ qmin a b <= b /\ (qmin a b = a \/ qmin a b = b).
Proof. unfold qmin. destruct (qlt b a) eqn:E; [apply qlt_true in E|apply qlt_false in E]; repeat split; auto; qlra. Qed.
Lemma qmax_spec a b : a <= qmax a b /\ b <= qmax a b /\ (qmax a b = a \/ qmax a b = b).
Proof. unfold qmax. destruct (qlt a b) eqn:E; [apply qlt_true in E|apply qlt_false in E]; repeat split; auto; qlra. Qed.

Ltac qmm := repeat match goal with
  | |- context [qmin ?a ?b] => let H := fresh in pose proof (qmin_spec a b) as H; destruct H as [? [? ?]]; generalize dependent (qmin a b); intros
  | |- context [qmax ?a ?b] => let H := fresh in pose proof (qmax_spec a b) as H; destruct H as [? [? ?]]; generalize dependent (qmax a b); intros
  end.

Lemma min4 a b c d : let m := qmin (qmin (qmin a b) c) d in m <= a /\ m <= b /\ m <= c /\ m <= d /\ (m = a \/ m = b \/ m = c \/ m = d).
Proof.
  cbv zeta. destruct (qmin_spec a b) as [? [? E1]]. destruct (qmin_spec (qmin a b) c) as [? [? E2]].
  destruct (qmin_spec (qmin (qmin a b) c) d) as [? [? E3]].
  repeat split; try (eauto using Qcle_trans); destruct E3 as [->| ->]; auto; destruct E2 as [->| ->]; auto; destruct E1 as [->| ->]; auto.
Qed.
Lemma max4 a b c d : let m := qmax (qmax (qmax a b) c) d in a <= m /\ b <= m /\ c <= m /\ d <= m /\ (m = a \/ m = b \/ m = c \/ m = d).
Proof.
  cbv zeta. destruct (qmax_spec a b) as [? [? E1]]. destruct (qmax_spec (qmax a b) c) as [? [? E2]].
  destruct (qmax_spec (qmax (qmax a b) c) d) as [? [? E3]].
  repeat split; try (eauto using Qcle_trans); destruct E3 as [->| ->]; auto; destruct E2 as [->| ->]; auto; destruct E1 as [->| ->]; auto.
Qed.

Lemma mem_low X : low X <= upp X -> mem (low X) X.
Proof. intro. split; [apply Qcle_refl|auto]. Qed.
Lemma mem_upp X : low X <= upp X -> mem (upp X) X.
Proof. intro. split; [auto|apply Qcle_refl]. Qed.
Local Hint Resolve mem_low mem_upp : core.

(* ---- sums ---- *)
Lemma add_tight X Y : wf X -> wf Y -> tight2 Qcplus X Y (add X (IvOp Y)).
Proof.
  unfold wf. intros WX WY. split.
  - intros x y [A B] [C D]. split; cbn; qlra.
  - intros R H z [A B]. cbn in A, B.
    destruct (H (low X) (low Y)) as [H1 _]; auto.
    destruct (H (upp X) (upp Y)) as [_ H2]; auto. split; qlra.
Qed.
Lemma add_scalar X c z : mem z (add X (NumOp c)) <-> exists x, mem x X /\ z = x + c.
Proof.
  unfold mem; cbn; split.
  - intros [A B]. exists (z - c). split; [split|]; qlra.
  - intros [x [[A B] ->]]. split; qlra.
Qed.

Lemma sub_exact X Y : wf X -> wf Y -> (encloses2 Qcminus X Y (sub X (IvOp Y)) <-> degenerate Y).
Proof.
  unfold wf, degenerate. intros WX WY. split.
  - intro H. destruct (H (low X) (upp Y)) as [A _]; auto. cbn in A. qlra.
  - intros E x y [A B] [C D]. split; cbn; qlra.
Qed.
Lemma sub_scalar X c z : mem z (sub X (NumOp c)) <-> exists x, mem x X /\ z = x - c.
Proof.
  unfold mem; cbn; split.
  - intros [A B]. exists (z + c). split; [split|]; qlra.
  - intros [x [[A B] ->]]. split; qlra.
Qed.

(* ---- products ---- *)
Lemma prod_lo L a b c d x y : L <= a * c -> L <= a * d -> L <= b * c -> L <= b * d ->
  a <= x -> x <= b -> c <= y -> y <= d -> L <= x * y.
Proof.
  intros. assert (L <= a * y). { destruct (Qclt_le_dec a 0); qnra. }
  assert (L <= b * y). { destruct (Qclt_le_dec b 0); qnra. }
  destruct (Qclt_le_dec y 0); qnra.
Qed.
Lemma prod_hi L a b c d x y : a * c <= L -> a * d <= L -> b * c <= L -> b * d <= L ->
  a <= x -> x <= b -> c <= y -> y <= d -> x * y <= L.
Proof.
  intros. assert (a * y <= L). { destruct (Qclt_le_dec a 0); qnra. }
  assert (b * y <= L). { destruct (Qclt_le_dec b 0); qnra. }
  destruct (Qclt_le_dec y 0); qnra.
Qed.

Lemma mul_tight X Y : wf X -> wf Y -> tight2 Qcmult X Y (mul X (IvOp Y)).
Proof.
  unfold wf. intros WX WY. split.
  - intros x y [A B] [C D]. cbn [mul].
    destruct (min4 (low X * low Y) (low X * upp Y) (upp X * low Y) (upp X * upp Y)) as [? [? [? [? _]]]].
    destruct (max4 (low X * low Y) (low X * upp Y) (upp X * low Y) (upp X * upp Y)) as [? [? [? [? _]]]].
    split; cbn [low upp].
    + apply (prod_lo _ (low X) (upp X) (low Y) (upp Y)); auto.
    + apply (prod_hi _ (low X) (upp X) (low Y) (upp Y)); auto.
  - intros R H z [A B]. cbn [mul low upp] in A, B.
    destruct (min4 (low X * low Y) (low X * upp Y) (upp X * low Y) (upp X * upp Y)) as [_ [_ [_ [_ E1]]]].
    destruct (max4 (low X * low Y) (low X * upp Y) (upp X * low Y) (upp X * upp Y)) as [_ [_ [_ [_ E2]]]].
    destruct (H (low X) (low Y)) as [a1 a2]; auto. destruct (H (low X) (upp Y)) as [b1 b2]; auto.
    destruct (H (upp X) (low Y)) as [c1 c2]; auto. destruct (H (upp X) (upp Y)) as [d1 d2]; auto.
    split.
    + apply Qcle_trans with (2 := A). destruct E1 as [->|[->|[->| ->]]]; auto.
    + apply Qcle_trans with (1 := B). destruct E2 as [->|[->|[->| ->]]]; auto.
Qed.

Lemma mul_scalar_exact X c : wf X ->
  (encloses1 (fun x => x * c) X (mul X (NumOp c)) <-> 0 <= c \/ degenerate X).
Proof.
  unfold wf, degenerate. intro WX. split.
  - intro H. destruct (Qclt_le_dec c 0) as [N|P]; [right|left; auto].
    destruct (H (low X)) as [A B]; auto. cbn in A, B.
    destruct (Qclt_le_dec (low X) (upp X)) as [L|L]; [exfalso; qnra|qlra].
  - intros [P|E] x [A B]; split; cbn; try qnra; rewrite ?E in *; assert (x = upp X) by qlra; subst; qlra.
Qed.

(* ---- quotients ---- *)
Lemma inv_lt_0 a : a < 0 -> / a < 0.
Proof.
  intro H. destruct (Qclt_le_dec (/ a) 0) as [L|L]; auto.
  assert (E : a * / a = 1) by (apply Qcmult_inv_r; intro; subst; qlra). exfalso. qnra.
Qed.
Lemma inv_anti a b : 0 < a * b -> a <= b -> / b <= / a.
Proof.
  intros P L. assert (a <> 0) by (intros ->; qlra). assert (b <> 0) by (intros ->; qlra).
  assert (E : / a - / b = (b - a) / (a * b)) by (field; auto).
  assert (0 <= (b - a) / (a * b)) by (apply qc_div_nonneg; auto; qlra). rewrite <- E in H1. qlra.
Qed.

Lemma qdiv_ok a b : b <> 0 -> qdiv a b = Ok (a / b).
Proof. intro H. unfold qdiv. apply qeq_false in H. now rewrite H. Qed.

Lemma div_sound X Y : wf X -> wf Y -> ~ mem 0 Y ->
  exists R, div X (IvOp Y) = Ok R /\ tight2 Qcdiv X Y R.
Proof.
  unfold wf. intros WX WY N.
  assert (SG : 0 < low Y \/ upp Y < 0).
  { destruct (Qclt_le_dec 0 (low Y)); auto. destruct (Qclt_le_dec (upp Y) 0); auto. exfalso. apply N. split; auto. }
  assert (low Y <> 0) by (intro E; destruct SG; rewrite E in *; qlra).
  assert (upp Y <> 0) by (intro E; destruct SG; rewrite E in *; qlra).
  assert (PP : 0 < low Y * upp Y) by (destruct SG; qnra).
  cbn [div]. rewrite !qdiv_ok by auto. cbn [bind]. eexists. split; [reflexivity|].
  set (I := mk_iv (qmin (1 / low Y) (1 / upp Y)) (qmax (1 / low Y) (1 / upp Y))).
  assert (A : / upp Y <= / low Y) by (apply inv_anti; auto).
  assert (E1 : 1 / low Y = / low Y) by (unfold Qcdiv; ring).
  assert (E2 : 1 / upp Y = / upp Y) by (unfold Qcdiv; ring).
  assert (LI : low I = / upp Y). { cbn. rewrite E1, E2. unfold qmin. destruct (qlt (/ upp Y) (/ low Y)) eqn:Q; auto. apply qlt_false in Q. apply Qcle_antisym; auto. }
  assert (UI : upp I = / low Y). { cbn. rewrite E1, E2. unfold qmax. destruct (qlt (/ low Y) (/ upp Y)) eqn:Q; auto. apply qlt_true in Q. exfalso. qlra. }
  assert (WI : wf I) by (unfold wf; rewrite LI, UI; auto).
  destruct (mul_tight X I WX WI) as [T1 T2]. split.
  - intros x y Hx [C D]. unfold Qcdiv. apply T1; auto. split.
    + rewrite LI. apply inv_anti; auto. destruct SG; qnra.
    + rewrite UI. apply inv_anti; auto. destruct SG; qnra.
  - intros R' H'. apply T2. intros x u Hx [C D]. rewrite LI in C. rewrite UI in D.
    assert (NU : u <> 0). { intro; subst u. destruct SG.
      - pose proof (qc_inv_pos (upp Y)). assert (0 < upp Y) by qlra. specialize (H2 H3). qlra.
      - pose proof (inv_lt_0 (low Y)). assert (low Y < 0) by qlra. specialize (H2 H3). qlra. }
    assert (SU : 0 < u * / upp Y /\ 0 < u * / low Y).
    { destruct SG.
      - assert (0 < / upp Y) by (apply qc_inv_pos; qlra). assert (0 < / low Y) by (apply qc_inv_pos; qlra). split; qnra.
      - assert (/ upp Y < 0) by (apply inv_lt_0; qlra). assert (/ low Y < 0) by (apply inv_lt_0; qlra). split; qnra. }
    destruct SU as [SU1 SU2].
    assert (II : forall a, a <> 0 -> / / a = a) by (intros; field; repeat split; auto; discriminate).
    replace (x * u) with (x / (/ u)) by (field; repeat split; auto; discriminate). apply H'; auto. split.
    + rewrite <- (II (low Y)) by auto. apply inv_anti; auto.
    + rewrite <- (II (upp Y)) by auto. apply inv_anti; auto. rewrite Qcmult_comm. auto.
Qed.

Lemma div_zero_end X Y : low Y = 0 \/ upp Y = 0 -> div X (IvOp Y) = Err ZeroDivision.
Proof.
  intros H. cbn [div]. unfold qdiv. destruct (qeq (low Y) 0) eqn:E; auto. cbn [bind].
  destruct H as [H|H]; [rewrite H in E; discriminate|]. rewrite H. reflexivity.
Qed.

Lemma big_quotient (a B : Qc) : 0 < a -> forall m, 0 < m -> exists y, 0 < y /\ y <= m /\ B < a / y.
Proof.
  intros Ha m Hm. set (K := qmax B 0 + 1).
  assert (HK : 0 < K /\ B < K). { unfold K. qmm. split; qlra. } destruct HK as [K1 K2].
  exists (qmin m (a / K)).
  assert (0 < a / K) by (apply qc_div_pos; auto).
  assert (Hy : 0 < qmin m (a / K)). { unfold qmin. destruct (qlt _ _); auto. }
  split; auto. split; [apply qmin_spec|].
  apply Qclt_le_trans with (1 := K2). apply qc_le_div; auto.
  destruct (qmin_spec m (a / K)) as [_ [L _]]. set (q := qmin m (a / K)) in *.
  assert (E : a / K * K = a) by (field; intro Z; rewrite Z in K1; qlra). qnra.
Qed.

Lemma div_cross_refuted X Y x : wf X -> mem x X -> x <> 0 -> low Y < 0 -> 0 < upp Y ->
  exists R y, div X (IvOp Y) = Ok R /\ mem y Y /\ y <> 0 /\ ~ mem (x / y) R.
Proof.
  intros WX Hx Nx L U. cbn [div].
  rewrite !qdiv_ok by (intro E; rewrite E in *; qlra). cbn [bind].
  set (R := mul X _). 
  destruct (Qclt_le_dec 0 x) as [Px|Px].
  - destruct (big_quotient x (upp R) Px (upp Y) U) as [y [A [B C]]].
    exists R, y. split; auto. split; [split; qlra|]. split; [intro; subst; qlra|]. intros [_ D]. qlra.
  - assert (Px' : 0 < - x). { assert (x < 0) by (destruct (Qclt_le_dec x 0); auto; exfalso; apply Nx; apply Qcle_antisym; auto). qlra. }
    destruct (big_quotient (- x) (upp R) Px' (- low Y)) as [y [A [B C]]]; [qlra|].
    exists R, (- y). split; auto. split; [split; qlra|]. split; [intro E; assert (y = 0) by qlra; subst y; qlra|]. intros [_ D].
    assert (Y0 : y <> 0) by (intro; subst; qlra). assert (Y1 : - y <> 0) by (intro E; assert (y = 0) by qlra; auto).
    assert (E : x / - y = - x / y) by (field; auto). rewrite E in D. qlra.
Qed.

Lemma div_scalar_exact X c : wf X -> c <> 0 ->
  exists R, div X (NumOp c) = Ok R /\ (encloses1 (fun x => x / c) X R <-> 0 < c \/ degenerate X).
Proof.
  intros WX Nc. cbn [div]. rewrite !qdiv_ok by auto. cbn [bind]. eexists. split; [reflexivity|].
  assert (E : forall x, x / c = x * / c) by reflexivity.
  destruct (mul_scalar_exact X (/ c) WX) as [M1 M2].
  assert (S : (0 <= / c) <-> 0 < c).
  { split; intro H.
    - destruct (Qclt_le_dec 0 c); auto. assert (c < 0) by (destruct (Qclt_le_dec c 0); auto; exfalso; apply Nc, Qcle_antisym; auto).
      pose proof (inv_lt_0 c H0). qlra.
    - apply Qclt_le_weak, qc_inv_pos; auto. }
  split.
  - intro H. destruct M1 as [M|M]; [intros x Hx; apply (H x Hx)| |]; auto. left. apply S; auto.
  - intros H x Hx. apply M2; auto. destruct H as [H|H]; auto. left. apply S; auto.
Qed.

(* ---- reciprocal ---- *)
Lemma invert_sound X R x : wf X -> invert X = Ok (Some R) -> mem x X -> x <> 0 /\ mem (/ x) R.
Proof.
  unfold wf, invert. intros WX. destruct (qeq (low X) 0) eqn:E1; [discriminate|]. destruct (qeq (upp X) 0) eqn:E2; [discriminate|].
  apply qeq_false in E1. apply qeq_false in E2. cbn [orb].
  destruct (qlt (low X) 0 && qlt 0 (upp X)) eqn:E3; [discriminate|].
  rewrite !qdiv_ok by auto. cbn [bind]. intros E [A B]. inversion E; subst R. clear E.
  assert (SG : 0 < low X \/ upp X < 0).
  { apply andb_false_iff in E3. destruct E3 as [E3|E3]; apply qlt_false in E3; [left|right].
    - destruct (Qclt_le_dec 0 (low X)); auto. exfalso. apply E1, Qcle_antisym; auto.
    - destruct (Qclt_le_dec (upp X) 0); auto. exfalso. apply E2, Qcle_antisym; auto. }
  split; [intro; subst; destruct SG; qlra|].
  split; cbn; unfold Qcdiv; rewrite Qcmult_1_l; apply inv_anti; auto; destruct SG; qnra.
Qed.
Lemma invert_zero X : wf X -> (low X = 0 \/ upp X = 0 <-> invert X = Err ZeroDivision) /\
  (low X < 0 /\ 0 < upp X <-> invert X = Ok None).
Proof.
  unfold wf, invert. intros WX. destruct (qeq (low X) 0) eqn:E1; destruct (qeq (upp X) 0) eqn:E2; cbn [orb];
  rewrite ?qeq_true, ?qeq_false in *.
  - split; split; intro H; auto; try discriminate. rewrite E1 in H. destruct H; qlra.
  - split; split; intro H; auto; try discriminate. rewrite E1 in H. destruct H; qlra.
  - split; split; intro H; auto; try discriminate. rewrite E2 in H. destruct H; qlra.
  - destruct (qlt (low X) 0 && qlt 0 (upp X)) eqn:E3.
    + apply andb_prop in E3. destruct E3 as [A B]. apply qlt_true in A. apply qlt_true in B.
      split; split; intro H; auto; try discriminate. destruct H; congruence.
    + rewrite !qdiv_ok by auto. cbn [bind]. split; split; intro H; try discriminate; try (destruct H; congruence).
      exfalso. apply andb_false_iff in E3. destruct H, E3 as [E3|E3]; apply qlt_false in E3; qlra.
Qed.

(* ---- intersection and hull ---- *)
Lemma meet_exact X Y x : mem x (meet X (IvOp Y)) <-> mem x X /\ mem x Y.
Proof.
  unfold mem; cbn. unfold qmax, qmin. destruct (qlt (low X) (low Y)) eqn:E1; destruct (qlt (upp Y) (upp X)) eqn:E2;
  rewrite ?qlt_true, ?qlt_false in *; split; intros H; repeat match goal with H : _ /\ _ |- _ => destruct H end; repeat split; auto; qlra.
Qed.
Lemma meet_scalar X c x : mem x (meet X (NumOp c)) <-> mem x X /\ x = c.
Proof.
  unfold mem; cbn. unfold qmax, qmin. destruct (qlt (low X) c) eqn:E1; destruct (qlt c (upp X)) eqn:E2;
  rewrite ?qlt_true, ?qlt_false in *; split; intros H; repeat match goal with H : _ /\ _ |- _ => destruct H end; subst; repeat split; auto; qlra.
Qed.
Lemma join_least X Y : wf X -> wf Y -> subset X (join X (IvOp Y)) /\ subset Y (join X (IvOp Y)) /\
  forall Z, subset X Z -> subset Y Z -> subset (join X (IvOp Y)) Z.
Proof.
  unfold wf. intros WX WY. split; [|split].
  - intros x [A B]. split; cbn; qmm; qlra.
  - intros x [A B]. split; cbn; qmm; qlra.
  - intros Z HX HY x [A B]. cbn in A, B.
    destruct (HX (low X)) as [X1 _]; auto. destruct (HX (upp X)) as [_ X2]; auto.
    destruct (HY (low Y)) as [Y1 _]; auto. destruct (HY (upp Y)) as [_ Y2]; auto.
    split.
    + apply Qcle_trans with (2 := A). unfold qmin. destruct (qlt _ _); auto.
    + apply Qcle_trans with (1 := B). unfold qmax. destruct (qlt _ _); auto.
Qed.
Lemma join_scalar X c : wf X -> subset X (join X (NumOp c)) /\ mem c (join X (NumOp c)) /\
  forall Z, subset X Z -> mem c Z -> subset (join X (NumOp c)) Z.
Proof.
  intro WX. destruct (join_least X (point_iv c)) as [A [B C]]; [auto|unfold wf; cbn; qlra|].
  change (join X (IvOp (point_iv c))) with (join X (NumOp c)) in *. split; auto. split.
  - apply B. unfold mem, point_iv; cbn; split; qlra.
  - intros Z HX Hc. apply C; auto. intros x [D E]. cbn in D, E. assert (x = c) by qlra. subst; auto.
Qed.
Lemma merge_join X Y : merge X Y = join X (IvOp Y).
Proof. reflexivity. Qed.

Lemma contains_num X c : contains X (NumOp c) = true <-> mem c X.
Proof. unfold contains, mem. rewrite andb_true_iff, !qle_true. tauto. Qed.
Lemma contains_iv X Y : wf Y -> (contains X (IvOp Y) = true <-> subset Y X).
Proof.
  unfold wf, contains, subset, mem. intro WY. rewrite andb_true_iff, !qle_true. split.
  - intros [A B] x [C D]. split; qlra.
  - intros H. split; apply H; split; qlra.
Qed.

(* ---- comparison ---- *)
Lemma lt_exact X Y : wf X -> wf Y -> (lt X (IvOp Y) = true <-> forall x y, mem x X -> mem y Y -> x < y).
Proof.
  unfold wf, lt, compare. intros WX WY. split.
  - destruct (qlt (upp X) (low Y)) eqn:E. { apply qlt_true in E. intros _ x y [A B] [C D]. qlra. }
    destruct (qlt (upp Y) (low X)); discriminate.
  - intro H. assert (L : upp X < low Y) by (apply H; auto). apply qlt_true in L. now rewrite L.
Qed.
Lemma gt_exact X Y : wf X -> wf Y -> (gt X (IvOp Y) = true <-> forall x y, mem x X -> mem y Y -> y < x).
Proof.
  unfold wf, gt, compare. intros WX WY. split.
  - destruct (qlt (upp X) (low Y)) eqn:E0; [discriminate|].
    destruct (qlt (upp Y) (low X)) eqn:E; [|discriminate]. apply qlt_true in E. intros _ x y [A B] [C D]. qlra.
  - intro H. assert (L : upp Y < low X) by (apply H; auto).
    assert (F : qlt (upp X) (low Y) = false) by (apply qlt_false; qlra). apply qlt_true in L. now rewrite F, L.
Qed.
Lemma le_not_gt X o : le X o = negb (gt X o).
Proof. unfold le, gt. now destruct (compare X o). Qed.
Lemma ge_not_lt X o : ge X o = negb (lt X o).
Proof. unfold ge, lt. now destruct (compare X o). Qed.
Lemma lt_num X c : wf X -> (lt X (NumOp c) = true <-> forall x, mem x X -> x < c).
Proof.
  unfold wf, lt, compare. intros WX. split.
  - destruct (qlt (upp X) c) eqn:E; [|discriminate]. apply qlt_true in E. intros _ x [A B]. qlra.
  - intro H. assert (L : upp X < c) by (apply H; auto). apply qlt_true in L. now rewrite L.
Qed.
Lemma gt_num_refuted X c : low X <= c -> c <= upp X -> gt X (NumOp c) = true /\ mem c X /\ ~ c < c.
Proof.
  intros A B. unfold gt, compare. assert (F : qlt (upp X) c = false) by (apply qlt_false; auto). rewrite F.
  split; auto. split; [split; auto|qlra].
Qed.
Lemma gt_num_partial X c : c < low X -> wf X -> gt X (NumOp c) = true /\ forall x, mem x X -> c < x.
Proof.
  intros A W. unfold wf in W. unfold gt, compare. assert (F : qlt (upp X) c = false) by (apply qlt_false; qlra). rewrite F.
  split; auto. intros x [B C]. qlra.
Qed.

Lemma max_fold : forall r m0 seen, Forall wf (m0 :: r) -> Forall wf seen ->
  (forall y, In y seen -> low y <= upp m0) ->
  let m := fold_left (fun m y => if gt y (IvOp m) then y else m) r m0 in
  (m = m0 \/ In m r) /\ low m0 <= low m /\ upp m0 <= upp m /\ (forall y, In y (seen ++ m0 :: r) -> low y <= upp m).
Proof.
  induction r as [|z r IH]; intros m0 seen F FS H; cbn [fold_left].
  - cbn. repeat split; auto; try apply Qcle_refl. intros y Hy. apply in_app_or in Hy. destruct Hy as [Hy|[<-|[]]]; auto.
    inversion F; auto.
  - inversion F as [|? ? F1 F2]; subst. inversion F2 as [|? ? F3 F4]; subst. cbv zeta.
    destruct (gt z (IvOp m0)) eqn:E.
    + unfold gt, compare in E. destruct (qlt (upp z) (low m0)); [discriminate|].
      destruct (qlt (upp m0) (low z)) eqn:Q; [|discriminate]. apply qlt_true in Q.
      unfold wf in F1, F3.
      destruct (IH z (seen ++ [m0]) F2) as [A [B [C D]]].
      { apply Forall_app; auto. }
      { intros y Hy. apply in_app_or in Hy. destruct Hy as [Hy|[<-|[]]]; [specialize (H y Hy)|]; qlra. }
      split; [destruct A as [->|A]; [right; left; auto|right; right; auto]|].
      split; [qlra|]. split; [qlra|]. intros y Hy. apply D. rewrite <- app_assoc. exact Hy.
    + destruct (IH m0 (seen ++ [z])) as [A [B [C D]]].
      { constructor; auto. } { apply Forall_app; auto. }
      { intros y Hy. apply in_app_or in Hy. destruct Hy as [Hy|[<-|[]]]; auto.
        unfold gt, compare in E. destruct (qlt (upp z) (low m0)) eqn:Q. { apply qlt_true in Q. unfold wf in *. qlra. }
        destruct (qlt (upp m0) (low z)) eqn:Q2; [discriminate|]. apply qlt_false in Q2. auto. }
      split; [destruct A as [->|A]; [left; auto|right; right; auto]|]. split; auto. split; auto.
      intros y Hy. apply D. apply in_app_or in Hy. destruct Hy as [Hy|[<-|[<-|Hy]]].
      * apply in_or_app; left; apply in_or_app; auto.
      * apply in_or_app; right; left; auto.
      * apply in_or_app; left; apply in_or_app; right; left; auto.
      * apply in_or_app; right; right; auto.
Qed.
Lemma min_fold : forall r m0 seen, Forall wf (m0 :: r) -> Forall wf seen ->
  (forall y, In y seen -> low m0 <= upp y) ->
  let m := fold_left (fun m y => if lt y (IvOp m) then y else m) r m0 in
  (m = m0 \/ In m r) /\ low m <= low m0 /\ upp m <= upp m0 /\ (forall y, In y (seen ++ m0 :: r) -> low m <= upp y).
Proof.
  induction r as [|z r IH]; intros m0 seen F FS H; cbn [fold_left].
  - cbn. repeat split; auto; try apply Qcle_refl. intros y Hy. apply in_app_or in Hy. destruct Hy as [Hy|[<-|[]]]; auto.
    inversion F; auto.
  - inversion F as [|? ? F1 F2]; subst. inversion F2 as [|? ? F3 F4]; subst. cbv zeta.
    destruct (lt z (IvOp m0)) eqn:E.
    + unfold lt, compare in E. destruct (qlt (upp z) (low m0)) eqn:Q; [|destruct (qlt (upp m0) (low z)); discriminate].
      apply qlt_true in Q. unfold wf in F1, F3.
      destruct (IH z (seen ++ [m0]) F2) as [A [B [C D]]].
      { apply Forall_app; auto. }
      { intros y Hy. apply in_app_or in Hy. destruct Hy as [Hy|[<-|[]]]; [specialize (H y Hy)|]; qlra. }
      split; [destruct A as [->|A]; [right; left; auto|right; right; auto]|].
      split; [qlra|]. split; [qlra|]. intros y Hy. apply D. rewrite <- app_assoc. exact Hy.
    + destruct (IH m0 (seen ++ [z])) as [A [B [C D]]].
      { constructor; auto. } { apply Forall_app; auto. }
      { intros y Hy. apply in_app_or in Hy. destruct Hy as [Hy|[<-|[]]]; auto.
        unfold lt, compare in E. destruct (qlt (upp z) (low m0)) eqn:Q; [discriminate|]. apply qlt_false in Q. auto. }
      split; [destruct A as [->|A]; [left; auto|right; right; auto]|]. split; auto. split; auto.
      intros y Hy. apply D. apply in_app_or in Hy. destruct Hy as [Hy|[<-|[<-|Hy]]].
      * apply in_or_app; left; apply in_or_app; auto.
      * apply in_or_app; right; left; auto.
      * apply in_or_app; left; apply in_or_app; right; left; auto.
      * apply in_or_app; right; right; auto.
Qed.

Lemma max_args_ok l : l <> [] -> Forall wf l ->
  exists m, max_args l = Ok m /\ In m l /\ forall y, In y l -> exists a b, mem a y /\ mem b m /\ a <= b.
Proof.
  destruct l as [|x r]; [congruence|]. intros _ F. cbn [max_args].
  destruct (max_fold r x [] F (Forall_nil _)) as [A [_ [_ D]]]; [intros ? []|].
  set (m := fold_left _ r x) in *. exists m. split; auto.
  assert (I : In m (x :: r)) by (destruct A as [->|A]; [left|right]; auto). split; auto.
  rewrite Forall_forall in F. intros y Hy. exists (low y), (upp m).
  pose proof (F y Hy) as W1. pose proof (F m I) as W2. unfold wf, mem in *. repeat split; auto; apply Qcle_refl.
Qed.
Lemma min_args_ok l : l <> [] -> Forall wf l ->
  exists m, min_args l = Ok m /\ In m l /\ forall y, In y l -> exists a b, mem a y /\ mem b m /\ b <= a.
Proof.
  destruct l as [|x r]; [congruence|]. intros _ F. cbn [min_args].
  destruct (min_fold r x [] F (Forall_nil _)) as [A [_ [_ D]]]; [intros ? []|].
  set (m := fold_left _ r x) in *. exists m. split; auto.
  assert (I : In m (x :: r)) by (destruct A as [->|A]; [left|right]; auto). split; auto.
  rewrite Forall_forall in F. intros y Hy. exists (upp y), (low m).
  pose proof (F y Hy) as W1. pose proof (F m I) as W2. unfold wf, mem in *. repeat split; auto; apply Qcle_refl.
Qed.

(* ---- powers ---- *)
Lemma pow_S x n : x ^ S n = x * x ^ n. Proof. reflexivity. Qed.
Lemma pow_nonneg x n : 0 <= x -> 0 <= x ^ n.
Proof. intro H. induction n; [cbn; qlra|]. rewrite pow_S. apply qc_mul_nonneg; auto. Qed.
Lemma pow_pos x n : 0 < x -> 0 < x ^ n.
Proof. intro H. induction n; [cbn; qlra|]. rewrite pow_S. apply qc_mul_pos; auto. Qed.
Lemma pow_mono x y n : 0 <= x -> x <= y -> x ^ n <= y ^ n.
Proof.
  intros H L. induction n; [apply Qcle_refl|]. rewrite !pow_S.
  pose proof (pow_nonneg x n H). assert (0 <= y ^ n) by (apply pow_nonneg; qlra). qnra.
Qed.
Lemma pow_opp x n : (- x) ^ n = if Nat.even n then x ^ n else - (x ^ n).
Proof.
  induction n as [|n IH]; [reflexivity|]. rewrite pow_S, IH, Nat.even_succ, <- Nat.negb_even.
  destruct (Nat.even n); cbn [negb]; rewrite pow_S; ring.
Qed.
Lemma pow_even_opp x n : Nat.even n = true -> (- x) ^ n = x ^ n.
Proof. intro E. rewrite pow_opp, E. auto. Qed.
Lemma pow_odd_opp x n : Nat.even n = false -> (- x) ^ n = - (x ^ n).
Proof. intro E. rewrite pow_opp, E. auto. Qed.
Lemma pow_odd_mono x y n : Nat.even n = false -> x <= y -> x ^ n <= y ^ n.
Proof.
  intros E L. destruct (Qclt_le_dec x 0) as [Nx|Px]; [|apply pow_mono; auto].
  destruct (Qclt_le_dec y 0) as [Ny|Py].
  - assert ((- y) ^ n <= (- x) ^ n) by (apply pow_mono; qlra). rewrite !pow_odd_opp in H by auto. qlra.
  - assert (0 <= (- x) ^ n) by (apply pow_nonneg; qlra). rewrite pow_odd_opp in H by auto.
    pose proof (pow_nonneg y n Py). qlra.
Qed.

Lemma pow_sound X n : wf X -> Nat.even n = false \/ ~ (low X < 0 /\ 0 < upp X) \/ n = 0%nat -> encloses1 (fun x => x ^ n) X (pow X n).
Proof.
  unfold wf. intros WX H x [A B]. unfold pow. destruct (Nat.even n) eqn:E.
  - destruct H as [H|[H|H]]; [discriminate| |].
    + destruct (Qclt_le_dec (low X) 0) as [N|P].
      * destruct (Qclt_le_dec 0 (upp X)) as [N2|P2]; [exfalso; auto|].
        assert (H1 : (- upp X) ^ n <= (- x) ^ n) by (apply pow_mono; qlra).
        assert (H2 : (- x) ^ n <= (- low X) ^ n) by (apply pow_mono; qlra).
        rewrite !pow_even_opp in * by auto. split; cbn [low upp]; qmm; qlra.
      * assert (H1 : low X ^ n <= x ^ n) by (apply pow_mono; qlra).
        assert (H2 : x ^ n <= upp X ^ n) by (apply pow_mono; qlra). split; cbn [low upp]; qmm; qlra.
    + subst n. cbn. split; cbn [low upp]; qmm; qlra.
  - split; cbn [low upp]; apply pow_odd_mono; auto.
Qed.

Lemma pow_even_refuted X n : low X < 0 -> 0 < upp X -> Nat.even n = true -> (0 < n)%nat ->
  mem 0 X /\ 0 ^ n = 0 /\ ~ mem 0 (pow X n).
Proof.
  intros A B E L. split; [split; qlra|].
  assert (Z : 0 ^ n = 0). { destruct n; [lia|]. rewrite pow_S. ring. } split; auto.
  unfold pow. rewrite E. intros [C _]. cbn [low] in C.
  assert (0 < (- low X) ^ n) by (apply pow_pos; qlra). rewrite pow_even_opp in H by auto.
  assert (0 < upp X ^ n) by (apply pow_pos; qlra).
  unfold qmin in C. destruct (qlt _ _); qlra.
Qed.

(* ---- subdivision ---- *)
Lemma half_pos : 0 < half. Proof. reflexivity. Qed.
Lemma half_2 : half + half = 1. Proof. apply Qc_is_canon. reflexivity. Qed.

Lemma step_spec X : exists m, subdivide_step X = [mk_iv (low X) m; mk_iv m (upp X)] /\ m = (low X + upp X) * half /\
  width (mk_iv (low X) m) = width X * half /\ width (mk_iv m (upp X)) = width X * half.
Proof.
  exists ((low X + upp X) * half). split; [reflexivity|]. split; auto. unfold width; cbn. pose proof half_2. set (h := half) in *.
  assert (E : h = 1 - h) by qlra. split.
  - transitivity ((upp X - low X) * h + low X * (h + h - 1)); [ring|]. rewrite H. ring.
  - transitivity ((upp X - low X) * h + upp X * (1 - (h + h))); [ring|]. rewrite H. ring.
Qed.
Lemma step_cover X x : wf X -> (mem x X <-> exists P, In P (subdivide_step X) /\ mem x P).
Proof.
  unfold wf. intro W. destruct (step_spec X) as [m [E [Em [W1 W2]]]]. rewrite E. unfold width in *; cbn in W1, W2.
  pose proof half_pos. assert (low X <= m) by (assert (0 <= (upp X - low X) * half) by (apply qc_mul_nonneg; qlra); qlra).
  assert (m <= upp X) by (assert (0 <= (upp X - low X) * half) by (apply qc_mul_nonneg; qlra); qlra).
  unfold mem. split.
  - intros [A B]. destruct (Qclt_le_dec x m); [exists (mk_iv (low X) m)|exists (mk_iv m (upp X))]; cbn; repeat split; auto; try qlra.
  - intros [P [[<-|[<-|[]]] [A B]]]; cbn in *; split; qlra.
Qed.
Lemma step_wf X P : wf X -> In P (subdivide_step X) -> wf P /\ width P = width X * half.
Proof.
  intros W I. destruct (step_spec X) as [m [E [Em [W1 W2]]]]. rewrite E in I.
  assert (width P = width X * half) by (destruct I as [<-|[<-|[]]]; auto). split; auto.
  unfold wf, width in *. pose proof half_pos. assert (0 <= (upp X - low X) * half) by (apply qc_mul_nonneg; qlra). qlra.
Qed.

Lemma subdivide_from_ok : forall n L w, (forall P, In P L -> wf P /\ width P = w) ->
  length (subdivide_from n L) = (length L * 2 ^ n)%nat /\
  (forall P, In P (subdivide_from n L) -> wf P /\ width P = w * half ^ n) /\
  (forall x, (exists P, In P L /\ mem x P) <-> exists P, In P (subdivide_from n L) /\ mem x P).
Proof.
  induction n as [|n IH]; intros L w H; cbn [subdivide_from].
  - split; [simpl; lia|]. split; [|tauto]. intros P I. destruct (H P I) as [A B]. split; auto. rewrite B. cbn. ring.
  - destruct (IH (flat_map subdivide_step L) (w * half)) as [A [B C]].
    { intros P I. apply in_flat_map in I. destruct I as [Q [I1 I2]]. destruct (H Q I1) as [W1 W2]. rewrite <- W2. apply step_wf; auto. }
    split; [|split].
    + rewrite A. assert (length (flat_map subdivide_step L) = 2 * length L)%nat.
      { clear. induction L; auto. cbn [flat_map]. rewrite app_length, IHL. simpl. lia. } rewrite H0. rewrite Nat.pow_succ_r'. lia.
    + intros P I. destruct (B P I) as [B1 B2]. split; auto. rewrite B2, pow_S. ring.
    + intro x. rewrite <- C. split.
      * intros [P [I M]]. destruct (H P I) as [W1 _]. apply (step_cover P x W1) in M. destruct M as [Q [I2 M]].
        exists Q. split; auto. apply in_flat_map. eauto.
      * intros [Q [I M]]. apply in_flat_map in I. destruct I as [P [I1 I2]]. exists P. split; auto.
        destruct (H P I1) as [W1 _]. apply (step_cover P x W1). eauto.
Qed.

Lemma subdivide_ok X n : wf X ->
  length (subdivide X n) = (2 ^ n)%nat /\
  (forall P, In P (subdivide X n) -> wf P /\ width P = width X * half ^ n) /\
  (forall x, mem x X <-> exists P, In P (subdivide X n) /\ mem x P).
Proof.
  intro W. destruct (subdivide_from_ok n [X] (width X)) as [A [B C]]. { intros P [<-|[]]. auto. }
  split; [unfold subdivide; rewrite A; simpl; lia|]. split; auto.
  intro x. unfold subdivide. rewrite <- C. split; [intro; exists X; split; [left|]; auto|intros [P [[<-|[]] M]]; auto].
Qed.

Lemma evaluate_ok X : wf X -> (forall t, 0 <= t -> t <= 1 -> mem (evaluate X t) X) /\ evaluate X 0 = low X /\ evaluate X 1 = upp X /\
  forall x, mem x X -> exists t, 0 <= t /\ t <= 1 /\ evaluate X t = x.
Proof.
  unfold wf. intro W. unfold evaluate, mem. split; [|split; [|split]]; try ring.
  - intros t A B. split; qnra.
  - intros x [A B]. destruct (Qclt_le_dec (low X) (upp X)) as [L|L].
    + exists ((x - low X) / (upp X - low X)). assert (0 < upp X - low X) by qlra.
      split; [apply qc_div_nonneg; auto; qlra|]. split; [apply qc_div_le; auto; qlra|]. field. intro E. rewrite E in H. qlra.
    + exists 0. split; [qlra|]. split; [qlra|]. assert (x = low X) by qlra. subst. ring.
Qed.

Lemma to_float_ok X : wf X -> mem (to_float X) X /\ to_float X - low X = upp X - to_float X.
Proof.
  unfold wf, mem, to_float. intro W.
  assert (E : (low X + upp X) / Q2Qc (2 # 1) = (low X + upp X) * half).
  { unfold Qcdiv. f_equal. }
  rewrite E. set (h := half). pose proof half_2. fold h in H. set (s := (low X + upp X) * h).
  assert (s + s = low X + upp X). { unfold s. transitivity ((low X + upp X) * (h + h)); [ring|]. rewrite H. ring. }
  repeat split; qlra.
Qed.

Lemma from_tuple_fails : forall t, exists e, from_tuple t = Err e.
Proof.
  fix IH 1. intros [q|l]; cbn [from_tuple]; eauto. destruct l as [|a r]; eauto.
  destruct (IH a) as [e E]. rewrite E. cbn [bind]. eauto.
Qed.

Lemma compare_exact X Y : wf X -> wf Y ->
  (compare X (IvOp Y) = CTrue <-> forall x y, mem x X -> mem y Y -> x < y) /\
  (compare X (IvOp Y) = CFalse <-> forall x y, mem x X -> mem y Y -> y < x) /\
  (compare X (IvOp Y) = CMaybe <-> exists z, mem z X /\ mem z Y).
Proof.
  unfold wf. intros WX WY. cbn [compare].
  destruct (qlt (upp X) (low Y)) eqn:E1; [apply qlt_true in E1|apply qlt_false in E1].
  - split; [|split]; (split; [|intro H]); try discriminate; auto.
    + intros _ x y [A B] [C D]. qlra.
    + exfalso. assert (low Y < low X) by (apply H; auto). qlra.
    + destruct H as [z [[A B] [C D]]]. exfalso. qlra.
  - destruct (qlt (upp Y) (low X)) eqn:E2; [apply qlt_true in E2|apply qlt_false in E2].
    + split; [|split]; (split; [|intro H]); try discriminate; auto.
      * exfalso. assert (low X < low Y) by (apply H; auto). qlra.
      * intros _ x y [A B] [C D]. qlra.
      * destruct H as [z [[A B] [C D]]]. exfalso. qlra.
    + split; [|split]; (split; [|intro H]); try discriminate; auto.
      * exfalso. assert (upp X < low Y) by (apply H; auto). qlra.
      * exfalso. assert (upp Y < low X) by (apply H; auto). qlra.
      * intros _. exists (qmax (low X) (low Y)). destruct (qmax_spec (low X) (low Y)) as [A [B C]].
        unfold mem. repeat split; auto; destruct C as [->| ->]; auto.
Qed.
Lemma le_exact X Y : wf X -> wf Y -> (le X (IvOp Y) = true <-> exists x y, mem x X /\ mem y Y /\ x <= y).
Proof.
  intros WX WY. rewrite le_not_gt, negb_true_iff. split.
  - intro H. destruct (Qclt_le_dec (upp Y) (low X)) as [L|L].
    + assert (G : gt X (IvOp Y) = true). { apply gt_exact; auto. intros x y [A B] [C D]. qlra. } congruence.
    + exists (low X), (upp Y). repeat split; auto; apply Qcle_refl.
  - intros [x [y [A [B C]]]]. destruct (gt X (IvOp Y)) eqn:E; auto. exfalso.
    assert (y < x) by (apply (proj1 (gt_exact X Y WX WY) E); auto). qlra.
Qed.
Lemma ge_exact X Y : wf X -> wf Y -> (ge X (IvOp Y) = true <-> exists x y, mem x X /\ mem y Y /\ y <= x).
Proof.
  intros WX WY. rewrite ge_not_lt, negb_true_iff. split.
  - intro H. destruct (Qclt_le_dec (upp X) (low Y)) as [L|L].
    + assert (G : lt X (IvOp Y) = true). { apply lt_exact; auto. intros x y [A B] [C D]. qlra. } congruence.
    + exists (upp X), (low Y). repeat split; auto; apply Qcle_refl.
  - intros [x [y [A [B C]]]]. destruct (lt X (IvOp Y)) eqn:E; auto. exfalso.
    assert (x < y) by (apply (proj1 (lt_exact X Y WX WY) E); auto). qlra.
Qed.
