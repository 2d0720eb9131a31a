(* The derivative of the specification, its uniqueness, and the derivatives
   of unweighted curves. *)
From Coq Require Import List ZArith Lia Bool QArith Qcanon Qcabs.
From Verif Require Import Common ListLib QcLib ArrZ SumLib DerivLib SplineTheory NurbsModel NurbsSpec NurbsProofs SurfModel DerModel DerSpec DerProofs1 DerProofs2 DerProofs3.
Import ListNotations.
Local Open Scope Z_scope.
Local Open Scope Qc_scope.

(* ---- derivatives on a set ---- *)

Lemma deriv_on_of D f t g : is_deriv f t g -> deriv_on D f t g.
Proof. intros [C [d [H1 [H2 H3]]]]. exists C, d. split; auto. Qed.

Lemma deriv_on_ext (D : Qc -> Prop) f f' t g : D t -> (forall x, D x -> f x = f' x) -> deriv_on D f t g -> deriv_on D f' t g.
Proof.
  intros Dt E [C [d [H1 [H2 H3]]]]. exists C, d. split; auto. split; auto. intros h Dh Hh. rewrite <- !E by auto. auto.
Qed.

(* every point of D has other points of D arbitrarily near *)
Definition thick (D : Qc -> Prop) : Prop := forall x d, D x -> 0 < d -> exists h, h <> 0 /\ Qcabs h <= d /\ D (x + h).

Lemma deriv_on_unique D f t a b : thick D -> D t -> deriv_on D f t a -> deriv_on D f t b -> a = b.
Proof.
  intros Th Dt [C [d [H1 [H2 H3]]]] [C' [d' [H1' [H2' H3']]]].
  destruct (Qc_eq_dec a b) as [|NE]; auto. exfalso.
  set (e := Qcabs (a - b)).
  assert (Pe : 0 < e).
  { pose proof (abs_pos (a - b)). destruct (Qcle_lt_or_eq _ _ H) as [|X]; auto. exfalso. apply NE.
    assert (Qcabs (a - b) <= 0) by (rewrite <- X; apply Qcle_refl). apply abs_le in H0. destruct H0. qlra. }
  set (K := C + C' + 1). assert (PK : 0 < K) by (unfold K; qlra).
  set (m := DerivLib.qmin2 (DerivLib.qmin2 d d') (e / (K + K))).
  assert (Pm : 0 < m). { apply DerivLib.qmin2_pos; [apply DerivLib.qmin2_pos; auto|]. apply qc_div_pos; auto. qlra. }
  destruct (Th t m Dt Pm) as [h [Hz [Hh Dh]]].
  pose proof (DerivLib.qmin2_l (DerivLib.qmin2 d d') (e / (K + K))) as M1. pose proof (DerivLib.qmin2_r (DerivLib.qmin2 d d') (e / (K + K))) as M2.
  pose proof (DerivLib.qmin2_l d d') as M3. pose proof (DerivLib.qmin2_r d d') as M4. fold m in M1, M2.
  specialize (H3 h Dh ltac:(qlra)). specialize (H3' h Dh ltac:(qlra)).
  apply abs_le in H3. apply abs_le in H3'. destruct H3 as [A1 A2], H3' as [B1 B2].
  assert (X : Qcabs (h * (a - b)) <= (C + C') * (h * h)). { apply abs_le. split; qlra. }
  rewrite abs_mul in X. fold e in X.
  assert (Ph : 0 < Qcabs h).
  { pose proof (abs_pos h). destruct (Qcle_lt_or_eq _ _ H) as [|Y]; auto. exfalso. apply Hz.
    assert (Z0 : Qcabs h <= 0) by (rewrite <- Y; apply Qcle_refl). apply abs_le in Z0. destruct Z0. apply Qcle_antisym; qlra. }
  assert (HH : h * h = Qcabs h * Qcabs h).
  { rewrite <- abs_mul. pose proof (abs_self (h * h)) as [Y _]. apply Qcle_antisym; auto. apply abs_le. pose proof (abs_sq h). split; qlra. }
  rewrite HH in X. set (y := Qcabs h) in *.
  assert (L : y * (K + K) <= e).
  { assert (E2 : e = e / (K + K) * (K + K)) by (field; intro; qlra). rewrite E2. apply Qcmult_le_compat_r; qlra. }
  assert (K1 : (C + C') * (y * y) < y * e).
  { apply Qclt_le_trans with (y * (y * (K + K))).
    - replace (y * (y * (K + K))) with ((K + K) * (y * y)) by ring. apply Qcmult_lt_compat_r; [apply qc_mul_pos; auto|unfold K; qlra].
    - rewrite (Qcmult_comm y (y * (K + K))), (Qcmult_comm y e). apply Qcmult_le_compat_r; auto. qlra. }
  qlra.
Qed.

Lemma nth_unique D : thick D -> forall k f f' t a b, D t -> (forall x, D x -> f x = f' x) ->
  nth_deriv_on D k f t a -> nth_deriv_on D k f' t b -> a = b.
Proof.
  intros Th. induction k as [|k IH]; intros f f' t a b Dt E; cbn [nth_deriv_on].
  - intros <- <-. auto.
  - intros [g [G1 G2]] [g' [G1' G2']]. apply (IH g g' t a b); auto.
    intros x Dx. apply (deriv_on_unique D f x); auto. apply (deriv_on_ext D f'); auto. intros; symmetry; auto.
Qed.

(* ---- the span of a parameter ---- *)

Lemma span_at_of p n U t s x : valid_knots p n U -> span_of p n U t s -> span_at p n U t x -> span_of p n U x s.
Proof.
  intros V S [B E]. pose proof V as [Hp [HL [HS HV]]]. pose proof S as [S1 _].
  pose proof (E s S1) as Es. rewrite (in_span_unique p n U t s) in Es by (auto; lia). rewrite Z.eqb_refl in Es.
  split; auto. unfold in_span in Es. split; intro L.
  - assert (Q : qlt x (knot U (n + 1)) = true) by (apply qlt_true; auto). rewrite Q in Es. apply andb_true_iff in Es. destruct Es as [E1 E2].
    apply qle_true in E1. apply qlt_true in E2. auto.
  - assert (Q : qlt x (knot U (n + 1)) = false) by (apply qlt_false; auto). rewrite Q in Es. apply Z.eqb_eq in Es. auto.
Qed.

Lemma span_of_at p n U t s x : valid_knots p n U -> span_of p n U t s -> span_of p n U x s -> knot U p <= x <= knot U (n + 1) -> span_at p n U t x.
Proof.
  intros V S S' B. split; auto. intros i Hi. destruct V as [Hp V]. pose proof (conj Hp V) as V'.
  rewrite (in_span_unique p n U x s), (in_span_unique p n U t s) by (auto; lia). auto.
Qed.

Lemma span_at_refl p n U t : knot U p <= t <= knot U (n + 1) -> span_at p n U t t.
Proof. intro. split; auto. Qed.

Lemma span_at_thick p n U t : valid_knots p n U -> knot U p <= t <= knot U (n + 1) -> thick (span_at p n U t).
Proof.
  intros V B x d Dx Pd. destruct (find_span_any p n U t false V) as [s [_ S]]; try apply B.
  pose proof (span_at_of _ _ _ _ _ _ V S Dx) as Sx. destruct Dx as [Bx _]. pose proof (span_of_pos _ _ _ _ _ V S) as Ps.
  destruct (span_of_bounds _ _ _ _ _ V Sx) as [L1 L2]; try apply Bx.
  pose proof V as [Hp [HL [HS HV]]]. pose proof S as [Hs _].
  assert (K1 : knot U p <= knot U s) by (apply HS; lia). assert (K2 : knot U (s + 1) <= knot U (n + 1)) by (apply HS; lia).
  assert (HALF : forall a : Qc, 0 < a -> 0 < a / (1 + 1) /\ a / (1 + 1) < a).
  { intros a Pa. assert (X : a = a / (1 + 1) + a / (1 + 1)) by (field; intro X; discriminate X).
    assert (0 < a / (1 + 1)) by (apply qc_div_pos; auto; reflexivity). split; auto. qlra. }
  destruct (Qclt_le_dec x (knot U (s + 1))) as [L|L].
  - set (m := DerivLib.qmin2 d (knot U (s + 1) - x)). assert (Pm : 0 < m) by (apply DerivLib.qmin2_pos; auto; qlra).
    pose proof (DerivLib.qmin2_l d (knot U (s + 1) - x)) as M1. pose proof (DerivLib.qmin2_r d (knot U (s + 1) - x)) as M2. fold m in M1, M2.
    destruct (HALF m Pm) as [P1 P2]. exists (m / (1 + 1)). split; [intro X; rewrite X in P1; apply (Qclt_not_le _ _ P1); apply Qcle_refl|].
    split; [apply abs_le; split; qlra|]. apply (span_of_at p n U t s); auto.
    + split; auto. split; intro; [split; qlra|]. exfalso. qlra.
    + split; qlra.
  - set (m := DerivLib.qmin2 d (x - knot U s)). assert (Pm : 0 < m) by (apply DerivLib.qmin2_pos; auto; qlra).
    pose proof (DerivLib.qmin2_l d (x - knot U s)) as M1. pose proof (DerivLib.qmin2_r d (x - knot U s)) as M2. fold m in M1, M2.
    destruct (HALF m Pm) as [P1 P2]. exists (- (m / (1 + 1))). split; [intro X; assert (X' : m / (1 + 1) = 0) by qlra; rewrite X' in P1; apply (Qclt_not_le _ _ P1); apply Qcle_refl|].
    split; [apply abs_le; split; qlra|]. apply (span_of_at p n U t s); auto.
    + split; auto. split; intro; [split; qlra|]. exfalso. qlra.
    + split; qlra.
Qed.

(* ---- the piece of a span ---- *)

Lemma dpiece_nth D U s p d : ndg U s p -> forall k m t, nth_deriv_on D k (dpiece U s p d m) t (dpiece U s p d (m + k) t).
Proof.
  intro N. induction k as [|k IH]; intros m t; cbn [nth_deriv_on].
  - now rewrite Nat.add_0_r.
  - exists (dpiece U s p d (S m)). split; [intros x _; apply deriv_on_of, dpiece_chain; auto|].
    replace (m + S k)%nat with (S m + k)%nat by lia. apply IH.
Qed.

Lemma nth_ext (D : Qc -> Prop) k f f' t v : D t -> (forall x, D x -> f x = f' x) -> nth_deriv_on D k f t v -> nth_deriv_on D k f' t v.
Proof.
  intros Dt E. destruct k as [|k]; cbn [nth_deriv_on].
  - intros <-. symmetry. auto.
  - intros [g [G1 G2]]. exists g. split; auto. intros x Dx. apply (deriv_on_ext D f); auto.
Qed.

Lemma dpiece_deriv p n U t s d f k : valid_knots p n U -> knot U p <= t <= knot U (n + 1) -> span_of p n U t s ->
  (forall x, span_of p n U x s -> f x = piece (knot U) s (Z.to_nat p) d x) ->
  nth_deriv_on (span_at p n U t) k f t (dpiece (knot U) s (Z.to_nat p) d k t).
Proof.
  intros V B S E. apply (nth_ext _ _ (dpiece (knot U) s (Z.to_nat p) d 0)); [apply span_at_refl; auto| |].
  - intros x Dx. rewrite dpiece_zero. symmetry. apply E. apply (span_at_of p n U t); auto.
  - apply dpiece_nth. apply (span_ndg p n U t); auto.
Qed.

(* linearity *)
Lemma dcoef_ext U p : forall k d e i, (forall j, (i - Z.of_nat k <= j <= i)%Z -> d j = e j) -> dcoef U p k d i = dcoef U p k e i.
Proof.
  induction k as [|k IH]; intros d e i H; cbn [dcoef]; [apply H; lia|].
  unfold dstep. rewrite (IH d e i), (IH d e (i - 1)%Z); auto; intros; apply H; lia.
Qed.
Lemma dpiece_ext U s p d e k t : (forall j, (s - Z.of_nat p <= j <= s)%Z -> d j = e j) -> dpiece U s p d k t = dpiece U s p e k t.
Proof.
  intro H. unfold dpiece. destruct (Nat.leb_spec k p); auto. unfold piece. apply sum_n_ext. intros i Hi. f_equal.
  apply dcoef_ext. intros j Hj. apply H. lia.
Qed.
Lemma dcoef_lin U p : forall k a d e i, dcoef U p k (fun j => a * d j + e j) i = a * dcoef U p k d i + dcoef U p k e i.
Proof.
  induction k as [|k IH]; intros a d e i; cbn [dcoef]; auto. unfold dstep. rewrite !IH. unfold Qcdiv. ring.
Qed.
Lemma dpiece_lin U s p a d e k t : dpiece U s p (fun j => a * d j + e j) k t = a * dpiece U s p d k t + dpiece U s p e k t.
Proof.
  unfold dpiece. destruct (Nat.leb_spec k p); [|ring]. unfold piece. rewrite <- sum_n_scal, <- sum_n_add.
  apply sum_n_ext. intros i Hi. rewrite dcoef_lin. ring.
Qed.
Lemma dpiece_0 U s p k t : dpiece U s p (fun _ => 0) k t = 0.
Proof.
  pose proof (dpiece_lin U s p 0 (fun _ => 0) (fun _ => 0) k t) as H.
  rewrite (dpiece_ext U s p (fun j => 0 * 0 + 0) (fun _ => 0)) in H by (intros; ring).
  pose proof (dpiece_lin U s p 1 (fun _ => 0) (fun _ => 0) k t) as H'.
  rewrite (dpiece_ext U s p (fun j => 1 * 0 + 0) (fun _ => 0)) in H' by (intros; ring). qlra.
Qed.
Lemma dpiece_sum U s p c : forall lo (w : Z -> Qc) (d : Z -> Z -> Qc) k t,
  dpiece U s p (fun j => sum_n c lo (fun i => w i * d i j)) k t = sum_n c lo (fun i => w i * dpiece U s p (d i) k t).
Proof.
  induction c as [|c IH]; intros lo w d k t; cbn [sum_n]; [apply dpiece_0|].
  rewrite (dpiece_lin U s p (w lo) (d lo) (fun j => sum_n c (lo + 1) (fun i => w i * d i j))). rewrite IH. auto.
Qed.
Lemma sum_ind c : forall lo (w : Z -> Qc) j, (lo <= j < lo + Z.of_nat c)%Z -> sum_n c lo (fun i => w i * ind i j) = w j.
Proof.
  intros lo w j H. rewrite (sum_n_window c 1 lo j); try lia.
  - cbn [sum_n]. unfold ind. rewrite Z.eqb_refl. ring.
  - intros i Hi Hn. unfold ind. destruct (Z.eqb_spec j i); [lia|ring].
Qed.
(* the derivative of a piece is the combination of those of the basis functions *)
Lemma dpiece_basis U s p d k t :
  dpiece U s p d k t = sum_n (S p) (s - Z.of_nat p) (fun i => dpiece U s p (ind i) k t * d i).
Proof.
  rewrite (dpiece_ext U s p d (fun j => sum_n (S p) (s - Z.of_nat p) (fun i => d i * ind i j))).
  - rewrite dpiece_sum. apply sum_n_ext. intros; ring.
  - intros j Hj. rewrite sum_ind; auto. lia.
Qed.

Lemma piece_ind p n U x s i : valid_knots p n U -> span_of p n U x s -> (s - p <= i <= s)%Z ->
  cox_de_boor U n (Z.to_nat p) i x = piece (knot U) s (Z.to_nat p) (ind i) x.
Proof.
  intros V S Hi. pose proof V as [Hp [HL _]]. pose proof S as [Hs _]. rewrite (cdb_Bs p n U x s) by (auto; lia).
  unfold piece. rewrite (sum_n_ext _ _ _ (fun j => Bs (knot U) s x (Z.to_nat p) j * ind j i)).
  - rewrite (sum_ind _ _ (fun j => Bs (knot U) s x (Z.to_nat p) j)); auto. lia.
  - intros j Hj. unfold ind. rewrite (Z.eqb_sym j i). auto.
Qed.

Lemma ders_basis_funs_deriv p n U u d s ders0 :
  valid_knots p n U -> knot U p <= u <= knot U (n + 1) -> (0 <= d <= p)%Z ->
  find_span n p u U false = Ok s -> shapeM (d + 1) (p + 1) ders0 ->
  exists M, ders_basis_funs s u p d U ders0 = Ok M /\ shapeM (d + 1) (p + 1) M /\
    forall k j, (0 <= k <= d)%Z -> (0 <= j <= p)%Z ->
      nth_deriv_on (span_at p n U u) (Z.to_nat k) (cox_de_boor U n (Z.to_nat p) (s - p + j)) u (atM 0 M k j).
Proof.
  intros V B Hd Fs Sh. destruct (find_span_span_of p n U u V) as [s' [Fs' S]]; try apply B. rewrite Fs in Fs'. injection Fs' as <-.
  pose proof V as [Hp [HL _]]. pose proof S as [Hs _].
  destruct (ders_basis_funs_ok p d s u U ders0) as [M [E [S1 V1]]]; auto; try lia. { apply (span_ndg p n U u); auto. }
  exists M. split; auto. split; auto. intros k j Hk Hj. rewrite V1 by lia.
  apply (dpiece_deriv p n U u s); auto. intros x Sx. apply (piece_ind p n U x s); auto; lia.
Qed.
