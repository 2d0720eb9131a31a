(* Products, derivatives, rational patches and degree elevation: proofs. *)
From Coq Require Import List Arith ZArith Bool QArith Qcanon Lia.
From Verif Require Import Common ListLib QcLib ArrZ SumLib DerivLib BinomModel SkipSpec BezModel BezSpec BezProofs.
Import ListNotations.
Open Scope Qc_scope.

(* ---- sums over lists ---- *)
Definition lsum {A} (f : A -> Qc) (l : list A) : Qc := fold_right (fun x s => f x + s) 0 l.
Lemma lsum_app {A} (f : A -> Qc) a b : lsum f (a ++ b) = lsum f a + lsum f b.
Proof. unfold lsum. induction a as [|x a IH]; cbn [app fold_right]; [ring|]. rewrite IH. ring. Qed.
Lemma lsum_flat_map {A B} (f : B -> Qc) (g : A -> list B) l : lsum f (flat_map g l) = lsum (fun x => lsum f (g x)) l.
Proof. induction l as [|x l IH]; [reflexivity|]. cbn [flat_map]. rewrite lsum_app, IH. reflexivity. Qed.
Lemma lsum_map {A B} (f : B -> Qc) (g : A -> B) l : lsum f (map g l) = lsum (fun x => f (g x)) l.
Proof. induction l as [|x l IH]; [reflexivity|]. cbn [map]. change (f (g x) + lsum f (map g l) = f (g x) + lsum (fun y => f (g y)) l). now rewrite IH. Qed.
Lemma lsum_seq f a n : lsum f (seq a n) = sumn n (fun i => f (a + i)%nat).
Proof.
  revert a. induction n as [|n IH]; intro a; [reflexivity|]. rewrite sumn_first. cbn [seq]. change (f a + lsum f (seq (S a) n) = f (a + 0)%nat + sumn n (fun i => f (a + S i)%nat)).
  rewrite IH, Nat.add_0_r. f_equal. apply sumn_ext. intros i _. f_equal. lia.
Qed.
Lemma lsum_ext {A} (f g : A -> Qc) l : (forall x, In x l -> f x = g x) -> lsum f l = lsum g l.
Proof. induction l as [|x l IH]; intro E; [reflexivity|]. change (f x + lsum f l = g x + lsum g l). rewrite E, IH; auto; [intros; apply E; right; auto|left; auto]. Qed.
Lemma lsum_quads f n1 m1 n2 m2 : lsum f (quads n1 m1 n2 m2) = sumn n1 (fun i1 => sumn m1 (fun j1 => sumn n2 (fun i2 => sumn m2 (fun j2 => f (i1, j1, i2, j2))))).
Proof.
  unfold quads. rewrite lsum_flat_map, lsum_seq. apply sumn_ext. intros i1 _. rewrite lsum_flat_map, lsum_seq. apply sumn_ext. intros j1 _.
  rewrite lsum_flat_map, lsum_seq. apply sumn_ext. intros i2 _. rewrite lsum_map, lsum_seq. reflexivity.
Qed.
Lemma in_quads n1 m1 n2 m2 i1 j1 i2 j2 : In (i1, j1, i2, j2) (quads n1 m1 n2 m2) -> (i1 < n1 /\ j1 < m1 /\ i2 < n2 /\ j2 < m2)%nat.
Proof.
  unfold quads. intro I. apply in_flat_map in I. destruct I as [a [Ia I]]. apply in_flat_map in I. destruct I as [b [Ib I]]. apply in_flat_map in I. destruct I as [c [Ic I]].
  apply in_map_iff in I. destruct I as [d [E Id]]. inversion E; subst. apply in_seq in Ia, Ib, Ic, Id. lia.
Qed.

(* ---- accumulating into an array ---- *)
Lemma Forall_upd {A} (P : A -> Prop) l i x : Forall P l -> P x -> Forall P (upd l i x).
Proof. intros F Px. revert i. induction F; intros [|i]; cbn; auto. Qed.
Lemma getR_nth {A} (d : A) l i : (i < length l)%nat -> getR l i = Ok (nth i l d).
Proof. intro L. destruct (getR_lt l i L) as [a [E N]]. rewrite E. now rewrite (nth_error_nth _ _ _ N). Qed.
Lemma nth_upd {A} (d x : A) l i k : (i < length l)%nat -> nth k (upd l i x) d = if (k =? i)%nat then x else nth k l d.
Proof.
  intro L. destruct (Nat.eqb_spec k i) as [->|NE].
  - revert i L. induction l as [|a l IH]; intros i L; cbn in L; [lia|]. destruct i; cbn; auto. apply IH. lia.
  - revert i k L NE. induction l as [|a l IH]; intros i k L NE; cbn in L; [lia|]. destruct i, k; cbn; auto; try lia. apply IH; lia.
Qed.
Lemma add_at_ok n m A i j x : shaped n m A -> (i < n)%nat -> (j < m)%nat ->
  exists B, add_at A i j x = Ok B /\ shaped n m B /\ forall a b, ent B a b = ent A a b + (if (a =? i)%nat && (b =? j)%nat then x else 0).
Proof.
  intros [L F] Li Lj. unfold add_at. rewrite (getR_nth [] A i) by lia. cbn [bind].
  assert (LR : length (nth i A []) = m) by (rewrite Forall_forall in F; apply F; apply nth_In; lia).
  rewrite (getR_nth 0 _ j) by lia. cbn [bind]. eexists. split; [reflexivity|]. split.
  - split; [now rewrite upd_length|]. apply Forall_upd; auto. now rewrite upd_length.
  - intros a b. unfold ent. rewrite nth_upd by lia. destruct (Nat.eqb_spec a i) as [->|]; cbn [andb]; [|ring].
    rewrite nth_upd by lia. destruct (Nat.eqb_spec b j) as [->|]; ring.
Qed.
Lemma poly_add n m A B i j x u v : (i < n)%nat -> (j < m)%nat -> (forall a b, ent B a b = ent A a b + (if (a =? i)%nat && (b =? j)%nat then x else 0)) ->
  poly_value n m B u v = poly_value n m A u v + x * u ^ i * v ^ j.
Proof.
  intros Li Lj E. unfold poly_value.
  rewrite sumn_ext with (g := fun a => sumn m (fun b => ent A a b * u ^ a * v ^ b) + sumn m (fun b => (if (a =? i)%nat && (b =? j)%nat then x else 0) * u ^ a * v ^ b)).
  - rewrite sumn_add. f_equal. rewrite (sumn_one n i); [|auto|].
    + rewrite (sumn_one m j); [rewrite !Nat.eqb_refl; reflexivity|auto|]. intros b _ NE. destruct (Nat.eqb_spec b j); [lia|]. rewrite andb_false_r. ring.
    + intros a _ NE. apply sumn_zero. intros b _. destruct (Nat.eqb_spec a i); [lia|]. cbn [andb]. ring.
  - intros a _. rewrite <- sumn_add. apply sumn_ext. intros b _. rewrite E. ring.
Qed.
Lemma poly_zero n m u v : poly_value n m (tab n (fun _ => tab m (fun _ => 0))) u v = 0.
Proof. unfold poly_value. apply sumn_zero. intros i Li. apply sumn_zero. intros j Lj. rewrite (ent_tab n m (fun _ _ => 0)) by auto. ring. Qed.

Lemma cross_coord_ok n1 m1 n2 m2 a1 b2 a2 b1 : exists R, cross_coord n1 m1 n2 m2 a1 b2 a2 b1 = Ok R /\ shaped (n1 + n2 - 1) (m1 + m2 - 1) R /\
  forall u v, poly_value (n1 + n2 - 1) (m1 + m2 - 1) R u v = poly_value n1 m1 a1 u v * poly_value n2 m2 b2 u v - poly_value n1 m1 a2 u v * poly_value n2 m2 b1 u v.
Proof.
  unfold cross_coord. set (n := (n1 + n2 - 1)%nat). set (m := (m1 + m2 - 1)%nat).
  set (term u v q := let '(i1, j1, i2, j2) := q in (ent a1 i1 j1 * ent b2 i2 j2 - ent a2 i1 j1 * ent b1 i2 j2) * u ^ (i1 + i2) * v ^ (j1 + j2)).
  assert (G : forall l st, shaped n m st -> (forall i1 j1 i2 j2, In (i1, j1, i2, j2) l -> (i1 < n1 /\ j1 < m1 /\ i2 < n2 /\ j2 < m2)%nat) ->
    exists R, foldR l st (fun st q => let '(i1, j1, i2, j2) := q in add_at st (i1 + i2) (j1 + j2) (ent a1 i1 j1 * ent b2 i2 j2 - ent a2 i1 j1 * ent b1 i2 j2)) = Ok R /\
      shaped n m R /\ forall u v, poly_value n m R u v = poly_value n m st u v + lsum (term u v) l).
  { induction l as [|[[[i1 j1] i2] j2] l IH]; intros st SS HB; cbn [foldR].
    - exists st. split; auto. split; auto. intros u v. cbn. ring.
    - destruct (HB i1 j1 i2 j2 (or_introl eq_refl)) as [B1 [B2 [B3 B4]]].
      destruct (add_at_ok n m st (i1 + i2) (j1 + j2) (ent a1 i1 j1 * ent b2 i2 j2 - ent a2 i1 j1 * ent b1 i2 j2) SS ltac:(unfold n; lia) ltac:(unfold m; lia)) as [B [EB [SB HE]]].
      rewrite EB. cbn [bind]. destruct (IH B SB) as [R [ER [SR HR]]]; [intros; apply HB; right; auto|]. exists R. split; auto. split; auto. intros u v. rewrite HR.
      rewrite (poly_add n m st B (i1 + i2) (j1 + j2) (ent a1 i1 j1 * ent b2 i2 j2 - ent a2 i1 j1 * ent b1 i2 j2) u v ltac:(unfold n; lia) ltac:(unfold m; lia) HE).
      change (lsum (term u v) ((i1, j1, i2, j2) :: l)) with (term u v (i1, j1, i2, j2) + lsum (term u v) l). unfold term at 2. ring. }
  destruct (G (quads n1 m1 n2 m2) (tab n (fun _ => tab m (fun _ => 0))) (shaped_tab n m (fun _ _ => 0)) (in_quads n1 m1 n2 m2)) as [R [ER [SR HR]]].
  exists R. split; auto. split; auto. intros u v. rewrite HR, poly_zero, lsum_quads. unfold poly_value, term.
  assert (P : forall X Y, sumn n1 (fun i => sumn m1 (fun j => ent X i j * u ^ i * v ^ j)) * sumn n2 (fun i => sumn m2 (fun j => ent Y i j * u ^ i * v ^ j)) =
    sumn n1 (fun i1 => sumn m1 (fun j1 => sumn n2 (fun i2 => sumn m2 (fun j2 => ent X i1 j1 * ent Y i2 j2 * u ^ (i1 + i2) * v ^ (j1 + j2)))))).
  { intros X Y. rewrite <- sumn_scale_r. apply sumn_ext. intros i1 _. rewrite <- sumn_scale_r. apply sumn_ext. intros j1 _. rewrite <- sumn_scale. apply sumn_ext. intros i2 _.
    rewrite <- sumn_scale. apply sumn_ext. intros j2 _. rewrite !pow_add. ring. }
  rewrite !P. rewrite <- sumn_sub. rewrite Qcplus_0_l. apply sumn_ext. intros i1 _. rewrite <- sumn_sub. apply sumn_ext. intros j1 _. rewrite <- sumn_sub. apply sumn_ext. intros i2 _.
  rewrite <- sumn_sub. apply sumn_ext. intros j2 _. ring.
Qed.
Lemma cross_ok a b : length (coords a) = 3%nat -> length (coords b) = 3%nat -> exists c, cross_product_monomial a b = Ok c /\ wf_patch c /\
  rows c = (rows a + rows b - 1)%nat /\ cols c = (cols a + cols b - 1)%nat /\
  forall u v, exists ax ay az bx by_ bz, evaluate_monomial2d a u v = [ax; ay; az] /\ evaluate_monomial2d b u v = [bx; by_; bz] /\
    evaluate_monomial2d c u v = [ay * bz - az * by_; az * bx - ax * bz; ax * by_ - ay * bx].
Proof.
  intros La Lb. destruct a as [n1 m1 ca], b as [n2 m2 cb]. cbn [coords rows cols] in *.
  destruct ca as [|a0 [|a1 [|a2 [|? ?]]]]; try discriminate La. destruct cb as [|b0 [|b1 [|b2 [|? ?]]]]; try discriminate Lb.
  unfold cross_product_monomial. cbn [coords rows cols].
  destruct (cross_coord_ok n1 m1 n2 m2 a1 b2 a2 b1) as [x [Ex [Sx Hx]]]. destruct (cross_coord_ok n1 m1 n2 m2 a2 b0 a0 b2) as [y [Ey [Sy Hy]]]. destruct (cross_coord_ok n1 m1 n2 m2 a0 b1 a1 b0) as [z [Ez [Sz Hz]]].
  rewrite Ex, Ey, Ez. cbn [bind]. eexists. split; [reflexivity|]. split; [repeat constructor; auto; try apply Sx; try apply Sy; apply Sz|]. split; auto. split; auto.
  intros u v. do 6 eexists. split; [rewrite eval_mono_spec; reflexivity|]. split; [rewrite eval_mono_spec; reflexivity|].
  rewrite eval_mono_spec. cbn [coords rows cols map]. rewrite Hx, Hy, Hz. reflexivity.
Qed.

(* ---- derivatives ---- *)
Lemma poly_du n m X u v : is_deriv (fun x => poly_value n m X x v) u (poly_value (n - 1) m (tab (n - 1) (fun i => tab m (fun j => zq (Z.of_nat (i + 1)) * ent X (i + 1) j))) u v).
Proof.
  assert (D : is_deriv (fun x => poly_value n m X x v) u (sumn n (fun i => sumn m (fun j => ent X i j * v ^ j * (zq (Z.of_nat i) * u ^ (i - 1)))))).
  { unfold poly_value. apply (deriv_sumn n (fun i x => sumn m (fun j => ent X i j * x ^ i * v ^ j))). intros i _.
    apply (deriv_sumn m (fun j x => ent X i j * x ^ i * v ^ j)). intros j _. apply deriv_ext with (f := fun x => ent X i j * v ^ j * x ^ i); [intro x; ring|]. apply deriv_scale. apply deriv_pow. }
  replace (poly_value (n - 1) m _ u v) with (sumn n (fun i => sumn m (fun j => ent X i j * v ^ j * (zq (Z.of_nat i) * u ^ (i - 1))))); auto.
  destruct n as [|n]; [reflexivity|]. rewrite sumn_first. rewrite sumn_zero by (intros j _; change (Z.of_nat 0) with 0%Z; rewrite zq_0; ring). cbn [Nat.sub]. rewrite Nat.sub_0_r. rewrite Qcplus_0_l.
  unfold poly_value. apply sumn_ext. intros i Li. apply sumn_ext. intros j Lj. rewrite (ent_tab n m (fun i j => zq (Z.of_nat (i + 1)) * ent X (i + 1) j)) by auto.
  replace (i + 1)%nat with (S i) by lia. cbn [Nat.sub]. rewrite Nat.sub_0_r. ring.
Qed.
Lemma poly_dv n m X u v : is_deriv (fun y => poly_value n m X u y) v (poly_value n (m - 1) (tab n (fun i => tab (m - 1) (fun j => zq (Z.of_nat (j + 1)) * ent X i (j + 1)))) u v).
Proof.
  assert (D : is_deriv (fun y => poly_value n m X u y) v (sumn n (fun i => sumn m (fun j => ent X i j * u ^ i * (zq (Z.of_nat j) * v ^ (j - 1)))))).
  { unfold poly_value. apply (deriv_sumn n (fun i y => sumn m (fun j => ent X i j * u ^ i * y ^ j))). intros i _.
    apply (deriv_sumn m (fun j y => ent X i j * u ^ i * y ^ j)). intros j _. apply deriv_scale. apply deriv_pow. }
  replace (poly_value n (m - 1) _ u v) with (sumn n (fun i => sumn m (fun j => ent X i j * u ^ i * (zq (Z.of_nat j) * v ^ (j - 1))))); auto.
  unfold poly_value. apply sumn_ext. intros i Li. destruct m as [|m]; [reflexivity|]. rewrite sumn_first. change (Z.of_nat 0) with 0%Z. rewrite zq_0. cbn [Nat.sub]. rewrite Nat.sub_0_r.
  rewrite sumn_ext with (g := fun j => ent (tab n (fun i => tab m (fun j => zq (Z.of_nat (j + 1)) * ent X i (j + 1)))) i j * u ^ i * v ^ j); [ring|].
  intros j Lj. rewrite (ent_tab n m (fun i j => zq (Z.of_nat (j + 1)) * ent X i (j + 1))) by auto. replace (j + 1)%nat with (S j) by lia. cbn [Nat.sub]. rewrite Nat.sub_0_r. ring.
Qed.
Lemma nth_map0 {A} (f : A -> Qc) l d (x : A) : (d < length l)%nat -> nth d (map f l) 0 = f (nth d l x).
Proof. intro L. rewrite (nth_indep _ 0 (f x)) by (now rewrite map_length). apply map_nth. Qed.
Lemma partials_ok p d u v : (d < length (coords p))%nat ->
  let (du, dv) := monomial_partial_derivatives p in
  wf_patch du /\ wf_patch dv /\ length (coords du) = length (coords p) /\ length (coords dv) = length (coords p) /\
  is_deriv (fun x => nth d (evaluate_monomial2d p x v) 0) u (nth d (evaluate_monomial2d du u v) 0) /\
  is_deriv (fun y => nth d (evaluate_monomial2d p u y) 0) v (nth d (evaluate_monomial2d dv u v) 0).
Proof.
  intro L. unfold monomial_partial_derivatives. cbn zeta. split; [|split; [|split; [|split; [|split]]]].
  - unfold wf_patch. cbn [coords rows cols]. apply Forall_forall. intros X I. apply in_map_iff in I. destruct I as [X0 [<- _]]. apply shaped_tab.
  - unfold wf_patch. cbn [coords rows cols]. apply Forall_forall. intros X I. apply in_map_iff in I. destruct I as [X0 [<- _]]. apply shaped_tab.
  - cbn [coords]. apply map_length.
  - cbn [coords]. apply map_length.
  - rewrite eval_mono_spec. cbn [coords rows cols]. rewrite map_map. rewrite (nth_map0 _ _ _ ([] : arr)) by auto.
    apply deriv_ext with (f := fun x => poly_value (rows p) (cols p) (nth d (coords p) []) x v); [|apply poly_du]. intro x. rewrite eval_mono_spec. now rewrite (nth_map0 _ _ _ ([] : arr)) by auto.
  - rewrite eval_mono_spec. cbn [coords rows cols]. rewrite map_map. rewrite (nth_map0 _ _ _ ([] : arr)) by auto.
    apply deriv_ext with (f := fun x => poly_value (rows p) (cols p) (nth d (coords p) []) u x); [|apply poly_dv]. intro x. rewrite eval_mono_spec. now rewrite (nth_map0 _ _ _ ([] : arr)) by auto.
Qed.
Lemma normal_ok p : length (coords p) = 3%nat -> exists c, normal_vector_monomial p = Ok c /\
  forall u v (su sv : list Qc), length su = 3%nat -> length sv = 3%nat ->
    (forall d, (d < 3)%nat -> is_deriv (fun x => nth d (evaluate_monomial2d p x v) 0) u (nth d su 0)) ->
    (forall d, (d < 3)%nat -> is_deriv (fun y => nth d (evaluate_monomial2d p u y) 0) v (nth d sv 0)) ->
    evaluate_monomial2d c u v = [nth 1 su 0 * nth 2 sv 0 - nth 2 su 0 * nth 1 sv 0; nth 2 su 0 * nth 0 sv 0 - nth 0 su 0 * nth 2 sv 0; nth 0 su 0 * nth 1 sv 0 - nth 1 su 0 * nth 0 sv 0].
Proof.
  intro L3. unfold normal_vector_monomial. assert (G := partials_ok p). destruct (monomial_partial_derivatives p) as [du dv].
  destruct (G 0%nat 0 0 ltac:(lia)) as [_ [_ [L1 [L2 _]]]]. destruct (cross_ok du dv ltac:(lia) ltac:(lia)) as [c [Ec [_ [_ [_ H]]]]]. exists c. split; auto.
  intros u v su sv Lu Lv Hu Hv. destruct (H u v) as [ax [ay [az [bx [by_ [bz [E1 [E2 E3]]]]]]]].
  assert (U : forall d, (d < 3)%nat -> nth d (evaluate_monomial2d du u v) 0 = nth d su 0) by (intros d Ld; destruct (G d u v ltac:(lia)) as [_ [_ [_ [_ [A _]]]]]; apply (deriv_unique _ _ _ _ A (Hu d Ld))).
  assert (V : forall d, (d < 3)%nat -> nth d (evaluate_monomial2d dv u v) 0 = nth d sv 0) by (intros d Ld; destruct (G d u v ltac:(lia)) as [_ [_ [_ [_ [_ A]]]]]; apply (deriv_unique _ _ _ _ A (Hv d Ld))).
  rewrite E1 in U. rewrite E2 in V. rewrite E3. rewrite <- !U, <- !V by lia. reflexivity.
Qed.

(* ---- Monomial2D does not change basis ---- *)
Lemma bernstein_at_1 n k : (k <= n)%nat -> bernstein n k 1 = if (k =? n)%nat then 1 else 0.
Proof.
  intro L. unfold bernstein. rewrite pow_one. replace (1 - 1) with 0 by ring. destruct (Nat.eqb_spec k n) as [->|NE]; [rewrite Nat.sub_diag, bq_diag; cbn [Qcpower]; ring|]. rewrite pow_zero by lia. ring.
Qed.
Lemma bezier_at_1 n m X : (1 <= n)%nat -> (1 <= m)%nat -> bezier_value n m X 1 1 = ent X (n - 1) (m - 1).
Proof.
  intros Ln Lm. unfold bezier_value. rewrite (sumn_one n (n - 1)); [|lia|].
  - rewrite (sumn_one m (m - 1)); [|lia|].
    + rewrite !bernstein_at_1 by lia. rewrite !Nat.eqb_refl. ring.
    + intros j Lj NE. rewrite (bernstein_at_1 (m - 1) j) by lia. destruct (Nat.eqb_spec j (m - 1)); [lia|ring].
  - intros i Li NE. apply sumn_zero. intros j Lj. rewrite (bernstein_at_1 (n - 1) i) by lia. destruct (Nat.eqb_spec i (n - 1)); [lia|ring].
Qed.
Lemma poly_at_1 n m X : poly_value n m X 1 1 = sumn n (fun i => sumn m (fun j => ent X i j)).
Proof. unfold poly_value. apply sumn_ext. intros i _. apply sumn_ext. intros j _. rewrite !pow_one. ring. Qed.
Lemma no_conversion_differs p X : (1 <= rows p)%nat -> (1 <= cols p)%nat -> In X (coords p) ->
  sumn (rows p) (fun i => sumn (cols p) (fun j => ent X i j)) <> ent X (rows p - 1) (cols p - 1) ->
  evaluate_bezier_patch (to_bezier p) 1 1 <> evaluate_monomial2d p 1 1 /\ evaluate_monomial2d (from_bezier p) 1 1 <> evaluate_bezier_patch p 1 1.
Proof.
  intros Ln Lm I NE. assert (G : evaluate_bezier_patch p 1 1 <> evaluate_monomial2d p 1 1).
  { rewrite eval_bez_spec, eval_mono_spec. intro E. apply NE. rewrite <- poly_at_1, <- bezier_at_1 by auto. symmetry.
    destruct (In_nth _ _ ([] : arr) I) as [k [Lk Ek]]. assert (N := f_equal (fun l => nth k l 0) E). cbn beta in N. rewrite !(nth_map0 _ _ _ ([] : arr)) in N by auto. now rewrite Ek in N. }
  split; auto.
Qed.
Lemma no_conversion_constant p u v : rows p = 1%nat -> cols p = 1%nat -> evaluate_bezier_patch (to_bezier p) u v = evaluate_monomial2d p u v.
Proof.
  intros Rn Rm. rewrite eval_mono_spec. unfold to_bezier. rewrite eval_bez_spec. apply map_ext. intro X. unfold bezier_value, poly_value. rewrite Rn, Rm.
  cbn [sumn Nat.sub]. unfold bernstein. cbn [Nat.sub Qcpower]. replace (bq 0 0) with 1 by (symmetry; apply bq_0). ring.
Qed.

(* ---- homogeneous patches ---- *)
Lemma divR_inv a b x : divR a b = Ok x -> b <> 0 /\ x = a / b.
Proof. unfold divR. destruct (qeq b 0) eqn:E; [discriminate|]. intro H. inversion H. split; auto. intro C. subst b. apply qeq_false in E. congruence. Qed.
Lemma divR_ok a b : b <> 0 -> divR a b = Ok (a / b).
Proof. intro N. unfold divR. destruct (qeq b 0) eqn:E; auto. apply qeq_true in E. contradiction. Qed.
Lemma tabR_ent n m f R : tabR n (fun i => tabR m (fun j => f i j)) = Ok R -> forall i j, (i < n)%nat -> (j < m)%nat -> f i j = Ok (ent R i j).
Proof.
  intros E i j Li Lj. unfold tabR at 1 in E. destruct (tabR_from_inv _ _ _ _ E i Li) as [r [Er Nr]]. cbn [Nat.add] in Er. unfold tabR in Er.
  destruct (tabR_from_inv _ _ _ _ Er j Lj) as [x [Ex Nx]]. cbn [Nat.add] in Ex. rewrite Ex. f_equal. unfold ent. rewrite (nth_error_nth _ _ _ Nr). now rewrite (nth_error_nth _ _ _ Nx).
Qed.
Lemma rational_ok inv p q : inverts inv -> table_size p -> wf_patch p -> length (coords p) = 4%nat ->
  homogeneous_monomial_to_rational_bezier inv p = Ok q ->
  exists x y z w, coords q = [x; y; z; w] /\ forall u v hx hy hz hw, evaluate_monomial2d p u v = [hx; hy; hz; hw] -> hw <> 0 ->
    evaluate_rational_bezier_patch (mkPatch (rows q) (cols q) [x; y; z]) w u v = Ok [hx / hw; hy / hw; hz / hw].
Proof.
  intros HI T W L4 E. unfold homogeneous_monomial_to_rational_bezier in E. destruct (to_bezier_value inv p HI T W) as [b [Eb [Rb [Cb [Lb V]]]]].
  rewrite Eb in E. cbn [bind] in E. destruct b as [nb mb_ cb]. cbn [rows cols coords] in *. destruct cb as [|X [|Y [|Z [|Wt [|? ?]]]]]; rewrite L4 in Lb; try discriminate Lb.
  set (dv := fun C : arr => tabR (rows p) (fun i => tabR (cols p) (fun j => divR (ent C i j) (ent Wt i j)))).
  change ((do x <- dv X ; do y <- dv Y ; do z <- dv Z ; Ok (mkPatch (rows p) (cols p) [x; y; z; Wt])) = Ok q) in E.
  destruct (dv X) as [x|] eqn:Ex; cbn [bind] in E; [|discriminate]. destruct (dv Y) as [y|] eqn:Ey; cbn [bind] in E; [|discriminate]. destruct (dv Z) as [z|] eqn:Ez; cbn [bind] in E; [|discriminate].
  inversion E; subst q. exists x, y, z, Wt. split; auto. intros u v hx hy hz hw EM NW. cbn [rows cols].
  assert (EV := V u v). rewrite eval_bez_spec in EV. cbn [rows cols coords] in EV. rewrite <- eval_mono_spec, EM in EV. cbn [map] in EV. injection EV as B0 B1 B2 B3.
  unfold evaluate_rational_bezier_patch. cbn [coords length rows cols].
  set (den := sumn (rows p) _). assert (ED : den = bezier_value nb mb_ Wt u v).
  { unfold den, bezier_value. rewrite Rb, Cb. apply sumn_ext. intros i _. apply sumn_ext. intros j _. unfold bern_factor, bernstein. ring. }
  assert (EN : forall C c, dv C = Ok c -> sumn (rows p) (fun i => sumn (cols p) (fun j => ent c i j * (bern_factor (rows p) i u * bern_factor (cols p) j v * ent Wt i j))) = bezier_value nb mb_ C u v).
  { intros C c EC. unfold bezier_value. rewrite Rb, Cb. apply sumn_ext. intros i Li. apply sumn_ext. intros j Lj. assert (D := tabR_ent _ _ _ _ EC i j Li Lj).
    apply divR_inv in D. destruct D as [NZ ->]. unfold bern_factor, bernstein. field. auto. }
  rewrite (tabR_ok _ (fun d => nth d [hx / hw; hy / hw; hz / hw] 0)); [reflexivity|].
  intros d Ld. destruct d as [|[|[|d]]]; [| | |lia]; cbn [nth].
  - rewrite (EN X x Ex). rewrite divR_ok by congruence. rewrite ED. congruence.
  - rewrite (EN Y y Ey). rewrite divR_ok by congruence. rewrite ED. congruence.
  - rewrite (EN Z z Ez). rewrite divR_ok by congruence. rewrite ED. congruence.
Qed.

(* ---- degree elevation ---- *)
Definition elc (p t i j : nat) : Qc := bq p j * bq t (i - j) / bq (p + t) i.
Lemma vadd_len a b n : length a = n -> length b = n -> length (vadd a b) = n.
Proof. intros A B. unfold vadd. rewrite map_length, combine_length. lia. Qed.
Lemma vscale_len c a : length (vscale c a) = length a.
Proof. apply map_length. Qed.
Lemma vadd_nth a : forall b d, length a = length b -> nth d (vadd a b) 0 = nth d a 0 + nth d b 0.
Proof. induction a as [|x a IH]; intros [|y b] d L; cbn in L; try discriminate; [destruct d; reflexivity|]. destruct d; cbn; auto. apply IH. lia. Qed.
Lemma vscale_nth c a d : nth d (vscale c a) 0 = c * nth d a 0.
Proof. unfold vscale. revert d. induction a as [|x a IH]; intros [|d]; cbn; auto; ring. Qed.
Lemma elevation_row_ok pts dim p t i : (p + t <= 30)%nat -> length pts = (p + 1)%nat -> Forall (fun r => length r = dim) pts -> (i <= p + t)%nat ->
  exists r, elevation_row pts dim p t i = Ok r /\ length r = dim /\
    forall d, nth d r 0 = sumn (S p) (fun j => if (j <=? i)%nat then elc p t i j * nth d (nth j pts []) 0 else 0).
Proof.
  intros LT LP F Li. unfold elevation_row. set (st := (i - t)%nat). set (c := (Nat.min p i + 1 - st)%nat).
  set (f := fun (acc : list Qc) (j : nat) => do a <- bc p j ; do b <- bc t (i - j) ; do c <- bc (p + t) i ; do coeff <- divR (a * b) c ; do pt <- getR pts j ; Ok (vadd acc (vscale coeff pt))).
  assert (ST : forall acc j, (j <= p /\ j <= i /\ i - j <= t)%nat -> f acc j = Ok (vadd acc (vscale (elc p t i j) (nth j pts [])))).
  { intros acc j [B1 [B2 B3]]. unfold f. rewrite !bc_ok by lia. cbn [bind]. rewrite divR_ok by (apply bq_nz; lia). cbn [bind]. rewrite (getR_nth [] pts j) by lia. reflexivity. }
  assert (G : forall l acc, length acc = dim -> (forall j, In j l -> (j <= p /\ j <= i /\ i - j <= t)%nat) ->
    exists r, foldR l acc f = Ok r /\
      length r = dim /\ forall d, nth d r 0 = nth d acc 0 + lsum (fun j => elc p t i j * nth d (nth j pts []) 0) l).
  { induction l as [|j l IH]; intros acc LA HB; cbn [foldR].
    - exists acc. split; auto. split; auto. intro d. cbn. ring.
    - destruct (HB j (or_introl eq_refl)) as [B1 [B2 B3]]. rewrite ST by auto. cbn [bind].
      assert (LJ : length (nth j pts []) = dim) by (rewrite Forall_forall in F; apply F; apply nth_In; lia).
      destruct (IH (vadd acc (vscale (elc p t i j) (nth j pts [])))) as [r [Er [Lr Hr]]]; [apply vadd_len; auto; now rewrite vscale_len|intros; apply HB; right; auto|].
      exists r. split; [exact Er|]. split; auto. intro d. rewrite Hr. rewrite vadd_nth by (rewrite vscale_len; lia). rewrite vscale_nth.
      change (lsum (fun j0 => elc p t i j0 * nth d (nth j0 pts []) 0) (j :: l)) with (elc p t i j * nth d (nth j pts []) 0 + lsum (fun j0 => elc p t i j0 * nth d (nth j0 pts []) 0) l). ring. }
  destruct (G (seq st c) (repeat 0 dim)) as [r [Er [Lr Hr]]]; [apply repeat_length|intros j I; apply in_seq in I; unfold st, c in I; lia|].
  exists r. split; auto. split; auto. intro d. rewrite Hr. rewrite nth_repeat0, lsum_seq, Qcplus_0_l.
  rewrite (sumn_extend (st + c) (S p)); [|unfold st, c; lia|].
  2:{ intros j Hj. destruct (Nat.leb_spec j i); auto. unfold st, c in Hj. lia. }
  rewrite sumn_shift.
  2:{ intros j Hj. destruct (Nat.leb_spec j i); auto. unfold elc. rewrite (bq_gt t (i - j)) by (unfold st in Hj; lia). unfold Qcdiv. ring. }
  apply sumn_ext. intros j Lj. destruct (Nat.leb_spec (st + j) i); auto. unfold st, c in Lj. lia.
Qed.
Lemma elevated_column p t j u : (j <= p)%nat ->
  sumn (S (p + t)) (fun i => (if (j <=? i)%nat then elc p t i j else 0) * bernstein (p + t) i u) = bernstein p j u.
Proof.
  intro L. replace (S (p + t)) with (j + S (p + t - j))%nat by lia. rewrite sumn_shift.
  2:{ intros i Li. destruct (Nat.leb_spec j i); [lia|ring]. }
  rewrite (sumn_extend (S t) (S (p + t - j))); [|lia|].
  2:{ intros i Hi. destruct (Nat.leb_spec j (j + i)); [|lia]. unfold elc. replace (j + i - j)%nat with i by lia. rewrite (bq_gt t i) by lia. unfold Qcdiv. ring. }
  rewrite sumn_ext with (g := fun i => bernstein p j u * (bq t i * u ^ i * (1 - u) ^ (t - i))).
  - rewrite sumn_scale, binomial_theorem. replace (u + (1 - u)) with 1 by ring. rewrite pow_one. ring.
  - intros i Li. destruct (Nat.leb_spec j (j + i)); [|lia]. unfold elc, bernstein. replace (j + i - j)%nat with i by lia. replace (p + t - (j + i))%nat with ((p - j) + (t - i))%nat by lia.
    rewrite !pow_add. field. apply bq_nz. lia.
Qed.
Lemma elevation_ok pts dim p t : (p + t <= 30)%nat -> length pts = (p + 1)%nat -> Forall (fun r => length r = dim) pts ->
  exists r, degree_elevation_bez pts dim p t = Ok (r, (p + t)%nat) /\ length r = (p + t + 1)%nat /\ Forall (fun q => length q = dim) r /\
    forall d u, bezier_curve r d u = bezier_curve pts d u.
Proof.
  intros LT LP F. unfold degree_elevation_bez. rewrite LP, Nat.eqb_refl. cbn [negb].
  set (row i := match elevation_row pts dim p t i with Ok r => r | _ => [] end).
  assert (R : forall i, (i < p + 1 + t)%nat -> elevation_row pts dim p t i = Ok (row i) /\ length (row i) = dim /\
    forall d, nth d (row i) 0 = sumn (S p) (fun j => if (j <=? i)%nat then elc p t i j * nth d (nth j pts []) 0 else 0)).
  { intros i Li. destruct (elevation_row_ok pts dim p t i LT LP F ltac:(lia)) as [r [Er H]]. unfold row. rewrite Er. auto. }
  rewrite (tabR_ok _ row) by (intros i Li; apply R; auto). cbn [bind]. eexists. split; [reflexivity|]. split; [rewrite tab_len; lia|]. split.
  - apply Forall_forall. intros q I. unfold tab in I. apply in_map_iff in I. destruct I as [i [<- I]]. apply in_seq in I. apply R. lia.
  - intros d u. unfold bezier_curve. rewrite tab_len, LP. replace (p + 1 + t - 1)%nat with (p + t)%nat by lia. replace (p + 1 - 1)%nat with p by lia.
    replace (p + 1 + t)%nat with (S (p + t)) by lia. replace (p + 1)%nat with (S p) by lia.
    rewrite sumn_ext with (g := fun i => sumn (S p) (fun j => nth d (nth j pts []) 0 * ((if (j <=? i)%nat then elc p t i j else 0) * bernstein (p + t) i u))).
    + rewrite sumn_swap. apply sumn_ext. intros j Lj. rewrite sumn_scale. now rewrite elevated_column by lia.
    + intros i Li. rewrite nth_tab by lia. destruct (R i ltac:(lia)) as [_ [_ ->]]. rewrite <- sumn_scale_r. apply sumn_ext. intros j _. destruct (j <=? i)%nat; ring.
Qed.
Lemma nth_eq_list (a b : list Qc) : length a = length b -> (forall d, nth d a 0 = nth d b 0) -> a = b.
Proof. intros L H. apply nth_ext with (d := 0) (d' := 0); auto. Qed.
Lemma curve_at_0 pts d : (1 <= length pts)%nat -> bezier_curve pts d 0 = nth d (nth 0 pts []) 0.
Proof.
  intro L. unfold bezier_curve. rewrite (sumn_one _ 0); [|lia|].
  - unfold bernstein. rewrite bq_0, Nat.sub_0_r. replace (1 - 0) with 1 by ring. rewrite pow_one. cbn [Qcpower]. ring.
  - intros i Li NE. unfold bernstein. rewrite pow_zero by lia. ring.
Qed.
Lemma curve_at_1 pts d : (1 <= length pts)%nat -> bezier_curve pts d 1 = nth d (nth (length pts - 1) pts []) 0.
Proof.
  intro L. unfold bezier_curve. rewrite (sumn_one _ (length pts - 1)); [|lia|].
  - rewrite bernstein_at_1 by lia. rewrite Nat.eqb_refl. ring.
  - intros i Li NE. rewrite bernstein_at_1 by lia. destruct (Nat.eqb_spec i (length pts - 1)); [lia|ring].
Qed.
Lemma elevation_ends pts dim p t r q : (p + t <= 30)%nat -> length pts = (p + 1)%nat -> Forall (fun r => length r = dim) pts ->
  degree_elevation_bez pts dim p t = Ok (r, q) -> nth 0 r [] = nth 0 pts [] /\ nth (p + t) r [] = nth p pts [].
Proof.
  intros LT LP F E. destruct (elevation_ok pts dim p t LT LP F) as [r' [E' [Lr [Fr H]]]]. rewrite E in E'. inversion E'; subst r' q.
  rewrite Forall_forall in F, Fr. split; apply nth_eq_list.
  - rewrite (Fr (nth _ r [])), (F (nth _ pts [])) by (apply nth_In; lia). auto.
  - intro d. assert (A := H d 0). rewrite !curve_at_0 in A by lia. auto.
  - rewrite (Fr (nth _ r [])), (F (nth _ pts [])) by (apply nth_In; lia). auto.
  - intro d. assert (A := H d 1). rewrite !curve_at_1 in A by lia. rewrite Lr, LP in A. replace (p + t + 1 - 1)%nat with (p + t)%nat in A by lia. now replace (p + 1 - 1)%nat with p in A by lia.
Qed.
Lemma elevation_wrong pts dim p t : length pts <> (p + 1)%nat -> degree_elevation_bez pts dim p t = Err ValueError.
Proof. intro N. unfold degree_elevation_bez. destruct (Nat.eqb_spec (length pts) (p + 1)); [contradiction|reflexivity]. Qed.
Lemma elevation_outside pts dim p t : length pts = (p + 1)%nat -> (30 < p + t)%nat -> degree_elevation_bez pts dim p t = Err IndexError.
Proof.
  intros LP LT. unfold degree_elevation_bez. rewrite LP, Nat.eqb_refl. cbn [negb]. unfold tabR. replace (p + 1 + t)%nat with (S (p + t)) by lia. cbn [tabR_from].
  assert (E : elevation_row pts dim p t 0 = Err IndexError).
  { unfold elevation_row. replace (0 - t)%nat with 0%nat by lia. rewrite Nat.min_0_r. change (0 + 1 - 0)%nat with 1%nat. cbn [seq foldR]. change (0 - 0)%nat with 0%nat.
    assert (B : bc (p + t) 0 = Err IndexError) by (unfold bc; apply binomial_out; lia).
    assert (B2 : forall n, bc n 0 = Err IndexError \/ exists x, bc n 0 = Ok x). { intro n. destruct (le_lt_dec n 30); [right; eexists; apply bc_ok; lia|left; unfold bc; apply binomial_out; lia]. }
    destruct (B2 p) as [->|[x ->]]; cbn [bind]; auto. destruct (B2 t) as [->|[y ->]]; cbn [bind]; auto. rewrite B. reflexivity. }
  rewrite E. reflexivity.
Qed.
Lemma monomial_outside p : (1 <= rows p)%nat -> (1 <= cols p)%nat -> (31 < rows p \/ 31 < cols p)%nat -> bezier_to_monomial p = Err IndexError.
Proof.
  intros A B C. unfold bezier_to_monomial. destruct (Nat.eqb_spec (rows p) 0); [lia|]. destruct (Nat.eqb_spec (cols p) 0); [lia|]. cbn [orb].
  destruct (le_lt_dec (rows p) 31).
  - rewrite bpmat_ok by lia. cbn [bind]. rewrite bpmat_out by lia. reflexivity.
  - rewrite bpmat_out by lia. reflexivity.
Qed.

(* the exact inverses, as a function of the matrix *)
Definition exact_inv (M : arr) : arr := tab (length M) (fun j => tab (length M) (fun k => mi (length M - 1) j k)).
Lemma exact_inv_ok : inverts exact_inv.
Proof.
  intros n M L E. destruct (bpmat_inverse n L) as [M' [E' H]]. rewrite E in E'. inversion E'; subst M'. unfold exact_inv.
  assert (LM : length M = S n) by (unfold bpmat, tabR in E; apply (tabR_from_len _ _ _ _ E)). rewrite LM. now replace (S n - 1)%nat with n by lia.
Qed.
