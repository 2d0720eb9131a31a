(* Evaluation of surfaces. *)
From Coq Require Import List ZArith Lia Bool QArith Qcanon.
From Verif Require Import Common ListLib QcLib ArrZ SplineTheory SplineTheory2 NurbsModel NurbsSpec NurbsProofs NurbsProofs2 NurbsProofs3 NurbsEditModel NurbsEditSpec NurbsInsert SurfModel SurfSpec.
Import ListNotations.
Local Open Scope Z_scope.
Local Open Scope Qc_scope.

(* ---- sums ------------------------------------------------------------ *)
Lemma sum_n_swap a : forall lo b lo' (f : Z -> Z -> Qc),
  sum_n a lo (fun i => sum_n b lo' (fun j => f i j)) = sum_n b lo' (fun j => sum_n a lo (fun i => f i j)).
Proof.
  induction a as [|a IH]; intros; cbn [sum_n].
  - symmetry. apply sum_n_zero. auto.
  - rewrite IH. now rewrite <- sum_n_add.
Qed.

Lemma sum_n_from0 k a F : sum_n k a F = sum_n k 0 (fun i => F (i + a)%Z).
Proof. now rewrite sum_n_shift. Qed.

(* the B-spline with coefficients g *)
Definition spl (U : list Qc) (n p : Z) (u : Qc) (g : Z -> Qc) : Qc :=
  sum_to n (fun i => cox_de_boor U n (Z.to_nat p) i u * g i).

Lemma spl_ext U n p u g h : (forall i, (0 <= i <= n)%Z -> g i = h i) -> spl U n p u g = spl U n p u h.
Proof. intro H. unfold spl, sum_to. apply sum_n_ext. intros i Hi. rewrite H by lia. auto. Qed.

Lemma spl_swap U n p u V m q v g :
  spl U n p u (fun i => spl V m q v (fun j => g i j)) = spl V m q v (fun j => spl U n p u (fun i => g i j)).
Proof.
  unfold spl, sum_to.
  transitivity (sum_n (Z.to_nat (n + 1)) 0 (fun i => sum_n (Z.to_nat (m + 1)) 0 (fun j =>
    cox_de_boor U n (Z.to_nat p) i u * (cox_de_boor V m (Z.to_nat q) j v * g i j)))).
  - apply sum_n_ext. intros. now rewrite sum_n_scal.
  - rewrite sum_n_swap. apply sum_n_ext. intros. rewrite <- sum_n_scal. apply sum_n_ext. intros. ring.
Qed.

Lemma tensor_spl s f u v : tensor s f u v
  = spl (s_ku s) (s_nu s - 1) (s_du s) u (fun i => spl (s_kv s) (s_nv s - 1) (s_dv s) v (fun j => f (entry (s_pts s) i j))).
Proof.
  unfold tensor, spl, sum_to. apply sum_n_ext. intros. rewrite <- sum_n_scal. apply sum_n_ext. intros. ring.
Qed.

Lemma tensor_spl2 s f u v : tensor s f u v
  = spl (s_kv s) (s_nv s - 1) (s_dv s) v (fun j => spl (s_ku s) (s_nu s - 1) (s_du s) u (fun i => f (entry (s_pts s) i j))).
Proof. rewrite tensor_spl. apply spl_swap. Qed.

(* ---- arrays ---------------------------------------------------------- *)
Lemma shaped_row nu nv G i : shaped nu nv G -> (0 <= i < nu)%Z -> lenZ (atZ [] G i) = nv.
Proof.
  intros [L F] H. rewrite Forall_forall in F. apply F. unfold atZ. apply nth_In. unfold lenZ in L. lia.
Qed.
Lemma rd2_ok nu nv G i j : shaped nu nv G -> (0 <= i < nu)%Z -> (0 <= j < nv)%Z -> rd2 G i j = Ok (entry G i j).
Proof.
  intros S Hi Hj. unfold rd2, entry. pose proof (shaped_row nu nv G i S Hi) as L. destruct S as [LG _].
  rewrite (rdZ_ok []) by lia. cbn [bind]. now rewrite (rdZ_ok pt0) by lia.
Qed.

(* ---- coordinates ------------------------------------------------------ *)
Definition linear (f : pt -> Qc) : Prop :=
  (forall a b, f (padd a b) = f a + f b) /\ (forall k a, f (pscale k a) = k * f a) /\ f (mkpt 0 0 0 0) = 0.
Lemma px_linear : linear px. Proof. repeat split. Qed.
Lemma py_linear : linear py. Proof. repeat split. Qed.
Lemma pz_linear : linear pz. Proof. repeat split. Qed.
Lemma pw_linear : linear pw. Proof. repeat split. Qed.
Lemma pt_ext a b : px a = px b -> py a = py b -> pz a = pz b -> pw a = pw b -> a = b.
Proof. destruct a, b; simpl; intros; subst; auto. Qed.

(* ---- surface_point ---------------------------------------------------- *)
Lemma accumulate k (B : Z -> Qc) (c : Z -> pt) (body : Z -> pt -> res pt) : (0 <= k)%Z ->
  (forall i acc, (0 <= i < k)%Z -> body i acc = Ok (padd acc (pscale (B i) (c i)))) ->
  exists e, forZ 0 k (mkpt 0 0 0 0) body = Ok e /\
    forall f, linear f -> f e = sum_n (Z.to_nat k) 0 (fun i => B i * f (c i)).
Proof.
  intros Hk Hb.
  destruct (forZ_inv (fun i e => forall f, linear f -> f e = sum_n (Z.to_nat i) 0 (fun i => B i * f (c i))) body 0 k (mkpt 0 0 0 0)) as [e [E I]].
  - lia.
  - intros f [_ [_ Z0]]. rewrite Z0. reflexivity.
  - intros i st Hi I. rewrite Hb by lia. eexists. split; [reflexivity|].
    intros f L. pose proof L as [A [S _]]. rewrite A, S, I by auto.
    replace (Z.to_nat (i + 1)) with (Datatypes.S (Z.to_nat i)) by lia. rewrite sum_n_last.
    now replace (0 + Z.of_nat (Z.to_nat i))%Z with i by lia.
  - eauto.
Qed.

Definition divide (r : Qc * Qc * Qc) (w : Qc) : res (Qc * Qc * Qc) :=
  if qeq w 0 then Err ZeroDivision else Ok (fst (fst r) / w, snd (fst r) / w, snd r / w).

Lemma surface_point_ok n p U m q V P u v : valid_knots p n U -> valid_knots q m V -> shaped (n + 1) (m + 1) P ->
  knot U p <= u -> knot V q <= v ->
  let T f := spl V m q v (fun j => spl U n p u (fun i => f (entry P i j))) in
  surface_point n p U m q V P u v false false = divide (T px, T py, T pz) (T pw).
Proof.
  intros VU VV Sh Hu Hv T. pose proof VU as [Hp [LU _]]. pose proof VV as [Hq [LV _]].
  destruct (find_span_span_of p n U u VU Hu) as [s [E S]]. pose proof S as [Hs _].
  destruct (find_span_span_of q m V v VV Hv) as [t [E' S']]. pose proof S' as [Ht _].
  unfold surface_point. rewrite E. cbn [bind].
  destruct (basis_funs_ok p s u U (repeat (0:Qc) (Z.to_nat (p+1)))) as [N [EN [LN HN]]]; try lia.
  { rewrite lenZ_repeat; lia. } { apply (span_ndg p n U u); auto. }
  rewrite EN. cbn [bind]. rewrite E'. cbn [bind].
  destruct (basis_funs_ok q t v V (repeat (0:Qc) (Z.to_nat (q+1)))) as [M [EM [LM HM]]]; try lia.
  { rewrite lenZ_repeat; lia. } { apply (span_ndg q m V v); auto. }
  rewrite EM. cbn [bind].
  set (Z0 := mkpt 0 0 0 0).
  (* the entries of temp *)
  assert (TE : forall l, (0 <= l <= q)%Z -> exists e, temp_entry s p (t - q + l) P N = Ok e /\
     forall f, linear f -> f e = spl U n p u (fun i => f (entry P i (t - q + l)))).
  { intros l Hl. unfold temp_entry.
    destruct (accumulate (p + 1) (fun k => atZ 0 N k) (fun k => entry P (s - p + k) (t - q + l))
      (fun k acc => do nk <- rdZ N k ; do c <- rd2 P (s - p + k) (t - q + l) ; Ok (padd acc (pscale nk c)))) as [e [Ee He]].
    - lia.
    - intros i acc Hi. rewrite (rdZ_ok 0) by lia. cbn [bind]. rewrite (rd2_ok (n+1) (m+1)) by (auto; lia). reflexivity.
    - exists e. split; [exact Ee|]. intros f Lf. rewrite He by auto. unfold spl.
      rewrite (cdb_sum p n U u s) by auto. replace (Z.to_nat (p + 1)) with (Datatypes.S (Z.to_nat p)) by lia.
      rewrite (sum_n_from0 _ (s - p)). apply sum_n_ext.
      intros i Hi. rewrite HN by lia. replace (s - p + i)%Z with (i + (s - p))%Z by lia. auto. }
  destruct (forZ_inv (fun l tmp => lenZ tmp = (q + 1)%Z /\ forall k, (0 <= k < l)%Z -> temp_entry s p (t - q + k) P N = Ok (atZ Z0 tmp k))
    (fun l temp => do e <- temp_entry s p (t - q + l) P N ; wrZ temp l e) 0 (q + 1) (repeat Z0 (Z.to_nat (q + 1)))) as [tmp [Etmp [Lt Ht']]].
  - lia.
  - split. { rewrite lenZ_repeat. lia. } intros; lia.
  - intros l tmp Hl [L I]. destruct (TE l ltac:(lia)) as [e [Ee _]]. rewrite Ee. cbn [bind].
    rewrite wrZ_ok by lia. eexists. split; [reflexivity|]. split; [now rewrite lenZ_upd|].
    intros k Hk. destruct (Z.eq_dec k l) as [->|].
    + rewrite atZ_upd_eq by lia. auto.
    + rewrite atZ_upd_neq by lia. apply I. lia.
  - rewrite Etmp. cbn [bind].
    destruct (accumulate (q + 1) (fun l => atZ 0 M l) (fun l => atZ Z0 tmp l)
      (fun l r => do nl <- rdZ M l ; do t0 <- rdZ tmp l ; Ok (padd r (pscale nl t0)))) as [r [Er Hr]].
    + lia.
    + intros i acc Hi. rewrite (rdZ_ok 0) by lia. cbn [bind]. rewrite (rdZ_ok Z0) by lia. reflexivity.
    + change (mkpt 0 0 0 0) with Z0 in Er. rewrite Er. cbn [bind].
      assert (Rf : forall f, linear f -> f r = T f).
      { intros f Lf. rewrite Hr by auto. unfold T. unfold spl at 1. rewrite (cdb_sum q m V v t) by auto.
        replace (Z.to_nat (q + 1)) with (Datatypes.S (Z.to_nat q)) by lia.
        rewrite (sum_n_from0 _ (t - q)). apply sum_n_ext.
        intros l Hl. rewrite HM by lia. replace (t - q + l)%Z with (l + (t - q))%Z by lia. f_equal.
        destruct (TE l ltac:(lia)) as [e [Ee He]]. rewrite Ht' in Ee by lia. inversion Ee. subst e.
        rewrite He by auto. now replace (t - q + l)%Z with (l + (t - q))%Z by lia. }
      rewrite (Rf px px_linear), (Rf py py_linear), (Rf pz pz_linear), (Rf pw pw_linear).
      unfold divR, divide. cbn [fst snd]. destruct (qeq (T pw) 0); reflexivity.
Qed.

Lemma evaluate_eq s u v : valid_surface s -> knot (s_ku s) (s_du s) <= u -> knot (s_kv s) (s_dv s) <= v ->
  evaluate_surface s u v = divide (tensor s px u v, tensor s py u v, tensor s pz u v) (tensor s pw u v).
Proof.
  intros [Sh [VU VV]] Hu Hv. unfold evaluate_surface. rewrite (surface_point_ok _ _ _ _ _ _ _ _ _ VU VV); auto.
  - now rewrite !tensor_spl2.
  - now replace (s_nu s - 1 + 1)%Z with (s_nu s) by lia; replace (s_nv s - 1 + 1)%Z with (s_nv s) by lia.
Qed.

(* positive weights *)
Lemma spl_nonneg p n U u g : valid_knots p n U -> knot U p <= u <= knot U (n + 1) ->
  (forall i, (0 <= i <= n)%Z -> 0 <= g i) -> 0 <= spl U n p u g.
Proof.
  intros V [H1 H2] G. pose proof V as [Hp _]. destruct (find_span_any _ _ _ u false V H1 H2) as [s [_ S]]. pose proof S as [Hs _].
  destruct (span_of_bounds p n U u s V S H2).
  unfold spl. rewrite (cdb_sum p n U u s) by auto. apply sum_n_nonneg. intros i Hi. apply qc_mul_nonneg; [|apply G; lia].
  apply Bs_nonneg; auto; try (intros; apply (valid_window p n U s); auto; lia). apply (span_of_pos p n U u); auto.
Qed.
Lemma spl_pos p n U u g : valid_knots p n U -> knot U p <= u <= knot U (n + 1) ->
  (forall i, (0 <= i <= n)%Z -> 0 < g i) -> 0 < spl U n p u g.
Proof.
  intros V [H1 H2] G. pose proof V as [Hp _]. destruct (find_span_any _ _ _ u false V H1 H2) as [s [_ S]]. pose proof S as [Hs _].
  destruct (span_of_bounds p n U u s V S H2).
  unfold spl. rewrite (cdb_sum p n U u s) by auto. apply sum_one_weighted.
  - intros. apply Bs_nonneg; auto; try (intros; apply (valid_window p n U s); auto; lia). apply (span_of_pos p n U u); auto.
  - intros i Hi. apply G. lia.
  - replace (s - p)%Z with (s - Z.of_nat (Z.to_nat p))%Z by lia. rewrite Bs_sum. { vm_compute; auto. } apply (span_ndg p n U u); auto.
Qed.
Lemma spl_le p n U u g h : valid_knots p n U -> knot U p <= u <= knot U (n + 1) ->
  (forall i, (0 <= i <= n)%Z -> g i <= h i) -> spl U n p u g <= spl U n p u h.
Proof.
  intros V H G. assert (X : 0 <= spl U n p u (fun i => h i - g i)).
  { apply spl_nonneg; auto. intros i Hi. specialize (G i Hi). qlra. }
  assert (Y : spl U n p u (fun i => h i - g i) = spl U n p u h - spl U n p u g).
  { unfold spl, sum_to.
    transitivity (sum_n (Z.to_nat (n + 1)) 0 (fun i => cox_de_boor U n (Z.to_nat p) i u * h i + (- (1)) * (cox_de_boor U n (Z.to_nat p) i u * g i))).
    - apply sum_n_ext. intros; ring.
    - rewrite sum_n_add, sum_n_scal. ring. }
  rewrite Y in X. qlra.
Qed.
Lemma spl_scal U n p u k g : spl U n p u (fun i => k * g i) = k * spl U n p u g.
Proof. unfold spl, sum_to. rewrite <- sum_n_scal. apply sum_n_ext. intros; ring. Qed.

Lemma entry_weight s i j : valid_surface s -> weights_positive s -> (0 <= i < s_nu s)%Z -> (0 <= j < s_nv s)%Z ->
  0 < pw (entry (s_pts s) i j).
Proof.
  intros [Sh _] W Hi Hj. unfold weights_positive in W. rewrite Forall_forall in W.
  pose proof (shaped_row _ _ _ i Sh Hi) as L.
  assert (I : In (atZ [] (s_pts s) i) (s_pts s)). { unfold atZ. apply nth_In. unfold s_nu, lenZ in Hi. lia. }
  specialize (W _ I). rewrite Forall_forall in W. apply W. unfold entry, atZ at 1. apply nth_In.
  unfold lenZ in L. lia.
Qed.

Lemma tensor_weight_pos s u v : valid_surface s -> weights_positive s -> in_dom s u v -> 0 < tensor s pw u v.
Proof.
  intros V W [Du Dv]. pose proof V as [Sh [VU VV]]. rewrite tensor_spl.
  unfold dom_u, dom_v in *. replace (s_nu s) with (s_nu s - 1 + 1)%Z in Du by lia. replace (s_nv s) with (s_nv s - 1 + 1)%Z in Dv by lia.
  apply spl_pos; auto. intros i Hi. apply spl_pos; auto. intros j Hj. apply entry_weight; auto; lia.
Qed.

Lemma divide_ok r w : w <> 0 -> divide r w = Ok (fst (fst r) / w, snd (fst r) / w, snd r / w).
Proof. intro H. unfold divide. destruct (qeq w 0) eqn:E; auto. apply qeq_true in E. easy. Qed.

Lemma evaluate_surface_pos s u v : valid_surface s -> weights_positive s -> in_dom s u v ->
  evaluate_surface s u v = Ok (nurbs_surface_point s u v).
Proof.
  intros V W D. pose proof (tensor_weight_pos s u v V W D) as P. destruct D as [[D1 _] [D2 _]].
  rewrite evaluate_eq by auto. rewrite divide_ok; [reflexivity|]. intro X. rewrite X in P. qlra.
Qed.
