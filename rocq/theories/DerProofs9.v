(* Derivatives of rational surfaces. *)
From Coq Require Import List ZArith Lia Bool QArith Qcanon Qcabs.
From Verif Require Import Common ListLib QcLib ArrZ SumLib DerivLib SplineTheory NurbsModel NurbsSpec NurbsProofs SurfModel SurfSpec SurfProofs1 SurfProofs3 BinomModel BezProofs DerModel DerSpec DerProofs1 DerProofs2 DerProofs3 DerProofs4 DerProofs5 DerProofs7 DerProofs8.
Import ListNotations.
Local Open Scope Z_scope.
Local Open Scope Qc_scope.

Definition bz (n k : Z) : Qc := bq (Z.to_nat n) (Z.to_nat k).
Lemma binomial_bz n k : (0 <= n <= 30)%Z -> (0 <= k <= 30)%Z -> binomial_coefficient n k = Ok (bz n k).
Proof. intros Hn Hk. unfold bz. rewrite <- binomial_ok by lia. f_equal; lia. Qed.
Lemma bz_0 n : bz n 0 = 1. Proof. unfold bz. apply bq_0. Qed.

(* v - sum of b q over 1 .. l, by coordinates *)
Definition vs (l : Z) (b : Z -> Qc) (q : Z -> v3) : v3 :=
  mkv (sum_n (Z.to_nat l) 1 (fun j => b j * vx (q j))) (sum_n (Z.to_nat l) 1 (fun j => b j * vy (q j))) (sum_n (Z.to_nat l) 1 (fun j => b j * vz (q j))).
Lemma vs_step l b q : (0 <= l)%Z -> vs (l + 1) b q = vadd (vs l b q) (vscale (b (l + 1)%Z) (q (l + 1)%Z)).
Proof.
  intro H. unfold vs. replace (Z.to_nat (l + 1)) with (S (Z.to_nat l)) by lia. rewrite !sum_n_last.
  replace (1 + Z.of_nat (Z.to_nat l))%Z with (l + 1)%Z by lia. reflexivity.
Qed.

Section Rat.
Variables (A : grid) (order : Z).
Hypothesis Ho : (0 <= order <= 30)%Z.
Hypothesis SA : shaped (order + 1) (order + 1) A.
Let a k l := entry A k l.
Let w k l := pw (entry A k l).
Hypothesis W0 : w 0 0 <> 0.

Lemma rdA k l : (0 <= k <= order)%Z -> (0 <= l <= order)%Z -> rd2 A k l = Ok (a k l).
Proof. intros. apply (rd2_ok (order + 1) (order + 1)); auto; lia. Qed.

Lemma rat_j_loop k l S v0 : (0 <= k <= order)%Z -> (0 <= l <= order)%Z -> shapeM (order + 1) (order + 1) S ->
  forZ 1 (l + 1) v0 (rat_j A k l S) = Ok (vsub v0 (vs l (fun j => bz l j * w 0 j) (fun j => atM v30 S k (l - j)))).
Proof.
  intros Hk Hl HS.
  destruct (forZ_inv (fun j v => v = vsub v0 (vs (j - 1) (fun j => bz l j * w 0 j) (fun j => atM v30 S k (l - j)))) (rat_j A k l S) 1 (l + 1) v0) as [x [E ->]]; try lia.
  - apply v3_eq; cbn; ring.
  - intros j v Hj ->. unfold rat_j. rewrite binomial_bz by lia. cbn [bind]. rewrite rdA by lia. cbn [bind].
    rewrite (rdM_ok v30 _ (order + 1) (order + 1)) by (auto; lia). cbn [bind]. eexists. split; [reflexivity|].
    replace (j + 1 - 1)%Z with (j - 1 + 1)%Z by lia. rewrite vs_step by lia. replace (j - 1 + 1)%Z with j by lia.
    unfold w, a. apply v3_eq; cbn; ring.
  - rewrite E. replace (l + 1 - 1)%Z with l by lia. auto.
Qed.

(* the inner sum for i *)
Definition inner (S : list (list v3)) (k l i : Z) : v3 :=
  vadd (vscale (w i 0) (atM v30 S (k - i) l)) (vs l (fun j => bz l j * w i j) (fun j => atM v30 S (k - i) (l - j))).

Lemma rat_i_loop k l S v0 : (0 <= k <= order)%Z -> (0 <= l <= order)%Z -> shapeM (order + 1) (order + 1) S ->
  forZ 1 (k + 1) v0 (rat_i A k l S) = Ok (vsub v0 (vs k (fun i => bz k i) (inner S k l))).
Proof.
  intros Hk Hl HS.
  destruct (forZ_inv (fun i v => v = vsub v0 (vs (i - 1) (fun i => bz k i) (inner S k l))) (rat_i A k l S) 1 (k + 1) v0) as [x [E ->]]; try lia.
  - apply v3_eq; cbn; ring.
  - intros i v Hi ->. unfold rat_i. rewrite binomial_bz by lia. cbn [bind]. rewrite rdA by lia. cbn [bind].
    rewrite (rdM_ok v30 _ (order + 1) (order + 1)) by (auto; lia). cbn [bind].
    destruct (forZ_inv (fun j v2 => v2 = vs (j - 1) (fun j => bz l j * w i j) (fun j => atM v30 S (k - i) (l - j)))
      (fun j v2 => do b <- binomial_coefficient l j ; do w <- rd2 A i j ; do s <- rdM S (k - i) (l - j) ; Ok (vadd v2 (vscale (b * pw w) s)))
      1 (l + 1) v30) as [x [E ->]]; try lia.
    + reflexivity.
    + intros j v2 Hj ->. rewrite binomial_bz by lia. cbn [bind]. rewrite rdA by lia. cbn [bind].
      rewrite (rdM_ok v30 _ (order + 1) (order + 1)) by (auto; lia). cbn [bind]. eexists. split; [reflexivity|].
      replace (j + 1 - 1)%Z with (j - 1 + 1)%Z by lia. rewrite vs_step by lia. replace (j - 1 + 1)%Z with j by lia. reflexivity.
    + rewrite E. cbn [bind]. eexists. split; [reflexivity|].
      replace (i + 1 - 1)%Z with (i - 1 + 1)%Z by lia. rewrite vs_step by lia. replace (i - 1 + 1)%Z with i by lia.
      replace (l + 1 - 1)%Z with l by lia. unfold inner, w, a. apply v3_eq; cbn; ring.
  - rewrite E. replace (k + 1 - 1)%Z with k by lia. auto.
Qed.

Definition co (m : nat) : v3 -> Qc := match m with O => vx | 1%nat => vy | _ => vz end.
Definition ao (m : nat) : pt -> Qc := match m with O => px | 1%nat => py | _ => pz end.

(* the two-dimensional product rule at (k, l) *)
Definition conv (S : list (list v3)) (m : nat) (k l : Z) : Qc :=
  sum_n (Datatypes.S (Z.to_nat k)) 0 (fun i => bz k i * sum_n (Datatypes.S (Z.to_nat l)) 0 (fun j => bz l j * (w i j * co m (atM v30 S (k - i) (l - j))))).
Definition holds (S : list (list v3)) (k l : Z) : Prop := forall m, conv S m k l = ao m (a k l).

Lemma holds_ext S S' k l : (forall i j, (0 <= i <= k)%Z -> (0 <= j <= l)%Z -> atM v30 S' i j = atM v30 S i j) -> (0 <= k)%Z -> (0 <= l)%Z -> holds S k l -> holds S' k l.
Proof.
  intros H Hk Hl HS m. rewrite <- HS. unfold conv. apply sum_n_ext. intros i Hi. f_equal. apply sum_n_ext. intros j Hj. rewrite H by lia. auto.
Qed.

Definition rbody (k l : Z) (S : list (list v3)) : res (list (list v3)) :=
  do x <- rd2 A k l ; do v1 <- forZ 1 (l + 1) (num3 x) (rat_j A k l S) ; do v2 <- forZ 1 (k + 1) v1 (rat_i A k l S) ;
  do x0 <- rd2 A 0 0 ; do q <- vdiv v2 (pw x0) ; wrM S k l q.

Lemma rbody_ok k l S : (0 <= k <= order)%Z -> (0 <= l <= order)%Z -> shapeM (order + 1) (order + 1) S ->
  exists q, rbody k l S = Ok (updM S k l q) /\ holds (updM S k l q) k l.
Proof.
  intros Hk Hl HS. unfold rbody. rewrite rdA by lia. cbn [bind]. rewrite rat_j_loop by auto. cbn [bind]. rewrite rat_i_loop by auto. cbn [bind].
  rewrite rdA by lia. cbn [bind]. change (pw (a 0 0)) with (w 0 0). rewrite vdiv_ok by auto. cbn [bind].
  rewrite (wrM_ok _ (order + 1) (order + 1)) by (auto; lia).
  set (q := mkv _ _ _). exists q. split; auto. intro m.
  assert (Same : forall i j, (0 <= i <= k)%Z -> (0 <= j <= l)%Z -> (i <> k \/ j <> l) -> atM v30 (updM S k l q) i j = atM v30 S i j).
  { intros i j Hi Hj H. apply (atM_updM_neq v30 _ (order + 1) (order + 1)); auto; lia. }
  assert (New : atM v30 (updM S k l q) k l = q) by (apply (atM_updM_eq v30 _ (order + 1) (order + 1)); auto; lia).
  unfold conv. cbn [sum_n]. rewrite !bz_0. replace (k - 0)%Z with k by lia. replace (l - 0)%Z with l by lia. rewrite New.
  rewrite (sum_n_ext (Z.to_nat l) _ _ (fun j => bz l j * w 0 j * co m (atM v30 S k (l - j)))).
  2:{ intros j Hj. rewrite Same by lia. ring. }
  rewrite (sum_n_ext (Z.to_nat k) _ _ (fun i => bz k i * co m (inner S k l i))).
  2:{ intros i Hi. f_equal. rewrite Same by lia.
      rewrite (sum_n_ext (Z.to_nat l) _ _ (fun j => bz l j * w i j * co m (atM v30 S (k - i) (l - j)))).
      2:{ intros j Hj. rewrite Same by lia. ring. }
      unfold inner. destruct m as [|[|m]]; cbn; ring. }
  replace (0 + 1)%Z with 1%Z by lia.
  destruct m as [|[|m]]; cbn [co ao]; subst q; cbn [vx vy vz vsub vs num3]; unfold num3; cbn [vx vy vz]; field; auto.
Qed.

Lemma rat_ok S0 : shapeM (order + 1) (order + 1) S0 ->
  exists S, rat_surface_derivs A order S0 = Ok S /\ shapeM (order + 1) (order + 1) S /\
    forall k l, (0 <= k <= order)%Z -> (0 <= l <= order)%Z -> holds S k l.
Proof.
  intro H0. unfold rat_surface_derivs.
  destruct (forZ_inv (fun k S => shapeM (order + 1) (order + 1) S /\ forall c l, (0 <= c < k)%Z -> (0 <= l <= order)%Z -> holds S c l)
     (fun k S => forZ 0 (order + 1) S (rbody k)) 0 (order + 1) S0) as [S [E [S1 H1]]]; try lia.
  - split; auto. intros; lia.
  - intros k S Hk [A1 A2].
    destruct (forZ_inv (fun l T => shapeM (order + 1) (order + 1) T /\
       (forall c l', (0 <= c < k)%Z -> (0 <= l' <= order)%Z -> holds T c l') /\ (forall l', (0 <= l' < l)%Z -> holds T k l'))
       (rbody k) 0 (order + 1) S) as [T [E [B1 [B2 B3]]]]; try lia.
    + split; auto. split; auto. intros; lia.
    + intros l T Hl [B1 [B2 B3]]. destruct (rbody_ok k l T) as [q [Eq Hq]]; auto; try lia.
      eexists. split; [exact Eq|]. split; [apply shapeM_updM; auto; lia|]. split.
      * intros c l' Hc Hl'. apply (holds_ext T); try lia; auto. intros i j Hi Hj. apply (atM_updM_neq v30 _ (order + 1) (order + 1)); auto; lia.
      * intros l' Hl'. destruct (Z.eq_dec l' l) as [->|]; auto.
        apply (holds_ext T); try lia; [|apply B3; lia]. intros i j Hi Hj. apply (atM_updM_neq v30 _ (order + 1) (order + 1)); auto; lia.
    + exists T. split; auto. split; auto. intros c l Hc Hl. destruct (Z.eq_dec c k) as [->|]; [apply B3; lia|apply B2; lia].
  - exists S. split; [exact E|]. split; auto. intros k l Hk Hl. apply H1; lia.
Qed.
End Rat.

(* sums over Z and over nat *)
Lemma sum_n_sumn n (f : Z -> Qc) : sum_n n 0 f = sumn n (fun i => f (Z.of_nat i)).
Proof. induction n as [|n IH]; auto. rewrite sum_n_last, sumn_S, IH. auto. Qed.

Lemma chain_nth D c t m k : chain_on D c -> nth_deriv_on D k (c m) t (c (m + k)%nat t).
Proof.
  intros Hc. revert m. induction k as [|k IH]; intro m; cbn [nth_deriv_on]; [now rewrite Nat.add_0_r|].
  exists (c (S m)). split; [intros x Dx; apply deriv_on_of, Hc; auto|]. replace (m + S k)%nat with (S m + k)%nat by lia. apply IH.
Qed.
Lemma mixed_unique Du Dv k l F u v a b : thick Du -> thick Dv -> Du u -> Dv v ->
  mixed_deriv Du Dv k l F u v a -> mixed_deriv Du Dv k l F u v b -> a = b.
Proof.
  intros Tu Tv Hu Hv [G [G1 G2]] [G' [G1' G2']]. apply (nth_unique Du Tu k G G' u); auto.
  intros x Dx. apply (nth_unique Dv Tv l (F x) (F x) v); auto.
Qed.

Section Final.
Variables (sf : surface) (u v : Qc) (su sv : Z).
Let p := s_du sf. Let q := s_dv sf. Let nu := s_nu sf. Let nv := s_nv sf. Let U := s_ku sf. Let V := s_kv sf.
Hypothesis Vs : valid_surface sf.
Hypothesis Bu : knot U p <= u <= knot U (nu - 1 + 1).
Hypothesis Bv : knot V q <= v <= knot V (nv - 1 + 1).
Hypothesis Su : span_of p (nu - 1) U u su.
Hypothesis Sv : span_of q (nv - 1) V v sv.
Let Du := span_at p (nu - 1) U u.
Let Dv := span_at q (nv - 1) V v.
Hypothesis NZ : forall x y, Du x -> Dv y -> tensor sf pw x y <> 0.

(* the table at (x, v) *)
Definition tab (f : pt -> Qc) (k l : nat) (x : Qc) : Qc := mval sf x v su sv f k l.
(* the sequence in y at x *)
Definition ysq (f : pt -> Qc) (x : Qc) (l : nat) (y : Qc) : Qc :=
  dpiece (knot V) sv (Z.to_nat q) (fun j => sum_n (S (Z.to_nat p)) (su - p) (fun i => Bs (knot U) su x (Z.to_nat p) i * f (entry (s_pts sf) i j))) l y.

Lemma tab_chain f l : chain_on Du (fun k => tab f k l).
Proof.
  intros k x Dx. destruct Vs as [_ [VU VV]]. unfold tab, mval. apply dpiece_chain. apply (span_ndg p (nu - 1) U u); auto.
Qed.
Lemma ysq_chain f x : chain_on Dv (ysq f x).
Proof. intros l y Dy. destruct Vs as [_ [VU VV]]. apply dpiece_chain. apply (span_ndg q (nv - 1) V v); auto. Qed.
Lemma ysq_tab f x l : ysq f x l v = tab f 0 l x.
Proof.
  unfold ysq, tab, mval. rewrite dpiece_zero. rewrite (dpiece_sum (knot V) sv (Z.to_nat q) (S (Z.to_nat p)) (su - p) (fun i => Bs (knot U) su x (Z.to_nat p) i) (fun i j => f (entry (s_pts sf) i j))).
  unfold piece. destruct Vs as [_ [[Hp _] _]]. fold p in Hp. fold U V p q. replace (su - Z.of_nat (Z.to_nat p))%Z with (su - p)%Z by lia. auto.
Qed.
Lemma tensor_ysq f x y : Du x -> Dv y -> tensor sf f x y = ysq f x 0 y.
Proof.
  intros Dx Dy. destruct Vs as [_ [VU VV]]. unfold ysq. rewrite dpiece_zero.
  apply (tensor_pieces sf su sv Vs); [apply (span_at_of p (nu - 1) U u)|apply (span_at_of q (nv - 1) V v)]; auto.
Qed.

Lemma quot_deriv f k l : mixed_deriv Du Dv k l (fun x y => tensor sf f x y / tensor sf pw x y) u v (quot2 (tab f) (tab pw) l k u).
Proof.
  assert (Dvv : Dv v) by (apply span_at_refl; auto). assert (Duu : Du u) by (apply span_at_refl; auto).
  assert (NT : forall x, Du x -> tab pw 0 0 x <> 0).
  { intros x Dx. rewrite <- ysq_tab, <- tensor_ysq by auto. apply NZ; auto. }
  exists (quot2 (tab f) (tab pw) l 0%nat). split.
  - intros x Dx.
    assert (WN : forall y, Dv y -> ysq pw x 0 y <> 0) by (intros y Dy; rewrite <- tensor_ysq by auto; apply NZ; auto).
    assert (QC : chain_on Dv (quot (ysq f x) (ysq pw x))) by (apply quot_chain; auto; apply ysq_chain).
    assert (E : quot2 (tab f) (tab pw) l 0 x = quot (ysq f x) (ysq pw x) l v).
    { apply (quot_unique (ysq f x) (ysq pw x) (fun l _ => quot2 (tab f) (tab pw) l 0 x)); [apply WN; auto|].
      intro k0. unfold leib. rewrite ysq_tab. rewrite <- (quot2_leib (tab f) (tab pw) k0 0 x) by auto.
      apply sumn_ext. intros i Hi. unfold leib. cbn [sumn]. rewrite bq_0, ysq_tab, Nat.sub_0_r. ring. }
    rewrite E. apply (nth_ext _ _ (quot (ysq f x) (ysq pw x) 0)); auto.
    + intros y Dy. rewrite quot_eq. cbn [sumn]. rewrite !tensor_ysq by auto. field. apply WN; auto.
    + apply (chain_nth Dv (quot (ysq f x) (ysq pw x)) v 0%nat l); auto.
  - apply (chain_nth Du (quot2 (tab f) (tab pw) l) u 0%nat k); auto. apply quot2_chain; auto; intro; apply tab_chain.
Qed.

Lemma rational_ok A order S0 : (0 <= order <= 30)%Z -> shapeM (order + 1) (order + 1) A ->
  (forall k l, (0 <= k <= order)%Z -> (0 <= l <= order)%Z -> atM pt0 A k l = mpt sf u v su sv k l) ->
  shapeM (order + 1) (order + 1) S0 ->
  exists S, rat_surface_derivs A order S0 = Ok S /\ shapeM (order + 1) (order + 1) S /\
    forall k l, (0 <= k <= order)%Z -> (0 <= l <= order)%Z -> point_deriv sf (Z.to_nat k) (Z.to_nat l) u v (entry3 S k l).
Proof.
  intros Ho SA VA S0h.
  assert (Dvv : Dv v) by (apply span_at_refl; auto). assert (Duu : Du u) by (apply span_at_refl; auto).
  assert (NT : tab pw 0 0 u <> 0). { rewrite <- ysq_tab, <- tensor_ysq by auto. apply NZ; auto. }
  assert (SA' : shaped (order + 1) (order + 1) A). { destruct SA as [L R]. apply shapedI; auto. }
  assert (VE : forall k l, (0 <= k <= order)%Z -> (0 <= l <= order)%Z -> entry A k l = mpt sf u v su sv k l) by (intros; apply VA; auto).
  assert (W0 : pw (entry A 0 0) <> 0). { rewrite VE by lia. exact NT. }
  destruct (rat_ok A order Ho SA' W0 S0 S0h) as [S [E [S1 H]]]. exists S. split; auto. split; auto. intros k l Hk Hl.
  assert (G : forall m, co m (entry3 S k l) = quot2 (tab (ao m)) (tab pw) (Z.to_nat l) (Z.to_nat k) u).
  { intro m. set (F := fun i j : nat => co m (atM v30 S (Z.of_nat i) (Z.of_nat j))).
    replace (co m (entry3 S k l)) with (F (Z.to_nat k) (Z.to_nat l)) by (unfold F; rewrite !Z2Nat.id by lia; reflexivity).
    apply (quot2_unique (tab (ao m)) (tab pw) F (Z.to_nat order) (Z.to_nat order) u NT); try lia.
    intros k' l' Hk' Hl'. pose proof (H (Z.of_nat k') (Z.of_nat l') ltac:(lia) ltac:(lia) m) as C. unfold conv in C.
    rewrite VE in C by lia.
    replace (ao m (mpt sf u v su sv (Z.of_nat k') (Z.of_nat l'))) with (tab (ao m) k' l' u) in C.
    2:{ unfold tab, mpt. rewrite !Nat2Z.id. destruct m as [|[|m]]; reflexivity. }
    rewrite <- C. rewrite !Nat2Z.id, sum_n_sumn.
    rewrite (sumn_ext (Datatypes.S l') _ (fun j => sumn (Datatypes.S k') (fun i => bq l' j * (bq k' i * (tab pw i j u * F (k' - i)%nat (l' - j)%nat))))).
    2:{ intros j Hj. now rewrite <- sumn_scale. }
    rewrite sumn_swap. apply sumn_ext. intros i Hi. rewrite sum_n_sumn, <- sumn_scale. apply sumn_ext. intros j Hj.
    rewrite VE by lia. unfold bz. rewrite !Nat2Z.id. unfold F. rewrite !Nat2Z.inj_sub by lia.
    replace (pw (mpt sf u v su sv (Z.of_nat i) (Z.of_nat j))) with (tab pw i j u) by (unfold tab, mpt; rewrite !Nat2Z.id; reflexivity).
    ring. }
  unfold point_deriv. fold p q nu nv U V Du Dv.
  pose proof (G 0%nat) as G0. pose proof (G 1%nat) as G1. pose proof (G 2%nat) as G2. cbn [co ao] in G0, G1, G2. rewrite G0, G1, G2.
  split; [|split]; apply quot_deriv.
Qed.
End Final.


Lemma inside_bounds p n U u : knot U p <= u -> u < knot U n -> knot U p <= u <= knot U (n - 1 + 1).
Proof. intros. replace (n - 1 + 1)%Z with n by lia. split; auto. apply Qclt_le_weak; auto. Qed.

(* the two functions together, inside the domain *)
Lemma rational_inside sf u v order ju jv S0 :
  valid_surface sf -> weights_positive sf -> (1 <= s_du sf)%Z -> (1 <= s_dv sf)%Z -> (0 <= order <= 30)%Z ->
  knot (s_ku sf) (s_du sf) <= u -> u < knot (s_ku sf) (s_nu sf) ->
  knot (s_kv sf) (s_dv sf) <= v -> v < knot (s_kv sf) (s_nv sf) ->
  shapeM (Z.min (s_du sf) order + 1) (s_du sf + 1) ju -> shapeM (Z.min (s_dv sf) order + 1) (s_dv sf + 1) jv ->
  shapeM (order + 1) (order + 1) S0 ->
  exists SKL S, surface_derivatives (s_du sf) (s_dv sf) (s_ku sf) (s_kv sf) (concat (s_pts sf)) (s_nu sf) (s_nv sf) u v order ju jv = Ok SKL /\
    rat_surface_derivs SKL order S0 = Ok S /\ shapeM (order + 1) (order + 1) S /\
    forall k l, (0 <= k <= order)%Z -> (0 <= l <= order)%Z -> point_deriv sf (Z.to_nat k) (Z.to_nat l) u v (entry3 S k l).
Proof.
  intros Vs Wp Hp Hq Ho U1 U2 V1 V2 Sju Sjv S0h. pose proof Vs as [Sh [VU VV]].
  pose proof (inside_bounds _ _ _ _ U1 U2) as Bu. pose proof (inside_bounds _ _ _ _ V1 V2) as Bv.
  replace (s_nu sf) with (s_nu sf - 1 + 1)%Z in U2 by lia. replace (s_nv sf) with (s_nv sf - 1 + 1)%Z in V2 by lia.
  destruct (find_span_next _ _ _ u VU Hp U1 U2) as [su [Fu Su]]. destruct (find_span_next _ _ _ v VV Hq V1 V2) as [sv [Fv Sv]].
  replace (s_nu sf - 1 + 1)%Z with (s_nu sf) in Fu by lia. replace (s_nv sf - 1 + 1)%Z with (s_nv sf) in Fv by lia.
  destruct (surface_derivatives_at sf u v su sv Vs Su Sv order ju jv) as [SKL [E [S1 W]]]; auto; try lia.
  exists SKL.
  destruct (rational_ok sf u v su sv Vs Bu Bv Su Sv) with (A := SKL) (order := order) (S0 := S0) as [S [E2 [S2 R]]]; auto.
  - intros x y [Dx _] [Dy _]. intro Z. assert (P : 0 < tensor sf pw x y).
    { apply tensor_weight_pos; auto. unfold in_dom, dom_u, dom_v.
      replace (s_nu sf - 1 + 1)%Z with (s_nu sf) in Dx by lia. replace (s_nv sf - 1 + 1)%Z with (s_nv sf) in Dy by lia. split; auto. }
    rewrite Z in P. revert P. apply Qclt_not_eq || idtac. intro P. exact (Qclt_not_le _ _ P (Qcle_refl _)).
  - exists S. auto.
Qed.

(* a point deriv is unique *)
Lemma point_deriv_unique sf k l u v a b : valid_surface sf -> in_dom sf u v -> point_deriv sf k l u v a -> point_deriv sf k l u v b -> a = b.
Proof.
  intros [Sh [VU VV]] [Du Dv] [A1 [A2 A3]] [B1 [B2 B3]]. unfold dom_u, dom_v in *.
  replace (s_nu sf) with (s_nu sf - 1 + 1)%Z in Du by lia. replace (s_nv sf) with (s_nv sf - 1 + 1)%Z in Dv by lia.
  pose proof (span_at_thick _ _ _ _ VU Du) as Tu. pose proof (span_at_thick _ _ _ _ VV Dv) as Tv.
  pose proof (span_at_refl _ _ _ _ Du) as Ru. pose proof (span_at_refl _ _ _ _ Dv) as Rv.
  apply v3_eq; [exact (mixed_unique _ _ k l _ u v _ _ Tu Tv Ru Rv A1 B1)|exact (mixed_unique _ _ k l _ u v _ _ Tu Tv Ru Rv A2 B2)|
    exact (mixed_unique _ _ k l _ u v _ _ Tu Tv Ru Rv A3 B3)].
Qed.

(* zero weight at the point: no result *)
Lemma rat_zero A order S0 : (0 <= order)%Z -> shaped (order + 1) (order + 1) A -> pw (entry A 0 0) = 0 ->
  rat_surface_derivs A order S0 = Err ZeroDivision.
Proof.
  intros Ho SA W. unfold rat_surface_derivs, forZ. replace (Z.to_nat (order + 1 - 0)) with (S (Z.to_nat order)) by lia. cbn [for_n].
  rewrite (rd2_ok (order + 1) (order + 1)) by (auto; lia). cbn [bind]. change (Z.to_nat (0 + 1 - 1)) with O. cbn [for_n bind].
  rewrite W. unfold vdiv. rewrite divR_zero. reflexivity.
Qed.
