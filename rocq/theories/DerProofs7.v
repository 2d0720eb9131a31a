(* Derivatives of surfaces before the division by the weight. *)
From Coq Require Import List ZArith Lia Bool QArith Qcanon Qcabs.
From Verif Require Import Common ListLib QcLib ArrZ SumLib DerivLib SplineTheory NurbsModel NurbsSpec NurbsProofs SurfModel SurfSpec SurfProofs1 SurfProofs3 DerModel DerSpec DerProofs1 DerProofs2 DerProofs3 DerProofs4.
Import ListNotations.
Local Open Scope Z_scope.
Local Open Scope Qc_scope.

Lemma pt_eq (a b : pt) : px a = px b -> py a = py b -> pz a = pz b -> pw a = pw b -> a = b.
Proof. destruct a, b. cbn. intros -> -> -> ->. auto. Qed.

Definition psum (m : nat) (b : Z -> Qc) (q : Z -> pt) : pt :=
  mkpt (sum_n m 0 (fun j => b j * px (q j))) (sum_n m 0 (fun j => b j * py (q j)))
       (sum_n m 0 (fun j => b j * pz (q j))) (sum_n m 0 (fun j => b j * pw (q j))).
Lemma psum_S m b q : psum (S m) b q = padd (psum m b q) (pscale (b (Z.of_nat m)) (q (Z.of_nat m))).
Proof. unfold psum. rewrite !sum_n_last. reflexivity. Qed.
Lemma padd_0 q : padd (mkpt 0 0 0 0) q = q.
Proof. apply pt_eq; cbn; ring. Qed.

(* the span found with one control point too many *)
Lemma find_span_next p n U u : valid_knots p n U -> (1 <= p)%Z -> knot U p <= u -> u < knot U (n + 1) ->
  exists s, find_span (n + 1) p u U false = Ok s /\ span_of p n U u s.
Proof.
  intros V Hp1 Hu Hu2. pose proof V as [Hp [L [M _]]]. unfold find_span, find_span_fuel.
  rewrite !rd_knot by lia. cbn [bind].
  assert (K : knot U (n + 1) <= knot U (n + 1 + 1)) by (apply M; lia).
  destruct (qle (knot U (n + 1 + 1)) u) eqn:E1. { apply qle_true in E1. exfalso. qlra. }
  apply qle_false in E1. rewrite ?rd_knot by lia. cbn [bind].
  assert (knot U 0 <= knot U p) by (apply M; lia).
  destruct (qlt u (knot U 0)) eqn:E2. { apply qlt_true in E2. exfalso. qlra. }
  destruct (qeq u (knot U (n + 1 + 1))) eqn:E3. { apply qeq_true in E3. subst. exfalso. qlra. }
  destruct (span_search_ok u U (span_fuel (n + 1) p u U) p (n + 1 + 1)) as [s [S1 [S2 [S3 S4]]]]; auto; try lia.
  { pose proof (span_fuel_ge (n + 1) p u U). lia. }
  exists s. split; auto. assert (s <= n)%Z.
  { destruct (Z_le_dec s n); auto. exfalso. assert (knot U (n + 1) <= knot U s) by (apply M; lia). qlra. }
  split; [lia|]. split; auto. intro. exfalso. qlra.
Qed.

(* ... and at the end of a clamped knot vector *)
Lemma find_span_next_end p n U u : valid_knots p n U -> (1 <= p)%Z -> knot U (n + 2) <= u ->
  find_span (n + 1) p u U false = Ok (n + 1)%Z.
Proof.
  intros V Hp1 Hu. pose proof V as [Hp [L [M _]]]. unfold find_span, find_span_fuel.
  rewrite !rd_knot by lia. cbn [bind]. replace (n + 1 + 1)%Z with (n + 2)%Z by lia.
  assert (E : qle (knot U (n + 2)) u = true) by (apply qle_true; auto). now rewrite E.
Qed.

Lemma rd_concat nu nv (G : grid) i j : shaped nu nv G -> (0 <= i < nu)%Z -> (0 <= j < nv)%Z ->
  rdZ (concat G) (j + nv * i) = Ok (entry G i j).
Proof.
  revert nu i. induction G as [|r G IH]; intros nu i [L F] Hi Hj; [unfold lenZ in L; cbn in L; lia|].
  inversion F as [|? ? Hr HF]; subst. cbn [concat].
  assert (LC : forall H : grid, Forall (fun r0 => lenZ r0 = lenZ r) H -> lenZ (concat H) = (lenZ H * lenZ r)%Z).
  { clear. induction H as [|a H IH]; intro F; [reflexivity|]. inversion F; subst. cbn [concat]. unfold lenZ in *. rewrite app_length. cbn [length]. specialize (IH H3). lia. }
  unfold entry. destruct (Z.eq_dec i 0) as [->|Ni].
  - rewrite (rdZ_ok pt0).
    + f_equal. unfold atZ. cbn [Z.to_nat nth]. replace (j + lenZ r * 0)%Z with j by lia. apply app_nth1. unfold lenZ in Hj. lia.
    + unfold lenZ in *. rewrite app_length. lia.
  - specialize (IH (lenZ G) (i - 1)%Z).
    assert (X : rdZ (concat G) (j + lenZ r * (i - 1)) = Ok (entry G (i - 1) j)).
    { apply IH; auto; [split; auto|]. unfold lenZ in *. cbn [length] in *. lia. }
    unfold entry in X. replace (atZ [] (r :: G) i) with (atZ [] G (i - 1)).
    2:{ unfold atZ. replace (Z.to_nat i) with (S (Z.to_nat (i - 1))) by lia. reflexivity. }
    rewrite <- X. assert (B : (0 <= j + lenZ r * (i - 1) < lenZ (concat G))%Z).
    { rewrite LC by auto. unfold lenZ in *. cbn [length] in *. nia. }
    rewrite !(rdZ_ok pt0); auto.
    + f_equal. unfold atZ. rewrite app_nth2 by (unfold lenZ in *; nia). f_equal. unfold lenZ in *. nia.
    + unfold lenZ in *. rewrite app_length. nia.
Qed.

Section Surf.
Variables (sf : surface) (u v : Qc) (su sv : Z).
Let p := s_du sf. Let q := s_dv sf. Let nu := s_nu sf. Let nv := s_nv sf. Let U := s_ku sf. Let V := s_kv sf.
Hypothesis Vs : valid_surface sf.
Hypothesis Bu : knot U p <= u <= knot U (nu - 1 + 1).
Hypothesis Bv : knot V q <= v <= knot V (nv - 1 + 1).
Hypothesis Su : span_of p (nu - 1) U u su.
Hypothesis Sv : span_of q (nv - 1) V v sv.

Let e i j := entry (s_pts sf) i j.
Definition mval (f : pt -> Qc) (k l : nat) : Qc :=
  dpiece (knot U) su (Z.to_nat p) (fun i => dpiece (knot V) sv (Z.to_nat q) (fun j => f (e i j)) l v) k u.

Lemma tensor_pieces f x y : span_of p (nu - 1) U x su -> span_of q (nv - 1) V y sv ->
  tensor sf f x y = piece (knot V) sv (Z.to_nat q) (fun j => sum_n (S (Z.to_nat p)) (su - p) (fun i => Bs (knot U) su x (Z.to_nat p) i * f (e i j))) y.
Proof.
  intros Sx Sy. destruct Vs as [_ [VU VV]]. unfold tensor. fold p q nu nv U V. pose proof VU as [Hp _]. pose proof VV as [Hq _].
  fold p q nu nv in Hp, Hq.
  transitivity (sum_to (nu - 1) (fun i => cox_de_boor U (nu - 1) (Z.to_nat p) i x * sum_to (nv - 1) (fun j => cox_de_boor V (nv - 1) (Z.to_nat q) j y * f (e i j)))).
  { apply sum_n_ext. intros i Hi. unfold sum_to. rewrite <- sum_n_scal. apply sum_n_ext. intros j Hj. unfold e. ring. }
  rewrite (cdb_sum p (nu - 1) U x su) by auto.
  rewrite (sum_n_ext _ _ _ (fun i => sum_n (S (Z.to_nat q)) (sv - q) (fun j => Bs (knot U) su x (Z.to_nat p) i * (Bs (knot V) sv y (Z.to_nat q) j * f (e i j))))).
  2:{ intros i Hi. rewrite (cdb_sum q (nv - 1) V y sv) by auto. now rewrite <- sum_n_scal. }
  rewrite sum_n_swap. unfold piece. replace (sv - Z.of_nat (Z.to_nat q))%Z with (sv - q)%Z by lia.
  apply sum_n_ext. intros j Hj. rewrite <- sum_n_scal. apply sum_n_ext. intros i Hi. ring.
Qed.

Lemma mixed_ok f k l : mixed_deriv (span_at p (nu - 1) U u) (span_at q (nv - 1) V v) k l (tensor sf f) u v (mval f k l).
Proof.
  destruct Vs as [_ [VU VV]]. fold p q nu nv U V in VU, VV. pose proof VU as [Hp _]. pose proof VV as [Hq _].
  exists (fun x => piece (knot U) su (Z.to_nat p) (fun i => dpiece (knot V) sv (Z.to_nat q) (fun j => f (e i j)) l v) x). split.
  - intros x Dx. pose proof (span_at_of _ _ _ _ _ _ VU Su Dx) as Sx.
    replace (piece (knot U) su (Z.to_nat p) (fun i => dpiece (knot V) sv (Z.to_nat q) (fun j => f (e i j)) l v) x)
      with (dpiece (knot V) sv (Z.to_nat q) (fun j => sum_n (S (Z.to_nat p)) (su - p) (fun i => Bs (knot U) su x (Z.to_nat p) i * f (e i j))) l v).
    + apply (dpiece_deriv q (nv - 1) V v sv); auto. intros y Sy. apply tensor_pieces; auto.
    + rewrite (dpiece_sum (knot V) sv (Z.to_nat q) (S (Z.to_nat p)) (su - p) (fun i => Bs (knot U) su x (Z.to_nat p) i) (fun i j => f (e i j))).
      unfold piece. replace (su - Z.of_nat (Z.to_nat p))%Z with (su - p)%Z by lia. auto.
  - apply (dpiece_deriv p (nu - 1) U u su); auto.
Qed.

Lemma mval_sum f k l : mval f k l = sum_n (S (Z.to_nat q)) 0 (fun j => dpiece (knot V) sv (Z.to_nat q) (ind (sv - q + j)) l v
  * sum_n (S (Z.to_nat p)) 0 (fun i => dpiece (knot U) su (Z.to_nat p) (ind (su - p + i)) k u * f (e (su - p + i) (sv - q + j)))).
Proof.
  destruct Vs as [_ [VU VV]]. fold p q nu nv U V in VU, VV. pose proof VU as [Hp _]. pose proof VV as [Hq _].
  unfold mval. rewrite dpiece_basis. replace (su - Z.of_nat (Z.to_nat p))%Z with (su - p)%Z by lia. rewrite (sum_n_from0 _ (su - p)).
  rewrite (sum_n_ext _ _ _ (fun i => sum_n (S (Z.to_nat q)) 0 (fun j => dpiece (knot U) su (Z.to_nat p) (ind (su - p + i)) k u
      * (dpiece (knot V) sv (Z.to_nat q) (ind (sv - q + j)) l v * f (e (su - p + i) (sv - q + j)))))).
  2:{ intros i Hi. rewrite (dpiece_basis (knot V)). replace (sv - Z.of_nat (Z.to_nat q))%Z with (sv - q)%Z by lia. rewrite (sum_n_from0 _ (sv - q)).
      rewrite <- sum_n_scal. replace (i + (su - p))%Z with (su - p + i)%Z by lia. apply sum_n_ext. intros j Hj.
      replace (j + (sv - q))%Z with (sv - q + j)%Z by lia. auto. }
  rewrite sum_n_swap. apply sum_n_ext. intros j Hj. rewrite <- sum_n_scal. apply sum_n_ext. intros i Hi. ring.
Qed.

Definition mpt (k l : Z) : pt :=
  let f g := mval g (Z.to_nat k) (Z.to_nat l) in mkpt (f px) (f py) (f pz) (f pw).

Lemma mval_zero f k l : (p < Z.of_nat k \/ q < Z.of_nat l)%Z -> mval f k l = 0.
Proof.
  destruct Vs as [_ [VU VV]]. fold p q nu nv U V in VU, VV. pose proof VU as [Hp _]. pose proof VV as [Hq _].
  intros [H|H].
  - unfold mval, dpiece at 1. destruct (Nat.leb_spec k (Z.to_nat p)); [lia|auto].
  - unfold mval. rewrite (dpiece_ext _ _ _ _ (fun _ => 0)); [apply dpiece_0|]. intros j Hj. unfold dpiece. destruct (Nat.leb_spec l (Z.to_nat q)); [lia|auto].
Qed.

Lemma surface_derivatives_at order ju jv : (0 <= order)%Z ->
  find_span nu p u U false = Ok su -> find_span nv q v V false = Ok sv ->
  shapeM (Z.min p order + 1) (p + 1) ju -> shapeM (Z.min q order + 1) (q + 1) jv ->
  exists SKL, surface_derivatives p q U V (concat (s_pts sf)) nu nv u v order ju jv = Ok SKL /\
    shapeM (order + 1) (order + 1) SKL /\
    forall k l, (0 <= k <= order)%Z -> (0 <= l <= order)%Z -> atM pt0 SKL k l = mpt k l.
Proof.
  intros Ho Fu Fv Sju Sjv. destruct Vs as [Sh [VU VV]]. fold p q nu nv U V in VU, VV, Sh.
  pose proof VU as [Hp [LU _]]. pose proof VV as [Hq [LV _]]. pose proof Su as [Hsu _]. pose proof Sv as [Hsv _].
  unfold surface_derivatives. rewrite Fu. cbn [bind].
  destruct (ders_basis_funs_ok p (Z.min p order) su u U ju) as [bu [Eu [Sbu Vbu]]]; auto; try lia. { apply (span_ndg p (nu - 1) U u); auto. }
  rewrite Eu. cbn [bind]. rewrite Fv. cbn [bind].
  destruct (ders_basis_funs_ok q (Z.min q order) sv v V jv) as [bv [Ev [Sbv Vbv]]]; auto; try lia. { apply (span_ndg q (nv - 1) V v); auto. }
  rewrite Ev. cbn [bind].
  set (du := Z.min p order) in *. set (dv := Z.min q order) in *. replace (Z.min order dv) with dv by (unfold dv; lia).
  set (tq := fun k s => psum (S (Z.to_nat p)) (fun r => atM 0 bu k r) (fun r => e (su - p + r) (sv - q + s))).
  assert (TQ : forall k s, (0 <= k <= du)%Z -> (0 <= s <= q)%Z -> surf_temp su sv p q nv bu (concat (s_pts sf)) k s = Ok (tq k s)).
  { intros k s Hk Hs. unfold surf_temp.
    destruct (forZ_inv (fun r acc => acc = psum (Z.to_nat r) (fun r => atM 0 bu k r) (fun r => e (su - p + r) (sv - q + s)))
       (fun r acc => do b <- rdM bu k r ; do q0 <- rdZ (concat (s_pts sf)) (sv - q + s + nv * (su - p + r)) ; Ok (padd acc (pscale b q0)))
       0 (p + 1) (mkpt 0 0 0 0)) as [x [E ->]]; try lia; auto.
    - intros r acc Hr ->. rewrite (rdM_ok 0 _ (du + 1) (p + 1)) by (auto; lia). cbn [bind]. rewrite (rd_concat nu nv) by (auto; lia). cbn [bind].
      eexists. split; [reflexivity|]. replace (Z.to_nat (r + 1)) with (S (Z.to_nat r)) by lia. rewrite psum_S.
      replace (Z.of_nat (Z.to_nat r)) with r by lia. auto.
    - rewrite E. unfold tq. replace (S (Z.to_nat p)) with (Z.to_nat (p + 1)) by lia. auto. }
  assert (VAL : forall k l, (0 <= k <= du)%Z -> (0 <= l <= dv)%Z -> psum (Z.to_nat (q + 1)) (fun s => atM 0 bv l s) (tq k) = mpt k l).
  { intros k l Hk Hl. replace (Z.to_nat (q + 1)) with (S (Z.to_nat q)) by lia. unfold psum, mpt.
    f_equal; rewrite mval_sum; apply sum_n_ext; intros j Hj; rewrite Vbv by lia; f_equal; unfold tq, psum; cbn [px py pz pw]; apply sum_n_ext; intros i Hi; rewrite Vbu by lia; auto. }
  destruct (forZ_inv (fun k X => shapeM (order + 1) (order + 1) X /\
      (forall c l, (0 <= c < k)%Z -> (0 <= l <= dv)%Z -> atM pt0 X c l = mpt c l) /\
      (forall c l, (0 <= c <= order)%Z -> (0 <= l <= order)%Z -> (k <= c \/ dv < l)%Z -> atM pt0 X c l = pt0))
     (fun k SKL =>
        do temp <- mapR (surf_temp su sv p q nv bu (concat (s_pts sf)) k) (ixs (q + 1)) ;
        forZ 0 (dv + 1) SKL (fun l SKL => forZ 0 (q + 1) SKL (fun s SKL =>
          do c <- rdM SKL k l ; do b <- rdM bv l s ; do t <- rdZ temp s ; wrM SKL k l (padd c (pscale b t)))))
     0 (du + 1) (zerosM (mkpt 0 0 0 0) (order + 1) (order + 1))) as [X [E [S1 [V1 V2]]]]; try lia.
  - split; [apply shape_zeros; lia|]. split; [intros; lia|]. intros c l Hc Hl _. apply at_zeros; lia.
  - intros k X Hk [A1 [A2 A3]].
    destruct (mapR_ixs pt0 (q + 1) (surf_temp su sv p q nv bu (concat (s_pts sf)) k) (fun s x => x = tq k s)) as [temp [Et [Lt Vt]]]; try lia.
    { intros s Hs. exists (tq k s). split; auto. apply TQ; lia. }
    rewrite Et. cbn [bind].
    destruct (forZ_inv (fun l Y => shapeM (order + 1) (order + 1) Y /\
        (forall l', (0 <= l' < l)%Z -> atM pt0 Y k l' = mpt k l') /\
        (forall c l', (0 <= c)%Z -> (0 <= l')%Z -> (c <> k \/ l <= l')%Z -> atM pt0 Y c l' = atM pt0 X c l'))
       (fun l SKL => forZ 0 (q + 1) SKL (fun s SKL =>
          do c <- rdM SKL k l ; do b <- rdM bv l s ; do t <- rdZ temp s ; wrM SKL k l (padd c (pscale b t))))
       0 (dv + 1) X) as [Y [EY [SY [VY WY]]]]; try lia.
    + split; auto. split; auto. intros; lia.
    + intros l Y Hl [B1 [B2 B3]].
      destruct (forZ_inv (fun s W => shapeM (order + 1) (order + 1) W /\
          atM pt0 W k l = psum (Z.to_nat s) (fun s => atM 0 bv l s) (tq k) /\
          (forall c l', (0 <= c)%Z -> (0 <= l')%Z -> (c <> k \/ l' <> l)%Z -> atM pt0 W c l' = atM pt0 Y c l'))
         (fun s SKL => do c <- rdM SKL k l ; do b <- rdM bv l s ; do t <- rdZ temp s ; wrM SKL k l (padd c (pscale b t)))
         0 (q + 1) Y) as [W [EW [SW [VW WW]]]]; try lia.
      * split; auto. split; auto. rewrite B3 by lia. rewrite A3 by lia. reflexivity.
      * intros s W Hs [C1 [C2 C3]]. rewrite (rdM_ok pt0 _ (order + 1) (order + 1)) by (auto; lia). cbn [bind].
        rewrite (rdM_ok 0 _ (dv + 1) (q + 1)) by (auto; lia). cbn [bind]. rewrite (rdZ_ok pt0) by lia. cbn [bind].
        rewrite Vt by lia. rewrite (wrM_ok _ (order + 1) (order + 1)) by (auto; lia). eexists. split; [reflexivity|].
        split; [apply shapeM_updM; auto; lia|]. split.
        -- rewrite (atM_updM_eq pt0 _ (order + 1) (order + 1)) by (auto; lia). rewrite C2.
           replace (Z.to_nat (s + 1)) with (S (Z.to_nat s)) by lia. rewrite psum_S. replace (Z.of_nat (Z.to_nat s)) with s by lia. auto.
        -- intros c l' Hc Hl' H. rewrite (atM_updM_neq pt0 _ (order + 1) (order + 1)) by (auto; lia). auto.
      * exists W. split; auto. split; auto. split.
        -- intros l' Hl'. destruct (Z.eq_dec l' l) as [->|].
           ++ rewrite VW. apply VAL; lia.
           ++ rewrite WW by lia. apply B2; lia.
        -- intros c l' Hc Hl' H. rewrite WW by lia. apply B3; lia.
    + exists Y. split; auto. split; auto. split.
      * intros c l Hc Hl. destruct (Z.eq_dec c k) as [->|].
        -- apply VY; lia.
        -- rewrite WY by lia. apply A2; lia.
      * intros c l Hc Hl H. rewrite WY by lia. apply A3; lia.
  - exists X. split; [exact E|]. split; auto. intros k l Hk Hl.
    destruct (Z_le_dec k du); [destruct (Z_le_dec l dv)|].
    + apply V1; lia.
    + rewrite V2 by lia. unfold mpt. rewrite !mval_zero by lia. reflexivity.
    + rewrite V2 by lia. unfold mpt. rewrite !mval_zero by lia. reflexivity.
Qed.

Lemma mpt_deriv k l : (0 <= k)%Z -> (0 <= l)%Z -> tensor_deriv sf (Z.to_nat k) (Z.to_nat l) u v (mpt k l).
Proof.
  intros Hk Hl f Hf. fold p q nu nv U V. replace (f (mpt k l)) with (mval f (Z.to_nat k) (Z.to_nat l)); [apply mixed_ok|].
  destruct Hf as [<-|[<-|[<-|[<-|[]]]]]; reflexivity.
Qed.
End Surf.

(* inside the domain *)
Lemma surface_derivatives_inside sf u v order ju jv :
  valid_surface sf -> (1 <= s_du sf)%Z -> (1 <= s_dv sf)%Z -> (0 <= order)%Z ->
  knot (s_ku sf) (s_du sf) <= u -> u < knot (s_ku sf) (s_nu sf) ->
  knot (s_kv sf) (s_dv sf) <= v -> v < knot (s_kv sf) (s_nv sf) ->
  shapeM (Z.min (s_du sf) order + 1) (s_du sf + 1) ju -> shapeM (Z.min (s_dv sf) order + 1) (s_dv sf + 1) jv ->
  exists SKL, surface_derivatives (s_du sf) (s_dv sf) (s_ku sf) (s_kv sf) (concat (s_pts sf)) (s_nu sf) (s_nv sf) u v order ju jv = Ok SKL /\
    shapeM (order + 1) (order + 1) SKL /\
    forall k l, (0 <= k <= order)%Z -> (0 <= l <= order)%Z -> tensor_deriv sf (Z.to_nat k) (Z.to_nat l) u v (entry SKL k l).
Proof.
  intros Vs Hp Hq Ho U1 U2 V1 V2 Sju Sjv. pose proof Vs as [Sh [VU VV]].
  replace (s_nu sf) with (s_nu sf - 1 + 1)%Z in U2 by lia. replace (s_nv sf) with (s_nv sf - 1 + 1)%Z in V2 by lia.
  destruct (find_span_next _ _ _ u VU Hp U1 U2) as [su [Fu Su]]. destruct (find_span_next _ _ _ v VV Hq V1 V2) as [sv [Fv Sv]].
  replace (s_nu sf - 1 + 1)%Z with (s_nu sf) in Fu by lia. replace (s_nv sf - 1 + 1)%Z with (s_nv sf) in Fv by lia.
  assert (Bu : knot (s_ku sf) (s_du sf) <= u <= knot (s_ku sf) (s_nu sf - 1 + 1)) by (split; auto; apply Qclt_le_weak; auto).
  assert (Bv : knot (s_kv sf) (s_dv sf) <= v <= knot (s_kv sf) (s_nv sf - 1 + 1)) by (split; auto; apply Qclt_le_weak; auto).
  destruct (surface_derivatives_at sf u v su sv Vs Su Sv order ju jv) as [SKL [E [S1 W]]]; auto.
  exists SKL. split; auto. split; auto. intros k l Hk Hl. specialize (W k l Hk Hl). unfold atM in W. unfold entry. rewrite W.
  apply mpt_deriv; auto; lia.
Qed.

(* at the upper end of a clamped direction: division by zero *)
Lemma all_basis_funs_end p U u s : (1 <= p)%Z -> (p <= s)%Z -> (s + p < lenZ U)%Z -> knot U s = u -> knot U (s + 1) = u ->
  all_basis_funs s u p U = Err ZeroDivision.
Proof.
  intros Hp Hs HU E1 E2. unfold all_basis_funs.
  assert (Sh0 : shapeM (p + 1) (p + 1) (zerosM (0:Qc) (p + 1) (p + 1))) by (apply shape_zeros; lia).
  rewrite (wrM_ok _ (p + 1) (p + 1)) by (auto; lia). cbn [bind].
  set (N := updM (zerosM (0:Qc) (p + 1) (p + 1)) 0 0 1). assert (Sh : shapeM (p + 1) (p + 1) N) by (apply shapeM_updM; auto; lia).
  unfold forZ at 1. replace (Z.to_nat (p + 1 - 1)) with (S (Z.to_nat (p - 1))) by lia. cbn [for_n]. unfold tri_outer at 1.
  rewrite !rd_knot by lia. cbn [bind]. rewrite wrZ_ok by (rewrite lenZ_repeat; lia). cbn [bind]. rewrite wrZ_ok by (rewrite lenZ_repeat; lia). cbn [bind].
  unfold forZ. change (Z.to_nat (1 - 0)) with 1%nat. cbn [for_n]. unfold tri_inner.
  rewrite !(rdZ_ok 0) by (rewrite lenZ_upd, lenZ_repeat; lia). cbn [bind]. replace (0 + 1)%Z with 1%Z by lia. replace (1 - 0)%Z with 1%Z by lia.
  rewrite !atZ_upd_eq by (rewrite lenZ_repeat; lia). rewrite (wrM_ok _ (p + 1) (p + 1)) by (auto; lia). cbn [bind].
  set (N1 := updM N 1 0 _). assert (Sh1 : shapeM (p + 1) (p + 1) N1) by (apply shapeM_updM; auto; lia).
  rewrite !(rdM_ok 0 _ (p + 1) (p + 1)) by (auto; lia). cbn [bind].
  assert (Z0 : atM 0 N1 1 0 = 0).
  { unfold N1. rewrite (atM_updM_eq 0 _ (p + 1) (p + 1)) by (auto; lia). replace (s + 1 - 1)%Z with s by lia. rewrite E1, E2. ring. }
  rewrite Z0, divR_zero. reflexivity.
Qed.

Lemma surface_derivatives_end_u sf u v order ju jv :
  valid_surface sf -> (1 <= s_du sf)%Z -> u = knot (s_ku sf) (s_nu sf) -> knot (s_ku sf) (s_nu sf + 1) = u ->
  surface_derivatives (s_du sf) (s_dv sf) (s_ku sf) (s_kv sf) (concat (s_pts sf)) (s_nu sf) (s_nv sf) u v order ju jv = Err ZeroDivision.
Proof.
  intros [Sh [VU VV]] Hp U1 U2. pose proof VU as [Hp2 [LU _]]. unfold surface_derivatives.
  pose proof (find_span_next_end _ _ _ u VU Hp) as F. replace (s_nu sf - 1 + 1)%Z with (s_nu sf) in F by lia.
  replace (s_nu sf - 1 + 2)%Z with (s_nu sf + 1)%Z in F by lia. rewrite F by (rewrite U2; apply Qcle_refl). cbn [bind].
  unfold ders_basis_funs. rewrite (all_basis_funs_end (s_du sf) (s_ku sf) u (s_nu sf)); auto; try lia.
Qed.
