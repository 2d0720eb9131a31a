(* The two curve derivative algorithms. *)
From Coq Require Import List ZArith Lia Bool QArith Qcanon Qcabs.
From Verif Require Import Common ListLib QcLib ArrZ SumLib DerivLib SplineTheory NurbsModel NurbsSpec NurbsProofs SurfModel DerModel DerSpec DerProofs1 DerProofs2 DerProofs3 DerProofs4.
Import ListNotations.
Local Open Scope Z_scope.
Local Open Scope Qc_scope.

Lemma v3_eq (a b : v3) : vx a = vx b -> vy a = vy b -> vz a = vz b -> a = b.
Proof. destruct a, b. cbn. intros -> -> ->. auto. Qed.

Definition vsum (m : nat) (b : Z -> Qc) (q : Z -> v3) : v3 :=
  mkv (sum_n m 0 (fun j => b j * vx (q j))) (sum_n m 0 (fun j => b j * vy (q j))) (sum_n m 0 (fun j => b j * vz (q j))).

Lemma vsum_S m b q : vsum (S m) b q = vadd (vsum m b q) (vscale (b (Z.of_nat m)) (q (Z.of_nat m))).
Proof. unfold vsum. rewrite !sum_n_last. reflexivity. Qed.
Lemma vsum_ext m b q b' q' : (forall j, (0 <= j < Z.of_nat m)%Z -> b j = b' j /\ q j = q' j) -> vsum m b q = vsum m b' q'.
Proof. intro H. unfold vsum. f_equal; apply sum_n_ext; intros i Hi; destruct (H i) as [-> ->]; auto; lia. Qed.

Lemma acc_row m k CK (body : Z -> list v3 -> res (list v3)) b q :
  (0 <= k < lenZ CK)%Z -> (0 <= m)%Z ->
  (forall j X, (0 <= j < m)%Z -> lenZ X = lenZ CK -> body j X = wrZ X k (vadd (atZ v30 X k) (vscale (b j) (q j)))) ->
  exists CK', forZ 0 m CK body = Ok CK' /\ lenZ CK' = lenZ CK /\
    atZ v30 CK' k = vadd (atZ v30 CK k) (vsum (Z.to_nat m) b q) /\
    (forall i, (0 <= i)%Z -> i <> k -> atZ v30 CK' i = atZ v30 CK i).
Proof.
  intros Hk Hm Hb.
  destruct (forZ_inv (fun j X => lenZ X = lenZ CK /\ atZ v30 X k = vadd (atZ v30 CK k) (vsum (Z.to_nat j) b q) /\
      (forall i, (0 <= i)%Z -> i <> k -> atZ v30 X i = atZ v30 CK i)) body 0 m CK) as [X [E I]]; auto.
  - split; auto. split; auto. unfold vsum. cbn. apply v3_eq; cbn; ring.
  - intros j X Hj [A1 [A2 A3]]. rewrite Hb by auto. rewrite wrZ_ok by lia. eexists. split; [reflexivity|].
    split; [rewrite lenZ_upd; auto|]. split.
    + rewrite atZ_upd_eq by lia. rewrite A2. replace (Z.to_nat (j + 1)) with (S (Z.to_nat j)) by lia. rewrite vsum_S.
      replace (Z.of_nat (Z.to_nat j)) with j by lia. apply v3_eq; cbn; ring.
    + intros i Hi Hn. rewrite atZ_upd_neq by lia. auto.
  - exists X. tauto.
Qed.

Lemma acc_rows m (len : Z -> Z) CK (body : Z -> Z -> list v3 -> res (list v3)) b q :
  (0 <= m <= lenZ CK)%Z -> (forall k, (0 <= k < m)%Z -> (0 <= len k)%Z) ->
  (forall k j X, (0 <= k < m)%Z -> (0 <= j < len k)%Z -> lenZ X = lenZ CK ->
     body k j X = wrZ X k (vadd (atZ v30 X k) (vscale (b k j) (q k j)))) ->
  exists CK', forZ 0 m CK (fun k X => forZ 0 (len k) X (body k)) = Ok CK' /\ lenZ CK' = lenZ CK /\
    (forall k, (0 <= k < m)%Z -> atZ v30 CK' k = vadd (atZ v30 CK k) (vsum (Z.to_nat (len k)) (b k) (q k))) /\
    (forall i, (m <= i)%Z -> atZ v30 CK' i = atZ v30 CK i).
Proof.
  intros Hm Hl Hb.
  destruct (forZ_inv (fun k X => lenZ X = lenZ CK /\
      (forall i, (0 <= i < k)%Z -> atZ v30 X i = vadd (atZ v30 CK i) (vsum (Z.to_nat (len i)) (b i) (q i))) /\
      (forall i, (k <= i)%Z -> atZ v30 X i = atZ v30 CK i)) (fun k X => forZ 0 (len k) X (body k)) 0 m CK) as [X [E I]]; try lia.
  - split; auto. split; auto. intros; lia.
  - intros k X Hk [A1 [A2 A3]].
    destruct (acc_row (len k) k X (body k) (b k) (q k)) as [X' [E [B1 [B2 B3]]]]; try lia; auto.
    { intros j Y Hj HY. apply Hb; auto; lia. }
    exists X'. split; auto. split; [lia|]. split.
    + intros i Hi. destruct (Z.eq_dec i k) as [->|].
      * rewrite B2, A3 by lia. auto.
      * rewrite B3 by lia. apply A2; lia.
    + intros i Hi. rewrite B3 by lia. apply A3; lia.
  - exists X. tauto.
Qed.

(* the derivatives of the unweighted curve, by coordinates *)
Definition dvec (U : list Qc) (s p : Z) (P : list pt) (k : Z) (t : Qc) : v3 :=
  let f g := dpiece (knot U) s (Z.to_nat p) (fun i => g (ctrl P i)) (Z.to_nat k) t in
  mkv (f px) (f py) (f pz).

Lemma ctrl_row3 P i : (0 <= i < lenZ P)%Z -> rdZ (map row3 P) i = Ok (row3 (ctrl P i)).
Proof.
  intro H. assert (Hl : lenZ (map row3 P) = lenZ P) by (unfold lenZ; now rewrite map_length).
  rewrite (rdZ_ok v30) by lia. f_equal. unfold ctrl, atZ. rewrite (nth_indep (map row3 P) v30 (row3 pt0)).
  - apply map_nth.
  - rewrite map_length. unfold lenZ in H. lia.
Qed.

Lemma alg1_ok n p U P u d CK per : valid_knots p n U -> lenZ P = (n + 1)%Z -> knot U p <= u <= knot U (n + 1) ->
  (0 <= d)%Z -> (Z.min d p < lenZ CK)%Z ->
  exists s CK', span_of p n U u s /\ find_span n p u U per = Ok s /\
    curve_derivs_alg1 n p U (map row3 P) u d CK per = Ok CK' /\ lenZ CK' = lenZ CK /\
    (forall k, (0 <= k <= Z.min d p)%Z -> atZ v30 CK' k = vadd (atZ v30 CK k) (dvec U s p P k u)) /\
    (forall i, (Z.min d p < i)%Z -> atZ v30 CK' i = atZ v30 CK i).
Proof.
  intros V HP B Hd HC. pose proof V as [Hp [HL _]]. unfold curve_derivs_alg1.
  destruct (find_span_any p n U u per V) as [s [Fs S]]; try apply B. rewrite Fs. cbn [bind]. pose proof S as [Hs _].
  destruct (ders_basis_funs_ok p (Z.min d p) s u U (zerosM (0:Qc) (Z.min d p + 1) (p + 1))) as [M [E [S1 V1]]]; auto; try lia.
  { apply (span_ndg p n U u); auto. } { apply shape_zeros; lia. }
  rewrite E. cbn [bind].
  destruct (acc_rows (Z.min d p + 1) (fun _ => (p + 1)%Z) CK
     (fun k j CK => do c <- rdZ CK k ; do nk <- rdM M k j ; do q <- rdZ (map row3 P) (s - p + j) ; wrZ CK k (vadd c (vscale nk q)))
     (fun k j => atM 0 M k j) (fun k j => row3 (ctrl P (s - p + j)))) as [CK' [E' [L' [R1 R2]]]]; try lia.
  { intros k j X Hk Hj HX. rewrite (rdZ_ok v30) by lia. cbn [bind]. rewrite (rdM_ok 0 _ (Z.min d p + 1) (p + 1)) by (auto; lia). cbn [bind].
    rewrite ctrl_row3 by lia. cbn [bind]. auto. }
  exists s, CK'. split; auto. split; auto. split; [exact E'|]. split; auto. split; [|intros i Hi; apply R2; lia].
  intros k Hk. rewrite R1 by lia. f_equal.
  assert (G : forall g : pt -> Qc, sum_n (Z.to_nat (p + 1)) 0 (fun j => atM 0 M k j * g (ctrl P (s - p + j)))
     = dpiece (knot U) s (Z.to_nat p) (fun i => g (ctrl P i)) (Z.to_nat k) u).
  { intro g. rewrite dpiece_basis. replace (s - Z.of_nat (Z.to_nat p))%Z with (0 + (s - p))%Z by lia. rewrite <- sum_n_shift.
    replace (Datatypes.S (Z.to_nat p)) with (Z.to_nat (p + 1)) by lia. apply sum_n_ext. intros i Hi. rewrite V1 by lia.
    replace (i + (s - p))%Z with (s - p + i)%Z by lia. auto. }
  unfold vsum, dvec. f_equal; apply G.
Qed.

(* ---- algorithm 2 ---- *)

Definition dcv (U : list Qc) (p : Z) (P : list pt) (k i : Z) : v3 :=
  let f g := dcoef (knot U) (Z.to_nat p) (Z.to_nat k) (fun i => g (ctrl P i)) i in mkv (f px) (f py) (f pz).

Lemma vdiv_ok a k : k <> 0 -> vdiv a k = Ok (mkv (vx a / k) (vy a / k) (vz a / k)).
Proof. intro H. unfold vdiv. now rewrite !divR_ok by auto. Qed.

Lemma deriv_cpts_ok n p U P u s d PK : valid_knots p n U -> lenZ P = (n + 1)%Z -> span_of p n U u s ->
  (0 <= d)%Z -> shapeM (d + 1) (p + 1) PK ->
  exists PK', curve_deriv_cpts p U P 3 d (s - p) s PK = Ok PK' /\ shapeM (d + 1) (p + 1) PK' /\
    forall k i, (0 <= k <= d)%Z -> (0 <= i <= p - k)%Z -> atM v30 PK' k i = dcv U p P k (s - p + k + i).
Proof.
  intros V HP S Hd Sh. pose proof V as [Hp [HL _]]. pose proof S as [Hs _]. pose proof (span_ndg p n U u s V S) as Nd. unfold curve_deriv_cpts.
  replace (s - (s - p))%Z with p by lia.
  destruct (forZ_inv (fun j X => shapeM (d + 1) (p + 1) X /\ forall i, (0 <= i < j)%Z -> atM v30 X 0 i = row3 (ctrl P (s - p + i)))
     (fun i PK => do q <- rdZ P (s - p + i) ; do v <- copy_row 3 q ; wrM PK 0 i v) 0 (p + 1) PK) as [P1 [E1 [S1 V1]]]; try lia.
  { split; auto. intros; lia. }
  { intros j X Hj [A1 A2]. rewrite (rdZ_ok pt0) by lia. cbn [bind]. change (copy_row 3 (atZ pt0 P (s - p + j))) with (Ok (row3 (ctrl P (s - p + j)))). cbn [bind].
    rewrite (wrM_ok _ (d + 1) (p + 1)) by (auto; lia). eexists. split; [reflexivity|]. split; [apply shapeM_updM; auto; lia|].
    intros i Hi. destruct (Z.eq_dec i j) as [->|].
    - apply (atM_updM_eq v30 _ (d + 1) (p + 1)); auto; lia.
    - rewrite (atM_updM_neq v30 _ (d + 1) (p + 1)) by (auto; lia). apply A2; lia. }
  rewrite E1. cbn [bind].
  destruct (forZ_inv (fun k X => shapeM (d + 1) (p + 1) X /\
      forall c i, (0 <= c < k)%Z -> (0 <= i <= p - c)%Z -> atM v30 X c i = dcv U p P c (s - p + c + i))
     (fun k PK => forZ 0 (p - k + 1) PK (deriv_cpt p U (s - p) k)) 1 (d + 1) P1) as [P2 [E2 [S2 V2]]]; try lia.
  { split; auto. intros c i Hc Hi. assert (c = 0%Z) by lia. subst c. rewrite V1 by lia. unfold dcv. change (Z.to_nat 0) with O. cbn [dcoef].
    replace (s - p + 0 + i)%Z with (s - p + i)%Z by lia. reflexivity. }
  { intros k X Hk [A1 A2].
    destruct (Z_le_dec 0 (p - k + 1)) as [Lk|Lk].
    2:{ exists X. split; [unfold forZ; replace (Z.to_nat (p - k + 1 - 0)) with O by lia; reflexivity|]. split; auto.
        intros c i Hc Hi. apply A2; lia. }
    destruct (forZ_inv (fun j Y => shapeM (d + 1) (p + 1) Y /\
        (forall c i, (0 <= c < k)%Z -> (0 <= i <= p - c)%Z -> atM v30 Y c i = dcv U p P c (s - p + c + i)) /\
        (forall i, (0 <= i < j)%Z -> atM v30 Y k i = dcv U p P k (s - p + k + i)))
       (deriv_cpt p U (s - p) k) 0 (p - k + 1) X) as [Y [EY [SY [VY WY]]]]; try lia.
    - split; auto. split; auto. intros; lia.
    - intros i Y Hi [B1 [B2 B3]]. unfold deriv_cpt.
      rewrite !(rdM_ok v30 _ (d + 1) (p + 1)) by (auto; lia). cbn [bind]. rewrite !B2 by lia.
      rewrite !(rdZ_ok 0) by lia. cbn [bind].
      assert (NZ : atZ 0 U (s - p + i + (p + 1)) - atZ 0 U (s - p + i + k) <> 0).
      { intro X0. apply (Nd (s - p + i + k)%Z (p - k + 1)%Z); try lia. unfold knot.
        replace (s - p + i + k + (p - k + 1))%Z with (s - p + i + (p + 1))%Z by lia. clear - X0. qlra. }
      rewrite vdiv_ok by auto. cbn [bind]. rewrite (wrM_ok _ (d + 1) (p + 1)) by (auto; lia).
      eexists. split; [reflexivity|]. split; [apply shapeM_updM; auto; lia|]. split.
      + intros c i' Hc Hi'. rewrite (atM_updM_neq v30 _ (d + 1) (p + 1)) by (auto; lia). apply B2; lia.
      + intros i' Hi'. destruct (Z.eq_dec i' i) as [->|].
        * rewrite (atM_updM_eq v30 _ (d + 1) (p + 1)) by (auto; lia).
          assert (G : forall g : pt -> Qc, zq (p - k + 1) * (dcoef (knot U) (Z.to_nat p) (Z.to_nat (k - 1)) (fun i => g (ctrl P i)) (s - p + (k - 1) + (i + 1))
                - dcoef (knot U) (Z.to_nat p) (Z.to_nat (k - 1)) (fun i => g (ctrl P i)) (s - p + (k - 1) + i))
              / (atZ 0 U (s - p + i + (p + 1)) - atZ 0 U (s - p + i + k)) = dcoef (knot U) (Z.to_nat p) (Z.to_nat k) (fun i => g (ctrl P i)) (s - p + k + i)).
          { intro g. replace (Z.to_nat k) with (Datatypes.S (Z.to_nat (k - 1))) by lia. cbn [dcoef]. unfold dstep, knot.
            replace (Z.of_nat (Z.to_nat p - Z.to_nat (k - 1))) with (p - k + 1)%Z by lia.
            replace (s - p + (k - 1) + (i + 1))%Z with (s - p + k + i)%Z by lia.
            replace (s - p + (k - 1) + i)%Z with (s - p + k + i - 1)%Z by lia.
            replace (s - p + k + i + (p - k + 1))%Z with (s - p + i + (p + 1))%Z by lia.
            replace (s - p + i + k)%Z with (s - p + k + i)%Z by lia. auto. }
          unfold dcv, vscale, vsub. cbn [vx vy vz]. f_equal; apply G.
        * rewrite (atM_updM_neq v30 _ (d + 1) (p + 1)) by (auto; lia). apply B3; lia.
    - exists Y. split; auto. split; auto. intros c i Hc Hi. destruct (Z.eq_dec c k) as [->|]; [apply WY; lia|apply VY; lia]. }
  exists P2. split; auto. split; auto. intros; apply V2; lia.
Qed.

Lemma alg2_ok n p U P u d CK PK per : valid_knots p n U -> lenZ P = (n + 1)%Z -> knot U p <= u <= knot U (n + 1) ->
  (0 <= d)%Z -> (Z.min p d < lenZ CK)%Z -> shapeM (d + 1) (p + 1) PK ->
  exists s CK', span_of p n U u s /\ find_span n p u U per = Ok s /\
    curve_derivs_alg2 n p U P u d CK PK per = Ok CK' /\ lenZ CK' = lenZ CK /\
    (forall k, (0 <= k <= Z.min p d)%Z -> atZ v30 CK' k = vadd (atZ v30 CK k) (dvec U s p P k u)) /\
    (forall i, (Z.min p d < i)%Z -> atZ v30 CK' i = atZ v30 CK i).
Proof.
  intros V HP B Hd HC Sh. pose proof V as [Hp [HL _]]. unfold curve_derivs_alg2.
  destruct (find_span_any p n U u per V) as [s [Fs S]]; try apply B. rewrite Fs. cbn [bind]. pose proof S as [Hs _].
  destruct (all_basis_funs_ok p s u U) as [N [E T]]; auto; try lia. { apply (span_ndg p n U u); auto. }
  rewrite E. cbn [bind]. destruct (deriv_cpts_ok n p U P u s d PK) as [PK' [E2 [S2 V2]]]; auto. rewrite E2. cbn [bind].
  destruct (acc_rows (Z.min p d + 1) (fun k => (p - k + 1)%Z) CK
     (fun k j CK => do c <- rdZ CK k ; do nk <- rdM N j (p - k) ; do q <- rdM PK' k j ; wrZ CK k (vadd c (vscale nk q)))
     (fun k j => Bs (knot U) s u (Z.to_nat (p - k)) (s - (p - k) + j)) (fun k j => dcv U p P k (s - p + k + j))) as [CK' [E' [L' [R1 R2]]]]; try lia.
  { intros k j X Hk Hj HX. rewrite (rdZ_ok v30) by lia. cbn [bind]. rewrite (ndu_b (knot U) s u p N T) by lia. cbn [bind].
    rewrite (rdM_ok v30 _ (d + 1) (p + 1)) by (auto; lia). cbn [bind]. rewrite V2 by lia. auto. }
  exists s, CK'. split; auto. split; auto. split; [exact E'|]. split; auto. split; [|intros i Hi; apply R2; lia].
  intros k Hk. rewrite R1 by lia. f_equal.
  assert (G : forall g : pt -> Qc, sum_n (Z.to_nat (p - k + 1)) 0 (fun j => Bs (knot U) s u (Z.to_nat (p - k)) (s - (p - k) + j)
       * dcoef (knot U) (Z.to_nat p) (Z.to_nat k) (fun i => g (ctrl P i)) (s - p + k + j))
     = dpiece (knot U) s (Z.to_nat p) (fun i => g (ctrl P i)) (Z.to_nat k) u).
  { intro g. unfold dpiece. destruct (Nat.leb_spec (Z.to_nat k) (Z.to_nat p)); [|lia]. unfold piece.
    replace (Z.to_nat p - Z.to_nat k)%nat with (Z.to_nat (p - k)) by lia.
    replace (s - Z.of_nat (Z.to_nat (p - k)))%Z with (0 + (s - (p - k)))%Z by lia. rewrite <- sum_n_shift.
    replace (Datatypes.S (Z.to_nat (p - k))) with (Z.to_nat (p - k + 1)) by lia. apply sum_n_ext. intros i Hi.
    replace (i + (s - (p - k)))%Z with (s - (p - k) + i)%Z by lia. replace (s - p + k + i)%Z with (s - (p - k) + i)%Z by lia. auto. }
  unfold vsum, dvec, dcv. cbn [vx vy vz]. f_equal; apply G.
Qed.

(* ---- the methods ---- *)

Lemma lenZ_map {A B} (f : A -> B) l : lenZ (map f l) = lenZ l.
Proof. unfold lenZ. now rewrite map_length. Qed.

Definition curve_ok (c : curve) (t : Qc) : Prop := valid_curve c /\ in_domain c t.

Lemma valid_unit c : valid_curve c -> valid_curve (unit_weights c).
Proof. unfold valid_curve, last_ix. cbn. now rewrite (lenZ_map unit_pt). Qed.

Lemma ctrl_unit P i : (0 <= i < lenZ P)%Z -> ctrl (map unit_pt P) i = unit_pt (ctrl P i).
Proof.
  intro H. unfold ctrl, atZ. rewrite (nth_indep (map unit_pt P) pt0 (unit_pt pt0)).
  - apply map_nth.
  - rewrite map_length. unfold lenZ in H. lia.
Qed.

Lemma rational_unit p n U P x s g : valid_knots p n U -> lenZ P = (n + 1)%Z -> span_of p n U x s ->
  (forall q, g (unit_pt q) = g q) ->
  rational U n p (map unit_pt P) g x = piece (knot U) s (Z.to_nat p) (fun i => g (ctrl P i)) x.
Proof.
  intros V HP S Hg. unfold rational. pose proof V as [Hp _]. pose proof S as [Hs _].
  assert (D : sum_to n (fun i => cox_de_boor U n (Z.to_nat p) i x * pw (ctrl (map unit_pt P) i)) = 1).
  { rewrite (cdb_sum p n U x s (fun i => pw (ctrl (map unit_pt P) i))) by auto.
    rewrite (sum_n_ext _ _ _ (fun i => Bs (knot U) s x (Z.to_nat p) i)).
    - replace (s - p)%Z with (s - Z.of_nat (Z.to_nat p))%Z by lia. apply Bs_sum. apply (span_ndg p n U x); auto.
    - intros i Hi. rewrite ctrl_unit by lia. cbn. ring. }
  rewrite D. replace (sum_to n (fun i => cox_de_boor U n (Z.to_nat p) i x * pw (ctrl (map unit_pt P) i) * g (ctrl (map unit_pt P) i)))
    with (sum_to n (fun i => cox_de_boor U n (Z.to_nat p) i x * g (ctrl P i))).
  - rewrite (cdb_sum p n U x s (fun i => g (ctrl P i))) by auto. unfold piece. replace (s - Z.of_nat (Z.to_nat p))%Z with (s - p)%Z by lia. field.
    intro X; discriminate X.
  - apply sum_n_ext. intros i Hi. rewrite ctrl_unit by lia. rewrite Hg. cbn. ring.
Qed.

Lemma dvec_deriv c t s k : curve_ok c t -> (0 <= k)%Z -> span_of (c_deg c) (last_ix c) (c_knots c) t s ->
  curve_deriv (unit_weights c) (Z.to_nat k) t (dvec (c_knots c) s (c_deg c) (c_pts c) k t).
Proof.
  intros [V B] Hk S. unfold curve_deriv. cbn [c_deg c_knots c_pts unit_weights].
  assert (L : last_ix (unit_weights c) = last_ix c) by (unfold last_ix; cbn; now rewrite (lenZ_map unit_pt)). rewrite L.
  assert (HP : lenZ (c_pts c) = (last_ix c + 1)%Z) by (unfold last_ix; lia).
  unfold dvec. cbn [vx vy vz].
  split; [|split]; apply (dpiece_deriv (c_deg c) (last_ix c) (c_knots c) t s); auto; intros x Sx; apply rational_unit; auto.
Qed.

Lemma curve_deriv_unique c t k v w : curve_ok c t -> curve_deriv c k t v -> curve_deriv c k t w -> v = w.
Proof.
  intros [V B] [X1 [X2 X3]] [Y1 [Y2 Y3]].
  pose proof (span_at_thick _ _ _ t V B) as Th. pose proof (span_at_refl (c_deg c) (last_ix c) (c_knots c) t B) as R.
  apply v3_eq; eapply (nth_unique _ Th); eauto; auto.
Qed.

Lemma atZ_zeros m i : atZ v30 (repeat v30 m) i = v30.
Proof. unfold atZ. destruct (Nat.lt_ge_cases (Z.to_nat i) m); [now rewrite nth_rep|]. apply nth_overflow. rewrite repeat_length. lia. Qed.

Lemma vadd_0 v : vadd v30 v = v.
Proof. apply v3_eq; cbn; ring. Qed.

Lemma dvec_zero U s p P k t : (0 <= p < k)%Z -> dvec U s p P k t = v30.
Proof. intro H. unfold dvec, dpiece. destruct (Nat.leb_spec (Z.to_nat k) (Z.to_nat p)); [lia|]. reflexivity. Qed.

(* both methods: row k is the k-th derivative of the unweighted curve *)
Lemma cder1_ok c t d m : curve_ok c t -> (0 <= d)%Z -> (Z.min d (c_deg c) < Z.of_nat m)%Z -> (Z.of_nat m <= d + 1)%Z ->
  exists R, cderivatives1 c t d (repeat v30 m) = Ok R /\ lenZ R = Z.of_nat m /\
    forall k, (0 <= k < Z.of_nat m)%Z -> curve_deriv (unit_weights c) (Z.to_nat k) t (atZ v30 R k).
Proof.
  intros [V B] Hd Hm Hm2. pose proof V as [Hp _]. unfold cderivatives1.
  destruct (alg1_ok (last_ix c) (c_deg c) (c_knots c) (c_pts c) t d (repeat v30 m) (c_per c)) as [s [R [S [F [E [L [K1 K2]]]]]]]; auto.
  { unfold last_ix; lia. } { rewrite lenZ_repeat. lia. }
  exists R. rewrite lenZ_repeat in L. split; auto. split; [lia|]. intros k Hk.
  replace (atZ v30 R k) with (dvec (c_knots c) s (c_deg c) (c_pts c) k t); [apply dvec_deriv; auto; try lia; split; auto|].
  destruct (Z_le_dec k (Z.min d (c_deg c))).
  - rewrite K1 by lia. rewrite atZ_zeros, vadd_0. auto.
  - rewrite K2 by lia. rewrite atZ_zeros. apply dvec_zero. lia.
Qed.
Lemma cder2_ok c t d m : curve_ok c t -> (0 <= d)%Z -> (Z.min d (c_deg c) < Z.of_nat m)%Z -> (Z.of_nat m <= d + 1)%Z ->
  exists R, cderivatives2 c t d (repeat v30 m) = Ok R /\ lenZ R = Z.of_nat m /\
    forall k, (0 <= k < Z.of_nat m)%Z -> curve_deriv (unit_weights c) (Z.to_nat k) t (atZ v30 R k).
Proof.
  intros [V B] Hd Hm Hm2. pose proof V as [Hp _]. unfold cderivatives2.
  destruct (alg2_ok (last_ix c) (c_deg c) (c_knots c) (c_pts c) t d (repeat v30 m) (zerosM v30 (d + 1) (c_deg c + 1)) (c_per c)) as [s [R [S [F [E [L [K1 K2]]]]]]]; auto.
  { unfold last_ix; lia. } { rewrite lenZ_repeat. lia. } { apply shape_zeros; lia. }
  exists R. rewrite lenZ_repeat in L. split; auto. split; [lia|]. intros k Hk.
  replace (atZ v30 R k) with (dvec (c_knots c) s (c_deg c) (c_pts c) k t); [apply dvec_deriv; auto; try lia; split; auto|].
  destruct (Z_le_dec k (Z.min (c_deg c) d)).
  - rewrite K1 by lia. rewrite atZ_zeros, vadd_0. auto.
  - rewrite K2 by lia. rewrite atZ_zeros. apply dvec_zero. lia.
Qed.
