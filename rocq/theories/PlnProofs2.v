(* Intersections of two and three planes. *)
From Coq Require Import List ZArith Lia Bool QArith Qcanon.
From Verif Require Import Common ListLib QcLib ArrZ SumLib NurbsModel DerModel DerProofs2 KnotProofs2 PlnModel PlnSpec PlnProofs1.
Import ListNotations.
Local Open Scope Z_scope.
Local Open Scope Qc_scope.

Lemma v3_ext a b : vx a = vx b -> vy a = vy b -> vz a = vz b -> a = b.
Proof. destruct a, b. cbn. intros -> -> ->. auto. Qed.

Ltac crunch := cbv -[Qcplus Qcmult Qcminus Qcopp Qcdiv Q2Qc vx vy vz divR qlt fabs vdot].

Ltac cases3 i H :=
  let K := fresh in
  assert (K : (i = 0 \/ i = 1 \/ i = 2)%Z) by lia; destruct K as [->|[->| ->]].
Ltac cases5 i H :=
  let K := fresh in
  assert (K : (i = 0 \/ i = 1 \/ i = 2 \/ i = 3 \/ i = 4)%Z) by lia; destruct K as [->|[->|[->|[->| ->]]]].

Lemma shape3 r0 r1 r2 : shapeM 3 3 [lst r0; lst r1; lst r2].
Proof. split; [reflexivity|]. intros i Hi. cases3 i Hi; reflexivity. Qed.

Lemma shape5 n1 n2 : shapeM 5 5 (pp_matrix n1 n2).
Proof. split; [reflexivity|]. intros i Hi. cases5 i Hi; reflexivity. Qed.

Lemma lin3 r0 r1 r2 r x : (0 <= r < 3)%Z ->
  lin 3 [lst r0; lst r1; lst r2] r x = let w := atZ r0 [r0; r1; r2] r in vx w * x 0%Z + vy w * x 1%Z + vz w * x 2%Z.
Proof. intro Hr. cases3 r Hr; crunch; ring. Qed.

Lemma on_plane_dot o n p : on_plane o n p <-> vdot n p = vdot o n.
Proof.
  unfold on_plane, dot3, minus3, vdot. cbn [vx vy vz]. split; intro H.
  - replace (vx n * vx p + vy n * vy p + vz n * vz p) with
      (vx n * (vx p - vx o) + vy n * (vy p - vy o) + vz n * (vz p - vz o) + (vx o * vx n + vy o * vy n + vz o * vz n)) by ring.
    rewrite H. ring.
  - replace (vx n * (vx p - vx o) + vy n * (vy p - vy o) + vz n * (vz p - vz o)) with
      (vx n * vx p + vy n * vy p + vz n * vz p - (vx o * vx n + vy o * vy n + vz o * vz n)) by ring.
    rewrite H. ring.
Qed.

Definition fn3 (p : v3) (c : Z) : Qc := if (c =? 0)%Z then vx p else if (c =? 1)%Z then vy p else vz p.

Lemma sol3 p1 n1 p2 n2 p3 n3 x :
  sol 3 [lst n1; lst n2; lst n3] [vdot p1 n1; vdot p2 n2; vdot p3 n3] x <->
  (on_plane p1 n1 (mkv (x 0%Z) (x 1%Z) (x 2%Z)) /\ on_plane p2 n2 (mkv (x 0%Z) (x 1%Z) (x 2%Z)) /\
   on_plane p3 n3 (mkv (x 0%Z) (x 1%Z) (x 2%Z))).
Proof.
  rewrite !on_plane_dot. unfold sol. split.
  - intro H. pose proof (H 0%Z) as H0. pose proof (H 1%Z) as H1. pose proof (H 2%Z) as H2.
    rewrite lin3 in H0, H1, H2 by lia. cbn in H0, H1, H2. unfold atZ in *. cbn in *. unfold vdot at 1 3 5. cbn [vx vy vz].
    split; [apply H0; lia|]. split; [apply H1; lia|apply H2; lia].
  - intros [H0 [H1 H2]] r Hr. rewrite lin3 by lia. unfold vdot at 1 in H0. unfold vdot at 1 in H1. unfold vdot at 1 in H2.
    cbn [vx vy vz] in *. cases3 r Hr; unfold atZ; cbn; auto.
Qed.

Lemma ppp_sound junk p1 n1 p2 n2 p3 n3 x : ppp_points_and_normals junk p1 n1 p2 n2 p3 n3 = Ok x ->
  (on_plane p1 n1 x /\ on_plane p2 n2 x /\ on_plane p3 n3 x) /\
  (forall y, on_plane p1 n1 y -> on_plane p2 n2 y -> on_plane p3 n3 y -> y = x).
Proof.
  intro E. unfold ppp_points_and_normals in E. apply bindX in E. destruct E as [l [E1 E]].
  destruct (solve_ok 3 eq_refl _ [vdot p1 n1; vdot p2 n2; vdot p3 n3] (lst junk) _ (shape3 n1 n2 n3) eq_refl eq_refl E1) as [L [S1 S2]].
  unfold first3 in E. rewrite !(rdZ_ok 0) in E by lia. cbn [bind] in E. injection E as <-.
  split; [now apply sol3|].
  intros y Y1 Y2 Y3.
  assert (Q : forall c, (0 <= c < 3)%Z -> fn3 y c = atZ 0 l c).
  { apply S2. apply sol3. unfold fn3. cbn. destruct y; auto. }
  apply v3_ext; cbn [vx vy vz]; [exact (Q 0%Z ltac:(lia))|exact (Q 1%Z ltac:(lia))|exact (Q 2%Z ltac:(lia))].
Qed.

(* ---- when three planes have a finite answer ---- *)

Lemma fabs_nonneg x : 0 <= fabs x.
Proof. unfold fabs. destruct (qlt x 0) eqn:E; [apply qlt_true in E|apply qlt_false in E]; qlra. Qed.
Lemma fabs_zero x : fabs x = 0 <-> x = 0.
Proof.
  unfold fabs. destruct (qlt x 0) eqn:E; [apply qlt_true in E|apply qlt_false in E]; split; intro H; try qlra; auto.
Qed.
Lemma fabs_0 : fabs 0 = 0.
Proof. apply fabs_zero. auto. Qed.
Lemma fabs_gt_nz x y : fabs x < fabs y -> y <> 0.
Proof. intros H ->. rewrite fabs_0 in H. pose proof (fabs_nonneg x). qlra. Qed.

Lemma divR_ok_ a b : b <> 0 -> divR a b = Ok (a / b).
Proof. intro H. unfold divR. apply qeq_false in H. now rewrite H. Qed.
Lemma divR_zero_ a : divR a 0 = Err ZeroDivision.
Proof. unfold divR. now rewrite (proj2 (qeq_true 0 0) eq_refl). Qed.

Lemma max_row_0 r0 r1 r2 :
  find_max_row [lst r0; lst r1; lst r2] 0 3 =
  Ok (if qlt (fabs (vx r2)) (fabs (vx r1)) then if qlt (fabs (vx r1)) (fabs (vx r0)) then 0%Z else 1%Z else 2%Z).
Proof.
  crunch. destruct (qlt (fabs (vx r2)) (fabs (vx r1))); auto. destruct (qlt (fabs (vx r1)) (fabs (vx r0))); auto.
Qed.

Lemma max_row_1 r0 r1 r2 :
  find_max_row [lst r0; lst r1; lst r2] 1 3 = Ok (if qlt (fabs (vy r2)) (fabs (vy r1)) then 1%Z else 2%Z).
Proof. crunch. destruct (qlt (fabs (vy r2)) (fabs (vy r1))); auto. Qed.
Lemma max_row_2 r0 r1 r2 : find_max_row [lst r0; lst r1; lst r2] 2 3 = Ok 2%Z.
Proof. reflexivity. Qed.

(* row minus f times pivot *)
Definition rsub (f : Qc) (a b : v3) : v3 := mkv (vx a - f * vx b) (vy a - f * vy b) (vz a - f * vz b).
Definition rsub1 (f : Qc) (a b : v3) : v3 := mkv (vx a) (vy a - f * vy b) (vz a - f * vz b).

Lemma elim0 r0 r1 r2 p q r : vx r0 <> 0 ->
  forZ 1 3 ([lst r0; lst r1; lst r2], [p; q; r]) (elim_row 3 0) =
  Ok ([lst r0; lst (rsub (vx r1 / vx r0) r1 r0); lst (rsub (vx r2 / vx r0) r2 r0)],
      [p; q - vx r1 / vx r0 * p; r - vx r2 / vx r0 * p]).
Proof. intro H. crunch. rewrite divR_ok_ by auto. crunch. rewrite divR_ok_ by auto. reflexivity. Qed.
Lemma elim1 r0 r1 r2 p q r : vy r1 <> 0 ->
  forZ 2 3 ([lst r0; lst r1; lst r2], [p; q; r]) (elim_row 3 1) =
  Ok ([lst r0; lst r1; lst (rsub1 (vy r2 / vy r1) r2 r1)], [p; q; r - vy r2 / vy r1 * q]).
Proof. intro H. crunch. rewrite divR_ok_ by auto. reflexivity. Qed.
Lemma elim2 (st : mat * list Qc) : forZ 3 3 st (elim_row 3 2) = Ok st.
Proof. reflexivity. Qed.

Lemma back3 r0 r1 r2 p q r x0 x1 x2 : vx r0 <> 0 -> vy r1 <> 0 -> vz r2 <> 0 ->
  exists w x, forZ 0 3 ([p; q; r], [x0; x1; x2]) (back_row 3 [lst r0; lst r1; lst r2]) = Ok (w, x) /\ lenZ x = 3%Z.
Proof.
  intros H0 H1 H2. crunch. rewrite divR_ok_ by auto. crunch. rewrite divR_ok_ by auto. crunch. rewrite divR_ok_ by auto. crunch. eauto.
Qed.

Lemma swap01 r0 r1 r2 p q r : swap_rows 3 0 1 ([lst r0; lst r1; lst r2], [p; q; r]) = Ok ([lst r1; lst r0; lst r2], [q; p; r]).
Proof. reflexivity. Qed.
Lemma swap02 r0 r1 r2 p q r : swap_rows 3 0 2 ([lst r0; lst r1; lst r2], [p; q; r]) = Ok ([lst r2; lst r1; lst r0], [r; q; p]).
Proof. reflexivity. Qed.
Lemma swap12 r0 r1 r2 p q r : swap_rows 3 1 2 ([lst r0; lst r1; lst r2], [p; q; r]) = Ok ([lst r0; lst r2; lst r1], [p; r; q]).
Proof. reflexivity. Qed.

(* from the second column on *)
Lemma tail3 r0 r1 r2 p q r x0 x1 x2 : vx r0 <> 0 -> vy r1 * vz r2 - vz r1 * vy r2 <> 0 ->
  exists m1 v1, (do st <- elim_col 3 1 ([lst r0; lst r1; lst r2], [p; q; r]) ; elim_col 3 2 st) = Ok (m1, v1) /\
  exists w x, forZ 0 3 (v1, [x0; x1; x2]) (back_row 3 m1) = Ok (w, x) /\ lenZ x = 3%Z.
Proof.
  intros H0 Hd. unfold elim_col. cbn [fst snd]. rewrite max_row_1. cbn [bind].
  destruct (qlt (fabs (vy r2)) (fabs (vy r1))) eqn:E; [apply qlt_true in E|apply qlt_false in E].
  - pose proof (fabs_gt_nz _ _ E) as N. change (1 =? 1)%Z with true. cbv iota. cbn [bind].
    change (1 + 1)%Z with 2%Z. rewrite elim1 by auto. cbn [bind fst snd]. rewrite max_row_2. cbn [bind]. change (2 =? 2)%Z with true. cbv iota.
    cbn [bind]. change (2 + 1)%Z with 3%Z. rewrite elim2. do 2 eexists. split; [reflexivity|].
    apply back3; auto. cbn [vz rsub1]. intro K. apply Hd.
    replace (vy r1 * vz r2 - vz r1 * vy r2) with (vy r1 * (vz r2 - vy r2 / vy r1 * vz r1)) by (field; auto). rewrite K. ring.
  - assert (N : vy r2 <> 0).
    { intro K. rewrite K, fabs_0 in E. pose proof (fabs_nonneg (vy r1)). assert (Z1 : fabs (vy r1) = 0) by qlra.
      apply (proj1 (fabs_zero _)) in Z1. apply Hd. rewrite K, Z1. ring. }
    change (1 =? 2)%Z with false. cbv iota. rewrite swap12. cbn [bind].
    change (1 + 1)%Z with 2%Z. rewrite elim1 by auto. cbn [bind fst snd]. rewrite max_row_2. cbn [bind]. change (2 =? 2)%Z with true. cbv iota.
    cbn [bind]. change (2 + 1)%Z with 3%Z. rewrite elim2. do 2 eexists. split; [reflexivity|].
    apply back3; auto. cbn [vz rsub1]. intro K. apply Hd.
    replace (vy r1 * vz r2 - vz r1 * vy r2) with (- (vy r2 * (vz r1 - vy r1 / vy r2 * vz r2))) by (field; auto). rewrite K. ring.
Qed.

Lemma solve3_from st0 r0 r1 r2 p q r x0 x1 x2 : vx r0 <> 0 -> det3 r0 r1 r2 <> 0 ->
  elim_col 3 0 st0 = forZ 1 3 ([lst r0; lst r1; lst r2], [p; q; r]) (elim_row 3 0) ->
  exists x, solve_system 3 (fst st0) (snd st0) [x0; x1; x2] = Ok x /\ lenZ x = 3%Z.
Proof.
  intros H0 Hd E. rewrite elim0 in E by auto. unfold solve_system.
  destruct (tail3 r0 (rsub (vx r1 / vx r0) r1 r0) (rsub (vx r2 / vx r0) r2 r0)
     p (q - vx r1 / vx r0 * p) (r - vx r2 / vx r0 * p) x0 x1 x2 H0) as [m1 [v1 [E1 [w [x [E2 L]]]]]].
  { cbn [vy vz rsub]. intro K. apply Hd. unfold det3, dot3, cross3. cbn [vx vy vz].
    replace (vx r0 * (vy r1 * vz r2 - vz r1 * vy r2) + vy r0 * (vz r1 * vx r2 - vx r1 * vz r2) + vz r0 * (vx r1 * vy r2 - vy r1 * vx r2))
      with (vx r0 * ((vy r1 - vx r1 / vx r0 * vy r0) * (vz r2 - vx r2 / vx r0 * vz r0) -
        (vz r1 - vx r1 / vx r0 * vz r0) * (vy r2 - vx r2 / vx r0 * vy r0))) by (field; auto).
    rewrite K. ring. }
  exists x. split; auto.
  assert (E3 : forZ 0 3 (fst st0, snd st0) (elim_col 3) = Ok (m1, v1)).
  { rewrite <- surjective_pairing. unfold forZ. change (Z.to_nat (3 - 0)) with 3%nat. cbn [for_n]. rewrite E. cbn [bind].
    change (0 + 1)%Z with 1%Z. change (1 + 1)%Z with 2%Z. 
    destruct (elim_col 3 1 _) as [st1|]; cbn [bind] in E1 |- *; [|discriminate]. rewrite E1. reflexivity. }
  rewrite E3. cbn [bind]. rewrite E2. reflexivity.
Qed.

Lemma solve3_complete r0 r1 r2 p q r x0 x1 x2 : det3 r0 r1 r2 <> 0 -> vx r1 <> 0 \/ vx r2 <> 0 ->
  exists x, solve_system 3 [lst r0; lst r1; lst r2] [p; q; r] [x0; x1; x2] = Ok x /\ lenZ x = 3%Z.
Proof.
  intros Hd Hx. pose (st0 := ([lst r0; lst r1; lst r2], [p; q; r])).
  change (exists x, solve_system 3 (fst st0) (snd st0) [x0; x1; x2] = Ok x /\ lenZ x = 3%Z).
  pose proof (max_row_0 r0 r1 r2) as M.
  destruct (qlt (fabs (vx r2)) (fabs (vx r1))) eqn:E1; [apply qlt_true in E1|apply qlt_false in E1].
  - pose proof (fabs_gt_nz _ _ E1) as N1.
    destruct (qlt (fabs (vx r1)) (fabs (vx r0))) eqn:E2; [apply qlt_true in E2|apply qlt_false in E2].
    + apply (solve3_from st0 r0 r1 r2 p q r); auto. { apply (fabs_gt_nz _ _ E2). }
      unfold elim_col, st0. cbn [fst snd]. rewrite M. reflexivity.
    + apply (solve3_from st0 r1 r0 r2 q p r); auto.
      { intro K. apply Hd. transitivity (- det3 r1 r0 r2); [unfold det3, dot3, cross3; cbn [vx vy vz]; ring|rewrite K; ring]. }
      unfold elim_col, st0. cbn [fst snd]. rewrite M. cbn [bind]. change (0 =? 1)%Z with false. cbv iota. rewrite swap01. reflexivity.
  - assert (N2 : vx r2 <> 0).
    { intro K. rewrite K, fabs_0 in E1. pose proof (fabs_nonneg (vx r1)). assert (Z1 : fabs (vx r1) = 0) by qlra.
      apply (proj1 (fabs_zero _)) in Z1. destruct Hx; auto. }
    apply (solve3_from st0 r2 r1 r0 r q p); auto.
    { intro K. apply Hd. transitivity (- det3 r2 r1 r0); [unfold det3, dot3, cross3; cbn [vx vy vz]; ring|rewrite K; ring]. }
    unfold elim_col, st0. cbn [fst snd]. rewrite M. cbn [bind]. change (0 =? 2)%Z with false. cbv iota. rewrite swap02. reflexivity.
Qed.

Lemma ppp_complete junk p1 n1 p2 n2 p3 n3 : det3 n1 n2 n3 <> 0 -> vx n2 <> 0 \/ vx n3 <> 0 ->
  exists x, ppp_points_and_normals junk p1 n1 p2 n2 p3 n3 = Ok x.
Proof.
  intros Hd Hx. unfold ppp_points_and_normals.
  destruct (solve3_complete n1 n2 n3 (vdot p1 n1) (vdot p2 n2) (vdot p3 n3) (vx junk) (vy junk) (vz junk) Hd Hx) as [x [E L]].
  unfold lst at 4. rewrite E. cbn [bind]. unfold first3. rewrite !(rdZ_ok 0) by lia. cbn [bind]. eauto.
Qed.

Lemma forZ_first {A} lo hi (st : A) body e : (lo < hi)%Z -> body lo st = Err e -> forZ lo hi st body = Err e.
Proof.
  intros H E. unfold forZ. replace (Z.to_nat (hi - lo)) with (S (Z.to_nat (hi - lo - 1))) by lia. cbn [for_n]. rewrite E. auto.
Qed.
Lemma forZ_step {A} lo hi (st st' : A) body : (lo < hi)%Z -> body lo st = Ok st' -> forZ lo hi st body = forZ (lo + 1) hi st' body.
Proof.
  intros H E. unfold forZ. replace (Z.to_nat (hi - lo)) with (S (Z.to_nat (hi - (lo + 1)))) by lia. cbn [for_n]. rewrite E. auto.
Qed.

Lemma ppp_fails junk p1 n1 p2 n2 p3 n3 : vx n2 = 0 -> vx n3 = 0 ->
  ppp_points_and_normals junk p1 n1 p2 n2 p3 n3 = Err ZeroDivision.
Proof.
  intros H2 H3. unfold ppp_points_and_normals, solve_system.
  rewrite (forZ_first 0 3 _ (elim_col 3) ZeroDivision); [reflexivity|lia|].
  unfold elim_col. cbn [fst snd]. rewrite max_row_0, H2, H3, fabs_0.
  rewrite (proj2 (qlt_false 0 0)) by qlra. cbn [bind]. change (0 =? 2)%Z with false. cbv iota. rewrite swap02. cbn [bind].
  apply forZ_first; [lia|]. crunch. rewrite H3, divR_zero_. reflexivity.
Qed.

(* ---- two planes ---- *)

Definition fn5 (p : v3) (a b : Qc) (c : Z) : Qc :=
  if (c =? 0)%Z then vx p else if (c =? 1)%Z then vy p else if (c =? 2)%Z then vz p else if (c =? 3)%Z then a else b.

Lemma pp_sound junk o1 n1 o2 n2 l : lenZ junk = 5%Z -> pp_normal_intersect junk o1 n1 o2 n2 = Ok l ->
  on_plane o1 n1 (ln_p l) /\ on_plane o2 n2 (ln_p l) /\ ln_d l = cross3 n1 n2.
Proof.
  intros Lj E. unfold pp_normal_intersect in E. apply bindX in E. destruct E as [x [E1 E]].
  destruct (solve_ok 5 eq_refl _ (lst o1 ++ [vdot o1 n1; vdot o2 n2]) junk _ (shape5 n1 n2) eq_refl Lj E1) as [L [S1 _]].
  unfold first3 in E. rewrite !(rdZ_ok 0) in E by lia. cbn [bind] in E. injection E as <-. cbn [ln_p ln_d].
  rewrite !on_plane_dot. pose proof (S1 3%Z ltac:(lia)) as H3. pose proof (S1 4%Z ltac:(lia)) as H4.
  split; [|split; [|reflexivity]].
  - transitivity (lin 5 (pp_matrix n1 n2) 3 (atZ 0 x)); [|exact H3].
    generalize (atZ 0 x). intro f. clear. unfold vdot. crunch. cbn [vx vy vz]. ring.
  - transitivity (lin 5 (pp_matrix n1 n2) 4 (atZ 0 x)); [|exact H4].
    generalize (atZ 0 x). intro f. clear. unfold vdot. crunch. cbn [vx vy vz]. ring.
Qed.

Lemma elim5_0 n1 n2 (v : list Qc) : vx n1 = 0 -> vx n2 = 0 -> lenZ v = 5%Z ->
  elim_col 5 0 (pp_matrix n1 n2, v) = Err ZeroDivision.
Proof.
  intros H1 H2 Lv. unfold elim_col. cbn [fst snd].
  assert (M : find_max_row (pp_matrix n1 n2) 0 5 = Ok 4%Z).
  { crunch. rewrite H1, H2, fabs_0. rewrite (proj2 (qlt_false 0 0)) by qlra. reflexivity. }
  rewrite M. cbn [bind]. change (0 =? 4)%Z with false. cbv iota.
  destruct v as [|v0 [|v1 [|v2 [|v3' [|v4 [|]]]]]]; try (unfold lenZ in Lv; cbn [length] in Lv; exfalso; lia).
  replace (swap_rows 5 0 4 (pp_matrix n1 n2, [v0; v1; v2; v3'; v4])) with
    (Ok ([ [vx n2; vy n2; vz n2; 0; 0]; [0; 1 + 1; 0; vy n1; vy n2]; [0; 0; 1 + 1; vz n1; vz n2];
     [vx n1; vy n1; vz n1; 0; 0]; [1 + 1; 0; 0; vx n1; vx n2] ], [v4; v1; v2; v3'; v0])) by reflexivity.
  cbn [bind]. apply forZ_first; [lia|]. crunch. rewrite H2, divR_zero_. reflexivity.
Qed.

Lemma pp_fails_x junk o1 n1 o2 n2 : vx n1 = 0 -> vx n2 = 0 -> pp_normal_intersect junk o1 n1 o2 n2 = Err ZeroDivision.
Proof.
  intros H1 H2. unfold pp_normal_intersect, solve_system.
  rewrite (forZ_first 0 5 _ (elim_col 5) ZeroDivision); [reflexivity|lia|].
  apply elim5_0; auto.
Qed.
