(* The linear solver only fails with a zero pivot; two planes whose normals
   share a zero coordinate. *)
From Coq Require Import List ZArith Lia Bool QArith Qcanon.
From Verif Require Import Common ListLib QcLib ArrZ SumLib NurbsModel DerModel DerProofs2 KnotProofs2 PlnModel PlnSpec PlnProofs1 PlnProofs2.
Import ListNotations.
Local Open Scope Z_scope.
Local Open Scope Qc_scope.

(* a computation that ends with a value satisfying P or with a division by zero *)
Definition zsafe {A} (P : A -> Prop) (r : res A) : Prop :=
  match r with Ok a => P a | Err e => e = ZeroDivision end.

Lemma zsafe_bind {A B} (P : A -> Prop) (Q : B -> Prop) r k :
  zsafe P r -> (forall a, P a -> zsafe Q (k a)) -> zsafe Q (bind r k).
Proof. destruct r; cbn; auto. Qed.
Lemma zsafe_divR a b : zsafe (fun _ => True) (divR a b).
Proof. unfold divR. destruct (qeq b 0); cbn; auto. Qed.
Lemma zsafe_for_n {A} (Inv : Z -> A -> Prop) body : forall count lo st, Inv lo st ->
  (forall i st, (lo <= i < lo + Z.of_nat count)%Z -> Inv i st -> zsafe (Inv (i + 1)%Z) (body i st)) ->
  zsafe (Inv (lo + Z.of_nat count)%Z) (for_n count lo st body).
Proof.
  induction count as [|c IH]; intros lo st I H; cbn [for_n].
  - cbn [zsafe]. change (Z.of_nat 0) with 0%Z. now rewrite Z.add_0_r.
  - apply (zsafe_bind (Inv (lo + 1)%Z)). { apply H; auto. lia. }
    intros a Ha. replace (lo + Z.of_nat (S c))%Z with (lo + 1 + Z.of_nat c)%Z by lia. apply IH; auto.
    intros i s Hi. apply H. lia.
Qed.
Lemma zsafe_forZ {A} (Inv : Z -> A -> Prop) body lo hi st : (lo <= hi)%Z -> Inv lo st ->
  (forall i st, (lo <= i < hi)%Z -> Inv i st -> zsafe (Inv (i + 1)%Z) (body i st)) ->
  zsafe (Inv hi) (forZ lo hi st body).
Proof.
  intros L I H. unfold forZ. pose proof (zsafe_for_n Inv body (Z.to_nat (hi - lo)) lo st I) as X.
  replace (lo + Z.of_nat (Z.to_nat (hi - lo)))%Z with hi in X by lia. apply X. intros i s Hi. apply H. lia.
Qed.

Section N.
Variable n : Z.
Hypothesis Hn : (0 < n)%Z.

Lemma zsafe_rdM (m : mat) i j : shapeM n n m -> (0 <= i < n)%Z -> (0 <= j < n)%Z -> zsafe (fun x => x = atM 0 m i j) (rdM m i j).
Proof. intros. rewrite (rdM_ok 0 m n n) by auto. reflexivity. Qed.
Lemma zsafe_wrM (m : mat) i j x : shapeM n n m -> (0 <= i < n)%Z -> (0 <= j < n)%Z -> zsafe (fun m' => shapeM n n m') (wrM m i j x).
Proof. intros. rewrite (wrM_ok m n n) by auto. cbn. apply shapeM_updM; auto. Qed.
Lemma zsafe_rdZ (v : list Qc) i : lenZ v = n -> (0 <= i < n)%Z -> zsafe (fun _ => True) (rdZ v i).
Proof. intros. rewrite (rdZ_ok 0) by lia. exact I. Qed.
Lemma zsafe_wrZ (v : list Qc) i x : lenZ v = n -> (0 <= i < n)%Z -> zsafe (fun v' => lenZ v' = n) (wrZ v i x).
Proof. intros. rewrite wrZ_ok by lia. cbn. now rewrite lenZ_upd. Qed.

Lemma zsafe_max_row m i : shapeM n n m -> (0 <= i < n)%Z -> forall f l r, (0 <= l)%Z -> (l <= r < n)%Z -> (r - l < Z.of_nat f)%Z ->
  zsafe (fun q => (l <= q <= r)%Z) (max_row_loop f m i l r).
Proof.
  intros Sm Hi. induction f as [|f IH]; intros l r Hl Hr Hf; [lia|]. cbn [max_row_loop].
  destruct (Z.ltb_spec l r).
  - assert (l <= (l + r) / 2 < r)%Z by (split; [apply Z.div_le_lower_bound|apply Z.div_lt_upper_bound]; lia).
    apply (zsafe_bind (fun _ => True)). { rewrite (rdM_ok 0 m n n) by (auto; lia). exact I. }
    intros a _. apply (zsafe_bind (fun _ => True)). { rewrite (rdM_ok 0 m n n) by (auto; lia). exact I. }
    intros b _. destruct (qlt (fabs b) (fabs a)).
    + pose proof (IH l ((l + r) / 2)%Z) as X. destruct (max_row_loop f m i l ((l + r) / 2)); cbn in *; [|apply X; lia].
      assert (l <= a0 <= (l + r) / 2)%Z by (apply X; lia). lia.
    + pose proof (IH ((l + r) / 2 + 1)%Z r) as X. destruct (max_row_loop f m i ((l + r) / 2 + 1) r); cbn in *; [|apply X; lia].
      assert ((l + r) / 2 + 1 <= a0 <= r)%Z by (apply X; lia). lia.
  - cbn. lia.
Qed.

Definition good (st : mat * list Qc) : Prop := shapeM n n (fst st) /\ lenZ (snd st) = n.

Lemma zsafe_swap i r st : (0 <= i < n)%Z -> (0 <= r < n)%Z -> good st -> zsafe good (swap_rows n i r st).
Proof.
  intros Hi Hr [Sm Lv]. destruct st as [m v]. cbn [fst snd] in *. unfold swap_rows.
  apply (zsafe_bind (fun m : mat => shapeM n n m)).
  { apply (zsafe_forZ (fun _ (m : mat) => shapeM n n m)); auto; [lia|]. intros h M Hh SM.
    apply (zsafe_bind (fun _ => True)); [rewrite (rdM_ok 0 M n n) by (auto; lia); exact I|intros t1 _].
    apply (zsafe_bind (fun _ => True)); [rewrite (rdM_ok 0 M n n) by (auto; lia); exact I|intros t2 _].
    apply (zsafe_bind (fun m : mat => shapeM n n m)); [apply zsafe_wrM; auto; lia|]. intros M1 S1. apply zsafe_wrM; auto. }
  intros m' Sm'.
  apply (zsafe_bind (fun _ => True)); [apply zsafe_rdZ; auto|intros t1 _].
  apply (zsafe_bind (fun _ => True)); [apply zsafe_rdZ; auto|intros t2 _].
  apply (zsafe_bind (fun v : list Qc => lenZ v = n)); [apply zsafe_wrZ; auto|intros v1 L1].
  apply (zsafe_bind (fun v : list Qc => lenZ v = n)); [apply zsafe_wrZ; auto|intros v2 L2].
  cbn. split; auto.
Qed.

Lemma zsafe_elim_row i j st : (0 <= i < n)%Z -> (0 <= j < n)%Z -> good st -> zsafe good (elim_row n i j st).
Proof.
  intros Hi Hj [Sm Lv]. destruct st as [m v]. cbn [fst snd] in *. unfold elim_row.
  apply (zsafe_bind (fun _ => True)); [rewrite (rdM_ok 0 m n n) by auto; exact I|intros a _].
  apply (zsafe_bind (fun _ => True)); [rewrite (rdM_ok 0 m n n) by auto; exact I|intros b _].
  apply (zsafe_bind (fun _ => True)); [apply zsafe_divR|intros f _].
  apply (zsafe_bind (fun m : mat => shapeM n n m)).
  { apply (zsafe_forZ (fun _ (m : mat) => shapeM n n m)); auto; [lia|]. intros h M Hh SM.
    apply (zsafe_bind (fun _ => True)); [rewrite (rdM_ok 0 M n n) by (auto; lia); exact I|intros t1 _].
    apply (zsafe_bind (fun _ => True)); [rewrite (rdM_ok 0 M n n) by (auto; lia); exact I|intros t2 _].
    apply zsafe_wrM; auto; lia. }
  intros m' Sm'.
  apply (zsafe_bind (fun _ => True)); [apply zsafe_rdZ; auto|intros t1 _].
  apply (zsafe_bind (fun _ => True)); [apply zsafe_rdZ; auto|intros t2 _].
  apply (zsafe_bind (fun v : list Qc => lenZ v = n)); [apply zsafe_wrZ; auto|intros v1 L1].
  cbn. split; auto.
Qed.

Lemma zsafe_elim_col i st : (0 <= i < n)%Z -> good st -> zsafe good (elim_col n i st).
Proof.
  intros Hi G. unfold elim_col. destruct G as [Sm Lv].
  apply (zsafe_bind (fun q => (i <= q <= n - 1)%Z)); [apply zsafe_max_row; auto; lia|intros r Hr].
  apply (zsafe_bind good). { destruct (i =? r)%Z; [cbn; split; auto|]. apply zsafe_swap; [auto|lia|split; auto]. }
  intros st' G'. apply (zsafe_forZ (fun _ => good)); auto; [lia|]. intros j s Hj Gs. apply zsafe_elim_row; auto. lia.
Qed.

Lemma zsafe_solve m v x0 : shapeM n n m -> lenZ v = n -> lenZ x0 = n -> zsafe (fun x => lenZ x = n) (solve_system n m v x0).
Proof.
  intros Sm Lv Lx. unfold solve_system. apply (zsafe_bind good).
  { apply (zsafe_forZ (fun _ => good)); [lia|split; auto|]. intros i st Hi. apply zsafe_elim_col. auto. }
  intros [m1 v1] [S1 L1]. cbn [fst snd] in *. apply (zsafe_bind (fun st => lenZ (fst st) = n /\ lenZ (snd st) = n)).
  { apply (zsafe_forZ (fun _ (st : list Qc * list Qc) => lenZ (fst st) = n /\ lenZ (snd st) = n)); [lia|auto|].
    intros i [u z] Hi [Lu Lz]. cbn [fst snd] in *. unfold back_row.
    apply (zsafe_bind (fun _ => True)); [apply zsafe_rdZ; auto; lia|intros a _].
    apply (zsafe_bind (fun _ => True)); [rewrite (rdM_ok 0 m1 n n) by (auto; lia); exact I|intros b _].
    apply (zsafe_bind (fun _ => True)); [apply zsafe_divR|intros q _].
    apply (zsafe_bind (fun v : list Qc => lenZ v = n)); [apply zsafe_wrZ; auto; lia|intros x' Lx'].
    apply (zsafe_bind (fun v : list Qc => lenZ v = n)).
    { apply (zsafe_forZ (fun _ (v : list Qc) => lenZ v = n)); auto; [lia|]. intros j w Hj Lw.
      apply (zsafe_bind (fun _ => True)); [apply zsafe_rdZ; auto; lia|intros t1 _].
      apply (zsafe_bind (fun _ => True)); [rewrite (rdM_ok 0 m1 n n) by (auto; lia); exact I|intros t2 _].
      apply (zsafe_bind (fun _ => True)); [apply zsafe_rdZ; auto; lia|intros t3 _].
      apply zsafe_wrZ; auto; lia. }
    intros v' Lv'. cbn. auto. }
  intros [w x] [_ L]. cbn. auto.
Qed.
End N.

Lemma zsafe_inv {A} (P : A -> Prop) r : zsafe P r -> (exists a, r = Ok a /\ P a) \/ r = Err ZeroDivision.
Proof. destruct r; cbn; intro H; [left; eauto|right; now subst]. Qed.

Lemma first3_ok x n : (3 <= n)%Z -> lenZ x = n -> exists p, first3 x = Ok p.
Proof. intros H L. unfold first3. rewrite !(rdZ_ok 0) by lia. cbn. eauto. Qed.

Lemma ppp_total junk p1 n1 p2 n2 p3 n3 :
  (exists x, ppp_points_and_normals junk p1 n1 p2 n2 p3 n3 = Ok x) \/
  ppp_points_and_normals junk p1 n1 p2 n2 p3 n3 = Err ZeroDivision.
Proof.
  unfold ppp_points_and_normals.
  destruct (zsafe_inv _ _ (zsafe_solve 3 eq_refl _ [vdot p1 n1; vdot p2 n2; vdot p3 n3] (lst junk) (shape3 n1 n2 n3) eq_refl eq_refl)) as [[x [E L]]|E];
    rewrite E; cbn [bind]; auto. left. apply (first3_ok x 3); auto. lia.
Qed.

Lemma pp_total junk o1 n1 o2 n2 : lenZ junk = 5%Z ->
  (exists l, pp_normal_intersect junk o1 n1 o2 n2 = Ok l) \/ pp_normal_intersect junk o1 n1 o2 n2 = Err ZeroDivision.
Proof.
  intro Lj. unfold pp_normal_intersect.
  destruct (zsafe_inv _ _ (zsafe_solve 5 eq_refl _ (lst o1 ++ [vdot o1 n1; vdot o2 n2]) junk (shape5 n1 n2) eq_refl Lj)) as [[x [E L]]|E];
    rewrite E; cbn [bind]; auto. left. destruct (first3_ok x 5) as [p Ep]; auto; [lia|]. rewrite Ep. cbn. eauto.
Qed.

(* ---- a column that is zero outside the diagonal ---- *)

Definition colz (c : Z) (m : mat) : Prop :=
  (forall q, (0 <= q < 5)%Z -> q <> c -> atM 0 m q c = 0) /\ (forall k, (0 <= k < c)%Z -> atM 0 m c k = 0).

Lemma max_row_34 m i : shapeM 5 5 m -> (i = 0 \/ i = 1)%Z -> atM 0 m 2 i = 0 ->
  exists r, find_max_row m i 5 = Ok r /\ (r = 3 \/ r = 4)%Z.
Proof.
  intros Sm Hi H. unfold find_max_row. change (S (Z.to_nat 5)) with 6%nat.
  assert (X : max_row_loop 6 m i i 4 = max_row_loop 5 m i 3 4).
  { cbn [max_row_loop]. destruct (Z.ltb_spec i 4); [|lia]. replace ((i + 4) / 2)%Z with 2%Z by (destruct Hi as [->| ->]; reflexivity).
    rewrite (rdM_ok 0 m 5 5) by (auto; lia). cbn [bind]. rewrite (rdM_ok 0 m 5 5) by (auto; lia). cbn [bind].
    rewrite H, fabs_0. rewrite (proj2 (qlt_false _ _)) by apply fabs_nonneg. reflexivity. }
  change (5 - 1)%Z with 4%Z. rewrite X. cbn [max_row_loop]. change (3 <? 4)%Z with true. cbv iota.
  change ((3 + 4) / 2)%Z with 3%Z. change (3 + 1)%Z with 4%Z. rewrite (rdM_ok 0 m 5 5) by (auto; lia). cbn [bind]. rewrite (rdM_ok 0 m 5 5) by (auto; lia). cbn [bind].
  destruct (qlt _ _); cbn; eauto.
Qed.

Lemma max_row_zero m i : shapeM 5 5 m -> (0 <= i < 3)%Z -> (forall q, (i < q < 5)%Z -> atM 0 m q i = 0) -> find_max_row m i 5 = Ok 4%Z.
Proof.
  intros Sm Hi H. unfold find_max_row. change (S (Z.to_nat 5)) with 6%nat. change (5 - 1)%Z with 4%Z.
  assert (Y : max_row_loop 5 m i 3 4 = Ok 4%Z).
  { cbn [max_row_loop]. change (3 <? 4)%Z with true. cbv iota. change ((3 + 4) / 2)%Z with 3%Z. change (3 + 1)%Z with 4%Z.
    rewrite (rdM_ok 0 m 5 5) by (auto; lia). cbn [bind]. rewrite (rdM_ok 0 m 5 5) by (auto; lia). cbn [bind].
    rewrite !H by lia. rewrite (proj2 (qlt_false _ _)) by qlra. reflexivity. }
  cbn [max_row_loop] in Y |- *. destruct (Z.ltb_spec i 4); [|lia]. rewrite (rdM_ok 0 m 5 5) by (auto; cases3 i Hi; cbn; lia). cbn [bind].
  rewrite (rdM_ok 0 m 5 5) by (auto; cases3 i Hi; cbn; lia). cbn [bind].
  rewrite !H by (cases3 i Hi; cbn; lia).
  rewrite (proj2 (qlt_false _ _)) by qlra.
  assert (K : ((i + 4) / 2 + 1 = 3 \/ (i + 4) / 2 + 1 = 4)%Z) by (cases3 i Hi; cbn; lia).
  destruct K as [->| ->]; [exact Y|reflexivity].
Qed.

Lemma colz_step c i st st' : (0 <= i < c)%Z -> (c <= 2)%Z -> good 5 st -> colz c (fst st) -> atM 0 (fst st) 2 i = 0 ->
  elim_col 5 i st = Ok st' -> good 5 st' /\ colz c (fst st') /\ (c = 2%Z -> True).
Proof.
  intros Hi Hc [Sm Lv] [C1 C2] H2 E. destruct st as [m v], st' as [m' v']. cbn [fst snd] in *.
  destruct (max_row_34 m i Sm) as [r [Er Hr]]; auto; [lia|].
  unfold elim_col in E. cbn [fst snd] in E. rewrite Er in E. cbn [bind] in E. destruct (Z.eqb_spec i r); [lia|].
  apply bindX in E. destruct E as [[m1 v1] [E1 E]].
  destruct (swap_ok 5 eq_refl i r m v m1 v1) as [S1 [L1 [R [V1 [V2 V3]]]]]; auto; [lia|lia|].
  assert (D1 : forall q, (0 <= q < 5)%Z -> q <> c -> atM 0 m1 q c = 0).
  { intros q Hq Nq. destruct (R c) as [R1 [R2 R3]]; [lia|]. destruct (Z.eq_dec q i) as [->|]; [rewrite R1; apply C1; lia|].
    destruct (Z.eq_dec q r) as [->|]; [rewrite R2; apply C1; lia|]. rewrite R3 by auto. apply C1; auto. }
  assert (D2 : forall k, (0 <= k < c)%Z -> atM 0 m1 c k = 0).
  { intros k Hk. destruct (R k) as [R1 [R2 R3]]; [lia|]. rewrite R3 by lia. apply C2. auto. }
  pose proof (forZ_ok (fun _ (st : mat * list Qc) => good 5 st /\ colz c (fst st)) _ (i + 1) 5 _ _ E) as X. cbv beta in X.
  destruct X as [G C]; [lia|split; [split; auto|split; auto]| |cbn [fst] in C |- *; auto].
  intros j [M w] [M' w'] Hj [[SM Lw] [K1 K2]] Eb. cbn [fst snd] in *.
  destruct (elim_row_ok 5 i j M w M' w') as [f [Nz [Ef [A' [B' [Q1 [Q2 [Q3 [Q4 Q5]]]]]]]]]; auto; [lia|lia|].
  split; [split; auto|]. split; cbn [fst].
  - intros q Hq Nq. destruct (Z.eq_dec q j) as [->|].
    + rewrite Q1 by lia. rewrite (K1 j), (K1 i) by lia. ring.
    + rewrite Q3 by (auto; lia). apply K1; auto.
  - intros k Hk. destruct (Z.eq_dec c j) as [<-|].
    + destruct (Z_lt_dec k i); [rewrite Q2 by lia; apply K2; auto|]. rewrite Q1 by lia. rewrite Ef, (K2 i), (K2 k) by lia. unfold Qcdiv. ring.
    + rewrite Q3 by (auto; lia). apply K2; auto.
Qed.

Lemma colz_fail c st st' : (0 <= c < 3)%Z -> good 5 st -> colz c (fst st) -> elim_col 5 c st = Ok st' -> False.
Proof.
  intros Hc [Sm Lv] [C1 C2] E. destruct st as [m v]. cbn [fst snd] in *. unfold elim_col in E. cbn [fst snd] in E.
  rewrite max_row_zero in E; auto; [|intros q Hq; apply C1; lia]. cbn [bind] in E. destruct (Z.eqb_spec c 4); [lia|].
  apply bindX in E. destruct E as [[m1 v1] [E1 E]].
  destruct (swap_ok 5 eq_refl c 4 m v m1 v1) as [S1 [L1 [R [V1 [V2 V3]]]]]; auto; [lia|lia|].
  unfold forZ in E. replace (Z.to_nat (5 - (c + 1))) with (S (Z.to_nat (5 - (c + 2)))) in E by lia. cbn [for_n] in E.
  apply bindX in E. destruct E as [[m2 v2] [E2 E]].
  destruct (elim_row_ok 5 c (c + 1) m1 v1 m2 v2) as [f [Nz _]]; auto; [lia|lia|].
  apply Nz. destruct (R c) as [R1 _]; [lia|]. rewrite R1. apply C1; lia.
Qed.

Definition coord (c : Z) (p : v3) : Qc := if (c =? 0)%Z then vx p else if (c =? 1)%Z then vy p else vz p.

Lemma pp_colz c n1 n2 : (0 <= c < 3)%Z -> coord c n1 = 0 -> coord c n2 = 0 -> colz c (pp_matrix n1 n2).
Proof.
  intros Hc H1 H2. split.
  - intros q Hq N. cases3 c Hc; cases5 q Hq; try lia; try reflexivity; cbn in *; auto.
  - intros k Hk. assert (k = 0 \/ k = 1)%Z as [->| ->] by lia; cases3 c Hc; try lia; reflexivity.
Qed.

Lemma pp_fails junk o1 n1 o2 n2 c : lenZ junk = 5%Z -> (0 <= c < 3)%Z -> coord c n1 = 0 -> coord c n2 = 0 ->
  pp_normal_intersect junk o1 n1 o2 n2 = Err ZeroDivision.
Proof.
  intros Lj Hc H1 H2. destruct (pp_total junk o1 n1 o2 n2 Lj) as [[l E]|E]; auto. exfalso.
  unfold pp_normal_intersect, solve_system in E. apply bindX in E. destruct E as [x [E _]].
  apply bindX in E. destruct E as [[m1 v1] [E _]].
  pose proof (pp_colz c n1 n2 Hc H1 H2) as C.
  assert (G : good 5 (pp_matrix n1 n2, lst o1 ++ [vdot o1 n1; vdot o2 n2])) by (split; [apply shape5|reflexivity]).
  unfold forZ in E. change (Z.to_nat (5 - 0)) with 5%nat in E. cbn [for_n] in E.
  apply bindX in E. destruct E as [s1 [E1 E]].
  assert (Hc' : (c = 0 \/ c = 1 \/ c = 2)%Z) by lia. destruct Hc' as [->|[->| ->]].
  - apply (colz_fail 0 _ s1 Hc G C E1).
  - destruct (colz_step 1 0 _ s1 ltac:(lia) ltac:(lia) G C eq_refl E1) as [G1 [C1 _]].
    apply bindX in E. destruct E as [s2 [E2 E]]. change (0 + 1)%Z with 1%Z in E2. apply (colz_fail 1 _ s2 Hc G1 C1 E2).
  - destruct (colz_step 2 0 _ s1 ltac:(lia) ltac:(lia) G C eq_refl E1) as [G1 [C1 _]].
    apply bindX in E. destruct E as [s2 [E2 E]]. change (0 + 1)%Z with 1%Z in *.
    destruct (colz_step 2 1 _ s2 ltac:(lia) ltac:(lia) G1 C1 (proj2 C1 1%Z ltac:(lia)) E2) as [G2 [C2 _]].
    apply bindX in E. destruct E as [s3 [E3 E]]. change (1 + 1)%Z with 2%Z in *. apply (colz_fail 2 _ s3 Hc G2 C2 E3).
Qed.
