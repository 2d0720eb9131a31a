(* Interpolation, duplicate removal and merge_knot_vectors of knot.py. *)
From Coq Require Import List ZArith Lia Bool QArith Qcanon Sorted.
From Verif Require Import Common ListLib QcLib ArrZ SplineTheory NurbsModel NurbsSpec NurbsProofs NurbsProofs2
  NurbsProofs3 NurbsEditModel NurbsEditProofs KnotModel KnotSpec KnotProofs KnotProofs2 KnotProofs4.
Import ListNotations.
Local Open Scope Z_scope.
Local Open Scope Qc_scope.

Lemma interpolation_ok p chords : let n := lenZ chords in
  (1 <= p <= n)%Z -> Forall (fun c => 0 < c) chords ->
  exists uk kv rows, interpolation_system p chords = Ok (uk, kv, rows) /\
    lenZ uk = (n + 1)%Z /\ strictly_01 uk /\ valid_knots p n kv /\ clamped p n kv /\ lenZ rows = (n + 1)%Z /\
    (forall i j, (0 <= i <= n)%Z -> (0 <= j <= n)%Z ->
       atZ 0 (atZ [] rows i) j = cox_de_boor kv n (Z.to_nat p) j (atZ 0 uk i)) /\
    (forall i, (0 <= i <= n)%Z -> 0 < atZ 0 (atZ [] rows i) i).
Proof.
  intros n Hp F.
  destruct (params_increasing chords) as [uk [Eu [Lu [Iu _]]]]; auto.
  { intros ->. unfold n, lenZ in Hp. cbn in Hp. lia. }
  fold n in Lu.
  destruct (compute_knot_vector_ok uk p n Hp Lu Iu) as [U [EU [V [C [U0 [U1 [_ [SL SR]]]]]]]].
  pose proof V as [_ [LU [M N]]]. pose proof Iu as [_ [P0 [P1 PI]]]. rewrite Lu in P1, PI.
  replace (n + 1 - 1)%Z with n in P1 by lia.
  assert (Kp : knot U p = 0) by (rewrite <- U0; apply C; lia).
  assert (Kn : knot U (n + 1) = 1) by (rewrite <- U1; apply C; lia).
  destruct (matrix_rows_ok p n U V uk) as [rows [ER [LR HR]]].
  { intros i Hi. rewrite Kp. destruct (Z.eq_dec i 0) as [->|]. { rewrite P0. apply Qcle_refl. }
    rewrite <- P0 at 1. apply Qclt_le_weak, PI; lia. }
  exists uk, U, rows. split.
  { unfold interpolation_system. rewrite Eu. cbn [bind]. fold n. rewrite EU. cbn [bind]. rewrite ER. reflexivity. }
  split; auto. split; auto. split; auto. split; auto. split; [lia|].
  split. { intros i j Hi Hj. apply HR; lia. }
  intros i Hi. rewrite HR by lia.
  assert (B0 : 0 <= atZ 0 uk i).
  { destruct (Z.eq_dec i 0) as [->|]. { rewrite P0. apply Qcle_refl. } rewrite <- P0 at 1. apply Qclt_le_weak, PI; lia. }
  assert (B1 : (i < n)%Z -> atZ 0 uk i < 1) by (intro; rewrite <- P1; apply PI; lia).
  apply cox_pos; auto.
  - rewrite Kp. auto.
  - rewrite Kn. destruct (Z.eq_dec i n) as [->|]. { rewrite P1. apply Qcle_refl. } apply Qclt_le_weak, B1. lia.
  - destruct (Z.eq_dec i 0) as [->|]; [right|left; apply SL; lia]. rewrite Kp, P0. split; auto. split; auto.
    rewrite <- P0 at 1. replace (p + 1)%Z with (0 + p + 1)%Z by lia. apply SR. lia.
  - destruct (Z.eq_dec i n) as [->|]; [right; rewrite Kn; auto|left]. split. { apply SR; lia. } rewrite Kn. apply B1. lia.
Qed.

(* every exact solution of the system is a curve through the points *)
Lemma interpolation_passes p chords uk kv rows X P : let n := lenZ chords in
  (1 <= p <= n)%Z -> Forall (fun c => 0 < c) chords ->
  interpolation_system p chords = Ok (uk, kv, rows) ->
  lenZ X = (n + 1)%Z -> (forall q, In q X -> pw q = 1) ->
  (forall i f, In f [px; py; pz] -> (0 <= i <= n)%Z ->
     sum_to n (fun j => atZ 0 (atZ [] rows i) j * f (ctrl X j)) = f (ctrl P i)) ->
  forall i, (0 <= i <= n)%Z -> curve_point n p kv X (atZ 0 uk i) false = Ok (xyz (ctrl P i)).
Proof.
  intros n Hp F E LX W Sol i Hi.
  destruct (interpolation_ok p chords Hp F) as [uk' [kv' [rows' [E' [Lu [Iu [V [C [LR [HR _]]]]]]]]]].
  rewrite E in E'. assert (EE := f_equal (fun r => match r with Ok v => v | Err _ => ([], [], []) end) E').
  cbn beta iota in EE. assert (uk = uk') by exact (f_equal (fun v => fst (fst v)) EE).
  assert (kv = kv') by exact (f_equal (fun v => snd (fst v)) EE).
  assert (rows = rows') by exact (f_equal snd EE). subst uk' kv' rows'. clear E' EE.
  fold n in Lu. pose proof Iu as [_ [P0 [P1 PI]]]. rewrite Lu in P1, PI. replace (n + 1 - 1)%Z with n in P1 by lia.
  fold n in V, C, HR, PI. pose proof V as [_ [LU [M N]]].
  (* the ends of the domain *)
  destruct (compute_knot_vector_ok uk p n Hp Lu Iu) as [U [EU [_ [_ [U0 [U1 _]]]]]].
  assert (U = kv).
  { unfold interpolation_system in E. apply bindX in E. destruct E as [u1 [E1 E]]. apply bindX in E. destruct E as [k1 [E2 E]].
    apply bindX in E. destruct E as [r1 [E3 E]].
    assert (EE := f_equal (fun r => match r with Ok v => v | Err _ => ([], [], []) end) E). cbn beta iota in EE.
    assert (u1 = uk) by exact (f_equal (fun v => fst (fst v)) EE).
    assert (k1 = kv) by exact (f_equal (fun v => snd (fst v)) EE). subst. fold n in E2. rewrite EU in E2.
    exact (f_equal (fun r => match r with Ok v => v | Err _ => [] end) E2). }
  subst U.
  assert (Kp : knot kv p = 0) by (rewrite <- U0; apply C; lia).
  assert (Kn : knot kv (n + 1) = 1) by (rewrite <- U1; apply C; lia).
  set (u := atZ 0 uk i) in *.
  assert (H0 : knot kv p <= u).
  { rewrite Kp. unfold u. destruct (Z.eq_dec i 0) as [->|]. { rewrite P0. apply Qcle_refl. } rewrite <- P0 at 1. apply Qclt_le_weak, PI; lia. }
  assert (H1 : u <= knot kv (n + 1)).
  { rewrite Kn. unfold u. destruct (Z.eq_dec i n) as [->|]. { rewrite P1. apply Qcle_refl. } rewrite <- P1. apply Qclt_le_weak, PI; lia. }
  assert (Wc : forall j, (0 <= j <= n)%Z -> pw (ctrl X j) = 1).
  { intros j Hj. apply W. unfold ctrl, atZ. apply nth_In. unfold lenZ in LX. lia. }
  assert (D : den kv n p X u = 1).
  { unfold den. rewrite <- (cdb_one p n kv u V H0). unfold sum_to. apply sum_n_ext. intros j Hj. rewrite Wc by lia. ring. }
  rewrite curve_point_ok; auto. 2:{ rewrite D. apply Q_apart_0_1. }
  unfold nurbs_point, xyz. assert (R : forall f, In f [px; py; pz] -> rational kv n p X f u = f (ctrl P i)).
  { intros f Hf. unfold rational. fold (den kv n p X u). rewrite D. rewrite <- (Sol i f Hf Hi).
    transitivity (sum_to n (fun j => cox_de_boor kv n (Z.to_nat p) j u * pw (ctrl X j) * f (ctrl X j))). { field. apply Q_apart_0_1. }
    unfold sum_to. apply sum_n_ext. intros j Hj. rewrite Wc by lia. rewrite HR by lia. fold u. ring. }
  rewrite !R; cbn; auto.
Qed.

(* ---- duplicate removal ---------------------------------------------------- *)
(* the list split at its first element *)
Definition closed_up {A} (dist : A -> A -> Qc) (tol : Qc) (l : list A) : Prop := Forall (fun d => tol < d) (gaps dist l).

Lemma keep_from {A} (dist : A -> A -> Qc) tol : forall l x,
  (forall a b, dist a b <= tol -> a = b) ->
  exists l', keep_rows l (map (fun d => qlt tol d) (gaps dist (x :: l))) = l' /\ closed_up dist tol (x :: l').
Proof.
  intros l x H. revert x. induction l as [|y l IH]; intros x.
  - exists []. split; auto. constructor.
  - change (gaps dist (x :: y :: l)) with (dist x y :: gaps dist (y :: l)). cbn [map keep_rows].
    destruct (IH y) as [l' [E C]]. rewrite E. destruct (qlt tol (dist x y)) eqn:D.
    + exists (y :: l'). split; auto. apply qlt_true in D.
      change (Forall (fun d => tol < d) (dist x y :: gaps dist (y :: l'))). constructor; auto.
    + apply qlt_false in D. apply H in D. subst y. exists l'. auto.
Qed.

Lemma remove_duplicates_ok {A} (dist : A -> A -> Qc) tol l : (forall a b, dist a b <= tol -> a = b) ->
  closed_up dist tol (remove_adjacent_duplicates tol (gaps dist l) l).
Proof.
  intro H. unfold remove_adjacent_duplicates. destruct l as [|x l]; [constructor|]. cbn [keep_rows].
  destruct (keep_from dist tol l x H) as [l' [-> C]]. auto.
Qed.

Lemma remove_duplicates_nothing {A} (dist : A -> A -> Qc) tol l : closed_up dist tol l ->
  remove_adjacent_duplicates tol (gaps dist l) l = l.
Proof.
  unfold remove_adjacent_duplicates. destruct l as [|x l]; auto. cbn [keep_rows]. intro C. f_equal.
  revert x C. induction l as [|y l IH]; intros x C; auto.
  change (gaps dist (x :: y :: l)) with (dist x y :: gaps dist (y :: l)) in *. inversion C as [|? ? C1 C2]; subst.
  cbn [map keep_rows]. apply qlt_true in C1. rewrite C1. f_equal. apply IH. auto.
Qed.

(* a slow drift hides a return to the same point *)
Lemma remove_duplicates_drift tol : 0 < tol ->
  let d (a b : Qc) := qabs (a - b) in
  let x := Q2Qc (3 # 5) * tol in
  remove_adjacent_duplicates tol (gaps d [0; x; x + x; 0]) [0; x; x + x; 0] = [0; 0].
Proof.
  intros Ht d x.
  assert (Hx : x = Q2Qc (3 # 5) * tol) by reflexivity.
  unfold remove_adjacent_duplicates. cbn [gaps map keep_rows].
  assert (A1 : qlt tol (d 0 x) = false).
  { apply qlt_false. apply qle_true. unfold d. apply qabs_le. rewrite Hx. split; qlra. }
  assert (A2 : qlt tol (d x (x + x)) = false).
  { apply qlt_false. apply qle_true. unfold d. apply qabs_le. rewrite Hx. split; qlra. }
  assert (A3 : qlt tol (d (x + x) 0) = true).
  { destruct (qlt tol (d (x + x) 0)) eqn:E; auto. apply qlt_false in E. apply qle_true in E. unfold d in E.
    apply qabs_le in E. destruct E as [_ E]. rewrite Hx in E. exfalso. qlra. }
  rewrite A1, A2, A3. reflexivity.
Qed.

(* ---- merge_knot_vectors ----------------------------------------------------- *)
Lemma uniq_put_in x l y : In y (uniq_put x l) <-> y = x \/ In y l.
Proof.
  induction l as [|a l IH]; cbn [uniq_put In]. { intuition. }
  destruct (qlt x a); [cbn [In]; intuition|]. destruct (qeq x a) eqn:E.
  - apply qeq_true in E. subst. cbn [In]. intuition.
  - cbn [In]. rewrite IH. intuition.
Qed.

Lemma uniq_put_sorted x l : StronglySorted Qclt l -> StronglySorted Qclt (uniq_put x l).
Proof.
  induction 1 as [|a l S IH F]; cbn [uniq_put]. { repeat constructor. }
  destruct (qlt x a) eqn:E1.
  - apply qlt_true in E1. constructor. { constructor; auto. } constructor; auto.
    rewrite Forall_forall in *. intros y Hy. specialize (F y Hy). qlra.
  - apply qlt_false in E1. destruct (qeq x a) eqn:E2. { constructor; auto. }
    apply qeq_false in E2. constructor; auto. rewrite Forall_forall in *. intros y Hy. apply uniq_put_in in Hy.
    destruct Hy as [->|Hy]; auto. apply Qcnot_le_lt. intro. apply E2. apply Qcle_antisym; auto.
Qed.

Lemma unique_in l y : In y (unique l) <-> In y l.
Proof. induction l as [|a l IH]; cbn [unique fold_right In]; [tauto|]. fold (unique l). rewrite uniq_put_in, IH. intuition. Qed.

Lemma unique_sorted l : StronglySorted Qclt (unique l).
Proof. induction l as [|a l IH]; cbn [unique fold_right]. constructor. now apply uniq_put_sorted. Qed.

Lemma count_occ_repeat x y n : count_occ Qc_eq_dec (repeat x n) y = if Qc_eq_dec x y then n else O.
Proof.
  induction n as [|n IH]; cbn [repeat count_occ]. { destruct (Qc_eq_dec x y); auto. }
  destruct (Qc_eq_dec x y) as [E|E]; rewrite IH; auto.
Qed.

Lemma count_flat f l y : NoDup l ->
  count_occ Qc_eq_dec (flat_map (fun k => repeat k (f k)) l) y = if in_dec Qc_eq_dec y l then f y else O.
Proof.
  induction 1 as [|a l N ND IH]; cbn [flat_map]. { destruct (in_dec Qc_eq_dec y []); auto. destruct i. }
  rewrite count_occ_app, count_occ_repeat, IH.
  destruct (Qc_eq_dec a y) as [->|E].
  - destruct (in_dec Qc_eq_dec y l); [contradiction|]. destruct (in_dec Qc_eq_dec y (y :: l)) as [I|I]; [lia|].
    exfalso. apply I. now left.
  - destruct (in_dec Qc_eq_dec y l), (in_dec Qc_eq_dec y (a :: l)) as [I|I]; auto.
    + exfalso. apply I. now right.
    + destruct I as [I|I]; contradiction.
Qed.

Lemma sorted_nodup l : StronglySorted Qclt l -> NoDup l.
Proof.
  induction 1 as [|a l S IH F]; constructor; auto. intro I. rewrite Forall_forall in F. specialize (F a I). qlra.
Qed.

Lemma isclose_refl x : isclose x x = true.
Proof.
  unfold isclose. apply qabs_le.
  assert (0 <= qabs x) by (unfold qabs; destruct (qlt x 0) eqn:E; [apply qlt_true in E|apply qlt_false in E]; qlra).
  assert (0 <= Q2Qc (1 # 100000) * qabs x) by (apply qc_mul_nonneg; auto; apply qle_true; vm_compute; auto).
  set (w := Q2Qc (1 # 100000) * qabs x) in *. split; qlra.
Qed.

Lemma count_close_exact l k : (forall a, In a l -> isclose a k = true -> a = k) ->
  count_close l k = count_occ Qc_eq_dec l k.
Proof.
  intro H. unfold count_close. induction l as [|a l IH]; cbn [filter count_occ]; auto.
  assert (IH' : length (filter (fun a => isclose a k) l) = count_occ Qc_eq_dec l k) by (apply IH; intros; apply H; auto; now right).
  destruct (isclose a k) eqn:E.
  - assert (a = k) by (apply H; auto; now left). subst a. destruct (Qc_eq_dec k k); [|contradiction]. cbn [length]. auto.
  - destruct (Qc_eq_dec a k) as [->|]; auto. rewrite isclose_refl in E. discriminate.
Qed.

Lemma sorted_app l1 l2 : StronglySorted Qcle l1 -> StronglySorted Qcle l2 -> (forall a b, In a l1 -> In b l2 -> a <= b) ->
  StronglySorted Qcle (l1 ++ l2).
Proof.
  induction 1 as [|a l S IH F]; intros S2 H; cbn [app]; auto. constructor.
  - apply IH; auto. intros; apply H; auto; now right.
  - rewrite Forall_forall in *. intros y Hy. apply in_app_or in Hy. destruct Hy; auto. apply H; auto. now left.
Qed.

Lemma flat_sorted f l : StronglySorted Qclt l -> StronglySorted Qcle (flat_map (fun k => repeat k (f k)) l).
Proof.
  induction 1 as [|a l S IH F]; cbn [flat_map]. { constructor. }
  apply sorted_app; auto.
  - clear. induction (f a) as [|n IHn]; cbn [repeat]; constructor; auto. rewrite Forall_forall. intros y Hy.
    apply repeat_spec in Hy. subst. apply Qcle_refl.
  - intros x y Hx Hy. apply repeat_spec in Hx. subst x. apply in_flat_map in Hy. destruct Hy as [k [Hk Hy]].
    apply repeat_spec in Hy. subst y. rewrite Forall_forall in F. apply Qclt_le_weak. auto.
Qed.

Lemma merge_sorted k1 k2 : StronglySorted Qcle (merge_knot_vectors k1 k2).
Proof. apply (flat_sorted (fun k => Nat.max (count_close k1 k) (count_close k2 k))). apply unique_sorted. Qed.

Lemma merge_counts k1 k2 : (forall a b, In a (k1 ++ k2) -> In b (k1 ++ k2) -> isclose a b = true -> a = b) ->
  forall x, occurs (merge_knot_vectors k1 k2) x = Nat.max (occurs k1 x) (occurs k2 x).
Proof.
  intros H x. unfold occurs, merge_knot_vectors.
  rewrite (count_flat (fun k => Nat.max (count_close k1 k) (count_close k2 k))) by (apply sorted_nodup, unique_sorted).
  destruct (in_dec Qc_eq_dec x (unique (k1 ++ k2))) as [I|I].
  - apply (proj1 (unique_in (k1 ++ k2) x)) in I. rewrite !count_close_exact; auto; intros a Ha Hc; apply H; auto; apply in_or_app; auto.
  - assert (N : ~ In x (k1 ++ k2)) by (intro X; apply I; now apply unique_in).
    assert (count_occ Qc_eq_dec k1 x = O) by (apply count_occ_not_In; intro; apply N, in_or_app; auto).
    assert (count_occ Qc_eq_dec k2 x = O) by (apply count_occ_not_In; intro; apply N, in_or_app; auto). lia.
Qed.

(* two different knots within the tolerance are both duplicated *)
Lemma merge_close x y : x < y -> isclose x y = true -> isclose y x = true ->
  merge_knot_vectors [x; y] [x; y] = [x; x; y; y].
Proof.
  intros L C1 C2. unfold merge_knot_vectors, unique. cbn [app fold_right uniq_put].
  assert (E1 : qlt x y = true) by now apply qlt_true.
  assert (E2 : qlt y x = false) by (apply qlt_false; qlra).
  assert (E3 : qlt y y = false) by (apply qlt_false; apply Qcle_refl).
  assert (E4 : qlt x x = false) by (apply qlt_false; apply Qcle_refl).
  assert (E5 : forall z, qeq z z = true) by (intro; now apply qeq_true).
  assert (E6 : qeq y x = false) by (apply qeq_false; intro; subst; qlra).
  cbn [uniq_put]. rewrite E1. cbn [uniq_put]. rewrite E2, E6. cbn [uniq_put]. rewrite E3, E5. cbn [uniq_put].
  rewrite E4, E5. unfold count_close. cbn [flat_map filter app]. rewrite !isclose_refl, C1, C2. reflexivity.
Qed.
