(* Knot generators, normalisation, parameters and interpolation of knot.py. *)
From Coq Require Import List ZArith Lia Bool QArith Qcanon.
From Verif Require Import Common ListLib QcLib ArrZ SplineTheory NurbsModel NurbsSpec NurbsProofs NurbsProofs2
  NurbsProofs3 NurbsEditModel NurbsEditProofs2 KnotModel KnotProofs KnotProofs2.
Import ListNotations.
Local Open Scope Z_scope.
Local Open Scope Qc_scope.

(* ---- generate_knot --------------------------------------------------- *)
Lemma list_eq_knot (l1 l2 : list Qc) : lenZ l1 = lenZ l2 ->
  (forall i, (0 <= i < lenZ l1)%Z -> knot l1 i = knot l2 i) -> l1 = l2.
Proof. intros. apply (list_ext_atZ (0 : Qc)); auto. Qed.

Lemma generate_knot_clamped p n : (1 <= p < n)%Z -> generate_knot p n true = Ok (generate_knots n p).
Proof.
  intro H. unfold generate_knot. destruct (Z.eqb_spec p 0); [lia|]. destruct (Z.eqb_spec n 0); [lia|]. cbn [orb].
  destruct (Z.ltb_spec (n - (p + 1) + 2) 0); [lia|]. f_equal. unfold count_up.
  assert (L : lenZ (repeat 0 (Z.to_nat p) ++ arange 0 (n - (p + 1) + 2) ++ repeat (Q2Qc (inject_Z (n - (p + 1) + 1))) (Z.to_nat p)) = (n + p + 1)%Z).
  { rewrite !lenZ_app, !lenZ_repeat, lenZ_arange by lia. lia. }
  apply list_eq_knot. { rewrite L, generate_knots_len by lia. auto. }
  intros i Hi. rewrite L in Hi. rewrite generate_knots_at by lia. unfold knot.
  destruct (Z_lt_dec i p).
  - rewrite atZ_app1 by (rewrite lenZ_repeat; lia). rewrite atZ_repeat_in by lia. rewrite <- zq_0. f_equal. lia.
  - rewrite atZ_app2 by (rewrite lenZ_repeat; lia). rewrite lenZ_repeat.
    destruct (Z_lt_dec i (n + 1)).
    + rewrite atZ_app1 by (rewrite lenZ_arange; lia). rewrite atZ_arange by lia. f_equal. lia.
    + rewrite atZ_app2 by (rewrite lenZ_arange; lia). rewrite lenZ_arange by lia. rewrite atZ_repeat_in by lia.
      fold (zq (n - (p + 1) + 1)). f_equal. lia.
Qed.

Lemma generate_knot_unclamped p n : (1 <= p < n)%Z ->
  exists U, generate_knot p n false = Ok U /\ valid_knots p (n - 1) U /\
    forall i, (0 <= i <= n + p)%Z -> knot U i = zq i.
Proof.
  intro H. unfold generate_knot. destruct (Z.eqb_spec p 0); [lia|]. destruct (Z.eqb_spec n 0); [lia|]. cbn [orb].
  destruct (Z.ltb_spec (p + n - 1 + 2) 0); [lia|]. eexists. split; [reflexivity|]. change (Z.to_nat 0) with O.
  cbn [repeat app]. rewrite app_nil_r. unfold count_up.
  assert (L : lenZ (arange 0 (p + n - 1 + 2)) = (n + p + 1)%Z) by (rewrite lenZ_arange; lia).
  assert (A : forall i, (0 <= i <= n + p)%Z -> knot (arange 0 (p + n - 1 + 2)) i = zq i).
  { intros i Hi. unfold knot. rewrite atZ_arange by lia. f_equal. }
  split; auto. split; [lia|]. split; [lia|]. split.
  - intros i j H1 H2 H3. rewrite L in H3. rewrite !A by lia. apply zq_le. lia.
  - rewrite !A by lia. apply zq_lt. lia.
Qed.

(* ---- normalize_knot ---------------------------------------------------- *)
Lemma normalize_knot_ok p n U : valid_knots p n U -> let a := knot U 0 in let b := knot U (lenZ U - 1) in
  a < b /\ exists U', normalize_knot U = Ok U' /\ valid_knots p n U' /\ knot U' 0 = 0 /\ knot U' (lenZ U' - 1) = 1 /\
    (forall P t, knot U p <= t -> nurbs_point U' n p P ((t - a) / (b - a)) = nurbs_point U n p P t).
Proof.
  intros V a b. pose proof V as [Hp [L [M N]]].
  assert (Hab : a < b).
  { assert (knot U 0 <= knot U n) by (apply M; lia). assert (knot U (n + 1) <= knot U (lenZ U - 1)) by (apply M; lia).
    unfold a, b. qlra. }
  split; auto. unfold normalize_knot. rewrite !rd_knot by lia. cbn [bind]. fold a b.
  assert (Hd : b - a <> 0) by (intro; qlra).
  destruct (qeq (b - a) 0) eqn:E. { apply qeq_true in E. contradiction. }
  set (k := 1 / (b - a)). assert (Hk : 0 < k) by (unfold k; apply qc_div_pos; [apply qlt_true; vm_compute; auto|qlra]).
  assert (EF : forall x, (x - a) / (b - a) = affine k a x) by (intro x; unfold affine, k; field; auto).
  assert (EM : map (fun kv => (kv - a) / (b - a)) U = map (affine k a) U) by (apply map_ext; auto).
  eexists. split; [reflexivity|]. rewrite EM. rewrite lenZ_map. split; [apply affine_valid; auto|].
  rewrite !knot_map by lia. fold a b. split. { unfold affine. ring. }
  split. { unfold affine, k. field. auto. }
  intros P t Ht. rewrite EF. apply affine_point; auto.
Qed.

(* ---- compute_params_curve ----------------------------------------------- *)
Lemma total_app l1 l2 : total (l1 ++ l2) = total l1 + total l2.
Proof. induction l1 as [|a l1 IH]; cbn [app total]. ring. rewrite IH. ring. Qed.

(* length of the first i chords *)
Definition along (chords : list Qc) (i : nat) : Qc := total (firstn i chords).

Lemma params_loop_ok cds d : d <> 0 -> forall is,
  params_loop cds d is = Ok (map (fun i => total (firstn (i + 1) cds) / d) is).
Proof.
  intros Hd. induction is as [|i is IH]; cbn [params_loop map]; auto.
  rewrite divR_ok by auto. cbn [bind]. rewrite IH. reflexivity.
Qed.

Lemma along_cds chords i : (i <= length chords)%nat -> total (firstn (i + 1) (0 :: chords ++ [1])) = along chords i.
Proof.
  intro H. rewrite Nat.add_1_r. cbn [firstn total]. unfold along. rewrite firstn_app.
  replace (i - length chords)%nat with O by lia. cbn [firstn]. rewrite app_nil_r. ring.
Qed.

Lemma compute_params_ok chords : total chords <> 0 ->
  compute_params_curve chords = Ok (map (fun i => along chords i / total chords) (seq 0 (length chords + 1))).
Proof.
  intro H. unfold compute_params_curve. rewrite params_loop_ok by auto. f_equal. apply map_ext_in.
  intros i Hi. apply in_seq in Hi. now rewrite along_cds by lia.
Qed.

Lemma compute_params_zero chords : total chords = 0 -> compute_params_curve chords = Err ZeroDivision.
Proof.
  intro H. unfold compute_params_curve. rewrite H, Nat.add_1_r. cbn [seq params_loop]. now rewrite divR_zero.
Qed.

Lemma along_step chords i : (i < length chords)%nat -> along chords (S i) = along chords i + nth i chords 0.
Proof.
  revert i. induction chords as [|c l IH]; intros i H; cbn [length] in H; [lia|].
  destruct i as [|i]; unfold along; cbn [firstn total nth]. { ring. }
  change (c + total (firstn (S i) l) = c + total (firstn i l) + nth i l 0).
  fold (along l (S i)). fold (along l i). rewrite IH by lia. ring.
Qed.

Lemma along_lt chords : Forall (fun c => 0 < c) chords -> forall j i, (i < j)%nat -> (j <= length chords)%nat ->
  along chords i < along chords j.
Proof.
  intros F. induction j as [|j IH]; intros i H1 H2; [lia|].
  rewrite along_step by lia.
  assert (0 < nth j chords 0). { rewrite Forall_forall in F. apply F. apply nth_In. lia. }
  destruct (Nat.eq_dec i j) as [->|]. { qlra. }
  assert (along chords i < along chords j) by (apply IH; lia). qlra.
Qed.

Lemma along_all chords : along chords (length chords) = total chords.
Proof. unfold along. now rewrite firstn_all. Qed.

(* strictly increasing from 0 to 1 *)
Definition increasing01 (l : list Qc) : Prop :=
  (2 <= lenZ l)%Z /\ atZ 0 l 0 = 0 /\ atZ 0 l (lenZ l - 1) = 1 /\
  forall i j, (0 <= i)%Z -> (i < j)%Z -> (j < lenZ l)%Z -> atZ 0 l i < atZ 0 l j.

Lemma div_lt_mono a b c : 0 < c -> a < b -> a / c < b / c.
Proof.
  intros Hc H. assert (0 < (b - a) / c) by (apply qc_div_pos; qlra).
  assert (E : (b - a) / c = b / c - a / c) by (unfold Qcdiv; ring). rewrite E in *. qlra.
Qed.

Lemma params_increasing chords : chords <> [] -> Forall (fun c => 0 < c) chords ->
  exists uk, compute_params_curve chords = Ok uk /\ lenZ uk = (lenZ chords + 1)%Z /\ increasing01 uk /\
    forall i, (0 <= i <= lenZ chords)%Z -> atZ 0 uk i = along chords (Z.to_nat i) / along chords (length chords).
Proof.
  intros Hne F.
  assert (Hl : (1 <= length chords)%nat) by (destruct chords; [contradiction|cbn; lia]).
  assert (HT : 0 < total chords).
  { rewrite <- along_all. assert (along chords 0 < along chords (length chords)) by (apply along_lt; auto; lia).
    change (along chords 0) with (0 : Qc) in *. auto. }
  assert (HT0 : total chords <> 0) by (intro X; rewrite X in HT; qlra).
  rewrite compute_params_ok by auto. eexists. split; [reflexivity|].
  assert (L : lenZ (map (fun i => along chords i / total chords) (seq 0 (length chords + 1))) = (lenZ chords + 1)%Z).
  { unfold lenZ. rewrite map_length, seq_length. lia. }
  assert (A : forall i, (0 <= i <= lenZ chords)%Z ->
    atZ 0 (map (fun i => along chords i / total chords) (seq 0 (length chords + 1))) i = along chords (Z.to_nat i) / total chords).
  { intros i Hi. unfold lenZ in Hi. now rewrite atZ_map_seq by lia. }
  split; auto. split; [|intros; rewrite along_all; auto]. unfold lenZ in A, L |- *.
  unfold increasing01. unfold lenZ. split; [lia|]. split; [|split].
  - rewrite A by lia. change (along chords (Z.to_nat 0)) with (0 : Qc). unfold Qcdiv. ring.
  - rewrite L. replace (Z.of_nat (length chords) + 1 - 1)%Z with (Z.of_nat (length chords)) by lia. rewrite A by lia.
    rewrite Nat2Z.id, along_all. field. auto.
  - intros i j H0 H1 H2. rewrite L in H2. rewrite !A by lia. apply div_lt_mono; auto. apply along_lt; auto; lia.
Qed.

(* ---- compute_knot_vector ------------------------------------------------- *)
Lemma sum_params_ok params : forall c a, (0 <= a)%Z -> (a + Z.of_nat c <= lenZ params)%Z ->
  sum_params c a params = Ok (sum_n c a (fun j => atZ 0 params j)).
Proof.
  induction c as [|c IH]; intros a H0 H1; cbn [sum_params sum_n]; auto.
  rewrite (rdZ_ok 0) by lia. cbn [bind]. rewrite IH by lia. reflexivity.
Qed.

(* mean of the parameters with indices i+1 .. i+p *)
Definition mean (params : list Qc) (p i : Z) : Qc :=
  1 / zq p * sum_n (Z.to_nat p) (i + 1) (fun j => atZ 0 params j).

Lemma zq_pos p : (1 <= p)%Z -> 0 < zq p.
Proof. intro. rewrite <- zq_0. apply zq_lt. lia. Qed.

Lemma averages_ok params p : (1 <= p)%Z -> forall c i, (0 <= i)%Z -> (i + Z.of_nat c + p <= lenZ params)%Z ->
  averages c i p params = Ok (map (fun k => mean params p (i + Z.of_nat k)) (seq 0 c)).
Proof.
  intros Hp. assert (Hz : zq p <> 0) by (pose proof (zq_pos p Hp) as X; intro Y; rewrite Y in X; qlra).
  induction c as [|c IH]; intros i H0 H1; cbn [averages]; auto.
  fold (zq p). rewrite divR_ok by auto. cbn [bind]. rewrite sum_params_ok by lia. cbn [bind]. rewrite IH by lia. cbn [bind].
  cbn [seq map]. f_equal. f_equal. { unfold mean. now replace (i + Z.of_nat 0)%Z with i by lia. }
  rewrite <- seq_shift, map_map. apply map_ext. intros k. f_equal. lia.
Qed.

Lemma sum_n_const c : forall lo (k : Qc), sum_n c lo (fun _ => k) = zq (Z.of_nat c) * k.
Proof.
  induction c as [|c IH]; intros lo k. { cbn [sum_n]. change (Z.of_nat 0) with 0%Z. rewrite zq_0. ring. }
  cbn [sum_n]. rewrite IH. replace (Z.of_nat (S c)) with (1 + Z.of_nat c)%Z by lia. rewrite zq_add, zq_1. ring.
Qed.

Lemma sum_n_lt c : forall lo f g, (forall i, (lo <= i < lo + Z.of_nat (S c))%Z -> f i < g i) ->
  sum_n (S c) lo f < sum_n (S c) lo g.
Proof.
  induction c as [|c IH]; intros lo f g H.
  - cbn [sum_n]. assert (f lo < g lo) by (apply H; lia). qlra.
  - change (f lo + sum_n (S c) (lo + 1) f < g lo + sum_n (S c) (lo + 1) g).
    assert (f lo < g lo) by (apply H; lia).
    assert (sum_n (S c) (lo + 1) f < sum_n (S c) (lo + 1) g) by (apply IH; intros; apply H; lia). qlra.
Qed.

Lemma mean_lt params p i v : (1 <= p)%Z -> (forall j, (i + 1 <= j <= i + p)%Z -> atZ 0 params j < v) -> mean params p i < v.
Proof.
  intros Hp H. unfold mean. pose proof (zq_pos p Hp) as Hz. assert (Hz0 : zq p <> 0) by (intro Y; rewrite Y in Hz; qlra).
  assert (X : sum_n (Z.to_nat p) (i + 1) (fun j => atZ 0 params j) < zq p * v).
  { replace (zq p * v) with (sum_n (Z.to_nat p) (i + 1) (fun _ => v)) by (rewrite sum_n_const; do 2 f_equal; lia).
    replace (Z.to_nat p) with (S (Z.to_nat (p - 1))) by lia. apply sum_n_lt. intros. apply H. lia. }
  pose proof (div_lt_mono _ _ (zq p) Hz X) as Y. replace (zq p * v / zq p) with v in Y by (field; auto).
  replace (1 / zq p * sum_n (Z.to_nat p) (i + 1) (fun j => atZ 0 params j))
    with (sum_n (Z.to_nat p) (i + 1) (fun j => atZ 0 params j) / zq p) by (unfold Qcdiv; ring). auto.
Qed.

Lemma mean_gt params p i v : (1 <= p)%Z -> (forall j, (i + 1 <= j <= i + p)%Z -> v < atZ 0 params j) -> v < mean params p i.
Proof.
  intros Hp H. unfold mean. pose proof (zq_pos p Hp) as Hz. assert (Hz0 : zq p <> 0) by (intro Y; rewrite Y in Hz; qlra).
  assert (X : zq p * v < sum_n (Z.to_nat p) (i + 1) (fun j => atZ 0 params j)).
  { replace (zq p * v) with (sum_n (Z.to_nat p) (i + 1) (fun _ => v)) by (rewrite sum_n_const; do 2 f_equal; lia).
    replace (Z.to_nat p) with (S (Z.to_nat (p - 1))) by lia. apply sum_n_lt. intros. apply H. lia. }
  pose proof (div_lt_mono _ _ (zq p) Hz X) as Y. replace (zq p * v / zq p) with v in Y by (field; auto).
  replace (1 / zq p * sum_n (Z.to_nat p) (i + 1) (fun j => atZ 0 params j))
    with (sum_n (Z.to_nat p) (i + 1) (fun j => atZ 0 params j) / zq p) by (unfold Qcdiv; ring). auto.
Qed.

Lemma mean_mono params p i j : (1 <= p)%Z -> (0 <= i <= j)%Z -> (j + p < lenZ params)%Z ->
  (forall i j, (0 <= i)%Z -> (i < j)%Z -> (j < lenZ params)%Z -> atZ 0 params i < atZ 0 params j) ->
  mean params p i <= mean params p j.
Proof.
  intros Hp Hij Hl H. unfold mean.
  assert (0 <= 1 / zq p) by (apply qc_div_nonneg; [apply qle_true; vm_compute; auto|apply zq_pos; auto]).
  replace (j + 1)%Z with (i + 1 + (j - i))%Z by lia. rewrite <- (sum_n_shift _ (i + 1) (fun k => atZ 0 params k) (j - i)).
  assert (S : sum_n (Z.to_nat p) (i + 1) (fun j0 => atZ 0 params j0) <= sum_n (Z.to_nat p) (i + 1) (fun k => atZ 0 params (k + (j - i))%Z)).
  { apply sum_n_le. intros k Hk. destruct (Z.eq_dec i j) as [->|]. { replace (k + (j - j))%Z with k by lia. apply Qcle_refl. }
    apply Qclt_le_weak. apply H; lia. }
  set (x := sum_n (Z.to_nat p) (i + 1) (fun j0 => atZ 0 params j0)) in *.
  set (y := sum_n (Z.to_nat p) (i + 1) (fun k => atZ 0 params (k + (j - i))%Z)) in *.
  assert (0 <= 1 / zq p * (y - x)) by (apply qc_mul_nonneg; auto; qlra).
  assert (1 / zq p * (y - x) = 1 / zq p * y - 1 / zq p * x) by ring. rewrite H2 in *. qlra.
Qed.

Lemma atZ_map_seq0 {A} (d : A) (f : nat -> A) n i : (0 <= i < Z.of_nat n)%Z -> atZ d (map f (seq 0 n)) i = f (Z.to_nat i).
Proof.
  intro H. unfold atZ. apply nth_error_nth. rewrite nth_error_map. rewrite (nth_error_nth' _ O) by (rewrite seq_length; lia).
  cbn [option_map]. now rewrite seq_nth by lia.
Qed.

(* the knots: zeros, means, ones *)
Lemma knot_vector_at params p n : (1 <= p <= n)%Z -> lenZ params = (n + 1)%Z ->
  exists U, compute_knot_vector p (n + 1) params = Ok U /\ lenZ U = (n + p + 2)%Z /\
    forall i, (0 <= i < n + p + 2)%Z ->
      knot U i = if (i <=? p)%Z then 0 else if (i <=? n)%Z then mean params p (i - p - 1) else 1.
Proof.
  intros Hp L. unfold compute_knot_vector. rewrite averages_ok by lia. cbn [bind]. eexists. split; [reflexivity|].
  set (mid := map (fun k => mean params p (0 + Z.of_nat k)) (seq 0 (Z.to_nat (n + 1 - p - 1)))).
  assert (Lm : lenZ mid = (n - p)%Z) by (unfold mid, lenZ; rewrite map_length, seq_length; lia).
  split. { rewrite !lenZ_app, !lenZ_repeat, Lm. lia. }
  intros i Hi. unfold knot. destruct (Z.leb_spec i p).
  - rewrite atZ_app1 by (rewrite lenZ_repeat; lia). apply atZ_repeat.
  - rewrite atZ_app2 by (rewrite lenZ_repeat; lia). rewrite lenZ_repeat. destruct (Z.leb_spec i n).
    + rewrite atZ_app1 by lia. unfold mid. rewrite atZ_map_seq0 by lia. f_equal. lia.
    + rewrite atZ_app2 by lia. rewrite Lm. apply atZ_repeat_in. lia.
Qed.

Lemma q01 : (0 : Qc) < 1. Proof. apply qlt_true. vm_compute. auto. Qed.

Lemma compute_knot_vector_ok params p n : (1 <= p <= n)%Z -> lenZ params = (n + 1)%Z -> increasing01 params ->
  exists U, compute_knot_vector p (n + 1) params = Ok U /\ valid_knots p n U /\ clamped p n U /\
    knot U 0 = 0 /\ knot U (n + p + 1) = 1 /\
    (forall i, (p < i <= n)%Z -> knot U i = mean params p (i - p - 1)) /\
    (forall i, (1 <= i <= n)%Z -> knot U i < atZ 0 params i) /\
    (forall i, (0 <= i < n)%Z -> atZ 0 params i < knot U (i + p + 1)).
Proof.
  intros Hp L [_ [P0 [P1 PI]]]. destruct (knot_vector_at params p n Hp L) as [U [E [LU A]]].
  exists U. split; auto. rewrite L in P1. replace (n + 1 - 1)%Z with n in P1 by lia.
  assert (PN : forall j, (1 <= j <= n)%Z -> 0 < atZ 0 params j) by (intros j Hj; rewrite <- P0 at 1; apply PI; lia).
  assert (PL : forall j, (0 <= j < n)%Z -> atZ 0 params j < 1) by (intros j Hj; rewrite <- P1; apply PI; lia).
  assert (MP : forall i, (p < i <= n)%Z -> 0 < mean params p (i - p - 1)).
  { intros i Hi. apply mean_gt; try lia. intros j Hj. apply PN. lia. }
  assert (M1 : forall i, (p < i <= n)%Z -> mean params p (i - p - 1) < 1).
  { intros i Hi. apply mean_lt; try lia. intros j Hj. apply PL. lia. }
  pose proof q01 as Q1.
  assert (V : valid_knots p n U).
  { split; [lia|]. split; [lia|]. split.
    - intros i j H1 H2 H3. rewrite LU in H3. rewrite !A by lia.
      destruct (Z.leb_spec i p), (Z.leb_spec j p); try lia; try apply Qcle_refl.
      + destruct (Z.leb_spec j n). { apply Qclt_le_weak, MP. lia. } apply Qclt_le_weak; auto.
      + destruct (Z.leb_spec i n), (Z.leb_spec j n); try lia; try apply Qcle_refl.
        * apply mean_mono; try lia. rewrite L. intros; apply PI; lia.
        * apply Qclt_le_weak, M1. lia.
    - rewrite !A by lia. destruct (Z.leb_spec n p), (Z.leb_spec (n + 1) p), (Z.leb_spec n n), (Z.leb_spec (n + 1) n); try lia; auto.
    }
  split; auto. split. { split; intros i Hi; rewrite !A by lia; repeat match goal with |- context [Z.leb ?a ?b] => destruct (Z.leb_spec a b); try lia end; auto. }
  split. { rewrite A by lia. destruct (Z.leb_spec 0 p); auto; lia. }
  split. { rewrite A by lia. repeat match goal with |- context [Z.leb ?a ?b] => destruct (Z.leb_spec a b); try lia end; auto. }
  split. { intros i Hi. rewrite A by lia. repeat match goal with |- context [Z.leb ?a ?b] => destruct (Z.leb_spec a b); try lia end; auto. }
  split.
  - intros i Hi. rewrite A by lia. destruct (Z.leb_spec i p). { apply PN; lia. } destruct (Z.leb_spec i n); [|lia].
    apply mean_lt; try lia. intros j Hj. apply PI; lia.
  - intros i Hi. rewrite A by lia. destruct (Z.leb_spec (i + p + 1) p); [lia|]. destruct (Z.leb_spec (i + p + 1) n).
    + apply mean_gt; try lia. intros j Hj. apply PI; lia.
    + apply PL; lia.
Qed.

(* ---- the coefficient matrix ----------------------------------------------- *)
Lemma firstn_repeat {A} (x : A) a n : (a <= n)%nat -> firstn a (repeat x n) = repeat x a.
Proof. revert n. induction a; intros [|n] H; cbn; auto; try lia. f_equal. apply IHa. lia. Qed.
Lemma skipn_repeat {A} (x : A) a n : skipn a (repeat x n) = repeat x (n - a).
Proof. revert n. induction a; intros [|n]; cbn; auto. Qed.

Lemma matrix_row_ok p n U u : valid_knots p n U -> knot U p <= u ->
  exists row, matrix_row (n + 1) p U u = Ok row /\ lenZ row = (n + 1)%Z /\
    forall j, (0 <= j <= n)%Z -> atZ 0 row j = cox_de_boor U n (Z.to_nat p) j u.
Proof.
  intros V Hu. pose proof V as [Hp [L _]]. unfold matrix_row.
  destruct (find_span_linear_ok p n U u V Hu) as [s [E S]]. rewrite E. cbn [bind]. pose proof S as [Hs _].
  destruct (basis_function_ok p n U u s V S) as [N [EN [LN HN]]]. rewrite EN. cbn [bind].
  eexists. split; [reflexivity|]. rewrite firstn_repeat by lia. rewrite skipn_repeat.
  split. { rewrite !lenZ_app, !lenZ_repeat, LN. lia. }
  intros j Hj. assert (Z0 : ~ (s - p <= j <= s)%Z -> cox_de_boor U n (Z.to_nat p) j u = 0).
  { intro H. rewrite (cdb_Bs p n U u s) by (auto; lia). apply Bs_support. lia. }
  destruct (Z_lt_dec j (s - p)).
  - rewrite atZ_app1 by (rewrite lenZ_repeat; lia). rewrite atZ_repeat. symmetry. apply Z0. lia.
  - rewrite atZ_app2 by (rewrite lenZ_repeat; lia). rewrite lenZ_repeat. destruct (Z_le_dec j s).
    + rewrite atZ_app1 by lia. rewrite HN by lia. f_equal. lia.
    + rewrite atZ_app2 by lia. rewrite atZ_repeat. symmetry. apply Z0. lia.
Qed.

Lemma matrix_rows_ok p n U : valid_knots p n U -> forall us, (forall i, (0 <= i < lenZ us)%Z -> knot U p <= atZ 0 us i) ->
  exists rows, matrix_rows (n + 1) p U us = Ok rows /\ lenZ rows = lenZ us /\
    forall i j, (0 <= i < lenZ us)%Z -> (0 <= j <= n)%Z ->
      atZ 0 (atZ [] rows i) j = cox_de_boor U n (Z.to_nat p) j (atZ 0 us i).
Proof.
  intros V. induction us as [|u us IH]; intros H; cbn [matrix_rows].
  - exists []. split; auto. split; auto. intros i j Hi. unfold lenZ in Hi. cbn in Hi. lia.
  - assert (Lc : forall (A : Type) (a : A) l, lenZ (a :: l) = (lenZ l + 1)%Z) by (intros; unfold lenZ; cbn [length]; lia).
    rewrite Lc in *.
    assert (Hc : forall (A : Type) (d a : A) l i, (0 < i)%Z -> atZ d (a :: l) i = atZ d l (i - 1)).
    { intros A d a l i Hi. unfold atZ. replace (Z.to_nat i) with (S (Z.to_nat (i - 1))) by lia. reflexivity. }
    destruct (matrix_row_ok p n U u V) as [row [E [LR HR]]].
    { apply (H 0%Z). pose proof (lenZ_nonneg us). lia. }
    destruct IH as [rows [ER [LRs HRs]]].
    { intros i Hi. specialize (H (i + 1)%Z). rewrite Hc in H by lia. replace (i + 1 - 1)%Z with i in H by lia. apply H. lia. }
    rewrite E. cbn [bind]. rewrite ER. cbn [bind]. exists (row :: rows). split; auto. rewrite Lc. split; [lia|].
    intros i j Hi Hj. destruct (Z.eq_dec i 0) as [->|].
    + change (atZ [] (row :: rows) 0) with row. change (atZ 0 (u :: us) 0) with u. auto.
    + rewrite !Hc by lia. apply HRs; lia.
Qed.

(* positivity of a basis function in the interior of its support *)
Lemma Bs_pos U s t : U s < U (s + 1)%Z -> U s <= t -> t < U (s + 1)%Z -> forall q,
  (forall i j, (s - Z.of_nat q + 1 <= i)%Z -> (i <= j)%Z -> (j <= s + Z.of_nat q)%Z -> U i <= U j) ->
  forall i, (s - Z.of_nat q <= i <= s)%Z -> ((i = s - Z.of_nat q)%Z \/ U i < t) -> 0 < Bs U s t q i.
Proof.
  intros Hs H1 H2. induction q as [|q IH]; intros M i Hi Ho; cbn [Bs].
  - replace i with s by lia. rewrite Z.eqb_refl. apply q01.
  - assert (IH' : forall i, (s - Z.of_nat q <= i <= s)%Z -> ((i = s - Z.of_nat q)%Z \/ U i < t) -> 0 < Bs U s t q i)
      by (apply IH; intros; apply M; lia). clear IH.
    assert (NN : forall i, 0 <= Bs U s t q i) by (apply Bs_nonneg; auto; [intros; apply M; lia|qlra]).
    assert (Mi : forall i j, (s - Z.of_nat q <= i)%Z -> (i <= j)%Z -> (j <= s + Z.of_nat (S q))%Z -> U i <= U j) by (intros; apply M; lia).
    destruct (Z.eq_dec i (s - Z.of_nat (S q))) as [->|Ne].
    + rewrite (Bs_support U s t q (s - Z.of_nat (S q))) by lia.
      replace (s - Z.of_nat (S q) + Z.of_nat (S q) + 1)%Z with (s + 1)%Z by lia.
      replace (s - Z.of_nat (S q) + 1)%Z with (s - Z.of_nat q)%Z by lia.
      assert (U (s - Z.of_nat q)%Z <= U s) by (apply Mi; lia).
      assert (0 < (U (s + 1)%Z - t) / (U (s + 1)%Z - U (s - Z.of_nat q)%Z) * Bs U s t q (s - Z.of_nat q)).
      { apply qc_mul_pos. apply qc_div_pos; qlra. apply IH'; auto; lia. }
      rewrite Qcmult_0_r, Qcplus_0_l. auto.
    + assert (Ui : U i < t) by (destruct Ho; [lia|auto]).
      assert (U (s + 1)%Z <= U (i + Z.of_nat (S q))%Z) by (apply Mi; lia).
      assert (T1 : 0 < (t - U i) / (U (i + Z.of_nat (S q))%Z - U i) * Bs U s t q i).
      { apply qc_mul_pos. apply qc_div_pos; qlra. apply IH'; auto; lia. }
      assert (T2 : 0 <= (U (i + Z.of_nat (S q) + 1)%Z - t) / (U (i + Z.of_nat (S q) + 1)%Z - U (i + 1)%Z) * Bs U s t q (i + 1)).
      { destruct (Z.eq_dec i s) as [->|]. { rewrite (Bs_support U s t q (s + 1)) by lia. rewrite Qcmult_0_r. apply Qcle_refl. }
        apply qc_mul_nonneg; auto. assert (U (i + 1)%Z <= U s) by (apply Mi; lia).
        assert (U (s + 1)%Z <= U (i + Z.of_nat (S q) + 1)%Z) by (apply Mi; lia). apply qc_div_nonneg; qlra. }
      qlra.
Qed.

Lemma cox_pos p n U u i : valid_knots p n U -> knot U p <= u -> u <= knot U (n + 1) -> (0 <= i <= n)%Z ->
  (knot U i < u \/ (i = 0%Z /\ u = knot U p /\ knot U p < knot U (p + 1))) ->
  ((u < knot U (i + p + 1) /\ u < knot U (n + 1)) \/ (i = n /\ u = knot U (n + 1))) ->
  0 < cox_de_boor U n (Z.to_nat p) i u.
Proof.
  intros V H1 H2 Hi HL HR. pose proof V as [Hp [L [M N]]].
  destruct (find_span_span_of p n U u V H1) as [s [_ S]]. pose proof S as [Hs [S1 S2]].
  destruct (span_of_bounds p n U u s V S H2) as [B1 B2]. pose proof (span_of_pos p n U u s V S) as B3.
  rewrite (cdb_Bs p n U u s) by (auto; lia).
  destruct (Qclt_le_dec u (knot U (n + 1))) as [C|C].
  - destruct (S1 C) as [_ S1b].
    assert (Hr : u < knot U (i + p + 1)).
    { destruct HR as [[HR _]|[_ HR]]; auto. rewrite HR in C. exfalso. qlra. }
    assert (Hlo : (s - p <= i)%Z).
    { destruct (Z_le_dec (s - p) i); auto. assert (knot U (i + p + 1) <= knot U s) by (apply M; lia). exfalso. qlra. }
    assert (Hhi : (i <= s)%Z).
    { destruct (Z_le_dec i s); auto. destruct HL as [HL|[HL _]]; [|lia].
      assert (knot U (s + 1) <= knot U i) by (apply M; lia). exfalso. qlra. }
    apply Bs_pos; auto; try lia.
    + intros a b A1 A2 A3. apply M; lia.
    + destruct HL as [HL|[-> [HL HL2]]]; [right; auto|left].
      assert (s = p).
      { destruct (Z.eq_dec s p); auto. assert (knot U (p + 1) <= knot U s) by (apply M; lia). rewrite HL in *. exfalso. qlra. }
      lia.
  - assert (s = n) by auto. subst s. assert (Eu : u = knot U (n + 1)) by (apply Qcle_antisym; auto).
    assert (i = n).
    { destruct HR as [[_ HR]|[HR _]]; auto. exfalso. qlra. }
    subst i. apply Bs_last_pos; [|qlra]. intros k Hk. assert (knot U (n + 1) <= knot U (n + k)) by (apply M; lia). qlra.
Qed.
