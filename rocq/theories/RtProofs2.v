(* Array routines: proofs, second part. *)
From Coq Require Import List Arith ZArith Znumtheory Bool QArith Qcanon Qround Lia Permutation Sorting.Sorted.
From Verif Require Import Common QcLib ListLib SumLib LuModel LuProofs1 RtModel RtSpec RtProofs1.
Import ListNotations.
Local Open Scope Qc_scope.

(* tuples *)
Lemma insert_ok {T} (tpl : list T) i v : exists pre post, tpl = pre ++ post /\ insert_in_tuple tpl i v = pre ++ v :: post /\
  (let n := Z.of_nat (length tpl) in Z.of_nat (length pre) = if i <? 0 then Z.max 0 (n + i) else Z.min i n)%Z.
Proof.
  exists (firstn (slice_at tpl i) tpl), (skipn (slice_at tpl i) tpl). split; [symmetry; apply firstn_skipn|]. split; [reflexivity|]. cbv zeta. rewrite firstn_length. unfold slice_at.
  destruct (i <? 0)%Z eqn:E; [apply Z.ltb_lt in E|apply Z.ltb_ge in E]; lia.
Qed.

(* shapes *)
Lemma zsize_app a b : zsize (a ++ b) = (zsize a * zsize b)%Z.
Proof. unfold zsize. induction a as [|x a IH]; [cbn; destruct (fold_right Z.mul 1%Z b); reflexivity|]. cbn [fold_right app]. rewrite IH. ring. Qed.
Lemma zsize_cons x a : zsize (x :: a) = (x * zsize a)%Z. Proof. reflexivity. Qed.
Lemma zsize_pos s : Forall (fun d => 0 < d)%Z s -> (0 < zsize s)%Z.
Proof. induction 1; cbn; [lia|]. unfold zsize in IHForall. nia. Qed.
Lemma norm_index {T} (l : list T) i d : (- Z.of_nat (length l) <= i < Z.of_nat (length l))%Z ->
  let k := Z.to_nat (if (i <? 0)%Z then Z.of_nat (length l) + i else i)%Z in
  let i' := (if (i <? 0)%Z then Z.of_nat (length l) + i else i)%Z in
  (k < length l)%nat /\ py_get l i' = Ok (nth k l d) /\ slice_at l i' = k /\ slice_at l (i' + 1) = S k.
Proof.
  intros H k i'. assert (I0 : (0 <= i' < Z.of_nat (length l))%Z) by (unfold i'; destruct (i <? 0)%Z eqn:E; [apply Z.ltb_lt in E|apply Z.ltb_ge in E]; lia).
  assert (K : k = Z.to_nat i') by reflexivity. clearbody i'. split; [lia|]. split.
  - unfold py_get. rewrite (proj2 (Z.leb_le _ _)) by lia. rewrite (proj2 (Z.ltb_lt _ _)) by lia. cbn [andb]. rewrite (proj2 (Z.ltb_ge i' 0)) by lia. rewrite <- K. apply getR_nth. lia.
  - unfold slice_at. rewrite (proj2 (Z.ltb_ge i' 0)), (proj2 (Z.ltb_ge (i' + 1) 0)) by lia. lia.
Qed.
Lemma split_at {T} (l : list T) k d : (k < length l)%nat -> l = firstn k l ++ nth k l d :: skipn (S k) l.
Proof. revert k. induction l as [|x l IH]; intros k H; [cbn in H; lia|]. destruct k as [|k]; [reflexivity|]. cbn [firstn nth skipn app]. f_equal. apply IH. cbn in H. lia. Qed.
Lemma reshape_ok {T} (a : arr T) s : Forall (fun d => 0 <= d)%Z s -> zsize s = Z.of_nat (length (fst a)) -> reshape a s = Ok (fst a, s).
Proof. intros F E. unfold reshape. rewrite (proj2 (forallb_forall _ _)) by (intros x Hx; apply Z.leb_le; rewrite Forall_forall in F; auto). rewrite (proj2 (Z.eqb_eq _ _) E). reflexivity. Qed.
Lemma reshape_err {T} (a : arr T) s : zsize s <> Z.of_nat (length (fst a)) -> reshape a s = Err ValueError.
Proof. intro E. unfold reshape. rewrite (proj2 (Z.eqb_neq _ _) E). rewrite andb_false_r. reflexivity. Qed.
Lemma div_exact (d v : Z) : (0 < v)%Z -> (v * (d / v) = d <-> (v | d))%Z.
Proof. intro V. split; [intro E; exists (d / v)%Z; lia|]. intros (q & ->). rewrite Z.div_mul by lia. lia. Qed.
(* replacing one dimension of a shape by two *)
Lemma reshape_split {T} (a : arr T) pre post d x y v : wf a -> snd a = pre ++ d :: post -> (0 < v)%Z -> (x = v /\ y = (d / v)%Z) \/ (x = (d / v)%Z /\ y = v) ->
  ((v | d)%Z -> reshape a (pre ++ [x; y] ++ post) = Ok (fst a, pre ++ [x; y] ++ post)) /\ (~ (v | d)%Z -> reshape a (pre ++ [x; y] ++ post) = Err ValueError).
Proof.
  intros (W1 & W2) E V XY. rewrite E in *. apply Forall_app in W2. destruct W2 as (F1 & F2). inversion F2 as [|? ? D F3]; subst.
  assert (P1 := zsize_pos _ F1). assert (P3 := zsize_pos _ F3). rewrite zsize_app, zsize_cons in W1.
  assert (XY' : (x * y = v * (d / v))%Z) by (destruct XY as [(-> & ->)|(-> & ->)]; ring).
  assert (Q : zsize (pre ++ [x; y] ++ post) = (zsize pre * (v * (d / v) * zsize post))%Z) by (rewrite !zsize_app, !zsize_cons, <- XY'; cbn [zsize fold_right]; ring).
  assert (DV := Z.div_pos d v ltac:(lia) V).
  split; intro H.
  - apply reshape_ok; [|rewrite Q; rewrite (proj2 (div_exact d v V) H); exact W1]. apply Forall_app. split; [eapply Forall_impl; [|exact F1]; cbn; lia|]. cbn [app]. constructor; [destruct XY as [(-> & ->)|(-> & ->)]; lia|]. constructor; [destruct XY as [(-> & ->)|(-> & ->)]; lia|].
    eapply Forall_impl; [|exact F3]. cbn. lia.
  - apply reshape_err. rewrite Q, <- W1. intro K. apply H. apply (div_exact d v V). apply Z.mul_cancel_l in K; [|lia]. apply Z.mul_cancel_r in K; [|lia]. exact K.
Qed.
Lemma split_dim_ok {T} (a : arr T) i v : wf a -> (0 < v)%Z -> (- Z.of_nat (length (snd a)) <= i < Z.of_nat (length (snd a)))%Z ->
  exists pre d post, snd a = pre ++ d :: post /\ Z.of_nat (length pre) = (if i <? 0 then Z.of_nat (length (snd a)) + i else i)%Z /\
    ((v | d)%Z -> split_dim a i v Before = Ok (fst a, pre ++ [v; (d / v)%Z] ++ post) /\ split_dim a i v After = Ok (fst a, pre ++ [(d / v)%Z; v] ++ post)) /\
    (~ (v | d)%Z -> split_dim a i v Before = Err ValueError /\ split_dim a i v After = Err ValueError).
Proof.
  intros W V I'. destruct (norm_index (snd a) i 0%Z I') as (K & G & S1 & S2). set (i' := (if i <? 0 then Z.of_nat (length (snd a)) + i else i)%Z) in *. set (k := Z.to_nat i') in *.
  exists (firstn k (snd a)), (nth k (snd a) 0%Z), (skipn (S k) (snd a)). assert (E := split_at (snd a) k 0%Z K). split; [exact E|].
  split; [rewrite firstn_length; assert (0 <= i')%Z by (unfold i'; destruct (i <? 0)%Z eqn:Q; [apply Z.ltb_lt in Q|apply Z.ltb_ge in Q]; lia); unfold k in *; lia|].
  unfold split_dim, insert_before_in_shape, insert_after_in_shape. cbv zeta. fold i'. rewrite G, S1, S2. cbn [bind]. unfold zdiv. rewrite (proj2 (Z.eqb_neq v 0)) by lia. cbn [bind].
  set (d := nth k (snd a) 0%Z) in *.
  destruct (reshape_split a _ _ d v (d / v)%Z v W E V (or_introl (conj eq_refl eq_refl))) as (A1 & A2). destruct (reshape_split a _ _ d (d / v)%Z v v W E V (or_intror (conj eq_refl eq_refl))) as (B1 & B2).
  split; intro H; split; auto.
Qed.
Lemma split_dim_zero {T} (a : arr T) i at_place : (- Z.of_nat (length (snd a)) <= i < Z.of_nat (length (snd a)))%Z -> at_place <> Other -> split_dim a i 0 at_place = Err ZeroDivision.
Proof.
  intros I' NO. destruct (norm_index (snd a) i 0%Z I') as (K & G & S1 & S2). destruct at_place; [| |contradiction]; unfold split_dim, insert_before_in_shape, insert_after_in_shape; cbv zeta; rewrite G; reflexivity.
Qed.
(* an index just below the valid range *)
Lemma insert_low tpl v : tpl <> [] -> v <> 0%Z -> insert_after_in_shape tpl (- Z.of_nat (length tpl) - 1) v = Ok (removelast tpl ++ [(last tpl 0 / v)%Z; v] ++ tpl).
Proof.
  intros NE V. assert (L : (0 < length tpl)%nat) by (destruct tpl; [contradiction|cbn; lia]). unfold insert_after_in_shape. cbv zeta. rewrite (proj2 (Z.ltb_lt _ 0)) by lia.
  replace (Z.of_nat (length tpl) + (- Z.of_nat (length tpl) - 1))%Z with (-1)%Z by lia. unfold py_get. rewrite (proj2 (Z.leb_le _ _)) by lia. rewrite (proj2 (Z.ltb_lt _ _)) by lia. cbn [andb Z.ltb Z.compare].
  rewrite (getR_nth 0%Z) by lia. cbn [bind]. unfold zdiv. rewrite (proj2 (Z.eqb_neq v 0) V). cbn [bind]. f_equal. unfold slice_at. cbn [Z.ltb Z.compare Z.add].
  replace (Nat.min (Z.to_nat 0) (length tpl)) with 0%nat by lia. cbn [skipn]. replace (Z.to_nat (Z.max 0 (Z.of_nat (length tpl) + -1))) with (length tpl - 1)%nat by lia.
  replace (Z.to_nat (Z.of_nat (length tpl) + -1)) with (length tpl - 1)%nat by lia.
  destruct (exists_last NE) as (t & x & ->). rewrite removelast_last, last_last, app_length. cbn [length]. replace (length t + 1 - 1)%nat with (length t) by lia. rewrite app_nth2 by lia. rewrite Nat.sub_diag. cbn [nth].
  rewrite firstn_app, Nat.sub_diag, firstn_all. cbn [firstn]. rewrite app_nil_r. reflexivity.
Qed.
(* add_dim and remove_dim *)
Lemma wf_split {T} (a : arr T) q v other : wf a -> Forall (fun d => 0 < d)%Z (q :: v :: other) -> zsize (q :: v :: other) = zsize (snd a) -> wf (fst a, q :: v :: other).
Proof. intros (W1 & W2) F E. split; cbn [fst snd]; [rewrite E; exact W1|exact F]. Qed.
Lemma add_once {T} (a : arr T) first other v : wf a -> snd a = first :: other -> (0 < v)%Z ->
  ((v | first)%Z -> add_dim_once a v = Ok (fst a, (first / v)%Z :: v :: other) /\ wf (fst a, (first / v)%Z :: v :: other)) /\ (~ (v | first)%Z -> add_dim_once a v = Err ValueError).
Proof.
  intros W E V. assert (R := reshape_split a [] other first (first / v)%Z v v W E V (or_intror (conj eq_refl eq_refl))). cbn [app] in R. destruct R as (R1 & R2). unfold add_dim_once. rewrite E. unfold zdiv. rewrite (proj2 (Z.eqb_neq v 0)) by lia. cbn [bind].
  split; auto. intro D. split; auto. destruct W as (W1 & W2). rewrite E in *. inversion W2 as [|? ? F1 F2]; subst. assert (X := proj2 (div_exact first v V) D). split; cbn [fst snd].
  - rewrite !zsize_cons in *. rewrite <- W1. rewrite <- X at 2. ring.
  - constructor; [nia|]. constructor; auto.
Qed.
Lemma div_prod (v p f : Z) : (0 < v)%Z -> (v | f)%Z -> ((p | f / v) <-> (v * p | f))%Z.
Proof. intros V (q & ->). rewrite Z.div_mul by lia. split; intros (k & E); [exists k; rewrite E; ring|exists k; apply (Z.mul_cancel_r _ _ v); lia]. Qed.
Lemma add_rev_ok {T} vals : forall (a : arr T) first other, wf a -> snd a = first :: other -> vals <> [] -> Forall (fun v => 0 < v)%Z vals ->
  ((zsize vals | first)%Z -> add_dim_rev a vals = Ok (fst a, (first / zsize vals)%Z :: rev vals ++ other)) /\ (~ (zsize vals | first)%Z -> add_dim_rev a vals = Err ValueError).
Proof.
  induction vals as [|v vals IH]; intros a first other W E NE F; [contradiction|]. inversion F as [|? ? V F']; subst. destruct (add_once a first other v W E V) as (A1 & A2).
  destruct vals as [|w vals].
  - cbn [add_dim_rev]. rewrite zsize_cons. change (zsize []) with 1%Z. rewrite Z.mul_1_r. split; intro H; [rewrite (proj1 (A1 H)); reflexivity|auto].
  - set (r := w :: vals) in *. assert (EQ : add_dim_rev a (v :: r) = bind (add_dim_once a v) (fun b => add_dim_rev b r)) by reflexivity. rewrite EQ. rewrite zsize_cons.
    assert (RN : r <> []) by discriminate. assert (PR := zsize_pos r F').
    destruct (Znumtheory.Zdivide_dec v first) as [D|D].
    + destruct (A1 D) as (-> & W'). cbn [bind]. destruct (IH (fst a, (first / v)%Z :: v :: other) (first / v)%Z (v :: other) W' eq_refl RN F') as (B1 & B2). cbn [fst] in *. rewrite (div_prod v (zsize r) first V D) in B1, B2. split; intro H; auto.
      rewrite (B1 H). rewrite Z.div_div by lia. cbn [rev]. rewrite <- app_assoc. reflexivity.
    + rewrite (A2 D). cbn [bind]. split; intro H; auto. exfalso. apply D. destruct H as (q & ->). exists (q * zsize r)%Z. ring.
Qed.
Lemma zsize_rev l : zsize (rev l) = zsize l.
Proof. induction l as [|x l IH]; [reflexivity|]. cbn [rev]. rewrite zsize_app, IH, !zsize_cons. change (zsize []) with 1%Z. ring. Qed.
Lemma add_dim_ok {T} (a : arr T) first other vals : wf a -> snd a = first :: other -> vals <> [] -> Forall (fun v => 0 < v)%Z vals ->
  ((zsize vals | first)%Z -> add_dim a vals = Ok (fst a, (first / zsize vals)%Z :: vals ++ other)) /\ (~ (zsize vals | first)%Z -> add_dim a vals = Err ValueError).
Proof.
  intros W E NE F. unfold add_dim. assert (RN : rev vals <> []) by (intro K; apply NE; rewrite <- (rev_involutive vals), K; reflexivity).
  assert (RF : Forall (fun v => 0 < v)%Z (rev vals)) by (apply Forall_rev; auto). destruct (add_rev_ok (rev vals) a first other W E RN RF) as (A & B). rewrite zsize_rev, rev_involutive in *. auto.
Qed.
Lemma remove_ok {T} (a : arr T) count : wf a -> snd a <> [] -> remove_dim a count = Ok (fst a, zsize (firstn (count + 1) (snd a)) :: skipn (count + 1) (snd a)).
Proof.
  intros (W1 & W2) NE. unfold remove_dim. destruct (snd a) as [|x s] eqn:E; [contradiction|]. rewrite <- E in *. 
  assert (F := W2). rewrite <- (firstn_skipn (count + 1) (snd a)) in F. apply Forall_app in F. destruct F as (F1 & F2).
  apply reshape_ok; [constructor; [apply Z.lt_le_incl, zsize_pos; auto|eapply Forall_impl; [|exact F2]; cbn; lia]|]. rewrite zsize_cons, <- zsize_app, firstn_skipn. exact W1.
Qed.
Lemma remove_add {T} (a : arr T) first other vals b : wf a -> snd a = first :: other -> vals <> [] -> Forall (fun v => 0 < v)%Z vals -> add_dim a vals = Ok b -> remove_dim b (length vals) = Ok a.
Proof.
  intros W E NE F H. destruct (add_dim_ok a first other vals W E NE F) as (A & B). destruct (Znumtheory.Zdivide_dec (zsize vals) first) as [D|D]; [|rewrite (B D) in H; discriminate]. rewrite (A D) in H. injection H as <-.
  assert (PV := zsize_pos _ F). assert (X := proj2 (div_exact first (zsize vals) PV) D). destruct W as (W1 & W2). rewrite E in *. inversion W2 as [|? ? F1 F2]; subst.
  assert (WB : wf (fst a, (first / zsize vals)%Z :: vals ++ other)).
  { split; cbn [fst snd]; [rewrite <- W1, !zsize_cons, zsize_app; rewrite <- X at 2; ring|constructor; [nia|apply Forall_app; auto]]. }
  rewrite remove_ok by (auto; discriminate). cbn [fst snd].
  rewrite Nat.add_1_r. cbn [firstn skipn]. rewrite firstn_app, firstn_all, Nat.sub_diag, skipn_app, skipn_all, Nat.sub_diag. cbn [firstn skipn app]. rewrite app_nil_r, zsize_cons. replace (first / zsize vals * zsize vals)%Z with first by lia. rewrite <- E. destruct a; reflexivity.
Qed.

(* parts *)
Lemma skip_skip {T} (a : list T) : forall n m, skipn n (skipn m a) = skipn (m + n) a.
Proof. induction a as [|x a IH]; intros n m; [destruct n, m; reflexivity|]. destruct m as [|m]; [reflexivity|]. cbn [Nat.add skipn]. apply IH. Qed.
Lemma rows_skip {T} (a : list T) lo c : (lo <= c)%nat -> rows a lo c ++ skipn c a = skipn lo a.
Proof. intro H. unfold rows. replace (skipn c a) with (skipn (c - lo) (skipn lo a)) by (rewrite skip_skip; f_equal; lia). apply firstn_skipn. Qed.
Lemma vsplit_concat {T} (a : list T) parts : forall lo, concat (vsplit a lo (cumsum lo parts)) = skipn lo a.
Proof.
  induction parts as [|p parts IH]; intro lo; cbn [cumsum vsplit concat].
  - rewrite app_nil_r. unfold rows. rewrite firstn_all2; [reflexivity|]. rewrite skipn_length. lia.
  - rewrite IH. apply rows_skip. lia.
Qed.
Lemma vsplit_length {T} (a : list T) parts : forall lo, length (vsplit a lo (cumsum lo parts)) = S (length parts).
Proof. induction parts as [|p parts IH]; intro lo; cbn [cumsum vsplit length]; [reflexivity|]. rewrite IH. reflexivity. Qed.
Lemma vsplit_sizes {T} (a : list T) parts : forall lo, (lo + total parts <= length a)%nat -> map (@length T) (vsplit a lo (cumsum lo parts)) = parts ++ [(length a - lo - total parts)%nat].
Proof.
  unfold total. induction parts as [|p parts IH]; intros lo H; cbn [cumsum vsplit map fold_right app] in *.
  - f_equal. unfold rows. rewrite firstn_length, skipn_length. lia.
  - f_equal; [unfold rows; rewrite firstn_length, skipn_length; lia|]. rewrite IH by lia. f_equal. f_equal. lia.
Qed.
Lemma rev_last (parts : list nat) : parts <> [] -> exists r, rev parts = last parts 0%nat :: r.
Proof. intro NE. destruct (exists_last NE) as (l & x & ->). rewrite rev_unit, last_last. eauto. Qed.
Lemma split_parts {T} (a : list T) parts : parts <> [] -> (last parts 0 <= length a)%nat -> exists ps, split_by_parts a parts = Ok ps /\ concat ps = a /\ length ps = (length parts + 1)%nat /\
  ((total parts <= length a)%nat -> map (@length T) ps = parts ++ [(length a - total parts)%nat]).
Proof.
  intros NE L. unfold split_by_parts. destruct (rev_last parts NE) as (r & ->). rewrite (proj2 (Nat.ltb_ge _ _)) by lia. eexists. split; [reflexivity|]. split; [apply (vsplit_concat a parts 0)|]. split; [rewrite vsplit_length; lia|].
  intro H. rewrite (vsplit_sizes a parts 0) by lia. rewrite Nat.sub_0_r. reflexivity.
Qed.
Lemma last_le_total parts : (last parts 0 <= total parts)%nat.
Proof. unfold total. induction parts as [|p [|q r] IH]; cbn [last fold_right] in *; lia. Qed.
Lemma split_parts_empty {T} (a : list T) parts : parts <> [] -> total parts = length a -> exists ps, split_by_parts a parts = Ok (ps ++ [[]]) /\ length ps = length parts.
Proof.
  intros NE E. destruct (split_parts a parts NE) as (ps & -> & C & L & M); [rewrite <- E; apply last_le_total|]. specialize (M ltac:(lia)). rewrite E, Nat.sub_diag in M.
  assert (PN : ps <> []) by (destruct ps; [cbn in L; lia|discriminate]). destruct (exists_last PN) as (q & x & ->). rewrite app_length in L. cbn [length] in L. rewrite map_app in M. cbn [map] in M. apply app_inj_tail in M. destruct M as (_ & X).
  destruct x; [|discriminate]. exists q. split; auto. lia.
Qed.

(* intervals *)
Lemma ceiling_pos (q : Qc) : 0 < q -> exists n, Qceiling (this q) = Z.of_nat (S n) /\ qn n < q /\ q <= qn (S n).
Proof.
  intro H. assert (A := Qle_ceiling (this q)). assert (B := Qceiling_lt (this q)). assert (Z0 : (0 < Qceiling (this q))%Z).
  { apply qc_lt_Q in H. change (this 0) with 0%Q in H. assert (X : (0 < inject_Z (Qceiling (this q)))%Q) by (eapply Qlt_le_trans; eauto). change 0%Q with (inject_Z 0) in X. rewrite <- Zlt_Qlt in X. exact X. }
  exists (Z.to_nat (Qceiling (this q)) - 1)%nat. set (c := Qceiling (this q)) in *. split; [lia|]. split.
  - apply qc_lt_Q. unfold qn. rewrite this_Q2Qc. replace (Z.of_nat (Z.to_nat c - 1)) with (c - 1)%Z by lia. exact B.
  - apply qc_le_Q. unfold qn. rewrite this_Q2Qc. replace (Z.of_nat (S (Z.to_nat c - 1))) with c by lia. exact A.
Qed.
Lemma divide_ok start stop step : 0 < step -> start < stop -> exists n, divide_interval start stop step = Ok (map (fun i => (start + qn i * step, start + qn (S i) * step)) (seq 0 (S n))) /\
  start + qn n * step < stop /\ stop <= start + qn (S n) * step.
Proof.
  intros S0 AB. unfold divide_interval, arange. destruct (qeq step 0) eqn:E; [apply qeq_true in E; rewrite E in S0; qlra|]. cbn [bind].
  assert (P : 0 < (stop - start) / step) by (apply qc_div_pos; auto; qlra). destruct (ceiling_pos _ P) as (n & -> & A & B). exists n. rewrite Nat2Z.id.
  assert (X : (stop - start) / step * step = stop - start) by (unfold Qcdiv; rewrite <- Qcmult_assoc, (Qcmult_comm (/ step)), Qcmult_inv_r; [ring|intro K; rewrite K in S0; qlra]).
  split; [f_equal; rewrite map_map; apply map_ext; intro i; f_equal; rewrite qn_S; ring|].
  set (q := (stop - start) / step) in *. clearbody q. split.
  - assert (M := qc_mul_pos (q - qn n) step ltac:(qlra) S0). replace ((q - qn n) * step) with (q * step - qn n * step) in M by ring. rewrite X in M. qlra.
  - assert (M := qc_mul_nonneg (qn (S n) - q) step ltac:(qlra) ltac:(qlra)). replace ((qn (S n) - q) * step) with (qn (S n) * step - q * step) in M by ring. rewrite X in M. qlra.
Qed.
Lemma divide_over start stop step : 0 < step -> start < stop -> (forall k, stop <> start + qn k * step) -> exists rows a b, divide_interval start stop step = Ok (rows ++ [(a, b)]) /\ a < stop /\ stop < b.
Proof.
  intros S0 AB NK. destruct (divide_ok start stop step S0 AB) as (n & -> & A & B). rewrite seq_S, map_app. cbn [map Nat.add]. do 3 eexists. split; [reflexivity|]. split; auto.
  apply Qcle_lt_or_eq in B. destruct B as [B|B]; auto. exfalso. exact (NK (S n) B).
Qed.

(* cubic curve *)
Lemma cubic_casteljau p0 c0 c1 p1 t : cubic_coord p0 c0 c1 p1 t = casteljau p0 c0 c1 p1 t.
Proof. unfold cubic_coord, casteljau, lerp. replace (qn 3) with (1 + 1 + 1) by (apply Qc_is_canon; reflexivity). ring. Qed.
Lemma lerp_between a b t lo hi : lo <= a -> lo <= b -> a <= hi -> b <= hi -> 0 <= t -> t <= 1 -> lo <= lerp a b t /\ lerp a b t <= hi.
Proof. intros. unfold lerp. split; qnra. Qed.
Lemma cubic_box p0 c0 c1 p1 t lo hi : Forall (fun x => lo <= x /\ x <= hi) [p0; c0; c1; p1] -> 0 <= t -> t <= 1 -> lo <= cubic_coord p0 c0 c1 p1 t /\ cubic_coord p0 c0 c1 p1 t <= hi.
Proof.
  intros F T0 T1. rewrite cubic_casteljau. unfold casteljau. inversion F as [|? ? (A1 & A2) F1]; subst. inversion F1 as [|? ? (B1 & B2) F2]; subst. inversion F2 as [|? ? (C1 & C2) F3]; subst. inversion F3 as [|? ? (D1 & D2) _]; subst.
  destruct (lerp_between p0 c0 t lo hi) as (E1 & E2); auto. destruct (lerp_between c0 c1 t lo hi) as (G1 & G2); auto. destruct (lerp_between c1 p1 t lo hi) as (H1 & H2); auto.
  destruct (lerp_between (lerp p0 c0 t) (lerp c0 c1 t) t lo hi) as (I1 & I2); auto. destruct (lerp_between (lerp c0 c1 t) (lerp c1 p1 t) t lo hi) as (J1 & J2); auto. apply lerp_between; auto.
Qed.
Lemma cubic_ends p0 c0 c1 p1 : cubic_coord p0 c0 c1 p1 0 = p0 /\ cubic_coord p0 c0 c1 p1 1 = p1.
Proof. unfold cubic_coord. split; ring. Qed.

(* column_concat *)
Lemma join_repeat a v : join_rows a (repeat v (length a)) = map (fun r => r ++ v) a.
Proof. unfold join_rows. induction a as [|r a IH]; [reflexivity|]. cbn. rewrite IH. reflexivity. Qed.
Lemma join_nth a b i : length a = length b -> (i < length a)%nat -> nth i (join_rows a b) [] = nth i a [] ++ nth i b [].
Proof.
  unfold join_rows. revert b i. induction a as [|r a IH]; intros [|s b] i L H; cbn in *; try lia. destruct i as [|i]; [reflexivity|]. apply IH; lia.
Qed.
