(* Array routines: proofs, third part. *)
From Coq Require Import List Arith ZArith Bool QArith Qcanon Lia Permutation Sorting.Sorted.
From Verif Require Import Common QcLib ListLib SumLib LuModel LuProofs1 SortModel SortSpec SortProofs SurfModel SurfProofs5 RtModel RtSpec RtProofs1.
Import ListNotations.
Local Open Scope Qc_scope.

(* means *)
Lemma qsum_app a b : qsum (a ++ b) = qsum a + qsum b.
Proof. unfold qsum. induction a as [|x a IH]; cbn [fold_right app]; [ring|]. rewrite IH. ring. Qed.
Lemma qsum_rev l : qsum (rev l) = qsum l.
Proof. induction l as [|x l IH]; [reflexivity|]. cbn [rev]. rewrite qsum_app, IH. unfold qsum. cbn [fold_right]. ring. Qed.
Lemma mean_rev l : mean (rev l) = mean l.
Proof. unfold mean. change (fold_right Qcplus 0 (rev l)) with (qsum (rev l)). rewrite qsum_rev, rev_length. reflexivity. Qed.
Lemma sum_bounds lo hi l : (forall x, In x l -> lo <= x /\ x <= hi) -> qn (length l) * lo <= qsum l /\ qsum l <= qn (length l) * hi.
Proof.
  induction l as [|x l IH]; intro H; unfold qsum in *; cbn [fold_right length]; [rewrite qn_0; split; qlra|]. destruct (H x (or_introl eq_refl)) as (A & B). destruct IH as (C & D); [intros; apply H; right; auto|]. rewrite qn_S.
  replace ((qn (length l) + 1) * lo) with (qn (length l) * lo + lo) by ring. replace ((qn (length l) + 1) * hi) with (qn (length l) * hi + hi) by ring. split; qlra.
Qed.
Lemma mean_bounds lo hi l : l <> [] -> (forall x, In x l -> lo <= x /\ x <= hi) -> lo <= mean l /\ mean l <= hi.
Proof.
  intros NE H. destruct (sum_bounds lo hi l H) as (A & B). assert (P : 0 < qn (length l)) by (apply qn_pos; destruct l; [contradiction|cbn; lia]). unfold mean. fold (qsum l).
  split; [apply qc_le_div; auto; rewrite Qcmult_comm; auto|apply qc_div_le; auto; rewrite Qcmult_comm; auto].
Qed.
(* groups *)
Lemma chained_snoc tol l x y : chained tol (l ++ [x]) -> x <= y -> y - x <= tol -> chained tol ((l ++ [x]) ++ [y]).
Proof.
  induction l as [|a l IH]; intros C A B; [cbn; auto|]. destruct l as [|b l]; [cbn in *; tauto|]. cbn [app] in *. cbn [chained] in *. destruct C as (C1 & C2 & C3). split; auto. split; auto. apply IH; auto.
Qed.
Lemma last_cons_app (g : list Qc) x r d : last (g ++ x :: r) d = last (x :: r) d.
Proof. induction g as [|a g IH]; [reflexivity|]. cbn [app]. destruct (g ++ x :: r) eqn:E; [destruct g; discriminate|]. cbn [last]. exact IH. Qed.
Lemma unique_loop_groups tol vals : forall out lst group, ascending (rev group ++ lst :: vals) -> chained tol (rev group ++ [lst]) ->
  exists g gs, unique_tol_loop tol vals out lst group = out ++ map mean (g :: gs) /\ concat (g :: gs) = rev group ++ lst :: vals /\
    Forall (fun g => g <> [] /\ chained tol g) (g :: gs) /\ apart tol (g :: gs) /\ hd 0 g = hd 0 (rev group ++ [lst]).
Proof.
  induction vals as [|v vals IH]; intros out lst group S C.
  - exists (rev group ++ [lst]), []. cbn [unique_tol_loop map concat apart]. split; [rewrite <- (mean_rev (lst :: group)); reflexivity|]. split; [apply app_nil_r|]. split; [constructor; auto; split; auto; destruct (rev group); discriminate|]. auto.
  - assert (LV : lst <= v).
    { clear - S. induction (rev group) as [|a l IHl]; cbn [app] in S; inversion S as [|? ? S1 S2]; subst; auto. inversion S2; auto. }
    cbn [unique_tol_loop]. assert (FA : fabs (v - lst) = v - lst) by (unfold fabs; rewrite (proj2 (qlt_false _ _)); [reflexivity|qlra]). rewrite FA. destruct (qle (v - lst) tol) eqn:E; [apply qle_true in E|apply qle_false in E].
    + destruct (IH out v (lst :: group)) as (g & gs & -> & H2 & H3 & H4 & H5).
      * cbn [rev]. rewrite <- app_assoc. exact S.
      * cbn [rev]. apply chained_snoc; auto.
      * exists g, gs. split; auto. cbn [rev] in H2, H5. rewrite <- app_assoc in H2. split; [exact H2|]. split; auto. split; auto. rewrite H5. destruct (rev group); reflexivity.
    + destruct (IH (out ++ [mean (lst :: group)]) v []) as (g & gs & -> & H2 & H3 & H4 & H5).
      * clear - S. cbn [rev app]. induction (rev group) as [|a l IHl]; cbn [app] in S; inversion S; subst; auto.
      * cbn. auto.
      * exists (rev group ++ [lst]), (g :: gs). split; [rewrite <- app_assoc; rewrite <- (mean_rev (lst :: group)); reflexivity|]. split; [change (concat ((rev group ++ [lst]) :: g :: gs)) with ((rev group ++ [lst]) ++ concat (g :: gs)); rewrite H2; cbn [rev app]; rewrite <- app_assoc; reflexivity|].
        split; [constructor; auto; split; auto; destruct (rev group); discriminate|]. split; [|reflexivity]. cbn [apart]. split; auto. rewrite H5. cbn [rev app hd]. rewrite last_cons_app. cbn [last]. exact E.
Qed.
Lemma unique_groups a tol : a <> [] -> exists gs, unique_with_tolerance a tol = Ok (map mean gs) /\ gs <> [] /\ concat gs = qsort a /\ Forall (fun g => g <> [] /\ chained tol g) gs /\ apart tol gs.
Proof.
  intro NE. unfold unique_with_tolerance. destruct (qsort_ok a) as (P & S). destruct (qsort a) as [|x r] eqn:E; [apply Permutation_sym, Permutation_nil in P; contradiction|].
  destruct (unique_loop_groups tol r [] x [] S) as (g & gs & -> & H2 & H3 & H4 & _); [cbn; auto|]. exists (g :: gs). split; auto. split; [discriminate|]. split; auto.
Qed.
Lemma chained_bounds tol g : chained tol g -> forall x, In x g -> hd 0 g <= x /\ x <= last g 0.
Proof.
  induction g as [|a g IH]; intros C x H; [destruct H|]. destruct g as [|b g].
  - destruct H as [->|[]]. cbn. split; qlra.
  - cbn [chained] in C. destruct C as (C1 & C2 & C3). specialize (IH C3). change (last (a :: b :: g) 0) with (last (b :: g) 0). cbn [hd] in *. destruct H as [->|H].
    + destruct (IH b (or_introl eq_refl)). split; qlra.
    + destruct (IH x H). split; auto. qlra.
Qed.
Lemma groups_spread tol gs : Forall (fun g => g <> [] /\ chained tol g) gs -> apart tol gs -> spread tol (map mean gs).
Proof.
  induction gs as [|g gs IH]; intros F A; [exact Logic.I|]. inversion F as [|? ? (N & C) F']; subst. destruct gs as [|h gs]; [exact Logic.I|]. cbn [apart] in A. destruct A as (A1 & A2). specialize (IH F' A2). inversion F' as [|? ? (N2 & C2) _]; subst.
  cbn [map spread] in *. split; [|exact IH]. destruct (mean_bounds (hd 0 g) (last g 0) g N (chained_bounds tol g C)) as (_ & M1). destruct (mean_bounds (hd 0 h) (last h 0) h N2 (chained_bounds tol h C2)) as (M2 & _). qlra.
Qed.
Lemma unique_spread a tol : a <> [] -> exists r, unique_with_tolerance a tol = Ok r /\ r <> [] /\ spread tol r.
Proof.
  intro NE. destruct (unique_groups a tol NE) as (gs & -> & N & _ & F & A). exists (map mean gs). split; auto. split; [destruct gs; [contradiction|discriminate]|]. apply groups_spread; auto.
Qed.
Lemma asc_perm_eq : forall a b, ascending a -> ascending b -> Permutation a b -> a = b.
Proof.
  induction a as [|x a IH]; intros b A B P; [apply Permutation_nil in P; auto|]. destruct b as [|y b]; [apply Permutation_sym, Permutation_nil in P; discriminate|].
  inversion A as [|? ? A1 A2]; subst. inversion B as [|? ? B1 B2]; subst. rewrite Forall_forall in *.
  assert (E : x = y).
  { apply Qcle_antisym.
    - destruct (Permutation_in y (Permutation_sym P) (or_introl eq_refl)) as [->|H]; [qlra|auto].
    - destruct (Permutation_in x P (or_introl eq_refl)) as [->|H]; [qlra|auto]. }
  subst y. f_equal. apply IH; auto. eapply Permutation_cons_inv; eauto.
Qed.
Lemma unique_perm a b tol : Permutation a b -> unique_with_tolerance a tol = unique_with_tolerance b tol.
Proof.
  intro P. unfold unique_with_tolerance. destruct (qsort_ok a) as (P1 & S1). destruct (qsort_ok b) as (P2 & S2). replace (qsort b) with (qsort a); auto. apply asc_perm_eq; auto.
  exact (perm_trans (Permutation_sym P1) (perm_trans P P2)).
Qed.
Lemma unique_chain x tol : 0 < tol -> exists m, unique_with_tolerance [x; x + tol; x + (tol + tol); x + (tol + tol + tol)] tol = Ok [m] /\ tol < m - x.
Proof.
  intro T. unfold unique_with_tolerance. rewrite (proj2 (sorted_unchanged _)).
  - cbn [unique_tol_loop]. assert (F : forall y, fabs (y + tol - y) = tol) by (intro y; replace (y + tol - y) with tol by ring; unfold fabs; rewrite (proj2 (qlt_false _ _)); [reflexivity|qlra]).
    rewrite F. rewrite (proj2 (qle_true tol tol)) by qlra. replace (x + (tol + tol)) with (x + tol + tol) by ring. rewrite F. rewrite (proj2 (qle_true tol tol)) by qlra. replace (x + (tol + tol + tol)) with (x + tol + tol + tol) by ring. rewrite F. rewrite (proj2 (qle_true tol tol)) by qlra.
    cbn [app]. eexists. split; [reflexivity|]. assert (P : 0 < qn 4) by (apply qn_pos; lia). set (s := mean _).
    assert (E : s * qn 4 = x + tol + tol + tol + (x + tol + tol + (x + tol + (x + 0)))). { unfold s, mean. cbn [fold_right length]. unfold Qcdiv. rewrite <- Qcmult_assoc, (Qcmult_comm (/ _)), Qcmult_inv_r; [ring|]. intro K. rewrite K in P. qlra. }
    assert (Q4 : qn 4 = 1 + 1 + 1 + 1) by (apply Qc_is_canon; reflexivity). rewrite Q4 in E. clearbody s. qlra.
  - unfold ascending. repeat (constructor; [|repeat constructor; qlra]). constructor.
Qed.

(* the boolean operation *)
Lemma crossings_ok hits : exists n, crossings hits = Ok n.
Proof. destruct hits as [|x r]; [eexists; reflexivity|]. cbn [crossings]. destruct (unique_groups (x :: r) (Q2Qc (1 # 100000)) ltac:(discriminate)) as (gs & -> & _). eexists. reflexivity. Qed.
Section Boolean.
Context {seg : Type}.
Definition keeps (second : bool) (op : Z) (b : bool) : bool := match keep second op b with Ok k => k | Err _ => false end.
Lemma select_ok second op hits (segs : list seg) : (op = 0 \/ op = 1 \/ op = 2)%Z -> select seg second op hits segs = Ok (filter (fun s => keeps second op (inside hits s)) segs).
Proof.
  intro O. induction segs as [|s r IH]; [reflexivity|]. cbn [select filter]. rewrite IH. unfold inside at 2. destruct (crossings_ok (hits s)) as (n & ->). cbn [bind].
  destruct O as [-> | [-> | ->]]; unfold keeps, keep; cbn [Z.eqb Pos.eqb bind]; destruct (Nat.odd n), second; reflexivity.
Qed.
Lemma boolean_ok params split1 split2 hits2 hits1 : params <> [] -> let A := split1 (sorted_set (map fst params)) in let B := split2 (sorted_set (map snd params)) in
  curve_boolean_operation seg params split1 split2 hits2 hits1 0 = Ok (filter (fun s => negb (inside hits2 s)) A ++ filter (fun s => negb (inside hits1 s)) B) /\
  curve_boolean_operation seg params split1 split2 hits2 hits1 1 = Ok (filter (inside hits2) A ++ filter (inside hits1) B) /\
  curve_boolean_operation seg params split1 split2 hits2 hits1 2 = Ok (filter (fun s => negb (inside hits2 s)) A ++ filter (inside hits1) B).
Proof.
  intros NE A B. unfold curve_boolean_operation. destruct params as [|p params]; [contradiction|]. fold A. fold B. rewrite !select_ok by lia. cbn [bind]. auto.
Qed.
Lemma select_unknown second op hits (segs : list seg) : (op <> 0 -> op <> 1 -> op <> 2 -> segs <> [] -> select seg second op hits segs = Err ValueError)%Z.
Proof.
  intros A B C NE. destruct segs as [|s r]; [contradiction|]. cbn [select]. destruct (crossings_ok (hits s)) as (n & ->). cbn [bind]. unfold keep. rewrite (proj2 (Z.eqb_neq op 0) A), (proj2 (Z.eqb_neq op 1) B), (proj2 (Z.eqb_neq op 2) C). reflexivity.
Qed.
Lemma filter_perm (f : seg -> bool) l : Permutation (filter (fun s => negb (f s)) l ++ filter f l) l.
Proof.
  induction l as [|x l IH]; [constructor|]. cbn [filter]. destruct (f x); cbn [negb app].
  - eapply perm_trans; [apply Permutation_sym, Permutation_middle|]. constructor. exact IH.
  - constructor. exact IH.
Qed.
Lemma close_pair (hits : seg -> list Qc) s x y : hits s = [x; y] -> x <= y -> y - x <= Q2Qc (1 # 100000) -> inside hits s = true.
Proof.
  intros H L C. unfold inside. rewrite H. cbn [crossings]. unfold unique_with_tolerance. rewrite (proj2 (sorted_unchanged _)).
  - cbn [unique_tol_loop]. assert (F : fabs (y - x) = y - x) by (unfold fabs; rewrite (proj2 (qlt_false _ _)); [reflexivity|qlra]). rewrite F, (proj2 (qle_true _ _) C). reflexivity.
  - unfold ascending. repeat (constructor; auto).
Qed.
End Boolean.

