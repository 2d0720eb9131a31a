(* Newton with a constraint, colours, segments, shapes: proofs. *)
From Coq Require Import List Arith ZArith Bool QArith Qcanon Qround Lia.
From Verif Require Import Common QcLib ListLib RtModel NcsModel NcsSpec RtProofs1.
Import ListNotations.
Local Open Scope Qc_scope.

Section Newton.
Variable inv : list (list Qc) -> option (list (list Qc)).
Variable norm : list Qc -> Qc.
Variable gradient : (list Qc -> Qc) -> list Qc -> list Qc.
Variable hessian : (list Qc -> Qc) -> list Qc -> list (list Qc).
Variable df : list Qc -> list Qc.
Variable h : list Qc -> list (list Qc).
Variable g : list Qc -> Qc.
Variables tol lam : Qc.
Variables nw fl : bool.
Variable mi : nat.
Variable p0 : list Qc.
Notation it := (iterate inv df (gradient g) h lam).
Notation st := (newton_step inv df (gradient g) h lam).
Notation loop := (nloop inv norm gradient hessian df h g tol lam nw fl mi).
Lemma small_dec x : {small norm tol (st x) x (newton_next inv df (gradient g) h lam x)} + {~ small norm tol (st x) x (newton_next inv df (gradient g) h lam x)}.
Proof.
  unfold small. destruct (Qclt_le_dec (ndot (st x) (st x)) tol) as [A|A]; [left; auto|]. destruct (Qclt_le_dec (norm (nsub x (newton_next inv df (gradient g) h lam x))) tol) as [B|B]; [left; auto|]. right. intros [C|C]; eapply Qclt_not_le; eauto.
Qed.
Lemma loop_step n k bound hi : let x := it k p0 in
  (inv (h x) = None \/ inv (hessian g x) = None) \/
  (exists m, inv (h x) = Some m /\ small norm tol (st x) x (it (S k) p0) /\ loop (S n) k x bound hi = Ok (if fl then NFull (Some (it (S k) p0)) (nsub (df x) (nscale lam (gradient g x))) (madd (h x) (map (nscale lam) (hessian g x))) m k else NPoint (it (S k) p0))) \/
  (exists m b, inv (h x) = Some m /\ ~ small norm tol (st x) x (it (S k) p0) /\ loop (S n) k x bound hi = loop n (k + 1)%nat (it (S k) p0) (Some b) (Some m)).
Proof.
  intro x. destruct (inv (h x)) as [m|] eqn:E1; [|auto]. destruct (inv (hessian g x)) as [m2|] eqn:E2; [|auto]. right.
  assert (S1 : st x = mapply m (nsub (df x) (nscale lam (gradient g x)))) by (unfold newton_step; rewrite E1; reflexivity).
  assert (S2 : it (S k) p0 = nsub x (st x)) by reflexivity. cbn [nloop]. cbv zeta. rewrite E1, E2, <- S1, <- S2.
  destruct (qlt (ndot (st x) (st x)) tol) eqn:A.
  - left. apply qlt_true in A. exists m. split; [reflexivity|]. split; [left; exact A|reflexivity].
  - destruct (qlt (norm (nsub x (it (S k) p0))) tol) eqn:B.
    + left. apply qlt_true in B. exists m. split; [reflexivity|]. split; [right; exact B|reflexivity].
    + right. apply qlt_false in A. apply qlt_false in B. exists m. eexists. split; [reflexivity|]. split; [|reflexivity]. intros [C|C]; eapply Qclt_not_le; eauto.
Qed.
Lemma finish_not_full pt b hi p gF hF hi' k : nfinish nw fl mi pt b hi <> Ok (NFull (Some p) gF hF hi' k).
Proof. unfold nfinish. destruct (_ && _); [discriminate|]. destruct fl; [|discriminate]. destruct b as [[[? ?] ?]|]; [|discriminate]. destruct hi; discriminate. Qed.
Lemma singular_finish n k bound hi : (inv (h (it k p0)) = None \/ inv (hessian g (it k p0)) = None) -> exists hi', loop (S n) k (it k p0) bound hi = nfinish nw fl mi (it k p0) bound hi'.
Proof.
  intros H. cbn [nloop]. cbv zeta. destruct (inv (h (it k p0))) as [m|]; [|eauto]. destruct H as [H|H]; [discriminate|]. rewrite H. eauto.
Qed.
Lemma loop_full : forall n k bound hi p gF hF hi' j, loop n k (it k p0) bound hi = Ok (NFull (Some p) gF hF hi' j) ->
  (k <= j < k + n)%nat /\ p = it (S j) p0 /\ small norm tol (st (it j p0)) (it j p0) (it (S j) p0) /\ (forall i, (k <= i < j)%nat -> ~ small norm tol (st (it i p0)) (it i p0) (it (S i) p0)).
Proof.
  induction n as [|n IH]; intros k bound hi p gF hF hi' j E; [exfalso; exact (finish_not_full _ _ _ _ _ _ _ _ E)|].
  destruct (loop_step n k bound hi) as [S|[(m & A & B & C)|(m & b & A & B & C)]].
  - destruct (singular_finish n k bound hi S) as (x & F). rewrite F in E. exfalso; exact (finish_not_full _ _ _ _ _ _ _ _ E).
  - rewrite C in E. destruct fl; [|discriminate]. assert (P : p = it (S k) p0) by congruence. assert (J : j = k) by congruence. subst p j. split; [lia|]. split; [reflexivity|]. split; [exact B|]. intros i Hi. lia.
  - rewrite C in E. replace (k + 1)%nat with (S k) in E by lia. apply IH in E. destruct E as (H1 & H2 & H3 & H4). split; [lia|]. split; [exact H2|]. split; [exact H3|]. intros i Hi. destruct (Nat.eq_dec i k) as [->|]; [exact B|apply H4; lia].
Qed.
(* a regular run with a small step ends there *)
Lemma loop_reaches : forall n k bound hi j, (k <= j < k + n)%nat -> (forall i, (k <= i <= j)%nat -> inv (h (it i p0)) <> None /\ inv (hessian g (it i p0)) <> None) ->
  (forall i, (k <= i < j)%nat -> ~ small norm tol (st (it i p0)) (it i p0) (it (S i) p0)) -> small norm tol (st (it j p0)) (it j p0) (it (S j) p0) -> fl = false -> loop n k (it k p0) bound hi = Ok (NPoint (it (S j) p0)).
Proof.
  induction n as [|n IH]; intros k bound hi j L R NS SM F; [lia|]. destruct (loop_step n k bound hi) as [S|[(m & A & B & C)|(m & b & A & B & C)]].
  - destruct (R k ltac:(lia)). tauto.
  - rewrite C, F. destruct (Nat.eq_dec j k) as [->|]; [reflexivity|]. exfalso. exact (NS k ltac:(lia) B).
  - rewrite C. replace (k + 1)%nat with (S k) by lia. destruct (Nat.eq_dec j k) as [->|]; [contradiction|]. apply IH; auto; try lia; intros i Hi; [apply R|apply NS]; lia.
Qed.
(* no small step: the last point after max_iter steps *)
Lemma loop_limit : forall n k bound hi, (forall i, (k <= i < k + n)%nat -> inv (h (it i p0)) <> None /\ inv (hessian g (it i p0)) <> None /\ ~ small norm tol (st (it i p0)) (it i p0) (it (S i) p0)) -> (bound <> None \/ (0 < n)%nat) -> fl = false ->
  loop n k (it k p0) bound hi = Ok (NPoint (it (k + n) p0)).
Proof.
  induction n as [|n IH]; intros k bound hi R B F.
  - cbn. unfold nfinish. rewrite F. destruct B as [B|B]; [|lia]. destruct bound; [|congruence]. rewrite andb_false_r, Nat.add_0_r. reflexivity.
  - destruct (loop_step n k bound hi) as [S|[(m & A & S & C)|(m & b & A & S & C)]].
    + destruct (R k ltac:(lia)) as (? & ? & ?). tauto.
    + destruct (R k ltac:(lia)) as (? & ? & ?). contradiction.
    + rewrite C. replace (k + 1)%nat with (Datatypes.S k) by lia. replace (k + Datatypes.S n)%nat with (Datatypes.S k + n)%nat by lia. apply IH; auto; [intros i Hi; apply R; lia|left; discriminate].
Qed.
End Newton.

(* rounding *)
Lemma round_nearest x : nearest x (round_even x).
Proof.
  unfold round_even. cbv zeta. set (f := Qfloor (this x)). set (F := Q2Qc (inject_Z f)).
  assert (A : F <= x) by (unfold Qcle; cbn [F this Q2Qc]; rewrite Qred_correct; apply Qfloor_le).
  assert (B : x < F + 1). { unfold Qclt. unfold Qcplus. cbn [F this Q2Qc]. rewrite !Qred_correct. change (this 1) with 1%Q. change 1%Q with (inject_Z 1). rewrite <- inject_Z_plus. apply Qlt_floor. }
  assert (C : Q2Qc (inject_Z (f + 1)) = F + 1). { apply Qc_is_canon. unfold Qcplus. cbn [F this Q2Qc]. rewrite !Qred_correct. change (this 1) with 1%Q. rewrite inject_Z_plus. reflexivity. }
  unfold nearest. destruct (qlt (x - F) (Q2Qc (1 # 2))) eqn:D1.
  - apply qlt_true in D1. fold F. split; qlra.
  - apply qlt_false in D1. destruct (qlt (Q2Qc (1 # 2)) (x - F)) eqn:D2.
    + apply qlt_true in D2. rewrite C. split; qlra.
    + apply qlt_false in D2. destruct (Z.even f); [fold F|rewrite C]; split; qlra.
Qed.
Lemma zq_le a b : (Q2Qc (inject_Z a) <= Q2Qc (inject_Z b)) <-> (a <= b)%Z.
Proof. unfold Qcle. cbn [this Q2Qc]. rewrite !Qred_correct. rewrite <- Zle_Qle. reflexivity. Qed.
Lemma zq_plus a b : Q2Qc (inject_Z (a + b)) = Q2Qc (inject_Z a) + Q2Qc (inject_Z b).
Proof. apply Qc_is_canon. unfold Qcplus. cbn [this Q2Qc]. rewrite !Qred_correct. rewrite inject_Z_plus. reflexivity. Qed.
Lemma nearest_int k j : nearest (Q2Qc (inject_Z k)) j -> j = k.
Proof.
  intros (A & B). assert (H1 : (j < k + 1)%Z). { destruct (Z_lt_le_dec j (k + 1)) as [|K]; [auto|]. apply zq_le in K. rewrite zq_plus in K. change (Q2Qc (inject_Z 1)) with 1 in K. exfalso. qlra. }
  assert (H2 : (k < j + 1)%Z). { destruct (Z_lt_le_dec k (j + 1)) as [|K]; [auto|]. apply zq_le in K. rewrite zq_plus in K. change (Q2Qc (inject_Z 1)) with 1 in K. exfalso. qlra. }
  lia.
Qed.
Lemma round_int k : round_even (Q2Qc (inject_Z k)) = k.
Proof. apply nearest_int. apply round_nearest. Qed.
Lemma nearest_range x k (n : Z) : 0 <= x -> x <= Q2Qc (inject_Z n) -> nearest x k -> (0 <= k <= n)%Z.
Proof.
  intros A B (C & D). split.
  - destruct (Z_le_gt_dec 0 k) as [|K]; [auto|]. assert (K' : (k <= -1)%Z) by lia. apply zq_le in K'. change (Q2Qc (inject_Z (-1))) with (Q2Qc (-1 # 1)) in K'. exfalso. qlra.
  - destruct (Z_le_gt_dec k n) as [|K]; [auto|]. assert (K' : (n + 1 <= k)%Z) by lia. apply zq_le in K'. rewrite zq_plus in K'. change (Q2Qc (inject_Z 1)) with 1 in K'. exfalso. qlra.
Qed.

(* hexadecimal *)
Lemma hex2_small n : (n < 256)%nat -> hex2 n = [(n / 16)%nat; (n mod 16)%nat].
Proof.
  intro H. unfold hex2. cbn [digits]. destruct (Nat.ltb_spec n 16) as [L|L].
  - cbn [length Nat.ltb Nat.leb]. rewrite Nat.div_small, Nat.mod_small by auto. reflexivity.
  - destruct n as [|n]; [lia|]. assert (D : (S n / 16 < 16)%nat) by (apply Nat.div_lt_upper_bound; lia). cbn [digits]. destruct (Nat.ltb_spec (S n / 16) 16); [|lia]. reflexivity.
Qed.
Lemma digits_bound fuel : forall n, Forall (fun d => d < 16)%nat (digits fuel n).
Proof.
  induction fuel as [|f IH]; intro n; [constructor|]. cbn [digits]. destruct (Nat.ltb_spec n 16); [constructor; [auto|constructor]|]. apply Forall_app. split; [apply IH|]. constructor; [|constructor]. apply Nat.mod_upper_bound. lia.
Qed.
Lemma hex2_bound n : Forall (fun d => d < 16)%nat (hex2 n).
Proof. unfold hex2. cbv zeta. destruct (_ <? 2)%nat; [constructor; [lia|]|]; apply digits_bound. Qed.
Lemma two_digits l k : Forall (fun d => d < 16)%nat l -> (length l <= 2)%nat -> from_digits l = Ok k -> (k < 256)%nat.
Proof.
  intros F L E. destruct l as [|a [|b [|c l]]]; cbn in L; try lia; try discriminate; unfold from_digits in E; injection E as <-; inversion F as [|? ? Ha F']; subst; cbn [fold_left]; [lia|]. inversion F' as [|? ? Hb]; subst. lia.
Qed.
Lemma Forall_firstn {A} (P : A -> Prop) n l : Forall P l -> Forall P (firstn n l).
Proof. intro H. revert n. induction H; intros [|n]; cbn; constructor; auto. Qed.
Lemma Forall_skipn {A} (P : A -> Prop) n l : Forall P l -> Forall P (skipn n l).
Proof. revert l. induction n as [|n IH]; intros l H; [exact H|]. destruct H; cbn; [constructor|auto]. Qed.

(* argmin *)
Lemma argmin_from_spec l : forall pre best bv, (best < length pre)%nat -> nth best pre 0 = bv -> (forall i, (i < length pre)%nat -> bv <= nth i pre 0) -> (forall i, (i < best)%nat -> bv < nth i pre 0) ->
  let b := argmin_from best bv (length pre) l in (b < length (pre ++ l))%nat /\ (forall i, (i < length (pre ++ l))%nat -> nth b (pre ++ l) 0 <= nth i (pre ++ l) 0) /\ (forall i, (i < b)%nat -> nth b (pre ++ l) 0 < nth i (pre ++ l) 0).
Proof.
  induction l as [|x r IH]; intros pre best bv HB HV HM HF; cbn [argmin_from].
  - rewrite app_nil_r. rewrite HV. auto.
  - assert (E : pre ++ x :: r = (pre ++ [x]) ++ r) by (rewrite <- app_assoc; reflexivity). assert (L : (length pre + 1 = length (pre ++ [x]))%nat) by (rewrite app_length; reflexivity). rewrite E. destruct (qlt x bv) eqn:Q.
    + apply qlt_true in Q. rewrite L. apply IH.
      * rewrite app_length. cbn. lia.
      * rewrite app_nth2, Nat.sub_diag by lia. reflexivity.
      * intros i Hi. rewrite app_length in Hi. cbn in Hi. destruct (Nat.eq_dec i (length pre)) as [->|]; [rewrite app_nth2, Nat.sub_diag by lia; apply Qcle_refl|]. rewrite app_nth1 by lia. apply Qclt_le_weak. eapply Qclt_le_trans; [exact Q|apply HM; lia].
      * intros i Hi. rewrite app_nth1 by lia. eapply Qclt_le_trans; [exact Q|apply HM; lia].
    + apply qlt_false in Q. rewrite L. apply IH.
      * rewrite app_length. lia.
      * rewrite app_nth1 by lia. exact HV.
      * intros i Hi. rewrite app_length in Hi. cbn in Hi. destruct (Nat.eq_dec i (length pre)) as [->|]; [rewrite app_nth2, Nat.sub_diag by lia; exact Q|]. rewrite app_nth1 by lia. apply HM. lia.
      * intros i Hi. rewrite app_nth1 by lia. apply HF. exact Hi.
Qed.
Lemma argmin_spec l b : argmin l = Ok b -> (b < length l)%nat /\ (forall i, (i < length l)%nat -> nth b l 0 <= nth i l 0) /\ (forall i, (i < b)%nat -> nth b l 0 < nth i l 0).
Proof.
  destruct l as [|x r]; [discriminate|]. intro E. injection E as <-. apply (argmin_from_spec r [x] 0 x); cbn; auto; [|lia]. intros [|i] Hi; [apply Qcle_refl|lia].
Qed.
