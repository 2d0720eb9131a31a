(* Theorems about Romberg integration. *)
From Coq Require Import List ZArith Lia Bool QArith Qcanon Qcabs.
From Verif Require Import Common ListLib QcLib ArrZ SumLib RombModel RombSpec RombProofs1 RombProofs2.
Import ListNotations.
Local Open Scope Z_scope.
Local Open Scope Qc_scope.

(* ---- C173: the result is the first acceptable diagonal entry of Romberg's table ---- *)
Theorem C173_romberg_table : forall f a b ms acc, (1 <= ms)%Z -> exists k,
  romberg1d f a b ms acc = Ok (romberg_value f a b k) /\ (Z.of_nat k < ms)%Z /\
  (Z.of_nat k = (ms - 1)%Z \/ (2 <= k)%nat /\ Qcabs (romberg_value f a b (k - 1) - romberg_value f a b k) < acc) /\
  forall k', (2 <= k' < k)%nat -> acc <= Qcabs (romberg_value f a b (k' - 1) - romberg_value f a b k').
Proof. exact romberg_ok. Qed.
Print Assumptions C173_romberg_table.
Definition recip (x : Qc) : Qc := / x.
Definition outq (r : res Qc) : Q := match r with Ok x => this x | Err _ => (-7777)%Q end.
Example C173_case : outq (romberg1d recip (zq 1) (zq 2) 3 0) = (4367 # 6300)%Q /\ this (romberg_value recip (zq 1) (zq 2) 2) = (4367 # 6300)%Q.
Proof. split; vm_compute; reflexivity. Qed.

(* ---- C174: polynomials are integrated exactly ---- *)
Theorem C174_exact : forall cs a b ms acc, (1 <= ms)%Z -> (Z.of_nat (length cs) <= 2 * ms)%Z -> (length cs <= 6)%nat \/ acc <= 0 ->
  romberg1d (poly_at cs) a b ms acc = Ok (poly_integral cs a b).
Proof.
  intros cs a b ms acc H L C. destruct (romberg_ok (poly_at cs) a b ms acc H) as [k [E [B [K W]]]]. rewrite E. f_equal.
  apply (romberg_exact cs a b k k); [|lia].
  destruct K as [K|[K1 K2]]; [lia|]. destruct C as [C|C]; [lia|]. exfalso.
  assert (Z : 0 <= Qcabs (romberg_value (poly_at cs) a b (k - 1) - romberg_value (poly_at cs) a b k)) by apply Qcabs_nonneg.
  apply (Qclt_not_le _ _ K2). eapply Qcle_trans; [exact C|exact Z].
Qed.
Print Assumptions C174_exact.
(* the entries of the table themselves *)
Theorem C174_table_exact : forall cs a b m i, (length cs <= 2 * S m)%nat -> (m <= i)%nat ->
  romberg_value (poly_at cs) a b i = poly_integral cs a b.
Proof. exact romberg_exact. Qed.
Print Assumptions C174_table_exact.
Definition quintic : list Qc := map zq [3; -1; 0; 2; 5; 7]%Z.
Example C174_case : length quintic = 6%nat /\ outq (romberg1d (poly_at quintic) (zq (-1)) (zq 2) 4 (zq 1)) = (243 # 2)%Q /\
  this (poly_integral quintic (zq (-1)) (zq 2)) = (243 # 2)%Q /\
  (* with two steps it is only exact for cubics *)
  outq (romberg1d (poly_at quintic) (zq (-1)) (zq 2) 2 (zq 1)) = (2673 # 16)%Q.
Proof. split; [reflexivity|]. split; [vm_compute; reflexivity|]. split; vm_compute; reflexivity. Qed.

(* ---- C175: the requested accuracy ---- *)
Definition wiggle : list Qc := map zq [0; 0; 9; (-150); 1045; (-3980); 9092; (-12800); 10880; (-5120); 1024]%Z.
Lemma poly_at_scale k cs x : poly_at (map (Qcmult k) cs) x = k * poly_at cs x.
Proof. induction cs as [|c r IH]; cbn [map poly_at]; [ring|]. rewrite IH. ring. Qed.
Lemma poly_prim_scale k cs x : forall j, poly_prim (map (Qcmult k) cs) j x = k * poly_prim cs j x.
Proof. induction cs as [|c r IH]; intro j; cbn [map poly_prim]; [ring|]. rewrite IH. field. apply zq_nz. lia. Qed.
Lemma romberg_value_scale f k i : romberg_value (fun x => k * f x) 0 1 i = k * romberg_value f 0 1 i.
Proof.
  unfold romberg_value. assert (G : forall j i, extrapolate (fun i => trapezoid (fun x => k * f x) 0 1 (2 ^ i)) j i = k * extrapolate (fun i => trapezoid f 0 1 (2 ^ i)) j i).
  { induction j as [|j IH]; intro i0; cbn [extrapolate]; [apply trapezoid_scale|]. rewrite !IH. rewrite q4_pow. field. apply q4_pow_gt. lia. }
  apply G.
Qed.
Lemma extrapolate_ext T T' : (forall i, T i = T' i) -> forall j i, extrapolate T j i = extrapolate T' j i.
Proof. intro H. induction j as [|j IH]; intro i; cbn [extrapolate]; [auto|]. now rewrite !IH. Qed.
(* for every accuracy and every bound there is a polynomial whose integral is
   wrong by more than the bound *)
Theorem C175_accuracy_refuted : forall acc bound ms, 0 < acc -> 0 < bound -> (3 <= ms)%Z ->
  exists cs, romberg1d (poly_at cs) 0 1 ms acc = Ok 0 /\ bound < poly_integral cs 0 1.
Proof.
  intros acc bound ms Ha Hb Hm. set (I0 := poly_integral wiggle 0 1).
  assert (P : 0 < I0) by (apply qlt_true; vm_compute; reflexivity).
  assert (N : I0 <> 0). { intro E. rewrite E in P. exact (Qclt_not_eq _ _ P eq_refl). }
  set (K := (bound + 1) / I0). exists (map (Qcmult K) wiggle). split.
  - destruct (romberg_ok (poly_at (map (Qcmult K) wiggle)) 0 1 ms acc) as [k [E [B [C W]]]]; [lia|]. rewrite E. f_equal.
    assert (V : forall i, romberg_value (poly_at (map (Qcmult K) wiggle)) 0 1 i = K * romberg_value (poly_at wiggle) 0 1 i).
    { intro i. rewrite <- romberg_value_scale. unfold romberg_value. apply extrapolate_ext. intro n. apply trapezoid_ext. intro. apply poly_at_scale. }
    assert (Z1 : romberg_value (poly_at wiggle) 0 1 1 = 0) by (apply Qc_is_canon; vm_compute; reflexivity).
    assert (Z2 : romberg_value (poly_at wiggle) 0 1 2 = 0) by (apply Qc_is_canon; vm_compute; reflexivity).
    assert (k = 2)%nat.
    { destruct (Nat.le_gt_cases k 2) as [L|L]; [destruct C as [C|[C _]]; lia|]. exfalso.
      specialize (W 2%nat ltac:(lia)). change (2 - 1)%nat with 1%nat in W. rewrite !V, Z1, Z2 in W.
      replace (K * 0 - K * 0) with 0 in W by ring. apply (Qclt_not_le _ _ Ha). replace (Qcabs 0) with 0 in W by (apply Qc_is_canon; reflexivity). exact W. }
    subst k. rewrite V, Z2. ring.
  - unfold poly_integral. rewrite !poly_prim_scale. replace (K * poly_prim wiggle 0 1 - K * poly_prim wiggle 0 0) with (K * I0) by (unfold I0, poly_integral; ring).
    unfold K. replace ((bound + 1) / I0 * I0) with (bound + 1) by (field; auto). qlra.
Qed.
Print Assumptions C175_accuracy_refuted.
Example C175_case : outq (romberg1d (poly_at wiggle) 0 1 16 (Q2Qc (1 # 10000000))) = 0%Q /\ 0 < poly_integral wiggle 0 1.
Proof. split; [vm_compute; reflexivity|apply qlt_true; vm_compute; reflexivity]. Qed.
