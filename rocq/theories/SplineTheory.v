(* Mathematics of one knot span: de Boor steps, their commutation, the
   blossom (polar form) and the dual functional property.  Pure theory over
   knot functions Z -> Qc; no model content. *)
From Coq Require Import List ZArith Lia Bool QArith Qcanon Permutation.
From Verif Require Import QcLib.
Import ListNotations.
Local Open Scope Z_scope.
Local Open Scope Qc_scope.

(* sums over lo, lo+1, ..., lo+c-1 *)
Fixpoint sum_n (c : nat) (lo : Z) (f : Z -> Qc) : Qc :=
  match c with O => 0 | S c' => f lo + sum_n c' (lo + 1) f end.

Lemma sum_n_ext c : forall lo f g,
  (forall i, (lo <= i < lo + Z.of_nat c)%Z -> f i = g i) -> sum_n c lo f = sum_n c lo g.
Proof.
  induction c as [|c IH]; intros lo f g H; simpl; auto.
  rewrite (H lo) by lia. f_equal. apply IH. intros i Hi. apply H. lia.
Qed.
Lemma sum_n_last c : forall lo f, sum_n (S c) lo f = sum_n c lo f + f (lo + Z.of_nat c)%Z.
Proof.
  induction c as [|c IH]; intros lo f.
  - simpl. replace (lo + 0)%Z with lo by lia. ring.
  - cbn [sum_n] in *. rewrite IH. replace (lo + 1 + Z.of_nat c)%Z with (lo + Z.of_nat (S c))%Z by lia. ring.
Qed.
Lemma sum_n_add c : forall lo f g, sum_n c lo (fun i => f i + g i) = sum_n c lo f + sum_n c lo g.
Proof. induction c as [|c IH]; intros; simpl; [ring|]. rewrite IH. ring. Qed.
Lemma sum_n_scal c : forall lo k f, sum_n c lo (fun i => k * f i) = k * sum_n c lo f.
Proof. induction c as [|c IH]; intros; simpl; [ring|]. rewrite IH. ring. Qed.
Lemma sum_n_shift c : forall lo f k, sum_n c lo (fun i => f (i + k)%Z) = sum_n c (lo + k) f.
Proof.
  induction c as [|c IH]; intros; simpl; auto. rewrite IH.
  replace (lo + 1 + k)%Z with (lo + k + 1)%Z by lia. auto.
Qed.
Lemma sum_n_zero c : forall lo f, (forall i, (lo <= i < lo + Z.of_nat c)%Z -> f i = 0) -> sum_n c lo f = 0.
Proof.
  induction c as [|c IH]; intros lo f H; simpl; auto. rewrite H by lia. rewrite IH; [ring|].
  intros; apply H; lia.
Qed.
Lemma sum_n_app a b : forall lo f, sum_n (a + b) lo f = sum_n a lo f + sum_n b (lo + Z.of_nat a) f.
Proof.
  induction a as [|a IH]; intros lo f.
  - simpl. replace (lo + 0)%Z with lo by lia. ring.
  - cbn [sum_n Nat.add]. rewrite IH. replace (lo + 1 + Z.of_nat a)%Z with (lo + Z.of_nat (S a))%Z by lia. ring.
Qed.
Lemma sum_n_nonneg c : forall lo f, (forall i, (lo <= i < lo + Z.of_nat c)%Z -> 0 <= f i) -> 0 <= sum_n c lo f.
Proof.
  induction c as [|c IH]; intros lo f H; simpl; [apply Qcle_refl|].
  assert (0 <= f lo) by (apply H; lia). assert (0 <= sum_n c (lo+1) f) by (apply IH; intros; apply H; lia). qlra.
Qed.
Lemma sum_n_le c : forall lo f g, (forall i, (lo <= i < lo + Z.of_nat c)%Z -> f i <= g i) -> sum_n c lo f <= sum_n c lo g.
Proof.
  induction c as [|c IH]; intros lo f g H; simpl; [apply Qcle_refl|].
  assert (f lo <= g lo) by (apply H; lia). assert (sum_n c (lo+1) f <= sum_n c (lo+1) g) by (apply IH; intros; apply H; lia). qlra.
Qed.
Lemma sum_n_pos c : forall lo f k, (lo <= k < lo + Z.of_nat c)%Z ->
  (forall i, (lo <= i < lo + Z.of_nat c)%Z -> 0 <= f i) -> 0 < f k -> 0 < sum_n c lo f.
Proof.
  induction c as [|c IH]; intros lo f k Hk H Hp; simpl; [lia|].
  destruct (Z.eq_dec k lo) as [->|].
  - assert (0 <= sum_n c (lo+1) f) by (apply sum_n_nonneg; intros; apply H; lia). qlra.
  - assert (0 <= f lo) by (apply H; lia). assert (0 < sum_n c (lo+1) f) by (apply (IH _ _ k); auto; intros; try lia; apply H; lia). qlra.
Qed.
(* a sum with support inside a window *)
Lemma sum_n_window c w : forall lo s f,
  (lo <= s)%Z -> (s + Z.of_nat w <= lo + Z.of_nat c)%Z ->
  (forall i, (lo <= i < lo + Z.of_nat c)%Z -> ~ (s <= i < s + Z.of_nat w)%Z -> f i = 0) ->
  sum_n c lo f = sum_n w s f.
Proof.
  intros lo s f H1 H2 H0.
  assert (E : c = (Z.to_nat (s - lo) + (w + Z.to_nat (lo + Z.of_nat c - s - Z.of_nat w)))%nat) by lia.
  rewrite E. rewrite !sum_n_app. rewrite (sum_n_zero (Z.to_nat (s - lo))).
  2:{ intros; apply H0; lia. }
  replace (lo + Z.of_nat (Z.to_nat (s - lo)))%Z with s by lia.
  rewrite (sum_n_zero (Z.to_nat _)); [ring|].
  intros; apply H0; lia.
Qed.

(* One de Boor step: combine d(i-1), d(i) over the knots U(i), U(i+j). *)
Definition D (U : Z -> Qc) (j : Z) (t : Qc) (d : Z -> Qc) (i : Z) : Qc :=
  ((t - U i) * d i + (U (i + j)%Z - t) * d (i - 1)%Z) / (U (i + j)%Z - U i).

(* Apply the steps of levels p, p-1, ..., 1 with parameters ts; read at s. *)
Fixpoint chain (U : Z -> Qc) (s : Z) (ts : list Qc) (d : Z -> Qc) : Qc :=
  match ts with
  | [] => d s
  | t :: ts' => chain U s ts' (D U (Z.of_nat (length ts)) t d)
  end.

(* all knot differences met around span s up to level p are non-zero *)
Definition ndg (U : Z -> Qc) (s : Z) (p : nat) : Prop :=
  forall i j, (1 <= j <= Z.of_nat p)%Z -> (s - j + 1 <= i <= s)%Z -> U i <> U (i + j)%Z.

Lemma ndg_le U s p q : (q <= p)%nat -> ndg U s p -> ndg U s q.
Proof. intros H N i j Hj Hi. apply N; lia. Qed.

Lemma ndg_sorted U s p :
  (forall i j, (s - Z.of_nat p + 1 <= i)%Z -> (i <= j)%Z -> (j <= s + Z.of_nat p)%Z -> U i <= U j) ->
  U s < U (s + 1)%Z -> ndg U s p.
Proof.
  intros M L i j Hj Hi E.
  assert (U i <= U s) by (apply M; lia). assert (U (s+1)%Z <= U (i + j)%Z) by (apply M; lia).
  rewrite <- E in H0. qlra.
Qed.

Lemma chain_ext U s : forall ts d e,
  (forall i, (s - Z.of_nat (length ts) <= i <= s)%Z -> d i = e i) -> chain U s ts d = chain U s ts e.
Proof.
  induction ts as [|t ts IH]; intros d e H; cbn [chain].
  - apply H. simpl. lia.
  - apply IH. intros i Hi. unfold D. cbn [length] in *. rewrite !H by lia. auto.
Qed.

Lemma chain_knots_ext U V s : forall ts d,
  (forall i, (s - Z.of_nat (length ts) + 1 <= i <= s + Z.of_nat (length ts))%Z -> U i = V i) ->
  chain U s ts d = chain V s ts d.
Proof.
  induction ts as [|t ts IH]; intros d H; cbn [chain]; auto.
  rewrite IH. 2:{ intros; apply H; cbn [length]; lia. }
  apply chain_ext. intros i Hi. unfold D. cbn [length] in *. rewrite !H by lia. auto.
Qed.

Lemma D_lin U j t d e a b i :
  D U j t (fun k => a * d k + b * e k) i = a * D U j t d i + b * D U j t e i.
Proof. unfold D, Qcdiv. ring. Qed.

Lemma chain_lin U s : forall ts d e a b,
  chain U s ts (fun k => a * d k + b * e k) = a * chain U s ts d + b * chain U s ts e.
Proof.
  induction ts as [|t ts IH]; intros d e a b; cbn [chain]; auto.
  rewrite <- IH. apply chain_ext. intros i _. apply D_lin.
Qed.

Lemma D_affine U j a x y d i :
  D U j (a * x + (1 - a) * y) d i = a * D U j x d i + (1 - a) * D U j y d i.
Proof. unfold D, Qcdiv. ring. Qed.

Lemma chain_affine U s ts d a x y :
  chain U s ((a * x + (1 - a) * y) :: ts) d
  = a * chain U s (x :: ts) d + (1 - a) * chain U s (y :: ts) d.
Proof.
  cbn [chain length]. rewrite <- chain_lin. apply chain_ext. intros i _. apply D_affine.
Qed.

Lemma D_comm U j x y d i :
  U i <> U (i + j)%Z -> U i <> U (i + (j + 1))%Z -> U (i - 1)%Z <> U (i + j)%Z ->
  D U j x (D U (j + 1) y d) i = D U j y (D U (j + 1) x d) i.
Proof.
  intros H1 H2 H3. unfold D.
  replace (i - 1 + (j + 1))%Z with (i + j)%Z by lia.
  generalize dependent (U i). generalize dependent (U (i + j)%Z). intros b c.
  intros a H1 H2. generalize dependent (U (i + (j+1))%Z). generalize dependent (U (i - 1)%Z).
  intros e H3 f H2.
  field. repeat split; intro; [apply H3|apply H2|apply H1]; qlra.
Qed.

Lemma chain_swap U s x y ts d :
  ndg U s (length (x :: y :: ts)) ->
  chain U s (x :: y :: ts) d = chain U s (y :: x :: ts) d.
Proof.
  intros N. cbn [chain length]. apply chain_ext. intros i Hi. cbn [length] in N.
  replace (Z.of_nat (S (S (length ts)))) with (Z.of_nat (S (length ts)) + 1)%Z by lia.
  apply D_comm.
  - apply N; lia.
  - apply N; lia.
  - replace (i + Z.of_nat (S (length ts)))%Z with ((i - 1) + (Z.of_nat (S (length ts)) + 1))%Z by lia. apply N; lia.
Qed.

Lemma chain_perm U s l l' : Permutation l l' -> forall d, ndg U s (length l) ->
  chain U s l d = chain U s l' d.
Proof.
  induction 1 as [|x l l' P IH|x y l|l1 l2 l3 P1 IH1 P2 IH2]; intros d N; auto.
  - cbn [chain length]. rewrite (Permutation_length P). apply IH.
    apply (ndg_le _ _ (length (x :: l))); auto. simpl; lia.
  - apply chain_swap. auto.
  - rewrite IH1 by auto. apply IH2. now rewrite <- (Permutation_length P1).
Qed.

(* the knots U(i+1), ..., U(i+p) *)
Fixpoint kn (U : Z -> Qc) (i : Z) (p : nat) : list Qc :=
  match p with O => [] | S q => U (i + 1)%Z :: kn U (i + 1) q end.

Lemma kn_length U p : forall i, length (kn U i p) = p.
Proof. induction p; intros; simpl; auto. Qed.
Lemma kn_snoc U p : forall i, kn U i (S p) = kn U i p ++ [U (i + Z.of_nat (S p))%Z].
Proof.
  induction p as [|p IH]; intros i.
  - reflexivity.
  - change (kn U i (S (S p))) with (U (i+1)%Z :: kn U (i+1) (S p)). rewrite IH.
    replace (i + 1 + Z.of_nat (S p))%Z with (i + Z.of_nat (S (S p)))%Z by lia. reflexivity.
Qed.
Lemma kn_app U a b : forall i, kn U i (a + b) = kn U i a ++ kn U (i + Z.of_nat a) b.
Proof.
  induction a as [|a IH]; intros i.
  - simpl. f_equal; lia.
  - cbn [Nat.add kn app]. rewrite IH. replace (i + 1 + Z.of_nat a)%Z with (i + Z.of_nat (S a))%Z by lia. auto.
Qed.
Lemma kn_ext U V p : forall i j, (forall k, (1 <= k <= Z.of_nat p)%Z -> U (i + k)%Z = V (j + k)%Z) -> kn U i p = kn V j p.
Proof.
  induction p as [|p IH]; intros i j H; simpl; auto. f_equal.
  - apply H; lia.
  - apply IH. intros k Hk. rewrite <- !Z.add_assoc. apply H. lia.
Qed.
Lemma kn_const U c p : forall i, (forall k, (1 <= k <= Z.of_nat p)%Z -> U (i + k)%Z = c) -> kn U i p = repeat c p.
Proof.
  induction p as [|p IH]; intros i H; simpl; auto. f_equal. apply H; lia.
  apply IH. intros k Hk. rewrite <- Z.add_assoc. apply H. lia.
Qed.

(* Dual functional property: the blossom at consecutive knots returns the
   control value. *)
Lemma chain_dual U s : forall p d i,
  ndg U s p -> (s - Z.of_nat p <= i <= s)%Z -> chain U s (kn U i p) d = d i.
Proof.
  induction p as [|p IH]; intros d i N Hi.
  - simpl. f_equal. lia.
  - assert (N' : ndg U s p) by (apply (ndg_le _ _ (S p)); auto).
    destruct (Z.eq_dec i s) as [->|Hne].
    + rewrite kn_snoc. rewrite (chain_perm _ _ _ (U (s + Z.of_nat (S p))%Z :: kn U s p)).
      2:{ symmetry. apply Permutation_cons_append. }
      2:{ now rewrite app_length, kn_length, Nat.add_1_r. }
      cbn [chain length]. rewrite IH by (auto; lia). rewrite kn_length. unfold D.
      assert (U s <> U (s + Z.of_nat (S p))%Z) by (apply N; lia).
      field. intro; apply H. qlra.
    + cbn [kn chain length]. rewrite IH by (auto; lia). rewrite kn_length. unfold D.
      assert (U (i+1)%Z <> U (i + 1 + Z.of_nat (S p))%Z) by (apply N; lia).
      replace (i + 1 - 1)%Z with i by lia.
      field. intro; apply H. qlra.
Qed.

(* A function of p arguments that is symmetric and affine in each. *)
Definition blossom (p : nat) (F : list Qc -> Qc) : Prop :=
  (forall l l', length l = p -> Permutation l l' -> F l = F l') /\
  (forall a x y l, length l = Nat.pred p -> F ((a * x + (1 - a) * y) :: l) = a * F (x :: l) + (1 - a) * F (y :: l)).

Lemma chain_blossom U s p d : ndg U s p -> blossom p (fun ts => chain U s ts d).
Proof.
  intros N. split.
  - intros l l' L P. apply chain_perm; auto. now rewrite L.
  - intros. apply chain_affine.
Qed.

Lemma blossom_combine p F : blossom p F -> forall v w t l,
  length l = Nat.pred p -> v <> w ->
  ((t - v) * F (w :: l) + (w - t) * F (v :: l)) / (w - v) = F (t :: l).
Proof.
  intros [_ A] v w t l L Hne.
  assert (Hn : w - v <> 0) by (intro; apply Hne; qlra).
  assert (E : t = ((t - v) / (w - v)) * w + (1 - (t - v) / (w - v)) * v) by (field; auto).
  rewrite E at 3. rewrite A by auto. field; auto.
Qed.

(* Control values read off a blossom at consecutive knots reproduce it. *)
Lemma blossom_chain p F V s : blossom p F -> ndg V s p ->
  forall ts d rest, (length ts + length rest = p)%nat ->
  (forall i, (s - Z.of_nat (length ts) <= i <= s)%Z -> d i = F (kn V i (length ts) ++ rest)) ->
  chain V s ts d = F (ts ++ rest).
Proof.
  intros B N. pose proof B as [Sy _]. induction ts as [|t ts IH]; intros d rest L H.
  - cbn [chain]. rewrite H by (simpl; lia). auto.
  - cbn [chain]. cbn [length] in *. rewrite (IH _ (t :: rest)).
    + apply Sy. { rewrite app_length. simpl. lia. } symmetry. apply Permutation_middle.
    + simpl. lia.
    + intros i Hi. unfold D. rewrite !H by lia.
      set (q := length ts) in *.
      rewrite kn_snoc at 1. rewrite <- app_assoc.
      assert (E1 : F (kn V i q ++ [V (i + Z.of_nat (S q))%Z] ++ rest) = F (V (i + Z.of_nat (S q))%Z :: kn V i q ++ rest)).
      { apply Sy. { rewrite !app_length, kn_length. simpl. unfold q. lia. } symmetry. apply Permutation_middle. }
      rewrite E1.
      cbn [kn]. replace (i - 1 + 1)%Z with i by lia.
      cbn [app].
      rewrite (blossom_combine p F); auto.
      * apply Sy. { simpl. rewrite app_length, kn_length. lia. } apply Permutation_middle.
      * rewrite app_length, kn_length. unfold q; lia.
      * apply N; lia.
Qed.

(* ---- basis functions on span s -------------------------------------- *)

(* Cox-de Boor recursion started from the indicator of span s. *)
Fixpoint Bs (U : Z -> Qc) (s : Z) (t : Qc) (p : nat) (i : Z) : Qc :=
  match p with
  | O => if (i =? s)%Z then 1 else 0
  | S q => (t - U i) / (U (i + Z.of_nat p)%Z - U i) * Bs U s t q i
           + (U (i + Z.of_nat p + 1)%Z - t) / (U (i + Z.of_nat p + 1)%Z - U (i + 1)%Z) * Bs U s t q (i + 1)
  end.

Lemma Bs_support U s t p : forall i, ~ (s - Z.of_nat p <= i <= s)%Z -> Bs U s t p i = 0.
Proof.
  induction p as [|p IH]; intros i H.
  - simpl. destruct (Z.eqb_spec i s); auto. lia.
  - cbn [Bs]. rewrite !IH by lia. ring.
Qed.

Lemma Bs_dual U s t : forall p d,
  sum_n (S p) (s - Z.of_nat p) (fun i => Bs U s t p i * d i) = chain U s (repeat t p) d.
Proof.
  induction p as [|p IH]; intros d.
  - simpl. replace (s - 0)%Z with s by lia. rewrite Z.eqb_refl. ring.
  - cbn [repeat chain length]. rewrite <- IH. rewrite repeat_length.
    transitivity (sum_n (S (S p)) (s - Z.of_nat (S p)) (fun i =>
        (t - U i) / (U (i + Z.of_nat (S p))%Z - U i) * Bs U s t p i * d i)
      + sum_n (S (S p)) (s - Z.of_nat (S p)) (fun i =>
        (U (i + Z.of_nat (S p) + 1)%Z - t) / (U (i + Z.of_nat (S p) + 1)%Z - U (i + 1)%Z) * Bs U s t p (i + 1) * d i)).
    + rewrite <- sum_n_add. apply sum_n_ext. intros i Hi. cbn [Bs]. ring.
    + change (sum_n (S (S p)) (s - Z.of_nat (S p)) (fun i =>
        (t - U i) / (U (i + Z.of_nat (S p))%Z - U i) * Bs U s t p i * d i)) with
       ((t - U (s - Z.of_nat (S p))%Z) / (U (s - Z.of_nat (S p) + Z.of_nat (S p))%Z - U (s - Z.of_nat (S p))%Z)
         * Bs U s t p (s - Z.of_nat (S p)) * d (s - Z.of_nat (S p))%Z
        + sum_n (S p) (s - Z.of_nat (S p) + 1) (fun i =>
        (t - U i) / (U (i + Z.of_nat (S p))%Z - U i) * Bs U s t p i * d i)).
      rewrite (Bs_support U s t p (s - Z.of_nat (S p))) by lia.
      rewrite (sum_n_last (S p)).
      rewrite (Bs_support U s t p (s - Z.of_nat (S p) + Z.of_nat (S p) + 1)) by lia.
      replace (s - Z.of_nat (S p) + 1)%Z with (s - Z.of_nat p)%Z by lia.
      set (g := fun i => (U (i + Z.of_nat (S p))%Z - t) / (U (i + Z.of_nat (S p))%Z - U i) * Bs U s t p i * d (i - 1)%Z).
      rewrite (sum_n_ext _ _ (fun i : Z => (U (i + Z.of_nat (S p) + 1)%Z - t) / (U (i + Z.of_nat (S p) + 1)%Z - U (i + 1)%Z) * Bs U s t p (i + 1) * d i) (fun i => g (i + 1)%Z)).
      2:{ intros i Hi. unfold g, Qcdiv. cbv beta. replace (i + 1 + Z.of_nat (S p))%Z with (i + Z.of_nat (S p) + 1)%Z by lia.
          replace (i + 1 - 1)%Z with i by lia. ring. }
      rewrite (sum_n_shift _ _ g). replace (s - Z.of_nat (S p) + 1)%Z with (s - Z.of_nat p)%Z by lia.
      transitivity (sum_n (S p) (s - Z.of_nat p) (fun i =>
          (t - U i) / (U (i + Z.of_nat (S p))%Z - U i) * Bs U s t p i * d i + g i)).
      * rewrite sum_n_add. ring.
      * apply sum_n_ext. intros i Hi. unfold g, D. unfold Qcdiv. ring.
Qed.

(* partition of unity *)
Lemma chain_const U s c : forall ts d, ndg U s (length ts) ->
  (forall i, (s - Z.of_nat (length ts) <= i <= s)%Z -> d i = c) -> chain U s ts d = c.
Proof.
  induction ts as [|t ts IH]; intros d N H; cbn [chain].
  - apply H. simpl; lia.
  - apply IH. { apply (ndg_le _ _ (length (t :: ts))); auto. simpl; lia. }
    intros i Hi. unfold D. cbn [length] in *. rewrite !H by lia.
    assert (U i <> U (i + Z.of_nat (S (length ts)))%Z) by (apply N; lia).
    field. intro; apply H0. qlra.
Qed.

Lemma Bs_sum U s t p : ndg U s p -> sum_n (S p) (s - Z.of_nat p) (Bs U s t p) = 1.
Proof.
  intro N. rewrite (sum_n_ext _ _ _ (fun i => Bs U s t p i * 1)) by (intros; ring).
  rewrite (Bs_dual U s t p (fun _ => 1)). apply chain_const; auto. now rewrite repeat_length.
Qed.

Lemma Bs_nonneg U s t p :
  (forall i j, (s - Z.of_nat p + 1 <= i)%Z -> (i <= j)%Z -> (j <= s + Z.of_nat p)%Z -> U i <= U j) ->
  U s < U (s + 1)%Z -> U s <= t -> t <= U (s + 1)%Z ->
  forall i, 0 <= Bs U s t p i.
Proof.
  intros M L H1 H2. induction p as [|p IH]; intros i.
  - simpl. destruct (i =? s)%Z; vm_compute; discriminate.
  - assert (IH' : forall i, 0 <= Bs U s t p i) by (apply IH; intros; apply M; lia). clear IH.
    cbn [Bs].
    assert (T1 : 0 <= (t - U i) / (U (i + Z.of_nat (S p))%Z - U i) * Bs U s t p i).
    { destruct (Z_le_dec (s - Z.of_nat p) i); [destruct (Z_le_dec i s)|].
      2,3: rewrite Bs_support by lia; rewrite Qcmult_0_r; apply Qcle_refl.
      apply qc_mul_nonneg; auto. apply qc_div_nonneg.
      - assert (U i <= U s) by (apply M; lia). qlra.
      - assert (U i <= U s) by (apply M; lia). assert (U (s+1)%Z <= U (i + Z.of_nat (S p))%Z) by (apply M; lia). qlra. }
    assert (T2 : 0 <= (U (i + Z.of_nat (S p) + 1)%Z - t) / (U (i + Z.of_nat (S p) + 1)%Z - U (i + 1)%Z) * Bs U s t p (i+1)).
    { destruct (Z_le_dec (s - Z.of_nat p) (i+1)); [destruct (Z_le_dec (i+1) s)|].
      2,3: rewrite Bs_support by lia; rewrite Qcmult_0_r; apply Qcle_refl.
      apply qc_mul_nonneg; auto.
      assert (U (i+1)%Z <= U s) by (apply M; lia). assert (U (s+1)%Z <= U (i + Z.of_nat (S p) + 1)%Z) by (apply M; lia).
      apply qc_div_nonneg; qlra. }
    qlra.
Qed.
