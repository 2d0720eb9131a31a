(* Array routines: proofs, first part. *)
From Coq Require Import List Arith ZArith Bool QArith Qcanon Lia Permutation Sorting.Sorted.
From Verif Require Import Common QcLib ListLib SumLib LuModel LuProofs1 RtModel RtSpec.
Import ListNotations.
Local Open Scope Qc_scope.

(* minimum and maximum *)
Definition picks (ord : Qc -> Qc -> Prop) (r x y : Qc) : Prop := ord r x /\ ord r y /\ (r = x \/ r = y).
Definition ge_ (a b : Qc) : Prop := b <= a.
Lemma masked_ok cond : forall a b, length a = length b -> exists r, masked cond a b = Ok r /\ length r = length a /\ forall i, (i < length a)%nat -> nth i r 0 = (if cond (nth i a 0) (nth i b 0) then nth i b 0 else nth i a 0).
Proof.
  induction a as [|x a IH]; intros [|y b] L; try discriminate; [exists []; repeat split; auto; intros i Hi; cbn in Hi; lia|].
  destruct (IH b) as (r & E & LR & H); [cbn in L; lia|]. cbn [masked]. rewrite E. cbn [bind]. eexists. split; [reflexivity|]. split; [cbn; lia|].
  intros [|i] Hi; [reflexivity|]. cbn [nth]. apply H. cbn in Hi. lia.
Qed.
Lemma masked_num_nth cond a y i : (i < length a)%nat -> nth i (masked_num cond a y) 0 = (if cond (nth i a 0) y then y else nth i a 0).
Proof.
  intro L. unfold masked_num. rewrite (nth_indep _ 0 ((fun x => if cond x y then y else x) 0)) by (rewrite map_length; auto). exact (map_nth (fun x => if cond x y then y else x) a 0 i).
Qed.
Section Sel.
Variables (cond : Qc -> Qc -> bool) (num : Qc -> Qc -> Qc) (ord : Qc -> Qc -> Prop).
Hypothesis C : forall x y, picks ord (if cond x y then y else x) x y.
Hypothesis N : forall x y, picks ord (num x y) x y.
Lemma picks_comm r x y : picks ord r x y -> picks ord r y x.
Proof. unfold picks. tauto. Qed.
Lemma nd_sel_ok n a b : sized n a -> sized n b -> exists a' b' r, nd_sel cond num a b = Ok (a', b', r) /\ (forall i, (i < n)%nat -> picks ord (at_ r i) (at_ a i) (at_ b i)).
Proof.
  intros A B. destruct a as [x|x], b as [y|y]; cbn [sized] in *; cbn [nd_sel].
  - do 3 eexists. split; [reflexivity|]. intros i _. apply N.
  - cbv zeta. do 3 eexists. split; [reflexivity|]. intros i Hi. cbn [at_]. rewrite masked_num_nth by lia. apply picks_comm, C.
  - cbv zeta. do 3 eexists. split; [reflexivity|]. intros i Hi. cbn [at_]. rewrite masked_num_nth by lia. apply C.
  - destruct (masked_ok cond x y) as (r & -> & LR & H); [lia|]. cbn [bind]. do 3 eexists. split; [reflexivity|]. intros i Hi. cbn [at_]. rewrite H by lia. apply C.
Qed.
End Sel.
Lemma min_picks x y : picks Qcle (if qlt y x then y else x) x y.
Proof. unfold picks. destruct (qlt y x) eqn:E; [apply qlt_true in E|apply qlt_false in E]; (split; [|split]); auto; qlra. Qed.
Lemma max_picks x y : picks ge_ (if qlt x y then y else x) x y.
Proof. unfold picks, ge_. destruct (qlt x y) eqn:E; [apply qlt_true in E|apply qlt_false in E]; (split; [|split]); auto; qlra. Qed.
Lemma nd_min_ok n a b : sized n a -> sized n b -> exists a' b' r, nd_min a b = Ok (a', b', r) /\ (forall i, (i < n)%nat -> picks Qcle (at_ r i) (at_ a i) (at_ b i)).
Proof. apply nd_sel_ok; apply min_picks. Qed.
Lemma nd_max_ok n a b : sized n a -> sized n b -> exists a' b' r, nd_max a b = Ok (a', b', r) /\ (forall i, (i < n)%nat -> picks ge_ (at_ r i) (at_ a i) (at_ b i)).
Proof. apply nd_sel_ok; apply max_picks. Qed.
Lemma nd_min_changes a b i : length a = length b -> (i < length a)%nat -> nth i b 0 < nth i a 0 -> exists a' b' r, nd_min (Arr a) (Arr b) = Ok (a', b', r) /\ at_ a' i = nth i b 0 /\ a' <> Arr a.
Proof.
  intros L Hi H. unfold nd_min. cbn [nd_sel]. destruct (masked_ok (fun x y => qlt y x) a b L) as (r & -> & LR & HR). cbn [bind]. do 3 eexists. split; [reflexivity|].
  assert (E : nth i r 0 = nth i b 0) by (rewrite HR by auto; rewrite (proj2 (qlt_true _ _) H); reflexivity). split; [exact E|]. intro K. injection K as ->. rewrite E in H. qlra.
Qed.
Lemma nd_max_changes a b i : length a = length b -> (i < length a)%nat -> nth i a 0 < nth i b 0 -> exists a' b' r, nd_max (Arr a) (Arr b) = Ok (a', b', r) /\ at_ a' i = nth i b 0 /\ a' <> Arr a.
Proof.
  intros L Hi H. unfold nd_max. cbn [nd_sel]. destruct (masked_ok (fun x y => qlt x y) a b L) as (r & -> & LR & HR). cbn [bind]. do 3 eexists. split; [reflexivity|].
  assert (E : nth i r 0 = nth i b 0) by (rewrite HR by auto; rewrite (proj2 (qlt_true _ _) H); reflexivity). split; [exact E|]. intro K. injection K as ->. rewrite E in H. qlra.
Qed.

(* find_similar *)
Lemma list_min_ok l : forall x, In (list_min x l) (x :: l) /\ forall y, In y (x :: l) -> list_min x l <= y.
Proof.
  induction l as [|y l IH]; intro x; cbn [list_min].
  - split; [left; auto|]. intros z [->|[]]. qlra.
  - destruct (IH (if qlt y x then y else x)) as (A & B). split.
    + destruct A as [A|A]; [|right; right; auto]. destruct (qlt y x); [right; left|left]; exact A.
    + intros z Hz. assert (M := B _ (or_introl eq_refl)). destruct (qlt y x) eqn:E; [apply qlt_true in E|apply qlt_false in E]; destruct Hz as [->|[->|Hz]]; try (apply B; right; exact Hz); qlra.
Qed.
Lemma seq_sorted n : forall s, StronglySorted lt (seq s n).
Proof. induction n as [|n IH]; intro s; cbn; constructor; auto. apply Forall_forall. intros x Hx. apply in_seq in Hx. lia. Qed.
Lemma filter_sorted {A} (R : A -> A -> Prop) f l : StronglySorted R l -> StronglySorted R (filter f l).
Proof.
  induction 1 as [|x l S IH F]; cbn; [constructor|]. destruct (f x); auto. constructor; auto. apply Forall_forall. intros y Hy. apply filter_In in Hy. rewrite Forall_forall in F. apply F. tauto.
Qed.
Lemma find_similar_ok value values : values <> [] -> exists l, find_similar value values = Ok l /\ l <> [] /\ StronglySorted lt l /\
  forall i, In i l <-> (i < length values)%nat /\ forall j, (j < length values)%nat -> fabs (nth i values 0 - value) <= fabs (nth j values 0 - value).
Proof.
  intro NE. unfold find_similar. set (f := fun x => fabs (x - value)). assert (LR : length (map f values) = length values) by apply map_length.
  assert (NT : forall i, (i < length values)%nat -> nth i (map f values) 0 = f (nth i values 0)).
  { intros i Hi. rewrite (nth_indep _ 0 (f 0)) by (rewrite map_length; auto). apply map_nth. }
  destruct (map f values) as [|x l] eqn:E; [destruct values; [contradiction|discriminate]|]. destruct (list_min_ok l x) as (A & B). set (m := list_min x l) in *. rewrite <- E in *.
  assert (K : forall i, In i (where_eq m (map f values)) <-> (i < length values)%nat /\ f (nth i values 0) = m).
  { intro i. unfold where_eq. rewrite filter_In, in_seq, LR. split; intros (H1 & H2); (split; [lia|]); [apply qeq_true in H2; rewrite <- NT by lia; exact H2|apply qeq_true; rewrite NT by lia; exact H2]. }
  exists (where_eq m (map f values)). split; auto. split.
  - destruct (In_nth _ _ 0 A) as (i & Hi & Ei). rewrite LR in Hi. intro Z. assert (P := proj2 (K i)). rewrite Z in P. apply P. split; auto. rewrite <- NT by auto. exact Ei.
  - split; [apply filter_sorted, seq_sorted|]. intro i. rewrite K. split; intros (H1 & H2); split; auto.
    + intros j Hj. fold (f (nth i values 0)). fold (f (nth j values 0)). rewrite H2. apply B. rewrite <- NT by auto. apply nth_In. lia.
    + destruct (In_nth _ _ 0 A) as (j & Hj & Ej). rewrite LR in Hj. specialize (H2 j Hj). fold (f (nth i values 0)) in H2. fold (f (nth j values 0)) in H2. rewrite <- (NT j Hj), Ej in H2.
      apply Qcle_antisym; auto. apply B. rewrite <- NT by auto. apply nth_In. lia.
Qed.

(* cartesian product *)
Lemma mod_mod_div r P n : (P <> 0)%nat -> (n <> 0)%nat -> (((r mod (n * P)) / P) mod n = (r / P) mod n)%nat.
Proof.
  intros HP HN. rewrite (Nat.mul_comm n P). rewrite Nat.mod_mul_r by auto. rewrite (Nat.mul_comm P). rewrite Nat.div_add by auto. rewrite Nat.div_small by (apply Nat.mod_upper_bound; auto). rewrite Nat.add_0_l. apply Nat.mod_mod. auto.
Qed.
Lemma mod_of_mod r P n : (P <> 0)%nat -> (n <> 0)%nat -> ((r mod (n * P)) mod P = r mod P)%nat.
Proof. intros HP HN. rewrite (Nat.mul_comm n P), Nat.mod_mul_r by auto. rewrite (Nat.mul_comm P), Nat.mod_add by auto. apply Nat.mod_mod. auto. Qed.
Lemma size_nz {T} (ls : list (list T)) : size (lens ls) <> 0%nat -> forall l, In l ls -> length l <> 0%nat.
Proof.
  induction ls as [|a ls IH]; intros H l Hl; [destruct Hl|]. cbn in H. destruct Hl as [->|Hl]; [intro K; rewrite K in H; lia|]. apply IH; auto. intro K. apply H. unfold size, lens in K. rewrite K. lia.
Qed.
Lemma row_mod {T} (d : T) ls : size (lens ls) <> 0%nat -> forall r, product_row d ls r = product_row d ls (r mod size (lens ls)).
Proof.
  induction ls as [|a ls IH]; intros H r; [reflexivity|]. cbn [product_row]. assert (HS : size (lens (a :: ls)) = (length a * size (lens ls))%nat) by reflexivity. rewrite HS in *.
  assert (H1 : length a <> 0%nat) by (intro K; rewrite K in H; lia). assert (H2 : size (lens ls) <> 0%nat) by (intro K; rewrite K in H; lia).
  f_equal; [rewrite mod_mod_div by auto; reflexivity|]. rewrite (IH H2 (r mod (length a * size (lens ls)))). rewrite mod_of_mod by auto. apply IH. auto.
Qed.
Lemma seq_mul m n : seq 0 (m * n) = flat_map (fun i => map (fun j => (i * n + j)%nat) (seq 0 n)) (seq 0 m).
Proof.
  induction m as [|m IH]; [reflexivity|]. rewrite seq_S, flat_map_app, <- IH. cbn [flat_map]. rewrite app_nil_r. replace (S m * n)%nat with (m * n + n)%nat by lia. rewrite seq_app. f_equal. cbn [Nat.add].
  clear. generalize (m * n)%nat as s. intro s. induction n as [|n IHn]; [reflexivity|]. rewrite !seq_S, map_app, IHn. cbn. reflexivity.
Qed.
Lemma map_flat_map {A B C} (f : B -> C) (g : A -> list B) l : map f (flat_map g l) = flat_map (fun x => map f (g x)) l.
Proof. induction l as [|x l IH]; [reflexivity|]. cbn. rewrite map_app, IH. reflexivity. Qed.
Lemma flat_map_nth {A B} (d : A) (g : A -> list B) l : flat_map g l = flat_map (fun i => g (nth i l d)) (seq 0 (length l)).
Proof.
  induction l as [|x l IH]; [reflexivity|]. cbn [length seq flat_map nth]. f_equal. rewrite <- seq_shift. rewrite IH. clear. induction (seq 0 (length l)) as [|i s IHs]; [reflexivity|]. cbn. rewrite IHs. reflexivity.
Qed.
Lemma flat_map_ext_in {A B} (f g : A -> list B) l : (forall x, In x l -> f x = g x) -> flat_map f l = flat_map g l.
Proof. induction l as [|x l IH]; intro H; [reflexivity|]. cbn. rewrite (H x) by (left; auto). rewrite IH by (intros; apply H; right; auto). reflexivity. Qed.
Lemma product_rows {T} (d : T) ls : map (product_row d ls) (seq 0 (size (lens ls))) = choices ls.
Proof.
  induction ls as [|a ls IH]; [reflexivity|]. assert (HS : size (lens (a :: ls)) = (length a * size (lens ls))%nat) by reflexivity. rewrite HS. rewrite seq_mul, map_flat_map. cbn [choices]. rewrite (flat_map_nth d _ a).
  apply flat_map_ext_in. intros i Hi. apply in_seq in Hi. rewrite <- IH. rewrite !map_map. apply map_ext_in. intros j Hj. apply in_seq in Hj. cbn [product_row].
  f_equal; [rewrite Nat.div_add_l by lia; rewrite Nat.div_small by lia; rewrite Nat.add_0_r, Nat.mod_small by lia; reflexivity|].
  rewrite row_mod by lia. rewrite (row_mod d ls) with (r := j) by lia. f_equal. rewrite Nat.add_comm, Nat.mod_add by lia. reflexivity.
Qed.
Lemma choices_In {T} (ls : list (list T)) : forall row, In row (choices ls) <-> Forall2 (fun x l => In x l) row ls.
Proof.
  induction ls as [|a ls IH]; intro row; cbn [choices].
  - split; [intros [<-|[]]; constructor|]. intro H. inversion H. left. auto.
  - rewrite in_flat_map. split.
    + intros (x & Hx & H). apply in_map_iff in H. destruct H as (r & <- & Hr). constructor; auto. apply IH. auto.
    + intro H. inversion H as [|x ? r ? H1 H2]; subst. exists x. split; auto. apply in_map. apply IH. auto.
Qed.
Lemma choices_length {T} (ls : list (list T)) : length (choices ls) = size (lens ls).
Proof.
  induction ls as [|a ls IH]; [reflexivity|]. cbn [choices]. change (size (lens (a :: ls))) with (length a * size (lens ls))%nat. rewrite <- IH. clear IH.
  induction a as [|x a IH]; [reflexivity|]. cbn [flat_map]. rewrite app_length, map_length, IH. cbn. lia.
Qed.

(* grids *)
Lemma qn_pos k : (0 < k)%nat -> 0 < qn k.
Proof. intro H. change (0 < zq (Z.of_nat k)). apply zq_pos. lia. Qed.
Lemma qn_le a b : (a <= b)%nat -> qn a <= qn b.
Proof. intro H. change (zq (Z.of_nat a) <= zq (Z.of_nat b)). apply zq_le. lia. Qed.
Lemma qn_0 : qn 0 = 0. Proof. apply Qc_is_canon. reflexivity. Qed.
Lemma qn_S k : qn (S k) = qn k + 1.
Proof. change (zq (Z.of_nat (S k)) = zq (Z.of_nat k) + 1). rewrite <- zq_1, <- zq_add. f_equal. lia. Qed.
Lemma linspace_length a b n : length (linspace a b n) = n.
Proof. unfold linspace. rewrite map_length, seq_length. reflexivity. Qed.
Lemma linspace_nth a b n i : (2 <= n)%nat -> (i < n)%nat -> nth i (linspace a b n) 0 = a + qn i * ((b - a) / qn (n - 1)).
Proof.
  intros N L. unfold linspace. set (f := fun i0 : nat => _). rewrite (nth_indep _ 0 (f 0%nat)) by (rewrite map_length, seq_length; auto). rewrite (map_nth f). rewrite seq_nth by auto. unfold f. cbn [Nat.add].
  destruct (Nat.eqb_spec n 1); [lia|reflexivity].
Qed.
Lemma linspace_one a b : linspace a b 1 = [a].
Proof. reflexivity. Qed.
Lemma linspace_first a b n : (1 <= n)%nat -> nth 0 (linspace a b n) 0 = a.
Proof. intro H. destruct (Nat.eq_dec n 1) as [->|]; [reflexivity|]. rewrite linspace_nth by lia. rewrite qn_0. ring. Qed.
Lemma linspace_last a b n : (2 <= n)%nat -> nth (n - 1) (linspace a b n) 0 = b.
Proof. intro H. rewrite linspace_nth by lia. assert (P := qn_pos (n - 1) ltac:(lia)). unfold Qcdiv. rewrite (Qcmult_comm (b - a)), Qcmult_assoc, Qcmult_inv_r; [ring|]. intro K. rewrite K in P. qlra. Qed.
Lemma linspace_in a b n x : a <= b -> In x (linspace a b n) -> a <= x /\ x <= b.
Proof.
  intros AB H. destruct (In_nth _ _ 0 H) as (i & Hi & <-). rewrite linspace_length in Hi. destruct (Nat.eq_dec n 1) as [->|N].
  - assert (i = 0%nat) by lia. subst i. cbn. split; qlra.
  - rewrite linspace_nth by lia. assert (P := qn_pos (n - 1) ltac:(lia)). assert (Q0 : 0 <= qn i) by (rewrite <- qn_0; apply qn_le; lia). assert (Q1 : qn i <= qn (n - 1)) by (apply qn_le; lia).
    assert (S0 : 0 <= (b - a) / qn (n - 1)) by (apply qc_div_nonneg; auto; qlra). assert (M := qc_mul_nonneg _ _ Q0 S0). split; [qlra|].
    assert (E : qn (n - 1) * ((b - a) / qn (n - 1)) = b - a) by (unfold Qcdiv; rewrite (Qcmult_comm (b - a)), Qcmult_assoc, Qcmult_inv_r; [ring|intro K; rewrite K in P; qlra]).
    assert (M2 : 0 <= (qn (n - 1) - qn i) * ((b - a) / qn (n - 1))) by (apply qc_mul_nonneg; auto; qlra). replace ((qn (n - 1) - qn i) * ((b - a) / qn (n - 1))) with ((b - a) - qn i * ((b - a) / qn (n - 1))) in M2 by (rewrite <- E at 1; ring). qlra.
Qed.
Lemma pairs_nth u v i j : (i < length u)%nat -> (j < length v)%nat -> nth (i * length v + j) (pairs u v) (0, 0) = (nth i u 0, nth j v 0).
Proof.
  revert i. induction u as [|a u IH]; intros i Hi Hj; [cbn in Hi; lia|]. unfold pairs. cbn [flat_map]. fold (pairs u v). assert (LM : length (map (fun b => (a, b)) v) = length v) by apply map_length. destruct i as [|i].
  - rewrite app_nth1 by (rewrite LM; lia). cbn [Nat.mul Nat.add nth]. rewrite (nth_indep _ (0, 0) ((fun b => (a, b)) 0)) by (rewrite LM; auto). exact (map_nth (fun b => (a, b)) v 0 j).
  - rewrite app_nth2 by (rewrite LM; cbn; lia). rewrite LM. replace (S i * length v + j - length v)%nat with (i * length v + j)%nat by (cbn; lia). cbn [nth]. apply IH; auto. cbn in Hi. lia.
Qed.
Lemma pairs_length u v : length (pairs u v) = (length u * length v)%nat.
Proof. unfold pairs. induction u as [|a u IH]; [reflexivity|]. cbn [flat_map]. rewrite app_length, map_length, IH. cbn. lia. Qed.
Lemma grid_ext z u v : length z = (length u * length v)%nat -> (forall i j, (i < length u)%nat -> (j < length v)%nat -> nth (i * length v + j) z (0, 0) = (nth i u 0, nth j v 0)) -> z = pairs u v.
Proof.
  intros L H. apply (nth_ext _ _ (0, 0) (0, 0)); [rewrite pairs_length; auto|]. intros k Hk. rewrite L in Hk.
  assert (NV : length v <> 0%nat) by (intro K; rewrite K in Hk; lia). assert (D := Nat.div_mod k (length v) NV). assert (M := Nat.mod_upper_bound k (length v) NV).
  assert (DI : (k / length v < length u)%nat) by (apply Nat.div_lt_upper_bound; auto; lia).
  rewrite D. replace (length v * (k / length v) + k mod length v)%nat with (k / length v * length v + k mod length v)%nat by lia. rewrite H, pairs_nth by auto. reflexivity.
Qed.
Section Grid.
Variables (u v : list Qc).
Local Notation cu := (length u).
Local Notation cv := (length v).
(* entries written so far: rows before i, and the first j of row i *)
Definition upto (i j : nat) (z : list (Qc * Qc)) : Prop := length z = (cu * cv)%nat /\
  forall a b, (a < cu)%nat -> (b < cv)%nat -> (a < i)%nat \/ (a = i /\ (b < j)%nat) -> nth (a * cv + b) z (0, 0) = (nth a u 0, nth b v 0).
Lemma flat_bound i j : (i < cu)%nat -> (j < cv)%nat -> (i * cv + j < cu * cv)%nat.
Proof. intros. nia. Qed.
Lemma flat_eq a b i j : (b < cv)%nat -> (j < cv)%nat -> (a * cv + b = i * cv + j)%nat -> a = i /\ b = j.
Proof. intros B J E. assert (a = i) by nia. subst. split; auto. lia. Qed.
Lemma upto_step i j z : (i < cu)%nat -> (j < cv)%nat -> upto i j z -> upto i (S j) (upd z (i * cv + j) (nth i u 0, nth j v 0)).
Proof.
  intros I' J (L & H). split; [now rewrite upd_length|]. intros a b A B K. rewrite (nth_upd (0, 0)) by (rewrite L; apply flat_bound; auto).
  destruct (Nat.eqb_spec (a * cv + b) (i * cv + j)) as [E|E]; [destruct (flat_eq a b i j B J E) as (-> & ->); reflexivity|]. apply H; auto. destruct K as [K|(-> & K)]; auto. right. split; auto. assert (b <> j) by (intros ->; auto). lia.
Qed.
Lemma upto_row i z : upto i cv z -> upto (S i) 0 z.
Proof. intros (L & H). split; auto. intros a b A B [K|(_ & K)]; [|lia]. apply H; auto. assert (a = i \/ (a < i)%nat) as [-> | ?] by lia; auto. Qed.
Lemma upto_all z : upto cu 0 z -> z = pairs u v.
Proof. intros (L & H). apply grid_ext; auto. Qed.
End Grid.
Lemma point_grid_ok cu cv bu bv : point_grid_2d cu cv bu bv = Ok (pairs (linspace (fst bu) (snd bu) cu) (linspace (fst bv) (snd bv) cv)).
Proof.
  unfold point_grid_2d. cbv zeta. set (u := linspace _ _ cu). set (v := linspace _ _ cv). assert (LU : length u = cu) by apply linspace_length. assert (LV : length v = cv) by apply linspace_length.
  rewrite <- LU, <- LV. clearbody u v. clear LU LV cu cv bu bv.
  destruct (loop_inv (fun i z => upto u v i 0 z) (fun i z => loop 0 (length v) z (fun j z => do a <- getR u i ; do b <- getR v j ; wr z (i * length v + j) (a, b))) 0 (length u) (repeat (0, 0) (length u * length v))) as (z & -> & H); [lia|split; [apply repeat_length|intros; lia]| |].
  - intros i z I' H. destruct (loop_inv (fun j z => upto u v i j z) (fun j z => do a <- getR u i ; do b <- getR v j ; wr z (i * length v + j) (a, b)) 0 (length v) z) as (z' & -> & H'); [lia|exact H| |].
    + intros j z' J H'. rewrite !(getR_nth 0) by lia. cbn [bind]. rewrite wr_ok by (rewrite (proj1 H'); apply flat_bound; lia). eexists. split; [reflexivity|]. apply upto_step; auto; lia.
    + eexists. split; [reflexivity|]. apply upto_row. exact H'.
  - f_equal. apply upto_all. exact H.
Qed.
Lemma uvs_ok junk cu cv bu bv : length junk = (cu * cv)%nat -> uvs junk cu cv bu bv = Ok (pairs (linspace (fst bu) (snd bu) cu) (linspace (fst bv) (snd bv) cv)).
Proof.
  unfold uvs. cbv zeta. set (u := linspace _ _ cu). set (v := linspace _ _ cv). assert (LU : length u = cu) by apply linspace_length. assert (LV : length v = cv) by apply linspace_length.
  rewrite <- LU, <- LV. clearbody u v. clear LU LV cu cv bu bv. intro LJ.
  match goal with |- context [loop 0 (length u) ?s0 ?b] => destruct (loop_inv (fun i st => snd st = (i * length v)%nat /\ upto u v i 0 (fst st)) b 0 (length u) s0) as ((z, k) & -> & H) end; [lia|split; [reflexivity|split; [exact LJ|intros; lia]]| |].
  - intros i st I' H. match goal with |- context [loop 0 (length v) st ?b] => destruct (loop_inv (fun j st => snd st = (i * length v + j)%nat /\ upto u v i j (fst st)) b 0 (length v) st) as (st' & -> & H') end; [lia|rewrite Nat.add_0_r; exact H| |].
    + intros j (z', k) J (K & H'). cbn [fst snd] in *. subst k. rewrite !(getR_nth 0) by lia. cbn [bind]. rewrite wr_ok by (rewrite (proj1 H'); apply flat_bound; lia). cbn [bind]. eexists. split; [reflexivity|]. cbn [fst snd]. split; [lia|]. apply upto_step; auto; lia.
    + eexists. split; [reflexivity|]. split; [rewrite (proj1 H'); cbn; lia|apply upto_row; exact (proj2 H')].
  - cbn [bind]. f_equal. apply upto_all. exact (proj2 H).
Qed.
