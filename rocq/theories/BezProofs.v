(* Binomial table, monomial/Bezier conversion, products, derivatives and degree
   elevation: proofs. *)
From Coq Require Import List Arith ZArith Bool QArith Qcanon Lia.
From Verif Require Import Common ListLib QcLib ArrZ SumLib DerivLib BinomModel SkipSpec BezModel BezSpec.
Import ListNotations.
Open Scope Qc_scope.

(* ---- the table ---- *)
Fixpoint prow (w n : nat) : list Z :=
  match n with
  | O => match w with O => [] | S w' => 1%Z :: repeat 0%Z w' end
  | S m => let r := prow w m in map (fun xy => (fst xy + snd xy)%Z) (combine (0%Z :: r) r)
  end.
Lemma prow_len w n : length (prow w n) = w.
Proof.
  induction n as [|n IH]; cbn [prow]; [destruct w; cbn; rewrite ?repeat_length; auto|]. rewrite map_length, combine_length. cbn [length]. rewrite IH. lia.
Qed.
Lemma nth_repeat0 {A} (a : A) n i : nth i (repeat a n) a = a.
Proof. revert i. induction n; intros [|i]; cbn; auto. Qed.
Lemma nth_combine_add (l1 : list Z) : forall l2 k, (k < length l2)%nat -> (length l2 <= length l1)%nat ->
  nth k (map (fun xy => (fst xy + snd xy)%Z) (combine l1 l2)) 0%Z = (nth k l1 0 + nth k l2 0)%Z.
Proof.
  induction l1 as [|a l1 IH]; intros [|b l2] k L1 L2; cbn in L1, L2; try lia. destruct k as [|k]; cbn; auto. apply IH; lia.
Qed.
Lemma prow_nth w n : forall k, (k < w)%nat -> nth k (prow w n) 0%Z = bin n k.
Proof.
  induction n as [|n IH]; intros k L; cbn [prow].
  - destruct w; [lia|]. destruct k; cbn; auto. apply nth_repeat0.
  - rewrite nth_combine_add by (cbn [length]; rewrite ?prow_len; lia).
    destruct k as [|k]; cbn [nth]; [rewrite IH by lia; now rewrite !bin_0|]. rewrite !IH by lia. reflexivity.
Qed.
Lemma table_rows : binomial_coefficients = map (prow 31) (seq 0 31).
Proof. vm_compute. reflexivity. Qed.
Lemma binomial_ok n k : (n <= 30)%nat -> (k <= 30)%nat -> binomial_coefficient (Z.of_nat n) (Z.of_nat k) = Ok (bq n k).
Proof.
  intros Ln Lk. unfold binomial_coefficient. rewrite table_rows. rewrite (rdZ_ok []) by (unfold lenZ; rewrite map_length, seq_length; lia). cbn [bind].
  assert (E : atZ [] (map (prow 31) (seq 0 31)) (Z.of_nat n) = prow 31 n).
  { unfold atZ. rewrite Nat2Z.id. rewrite (nth_indep _ [] (prow 31 0)) by (rewrite map_length, seq_length; lia). rewrite map_nth. now rewrite seq_nth by lia. }
  rewrite E. rewrite (rdZ_ok 0%Z) by (unfold lenZ; rewrite prow_len; lia). cbn [bind]. unfold atZ. rewrite Nat2Z.id. rewrite prow_nth by lia. reflexivity.
Qed.
Lemma binomial_out i j : (i < 0 \/ 30 < i)%Z -> binomial_coefficient i j = Err IndexError.
Proof.
  intro H. unfold binomial_coefficient. rewrite rdZ_out; auto. rewrite table_rows. unfold lenZ. rewrite map_length, seq_length. lia.
Qed.
Lemma bc_ok n k : (n <= 30)%nat -> (k <= 30)%nat -> bc n k = Ok (bq n k).
Proof. apply binomial_ok. Qed.

(* counting *)
Lemma sublists_count {A} (l : list A) : forall k, Z.of_nat (length (sublists k l)) = bin (length l) k.
Proof.
  induction l as [|x l IH]; intros [|k]; cbn [sublists length]; auto; try (now rewrite bin_0).
  rewrite app_length, map_length, Nat2Z.inj_add, !IH. reflexivity.
Qed.
Lemma sublists_in {A} (l : list A) : forall k s, In s (sublists k l) <-> subseq s l /\ length s = k.
Proof.
  induction l as [|x l IH]; intros k s.
  - destruct k as [|k]; cbn [sublists In].
    + split; [intros [<-|[]]; split; [constructor|auto]|]. intros [S L]. destruct s; auto. discriminate.
    + split; [tauto|]. intros [S L]. inversion S; subst. discriminate.
  - destruct k as [|k]; cbn [sublists].
    + cbn [In]. split; [intros [<-|[]]; split; [constructor|auto]|]. intros [S L]. destruct s; auto. discriminate.
    + rewrite in_app_iff, in_map_iff. rewrite IH. split.
      * intros [[s' [<- I]]|[S L]].
        -- apply IH in I. destruct I as [S L]. split; [constructor; auto|cbn; auto].
        -- split; auto. constructor; auto.
      * intros [S L]. inversion S as [|a b c S'|a b c S']; subst; [discriminate| |].
        -- left. eexists. split; [reflexivity|]. apply IH. split; auto.
        -- right. auto.
Qed.
Lemma subseq_in {A} (a b : list A) x : subseq a b -> In x a -> In x b.
Proof. induction 1; intro I; [destruct I| |]; cbn in *; intuition. Qed.
Lemma sublists_nodup {A} (l : list A) : NoDup l -> forall k, NoDup (sublists k l).
Proof.
  induction l as [|x l IH]; intros ND k.
  - destruct k; cbn; repeat constructor; auto.
  - inversion ND as [|? ? N1 N2]; subst. destruct k as [|k]; cbn [sublists]; [repeat constructor; auto|].
    assert (D : forall s, In s (map (cons x) (sublists k l)) -> ~ In s (sublists (S k) l)).
    { intros s I J. apply in_map_iff in I. destruct I as [s' [<- _]]. apply sublists_in in J. destruct J as [J _]. apply N1. eapply subseq_in; eauto. left; auto. }
    assert (N3 : NoDup (map (cons x) (sublists k l))).
    { apply FinFun.Injective_map_NoDup; [intros a b E; now inversion E|]. auto. }
    assert (N4 := IH N2 (S k)). revert D N3 N4. generalize (map (cons x) (sublists k l)) (sublists (S k) l). clear.
    induction l as [|a l IH]; intros r D N3 N4; cbn [app]; auto. inversion N3; subst. constructor.
    + intro I. apply in_app_or in I. destruct I; [auto|]. apply (D a); auto. left; auto.
    + apply IH; auto. intros s I. apply D. right; auto.
Qed.
Lemma binomial_counts {A} (l : list A) k : (length l <= 30)%nat -> (k <= 30)%nat -> NoDup l ->
  binomial_coefficient (lenZ l) (Z.of_nat k) = Ok (zq (Z.of_nat (length (sublists k l)))) /\
  NoDup (sublists k l) /\ forall s, In s (sublists k l) <-> subseq s l /\ length s = k.
Proof.
  intros L1 L2 ND. split; [|split; [apply sublists_nodup; auto|intro s; apply sublists_in]].
  unfold lenZ. rewrite binomial_ok by auto. unfold bq. now rewrite sublists_count.
Qed.

(* ---- tables of values ---- *)
Lemma nth_tab {A} (d : A) n f i : (i < n)%nat -> nth i (tab n f) d = f i.
Proof.
  intro L. unfold tab. rewrite (nth_indep _ d (f 0%nat)) by (rewrite map_length, seq_length; auto). rewrite map_nth. now rewrite seq_nth by auto.
Qed.
Lemma tab_len {A} n (f : nat -> A) : length (tab n f) = n.
Proof. unfold tab. now rewrite map_length, seq_length. Qed.
Lemma ent_tab n m f i j : (i < n)%nat -> (j < m)%nat -> ent (tab n (fun i => tab m (fun j => f i j))) i j = f i j.
Proof. intros A B. unfold ent. rewrite nth_tab by auto. now apply nth_tab. Qed.
Lemma tab_ext {A} n (f g : nat -> A) : (forall i, (i < n)%nat -> f i = g i) -> tab n f = tab n g.
Proof. intro E. unfold tab. apply map_ext_in. intros a I. apply in_seq in I. apply E. lia. Qed.
Lemma tabR_from_ok {A} (f : nat -> res A) g : forall c i, (forall k, (i <= k < i + c)%nat -> f k = Ok (g k)) -> tabR_from c i f = Ok (map g (seq i c)).
Proof. induction c as [|c IH]; intros i E; cbn [tabR_from seq map]; auto. rewrite E by lia. cbn [bind]. rewrite IH; auto. intros k K. apply E. lia. Qed.
Lemma tabR_ok {A} (f : nat -> res A) g n : (forall k, (k < n)%nat -> f k = Ok (g k)) -> tabR n f = Ok (tab n g).
Proof. intro E. apply tabR_from_ok. intros k K. apply E. lia. Qed.
Lemma tabR_from_inv {A} (f : nat -> res A) : forall c i r, tabR_from c i f = Ok r -> forall k, (k < c)%nat -> exists x, f (i + k)%nat = Ok x /\ nth_error r k = Some x.
Proof.
  induction c as [|c IH]; intros i r E k K; [lia|]. cbn [tabR_from] in E. destruct (f i) as [x|] eqn:Ex; cbn [bind] in E; [|discriminate].
  destruct (tabR_from c (S i) f) as [r'|] eqn:Er; cbn [bind] in E; [|discriminate]. inversion E; subst. destruct k as [|k].
  - exists x. rewrite Nat.add_0_r. auto.
  - destruct (IH (S i) r' Er k ltac:(lia)) as [y [Y1 Y2]]. exists y. split; auto. now replace (i + S k)%nat with (S i + k)%nat by lia.
Qed.
Lemma tabR_from_len {A} (f : nat -> res A) : forall c i r, tabR_from c i f = Ok r -> length r = c.
Proof.
  induction c as [|c IH]; intros i r E; cbn [tabR_from] in E; [inversion E; auto|]. destruct (f i); cbn [bind] in E; [|discriminate].
  destruct (tabR_from c (S i) f) as [r'|] eqn:Er; cbn [bind] in E; [|discriminate]. inversion E; subst. cbn. now rewrite (IH _ _ Er).
Qed.
Lemma tab_self {A} (d : A) l n : length l = n -> l = tab n (fun i => nth i l d).
Proof.
  intros <-. apply nth_ext with (d := d) (d' := d); [now rewrite tab_len|]. intros i L. now rewrite nth_tab by auto.
Qed.
Lemma shaped_tab n m f : shaped n m (tab n (fun i => tab m (fun j => f i j))).
Proof. split; [apply tab_len|]. apply Forall_forall. intros r I. unfold tab at 1 in I. apply in_map_iff in I. destruct I as [i [<- _]]. apply tab_len. Qed.
Lemma shaped_eq n m A : shaped n m A -> A = tab n (fun i => tab m (fun j => ent A i j)).
Proof.
  intros [L F]. rewrite (tab_self [] A n L) at 1. apply tab_ext. intros i Li. unfold ent. apply tab_self.
  rewrite Forall_forall in F. apply F. apply nth_In. lia.
Qed.

(* ---- the conversion matrix ---- *)
Definition mb (n j k : nat) : Qc := if (k <=? j)%nat then (- (1)) ^ (j - k) * bq n j * bq j k else 0.
Definition mi (n j k : nat) : Qc := if (k <=? j)%nat then bq j k / bq n k else 0.
Lemma bpmat_ok n : (n <= 30)%nat -> bpmat n = Ok (tab (S n) (fun j => tab (S n) (fun k => mb n j k))).
Proof.
  intro L. unfold bpmat. apply tabR_ok. intros j Lj. apply tabR_ok. intros k Lk. unfold mb. destruct (Nat.leb_spec k j); auto.
  rewrite !bc_ok by lia. reflexivity.
Qed.
Lemma bpmat_out n : (30 < n)%nat -> bpmat n = Err IndexError.
Proof.
  intro L. unfold bpmat, tabR. cbn [tabR_from Nat.leb]. unfold bc. rewrite binomial_out by lia. reflexivity.
Qed.
Lemma alternating k n : (k <= n)%nat -> sumn (S n) (fun l => if (k <=? l)%nat then (- (1)) ^ (l - k) * bq (n - k) (l - k) else 0) = if (k =? n)%nat then 1 else 0.
Proof.
  intro L. replace (S n) with (k + S (n - k))%nat by lia. rewrite sumn_shift.
  2:{ intros i Li. destruct (Nat.leb_spec k i); [lia|auto]. }
  rewrite sumn_ext with (g := fun i => bq (n - k) i * (- (1)) ^ i * 1 ^ (n - k - i)).
  2:{ intros i Li. destruct (Nat.leb_spec k (k + i)); [|lia]. replace (k + i - k)%nat with i by lia. rewrite pow_one. ring. }
  rewrite binomial_theorem. replace (- (1) + 1) with 0 by ring. destruct (Nat.eqb_spec k n) as [->|NE]; [rewrite Nat.sub_diag; reflexivity|apply pow_zero; lia].
Qed.
Lemma alternating2 k n : (k <= n)%nat -> sumn (S n) (fun l => if (k <=? l)%nat then (- (1)) ^ (n - l) * bq (n - k) (l - k) else 0) = if (k =? n)%nat then 1 else 0.
Proof.
  intro L. replace (S n) with (k + S (n - k))%nat by lia. rewrite sumn_shift.
  2:{ intros i Li. destruct (Nat.leb_spec k i); [lia|auto]. }
  rewrite sumn_ext with (g := fun i => bq (n - k) i * 1 ^ i * (- (1)) ^ (n - k - i)).
  2:{ intros i Li. destruct (Nat.leb_spec k (k + i)); [|lia]. replace (k + i - k)%nat with i by lia. replace (n - (k + i))%nat with (n - k - i)%nat by lia. rewrite pow_one. ring. }
  rewrite binomial_theorem. replace (1 + - (1)) with 0 by ring. destruct (Nat.eqb_spec k n) as [->|NE]; [rewrite Nat.sub_diag; reflexivity|apply pow_zero; lia].
Qed.
Lemma mi_mb n j k : (j <= n)%nat -> (k <= n)%nat -> sumn (S n) (fun l => mi n j l * mb n l k) = if (j =? k)%nat then 1 else 0.
Proof.
  intros Lj Lk. rewrite (sumn_extend (S j) (S n)); [|lia|intros i Hi; unfold mi; destruct (Nat.leb_spec i j); [lia|ring]].
  destruct (le_lt_dec k j) as [Ljk|Ljk].
  - rewrite sumn_ext with (g := fun l => bq j k * (if (k <=? l)%nat then (- (1)) ^ (l - k) * bq (j - k) (l - k) else 0)).
    + rewrite sumn_scale, alternating by auto. rewrite Nat.eqb_sym. destruct (Nat.eqb_spec j k) as [->|]; [rewrite bq_diag; ring|ring].
    + intros l Ll. unfold mi, mb. destruct (Nat.leb_spec l j); [|lia]. destruct (Nat.leb_spec k l); [|ring].
      assert (T := bq_tri j l k ltac:(lia)). assert (NZ := bq_nz n l ltac:(lia)).
      replace (bq j k * ((- (1)) ^ (l - k) * bq (j - k) (l - k))) with ((- (1)) ^ (l - k) * (bq j k * bq (j - k) (l - k))) by ring. rewrite <- T. field. auto.
  - destruct (Nat.eqb_spec j k); [lia|]. apply sumn_zero. intros l Ll. unfold mb. destruct (Nat.leb_spec k l); [lia|ring].
Qed.
Lemma mb_mi n j k : (j <= n)%nat -> (k <= n)%nat -> sumn (S n) (fun l => mb n j l * mi n l k) = if (j =? k)%nat then 1 else 0.
Proof.
  intros Lj Lk. rewrite (sumn_extend (S j) (S n)); [|lia|intros i Hi; unfold mb; destruct (Nat.leb_spec i j); [lia|ring]].
  destruct (le_lt_dec k j) as [Ljk|Ljk].
  - rewrite sumn_ext with (g := fun l => bq n j / bq n k * bq j k * (if (k <=? l)%nat then (- (1)) ^ (j - l) * bq (j - k) (l - k) else 0)).
    + rewrite sumn_scale, alternating2 by auto. rewrite Nat.eqb_sym. destruct (Nat.eqb_spec j k) as [->|]; [rewrite bq_diag; field; apply bq_nz; lia|ring].
    + intros l Ll. unfold mi, mb. destruct (Nat.leb_spec l j); [|lia]. destruct (Nat.leb_spec k l); [|ring].
      assert (T := bq_tri j l k ltac:(lia)). assert (NZ := bq_nz n k ltac:(lia)).
      replace (bq n j / bq n k * bq j k * ((- (1)) ^ (j - l) * bq (j - k) (l - k))) with (bq n j / bq n k * (- (1)) ^ (j - l) * (bq j k * bq (j - k) (l - k))) by ring.
      rewrite <- T. field. auto.
  - destruct (Nat.eqb_spec j k); [lia|]. apply sumn_zero. intros l Ll. unfold mi. destruct (Nat.leb_spec k l); [lia|ring].
Qed.
(* the powers of u times a column *)
Lemma mb_column n k u : (k <= n)%nat -> sumn (S n) (fun j => u ^ j * mb n j k) = bernstein n k u.
Proof.
  intro L. unfold bernstein. replace (S n) with (k + S (n - k))%nat by lia. rewrite sumn_shift.
  2:{ intros i Li. unfold mb. destruct (Nat.leb_spec k i); [lia|ring]. }
  rewrite sumn_ext with (g := fun i => bq n k * u ^ k * (bq (n - k) i * (- u) ^ i * 1 ^ (n - k - i))).
  - rewrite sumn_scale, binomial_theorem. replace (- u + 1) with (1 - u) by ring. auto.
  - intros i Li. unfold mb. destruct (Nat.leb_spec k (k + i)); [|lia]. replace (k + i - k)%nat with i by lia. assert (T := bq_tri n (k + i) k ltac:(lia)).
    replace (k + i - k)%nat with i in T by lia. rewrite pow_one, pow_add. replace (- u) with (- (1) * u) by ring. rewrite pow_mul_base.
    replace (u ^ k * u ^ i * ((- (1)) ^ i * bq n (k + i) * bq (k + i) k)) with (u ^ k * u ^ i * (- (1)) ^ i * (bq n (k + i) * bq (k + i) k)) by ring. rewrite T. ring.
Qed.

Lemma bpmat_inverse n : (n <= 30)%nat -> exists M, bpmat n = Ok M /\ inverse_of (S n) M (tab (S n) (fun j => tab (S n) (fun k => mi n j k))).
Proof.
  intro L. eexists. split; [apply bpmat_ok; auto|]. split; [apply shaped_tab|]. unfold matmul, identity. split; apply tab_ext; intros i Li; apply tab_ext; intros j Lj.
  - rewrite sumn_ext with (g := fun l => mi n i l * mb n l j) by (intros l Ll; now rewrite !ent_tab by auto). apply mi_mb; lia.
  - rewrite sumn_ext with (g := fun l => mb n i l * mi n l j) by (intros l Ll; now rewrite !ent_tab by auto). apply mb_mi; lia.
Qed.

(* ---- sandwiching ---- *)
Definition sand (n m : nat) (Mu Mv X : nat -> nat -> Qc) (i j : nat) : Qc := sumn n (fun a => sumn m (fun l => Mu i a * X a l * Mv j l)).
Lemma convert_ent n m Mu Mv X i j : (i < n)%nat -> (j < m)%nat ->
  ent (matmul n m m (matmul n n m Mu X) (transpose m m Mv)) i j = sand n m (ent Mu) (ent Mv) (ent X) i j.
Proof.
  intros Li Lj. unfold matmul at 1. rewrite ent_tab by auto. unfold sand. rewrite sumn_swap. apply sumn_ext. intros l Ll.
  unfold matmul, transpose. rewrite !ent_tab by auto. rewrite <- sumn_scale_r. auto.
Qed.
Lemma quad_sum n m n' m' (P Q : nat -> Qc) (M N X : nat -> nat -> Qc) :
  sumn n (fun a => sumn m (fun l => P a * sumn n' (fun a' => sumn m' (fun l' => M a a' * X a' l' * N l l')) * Q l)) =
  sumn n' (fun a' => sumn m' (fun l' => sumn n (fun a => P a * M a a') * X a' l' * sumn m (fun l => Q l * N l l'))).
Proof.
  set (t a l a' l' := P a * (M a a' * X a' l' * N l l') * Q l).
  transitivity (sumn n (fun a => sumn m (fun l => sumn n' (fun a' => sumn m' (fun l' => t a l a' l'))))).
  { apply sumn_ext. intros a _. apply sumn_ext. intros l _. rewrite <- sumn_scale, <- sumn_scale_r. apply sumn_ext. intros a' _.
    rewrite <- sumn_scale, <- sumn_scale_r. apply sumn_ext. intros l' _. unfold t. ring. }
  transitivity (sumn n' (fun a' => sumn m' (fun l' => sumn n (fun a => sumn m (fun l => t a l a' l'))))).
  { rewrite sumn_ext with (g := fun a => sumn n' (fun a' => sumn m (fun l => sumn m' (fun l' => t a l a' l')))) by (intros a _; apply sumn_swap).
    rewrite sumn_swap. apply sumn_ext. intros a' _.
    rewrite sumn_ext with (g := fun a => sumn m' (fun l' => sumn m (fun l => t a l a' l'))) by (intros a _; apply sumn_swap). apply sumn_swap. }
  apply sumn_ext. intros a' _. apply sumn_ext. intros l' _. rewrite <- sumn_scale_r, sumn_mul. apply sumn_ext. intros a _. apply sumn_ext. intros l _. unfold t. ring.
Qed.

(* ---- conversion keeps the polynomial ---- *)
Lemma eval_mono_spec p u v : evaluate_monomial2d p u v = map (fun X => poly_value (rows p) (cols p) X u v) (coords p).
Proof. reflexivity. Qed.
Lemma eval_bez_spec p u v : evaluate_bezier_patch p u v = map (fun X => bezier_value (rows p) (cols p) X u v) (coords p).
Proof. reflexivity. Qed.
Lemma convert_value n m Mu Mv X u v : (1 <= n <= 31)%nat -> (1 <= m <= 31)%nat -> bpmat (n - 1) = Ok Mu -> bpmat (m - 1) = Ok Mv ->
  poly_value n m (matmul n m m (matmul n n m Mu X) (transpose m m Mv)) u v = bezier_value n m X u v.
Proof.
  intros Hn Hm Eu Ev. rewrite bpmat_ok in Eu by lia. rewrite bpmat_ok in Ev by lia. inversion Eu; subst Mu. inversion Ev; subst Mv. clear Eu Ev.
  replace (S (n - 1)) with n by lia. replace (S (m - 1)) with m by lia. unfold poly_value, bezier_value.
  transitivity (sumn n (fun a => sumn m (fun l => u ^ a * sumn n (fun a' => sumn m (fun l' => mb (n - 1) a a' * ent X a' l' * mb (m - 1) l l')) * v ^ l))).
  { apply sumn_ext. intros i Li. apply sumn_ext. intros j Lj. rewrite convert_ent by auto. unfold sand. rewrite (Qcmult_comm _ (u ^ i)). f_equal. f_equal.
    apply sumn_ext. intros a La. apply sumn_ext. intros l Ll. now rewrite !ent_tab by auto. }
  rewrite quad_sum. apply sumn_ext. intros a La. apply sumn_ext. intros l Ll.
  assert (A := mb_column (n - 1) a u ltac:(lia)). replace (S (n - 1)) with n in A by lia. rewrite A.
  assert (B := mb_column (m - 1) l v ltac:(lia)). replace (S (m - 1)) with m in B by lia. rewrite B. ring.
Qed.
Lemma to_monomial_ok p : table_size p -> exists q, bezier_to_monomial p = Ok q /\ rows q = rows p /\ cols q = cols p /\ wf_patch q /\
  forall u v, evaluate_monomial2d q u v = map (fun X => bezier_value (rows p) (cols p) X u v) (coords p).
Proof.
  intros [Hn Hm]. unfold bezier_to_monomial. destruct (Nat.eqb_spec (rows p) 0); [lia|]. destruct (Nat.eqb_spec (cols p) 0); [lia|]. cbn [orb].
  destruct (bpmat_inverse (rows p - 1) ltac:(lia)) as [Mu [Eu _]]. destruct (bpmat_inverse (cols p - 1) ltac:(lia)) as [Mv [Ev _]].
  rewrite Eu, Ev. cbn [bind]. eexists. split; [reflexivity|]. cbn [rows cols coords]. split; auto. split; auto. split.
  - unfold wf_patch, convert. cbn [rows cols coords]. apply Forall_forall. intros X I. apply in_map_iff in I. destruct I as [X0 [<- _]]. apply shaped_tab.
  - intros u v. rewrite eval_mono_spec. cbn [rows cols coords]. unfold convert. rewrite map_map. apply map_ext. intro X. apply convert_value; auto.
Qed.

(* ---- round trips ---- *)
Lemma sand_identity n m Mu Mv Nu Nv X : shaped n m X ->
  (forall i k, (i < n)%nat -> (k < n)%nat -> sumn n (fun a => ent Nu i a * ent Mu a k) = if (i =? k)%nat then 1 else 0) ->
  (forall i k, (i < m)%nat -> (k < m)%nat -> sumn m (fun a => ent Nv i a * ent Mv a k) = if (i =? k)%nat then 1 else 0) ->
  matmul n m m (matmul n n m Nu (matmul n m m (matmul n n m Mu X) (transpose m m Mv))) (transpose m m Nv) = X.
Proof.
  intros SX HU HV. set (R := matmul n m m (matmul n n m Nu _) _).
  assert (SR : shaped n m R) by apply shaped_tab. rewrite (shaped_eq n m R SR), (shaped_eq n m X SX). apply tab_ext. intros i Li. apply tab_ext. intros j Lj. unfold R.
  rewrite convert_ent by auto. unfold sand at 1.
  transitivity (sumn n (fun a => sumn m (fun l => ent Nu i a * sumn n (fun a' => sumn m (fun l' => ent Mu a a' * ent X a' l' * ent Mv l l')) * ent Nv j l))).
  { apply sumn_ext. intros a La. apply sumn_ext. intros l Ll. now rewrite convert_ent by auto. }
  rewrite quad_sum. rewrite (sumn_one n i); [|auto|intros a La NE; apply sumn_zero; intros l Ll; rewrite HU by auto; destruct (Nat.eqb_spec i a); [congruence|ring]].
  rewrite (sumn_one m j); [|auto|intros l Ll NE; rewrite (HV j l) by auto; destruct (Nat.eqb_spec j l); [congruence|ring]].
  rewrite HU, HV by auto. rewrite !Nat.eqb_refl. ring.
Qed.
Lemma mat_identity n A B : matmul n n n A B = identity n -> forall i k, (i < n)%nat -> (k < n)%nat -> sumn n (fun a => ent A i a * ent B a k) = if (i =? k)%nat then 1 else 0.
Proof.
  intros E i k Li Lk. assert (X : ent (matmul n n n A B) i k = ent (identity n) i k) by now rewrite E. unfold matmul, identity in X. rewrite !ent_tab in X by auto. auto.
Qed.
Lemma map_id_in {A} (f : A -> A) l : Forall (fun x => f x = x) l -> map f l = l.
Proof. induction 1; cbn; congruence. Qed.
Lemma round_trip_ok inv p : inverts inv -> table_size p -> wf_patch p ->
  exists q r, bezier_to_monomial p = Ok q /\ monomial_to_bezier inv q = Ok p /\ monomial_to_bezier inv p = Ok r /\ bezier_to_monomial r = Ok p.
Proof.
  intros HI [Hn Hm] W. destruct p as [n m cs]. cbn [rows cols] in *. unfold bezier_to_monomial, monomial_to_bezier. cbn [rows cols coords].
  destruct (Nat.eqb_spec n 0); [lia|]. destruct (Nat.eqb_spec m 0); [lia|]. cbn [orb].
  destruct (bpmat_inverse (n - 1) ltac:(lia)) as [Mu [Eu _]]. destruct (bpmat_inverse (m - 1) ltac:(lia)) as [Mv [Ev _]].
  destruct (HI (n - 1)%nat Mu ltac:(lia) Eu) as [_ [U1 U2]]. destruct (HI (m - 1)%nat Mv ltac:(lia) Ev) as [_ [V1 V2]].
  replace (S (n - 1)) with n in * by lia. replace (S (m - 1)) with m in * by lia. unfold wf_patch in W. cbn [rows cols coords] in W.
  rewrite Eu, Ev. cbn [bind]. eexists. eexists. split; [reflexivity|]. cbn [rows cols coords].
  destruct (Nat.eqb_spec n 0); [lia|]. destruct (Nat.eqb_spec m 0); [lia|]. cbn [orb]. rewrite Eu, Ev. cbn [bind]. split; [|split; [reflexivity|]].
  - do 2 f_equal. unfold convert. rewrite map_map. apply map_id_in. apply Forall_forall. intros X I. rewrite Forall_forall in W.
    apply sand_identity; auto; apply mat_identity; auto.
  - cbn [rows cols coords]. destruct (Nat.eqb_spec n 0); [lia|]. destruct (Nat.eqb_spec m 0); [lia|]. cbn [orb]. rewrite Eu, Ev. cbn [bind].
    do 2 f_equal. unfold convert. rewrite map_map. apply map_id_in. apply Forall_forall. intros X I. rewrite Forall_forall in W.
    apply sand_identity; auto; apply mat_identity; auto.
Qed.
Lemma to_bezier_value inv p : inverts inv -> table_size p -> wf_patch p -> exists r, monomial_to_bezier inv p = Ok r /\ rows r = rows p /\ cols r = cols p /\ length (coords r) = length (coords p) /\
  forall u v, evaluate_bezier_patch r u v = map (fun X => poly_value (rows p) (cols p) X u v) (coords p).
Proof.
  intros HI T W. destruct (round_trip_ok inv p HI T W) as [_ [r [_ [_ [E1 E2]]]]].
  assert (RS : rows r = rows p /\ cols r = cols p /\ length (coords r) = length (coords p)).
  { unfold monomial_to_bezier in E1. destruct ((rows p =? 0)%nat || (cols p =? 0)%nat); [discriminate|]. destruct (bpmat (rows p - 1)); [|discriminate]. destruct (bpmat (cols p - 1)); [|discriminate].
    cbn [bind] in E1. inversion E1. cbn. unfold convert. rewrite map_length. auto. }
  exists r. split; auto. destruct RS as [R1 [R2 R3]]. split; auto. split; auto. split; auto. intros u v.
  assert (T' : table_size r) by (unfold table_size in *; rewrite R1, R2; auto).
  destruct (to_monomial_ok r T') as [q [E3 [_ [_ [_ V]]]]]. rewrite E2 in E3. inversion E3; subst q. rewrite eval_bez_spec. rewrite <- V. apply eval_mono_spec.
Qed.
