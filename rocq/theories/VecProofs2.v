(* Norms, support points, row-wise Gram-Schmidt. *)
From Coq Require Import List ZArith Lia Bool QArith Qcanon.
From Verif Require Import Common ListLib QcLib ArrZ SumLib NurbsModel DerModel DerProofs2 KnotProofs2 PlnModel PlnSpec PlnProofs2 PlnProofs4 VecModel VecSpec VecProofs1.
Import ListNotations.
Local Open Scope Z_scope.
Local Open Scope Qc_scope.

(* ---- inner products ---- *)
Lemma inner_self_nonneg v : 0 <= inner v v.
Proof. apply sumn_nonneg. intros. apply sq_nonneg. Qed.

Lemma sumn_zero_inv n f : (forall i, (i < n)%nat -> 0 <= f i) -> sumn n f = 0 -> forall i, (i < n)%nat -> f i = 0.
Proof.
  induction n as [|n IH]; intros H E i Hi; [lia|]. rewrite sumn_S in E.
  assert (P : 0 <= sumn n f) by (apply sumn_nonneg; auto). assert (Q : 0 <= f n) by auto.
  assert (sumn n f = 0) by qlra. assert (f n = 0) by qlra.
  destruct (Nat.eq_dec i n) as [->|]; auto. apply IH; auto. lia.
Qed.

Lemma inner_self_zero v : inner v v = 0 <-> forall x, In x v -> x = 0.
Proof.
  unfold inner. split.
  - intros H x Hx. apply (In_nth _ _ 0) in Hx. destruct Hx as [i [Hi <-]]. apply sq_zero.
    apply (sumn_zero_inv (length v) (fun i => nth i v 0 * nth i v 0)); auto. intros. apply sq_nonneg.
  - intro H. apply sumn_zero. intros i Hi. rewrite (H (nth i v 0)) by (now apply nth_In). ring.
Qed.

Lemma nth_times s v i : nth i (times s v) 0 = s * nth i v 0.
Proof.
  unfold times. rewrite <- (Qcmult_0_r s) at 1. apply map_nth.
Qed.
Lemma len_times s v : length (times s v) = length v.
Proof. apply map_length. Qed.
Lemma inner_times s v : inner (times s v) (times s v) = s * s * inner v v.
Proof.
  unfold inner. rewrite len_times, <- sumn_scale. apply sumn_ext. intros. rewrite nth_times. ring.
Qed.
Lemma list_ext0 (a b : list Qc) : length a = length b -> (forall i, (i < length a)%nat -> nth i a 0 = nth i b 0) -> a = b.
Proof. intros. apply (nth_ext _ _ 0 0); auto. Qed.

(* ---- norms ---- *)
Lemma sumsq_ok v : sumsq v = Ok (inner v v).
Proof.
  unfold sumsq, inner. rewrite (sum_loop _ _ (fun i => nth i v 0 * nth i v 0)).
  - rewrite lenZ_nat. f_equal. ring.
  - unfold lenZ; lia.
  - intros j r Hj. rewrite (rdZ_ok 0) by auto. reflexivity.
Qed.

Section Sqrt.
Variable sqrt : Qc -> Qc.

Lemma vnorm_ok v : vnorm sqrt v = Ok (sqrt (inner v v)).
Proof. unfold vnorm. now rewrite sumsq_ok. Qed.

Lemma norm_ok a junk : length junk = length a -> norm sqrt a junk = Ok (map (fun row => sqrt (inner row row)) a).
Proof.
  intro L. unfold norm. rewrite (lenZ_of _ a _ eq_refl).
  rewrite (fill_list 0 (length a) junk (fun i => sqrt (inner (nth i a []) (nth i a [])))) by
    (auto; intros i r Hi Lr _; rewrite (rdZ_ok []) by (unfold lenZ; lia); cbn [bind]; rewrite vnorm_ok; cbn [bind]; unfold atZ; now rewrite Nat2Z.id).
  f_equal. apply (nth_ext _ _ (sqrt (inner [] [])) (sqrt (inner [] []))); [now rewrite !map_length, seq_length|].
  intros i Hi. rewrite map_length, seq_length in Hi. rewrite nth_map_seq by auto.
  now rewrite (map_nth (fun row => sqrt (inner row row)) a []).
Qed.

Lemma div_unit v s : s <> 0 -> 0 <= s -> s * s = inner v v ->
  unit_of v (map (fun i => nth i v 0 / s) (seq 0 (length v))).
Proof.
  intros Hs P E. set (u := map (fun i => nth i v 0 / s) (seq 0 (length v))).
  assert (Lu : length u = length v) by (unfold u; now rewrite map_length, seq_length).
  assert (V : v = times s u).
  { apply list_ext0; [now rewrite len_times|]. intros i Hi. rewrite nth_times. unfold u. rewrite nth_map_seq by auto. field. auto. }
  assert (SP : 0 < s) by (apply Qcle_lt_or_eq in P; destruct P as [P|P]; auto; congruence).
  split.
  - assert (K : s * s * inner u u = s * s) by (rewrite <- inner_times, <- V, E; auto).
    assert (Z : (s * s) * (inner u u - 1) = 0) by (transitivity (s * s * inner u u - s * s); [ring|rewrite K; ring]).
    apply Qcmult_integral in Z. destruct Z as [Z|Z]; [exfalso; apply Hs, sq_zero; auto|]. transitivity (inner u u - 1 + 1); [ring|rewrite Z; ring].
  - exists s. repeat split; auto.
Qed.

Lemma sqrt_nz v : is_sqrt (sqrt (inner v v)) (inner v v) -> ~ (forall x, In x v -> x = 0) -> sqrt (inner v v) <> 0.
Proof. intros [_ E] N Z. apply N, inner_self_zero. rewrite <- E, Z. ring. Qed.

Lemma vunit_ok v junk : length junk = length v -> is_sqrt (sqrt (inner v v)) (inner v v) -> ~ (forall x, In x v -> x = 0) ->
  exists u, vunit sqrt v junk = Ok u /\ unit_of v u.
Proof.
  intros L S N. pose proof (sqrt_nz v S N) as NZ. destruct S as [P E]. unfold vunit. rewrite vnorm_ok. cbn [bind].
  rewrite (lenZ_of _ v _ eq_refl).
  rewrite (fill_list 0 (length v) junk (fun i => nth i v 0 / sqrt (inner v v))).
  - eexists. split; [reflexivity|]. apply div_unit; auto.
  - auto.
  - intros i r Hi Lr _. rewrite (rdZ_ok 0) by (unfold lenZ; lia). cbn [bind]. rewrite divR_ok_ by auto. cbn [bind]. unfold atZ. now rewrite Nat2Z.id.
Qed.

Lemma vunit_zero v junk : v <> [] -> sqrt 0 = 0 -> (forall x, In x v -> x = 0) -> vunit sqrt v junk = Err ZeroDivision.
Proof.
  intros N S H. unfold vunit. rewrite vnorm_ok. cbn [bind]. rewrite (proj2 (inner_self_zero v) H), S.
  destruct v as [|x v]; [easy|]. apply forZ_first; [unfold lenZ; cbn [length]; lia|].
  rewrite (rdZ_ok 0) by (unfold lenZ; cbn [length]; lia). cbn [bind]. now rewrite divR_zero_.
Qed.

Lemma normalize_ok v : is_sqrt (sqrt (inner v v)) (inner v v) -> tiny < sqrt (inner v v) ->
  exists u, scalar_normalize sqrt v = Ok (u, 1%Z) /\ unit_of v u.
Proof.
  intros [P E] T. unfold scalar_normalize. rewrite vnorm_ok. cbn [bind]. rewrite (proj2 (qlt_true _ _) T).
  assert (NZ : sqrt (inner v v) <> 0) by (intro Z; pose proof tiny_pos; rewrite Z in T; qlra).
  rewrite (lenZ_of _ v _ eq_refl).
  rewrite (fill_list 0 (length v) v (fun i => nth i v 0 / sqrt (inner v v))).
  - cbn [bind]. eexists. split; [reflexivity|]. apply div_unit; auto.
  - auto.
  - intros i r Hi Lr Hr. rewrite (rdZ_ok 0) by (unfold lenZ; lia). cbn [bind]. unfold atZ. rewrite Nat2Z.id, Hr.
    rewrite divR_ok_ by auto. reflexivity.
Qed.
Lemma normalize_short v : sqrt (inner v v) <= tiny -> scalar_normalize sqrt v = Ok (v, 0%Z).
Proof.
  intro T. unfold scalar_normalize. rewrite vnorm_ok. cbn [bind]. destruct (qlt tiny (sqrt (inner v v))) eqn:Q; auto.
  apply qlt_true in Q. qlra.
Qed.

Lemma unit_rows_ok a junk :
  length junk = length a -> (forall i, (i < length a)%nat -> length (nth i junk []) = length (nth i a [])) ->
  (forall v, In v a -> is_sqrt (sqrt (inner v v)) (inner v v) /\ ~ (forall x, In x v -> x = 0)) ->
  exists r, unit_rows sqrt a junk = Ok r /\ length r = length a /\
    forall i, (i < length a)%nat -> unit_of (nth i a []) (nth i r []).
Proof.
  intros L W H. unfold unit_rows.
  destruct (forZ_inv (fun k r => length r = length a /\ (forall i, (i < length a)%nat ->
     if (Z.of_nat i <? k)%Z then unit_of (nth i a []) (nth i r []) else nth i r [] = nth i junk []))
    (fun i r => do row <- rdZ a i; do old <- rdZ r i; do u <- vunit sqrt row old; wrZ r i u) 0 (lenZ a) junk) as [r [E [Lr Hr]]].
  - unfold lenZ; lia.
  - split; auto. intros i Hi. destruct (Z.ltb_spec (Z.of_nat i) 0); [lia|auto].
  - intros k r Hk [Lr Hr]. rewrite !(rdZ_ok []) by (unfold lenZ in *; lia). cbn [bind]. unfold atZ.
    assert (Kk : (Z.to_nat k < length a)%nat) by (unfold lenZ in Hk; lia).
    pose proof (Hr (Z.to_nat k) Kk) as Ho. rewrite Z2Nat.id in Ho by lia. rewrite Z.ltb_irrefl in Ho. rewrite Ho.
    destruct (H (nth (Z.to_nat k) a [])) as [S N]; [now apply nth_In|].
    destruct (vunit_ok (nth (Z.to_nat k) a []) (nth (Z.to_nat k) junk [])) as [u [-> U]]; auto.
    cbn [bind]. rewrite wrZ_ok by (unfold lenZ in *; lia). eexists. split; [reflexivity|].
    split; [generalize (lenZ_upd r (Z.to_nat k) u); unfold lenZ; lia|]. intros i Hi.
    destruct (Nat.eq_dec i (Z.to_nat k)) as [->|Ni].
    + destruct (Z.ltb_spec (Z.of_nat (Z.to_nat k)) (k + 1)); [|lia].
      pose proof (atZ_upd_eq [] r k u ltac:(unfold lenZ in *; lia)) as A. unfold atZ in A. rewrite A. auto.
    + pose proof (atZ_upd_neq [] r k (Z.of_nat i) u ltac:(lia) ltac:(lia) ltac:(lia)) as A. unfold atZ in A. rewrite !Nat2Z.id in A. rewrite A.
      specialize (Hr i Hi). destruct (Z.ltb_spec (Z.of_nat i) k), (Z.ltb_spec (Z.of_nat i) (k + 1)); try lia; auto.
  - exists r. split; auto. split; auto. intros i Hi. specialize (Hr i Hi).
    destruct (Z.ltb_spec (Z.of_nat i) (lenZ a)); auto. unfold lenZ in *; lia.
Qed.
End Sqrt.

(* ---- support points ---- *)
Lemma support_loop_ok n vs d s0 : rect n (length d) vs ->
  exists x s, support_loop vs d s0 = Ok (x, s) /\
   ((n = 0%nat /\ s = s0) \/ exists k, first_max vs d k /\ s = nth k vs []).
Proof.
  intros R. unfold support_loop.
  destruct (forZ_inv (fun i (st : option Qc * list Qc) =>
     (i = 0%Z /\ st = (None, s0)) \/
     exists k, (Z.of_nat k < i)%Z /\ st = (Some (inner (nth k vs []) d), nth k vs []) /\
       (forall m, (Z.of_nat m < i)%Z -> inner (nth m vs []) d <= inner (nth k vs []) d) /\
       (forall m, (m < k)%nat -> inner (nth m vs []) d < inner (nth k vs []) d))
    (fun i st => do v <- rdZ vs i; do x <- scalar_dot v d; if above x (fst st) then Ok (Some x, v) else Ok st) 0 (lenZ vs) (None, s0))
    as [[x s] [E H]].
  - unfold lenZ; lia.
  - left. auto.
  - intros i st Hi H. destruct R as [L W].
    rewrite (rdZ_ok []) by lia. cbn [bind]. unfold atZ. rewrite scalar_dot_ok by (apply W; unfold lenZ in Hi; lia). cbn [bind].
    set (x := inner (nth (Z.to_nat i) vs []) d).
    destruct H as [[-> ->]|[k [Hk [-> [H1 H2]]]]]; cbn [fst above].
    + eexists. split; [reflexivity|]. right. exists 0%nat. split; [lia|]. split; [reflexivity|]. split; [|intros; lia].
      intros m Hm. replace m with 0%nat by lia. apply Qcle_refl.
    + destruct (qlt (inner (nth k vs []) d) x) eqn:Q.
      * apply qlt_true in Q. eexists. split; [reflexivity|]. right. exists (Z.to_nat i). split; [lia|]. split; [reflexivity|]. fold x. split.
        -- intros m Hm. destruct (Nat.eq_dec m (Z.to_nat i)) as [->|]; [apply Qcle_refl|]. specialize (H1 m ltac:(lia)). qlra.
        -- intros m Hm. specialize (H1 m ltac:(lia)). qlra.
      * apply qlt_false in Q. eexists. split; [reflexivity|]. right. exists k. split; [lia|]. split; [reflexivity|]. split; auto.
        intros m Hm. destruct (Nat.eq_dec m (Z.to_nat i)) as [->|]; [exact Q|]. apply H1. lia.
  - exists x, s. split; auto. destruct R as [L W]. destruct H as [[Z H]|[k [Hk [H [H1 H2]]]]].
    + left. split; [unfold lenZ in Z; lia|]. now inversion H.
    + right. exists k. split; [|now inversion H]. split; [unfold lenZ in Hk; lia|]. split; auto.
      intros m Hm. apply H1. unfold lenZ. lia.
Qed.

Lemma support_ok n vs d : rect n (length d) vs -> (0 < n)%nat ->
  exists k, first_max vs d k /\ support_vector vs d = Ok (nth k vs []).
Proof.
  intros R Hn. unfold support_vector. destruct (support_loop_ok n vs d (repeat 0 (length d)) R) as [x [s [-> H]]].
  destruct H as [[H _]|[k [F ->]]]; [lia|]. exists k. auto.
Qed.
Lemma support_empty d : support_vector [] d = Ok (repeat 0 (length d)).
Proof. reflexivity. Qed.

Lemma multi_support_ok n vs ds k : rect n k vs -> (0 < n)%nat -> (forall d, In d ds -> length d = k) ->
  exists r, multi_support_vector vs ds = Ok r /\ length r = length ds /\
   forall i, (i < length ds)%nat -> exists m, first_max vs (nth i ds []) m /\ nth i r [] = nth m vs [].
Proof.
  intros R Hn Hd. unfold multi_support_vector. set (r0 := map (fun d => repeat 0 (length d)) ds).
  destruct (forZ_inv (fun j r => length r = length ds /\ forall i, (i < length ds)%nat -> (Z.of_nat i < j)%Z ->
     exists m, first_max vs (nth i ds []) m /\ nth i r [] = nth m vs [])
    (fun j r => do d <- rdZ ds j; do s0 <- rdZ r j; do st <- support_loop vs d s0; wrZ r j (snd st)) 0 (lenZ ds) r0) as [r [E [L H]]].
  - unfold lenZ; lia.
  - split; [apply map_length|]. intros. lia.
  - intros j r Hj [L H]. rewrite !(rdZ_ok []) by (unfold lenZ in *; lia). cbn [bind]. unfold atZ.
    assert (Kj : (Z.to_nat j < length ds)%nat) by (unfold lenZ in Hj; lia).
    assert (Ld : length (nth (Z.to_nat j) ds []) = k) by (apply Hd, nth_In; auto).
    destruct (support_loop_ok n vs (nth (Z.to_nat j) ds []) (nth (Z.to_nat j) r [])) as [x [s [-> S]]]; [now rewrite Ld|].
    destruct S as [[S _]|[m [F ->]]]; [lia|]. cbn [bind snd]. rewrite wrZ_ok by (unfold lenZ in *; lia). eexists. split; [reflexivity|].
    split; [generalize (lenZ_upd r (Z.to_nat j) (nth m vs [])); unfold lenZ; lia|]. intros i Hi Hij.
    destruct (Nat.eq_dec i (Z.to_nat j)) as [->|Ni].
    + exists m. split; auto. pose proof (atZ_upd_eq [] r j (nth m vs []) ltac:(unfold lenZ in *; lia)) as A. exact A.
    + pose proof (atZ_upd_neq [] r j (Z.of_nat i) (nth m vs []) ltac:(lia) ltac:(lia) ltac:(lia)) as A. unfold atZ in A. rewrite !Nat2Z.id in A.
      rewrite A. apply H; auto. lia.
  - exists r. split; auto. split; auto. intros i Hi. apply H; auto. unfold lenZ. lia.
Qed.

(* ---- row-wise Gram-Schmidt ---- *)
Lemma row_fill n k r i h body : shapeM n k r -> (0 <= k)%Z -> (0 <= i < n)%Z ->
  (forall j r, (0 <= j < k)%Z -> shapeM n k r -> body j r = wrM r i j (h j)) ->
  exists r', forZ 0 k r body = Ok r' /\ shapeM n k r' /\
   forall i' j, (0 <= i' < n)%Z -> (0 <= j < k)%Z -> atM 0 r' i' j = if (i' =? i)%Z then h j else atM 0 r i' j.
Proof.
  intros Sr Hk Hi Hb.
  destruct (forZ_inv (fun m r1 => shapeM n k r1 /\ forall i' j, (0 <= i' < n)%Z -> (0 <= j < k)%Z ->
     atM 0 r1 i' j = if ((i' =? i) && (j <? m))%Z then h j else atM 0 r i' j) body 0 k r) as [r' [E [S' H]]]; auto.
  - split; auto. intros i' j Hi' Hj. destruct (Z.ltb_spec j 0); [lia|]. now rewrite andb_false_r.
  - intros m r1 Hm [S1 H1]. rewrite Hb by auto. rewrite (wrM_ok r1 n k) by auto. eexists. split; [reflexivity|].
    split; [now apply shapeM_updM|]. intros i' j Hi' Hj. destruct (Z.eqb_spec i' i) as [->|Ni]; cbn [andb].
    + destruct (Z.eq_dec j m) as [->|Nj].
      * rewrite (atM_updM_eq 0 r1 n k) by auto. destruct (Z.ltb_spec m (m + 1)); [auto|lia].
      * rewrite (atM_updM_neq 0 r1 n k) by (auto; lia). rewrite H1 by auto. rewrite Z.eqb_refl. cbn [andb].
        destruct (Z.ltb_spec j m), (Z.ltb_spec j (m + 1)); try lia; auto.
    + rewrite (atM_updM_neq 0 r1 n k) by (auto; lia). rewrite H1 by auto. destruct (Z.eqb_spec i' i); [lia|auto].
  - exists r'. split; auto. split; auto. intros i' j Hi' Hj. rewrite H by auto. destruct (Z.ltb_spec j k); [|lia]. now rewrite andb_true_r.
Qed.

Lemma gs_rows_ok n k a b junk : rect n k a -> rect n k b -> rect n k junk -> (0 < k)%nat ->
  exists r, gram_schmidt_rows a b junk = Ok r /\ rect n k r /\
   forall i j, (i < n)%nat -> (j < k)%nat ->
     nth j (nth i r []) 0 = nth (k - 1) (nth i b []) 0 - nth (k - 1) (nth i a []) 0 * inner (nth i b []) (nth i a []).
Proof.
  intros Ra Rb Rj Hk. unfold gram_schmidt_rows. rewrite (lenZ_of _ _ _ (proj1 Ra)).
  pose (h := fun i : Z => nth (k - 1) (nth (Z.to_nat i) b []) 0 - nth (k - 1) (nth (Z.to_nat i) a []) 0 * inner (nth (Z.to_nat i) b []) (nth (Z.to_nat i) a [])).
  destruct (forZ_inv (fun m r => shapeM (Z.of_nat n) (Z.of_nat k) r /\
     forall i j, (0 <= i < Z.of_nat n)%Z -> (0 <= j < Z.of_nat k)%Z -> (i < m)%Z -> atM 0 r i j = h i)
     (fun i r => do item <- dot_row b a (cols a) i; let j := (cols a - 1)%Z in
        forZ 0 (cols a) r (fun k0 r0 => do x <- rdM b i j; do y <- rdM a i j; wrM r0 i k0 (x - y * item))) 0 (Z.of_nat n) junk) as [r [E [Sr H]]].
  - lia.
  - split; [now apply rect_shape|]. intros. lia.
  - intros i r Hi [Sr H]. rewrite (cols_rect n k) by (auto; lia). rewrite (dot_row_ok n k) by auto. cbn [bind].
    destruct (row_fill (Z.of_nat n) (Z.of_nat k) r i (fun _ => h i) (fun k0 r0 => do x <- rdM b i (Z.of_nat k - 1)%Z; do y <- rdM a i (Z.of_nat k - 1)%Z;
        wrM r0 i k0 (x - y * inner (nth (Z.to_nat i) b []) (nth (Z.to_nat i) a [])))) as [r' [E' [S' H']]]; auto.
    + lia.
    + intros j r0 Hj S0. rewrite !(rd_entry n k) by (auto; lia). cbn [bind]. unfold h. now replace (Z.to_nat (Z.of_nat k - 1)) with (k - 1)%nat by lia.
    + exists r'. split; [exact E'|]. split; auto. intros i' j Hi' Hj Hm. rewrite H' by auto. destruct (Z.eqb_spec i' i) as [->|]; auto. apply H; auto. lia.
  - exists r. split; auto. split; [now apply rect_shape|]. intros i j Hi Hj.
    specialize (H (Z.of_nat i) (Z.of_nat j) ltac:(lia) ltac:(lia) ltac:(lia)). unfold atM, atZ, h in H. rewrite !Nat2Z.id in H. exact H.
Qed.

(* the product of a row of the result with the row of a *)
Lemma gs_rows_inner n k a b junk r i : rect n k a -> rect n k b -> rect n k junk -> (0 < k)%nat -> (i < n)%nat ->
  gram_schmidt_rows a b junk = Ok r ->
  inner (nth i r []) (nth i a []) =
  (nth (k - 1) (nth i b []) 0 - nth (k - 1) (nth i a []) 0 * inner (nth i b []) (nth i a [])) * sumn k (fun j => nth j (nth i a []) 0).
Proof.
  intros Ra Rb Rj Hk Hi E. destruct (gs_rows_ok n k a b junk Ra Rb Rj Hk) as [r' [E' [R' H]]]. rewrite E' in E. injection E as <-.
  unfold inner at 1. rewrite (proj2 R' i Hi). rewrite <- sumn_scale. apply sumn_ext. intros j Hj. rewrite H by auto. reflexivity.
Qed.
