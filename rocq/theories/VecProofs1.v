(* Loops over arrays: sums, rows, products. *)
From Coq Require Import List ZArith Lia Bool QArith Qcanon.
From Verif Require Import Common ListLib QcLib ArrZ SumLib NurbsModel DerModel DerProofs2 KnotProofs2 PlnModel PlnSpec PlnProofs2 PlnProofs4 VecModel VecSpec.
Import ListNotations.
Local Open Scope Z_scope.
Local Open Scope Qc_scope.

Lemma sum_loop n c (g : nat -> Qc) body :
  (0 <= n)%Z -> (forall j r, (0 <= j < n)%Z -> body j r = Ok (r + g (Z.to_nat j))) ->
  forZ 0 n c body = Ok (c + sumn (Z.to_nat n) g).
Proof.
  intros Hn Hb. destruct (forZ_inv (fun i r => r = c + sumn (Z.to_nat i) g) body 0 n c) as [r [E ->]]; auto.
  - cbn. ring.
  - intros i r Hi ->. rewrite Hb by auto. eexists. split; [reflexivity|].
    replace (Z.to_nat (i + 1)) with (S (Z.to_nat i)) by lia. rewrite sumn_S. ring.
Qed.

Lemma fill_loop {A} (d : A) n r0 (h : Z -> A) body :
  lenZ r0 = n ->
  (forall i r, (0 <= i < n)%Z -> lenZ r = n -> atZ d r i = atZ d r0 i -> body i r = wrZ r i (h i)) ->
  exists r, forZ 0 n r0 body = Ok r /\ lenZ r = n /\ (forall i, (0 <= i < n)%Z -> atZ d r i = h i).
Proof.
  intros L Hb. assert (Hn : (0 <= n)%Z) by (unfold lenZ in L; lia).
  destruct (forZ_inv (fun k r => lenZ r = n /\ (forall i, (0 <= i < k)%Z -> atZ d r i = h i) /\
     (forall i, (k <= i < n)%Z -> atZ d r i = atZ d r0 i)) body 0 n r0) as [r [E [L' [H _]]]]; auto.
  - split; auto. split; [intros; lia|auto].
  - intros k r Hk [Lr [H1 H2]]. rewrite Hb by (auto; apply H2; lia). rewrite wrZ_ok by lia. eexists. split; [reflexivity|].
    split; [now rewrite lenZ_upd|]. split.
    + intros i Hi. destruct (Z.eq_dec i k) as [->|]; [apply atZ_upd_eq; lia|]. rewrite atZ_upd_neq by lia. apply H1. lia.
    + intros i Hi. rewrite atZ_upd_neq by lia. apply H2. lia.
  - exists r. auto.
Qed.

Lemma atZ_nth {A} (d : A) l i : atZ d l i = nth (Z.to_nat i) l d.
Proof. reflexivity. Qed.
Lemma lenZ_nat {A} (l : list A) : Z.to_nat (lenZ l) = length l.
Proof. unfold lenZ. lia. Qed.

(* the result of a filling loop as a list *)
Lemma fill_list {A} (d : A) n r0 (h : nat -> A) body :
  length r0 = n ->
  (forall i r, (i < n)%nat -> length r = n -> nth i r d = nth i r0 d -> body (Z.of_nat i) r = wrZ r (Z.of_nat i) (h i)) ->
  forZ 0 (Z.of_nat n) r0 body = Ok (map h (seq 0 n)).
Proof.
  intros L Hb. destruct (fill_loop d (Z.of_nat n) r0 (fun i => h (Z.to_nat i)) body) as [r [E [Lr H]]].
  - unfold lenZ. lia.
  - intros i r Hi Lr Ha. specialize (Hb (Z.to_nat i) r). rewrite Z2Nat.id in Hb by lia. apply Hb; [lia| |auto]. unfold lenZ in Lr. lia.
  - rewrite E. f_equal. apply (nth_ext _ _ d (h 0%nat)).
    + rewrite map_length, seq_length. unfold lenZ in Lr. lia.
    + intros k Hk. assert (Hk' : (k < n)%nat) by (unfold lenZ in Lr; lia).
      rewrite map_nth, seq_nth by auto. specialize (H (Z.of_nat k) ltac:(lia)). unfold atZ in H. rewrite Nat2Z.id in H. exact H.
Qed.

Lemma scalar_dot_ok a b : length a = length b -> scalar_dot a b = Ok (inner a b).
Proof.
  intro L. unfold scalar_dot, inner. rewrite (sum_loop _ _ (fun i => nth i a 0 * nth i b 0)).
  - rewrite lenZ_nat. f_equal. ring.
  - unfold lenZ; lia.
  - intros j r Hj. rewrite !(rdZ_ok 0) by (unfold lenZ in *; lia). reflexivity.
Qed.

Lemma cols_rect n k a : rect n k a -> (0 < n)%nat -> cols a = Z.of_nat k.
Proof. intros [L H] Hn. destruct a as [|r a]; [cbn in L; lia|]. unfold cols, lenZ. specialize (H 0%nat Hn). cbn in H. lia. Qed.
Lemma rd_row n k a i : rect n k a -> (0 <= i < Z.of_nat n)%Z -> rdZ a i = Ok (nth (Z.to_nat i) a []).
Proof. intros [L H] Hi. rewrite (rdZ_ok []) by (unfold lenZ; lia). reflexivity. Qed.
Lemma rd_entry n k a i j : rect n k a -> (0 <= i < Z.of_nat n)%Z -> (0 <= j < Z.of_nat k)%Z ->
  rdM a i j = Ok (nth (Z.to_nat j) (nth (Z.to_nat i) a []) 0).
Proof.
  intros R Hi Hj. unfold rdM. rewrite (rd_row n k) by auto. cbn [bind]. destruct R as [L H].
  rewrite (rdZ_ok 0); [reflexivity|]. unfold lenZ. rewrite H by lia. lia.
Qed.

Lemma dot_row_ok n k a b i : rect n k a -> rect n k b -> (0 <= i < Z.of_nat n)%Z ->
  dot_row a b (Z.of_nat k) i = Ok (inner (nth (Z.to_nat i) a []) (nth (Z.to_nat i) b [])).
Proof.
  intros Ra Rb Hi. unfold dot_row, inner.
  rewrite (sum_loop _ _ (fun j => nth j (nth (Z.to_nat i) a []) 0 * nth j (nth (Z.to_nat i) b []) 0)).
  - destruct Ra as [_ Ra]. rewrite Ra by lia. rewrite Nat2Z.id. f_equal. ring.
  - lia.
  - intros j r Hj. rewrite !(rd_entry n k) by auto. reflexivity.
Qed.

Lemma lenZ_of (A : Type) (l : list A) n : length l = n -> lenZ l = Z.of_nat n.
Proof. intros <-. reflexivity. Qed.

Lemma dot_ok n k a b junk : rect n k a -> rect n k b -> length junk = n -> dot a b junk = Ok (row_products a b).
Proof.
  intros Ra Rb Lj. unfold dot, row_products. rewrite (lenZ_of _ _ _ (proj1 Ra)), (proj1 Ra).
  apply (fill_list 0); auto. intros i r Hi Lr _. rewrite (cols_rect n k) by (auto; lia).
  rewrite (dot_row_ok n k) by (auto; lia). now rewrite Nat2Z.id.
Qed.

Lemma nth_map_seq {A} (h : nat -> A) n i d : (i < n)%nat -> nth i (map h (seq 0 n)) d = h i.
Proof. intro H. rewrite (nth_indep _ _ (h 0%nat)) by (rewrite map_length, seq_length; auto). now rewrite map_nth, seq_nth. Qed.

Lemma dot_axa_ok n k a b junk : rect n k a -> rect n k b -> length junk = n ->
  dot_array_x_array a b junk = Ok (plus_list junk (row_products a b)).
Proof.
  intros Ra Rb Lj. unfold dot_array_x_array, plus_list. rewrite (lenZ_of _ _ _ (proj1 Ra)), Lj.
  apply (fill_list 0); auto. intros i r Hi Lr Hr. rewrite (cols_rect n k) by (auto; lia).
  rewrite (dot_row_ok n k) by (auto; lia). rewrite Nat2Z.id. cbn [bind]. rewrite (rdZ_ok 0) by (unfold lenZ; lia). cbn [bind].
  unfold atZ. rewrite Nat2Z.id, Hr. unfold row_products. rewrite (proj1 Ra), nth_map_seq by auto. reflexivity.
Qed.

Lemma inner_comm a b : length a = length b -> inner a b = inner b a.
Proof. intro L. unfold inner. rewrite L. apply sumn_ext. intros. ring. Qed.

Lemma dot_vxa_ok n k v a junk : rect n k a -> length v = k -> length junk = n ->
  dot_vec_x_array v a junk = Ok (plus_list junk (vec_products v a)) /\
  dot_array_x_vec a v junk = Ok (plus_list junk (vec_products v a)).
Proof.
  intros Ra Lv Lj. unfold dot_vec_x_array, dot_array_x_vec, plus_list. rewrite (lenZ_of _ _ _ (proj1 Ra)), Lj.
  assert (K : forall i r, (i < n)%nat -> length r = n -> nth i r 0 = nth i junk 0 ->
    (do row <- rdZ a (Z.of_nat i); do item <- scalar_dot v row; do old <- rdZ r (Z.of_nat i); wrZ r (Z.of_nat i) (old + item)) =
    wrZ r (Z.of_nat i) (nth i junk 0 + nth i (vec_products v a) 0)).
  { intros i r Hi Lr Hr. rewrite (rd_row n k) by (auto; lia). cbn [bind]. rewrite Nat2Z.id.
    rewrite scalar_dot_ok by (rewrite (proj2 Ra) by auto; auto). cbn [bind]. rewrite (rdZ_ok 0) by (unfold lenZ; lia). cbn [bind].
    unfold atZ. rewrite Nat2Z.id, Hr. unfold vec_products. rewrite (proj1 Ra), nth_map_seq by auto. reflexivity. }
  split; apply (fill_list 0); auto.
Qed.

(* ---- matrix products ---- *)
Lemma rect_shape n k m : rect n k m <-> shapeM (Z.of_nat n) (Z.of_nat k) m.
Proof.
  unfold rect, shapeM, lenZ, atZ. split.
  - intros [L H]. split; [lia|]. intros i Hi. rewrite H by lia. auto.
  - intros [L H]. split; [lia|]. intros i Hi. specialize (H (Z.of_nat i) ltac:(lia)). rewrite Nat2Z.id in H. lia.
Qed.

Lemma matmul_one_ok n k m a b junk : (0 < k)%nat -> rect n k a -> rect k m b -> rect n m junk ->
  exists r, matmul_one a b junk = Ok r /\ rect n m r /\
  forall i j, (i < n)%nat -> (j < m)%nat ->
    nth j (nth i r []) 0 = nth j (nth i junk []) 0 + sumn k (fun l => nth l (nth i a []) 0 * nth j (nth l b []) 0).
Proof.
  intros Hk Ra Rb Rj. unfold matmul_one. rewrite (lenZ_of _ _ _ (proj1 Ra)).
  pose proof (proj1 (rect_shape _ _ _) Rj) as Sj.
  pose (full := fun i j : Z => sumn k (fun l => nth l (nth (Z.to_nat i) a []) 0 * nth (Z.to_nat j) (nth l b []) 0)).
  destruct (forZ_inv (fun i r => shapeM (Z.of_nat n) (Z.of_nat m) r /\
     (forall i' j, (0 <= i' < Z.of_nat n)%Z -> (0 <= j < Z.of_nat m)%Z ->
        atM 0 r i' j = if (i' <? i)%Z then atM 0 junk i' j + full i' j else atM 0 junk i' j))
     (fun i r => forZ 0 (cols b) r (fun j r => forZ 0 (cols a) r (fun k r =>
        do x <- rdM a i k ; do y <- rdM b k j ; do old <- rdM r i j ; wrM r i j (old + x * y)))) 0 (Z.of_nat n) junk) as [r [E [Sr H]]].
  - lia.
  - split; auto. intros i' j Hi' Hj. destruct (Z.ltb_spec i' 0); [lia|reflexivity].
  - intros i r0 Hi [S0 H0]. rewrite (cols_rect k m b) by auto. rewrite (cols_rect n k a) by (auto; lia).
    destruct (forZ_inv (fun j r => shapeM (Z.of_nat n) (Z.of_nat m) r /\
       (forall i' j', (0 <= i' < Z.of_nat n)%Z -> (0 <= j' < Z.of_nat m)%Z ->
          atM 0 r i' j' = if ((i' =? i) && (j' <? j))%Z then atM 0 junk i j' + full i j' else atM 0 r0 i' j'))
       (fun j r => forZ 0 (Z.of_nat k) r (fun k r =>
        do x <- rdM a i k ; do y <- rdM b k j ; do old <- rdM r i j ; wrM r i j (old + x * y))) 0 (Z.of_nat m) r0) as [r1 [E1 [S1 H1]]].
    + lia.
    + split; auto. intros i' j' Hi' Hj'. destruct (Z.ltb_spec j' 0); [lia|]. rewrite andb_false_r. reflexivity.
    + intros j r1 Hj [S1 H1].
      destruct (forZ_inv (fun l r => shapeM (Z.of_nat n) (Z.of_nat m) r /\
         (forall i' j', (0 <= i' < Z.of_nat n)%Z -> (0 <= j' < Z.of_nat m)%Z ->
            atM 0 r i' j' = if ((i' =? i) && (j' =? j))%Z
              then atM 0 junk i j + sumn (Z.to_nat l) (fun l => nth l (nth (Z.to_nat i) a []) 0 * nth (Z.to_nat j) (nth l b []) 0) else atM 0 r1 i' j'))
         (fun k r => do x <- rdM a i k ; do y <- rdM b k j ; do old <- rdM r i j ; wrM r i j (old + x * y)) 0 (Z.of_nat k) r1) as [r2 [E2 [S2 H2]]].
      * lia.
      * split; auto. intros i' j' Hi' Hj'. destruct (Z.eqb_spec i' i) as [->|], (Z.eqb_spec j' j) as [->|]; cbn [andb]; auto.
        rewrite H1 by lia. rewrite Z.eqb_refl, Z.ltb_irrefl. cbn [andb]. rewrite H0 by lia. rewrite Z.ltb_irrefl. cbn. ring.
      * intros l r2 Hl [S2 H2]. rewrite (rd_entry n k) by (auto; lia). cbn [bind]. rewrite (rd_entry k m) by (auto; lia). cbn [bind].
        rewrite (rdM_ok 0 r2 (Z.of_nat n) (Z.of_nat m)) by (auto; lia). cbn [bind].
        rewrite (wrM_ok r2 (Z.of_nat n) (Z.of_nat m)) by (auto; lia). eexists. split; [reflexivity|].
        split; [apply shapeM_updM; auto; lia|]. intros i' j' Hi' Hj'.
        destruct (Z.eqb_spec i' i) as [->|Ni], (Z.eqb_spec j' j) as [->|Nj]; cbn [andb].
        -- rewrite (atM_updM_eq 0 _ (Z.of_nat n) (Z.of_nat m)) by (auto; lia). rewrite H2 by lia. rewrite !Z.eqb_refl. cbn [andb].
           replace (Z.to_nat (l + 1)) with (S (Z.to_nat l)) by lia. rewrite sumn_S. ring.
        -- rewrite (atM_updM_neq 0 _ (Z.of_nat n) (Z.of_nat m)) by (auto; lia). rewrite H2 by lia.
           rewrite Z.eqb_refl. destruct (Z.eqb_spec j' j); [lia|]. reflexivity.
        -- rewrite (atM_updM_neq 0 _ (Z.of_nat n) (Z.of_nat m)) by (auto; lia). rewrite H2 by lia.
           destruct (Z.eqb_spec i' i); [lia|]. reflexivity.
        -- rewrite (atM_updM_neq 0 _ (Z.of_nat n) (Z.of_nat m)) by (auto; lia). rewrite H2 by lia.
           destruct (Z.eqb_spec i' i); [lia|]. reflexivity.
      * rewrite E2. exists r2. split; auto. split; auto. intros i' j' Hi' Hj'. rewrite H2 by auto. rewrite Nat2Z.id.
        destruct (Z.eqb_spec i' i) as [->|]; cbn [andb]; [|rewrite H1 by auto; destruct (Z.eqb_spec i' i); [lia|reflexivity]].
        destruct (Z.eqb_spec j' j) as [->|].
        -- destruct (Z.ltb_spec j (j + 1)); [reflexivity|lia].
        -- rewrite H1 by auto. rewrite Z.eqb_refl. cbn [andb].
           destruct (Z.ltb_spec j' j), (Z.ltb_spec j' (j + 1)); try lia; reflexivity.
    + rewrite E1. exists r1. split; auto. split; auto. intros i' j Hi' Hj. rewrite H1 by auto.
      destruct (Z.eqb_spec i' i) as [->|]; cbn [andb].
      * destruct (Z.ltb_spec j (Z.of_nat m)); [|lia]. destruct (Z.ltb_spec i (i + 1)); [reflexivity|lia].
      * rewrite H0 by auto. destruct (Z.ltb_spec i' i), (Z.ltb_spec i' (i + 1)); try lia; reflexivity.
  - exists r. split; auto. split; [apply rect_shape; auto|]. intros i j Hi Hj.
    specialize (H (Z.of_nat i) (Z.of_nat j) ltac:(lia) ltac:(lia)). destruct (Z.ltb_spec (Z.of_nat i) (Z.of_nat n)); [|lia].
    unfold atM, atZ, full in H. rewrite !Nat2Z.id in H. exact H.
Qed.
