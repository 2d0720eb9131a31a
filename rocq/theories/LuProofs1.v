(* Linear systems: loops, arrays and the LU decomposition. *)
From Coq Require Import List Arith ZArith Bool QArith Qcanon Permutation Lia.
From Verif Require Import Common ListLib QcLib SumLib LuModel LuSpec.
Import ListNotations.
Local Open Scope Qc_scope.

Lemma loop_inv {St} (Inv : nat -> St -> Prop) (body : nat -> St -> res St) lo hi st : (lo <= hi)%nat -> Inv lo st ->
  (forall i s, (lo <= i < hi)%nat -> Inv i s -> exists s', body i s = Ok s' /\ Inv (S i) s') ->
  exists s', loop lo hi st body = Ok s' /\ Inv hi s'.
Proof.
  intros L H B. unfold loop. remember (hi - lo)%nat as c eqn:Ec. revert lo st L H B Ec. induction c as [|c IH]; intros lo st L H B Ec.
  - exists st. assert (lo = hi) by lia. subst. auto.
  - cbn [loopN]. destruct (B lo st ltac:(lia) H) as (s' & E & H'). rewrite E. cbn [bind].
    apply IH; auto; try lia. intros i s Hi. apply B. lia.
Qed.
Lemma loop_part {St} (Inv : nat -> St -> Prop) (body : nat -> St -> res St) lo hi st s' : (lo <= hi)%nat -> Inv lo st ->
  (forall i s s', (lo <= i < hi)%nat -> Inv i s -> body i s = Ok s' -> Inv (S i) s') ->
  loop lo hi st body = Ok s' -> Inv hi s'.
Proof.
  intros L H B. unfold loop. remember (hi - lo)%nat as c eqn:Ec. revert lo st L H B Ec. induction c as [|c IH]; intros lo st L H B Ec E.
  - cbn in E. injection E as <-. assert (lo = hi) by lia. subst. auto.
  - cbn [loopN] in E. destruct (body lo st) as [s1|] eqn:E1; [|discriminate]. cbn [bind] in E.
    apply (IH (S lo) s1); [lia|eapply B; eauto; lia| |lia|exact E]. intros i s s2 Hi. apply B. lia.
Qed.
(* either all turns succeed, or one fails after the earlier ones succeeded *)
Lemma loop_fail {St} (Inv : nat -> St -> Prop) (body : nat -> St -> res St) (Bad : Prop) e0 lo hi st : (lo <= hi)%nat -> Inv lo st ->
  (forall i s, (lo <= i < hi)%nat -> Inv i s -> (exists s', body i s = Ok s' /\ Inv (S i) s') \/ (body i s = Err e0 /\ Bad)) ->
  (exists s', loop lo hi st body = Ok s' /\ Inv hi s') \/ (loop lo hi st body = Err e0 /\ Bad).
Proof.
  intros L H B. unfold loop. remember (hi - lo)%nat as c eqn:Ec. revert lo st L H B Ec. induction c as [|c IH]; intros lo st L H B Ec.
  - left. exists st. assert (lo = hi) by lia. subst. auto.
  - cbn [loopN]. destruct (B lo st ltac:(lia) H) as [(s' & E & H')|(E & Bd)]; rewrite E; cbn [bind]; auto.
    apply IH; auto; try lia. intros i s Hi. apply B. lia.
Qed.
Lemma loop_nil {St} (body : nat -> St -> res St) lo hi st : (hi <= lo)%nat -> loop lo hi st body = Ok st.
Proof. intro L. unfold loop. replace (hi - lo)%nat with 0%nat by lia. reflexivity. Qed.

Lemma getR_nth {A} (d : A) l i : (i < length l)%nat -> getR l i = Ok (nth i l d).
Proof. intro L. unfold getR. rewrite (nth_error_nth' l d L). reflexivity. Qed.
Lemma wr_ok {A} (l : list A) i v : (i < length l)%nat -> wr l i v = Ok (upd l i v).
Proof. intro L. unfold wr. now rewrite (proj2 (Nat.ltb_lt _ _) L). Qed.
Lemma nth_upd {A} (d : A) l i j v : (i < length l)%nat -> nth j (upd l i v) d = if (j =? i)%nat then v else nth j l d.
Proof.
  revert i j. induction l as [|a l IH]; intros i j L; [cbn in L; lia|]. destruct i, j; cbn [upd nth Nat.eqb]; auto.
  apply IH. cbn in L. lia.
Qed.

(* the array m holds the n x n matrix F *)
Definition repr (n : nat) (m : mtx) (F : nat -> nat -> Qc) : Prop :=
  square n m /\ forall a b, (a < n)%nat -> (b < n)%nat -> ent m a b = F a b.

Lemma flat_lt n i j : (i < n)%nat -> (j < n)%nat -> (i * n + j < n * n)%nat.
Proof. nia. Qed.
Lemma flat_inj n i j a b : (j < n)%nat -> (b < n)%nat -> (i * n + j = a * n + b)%nat -> i = a /\ j = b.
Proof. intros J B E. destruct (Nat.lt_trichotomy i a) as [L|[L|L]]; [nia| |nia]. subst. lia. Qed.

Lemma mget_ok n m F i j : repr n m F -> (i < n)%nat -> (j < n)%nat -> mget m i j = Ok (F i j).
Proof.
  intros ((R & C & L) & E) Hi Hj. unfold mget. rewrite (getR_nth 0).
  - f_equal. apply (E i j Hi Hj).
  - rewrite L, C. now apply flat_lt.
Qed.
Lemma mset_ok n m F i j v : repr n m F -> (i < n)%nat -> (j < n)%nat ->
  exists m', mset m i j v = Ok m' /\ repr n m' (fun a b => if (a =? i)%nat && (b =? j)%nat then v else F a b).
Proof.
  intros ((R & C & L) & E) Hi Hj. unfold mset. rewrite wr_ok by (rewrite L, C; now apply flat_lt). cbn [bind].
  eexists. split; [reflexivity|]. split.
  - repeat split; cbn; auto. now rewrite upd_length.
  - intros a b Ha Hb. unfold ent. cbn [mcols mdata]. rewrite nth_upd by (rewrite L, C; now apply flat_lt).
    rewrite C in *. destruct (Nat.eqb_spec (a * n + b) (i * n + j)) as [e|ne].
    + apply flat_inj in e; auto. destruct e as [-> ->]. now rewrite !Nat.eqb_refl.
    + destruct (Nat.eqb_spec a i) as [->|]; [destruct (Nat.eqb_spec b j) as [->|]; [lia|]|]; cbn; specialize (E _ _ Ha Hb); unfold ent in E; rewrite C in E; auto.
Qed.
Lemma repr_ext n m F G : repr n m F -> (forall a b, (a < n)%nat -> (b < n)%nat -> F a b = G a b) -> repr n m G.
Proof. intros (Q & E) H. split; auto. intros a b Ha Hb. rewrite E; auto. Qed.
Lemma repr_self n m : square n m -> repr n m (ent m).
Proof. split; auto. Qed.

Lemma fabs_nonneg x : 0 <= fabs x.
Proof. unfold fabs. destruct (qlt x 0) eqn:E; [apply qlt_true in E|apply qlt_false in E]; qlra. Qed.
Lemma fabs_zero x : fabs x <= 0 -> x = 0.
Proof. unfold fabs. destruct (qlt x 0) eqn:E; [apply qlt_true in E|apply qlt_false in E]; intro; [exfalso|]; qlra. Qed.
Lemma fabs_0 : fabs 0 = 0. Proof. reflexivity. Qed.
Lemma fabs_cases x : (0 <= x /\ fabs x = x) \/ (x < 0 /\ fabs x = - x).
Proof. unfold fabs. destruct (qlt x 0) eqn:E; [right|left]; [apply qlt_true in E|apply qlt_false in E]; auto. Qed.

(* the pivot search *)
Lemma find_pivot_ok n A F i : repr n A F -> (i < n)%nat ->
  exists p, find_pivot A i = Ok p /\ (i <= p < n)%nat /\ forall k, (i <= k < n)%nat -> fabs (F k i) <= fabs (F p i).
Proof.
  intros R Hi. unfold find_pivot. assert (Rr : mrows A = n) by (destruct R as ((Q & _) & _); auto). rewrite Rr.
  destruct (loop_inv (fun k (st : Qc * nat) => (i <= snd st < n)%nat /\ 0 <= fst st /\
      (fst st = fabs (F (snd st) i) \/ (fst st = 0 /\ snd st = i /\ forall q, (i <= q < k)%nat -> fabs (F q i) <= 0)) /\
      forall q, (i <= q < k)%nat -> fabs (F q i) <= fst st)
    (fun k st => do v <- mget A k i ; Ok (if qlt (fst st) (fabs v) then (fabs v, k) else st)) i n (0, i)) as ((mx, p) & E1 & P1 & P2 & P3 & P4).
  - lia.
  - cbn. split; [lia|]. split; [qlra|]. split; [right; split; [reflexivity|split; [auto|intros; lia]]|intros; lia].
  - intros k (mx, p) Hk (P1 & P2 & P3 & P4). rewrite (mget_ok n A F k i R) by lia. cbn [bind fst snd] in *.
    eexists. split; [reflexivity|]. destruct (qlt mx (fabs (F k i))) eqn:Q; cbn [fst snd].
    + apply qlt_true in Q. split; [lia|]. split; [apply fabs_nonneg|]. split; [auto|].
      intros q Hq. destruct (Nat.eq_dec q k) as [->|]; [qlra|]. specialize (P4 q ltac:(lia)). qlra.
    + apply qlt_false in Q. split; [auto|]. split; [auto|]. split.
      * destruct P3 as [P3|(Z & -> & P3)]; auto. right. split; auto. split; auto. intros q Hq. destruct (Nat.eq_dec q k) as [->|]; [qlra|apply P3; lia].
      * intros q Hq. destruct (Nat.eq_dec q k) as [->|]; auto. apply P4. lia.
  - rewrite E1. cbn [bind fst snd] in *. exists p. split; auto. split; auto. intros k Hk.
    destruct P3 as [P3|(Z & -> & P3)]; [rewrite <- P3; auto|]. specialize (P3 k Hk). assert (N := fabs_nonneg (F i i)). qlra.
Qed.

(* rows i and p exchanged *)
Definition exch (i p : nat) (a : nat) : nat := if (a =? i)%nat then p else if (a =? p)%nat then i else a.
Lemma exch_lt n i p a : (i < n)%nat -> (p < n)%nat -> (a < n)%nat -> (exch i p a < n)%nat.
Proof. unfold exch. destruct (a =? i)%nat; [auto|destruct (a =? p)%nat; auto]. Qed.

Lemma upd_swap_perm (P : list nat) i p : (i < length P)%nat -> (p < length P)%nat -> p <> i ->
  Permutation P (upd (upd P i (nth p P 0%nat)) p (nth i P 0%nat)).
Proof.
  intros Hi Hp N. apply (Permutation_nth P _ 0%nat). cbv zeta. split; [now rewrite !upd_length|].
  exists (exch i p). split; [|split].
  - intros x Hx. now apply exch_lt.
  - intros x y _ _. unfold exch. destruct (Nat.eqb_spec x i); destruct (Nat.eqb_spec y i); destruct (Nat.eqb_spec x p); destruct (Nat.eqb_spec y p); lia.
  - intros x Hx. rewrite nth_upd by now rewrite upd_length. rewrite nth_upd by auto. unfold exch.
    destruct (Nat.eqb_spec x p); destruct (Nat.eqb_spec x i); subst; auto; lia.
Qed.
Lemma upd_swap_nth (P : list nat) i p a : (i < length P)%nat -> (p < length P)%nat ->
  nth a (upd (upd P i (nth p P 0%nat)) p (nth i P 0%nat)) 0%nat = nth (exch i p a) P 0%nat.
Proof.
  intros Hi Hp. rewrite nth_upd by now rewrite upd_length. rewrite nth_upd by auto. unfold exch.
  destruct (Nat.eqb_spec a p); destruct (Nat.eqb_spec a i); subst; auto.
Qed.

Lemma is_perm_len n P : is_perm n P -> length P = n.
Proof. intro H. apply Permutation_length in H. now rewrite seq_length in H. Qed.
Lemma is_perm_lt n P r : is_perm n P -> (r < n)%nat -> (nth r P 0 < n)%nat.
Proof.
  intros H L. assert (Q : In (nth r P 0%nat) (seq 0 n)).
  { apply (Permutation_in _ (Permutation_sym H)). apply nth_In. now rewrite (is_perm_len n P H). }
  apply in_seq in Q. lia.
Qed.
Lemma is_perm_onto n P s : is_perm n P -> (s < n)%nat -> exists r, (r < n)%nat /\ nth r P 0%nat = s.
Proof.
  intros H L. assert (Q : In s P) by (apply (Permutation_in _ H); apply in_seq; lia).
  apply (In_nth _ _ 0%nat) in Q. destruct Q as (r & Lr & E). exists r. rewrite (is_perm_len n P H) in Lr. auto.
Qed.

Lemma pivot_rows_ok n A F P i p : repr n A F -> is_perm n P -> (i <= p < n)%nat ->
  exists A' P', pivot_rows i p A P = Ok (A', P') /\ repr n A' (fun a b => F (exch i p a) b) /\ is_perm n P' /\
    forall a, (a < n)%nat -> nth a P' 0%nat = nth (exch i p a) P 0%nat.
Proof.
  intros R HP Hp. unfold pivot_rows. destruct (Nat.eqb_spec p i) as [->|N].
  - exists A, P. split; auto. assert (X : forall a, exch i i a = a) by (intro a; unfold exch; destruct (Nat.eqb_spec a i); lia).
    split; [|split; auto]. { eapply repr_ext; [exact R|]. intros. now rewrite X. } intros. now rewrite X.
  - assert (L := is_perm_len n P HP). rewrite !(getR_nth 0%nat) by lia. cbn [bind]. rewrite wr_ok by lia. cbn [bind].
    rewrite wr_ok by (rewrite upd_length; lia). cbn [bind].
    assert (C : mcols A = n) by (destruct R as ((_ & C & _) & _); auto). rewrite C.
    destruct (loop_inv (fun k m => repr n m (fun a b => if (b <? k)%nat then F (exch i p a) b else F a b)) (swap_entry i p) 0 n A) as (A' & E & R').
    + lia.
    + eapply repr_ext; [exact R|]. intros. reflexivity.
    + intros k m Hk Rm. unfold swap_entry. rewrite !(mget_ok n m _ _ _ Rm) by lia. cbn [bind]. rewrite Nat.ltb_irrefl.
      destruct (mset_ok n m _ i k (F p k) Rm) as (m1 & E1 & R1); [lia|lia|]. rewrite E1. cbn [bind].
      destruct (mset_ok n m1 _ p k (F i k) R1) as (m2 & E2 & R2); [lia|lia|]. rewrite E2.
      eexists. split; [reflexivity|]. eapply repr_ext; [exact R2|]. intros a b Ha Hb. cbv beta.
      destruct (Nat.eqb_spec b k) as [->|Nb].
      * replace (k <? S k)%nat with true by (symmetry; apply Nat.ltb_lt; lia). rewrite Nat.ltb_irrefl. unfold exch.
        destruct (Nat.eqb_spec a p); destruct (Nat.eqb_spec a i); subst; cbn [andb]; auto; lia.
      * rewrite !andb_false_r. destruct (Nat.ltb_spec b k); destruct (Nat.ltb_spec b (S k)); auto; lia.
    + rewrite E. cbn [bind]. eexists _, _. split; [reflexivity|]. split; [|split].
      * eapply repr_ext; [exact R'|]. intros a b Ha Hb. cbv beta. now rewrite (proj2 (Nat.ltb_lt b n) Hb).
      * unfold is_perm. eapply Permutation_trans; [exact HP|]. apply upd_swap_perm; lia.
      * intros a Ha. apply upd_swap_nth; lia.
Qed.

Lemma elim_row_ok n A F i j : repr n A F -> (i < n)%nat -> (j < n)%nat -> (i < j)%nat ->
  (F i i = 0 /\ elim_row i j A = Err ZeroDivision) \/
  (F i i <> 0 /\ exists A', elim_row i j A = Ok A' /\
    repr n A' (fun a b => if (a =? j)%nat then (if (b <? i)%nat then F j b else if (b =? i)%nat then F j i / F i i else F j b - F j i / F i i * F i b) else F a b)).
Proof.
  intros R Hi Hj Hij. unfold elim_row. rewrite !(mget_ok n A F _ _ R) by lia. cbn [bind].
  destruct (qeq (F i i) 0) eqn:Q; [apply qeq_true in Q; left; auto|]. apply qeq_false in Q. right. split; auto.
  destruct (mset_ok n A F j i (F j i / F i i) R) as (m1 & E1 & R1); [lia|lia|]. rewrite E1. cbn [bind].
  assert (C : mcols A = n) by (destruct R as ((_ & C & _) & _); auto). rewrite C.
  destruct (loop_inv (fun k m => repr n m (fun a b => if (a =? j)%nat then (if (b =? i)%nat then F j i / F i i
       else if (i <? b)%nat && (b <? k)%nat then F j b - F j i / F i i * F i b else F j b) else F a b))
    (fun k A => do v <- mget A j k ; do l <- mget A j i ; do u <- mget A i k ; mset A j k (v - l * u)) (i + 1) n m1) as (A' & E & R').
  - lia.
  - eapply repr_ext; [exact R1|]. intros a b Ha Hb. cbv beta. destruct (Nat.eqb_spec a j) as [->|]; auto. cbn [andb].
    destruct (Nat.eqb_spec b i); auto. destruct (Nat.ltb_spec i b); destruct (Nat.ltb_spec b (i + 1)); auto; lia.
  - intros k m Hk Rm. rewrite !(mget_ok n m _ _ _ Rm) by lia. cbn [bind]. rewrite !Nat.eqb_refl.
    destruct (Nat.eqb_spec k i); [lia|]. destruct (Nat.eqb_spec i j); [lia|]. rewrite Nat.ltb_irrefl, andb_false_r.
    destruct (mset_ok n m _ j k (F j k - F j i / F i i * F i k) Rm) as (m2 & E2 & R2); [lia|lia|]. rewrite E2. eexists. split; [reflexivity|].
    eapply repr_ext; [exact R2|]. intros a b Ha Hb. cbv beta. destruct (Nat.eqb_spec a j) as [->|]; cbn [andb]; auto.
    destruct (Nat.eqb_spec b k) as [->|Nb].
    + destruct (Nat.eqb_spec k i); [lia|]. replace (i <? k)%nat with true by (symmetry; apply Nat.ltb_lt; lia).
      replace (k <? S k)%nat with true by (symmetry; apply Nat.ltb_lt; lia). reflexivity.
    + destruct (Nat.eqb_spec b i); auto. destruct (Nat.ltb_spec i b); destruct (Nat.ltb_spec b k); destruct (Nat.ltb_spec b (S k)); auto; lia.
  - rewrite E. eexists. split; [reflexivity|]. eapply repr_ext; [exact R'|]. intros a b Ha Hb. cbv beta.
    destruct (Nat.eqb_spec a j) as [->|]; auto. destruct (Nat.eqb_spec b i) as [->|].
    + rewrite Nat.ltb_irrefl. reflexivity.
    + rewrite (proj2 (Nat.ltb_lt b n) Hb), andb_true_r. destruct (Nat.ltb_spec i b); destruct (Nat.ltb_spec b i); auto; lia.
Qed.

Lemma elim_all n A F i : repr n A F -> (i < n)%nat ->
  (F i i = 0 /\ (S i < n)%nat /\ loop (i + 1) n A (elim_row i) = Err ZeroDivision) \/
  ((F i i <> 0 \/ S i = n) /\ exists A', loop (i + 1) n A (elim_row i) = Ok A' /\
    repr n A' (fun a b => if (i <? a)%nat then (if (b <? i)%nat then F a b else if (b =? i)%nat then F a i / F i i else F a b - F a i / F i i * F i b) else F a b)).
Proof.
  intros R Hi. destruct (Nat.eq_dec (S i) n) as [En|Nn].
  - right. split; auto. rewrite loop_nil by lia. exists A. split; auto. eapply repr_ext; [exact R|]. intros a b Ha Hb. cbv beta.
    destruct (Nat.ltb_spec i a); auto; lia.
  - destruct (Qc_eq_dec (F i i) 0) as [Z|NZ].
    + left. split; auto. split; [lia|]. unfold loop. replace (n - (i + 1))%nat with (S (n - i - 2)) by lia. cbn [loopN].
      destruct (elim_row_ok n A F i (i + 1) R) as [(_ & E)|(NZ & _)]; try lia; [|contradiction]. now rewrite E.
    + right. split; auto.
      destruct (loop_inv (fun k m => repr n m (fun a b => if (i <? a)%nat && (a <? k)%nat then (if (b <? i)%nat then F a b else if (b =? i)%nat then F a i / F i i else F a b - F a i / F i i * F i b) else F a b))
        (elim_row i) (i + 1) n A) as (A' & E & R').
      * lia.
      * eapply repr_ext; [exact R|]. intros a b Ha Hb. cbv beta. destruct (Nat.ltb_spec i a); destruct (Nat.ltb_spec a (i + 1)); auto; lia.
      * intros k m Hk Rm. destruct (elim_row_ok n m _ i k Rm) as [(Z & _)|(_ & m' & E & R')]; try lia.
        { rewrite Nat.ltb_irrefl in Z. contradiction. }
        exists m'. split; auto. eapply repr_ext; [exact R'|]. intros a b Ha Hb. cbv beta. rewrite Nat.ltb_irrefl. cbn [andb].
        rewrite Nat.ltb_irrefl, andb_false_r. destruct (Nat.eqb_spec a k) as [->|Na].
        { replace (i <? k)%nat with true by (symmetry; apply Nat.ltb_lt; lia). replace (k <? S k)%nat with true by (symmetry; apply Nat.ltb_lt; lia). reflexivity. }
        { destruct (Nat.ltb_spec i a); destruct (Nat.ltb_spec a k); destruct (Nat.ltb_spec a (S k)); auto; lia. }
      * exists A'. split; auto. eapply repr_ext; [exact R'|]. intros a b Ha Hb. cbv beta. rewrite (proj2 (Nat.ltb_lt a n) Ha), andb_true_r. reflexivity.
Qed.

(* what holds after the first i columns: G is the original matrix, F the current one *)
Definition factored (n i : nat) (G F : nat -> nat -> Qc) (P : list nat) : Prop :=
  forall r c, (r < n)%nat -> (c < n)%nat ->
    G (nth r P 0%nat) c = sumn (Nat.min (Nat.min i r) (S c)) (fun k => F r k * F k c) + (if (c <? Nat.min i r)%nat then 0 else F r c).
Definition multip (n i : nat) (F : nat -> nat -> Qc) : Prop :=
  forall r k, (r < n)%nat -> (k < Nat.min i r)%nat -> fabs (F r k) <= 1.
Definition pivots (n i : nat) (F : nat -> nat -> Qc) : Prop :=
  forall k, (k < i)%nat -> (S k < n)%nat -> F k k <> 0.
Definition lu_inv (n i : nat) (G : nat -> nat -> Qc) (st : mtx * list nat) : Prop :=
  exists F, repr n (fst st) F /\ is_perm n (snd st) /\ factored n i G F (snd st) /\ multip n i F /\ pivots n i F.

Lemma fabs_div a p : p <> 0 -> fabs a <= fabs p -> fabs (a / p) <= 1.
Proof.
  intros N H. destruct (fabs_cases (a / p)) as [(S1 & ->)|(S1 & ->)]; destruct (fabs_cases a) as [(S2 & E2)|(S2 & E2)]; destruct (fabs_cases p) as [(S3 & E3)|(S3 & E3)];
    rewrite E2, E3 in H;
    assert (T : a = a / p * p) by (field; auto); set (d := a / p) in *; clearbody d;
    assert (p < 0 \/ 0 < p) as [V|V] by (destruct (Qclt_le_dec p 0); [auto|right; destruct (Qclt_le_dec 0 p); auto; exfalso; apply N; qlra]);
    destruct (Qclt_le_dec 1 d) as [W|W]; destruct (Qclt_le_dec 1 (- d)) as [W2|W2]; try qlra; exfalso; qnra.
Qed.

Lemma lu_step_ok n G i st : (i < n)%nat -> lu_inv n i G st ->
  (exists st', lu_step i st = Ok st' /\ lu_inv n (S i) G st') \/
  (lu_step i st = Err ZeroDivision /\ exists F P, is_perm n P /\ factored n i G F P /\ pivots n i F /\ forall r, (i <= r < n)%nat -> F r i = 0).
Proof.
  intros Hi (F & R & HP & Fa & Mu & Pv). destruct st as (A, P). cbn [fst snd] in *. unfold lu_step. cbn [fst snd].
  destruct (find_pivot_ok n A F i R Hi) as (p & Ep & Hp & Mx). rewrite Ep. cbn [bind].
  destruct (pivot_rows_ok n A F P i p R HP Hp) as (A1 & P1 & E1 & R1 & HP1 & N1). rewrite E1. cbn [bind].
  set (F1 := fun a b : nat => F (exch i p a) b) in *.
  assert (X0 : forall a, (a < i)%nat -> exch i p a = a).
  { intros a La. unfold exch. destruct (Nat.eqb_spec a i); [lia|]. destruct (Nat.eqb_spec a p); [lia|auto]. }
  assert (X1 : forall a, (i <= a < n)%nat -> (i <= exch i p a < n)%nat).
  { intros a La. unfold exch. destruct (Nat.eqb_spec a i); [lia|]. destruct (Nat.eqb_spec a p); lia. }
  assert (Xi : exch i p i = p) by (unfold exch; now rewrite Nat.eqb_refl).
  assert (Fa1 : factored n i G F1 P1).
  { intros r c Hr Hc. rewrite N1 by auto. rewrite Fa by (auto; apply exch_lt; lia). unfold F1.
    destruct (Nat.lt_ge_cases r i) as [Lr|Lr].
    - rewrite X0 by auto. f_equal. apply sumn_ext. intros k Hk. rewrite X0 by lia. reflexivity.
    - assert (Y := X1 r ltac:(lia)). replace (Nat.min i (exch i p r)) with i by lia. replace (Nat.min i r) with i by lia. f_equal.
      apply sumn_ext. intros k Hk. rewrite (X0 k) by lia. reflexivity. }
  assert (Mu1 : multip n i F1).
  { intros r k Hr Hk. unfold F1. apply Mu; [apply exch_lt; lia|].
    destruct (Nat.lt_ge_cases r i); [rewrite X0; lia|assert (Y := X1 r ltac:(lia)); lia]. }
  assert (Pv1 : pivots n i F1).
  { intros k Hk Hn. unfold F1. rewrite X0 by auto. apply Pv; auto. }
  assert (Mx1 : forall k, (i <= k < n)%nat -> fabs (F1 k i) <= fabs (F1 i i)).
  { intros k Hk. unfold F1. rewrite Xi. apply Mx. apply X1. auto. }
  clearbody F1. clear Fa Mu Pv R Mx F N1.
  assert (Rr : mrows A1 = n) by (destruct R1 as ((Q & _) & _); auto). rewrite Rr.
  destruct (elim_all n A1 F1 i R1 Hi) as [(Z & Ln & E)|(NZ & A2 & E & R2)]; rewrite E; cbn [bind].
  - right. split; auto. exists F1, P1. split; auto. split; auto. split; auto. intros r Hr. apply fabs_zero. specialize (Mx1 r Hr). rewrite Z, fabs_0 in Mx1. auto.
  - left. eexists. split; [reflexivity|]. set (F2 := fun a b : nat => _) in R2. exists F2. cbn [fst snd]. split; auto. split; auto.
    assert (U0 : forall a b, (a <= i)%nat -> F2 a b = F1 a b) by (intros a b La; unfold F2; destruct (Nat.ltb_spec i a); auto; lia).
    assert (U1 : forall a b, (b < i)%nat -> F2 a b = F1 a b) by (intros a b La; unfold F2; destruct (Nat.ltb_spec i a); auto; destruct (Nat.ltb_spec b i); auto; lia).
    split; [|split].
    + intros r c Hr Hc. destruct (Nat.le_gt_cases r i) as [Lr|Lr].
      * replace (Nat.min (S i) r) with (Nat.min i r) by lia. rewrite (Fa1 r c Hr Hc). rewrite (U0 r) by auto. f_equal.
        apply sumn_ext. intros k Hk. rewrite !U0 by lia. reflexivity.
      * assert (NZi : F1 i i <> 0) by (destruct NZ as [NZ|NZ]; [auto|lia]).
        replace (Nat.min (S i) r) with (S i) by lia. rewrite (Fa1 r c Hr Hc). replace (Nat.min i r) with i by lia.
        assert (SE : forall m, (m <= i)%nat -> sumn m (fun k => F2 r k * F2 k c) = sumn m (fun k => F1 r k * F1 k c)).
        { intros m Lm. apply sumn_ext. intros k Hk. rewrite U1 by lia. rewrite U0 by lia. reflexivity. }
        destruct (Nat.lt_trichotomy c i) as [Lc|[->|Lc]].
        { replace (Nat.min i (S c)) with (S c) by lia. replace (Nat.min (S i) (S c)) with (S c) by lia.
          rewrite SE by lia. destruct (Nat.ltb_spec c i); [|lia]. destruct (Nat.ltb_spec c (S i)); [|lia]. reflexivity. }
        { replace (Nat.min i (S i)) with i by lia. replace (Nat.min (S i) (S i)) with (S i) by lia. rewrite sumn_S, SE by lia.
          rewrite Nat.ltb_irrefl. destruct (Nat.ltb_spec i (S i)); [|lia]. rewrite (U0 i i) by lia.
          unfold F2. destruct (Nat.ltb_spec i r); [|lia]. rewrite Nat.ltb_irrefl, Nat.eqb_refl. field. auto. }
        { replace (Nat.min i (S c)) with i by lia. replace (Nat.min (S i) (S c)) with (S i) by lia. rewrite sumn_S, SE by lia.
          destruct (Nat.ltb_spec c i); [lia|]. destruct (Nat.ltb_spec c (S i)); [lia|]. rewrite (U0 i c) by lia.
          unfold F2. destruct (Nat.ltb_spec i r); [|lia]. rewrite Nat.ltb_irrefl, Nat.eqb_refl.
          destruct (Nat.ltb_spec c i); [lia|]. destruct (Nat.eqb_spec c i); [lia|]. ring. }
    + intros r k Hr Hk. destruct (Nat.eq_dec k i) as [->|Nk].
      * unfold F2. destruct (Nat.ltb_spec i r); [|lia]. rewrite Nat.ltb_irrefl, Nat.eqb_refl. apply fabs_div; [|apply Mx1; lia].
        destruct NZ as [NZ|NZ]; [auto|lia].
      * rewrite U1 by lia. apply Mu1; lia.
    + intros k Hk Hn. rewrite U0 by lia. destruct (Nat.eq_dec k i) as [->|Nk]; [destruct NZ; [auto|lia]|apply Pv1; lia].
Qed.

Lemma init_perm n P0 : length P0 = n -> loop 0 n P0 (fun i P => wr P i i) = Ok (seq 0 n).
Proof.
  intro L. destruct (loop_inv (fun i P => length P = n /\ forall k, (k < i)%nat -> nth k P 0%nat = k) (fun i P => wr P i i) 0 n P0) as (P & E & LP & H).
  - lia.
  - split; auto. intros; lia.
  - intros i P Hi (LP & H). rewrite wr_ok by lia. eexists. split; [reflexivity|]. split; [now rewrite upd_length|].
    intros k Hk. rewrite nth_upd by lia. destruct (Nat.eqb_spec k i); auto. apply H. lia.
  - rewrite E. f_equal. apply (nth_ext _ _ 0%nat 0%nat); [now rewrite seq_length|]. intros k Hk. rewrite seq_nth by lia. apply H. lia.
Qed.

Lemma lu_ok n A P0 : square n A -> length P0 = n ->
  (exists st, lu_decomposition A P0 = Ok st /\ lu_inv n n (ent A) st) \/
  (lu_decomposition A P0 = Err ZeroDivision /\
     exists i F P, (i < n)%nat /\ is_perm n P /\ factored n i (ent A) F P /\ pivots n i F /\ forall r, (i <= r < n)%nat -> F r i = 0).
Proof.
  intros Q L. unfold lu_decomposition. assert (Rr : mrows A = n) by (destruct Q; auto). rewrite Rr.
  rewrite init_perm by auto. cbn [bind]. apply (loop_fail (fun i st => lu_inv n i (ent A) st)).
  - lia.
  - exists (ent A). cbn [fst snd]. split; [now apply repr_self|]. split; [apply Permutation_refl|]. split; [|split].
    + intros r c Hr Hc. cbn [Nat.min sumn Nat.ltb Nat.leb]. rewrite seq_nth by auto. cbn. ring.
    + intros r k Hr Hk. lia.
    + intros k Hk. lia.
  - intros i s Hi H. destruct (lu_step_ok n (ent A) i s ltac:(lia) H) as [(s' & E & H')|(E & F & P & H1)]; [left; eauto|right].
    split; auto. exists i, F, P. split; [lia|auto].
Qed.
