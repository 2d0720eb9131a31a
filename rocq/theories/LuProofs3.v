(* Linear systems: the reduced Hessian, row_reduce and back_solve of bounded.py. *)
From Coq Require Import List Arith ZArith Bool QArith Qcanon Permutation Lia.
From Verif Require Import Common ListLib QcLib SumLib LuModel LuSpec LuProofs1 LuProofs2.
Import ListNotations.
Local Open Scope Qc_scope.

Definition rrepr (n : nat) (A : rowsT) (F : nat -> nat -> Qc) : Prop :=
  rsquare n A /\ forall a b, (a < n)%nat -> (b < n)%nat -> rent A a b = F a b.

Lemma rrow n A i : rsquare n A -> (i < n)%nat -> getR A i = Ok (nth i A []) /\ length (nth i A []) = n.
Proof.
  intros (L & H) Hi. split; [apply getR_nth; lia|]. rewrite Forall_forall in H. apply H. apply nth_In. lia.
Qed.
Lemma rget_ok n A F i j : rrepr n A F -> (i < n)%nat -> (j < n)%nat -> rget A i j = Ok (F i j).
Proof.
  intros (Q & E) Hi Hj. unfold rget. destruct (rrow n A i Q Hi) as (Er & L). rewrite Er. cbn [bind]. rewrite (getR_nth 0) by lia. f_equal. now apply E.
Qed.
Lemma Forall_upd {A} (P : A -> Prop) l i v : Forall P l -> P v -> Forall P (upd l i v).
Proof. intros H Hv. revert i. induction H as [|a l Ha Hl IH]; intros [|i]; cbn; constructor; auto. Qed.
Lemma rset_ok n A F i j v : rrepr n A F -> (i < n)%nat -> (j < n)%nat ->
  exists A', rset A i j v = Ok A' /\ rrepr n A' (fun a b => if (a =? i)%nat && (b =? j)%nat then v else F a b).
Proof.
  intros (Q & E) Hi Hj. unfold rset. destruct (rrow n A i Q Hi) as (Er & L). rewrite Er. cbn [bind]. rewrite wr_ok by lia. cbn [bind].
  destruct Q as (LA & FA). rewrite wr_ok by lia. eexists. split; [reflexivity|]. split; [split|].
  - now rewrite upd_length.
  - apply Forall_upd; auto. now rewrite upd_length.
  - intros a b Ha Hb. unfold rent. rewrite nth_upd by lia. specialize (E a b Ha Hb). unfold rent in E.
    destruct (Nat.eqb_spec a i) as [->|]; cbn [andb]; auto. rewrite nth_upd by lia. destruct (Nat.eqb_spec b j); auto.
Qed.
Lemma rrepr_ext n m F G : rrepr n m F -> (forall a b, (a < n)%nat -> (b < n)%nat -> F a b = G a b) -> rrepr n m G.
Proof. intros (Q & E) H. split; auto. intros a b Ha Hb. rewrite E; auto. Qed.

Lemma rr_pivot_ok n A F i : rrepr n A F -> (i < n)%nat ->
  exists p, rr_pivot A n i = Ok p /\ (i <= p < n)%nat /\ forall k, (i <= k < n)%nat -> fabs (F k i) <= fabs (F p i).
Proof.
  intros R Hi. unfold rr_pivot. rewrite (rget_ok n A F i i R) by lia. cbn [bind].
  destruct (loop_inv (fun k (st : Qc * nat) => (i <= snd st < n)%nat /\ fst st = fabs (F (snd st) i) /\ forall q, (i <= q < k)%nat -> fabs (F q i) <= fst st)
    (fun r st => do v <- rget A r i ; Ok (if qlt (fst st) (fabs v) then (fabs v, r) else st)) (i + 1) n (fabs (F i i), i)) as ((mx, p) & E1 & P1 & P2 & P3).
  - lia.
  - cbn. split; [lia|]. split; [auto|]. intros q Hq. assert (q = i) by lia. subst. apply Qcle_refl.
  - intros k (mx, p) Hk (P1 & P2 & P3). rewrite (rget_ok n A F k i R) by lia. cbn [bind fst snd] in *. eexists. split; [reflexivity|].
    destruct (qlt mx (fabs (F k i))) eqn:Q; cbn [fst snd].
    + apply qlt_true in Q. split; [lia|]. split; auto. intros q Hq. destruct (Nat.eq_dec q k) as [->|]; [apply Qcle_refl|]. specialize (P3 q ltac:(lia)). qlra.
    + apply qlt_false in Q. split; auto. split; auto. intros q Hq. destruct (Nat.eq_dec q k) as [->|]; auto. apply P3. lia.
  - rewrite E1. cbn [bind fst snd] in *. exists p. split; auto. split; auto. intros k Hk. rewrite <- P2. auto.
Qed.

Lemma rswap_ok n A F i p : rrepr n A F -> (i < n)%nat -> (p < n)%nat ->
  exists A', (if (p =? i)%nat then Ok A else do ri <- getR A i ; do rp <- getR A p ; do B <- wr A i rp ; wr B p ri) = Ok A' /\
    rrepr n A' (fun a b => F (exch i p a) b).
Proof.
  intros (Q & E) Hi Hp. destruct (Nat.eqb_spec p i) as [->|N].
  - exists A. split; auto. split; auto. intros a b Ha Hb. replace (exch i i a) with a by (unfold exch; destruct (Nat.eqb_spec a i); lia). auto.
  - destruct (rrow n A i Q Hi) as (E1 & L1). destruct (rrow n A p Q Hp) as (E2 & L2). rewrite E1. cbn [bind]. rewrite E2. cbn [bind].
    destruct Q as (LA & FA). rewrite wr_ok by lia. cbn [bind]. rewrite wr_ok by (rewrite upd_length; lia). eexists. split; [reflexivity|]. split; [split|].
    + now rewrite !upd_length.
    + apply Forall_upd; [apply Forall_upd|]; auto.
    + intros a b Ha Hb. rewrite <- E by (auto; apply exch_lt; auto). unfold rent. rewrite nth_upd by (rewrite upd_length; lia). rewrite nth_upd by lia. unfold exch.
      destruct (Nat.eqb_spec a p); destruct (Nat.eqb_spec a i); subst; auto; lia.
Qed.

Lemma too_small_pos : 0 < TOO_SMALL. Proof. reflexivity. Qed.
Lemma reg_big : fabs TOO_SMALL_REGULARIZATION = TOO_SMALL_REGULARIZATION /\ TOO_SMALL <= TOO_SMALL_REGULARIZATION.
Proof. split; [reflexivity|]. apply qle_true. reflexivity. Qed.

Definition reduced (n i : nat) (A : rowsT) : Prop :=
  exists F, rrepr n A F /\ (forall r c, (r < n)%nat -> (c < i)%nat -> (c < r)%nat -> F r c = 0) /\ forall k, (k < i)%nat -> TOO_SMALL <= fabs (F k k).

Lemma rr_step_ok n i A : (i < n)%nat -> reduced n i A -> exists A', rr_step n i A = Ok A' /\ reduced n (S i) A'.
Proof.
  intros Hi (F & R & Z & D). unfold rr_step. destruct (rr_pivot_ok n A F i R Hi) as (p & Ep & Hp & _). rewrite Ep. cbn [bind].
  destruct (rswap_ok n A F i p R Hi ltac:(lia)) as (A1 & E1 & R1). rewrite E1. cbn [bind]. set (F1 := fun a b : nat => F (exch i p a) b) in R1.
  assert (X0 : forall a, (a < i)%nat -> exch i p a = a).
  { intros a La. unfold exch. destruct (Nat.eqb_spec a i); [lia|]. destruct (Nat.eqb_spec a p); [lia|auto]. }
  assert (X1 : forall a, (i <= a < n)%nat -> (i <= exch i p a < n)%nat).
  { intros a La. unfold exch. destruct (Nat.eqb_spec a i); [lia|]. destruct (Nat.eqb_spec a p); lia. }
  assert (Z1 : forall r c, (r < n)%nat -> (c < i)%nat -> (c < r)%nat -> F1 r c = 0).
  { intros r c Hr Hc Hcr. unfold F1. destruct (Nat.lt_ge_cases r i); [rewrite X0 by auto; auto|]. assert (Y := X1 r ltac:(lia)). apply Z; lia. }
  assert (D1 : forall k, (k < i)%nat -> TOO_SMALL <= fabs (F1 k k)) by (intros k Hk; unfold F1; rewrite X0 by auto; auto).
  clearbody F1. rewrite (rget_ok n A1 F1 i i R1) by lia. cbn [bind].
  assert (H2 : exists A2 F2, (if qlt (fabs (F1 i i)) TOO_SMALL then rset A1 i i TOO_SMALL_REGULARIZATION else Ok A1) = Ok A2 /\ rrepr n A2 F2 /\
     (forall r c, (r < n)%nat -> (c < i)%nat -> (c < r)%nat -> F2 r c = 0) /\ forall k, (k < S i)%nat -> TOO_SMALL <= fabs (F2 k k)).
  { destruct (qlt (fabs (F1 i i)) TOO_SMALL) eqn:Q.
    - destruct (rset_ok n A1 F1 i i TOO_SMALL_REGULARIZATION R1 Hi Hi) as (A2 & E2 & R2). exists A2. eexists. split; [exact E2|]. split; [exact R2|]. split.
      + intros r c Hr Hc Hcr. destruct (Nat.eqb_spec c i); [lia|]. rewrite andb_false_r. auto.
      + intros k Hk. destruct (Nat.eqb_spec k i) as [->|]; cbn [andb]; [|apply D1; lia]. destruct reg_big as (-> & B). exact B.
    - apply qlt_false in Q. exists A1, F1. split; auto. split; auto. split; auto. intros k Hk. destruct (Nat.eq_dec k i) as [->|]; auto. apply D1. lia. }
  destruct H2 as (A2 & F2 & E2 & R2 & Z2 & D2). rewrite E2. cbn [bind]. clear E2 R1 Z1 D1 A1 F1 E1.
  assert (NZ : F2 i i <> 0).
  { intro E. specialize (D2 i ltac:(lia)). rewrite E, fabs_0 in D2. assert (T := too_small_pos). qlra. }
  set (body := fun (r : nat) (A : rowsT) => do a <- rget A r i ; do d <- rget A i i ;
    if qeq d 0 then Err ZeroDivision else loop i n A (fun c A => do x <- rget A r c ; do y <- rget A i c ; rset A r c (x - a / d * y))).
  destruct (loop_inv (fun k M => rrepr n M (fun a b => if (i <? a)%nat && (a <? k)%nat && (i <=? b)%nat then F2 a b - F2 a i / F2 i i * F2 i b else F2 a b)) body (i + 1) n A2) as (A' & E & R').
  - lia.
  - eapply rrepr_ext; [exact R2|]. intros a b Ha Hb. cbv beta. destruct (Nat.ltb_spec i a); destruct (Nat.ltb_spec a (i + 1)); cbn [andb]; auto; lia.
  - intros k M Hk RM. unfold body. rewrite !(rget_ok n M _ _ _ RM) by lia. cbn [bind]. rewrite (Nat.ltb_irrefl k), andb_false_r. cbn [andb].
    rewrite (Nat.ltb_irrefl i). cbn [andb]. destruct (qeq (F2 i i) 0) eqn:Q; [apply qeq_true in Q; contradiction|].
    destruct (loop_inv (fun c M => rrepr n M (fun a b => if (i <? a)%nat && (a <? k)%nat && (i <=? b)%nat then F2 a b - F2 a i / F2 i i * F2 i b
        else if (a =? k)%nat && (i <=? b)%nat && (b <? c)%nat then F2 k b - F2 k i / F2 i i * F2 i b else F2 a b))
      (fun c A => do x <- rget A k c ; do y <- rget A i c ; rset A k c (x - F2 k i / F2 i i * y)) i n M) as (M' & E & R').
    + lia.
    + eapply rrepr_ext; [exact RM|]. intros a b Ha Hb. cbv beta.
      destruct ((i <? a)%nat && (a <? k)%nat && (i <=? b)%nat); auto. destruct (Nat.leb_spec i b); destruct (Nat.ltb_spec b i); try lia; now rewrite ?andb_false_r.
    + intros c N Hc RN. rewrite !(rget_ok n N _ _ _ RN) by lia. cbn [bind]. rewrite (Nat.ltb_irrefl k), andb_false_r, (Nat.ltb_irrefl c), andb_false_r. cbn [andb].
      rewrite (Nat.ltb_irrefl i). cbn [andb]. destruct (Nat.eqb_spec i k); [lia|]. cbn [andb].
      match goal with |- context [rset N k c ?v] => destruct (rset_ok n N _ k c v RN) as (N' & E & R'); [lia|lia|] end. rewrite E. eexists. split; [reflexivity|].
      eapply rrepr_ext; [exact R'|]. intros a b Ha Hb. cbv beta. destruct (Nat.eqb_spec a k) as [->|]; cbn [andb].
      * rewrite (Nat.ltb_irrefl k), andb_false_r. cbn [andb]. destruct (Nat.eqb_spec b c) as [->|].
        { destruct (Nat.leb_spec i c); [|lia]. destruct (Nat.ltb_spec c (S c)); [reflexivity|lia]. }
        { destruct (Nat.leb_spec i b); cbn [andb]; auto. destruct (Nat.ltb_spec b c); destruct (Nat.ltb_spec b (S c)); auto; lia. }
      * destruct ((i <? a)%nat && (a <? k)%nat && (i <=? b)%nat); auto.
    + exists M'. split; auto. eapply rrepr_ext; [exact R'|]. intros a b Ha Hb. cbv beta. rewrite (proj2 (Nat.ltb_lt b n) Hb), andb_true_r.
      destruct (Nat.eqb_spec a k) as [->|Nk].
      * rewrite (Nat.ltb_irrefl k), andb_false_r. cbn [andb]. destruct (Nat.ltb_spec i k); [|lia]. destruct (Nat.ltb_spec k (S k)); [|lia]. reflexivity.
      * cbn [andb]. destruct (Nat.ltb_spec i a); destruct (Nat.ltb_spec a k); destruct (Nat.ltb_spec a (S k)); cbn [andb]; auto; lia.
  - exists A'. split; auto. eexists. split; [exact R'|]. split.
    + intros r c Hr Hc Hcr. cbv beta. rewrite (proj2 (Nat.ltb_lt r n) Hr), andb_true_r. destruct (Nat.leb_spec i c).
      * assert (c = i) by lia. subst c. destruct (Nat.ltb_spec i r); [|lia]. cbn [andb]. field. auto.
      * rewrite andb_false_r. apply Z2; auto.
    + intros k Hk. cbv beta. destruct (Nat.ltb_spec i k); [lia|]. cbn [andb]. apply D2. auto.
Qed.

Lemma row_reduce_ok n A : rsquare n A -> exists U, row_reduce n A = Ok U /\ rsquare n U /\
  (forall r c, (r < n)%nat -> (c < r)%nat -> rent U r c = 0) /\ forall k, (k < n)%nat -> TOO_SMALL <= fabs (rent U k k).
Proof.
  intro Q. unfold row_reduce. destruct (loop_inv (fun i A => reduced n i A) (rr_step n) 0 n A) as (U & E & F & R & Z & D).
  - lia.
  - exists (rent A). split; [split; auto|]. split; intros; lia.
  - intros i M Hi H. apply rr_step_ok; [lia|auto].
  - exists U. split; auto. destruct R as (QU & R). split; auto. split.
    + intros r c Hr Hc. rewrite R by lia. apply Z; lia.
    + intros k Hk. rewrite R by auto. auto.
Qed.

Lemma back_solve_ok n U b : rsquare n U -> length b = n -> (forall k, (k < n)%nat -> TOO_SMALL <= fabs (rent U k k)) ->
  exists x, back_solve U b = Ok x /\ length x = n /\ forall r, (r < n)%nat -> Ux n (rent U) (fun c => nth c x 0) r = nth r b 0.
Proof.
  intros Q Lb D. set (F := rent U). assert (R : rrepr n U F) by (split; auto). unfold back_solve. rewrite Lb.
  set (body := fun (t : nat) (st : option (list Qc)) => match st with None => Ok None | Some x =>
        let i := (n - 1 - t)%nat in do p <- rget U i i ;
        if qlt (fabs p) TOO_SMALL then Ok None
        else do s0 <- getR b i ; do s <- loop (i + 1) n s0 (fun j s => do a <- rget U i j ; do xj <- getR x j ; Ok (s - a * xj)) ;
             do x' <- wr x i (s / p) ; Ok (Some x') end).
  destruct (loop_inv (fun t st => exists x, st = Some x /\ length x = n /\ forall r, (n - t <= r < n)%nat -> Ux n F (fun c => nth c x 0) r = nth r b 0) body 0 n (Some (repeat 0 n)))
    as (st & E & x & -> & L & H).
  - lia.
  - exists (repeat 0 n). split; auto. split; [apply repeat_length|]. intros; lia.
  - intros t st Ht (x & -> & L & H). unfold body. cbv zeta. set (i := (n - 1 - t)%nat). assert (Hi : (i < n)%nat) by (unfold i; lia).
    rewrite (rget_ok n U F i i R) by lia. cbn [bind]. assert (Di := D i Hi). fold F in Di.
    destruct (qlt (fabs (F i i)) TOO_SMALL) eqn:Q1; [apply qlt_true in Q1; exfalso; qlra|].
    assert (NZ : F i i <> 0). { intro E. rewrite E, fabs_0 in Di. assert (T := too_small_pos). qlra. }
    rewrite (getR_nth 0) by lia. cbn [bind].
    destruct (loop_inv (fun j s => s = nth i b 0 - sumn j (fun k => if (i <? k)%nat then F i k * nth k x 0 else 0))
       (fun j s => do a <- rget U i j ; do xj <- getR x j ; Ok (s - a * xj)) (i + 1) n (nth i b 0)) as (s & E & Es).
    + lia.
    + rewrite sumn_zero; [ring|]. intros k Hk. destruct (Nat.ltb_spec i k); [lia|auto].
    + intros j s Hj ->. rewrite (rget_ok n U F i j R) by lia. cbn [bind]. rewrite (getR_nth 0) by lia. cbn [bind]. eexists. split; [reflexivity|].
      rewrite sumn_S. destruct (Nat.ltb_spec i j); [ring|lia].
    + rewrite E. cbn [bind]. rewrite wr_ok by lia. cbn [bind]. eexists. split; [reflexivity|]. eexists. split; [reflexivity|]. split; [now rewrite upd_length|].
      assert (SE : forall r, (i < r < n)%nat -> Ux n F (fun c => nth c (upd x i (s / F i i)) 0) r = Ux n F (fun c => nth c x 0) r).
      { intros r Hr. unfold Ux. apply sumn_ext. intros c Hc. unfold upp. destruct (Nat.leb_spec r c); [|ring]. rewrite nth_upd by lia.
        destruct (Nat.eqb_spec c i); [lia|]. reflexivity. }
      intros r Hr. destruct (Nat.eq_dec r i) as [->|Nr]; [|rewrite SE by lia; apply H; lia].
      unfold Ux. transitivity (sumn n (fun c => (if (i <? c)%nat then F i c * nth c x 0 else 0) + (if (c =? i)%nat then s else 0))).
      * apply sumn_ext. intros c Hc. rewrite nth_upd by lia. unfold upp. destruct (Nat.eqb_spec c i) as [->|Nc].
        { rewrite Nat.leb_refl, Nat.ltb_irrefl. field. auto. }
        { destruct (Nat.leb_spec i c); destruct (Nat.ltb_spec i c); try lia; ring. }
      * rewrite sumn_add, (sumn_one n i (fun c => if (c =? i)%nat then s else 0)).
        { rewrite Nat.eqb_refl, Es. ring. }
        { auto. }
        { intros c _ Nc. destruct (Nat.eqb_spec c i); [lia|auto]. }
  - rewrite E. cbn [bind]. exists x. split; auto. split; auto. intros r Hr. apply H. lia.
Qed.

Lemma reduce_and_solve n A b : rsquare n A -> length b = n ->
  exists U x, row_reduce n A = Ok U /\ back_solve U b = Ok x /\
    (forall r c, (r < n)%nat -> (c < r)%nat -> rent U r c = 0) /\ (forall k, (k < n)%nat -> TOO_SMALL <= fabs (rent U k k)) /\
    length x = n /\ forall r, (r < n)%nat -> mulv n (rent U) (fun c => nth c x 0) r = nth r b 0.
Proof.
  intros Q L. destruct (row_reduce_ok n A Q) as (U & E & QU & Z & D). destruct (back_solve_ok n U b QU L D) as (x & Ex & Lx & H).
  exists U, x. repeat (split; auto). intros r Hr. rewrite <- (H r Hr). unfold mulv, Ux. apply sumn_ext. intros c Hc. unfold upp.
  destruct (Nat.leb_spec r c); auto. rewrite Z by auto. reflexivity.
Qed.

(* the reduced Hessian *)
Lemma mapE_ok {A B} (f : A -> res B) (g : A -> B) l : (forall a, In a l -> f a = Ok (g a)) -> mapE f l = Ok (map g l).
Proof. induction l as [|a l IH]; intro H; cbn; auto. rewrite H by (left; auto). cbn [bind]. rewrite IH by (intros; apply H; right; auto). reflexivity. Qed.
Lemma in_free active i : In i (free_indices active) <-> ((i < length active)%nat /\ nth i active 1%Z = 0%Z).
Proof.
  unfold free_indices. rewrite in_map_iff. split.
  - intros ((j, a) & <- & H). apply filter_In in H. destruct H as (H & Z). cbn [fst snd] in *. apply Z.eqb_eq in Z. subst a.
    apply (In_nth _ _ (0%nat, 1%Z)) in H. destruct H as (k & Lk & E). rewrite combine_length, seq_length, Nat.min_id in Lk.
    rewrite combine_nth in E by apply seq_length. rewrite seq_nth in E by auto. injection E as <- E. cbn. auto.
  - intros (L & Z). exists (i, 0%Z). split; auto. apply filter_In. split; auto. rewrite <- Z.
    replace (i, nth i active 1%Z) with (nth i (combine (seq 0 (length active)) active) (0%nat, 1%Z)).
    + apply nth_In. rewrite combine_length, seq_length. lia.
    + rewrite combine_nth by apply seq_length. now rewrite seq_nth by auto.
Qed.
Lemma map_fst_filter_sorted (P : nat * Z -> bool) s l :
  Sorted.StronglySorted lt (map fst (filter P (combine (seq s (length l)) l))) /\ Forall (fun x => s <= x)%nat (map fst (filter P (combine (seq s (length l)) l))).
Proof.
  revert s. induction l as [|a l IH]; intro s; cbn [length seq combine filter map]; [split; constructor|].
  destruct (IH (S s)) as (H1 & H2). assert (H3 : Forall (fun x => s < x)%nat (map fst (filter P (combine (seq (S s) (length l)) l)))) by exact H2.
  destruct (P (s, a)); cbn [map fst]; split; try constructor; auto; eapply Forall_impl; try exact H3; intros; cbn in *; lia.
Qed.
Lemma free_sorted active : Sorted.StronglySorted lt (free_indices active).
Proof. apply (map_fst_filter_sorted (fun ia => (snd ia =? 0)%Z) 0 active). Qed.
Lemma reduced_hessian_ok n active H : length active = n -> rsquare n H ->
  exists R, form_reduced_hessian active H = Ok R /\ rsquare (length (free_indices active)) R /\
    forall a b, (a < length (free_indices active))%nat -> (b < length (free_indices active))%nat ->
      rent R a b = rent H (nth a (free_indices active) 0%nat) (nth b (free_indices active) 0%nat).
Proof.
  intros L Q. assert (R : rrepr n H (rent H)) by (split; auto). set (fr := free_indices active).
  assert (FR : forall i, In i fr -> (i < n)%nat) by (intros i Hi; apply in_free in Hi; lia).
  exists (map (fun i => map (fun j => rent H i j) fr) fr). unfold form_reduced_hessian. fold fr. split; [|split; [split|]].
  - apply mapE_ok. intros i Hi. apply mapE_ok. intros j Hj. apply (rget_ok n H (rent H)); auto.
  - apply map_length.
  - apply Forall_forall. intros r Hr. apply in_map_iff in Hr. destruct Hr as (i & <- & _). apply map_length.
  - intros a b Ha Hb. unfold rent at 1. rewrite (nth_indep _ [] (map (fun j => rent H 0 j) fr)) by (rewrite map_length; auto).
    rewrite (map_nth (fun i => map (fun j => rent H i j) fr)). rewrite (nth_indep _ 0 (rent H (nth a fr 0%nat) 0)) by (rewrite map_length; auto).
    rewrite (map_nth (fun j => rent H (nth a fr 0%nat) j)). reflexivity.
Qed.
