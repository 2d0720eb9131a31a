(* Linear systems: substitution, the inverse and singular matrices. *)
From Coq Require Import List Arith ZArith Bool QArith Qcanon Permutation Lia.
From Verif Require Import Common ListLib QcLib SumLib LuModel LuSpec LuProofs1.
Import ListNotations.
Local Open Scope Qc_scope.

(* row k of the upper triangle times x *)
Definition Ux (n : nat) (F : nat -> nat -> Qc) (x : nat -> Qc) (k : nat) : Qc := sumn n (fun c => upp F k c * x c).

Lemma sumn_trunc m t f : (t <= m)%nat -> sumn t f = sumn m (fun k => if (k <? t)%nat then f k else 0).
Proof.
  intro L. rewrite (sumn_extend t m _ L).
  - apply sumn_ext. intros k Hk. now rewrite (proj2 (Nat.ltb_lt k t) Hk).
  - intros k Hk. destruct (Nat.ltb_spec k t); [lia|auto].
Qed.

(* a row of the original matrix times x, through the packed factors *)
Lemma factored_mulv n i G F P x r : factored n i G F P -> (r < n)%nat ->
  mulv n G x (nth r P 0%nat) =
  sumn (Nat.min i r) (fun k => F r k * Ux n F x k) + sumn n (fun c => if (c <? Nat.min i r)%nat then 0 else F r c * x c).
Proof.
  intros Fa Hr. unfold mulv. set (t := Nat.min i r).
  transitivity (sumn n (fun c => sumn t (fun k => F r k * (upp F k c * x c)) + (if (c <? t)%nat then 0 else F r c * x c))).
  - apply sumn_ext. intros c Hc. rewrite (Fa r c Hr Hc). fold t.
    rewrite (sumn_trunc t (Nat.min t (S c))) by lia.
    replace (sumn t (fun k => F r k * (upp F k c * x c))) with (sumn t (fun k => if (k <? Nat.min t (S c))%nat then F r k * F k c else 0) * x c).
    + destruct (c <? t)%nat; ring.
    + rewrite <- sumn_scale_r. apply sumn_ext. intros k Hk. unfold upp.
      destruct (Nat.ltb_spec k (Nat.min t (S c))); destruct (Nat.leb_spec k c); try lia; ring.
  - rewrite sumn_add. f_equal. rewrite sumn_swap. apply sumn_ext. intros k Hk. unfold Ux. now rewrite sumn_scale.
Qed.
Lemma factored_full n G F P x r : factored n n G F P -> (r < n)%nat ->
  mulv n G x (nth r P 0%nat) = sumn r (fun k => F r k * Ux n F x k) + Ux n F x r.
Proof.
  intros Fa Hr. rewrite (factored_mulv n n G F P x r Fa Hr). replace (Nat.min n r) with r by lia. f_equal.
  unfold Ux. apply sumn_ext. intros c Hc. unfold upp. destruct (Nat.ltb_spec c r); destruct (Nat.leb_spec r c); try lia; ring.
Qed.

(* an upper triangular system with non-zero diagonal can be solved *)
Lemma upper_solve F i (rhs : nat -> Qc) : (forall k, (k < i)%nat -> F k k <> 0) ->
  exists x, forall k, (k < i)%nat -> sumn i (fun c => upp F k c * x c) = rhs k.
Proof.
  revert rhs. induction i as [|i IH]; intros rhs D; [exists (fun _ => 0); intros; lia|].
  destruct (IH (fun k => rhs k - F k i * (rhs i / F i i))) as (x & Hx); [intros; apply D; lia|].
  exists (fun c => if (c =? i)%nat then rhs i / F i i else x c). intros k Hk. rewrite sumn_S, Nat.eqb_refl.
  destruct (Nat.eq_dec k i) as [->|Nk].
  - rewrite sumn_zero.
    + unfold upp. rewrite Nat.leb_refl. field. apply D. lia.
    + intros c Hc. unfold upp. destruct (Nat.leb_spec i c); [lia|]. ring.
  - replace (sumn i (fun c => upp F k c * (if (c =? i)%nat then rhs i / F i i else x c))) with (sumn i (fun c => upp F k c * x c)).
    + rewrite Hx by lia. unfold upp. destruct (Nat.leb_spec k i); [|lia]. ring.
    + apply sumn_ext. intros c Hc. destruct (Nat.eqb_spec c i); [lia|auto].
Qed.

(* a column without a pivot makes the matrix singular *)
Lemma no_pivot_singular n i G F P : (i < n)%nat -> is_perm n P -> factored n i G F P -> pivots n i F ->
  (forall r, (i <= r < n)%nat -> F r i = 0) -> ~ nonsingular n G.
Proof.
  intros Hi HP Fa Pv Z NS.
  destruct (upper_solve F i (fun k => - F k i)) as (x & Hx); [intros k Hk; apply Pv; lia|].
  set (w := fun c => if (c <? i)%nat then x c else if (c =? i)%nat then 1 else 0).
  assert (W : forall k, (k < i)%nat -> Ux n F w k = 0).
  { intros k Hk. unfold Ux. rewrite (sumn_extend (S i) n); [|lia|intros c Hc; unfold w; destruct (Nat.ltb_spec c i); [lia|]; destruct (Nat.eqb_spec c i); [lia|ring]].
    rewrite sumn_S. replace (sumn i (fun c => upp F k c * w c)) with (sumn i (fun c => upp F k c * x c)).
    - rewrite Hx by auto. unfold w, upp. rewrite Nat.ltb_irrefl, Nat.eqb_refl. destruct (Nat.leb_spec k i); [ring|lia].
    - apply sumn_ext. intros c Hc. unfold w. destruct (Nat.ltb_spec c i); [auto|lia]. }
  assert (K : forall s, (s < n)%nat -> mulv n G w s = 0).
  { intros s Hs. destruct (is_perm_onto n P s HP Hs) as (r & Hr & <-). rewrite (factored_mulv n i G F P w r Fa Hr).
    rewrite sumn_zero by (intros k Hk; rewrite W by lia; ring).
    destruct (Nat.lt_ge_cases r i) as [L|L].
    - replace (Nat.min i r) with r by lia. assert (Y := W r L). unfold Ux in Y.
      replace (sumn n (fun c => if (c <? r)%nat then 0 else F r c * w c)) with (sumn n (fun c => upp F r c * w c)); [rewrite Y; ring|].
      apply sumn_ext. intros c Hc. unfold upp. destruct (Nat.ltb_spec c r); destruct (Nat.leb_spec r c); try lia; ring.
    - replace (Nat.min i r) with i by lia. rewrite sumn_zero; [ring|]. intros c Hc. destruct (Nat.ltb_spec c i); auto.
      destruct (Nat.eq_dec c i) as [->|]; [rewrite Z by lia; ring|]. unfold w. destruct (Nat.ltb_spec c i); [lia|]. destruct (Nat.eqb_spec c i); [lia|ring]. }
  specialize (NS w K i Hi). unfold w in NS. rewrite Nat.ltb_irrefl, Nat.eqb_refl in NS. discriminate.
Qed.

(* an upper triangular matrix with non-zero diagonal only maps zero to zero *)
Lemma upper_kernel n F x : (forall k, (k < n)%nat -> F k k <> 0) -> (forall k, (k < n)%nat -> Ux n F x k = 0) -> forall k, (k < n)%nat -> x k = 0.
Proof.
  intros D U. assert (H : forall m k, (k < n)%nat -> (n - k <= m)%nat -> x k = 0).
  { induction m as [|m IH]; intros k Hk Lm; [lia|]. assert (E := U k Hk). unfold Ux in E.
    rewrite (sumn_one n k) in E; [|auto|intros c Hc Nc; unfold upp; destruct (Nat.leb_spec k c); [rewrite (IH c) by lia; ring|ring]].
    unfold upp in E. rewrite Nat.leb_refl in E. apply Qcmult_integral in E. destruct E as [E|E]; auto. exfalso. now apply (D k). }
  intros k Hk. apply (H n); lia.
Qed.
Lemma diag_nonsingular n G F P : is_perm n P -> factored n n G F P -> (forall k, (k < n)%nat -> F k k <> 0) -> nonsingular n G.
Proof.
  intros HP Fa D x K. apply (upper_kernel n F x D).
  assert (H : forall m k, (k < m)%nat -> (k < n)%nat -> Ux n F x k = 0).
  { induction m as [|m IH]; intros k Lk Hk; [lia|]. assert (E := factored_full n G F P x k Fa Hk).
    rewrite K in E by now apply (is_perm_lt n P). rewrite sumn_zero in E by (intros q Hq; rewrite IH by lia; ring). rewrite E. ring. }
  intros k Hk. apply (H (S k)); auto.
Qed.

(* forward substitution *)
Lemma forward_ok n A F P b y0 : repr n A F -> is_perm n P -> length b = n -> length y0 = n ->
  exists y, forward A P b y0 = Ok y /\ length y = n /\
    forall r, (r < n)%nat -> nth r y 0 = nth (nth r P 0%nat) b 0 - sumn r (fun k => F r k * nth k y 0).
Proof.
  intros R HP Lb Ly. unfold forward. assert (Rr : mrows A = n) by (destruct R as ((Q & _) & _); auto). rewrite Rr.
  assert (LP := is_perm_len n P HP).
  destruct (loop_inv (fun i y => length y = n /\ forall r, (r < i)%nat -> nth r y 0 = nth (nth r P 0%nat) b 0 - sumn r (fun k => F r k * nth k y 0))
    (fun i y => do p <- getR P i ; do v <- getR b p ; do y1 <- wr y i v ;
      loop 0 i y1 (fun j y => do a <- getR y i ; do l <- mget A i j ; do c <- getR y j ; wr y i (a - l * c))) 0 n y0) as (y & E & L & H).
  - lia.
  - split; auto. intros; lia.
  - intros i y Hi (L & H). rewrite (getR_nth 0%nat) by lia. cbn [bind]. rewrite (getR_nth 0) by (rewrite Lb; now apply is_perm_lt). cbn [bind].
    rewrite wr_ok by lia. cbn [bind]. set (v := nth (nth i P 0%nat) b 0).
    destruct (loop_inv (fun j z => length z = n /\ (forall k, k <> i -> nth k z 0 = nth k y 0) /\ nth i z 0 = v - sumn j (fun k => F i k * nth k y 0))
      (fun j y => do a <- getR y i ; do l <- mget A i j ; do c <- getR y j ; wr y i (a - l * c)) 0 i (upd y i v)) as (z & E & Lz & Z1 & Z2).
    + lia.
    + split; [now rewrite upd_length|]. split; [intros k Nk; rewrite nth_upd by lia; destruct (Nat.eqb_spec k i); [lia|auto]|].
      rewrite nth_upd, Nat.eqb_refl by lia. cbn. ring.
    + intros j z Hj (Lz & Z1 & Z2). rewrite (getR_nth 0) by lia. cbn [bind]. rewrite (mget_ok n A F i j R) by lia. cbn [bind].
      rewrite (getR_nth 0) by lia. cbn [bind]. rewrite wr_ok by lia. eexists. split; [reflexivity|]. split; [now rewrite upd_length|]. split.
      * intros k Nk. rewrite nth_upd by lia. destruct (Nat.eqb_spec k i); [lia|auto].
      * rewrite nth_upd, Nat.eqb_refl by lia. rewrite Z2, (Z1 j) by lia. rewrite sumn_S. ring.
    + exists z. split; auto. split; auto. intros r Hr. destruct (Nat.eq_dec r i) as [->|Nr].
      * rewrite Z2. fold v. f_equal. apply sumn_ext. intros k Hk. rewrite Z1 by lia. reflexivity.
      * rewrite Z1 by auto. rewrite H by lia. f_equal. apply sumn_ext. intros k Hk. rewrite Z1 by lia. reflexivity.
  - exists y. split; auto.
Qed.

(* backward substitution *)
Lemma backward_ok n A F y x0 : repr n A F -> length y = n -> length x0 = n ->
  ((forall k, (k < n)%nat -> F k k <> 0) /\ exists x, backward A y x0 = Ok x /\ length x = n /\ forall r, (r < n)%nat -> Ux n F (fun c => nth c x 0) r = nth r y 0) \/
  (backward A y x0 = Err ZeroDivision /\ exists k, (k < n)%nat /\ F k k = 0).
Proof.
  intros R Ly Lx. unfold backward. assert (Rr : mrows A = n) by (destruct R as ((Q & _) & _); auto). rewrite Rr.
  assert (C : mcols A = n) by (destruct R as ((_ & Q & _) & _); auto). rewrite C.
  destruct (loop_fail (fun t x => length x = n /\ forall r, (n - t <= r < n)%nat -> F r r <> 0 /\ Ux n F (fun c => nth c x 0) r = nth r y 0)
    (fun t x =>
      let i := (n - 1 - t)%nat in
      do v <- getR y i ; do x1 <- wr x i v ;
      do x2 <- loop (i + 1) n x1 (fun j x => do a <- getR x i ; do u <- mget A i j ; do c <- getR x j ; wr x i (a - u * c)) ;
      do a <- getR x2 i ; do d <- mget A i i ;
      if qeq d 0 then Err ZeroDivision else wr x2 i (a / d)) (exists k, (k < n)%nat /\ F k k = 0) ZeroDivision 0 n x0) as [(x & E & L & H)|(E & Bd)].
  - lia.
  - split; auto. intros; lia.
  - intros t x Ht (L & H). cbv zeta. set (i := (n - 1 - t)%nat). assert (Hi : (i < n)%nat) by (unfold i; lia).
    rewrite (getR_nth 0) by lia. cbn [bind]. rewrite wr_ok by lia. cbn [bind]. set (v := nth i y 0).
    destruct (loop_inv (fun j z => length z = n /\ (forall k, k <> i -> nth k z 0 = nth k x 0) /\
         nth i z 0 = v - sumn j (fun k => if (i <? k)%nat then F i k * nth k x 0 else 0))
      (fun j x => do a <- getR x i ; do u <- mget A i j ; do c <- getR x j ; wr x i (a - u * c)) (i + 1) n (upd x i v)) as (z & E & Lz & Z1 & Z2).
    + lia.
    + split; [now rewrite upd_length|]. split; [intros k Nk; rewrite nth_upd by lia; destruct (Nat.eqb_spec k i); [lia|auto]|].
      rewrite nth_upd, Nat.eqb_refl by lia. rewrite sumn_zero; [ring|]. intros k Hk. destruct (Nat.ltb_spec i k); [lia|auto].
    + intros j z Hj (Lz & Z1 & Z2). rewrite (getR_nth 0) by lia. cbn [bind]. rewrite (mget_ok n A F i j R) by lia. cbn [bind].
      rewrite (getR_nth 0) by lia. cbn [bind]. rewrite wr_ok by lia. eexists. split; [reflexivity|]. split; [now rewrite upd_length|]. split.
      * intros k Nk. rewrite nth_upd by lia. destruct (Nat.eqb_spec k i); [lia|auto].
      * rewrite nth_upd, Nat.eqb_refl by lia. rewrite Z2, (Z1 j) by lia. rewrite sumn_S. destruct (Nat.ltb_spec i j); [ring|lia].
    + rewrite E. cbn [bind]. rewrite (getR_nth 0) by lia. cbn [bind]. rewrite (mget_ok n A F i i R) by lia. cbn [bind].
      destruct (qeq (F i i) 0) eqn:Q; [right; apply qeq_true in Q; split; eauto|]. apply qeq_false in Q. left.
      rewrite wr_ok by lia. eexists. split; [reflexivity|]. split; [now rewrite upd_length|].
      assert (SE : forall r, (i < r < n)%nat -> Ux n F (fun c => nth c (upd z i (nth i z 0 / F i i)) 0) r = Ux n F (fun c => nth c x 0) r).
      { intros r Hr. unfold Ux. apply sumn_ext. intros c Hc. unfold upp. destruct (Nat.leb_spec r c); [|ring]. rewrite nth_upd by lia.
        destruct (Nat.eqb_spec c i); [lia|]. rewrite Z1 by auto. reflexivity. }
      intros r Hr. destruct (Nat.eq_dec r i) as [->|Nr]; [|rewrite SE by lia; apply H; lia]. split; auto.
      unfold Ux.
      transitivity (sumn n (fun c => (if (i <? c)%nat then F i c * nth c x 0 else 0) + (if (c =? i)%nat then nth i z 0 else 0))).
      * apply sumn_ext. intros c Hc. rewrite nth_upd by lia. unfold upp. destruct (Nat.eqb_spec c i) as [->|Nc].
        { rewrite Nat.leb_refl, Nat.ltb_irrefl. field. auto. }
        { rewrite Z1 by auto. destruct (Nat.leb_spec i c); destruct (Nat.ltb_spec i c); try lia; ring. }
      * rewrite sumn_add, (sumn_one n i (fun c => if (c =? i)%nat then nth i z 0 else 0)).
        { rewrite Nat.eqb_refl, Z2. unfold v. ring. }
        { auto. }
        { intros c _ Nc. destruct (Nat.eqb_spec c i); [lia|auto]. }
  - left. split; [intros k Hk; apply H; lia|]. exists x. split; auto. split; auto. intros r Hr. apply H. lia.
  - right. split; auto.
Qed.

Lemma solve_ok n G LU F P b y0 x0 : repr n LU F -> is_perm n P -> factored n n G F P -> length b = n -> length y0 = n -> length x0 = n ->
  (nonsingular n G /\ exists x, lu_solve LU P b y0 x0 = Ok x /\ length x = n /\ forall r, (r < n)%nat -> mulv n G (fun c => nth c x 0) r = nth r b 0) \/
  (lu_solve LU P b y0 x0 = Err ZeroDivision /\ exists k, (k < n)%nat /\ F k k = 0).
Proof.
  intros R HP Fa Lb Ly Lx. unfold lu_solve. destruct (forward_ok n LU F P b y0 R HP Lb Ly) as (y & Ey & L & Hy). rewrite Ey. cbn [bind].
  destruct (backward_ok n LU F y x0 R L Lx) as [(D & x & E & Lx' & H)|(E & Bd)]; rewrite E; [left|right; auto].
  split; [eapply diag_nonsingular; eauto|]. exists x. split; auto. split; auto. intros s Hs.
  destruct (is_perm_onto n P s HP Hs) as (r & Hr & <-). rewrite (factored_full n G F P _ r Fa Hr). rewrite H by auto. rewrite (Hy r Hr).
  replace (sumn r (fun k => F r k * Ux n F (fun c => nth c x 0) k)) with (sumn r (fun k => F r k * nth k y 0)); [ring|].
  apply sumn_ext. intros k Hk. rewrite H by lia. reflexivity.
Qed.

(* a zero on the diagonal of the upper factor *)
Lemma zero_diag_singular n G F P k : is_perm n P -> factored n n G F P -> pivots n n F -> (k < n)%nat -> F k k = 0 -> ~ nonsingular n G.
Proof.
  intros HP Fa Pv Hk Z. assert (S k = n) by (destruct (Nat.lt_ge_cases (S k) n); [exfalso; apply (Pv k); auto|lia]).
  apply (no_pivot_singular n k G F P Hk HP).
  - intros r c Hr Hc. rewrite (Fa r c Hr Hc). replace (Nat.min n r) with (Nat.min k r) by lia. reflexivity.
  - intros q Hq Hn. apply Pv; lia.
  - intros r Hr. assert (r = k) by lia. subst. auto.
Qed.

(* the columns of the inverse *)
Lemma unit_column n i b0 : length b0 = n ->
  exists b, loop 0 n b0 (fun j b => wr b j (if (i =? j)%nat then 1 else 0)) = Ok b /\ length b = n /\ forall j, (j < n)%nat -> nth j b 0 = ident i j.
Proof.
  intro L. destruct (loop_inv (fun j b => length b = n /\ forall k, (k < j)%nat -> nth k b 0 = ident i k) (fun j b => wr b j (if (i =? j)%nat then 1 else 0)) 0 n b0) as (b & E & Lb & H).
  - lia.
  - split; auto. intros; lia.
  - intros j b Hj (Lb & H). rewrite wr_ok by lia. eexists. split; [reflexivity|]. split; [now rewrite upd_length|]. intros k Hk.
    rewrite nth_upd by lia. destruct (Nat.eqb_spec k j) as [->|]; [reflexivity|apply H; lia].
  - exists b. auto.
Qed.
Lemma store_column n i R G x : repr n R G -> (i < n)%nat -> length x = n ->
  exists R', loop 0 n R (fun j R => do v <- getR x j ; mset R j i v) = Ok R' /\ repr n R' (fun a b => if (b =? i)%nat then nth a x 0 else G a b).
Proof.
  intros HR Hi L. destruct (loop_inv (fun j R => repr n R (fun a b => if (b =? i)%nat && (a <? j)%nat then nth a x 0 else G a b)) (fun j R => do v <- getR x j ; mset R j i v) 0 n R) as (R' & E & H).
  - lia.
  - eapply repr_ext; [exact HR|]. intros a b Ha Hb. cbv beta. now rewrite andb_false_r.
  - intros j m Hj Hm. rewrite (getR_nth 0) by lia. cbn [bind]. destruct (mset_ok n m _ j i (nth j x 0) Hm) as (m' & E & H'); [lia|lia|].
    exists m'. split; auto. eapply repr_ext; [exact H'|]. intros a b Ha Hb. cbv beta.
    destruct (Nat.eqb_spec b i); destruct (Nat.eqb_spec a j); destruct (Nat.ltb_spec a j); destruct (Nat.ltb_spec a (S j)); subst; cbn [andb]; auto; lia.
  - exists R'. split; auto. eapply repr_ext; [exact H|]. intros a b Ha Hb. cbv beta. rewrite (proj2 (Nat.ltb_lt a n) Ha), andb_true_r. reflexivity.
Qed.

Lemma ident_sym i j : ident i j = ident j i.
Proof. unfold ident. now rewrite Nat.eqb_sym. Qed.

Lemma left_inverse n F G : nonsingular n F -> (forall r c, (r < n)%nat -> (c < n)%nat -> mulm n F G r c = ident r c) ->
  forall r c, (r < n)%nat -> (c < n)%nat -> mulm n G F r c = ident r c.
Proof.
  intros NS H r c Hr Hc. assert (Z := NS (fun k => mulm n G F k c - ident k c)). cbv beta in Z.
  assert (Y : forall q, (q < n)%nat -> mulv n F (fun k => mulm n G F k c - ident k c) q = 0).
  { intros q Hq. unfold mulv, mulm.
    transitivity (sumn n (fun k => sumn n (fun l => F q k * (G k l * F l c))) - sumn n (fun k => F q k * ident k c)).
    - rewrite <- sumn_sub. apply sumn_ext. intros k Hk. rewrite sumn_scale. ring.
    - rewrite sumn_swap. rewrite (sumn_one n c (fun k => F q k * ident k c)); auto.
      + transitivity (sumn n (fun l => ident q l * F l c) - F q c * ident c c).
        * f_equal. apply sumn_ext. intros l Hl. rewrite <- (H q l Hq Hl). unfold mulm. rewrite <- sumn_scale_r. apply sumn_ext. intros k Hk. ring.
        * rewrite (sumn_one n q); auto.
          { unfold ident. rewrite !Nat.eqb_refl. ring. }
          { intros l Hl Nl. unfold ident. destruct (Nat.eqb_spec q l); [lia|ring]. }
      + intros k Hk Nk. unfold ident. destruct (Nat.eqb_spec k c); [lia|ring]. }
  specialize (Z Y r Hr). assert (E : mulm n G F r c = (mulm n G F r c - ident r c) + ident r c) by ring. rewrite E, Z. ring.
Qed.

Lemma invert_ok n A R0 P0 b0 x0 y0 : square n A -> square n R0 -> length P0 = n -> length b0 = n -> length x0 = n -> length y0 = n -> (0 < n)%nat ->
  (nonsingular n (ent A) /\ exists LU R P, invert_matrix A R0 P0 b0 x0 y0 = Ok (LU, R) /\ lu_decomposition A P0 = Ok (LU, P) /\ square n R /\
     forall r c, (r < n)%nat -> (c < n)%nat -> mulm n (ent A) (ent R) r c = ident r c) \/
  (~ nonsingular n (ent A) /\ invert_matrix A R0 P0 b0 x0 y0 = Err ZeroDivision).
Proof.
  intros QA QR LP Lb Lx Ly Pn. unfold invert_matrix.
  destruct (lu_ok n A P0 QA LP) as [((LU, P) & E & F & R & HP & Fa & Mu & Pv)|(E & i & F & P & Hi & HP & Fa & Pv & Z)]; rewrite E; cbn [bind].
  2: { right. split; auto. eapply no_pivot_singular; eauto. }
  cbn [fst snd] in *. assert (Ar : mrows A = n) by (destruct QA; auto). assert (Ac : mcols A = n) by (destruct QA as (_ & Q & _); auto). rewrite Ar, Ac.
  set (body := fun (i : nat) (st : mtx * list Qc * list Qc) => let '(R, b, x) := st in
    do b1 <- loop 0 n b (fun j b => wr b j (if (i =? j)%nat then 1 else 0)) ;
    do x1 <- lu_solve LU P b1 y0 x ;
    do R1 <- loop 0 n R (fun j R => do v <- getR x1 j ; mset R j i v) ; Ok (R1, b1, x1)).
  destruct (loop_fail (fun i (st : mtx * list Qc * list Qc) => let '(M, b, x) := st in length b = n /\ length x = n /\ ((0 < i)%nat -> nonsingular n (ent A)) /\
      exists G, repr n M G /\ forall r c, (r < n)%nat -> (c < i)%nat -> mulm n (ent A) G r c = ident r c) body (~ nonsingular n (ent A)) ZeroDivision 0 n (R0, b0, x0))
    as [(((M, b), x) & E1 & _ & _ & NS & G & HM & HG)|(E1 & Bd)].
  - lia.
  - repeat split; auto; [intros; lia|]. exists (ent R0). split; [now apply repr_self|]. intros; lia.
  - intros i ((M, b), x) Hi (L1 & L2 & NS & G & HM & HG). unfold body.
    destruct (unit_column n i b L1) as (b1 & Eb & Lb1 & Hb). rewrite Eb. cbn [bind].
    destruct (solve_ok n (ent A) LU F P b1 y0 x R HP Fa Lb1 Ly L2) as [(NS' & x1 & Es & Lx1 & Hx)|(Es & k & Hk & Zk)]; rewrite Es; cbn [bind].
    + left. destruct (store_column n i M G x1 HM ltac:(lia) Lx1) as (M1 & Em & HM1). rewrite Em. cbn [bind]. eexists. split; [reflexivity|].
      repeat split; auto. eexists. split; [exact HM1|]. intros r c Hr Hc. unfold mulm. destruct (Nat.eq_dec c i) as [->|Nc].
      * rewrite Nat.eqb_refl. specialize (Hx r Hr). unfold mulv in Hx. rewrite Hx, Hb by auto. apply ident_sym.
      * destruct (Nat.eqb_spec c i); [lia|]. apply HG; [auto|lia].
    + right. split; auto. eapply zero_diag_singular; eauto.
  - rewrite E1. cbn [bind]. left. split; [apply NS; lia|]. exists LU, M, P. split; auto. split; auto. destruct HM as (QM & HM). split; auto.
    intros r c Hr Hc. rewrite <- (HG r c Hr Hc). unfold mulm. apply sumn_ext. intros k Hk. rewrite HM by auto. reflexivity.
  - rewrite E1. right. auto.
Qed.
