(* Matrices and the triangular table of basis functions. *)
From Coq Require Import List ZArith Lia Bool QArith Qcanon.
From Verif Require Import Common ListLib QcLib ArrZ SumLib SplineTheory NurbsModel NurbsSpec NurbsProofs SurfModel DerModel DerProofs1.
Import ListNotations.
Local Open Scope Z_scope.
Local Open Scope Qc_scope.

Definition atM {A} (d : A) (m : list (list A)) (i j : Z) : A := atZ d (atZ [] m i) j.
Definition shapeM {A} (a b : Z) (m : list (list A)) : Prop :=
  lenZ m = a /\ forall i, (0 <= i < a)%Z -> lenZ (atZ [] m i) = b.
Definition updM {A} (m : list (list A)) (i j : Z) (x : A) : list (list A) :=
  upd m (Z.to_nat i) (upd (atZ [] m i) (Z.to_nat j) x).

Lemma nth_rep {A} (x d : A) n i : (i < n)%nat -> nth i (repeat x n) d = x.
Proof. revert i. induction n as [|n IH]; intros [|i] H; cbn; auto; try lia. apply IH. lia. Qed.

Section M.
Context {A : Type} (d : A).
Lemma rdM_ok m a b i j : shapeM a b m -> (0 <= i < a)%Z -> (0 <= j < b)%Z -> rdM m i j = Ok (atM d m i j).
Proof.
  intros [L W] Hi Hj. unfold rdM, atM. rewrite (rdZ_ok []) by lia. cbn [bind]. apply rdZ_ok. rewrite W by lia. lia.
Qed.
Lemma wrM_ok m a b i j (x : A) : shapeM a b m -> (0 <= i < a)%Z -> (0 <= j < b)%Z -> wrM m i j x = Ok (updM m i j x).
Proof.
  intros [L W] Hi Hj. unfold wrM, updM. rewrite (rdZ_ok []) by lia. cbn [bind]. rewrite wrZ_ok by (rewrite W by lia; lia). cbn [bind].
  apply wrZ_ok. lia.
Qed.
Lemma shapeM_updM m a b i j (x : A) : shapeM a b m -> (0 <= i < a)%Z -> (0 <= j < b)%Z -> shapeM a b (updM m i j x).
Proof.
  intros [L W] Hi Hj. unfold updM. split; [now rewrite lenZ_upd|]. intros k Hk. destruct (Z.eq_dec k i) as [->|].
  - rewrite atZ_upd_eq by lia. rewrite lenZ_upd. apply W; lia.
  - rewrite atZ_upd_neq by lia. apply W; lia.
Qed.
Lemma atM_updM_eq m a b i j (x : A) : shapeM a b m -> (0 <= i < a)%Z -> (0 <= j < b)%Z -> atM d (updM m i j x) i j = x.
Proof.
  intros [L W] Hi Hj. unfold updM, atM. rewrite atZ_upd_eq by lia. apply atZ_upd_eq. rewrite W by lia. lia.
Qed.
Lemma atM_updM_neq m a b i j k l (x : A) : shapeM a b m -> (0 <= i < a)%Z -> (0 <= j < b)%Z -> (0 <= k)%Z -> (0 <= l)%Z ->
  (k <> i \/ l <> j) -> atM d (updM m i j x) k l = atM d m k l.
Proof.
  intros [L W] Hi Hj Hk Hl H. unfold updM, atM. destruct (Z.eq_dec k i) as [->|].
  - rewrite atZ_upd_eq by lia. apply atZ_upd_neq; lia.
  - rewrite atZ_upd_neq by lia. auto.
Qed.
Lemma shape_zeros a b (x : A) : (0 <= a)%Z -> (0 <= b)%Z -> shapeM a b (zerosM x a b).
Proof.
  intros Ha Hb. unfold zerosM. split; [rewrite lenZ_repeat; lia|]. intros i Hi. unfold atZ. rewrite nth_rep by lia.
  rewrite lenZ_repeat. lia.
Qed.
Lemma at_zeros a b (x : A) i j : (0 <= i < a)%Z -> (0 <= j < b)%Z -> atM d (zerosM x a b) i j = x.
Proof.
  intros Hi Hj. unfold zerosM, atM, atZ. rewrite nth_rep by lia. apply nth_rep. lia.
Qed.
End M.

(* what the table of [all_basis_funs] holds after the columns < jj *)
Definition tri_ok (U : Z -> Qc) (s : Z) (u : Qc) (p jj : Z) (N : mat) : Prop :=
  shapeM (p + 1) (p + 1) N /\
  (forall c r, (0 <= r <= c)%Z -> (c < jj)%Z -> atM 0 N r c = Bs U s u (Z.to_nat c) (s - c + r)) /\
  (forall c r, (0 <= r < c)%Z -> (c < jj)%Z -> atM 0 N c r = U (s + r + 1)%Z - U (s + 1 - c + r)%Z).

Lemma tri_inner_ok U s u p lft rgt j N :
  (1 <= j <= p)%Z -> (j < lenZ lft)%Z -> (j < lenZ rgt)%Z ->
  (forall k, (1 <= k <= j)%Z -> atZ 0 lft k = u - U (s + 1 - k)%Z) ->
  (forall k, (1 <= k <= j)%Z -> atZ 0 rgt k = U (s + k)%Z - u) ->
  ndg U s (Z.to_nat p) -> tri_ok U s u p j N ->
  exists N' saved, forZ 0 j (N, 0) (tri_inner lft rgt j) = Ok (N', saved) /\
    shapeM (p + 1) (p + 1) N' /\ saved = Bs U s u (Z.to_nat j) s /\
    (forall c r, (0 <= r <= c)%Z -> (c < j)%Z -> atM 0 N' r c = Bs U s u (Z.to_nat c) (s - c + r)) /\
    (forall c r, (0 <= r < c)%Z -> (c <= j)%Z -> atM 0 N' c r = U (s + r + 1)%Z - U (s + 1 - c + r)%Z) /\
    (forall r, (0 <= r < j)%Z -> atM 0 N' r j = Bs U s u (Z.to_nat j) (s - j + r)).
Proof.
  intros Hj Hll Hlr HL HR Nd [Sh [HT HD]].
  set (Inv := fun r (st : mat * Qc) => let '(M, sv) := st in
     shapeM (p + 1) (p + 1) M /\
     (forall c k, (0 <= k <= c)%Z -> (c < j)%Z -> atM 0 M k c = Bs U s u (Z.to_nat c) (s - c + k)) /\
     (forall c k, (0 <= k < c)%Z -> (c < j)%Z \/ (c = j /\ k < r)%Z -> atM 0 M c k = U (s + k + 1)%Z - U (s + 1 - c + k)%Z) /\
     (forall k, (0 <= k < r)%Z -> atM 0 M k j = Bs U s u (Z.to_nat j) (s - j + k)) /\
     sv = (u - U (s - j + r)%Z) / (U (s + r)%Z - U (s - j + r)%Z) * Bs U s u (Z.to_nat (j-1)) (s - (j-1) + (r - 1))).
  destruct (forZ_inv Inv (tri_inner lft rgt j) 0 j (N, 0)) as [[N' saved] [E [I1 [I2 [I3 [I4 I5]]]]]].
  - lia.
  - split; [auto|]. split; [auto|]. split; [intros c k Hk [H|H]; [auto|lia]|]. split; [intros; lia|].
    rewrite Bs_support by lia. ring.
  - intros r [M sv] Hr [A1 [A2 [A3 [A4 A5]]]]. unfold tri_inner.
    rewrite (rdZ_ok 0 rgt) by lia. cbn [bind]. rewrite (rdZ_ok 0 lft) by lia. cbn [bind].
    rewrite HR, HL by lia.
    set (x := U (s + (r + 1))%Z - u + (u - U (s + 1 - (j - r))%Z)).
    rewrite (wrM_ok _ (p + 1) (p + 1)) by (auto; lia). cbn [bind].
    assert (S1 : shapeM (p + 1) (p + 1) (updM M j r x)) by (apply shapeM_updM; auto; lia).
    rewrite (rdM_ok 0 _ (p + 1) (p + 1)) by (auto; lia). cbn [bind].
    rewrite (rdM_ok 0 _ (p + 1) (p + 1)) by (auto; lia). cbn [bind].
    rewrite (atM_updM_eq 0 _ (p + 1) (p + 1)) by (auto; lia).
    rewrite (atM_updM_neq 0 _ (p + 1) (p + 1)) by (auto; lia). rewrite A2 by lia.
    assert (Ex : x = U (s + r + 1)%Z - U (s - j + r + 1)%Z).
    { unfold x. replace (s + (r + 1))%Z with (s + r + 1)%Z by lia. replace (s + 1 - (j - r))%Z with (s - j + r + 1)%Z by lia. ring. }
    assert (Hd0 : x <> 0).
    { rewrite Ex. intro H. apply (Nd (s - j + r + 1)%Z j); try lia. replace (s - j + r + 1 + j)%Z with (s + r + 1)%Z by lia. clear - H. qlra. }
    rewrite divR_ok by auto. cbn [bind]. rewrite (wrM_ok _ (p + 1) (p + 1)) by (auto; lia). cbn [bind].
    eexists. split; [reflexivity|]. set (y := sv + _). 
    assert (S2 : shapeM (p + 1) (p + 1) (updM (updM M j r x) r j y)) by (apply shapeM_updM; auto; lia).
    split; [auto|]. split; [|split; [|split]].
    + intros c k Hk Hc. rewrite (atM_updM_neq 0 _ (p + 1) (p + 1)) by (auto; lia).
      rewrite (atM_updM_neq 0 _ (p + 1) (p + 1)) by (auto; lia). apply A2; auto.
    + intros c k Hk Hc. rewrite (atM_updM_neq 0 _ (p + 1) (p + 1)) by (auto; lia).
      destruct (Z.eq_dec c j) as [->|]; [destruct (Z.eq_dec k r) as [->|]|].
      * rewrite (atM_updM_eq 0 _ (p + 1) (p + 1)) by (auto; lia). rewrite Ex. replace (s + 1 - j + r)%Z with (s - j + r + 1)%Z by lia. auto.
      * rewrite (atM_updM_neq 0 _ (p + 1) (p + 1)) by (auto; lia). apply A3; auto. right. lia.
      * rewrite (atM_updM_neq 0 _ (p + 1) (p + 1)) by (auto; lia). apply A3; auto. left. lia.
    + intros k Hk. destruct (Z.eq_dec k r) as [->|].
      * rewrite (atM_updM_eq 0 _ (p + 1) (p + 1)) by (auto; lia). unfold y. rewrite A5, Ex.
        replace (Z.to_nat j) with (S (Z.to_nat (j - 1))) by lia. cbn [Bs].
        replace (s - j + r + Z.of_nat (S (Z.to_nat (j - 1))))%Z with (s + r)%Z by lia.
        replace (s - (j - 1) + (r - 1))%Z with (s - j + r)%Z by lia.
        replace (s - (j - 1) + r)%Z with (s - j + r + 1)%Z by lia.
        replace (s + (r + 1))%Z with (s + r + 1)%Z by lia.
        unfold Qcdiv. ring.
      * rewrite (atM_updM_neq 0 _ (p + 1) (p + 1)) by (auto; lia).
        rewrite (atM_updM_neq 0 _ (p + 1) (p + 1)) by (auto; lia). apply A4. lia.
    + rewrite Ex. replace (s + 1 - (j - r))%Z with (s - j + (r + 1))%Z by lia. replace (s - j + (r + 1))%Z with (s - j + r + 1)%Z by lia.
      replace (s + (r + 1))%Z with (s + r + 1)%Z by lia. replace (r + 1 - 1)%Z with r by lia. unfold Qcdiv. ring.
  - exists N', saved. split; auto. split; auto. split.
    + rewrite I5. replace (Z.to_nat j) with (S (Z.to_nat (j - 1))) by lia. cbn [Bs].
      rewrite (Bs_support U s u _ (s + 1)) by lia.
      replace (s - j + j)%Z with s by lia. replace (s + Z.of_nat (S (Z.to_nat (j-1))))%Z with (s + j)%Z by lia.
      replace (s - (j - 1) + (j - 1))%Z with s by lia. ring.
    + split; auto. split; auto. intros c r Hr Hc. apply I3; auto. destruct (Z.eq_dec c j); [right; lia|left; lia].
Qed.

Lemma all_basis_funs_ok p s u U :
  (0 <= p)%Z -> (p <= s)%Z -> (s + p < lenZ U)%Z -> ndg (knot U) s (Z.to_nat p) ->
  exists N, all_basis_funs s u p U = Ok N /\ tri_ok (knot U) s u p (p + 1) N.
Proof.
  intros Hp Hs HU Nd. unfold all_basis_funs.
  assert (Sh0 : shapeM (p + 1) (p + 1) (zerosM (0:Qc) (p + 1) (p + 1))) by (apply shape_zeros; lia).
  rewrite (wrM_ok _ (p + 1) (p + 1)) by (auto; lia). cbn [bind].
  set (scr := repeat (0:Qc) (Z.to_nat (p + 1))).
  assert (Hscr : lenZ scr = (p+1)%Z) by (unfold scr; rewrite lenZ_repeat; lia).
  set (Inv := fun j (st : mat * list Qc * list Qc) => let '(N, l, r) := st in
    tri_ok (knot U) s u p j N /\ lenZ l = (p+1)%Z /\ lenZ r = (p+1)%Z /\
    (forall k, (1 <= k < j)%Z -> atZ 0 l k = u - knot U (s + 1 - k)) /\
    (forall k, (1 <= k < j)%Z -> atZ 0 r k = knot U (s + k) - u)).
  destruct (forZ_inv Inv (tri_outer s u U) 1 (p+1) (updM (zerosM (0:Qc) (p + 1) (p + 1)) 0 0 1, scr, scr)) as [[[N l] r] [E I]].
  - lia.
  - split; [|split; [auto|]; split; [auto|]; split; intros; lia].
    split; [apply shapeM_updM; auto; lia|]. split; [|intros; lia].
    intros c r Hr Hc. assert (c = 0%Z) by lia. subst c. assert (r = 0%Z) by lia. subst r.
    rewrite (atM_updM_eq 0 _ (p + 1) (p + 1)) by (auto; lia). cbn. replace (s - 0 + 0)%Z with s by lia. now rewrite Z.eqb_refl.
  - intros j [[N l] r] Hj [A1 [A2 [A3 [A4 A5]]]]. unfold tri_outer.
    rewrite ?rd_knot by lia. cbn [bind]. rewrite wrZ_ok by lia. cbn [bind].
    rewrite ?rd_knot by lia. cbn [bind]. rewrite wrZ_ok by lia. cbn [bind].
    assert (A4' : forall k, (1 <= k <= j)%Z -> atZ 0 (upd l (Z.to_nat j) (u - knot U (s + 1 - j))) k = u - knot U (s + 1 - k)).
    { intros k Hk. destruct (Z.eq_dec k j) as [->|]; [rewrite atZ_upd_eq by lia; auto|]. rewrite atZ_upd_neq by lia. apply A4; lia. }
    assert (A5' : forall k, (1 <= k <= j)%Z -> atZ 0 (upd r (Z.to_nat j) (knot U (s + j) - u)) k = knot U (s + k) - u).
    { intros k Hk. destruct (Z.eq_dec k j) as [->|]; [rewrite atZ_upd_eq by lia; auto|]. rewrite atZ_upd_neq by lia. apply A5; lia. }
    destruct (tri_inner_ok (knot U) s u p (upd l (Z.to_nat j) (u - knot U (s + 1 - j)))
               (upd r (Z.to_nat j) (knot U (s + j) - u)) j N) as [N' [sv [B1 [B2 [B3 [B4 [B5 B6]]]]]]]; auto; try (rewrite lenZ_upd; lia); try lia.
    rewrite B1. cbn [bind]. rewrite (wrM_ok _ (p + 1) (p + 1)) by (auto; lia). cbn [bind].
    eexists. split; [reflexivity|]. unfold Inv. rewrite !lenZ_upd.
    split; [|split; [auto|]; split; [auto|]; split; intros; [apply A4'|apply A5']; lia].
    split; [apply shapeM_updM; auto; lia|]. split.
    + intros c k Hk Hc. destruct (Z.eq_dec c j) as [->|]; [destruct (Z.eq_dec k j) as [->|]|].
      * rewrite (atM_updM_eq 0 _ (p + 1) (p + 1)) by (auto; lia). rewrite B3. f_equal. lia.
      * rewrite (atM_updM_neq 0 _ (p + 1) (p + 1)) by (auto; lia). apply B6. lia.
      * rewrite (atM_updM_neq 0 _ (p + 1) (p + 1)) by (auto; lia). apply B4; lia.
    + intros c k Hk Hc. rewrite (atM_updM_neq 0 _ (p + 1) (p + 1)) by (auto; lia). apply B5; lia.
  - unfold mat in *. rewrite E. cbn [bind]. exists N. split; auto. apply I.
Qed.
