(* The linear solver: a finite result is the only solution. *)
From Coq Require Import List ZArith Lia Bool QArith Qcanon.
From Verif Require Import Common ListLib QcLib ArrZ SumLib NurbsModel DerModel DerProofs2 KnotProofs2 PlnModel PlnSpec.
Import ListNotations.
Local Open Scope Z_scope.
Local Open Scope Qc_scope.

Lemma max_row_bound f m i : forall l r q, (l <= r)%Z -> max_row_loop f m i l r = Ok q -> (l <= q <= r)%Z.
Proof.
  induction f as [|f IH]; intros l r q L E; cbn [max_row_loop] in E; [discriminate|].
  destruct (Z.ltb_spec l r).
  - assert (l <= (l + r) / 2 < r)%Z by (split; [apply Z.div_le_lower_bound|apply Z.div_lt_upper_bound]; lia).
    apply bindX in E. destruct E as [a [_ E]]. apply bindX in E. destruct E as [b [_ E]].
    destruct (qlt (fabs b) (fabs a)).
    + apply IH in E; lia.
    + apply IH in E; lia.
  - injection E as <-. lia.
Qed.

Section N.
Variable n : Z.
Hypothesis Hn : (0 < n)%Z.

Definition lin (m : mat) (r : Z) (x : Z -> Qc) : Qc :=
  sumn (Z.to_nat n) (fun c => atM 0 m r (Z.of_nat c) * x (Z.of_nat c)).
Definition sol (m : mat) (v : list Qc) (x : Z -> Qc) : Prop := forall r, (0 <= r < n)%Z -> lin m r x = atZ 0 v r.

Lemma lin_ext m m' r r' x : (forall c, (0 <= c < n)%Z -> atM 0 m r c = atM 0 m' r' c) -> lin m r x = lin m' r' x.
Proof. intro H. unfold lin. apply sumn_ext. intros c Hc. rewrite H; auto. lia. Qed.

Lemma swap_ok i r m v m' v' : (0 <= i < n)%Z -> (0 <= r < n)%Z -> i <> r -> shapeM n n m -> lenZ v = n ->
  swap_rows n i r (m, v) = Ok (m', v') ->
  shapeM n n m' /\ lenZ v' = n /\
  (forall c, (0 <= c < n)%Z -> atM 0 m' i c = atM 0 m r c /\ atM 0 m' r c = atM 0 m i c /\
     forall q, (0 <= q < n)%Z -> q <> i -> q <> r -> atM 0 m' q c = atM 0 m q c) /\
  atZ 0 v' i = atZ 0 v r /\ atZ 0 v' r = atZ 0 v i /\
  (forall q, (0 <= q < n)%Z -> q <> i -> q <> r -> atZ 0 v' q = atZ 0 v q).
Proof.
  intros Hi Hr Hne Sm Lv E. unfold swap_rows in E.
  apply bindX in E. destruct E as [m1 [E1 E]].
  rewrite (rdZ_ok 0) in E by lia. cbn [bind] in E. rewrite (rdZ_ok 0) in E by lia. cbn [bind] in E.
  rewrite wrZ_ok in E by lia. cbn [bind] in E. rewrite wrZ_ok in E by (rewrite lenZ_upd; lia). cbn [bind] in E.
  injection E as <- <-.
  pose proof (forZ_ok (fun h M => shapeM n n M /\
     (forall c, (0 <= c < h)%Z -> atM 0 M i c = atM 0 m r c /\ atM 0 M r c = atM 0 m i c) /\
     (forall c, (h <= c < n)%Z -> atM 0 M i c = atM 0 m i c /\ atM 0 M r c = atM 0 m r c) /\
     (forall c q, (0 <= c < n)%Z -> (0 <= q < n)%Z -> q <> i -> q <> r -> atM 0 M q c = atM 0 m q c)) _ 0 n _ _ E1) as X.
  cbv beta in X. destruct X as [A [B [_ C]]]; [lia| | |].
  - split; auto. split; [intros; lia|]. split; auto.
  - intros h M M' Hh [A [B [C D]]] Eb.
    rewrite (rdM_ok 0 M n n) in Eb by (auto; lia). cbn [bind] in Eb.
    rewrite (rdM_ok 0 M n n) in Eb by (auto; lia). cbn [bind] in Eb.
    rewrite (wrM_ok M n n) in Eb by (auto; lia). cbn [bind] in Eb.
    assert (S1 : shapeM n n (updM M i h (atM 0 M r h))) by (apply shapeM_updM; auto; lia).
    rewrite (wrM_ok _ n n) in Eb by (auto; lia). injection Eb as <-.
    destruct (C h) as [C1 C2]; [lia|].
    split; [apply shapeM_updM; auto; lia|]. split; [|split].
    + intros c Hc. destruct (Z.eq_dec c h) as [->|].
      * rewrite (atM_updM_neq 0 _ n n) by (auto; lia). rewrite (atM_updM_eq 0 _ n n) by (auto; lia).
        rewrite (atM_updM_eq 0 _ n n) by (auto; lia). auto.
      * rewrite !(atM_updM_neq 0 _ n n) by (auto; lia). apply B. lia.
    + intros c Hc. rewrite !(atM_updM_neq 0 _ n n) by (auto; lia). apply C. lia.
    + intros c q Hc Hq N1 N2. rewrite !(atM_updM_neq 0 _ n n) by (auto; lia). apply D; auto.
  - split; auto. split; [now rewrite !lenZ_upd|]. split; [|split; [|split]].
    + intros c Hc. destruct (B c Hc) as [B1 B2]. auto.
    + rewrite atZ_upd_neq by lia. apply atZ_upd_eq. lia.
    + apply atZ_upd_eq. rewrite lenZ_upd. lia.
    + intros q Hq N1 N2. rewrite !atZ_upd_neq by lia. auto.
Qed.

(* columns < i are cleared below the diagonal *)
Definition lower0 (i : Z) (m : mat) : Prop :=
  forall c q, (0 <= c < i)%Z -> (c < q < n)%Z -> atM 0 m q c = 0.

Lemma elim_row_ok i j m v m' v' : (0 <= i < j)%Z -> (j < n)%Z -> shapeM n n m -> lenZ v = n ->
  elim_row n i j (m, v) = Ok (m', v') ->
  exists f, atM 0 m i i <> 0 /\ f = atM 0 m j i / atM 0 m i i /\
  shapeM n n m' /\ lenZ v' = n /\
  (forall c, (i <= c < n)%Z -> atM 0 m' j c = atM 0 m j c - f * atM 0 m i c) /\
  (forall c, (0 <= c < i)%Z -> atM 0 m' j c = atM 0 m j c) /\
  (forall c q, (0 <= c < n)%Z -> (0 <= q < n)%Z -> q <> j -> atM 0 m' q c = atM 0 m q c) /\
  atZ 0 v' j = atZ 0 v j - f * atZ 0 v i /\
  (forall q, (0 <= q < n)%Z -> q <> j -> atZ 0 v' q = atZ 0 v q).
Proof.
  intros Hi Hj Sm Lv E. unfold elim_row in E.
  rewrite (rdM_ok 0 m n n) in E by (auto; lia). cbn [bind] in E.
  rewrite (rdM_ok 0 m n n) in E by (auto; lia). cbn [bind] in E.
  apply bindX in E. destruct E as [f [Ef E]]. apply divR_inv in Ef. destruct Ef as [Nz Ef].
  apply bindX in E. destruct E as [m1 [E1 E]].
  rewrite (rdZ_ok 0) in E by lia. cbn [bind] in E. rewrite (rdZ_ok 0) in E by lia. cbn [bind] in E.
  rewrite wrZ_ok in E by lia. cbn [bind] in E. injection E as <- <-.
  exists f. split; auto. split; auto.
  pose proof (forZ_ok (fun k M => shapeM n n M /\
     (forall c, (i <= c < k)%Z -> atM 0 M j c = atM 0 m j c - f * atM 0 m i c) /\
     (forall c, (0 <= c < i)%Z \/ (k <= c < n)%Z -> atM 0 M j c = atM 0 m j c) /\
     (forall c q, (0 <= c < n)%Z -> (0 <= q < n)%Z -> q <> j -> atM 0 M q c = atM 0 m q c)) _ i n _ _ E1) as X.
  cbv beta in X. destruct X as [A [B [C D]]]; [lia| | |].
  - split; auto. split; [intros; lia|]. split; auto.
  - intros k M M' Hk [A [B [C D]]] Eb.
    rewrite (rdM_ok 0 M n n) in Eb by (auto; lia). cbn [bind] in Eb.
    rewrite (rdM_ok 0 M n n) in Eb by (auto; lia). cbn [bind] in Eb.
    rewrite (wrM_ok M n n) in Eb by (auto; lia). injection Eb as <-.
    split; [apply shapeM_updM; auto; lia|]. split; [|split].
    + intros c Hc. destruct (Z.eq_dec c k) as [->|].
      * rewrite (atM_updM_eq 0 _ n n) by (auto; lia). rewrite C by lia. rewrite D by lia. auto.
      * rewrite (atM_updM_neq 0 _ n n) by (auto; lia). apply B. lia.
    + intros c Hc. rewrite (atM_updM_neq 0 _ n n) by (auto; lia). apply C. lia.
    + intros c q Hc Hq N1. rewrite (atM_updM_neq 0 _ n n) by (auto; lia). apply D; auto.
  - split; auto. split; [now rewrite lenZ_upd|]. split; [|split; [|split; [|split]]]; auto.
    + apply atZ_upd_eq. lia.
    + intros q Hq N1. apply atZ_upd_neq; lia.
Qed.

Definition einv (m0 : mat) (v0 : list Qc) (i : Z) (st : mat * list Qc) : Prop :=
  shapeM n n (fst st) /\ lenZ (snd st) = n /\ lower0 i (fst st) /\
  forall x, sol (fst st) (snd st) x <-> sol m0 v0 x.

Lemma elim_rows_ok i m v m' v' : (0 <= i < n)%Z -> shapeM n n m -> lenZ v = n -> lower0 i m ->
  forZ (i + 1) n (m, v) (elim_row n i) = Ok (m', v') ->
  shapeM n n m' /\ lenZ v' = n /\ lower0 (i + 1) m' /\ (forall x, sol m' v' x <-> sol m v x).
Proof.
  intros Hi Sm Lv L0 E.
  pose proof (forZ_ok (fun j (st : mat * list Qc) => shapeM n n (fst st) /\ lenZ (snd st) = n /\ lower0 i (fst st) /\
     (forall q, (i < q < j)%Z -> atM 0 (fst st) q i = 0) /\
     forall x, sol (fst st) (snd st) x <-> sol m v x) _ (i + 1) n _ _ E) as X. cbv beta in X.
  destruct X as [A [B [C [D F]]]]; cbn [fst snd] in *; [lia| | |].
  - split; auto. split; auto. split; auto. split; [intros; lia|]. reflexivity.
  - intros j [M w] [M' w'] Hj [A [B [C [D F]]]] Eb. cbn [fst snd] in *.
    destruct (elim_row_ok i j M w M' w') as [f [Nz [Ef [A' [B' [R1 [R2 [R3 [R4 R5]]]]]]]]]; auto; [lia|lia|].
    split; auto. split; auto.
    split. { intros c q Hc Hq. destruct (Z.eq_dec q j) as [->|]; [rewrite R2 by lia|rewrite R3 by lia]; apply C; lia. }
    split. { intros q Hq. destruct (Z.eq_dec q j) as [->|].
      - rewrite R1 by lia. rewrite Ef. field. auto.
      - rewrite R3 by lia. apply D. lia. }
    assert (K : forall x, lin M' j x = lin M j x - f * lin M i x).
    { intro x. unfold lin. rewrite <- sumn_scale, <- sumn_sub. apply sumn_ext. intros c Hc.
      destruct (Z_lt_dec (Z.of_nat c) i).
      - rewrite R2 by lia. rewrite (C (Z.of_nat c) i) by lia. ring.
      - rewrite R1 by lia. ring. }
    assert (K2 : forall q x, (0 <= q < n)%Z -> q <> j -> lin M' q x = lin M q x).
    { intros q x Hq N1. apply lin_ext. intros c Hc. apply R3; auto. }
    intro x. rewrite <- F. split; intros H q Hq.
    + destruct (Z.eq_dec q j) as [->|].
      * pose proof (H j Hq) as H1. rewrite K, R4 in H1. pose proof (H i) as H2.
        rewrite K2, R5 in H2 by lia. rewrite H2 in H1 by lia. 
        replace (lin M j x) with (lin M j x - f * atZ 0 w i + f * atZ 0 w i) by ring. rewrite H1. ring.
      * rewrite <- (K2 q x), <- (R5 q) by auto. auto.
    + destruct (Z.eq_dec q j) as [->|].
      * rewrite K, R4, (H j), (H i) by lia. auto.
      * rewrite K2, R5 by auto. auto.
  - split; auto. split; auto. split; auto. intros c q Hc Hq.
    destruct (Z.eq_dec c i) as [->|]; [apply D; lia|apply C; lia].
Qed.

Lemma elim_col_ok m0 v0 i st st' : (0 <= i < n)%Z -> einv m0 v0 i st -> elim_col n i st = Ok st' -> einv m0 v0 (i + 1) st'.
Proof.
  intros Hi [Sm [Lv [L0 Eq]]] E. unfold elim_col in E. destruct st as [m v], st' as [m' v']. cbn [fst snd] in *.
  apply bindX in E. destruct E as [r [Er E]]. apply max_row_bound in Er; [|lia].
  apply bindX in E. destruct E as [[m1 v1] [E1 E]].
  assert (H1 : shapeM n n m1 /\ lenZ v1 = n /\ lower0 i m1 /\ forall x, sol m1 v1 x <-> sol m v x).
  { destruct (Z.eqb_spec i r) as [->|N].
    - injection E1 as <- <-. split; auto. split; auto. split; auto. reflexivity.
    - destruct (swap_ok i r m v m1 v1) as [A [B [R [V1 [V2 V3]]]]]; auto; [lia|].
      split; auto. split; auto. split.
      + intros c q Hc Hq. destruct (R c) as [R1 [R2 R3]]; [lia|].
        destruct (Z.eq_dec q i) as [->|]; [rewrite R1; apply L0; lia|].
        destruct (Z.eq_dec q r) as [->|]; [rewrite R2; apply L0; lia|]. rewrite R3 by lia. apply L0; lia.
      + intro x.
        assert (K1 : lin m1 i x = lin m r x) by (apply lin_ext; intros c Hc; apply R; auto).
        assert (K2 : lin m1 r x = lin m i x) by (apply lin_ext; intros c Hc; apply R; auto).
        assert (K3 : forall q, (0 <= q < n)%Z -> q <> i -> q <> r -> lin m1 q x = lin m q x)
          by (intros q Hq N1 N2; apply lin_ext; intros c Hc; apply R; auto).
        split; intros H q Hq.
        * destruct (Z.eq_dec q i) as [->|]; [rewrite <- K2, <- V2; apply H; lia|].
          destruct (Z.eq_dec q r) as [->|]; [rewrite <- K1, <- V1; apply H; lia|].
          rewrite <- K3, <- V3 by auto. auto.
        * destruct (Z.eq_dec q i) as [->|]; [rewrite K1, V1; apply H; lia|].
          destruct (Z.eq_dec q r) as [->|]; [rewrite K2, V2; apply H; lia|].
          rewrite K3, V3 by auto. auto. }
  destruct H1 as [A [B [C D]]].
  destruct (elim_rows_ok i m1 v1 m' v') as [A' [B' [C' D']]]; auto.
  split; cbn [fst snd]; auto. split; auto. split; auto. intro x. rewrite D', D. auto.
Qed.

(* the part of row r right of column k *)
Definition linr (m : mat) (r k : Z) (x : Z -> Qc) : Qc :=
  sumn (Z.to_nat n) (fun c => if (k <=? Z.of_nat c)%Z then atM 0 m r (Z.of_nat c) * x (Z.of_nat c) else 0).

Lemma linr_step m r k x : (0 <= k < n)%Z -> linr m r k x = linr m r (k + 1) x + atM 0 m r k * x k.
Proof.
  intro Hk. unfold linr.
  rewrite (sumn_ext _ _ (fun c => (if (k + 1 <=? Z.of_nat c)%Z then atM 0 m r (Z.of_nat c) * x (Z.of_nat c) else 0) +
    (if (Z.of_nat c =? k)%Z then atM 0 m r (Z.of_nat c) * x (Z.of_nat c) else 0))).
  - rewrite sumn_add. f_equal. rewrite (sumn_one _ (Z.to_nat k)).
    + rewrite Z2Nat.id by lia. rewrite Z.eqb_refl. auto.
    + lia.
    + intros i Hi N. destruct (Z.eqb_spec (Z.of_nat i) k); auto. lia.
  - intros c Hc. destruct (Z.leb_spec k (Z.of_nat c)), (Z.leb_spec (k + 1) (Z.of_nat c)), (Z.eqb_spec (Z.of_nat c) k); try lia; ring.
Qed.
Lemma linr_none m r x : linr m r n x = 0.
Proof. unfold linr. apply sumn_zero. intros c Hc. destruct (Z.leb_spec n (Z.of_nat c)); auto. lia. Qed.
Lemma linr_all m r x : lower0 n m -> (0 <= r < n)%Z -> linr m r r x = lin m r x.
Proof.
  intros L Hr. unfold linr, lin. apply sumn_ext. intros c Hc. destruct (Z.leb_spec r (Z.of_nat c)); auto.
  rewrite L by lia. ring.
Qed.
Lemma linr_ext m r k x y : (forall c, (k <= c < n)%Z -> (0 <= c)%Z -> x c = y c) -> linr m r k x = linr m r k y.
Proof.
  intro H. unfold linr. apply sumn_ext. intros c Hc. destruct (Z.leb_spec k (Z.of_nat c)); auto. rewrite H; auto; lia.
Qed.

Lemma back_ok m v x0 w x : shapeM n n m -> lenZ v = n -> lenZ x0 = n -> lower0 n m ->
  forZ 0 n (v, x0) (back_row n m) = Ok (w, x) ->
  lenZ x = n /\ sol m v (atZ 0 x) /\ (forall y, sol m v y -> forall c, (0 <= c < n)%Z -> y c = atZ 0 x c).
Proof.
  intros Sm Lv Lx L0 E.
  pose proof (forZ_ok (fun i (st : list Qc * list Qc) => let '(u, z) := st in
     lenZ u = n /\ lenZ z = n /\
     (forall r, (0 <= r < n - i)%Z -> atZ 0 u r = atZ 0 v r - linr m r (n - i) (atZ 0 z)) /\
     (forall r, (n - i <= r < n)%Z -> linr m r r (atZ 0 z) = atZ 0 v r) /\
     (forall y, sol m v y -> forall c, (n - i <= c < n)%Z -> y c = atZ 0 z c)) _ 0 n _ _ E) as X. cbv beta iota in X.
  destruct X as [A [B [C [D F]]]]; [lia| | |].
  - split; auto. split; auto. split; [|split].
    + intros r Hr. rewrite Z.sub_0_r, linr_none. ring.
    + intros r Hr. lia.
    + intros y _ c Hc. lia.
  - intros i [u z] [u' z'] Hi [A [B [C [D F]]]] Eb. unfold back_row in Eb.
    set (k := (n - 1 - i)%Z) in *. assert (Hk : (0 <= k < n)%Z) by lia.
    rewrite (rdZ_ok 0) in Eb by lia. cbn [bind] in Eb. rewrite (rdM_ok 0 m n n) in Eb by (auto; lia). cbn [bind] in Eb.
    apply bindX in Eb. destruct Eb as [q [Eq Eb]]. apply divR_inv in Eq. destruct Eq as [Nz Eq].
    rewrite wrZ_ok in Eb by lia. cbn [bind] in Eb.
    apply bindX in Eb. destruct Eb as [u1 [E1 Eb]]. injection Eb as <- <-.
    assert (Zk : atZ 0 (upd z (Z.to_nat k) q) k = q) by (apply atZ_upd_eq; lia).
    assert (Zo : forall c, (0 <= c)%Z -> c <> k -> atZ 0 (upd z (Z.to_nat k) q) c = atZ 0 z c) by (intros; apply atZ_upd_neq; lia).
    pose proof (forZ_ok (fun j U => lenZ U = n /\
       (forall r, (0 <= r < j)%Z -> atZ 0 U r = atZ 0 u r - atM 0 m r k * q) /\
       (forall r, (j <= r < n)%Z -> atZ 0 U r = atZ 0 u r)) _ 0 k _ _ E1) as X. cbv beta in X.
    destruct X as [A1 [B1 C1]]; [lia| | |].
    { split; auto. split; [intros; lia|]. auto. }
    { intros j U U' Hj [A1 [B1 C1]] Ej.
      rewrite (rdZ_ok 0) in Ej by lia. cbn [bind] in Ej. rewrite (rdM_ok 0 m n n) in Ej by (auto; lia). cbn [bind] in Ej.
      rewrite (rdZ_ok 0) in Ej by (rewrite lenZ_upd; lia). cbn [bind] in Ej. rewrite wrZ_ok in Ej by lia. injection Ej as <-.
      split; [now rewrite lenZ_upd|]. split.
      - intros r Hr. destruct (Z.eq_dec r j) as [->|].
        + rewrite atZ_upd_eq by lia. rewrite C1 by lia. rewrite Zk. auto.
        + rewrite atZ_upd_neq by lia. apply B1. lia.
      - intros r Hr. rewrite atZ_upd_neq by lia. apply C1. lia. }
    replace (n - (i + 1))%Z with k by lia. replace (n - i)%Z with (k + 1)%Z in * by lia.
    assert (Le : forall r, linr m r (k + 1) (atZ 0 (upd z (Z.to_nat k) q)) = linr m r (k + 1) (atZ 0 z))
      by (intro r; apply linr_ext; intros c Hc Hc0; apply Zo; lia).
    split; auto. split; [now rewrite lenZ_upd|]. split; [|split].
    + intros r Hr. rewrite B1 by lia. rewrite C by lia. rewrite (linr_step m r k) by lia. rewrite Le, Zk. ring.
    + intros r Hr. destruct (Z.eq_dec r k) as [->|].
      * rewrite linr_step by lia. rewrite Le, Zk. rewrite Eq, C by lia. field. auto.
      * rewrite <- D by lia. apply linr_ext. intros c Hc Hc0. apply Zo; lia.
    + intros y Hy c Hc. destruct (Z.eq_dec c k) as [->|].
      * rewrite Zk. pose proof (Hy k Hk) as Hy'. rewrite <- linr_all in Hy' by auto. rewrite linr_step in Hy' by lia.
        rewrite (linr_ext m k (k + 1) y (atZ 0 z)) in Hy' by (intros c Hc' _; apply F; auto; lia).
        rewrite Eq, C by lia. rewrite <- Hy'. field. auto.
      * rewrite Zo by lia. apply F; auto. lia.
  - split; auto. split.
    + intros r Hr. rewrite <- linr_all by auto. apply D. lia.
    + intros y Hy c Hc. apply F; auto. lia.
Qed.

Lemma solve_ok m v x0 x : shapeM n n m -> lenZ v = n -> lenZ x0 = n -> solve_system n m v x0 = Ok x ->
  lenZ x = n /\ sol m v (atZ 0 x) /\ (forall y, sol m v y -> forall c, (0 <= c < n)%Z -> y c = atZ 0 x c).
Proof.
  intros Sm Lv Lx E. unfold solve_system in E.
  apply bindX in E. destruct E as [[m1 v1] [E1 E]]. apply bindX in E. destruct E as [[w x'] [E2 E]]. injection E as <-.
  pose proof (forZ_ok (einv m v) _ 0 n _ _ E1) as X. cbv beta in X.
  destruct X as [A [B [C D]]]; cbn [fst snd] in *; [lia| | |].
  - split; cbn [fst snd]; auto. split; auto. split; [intros c q Hc; lia|]. reflexivity.
  - intros i st st' Hi I Eb. apply (elim_col_ok m v i st st'); auto.
  - destruct (back_ok m1 v1 x0 w x') as [P [Q R]]; auto. split; auto. split; [apply D; auto|].
    intros y Hy. apply R. apply D. auto.
Qed.
End N.
