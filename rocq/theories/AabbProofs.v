(* Boxes: lemmas. *)
From Coq Require Import List ZArith Bool QArith Qcanon Lia.
From Verif Require Import Common ListLib QcLib ArrZ AabbModel AabbSpec.
Import ListNotations.
Local Open Scope Z_scope.
Local Open Scope Qc_scope.

Lemma fmin_spec a b : fmin a b <= a /\ fmin a b <= b /\ (fmin a b = a \/ fmin a b = b).
Proof. unfold fmin. destruct (qlt b a) eqn:E; [apply qlt_true in E|apply qlt_false in E]; repeat split; auto; qlra. Qed.
Lemma fmax_spec a b : a <= fmax a b /\ b <= fmax a b /\ (fmax a b = a \/ fmax a b = b).
Proof. unfold fmax. destruct (qlt a b) eqn:E; [apply qlt_true in E|apply qlt_false in E]; repeat split; auto; qlra. Qed.

(* ---- bounding box of points ---- *)
Section Caabb.
Variable K : nat.
Let KZ := Z.of_nat K.
Variable points : list (list Qc).
Hypothesis Sh : shape K points.

Definition cell (j i : Z) : Qc := atZ 0 (atZ [] points j) i.

Lemma row_len j : (0 <= j < lenZ points)%Z -> lenZ (atZ [] points j) = KZ.
Proof.
  intros H. unfold shape in Sh. rewrite Forall_forall in Sh. unfold lenZ, KZ. f_equal. apply Sh.
  unfold atZ. apply nth_In. unfold lenZ in H. lia.
Qed.
Lemma rd2_ok j i : (0 <= j < lenZ points)%Z -> (0 <= i < KZ)%Z -> rd2 points j i = Ok (cell j i).
Proof.
  intros Hj Hi. unfold rd2. rewrite (rdZ_ok []) by auto. cbn [bind]. rewrite (rdZ_ok 0). auto. rewrite row_len; auto.
Qed.

(* m.1 and m.2 are the least and greatest of rows 0..j-1 in column i *)
Definition col_ok (j i : Z) (mm : list Qc * list Qc) : Prop :=
  let a := atZ 0 (fst mm) i in let b := atZ 0 (snd mm) i in
  (exists r, (0 <= r < j)%Z /\ a = cell r i) /\ (exists r, (0 <= r < j)%Z /\ b = cell r i) /\
  (forall r, (0 <= r < j)%Z -> a <= cell r i /\ cell r i <= b).

Lemma caabb_spec mm : (1 <= lenZ points)%Z -> (KZ <= lenZ (fst mm))%Z -> (KZ <= lenZ (snd mm))%Z ->
  exists mm', caabb KZ points mm = Ok mm' /\
    lenZ (fst mm') = lenZ (fst mm) /\ lenZ (snd mm') = lenZ (snd mm) /\
    (forall i, (0 <= i < KZ)%Z -> col_ok (lenZ points) i mm') /\
    (forall i, (KZ <= i)%Z -> atZ 0 (fst mm') i = atZ 0 (fst mm) i /\ atZ 0 (snd mm') i = atZ 0 (snd mm) i).
Proof.
  intros HN H0 H1. assert (HK : (0 <= KZ)%Z) by (unfold KZ; lia). unfold caabb.
  set (keep := fun st : list Qc * list Qc =>
    lenZ (fst st) = lenZ (fst mm) /\ lenZ (snd st) = lenZ (snd mm) /\
    (forall i, (KZ <= i)%Z -> atZ 0 (fst st) i = atZ 0 (fst mm) i /\ atZ 0 (snd st) i = atZ 0 (snd mm) i)).
  match goal with |- context [forZ 0 KZ mm ?b] => set (body0 := b) end.
  destruct (forZ_inv (fun i st => keep st /\ forall c, (0 <= c < i)%Z -> col_ok 1 c st) body0 0 KZ mm HK) as [m1 [E1 [K1 C1]]].
  { split; [|intros; lia]. unfold keep. auto. }
  { intros i st Hi [Kp C]. unfold body0. rewrite rd2_ok by lia. cbn [bind]. destruct Kp as [L1 [L2 Far]].
    rewrite wrZ_ok by lia. cbn [bind]. rewrite wrZ_ok by lia. cbn [bind]. eexists. split; [reflexivity|].
    split.
    - split; [|split]; cbn [fst snd]; rewrite ?lenZ_upd; auto.
      intros c Hc. rewrite !atZ_upd_neq by lia. apply Far; auto.
    - intros c Hc. destruct (Z.eq_dec c i) as [->|Nc].
      + unfold col_ok. cbn [fst snd]. rewrite !atZ_upd_eq by lia. split; [exists 0%Z; split; [lia|auto]|].
        split; [exists 0%Z; split; [lia|auto]|]. intros r Hr. assert (r = 0%Z) by lia. subst. split; apply Qcle_refl.
      + specialize (C c ltac:(lia)). unfold col_ok in *. cbn [fst snd]. rewrite !atZ_upd_neq by lia. auto. }
  rewrite E1. cbn [bind].
  match goal with |- context [forZ 1 (lenZ points) m1 ?b] => set (body1 := b) end.
  destruct (forZ_inv (fun j st => keep st /\ forall c, (0 <= c < KZ)%Z -> col_ok j c st) body1 1 (lenZ points) m1 HN) as [m2 [E2 [K2 C2]]].
  { split; auto. }
  { intros j st Hj [Kp C]. unfold body1.
    match goal with |- context [forZ 0 KZ st ?b] => set (body2 := b) end.
    destruct (forZ_inv (fun i s => keep s /\ (forall c, (0 <= c < i)%Z -> col_ok (j + 1) c s) /\
                                   (forall c, (i <= c < KZ)%Z -> col_ok j c s)) body2 0 KZ st HK) as [s' [E [Kp' [A B]]]].
    { split; auto. split; [intros; lia|]. auto. }
    { intros i s Hi [Kq [A B]]. unfold body2. rewrite rd2_ok by lia. cbn [bind].
      destruct Kq as [L1 [L2 Far]]. rewrite (rdZ_ok 0) by lia. cbn [bind].
      pose proof (B i ltac:(lia)) as [[r1 [R1 Q1]] [[r2 [R2 Q2]] R3]].
      set (a := atZ 0 (fst s) i) in *. set (b := atZ 0 (snd s) i) in *.
      set (mn := if qlt (cell j i) a then upd (fst s) (Z.to_nat i) (cell j i) else fst s).
      set (mx := if qlt b (cell j i) then upd (snd s) (Z.to_nat i) (cell j i) else snd s).
      assert (W1 : (if qlt (cell j i) a then wrZ (fst s) i (cell j i) else Ok (fst s)) = Ok mn).
      { unfold mn. destruct (qlt (cell j i) a); auto. rewrite wrZ_ok by lia. auto. }
      rewrite W1. cbn [bind]. rewrite (rdZ_ok 0) by lia. cbn [bind]. fold b.
      assert (W2 : (if qlt b (cell j i) then wrZ (snd s) i (cell j i) else Ok (snd s)) = Ok mx).
      { unfold mx. destruct (qlt b (cell j i)); auto. rewrite wrZ_ok by lia. auto. }
      rewrite W2. cbn [bind]. exists (mn, mx). split; auto.
      assert (Lm : lenZ mn = lenZ (fst s) /\ lenZ mx = lenZ (snd s)).
      { unfold mn, mx. split; [destruct (qlt (cell j i) a)|destruct (qlt b (cell j i))]; rewrite ?lenZ_upd; auto. }
      assert (Ne : forall c, (0 <= c)%Z -> c <> i -> atZ 0 mn c = atZ 0 (fst s) c /\ atZ 0 mx c = atZ 0 (snd s) c).
      { intros c Hc Nc. unfold mn, mx. split; [destruct (qlt (cell j i) a)|destruct (qlt b (cell j i))]; rewrite ?atZ_upd_neq by lia; auto. }
      assert (Ea : atZ 0 mn i = fmin a (cell j i)).
      { unfold mn, fmin. destruct (qlt (cell j i) a); auto. rewrite atZ_upd_eq by lia. auto. }
      assert (Eb : atZ 0 mx i = fmax b (cell j i)).
      { unfold mx, fmax. destruct (qlt b (cell j i)); auto. rewrite atZ_upd_eq by lia. auto. }
      split; [|split].
      - split; [|split]; cbn [fst snd]; try (destruct Lm; congruence).
        intros c Hc. destruct (Ne c) as [-> ->]; try lia. apply Far; auto.
      - intros c Hc. destruct (Z.eq_dec c i) as [->|Nc].
        + unfold col_ok. cbn [fst snd]. rewrite Ea, Eb.
          destruct (fmin_spec a (cell j i)) as [F1 [F2 F3]]. destruct (fmax_spec b (cell j i)) as [G1 [G2 G3]].
          split; [destruct F3 as [->| ->]; [exists r1|exists j]; split; auto; lia|].
          split; [destruct G3 as [->| ->]; [exists r2|exists j]; split; auto; lia|].
          intros r Hr. destruct (Z.eq_dec r j) as [->|Nr]; auto. destruct (R3 r) as [X Y]; [lia|].
          split; [apply (Qcle_trans _ a)|apply (Qcle_trans _ b)]; auto.
        + pose proof (A c ltac:(lia)) as X. unfold col_ok in *. cbn [fst snd]. destruct (Ne c) as [-> ->]; try lia. auto.
      - intros c Hc. pose proof (B c ltac:(lia)) as X. unfold col_ok in *. cbn [fst snd]. destruct (Ne c) as [-> ->]; try lia. auto. }
    exists s'. split; auto. }
  exists m2. split; auto. destruct K2 as [L1 [L2 Far]]. auto.
Qed.
End Caabb.

(* a row seen through its coordinates *)
Lemma in_box_iff : forall p lo hi, in_box p lo hi <->
  length p = length lo /\ length hi = length lo /\ forall i, (0 <= i < lenZ lo)%Z -> atZ 0 lo i <= atZ 0 p i /\ atZ 0 p i <= atZ 0 hi i.
Proof.
  unfold lenZ, atZ. induction p as [|x p IH]; intros lo hi; split.
  - intro H. inversion H; subst. repeat split; auto; intros; cbn in *; lia.
  - intros [A [B _]]. destruct lo; [|discriminate]. destruct hi; [|discriminate]. constructor.
  - intro H. inversion H; subst. apply IH in H6. destruct H6 as [A [B C]]. cbn [length]. split; [lia|]. split; [lia|].
    intros i Hi. destruct (Z.eq_dec i 0) as [->|N]; [cbn; auto|].
    replace (Z.to_nat i) with (Datatypes.S (Z.to_nat (i - 1))) by lia. cbn [nth]. apply C. lia.
  - intros [A [B C]]. destruct lo as [|l lo]; [discriminate|]. destruct hi as [|h hi]; [discriminate|]. cbn [length] in *.
    destruct (C 0%Z) as [X Y]; [lia|]. cbn in X, Y. constructor; auto. apply IH. split; [lia|]. split; [lia|].
    intros i Hi. specialize (C (i + 1)%Z ltac:(lia)). replace (Z.to_nat (i + 1)) with (Datatypes.S (Z.to_nat i)) in C by lia. exact C.
Qed.

Lemma firstn_at (l : list Qc) k i : (0 <= i < Z.of_nat k)%Z -> atZ 0 (firstn k l) i = atZ 0 l i.
Proof.
  unfold atZ. intros H. assert (L : (Z.to_nat i < k)%nat) by lia. revert L. generalize (Z.to_nat i). clear.
  revert l. induction k as [|k IH]; intros l n L; [lia|]. destruct l as [|x l]; [destruct n; auto|].
  destruct n; auto. cbn [firstn nth]. apply IH. lia.
Qed.

Lemma nth_skipn {A} (d : A) : forall k l n, nth n (skipn k l) d = nth (k + n) l d.
Proof. induction k; intros l n; auto. destruct l; cbn; auto. destruct n; auto. Qed.

Lemma aabb_tight K points out lo hi : shape K points -> points <> [] -> out = (lo, hi) -> (K <= length lo)%nat -> (K <= length hi)%nat ->
  exists lo' hi', aabb (Z.of_nat K) points (Some out) = Ok (lo', hi') /\
    (forall p, In p points -> in_box p (firstn K lo') (firstn K hi')) /\
    (forall l h, (forall p, In p points -> in_box p l h) ->
       forall q, in_box q (firstn K lo') (firstn K hi') -> in_box q l h) /\
    length lo' = length lo /\ length hi' = length hi /\
    skipn K lo' = skipn K lo /\ skipn K hi' = skipn K hi.
Proof.
  intros Sh NE -> L1 L2. unfold aabb.
  assert (HN : (1 <= lenZ points)%Z) by (unfold lenZ; destruct points; [congruence|cbn [length]; lia]).
  destruct (caabb_spec K points Sh (lo, hi) HN) as [[lo' hi'] [E [A [B [C D]]]]].
  { unfold lenZ; cbn [fst]; lia. } { unfold lenZ; cbn [snd]; lia. }
  cbn [fst snd] in *. exists lo', hi'. split; auto.
  assert (Ll : length lo' = length lo) by (unfold lenZ in *; lia).
  assert (Lh : length hi' = length hi) by (unfold lenZ in *; lia).
  assert (F1 : length (firstn K lo') = K) by (rewrite firstn_length; lia).
  assert (F2 : length (firstn K hi') = K) by (rewrite firstn_length; lia).
  unfold shape in Sh. rewrite Forall_forall in Sh.
  split; [|split; [|split; [auto|split; [auto|split]]]].
  - intros p Hp. apply in_box_iff. split; [rewrite F1; apply Sh; auto|]. split; [congruence|].
    intros i Hi. unfold lenZ in Hi. rewrite F1 in Hi. rewrite !firstn_at by lia.
    destruct (C i Hi) as [_ [_ X]]. apply (In_nth _ _ []) in Hp. destruct Hp as [n [Hn En]].
    specialize (X (Z.of_nat n)). replace (cell points (Z.of_nat n) i) with (atZ 0 p i) in X by (unfold cell; f_equal; unfold atZ; rewrite Nat2Z.id; auto). apply X. unfold lenZ. lia.
  - intros l h H q Hq. apply in_box_iff in Hq. destruct Hq as [Q1 [_ Q2]].
    assert (Row : forall r, (0 <= r < lenZ points)%Z -> in_box (atZ [] points r) l h).
    { intros r Hr. apply H. unfold atZ. apply nth_In. unfold lenZ in Hr. lia. }
    assert (LK : length l = K /\ length h = K).
    { pose proof (Row 0%Z ltac:(lia)) as R0. apply in_box_iff in R0. destruct R0 as [X [Y _]].
      assert (LR : length (atZ [] points 0) = K) by (apply Sh; unfold atZ; apply nth_In; unfold lenZ in HN; lia).
      split; congruence. }
    destruct LK as [LK1 LK2]. apply in_box_iff. split; [congruence|]. split; [congruence|].
    intros i Hi. unfold lenZ in Hi. rewrite LK1 in Hi. specialize (Q2 i). unfold lenZ in Q2. rewrite F1 in Q2. specialize (Q2 Hi).
    rewrite !firstn_at in Q2 by lia. destruct (C i Hi) as [[r1 [R1 E1]] [[r2 [R2 E2]] _]]. cbn [fst snd] in *.
    pose proof (Row r1 R1) as B1. pose proof (Row r2 R2) as B2. apply in_box_iff in B1, B2.
    destruct B1 as [_ [_ B1]]. destruct B2 as [_ [_ B2]]. specialize (B1 i). specialize (B2 i). unfold lenZ in B1, B2. rewrite LK1 in B1, B2.
    destruct (B1 Hi) as [B1a _]. destruct (B2 Hi) as [_ B2b]. unfold cell in E1, E2. rewrite <- E1 in B1a. rewrite <- E2 in B2b.
    destruct Q2. split; eapply Qcle_trans; eauto.
  - apply (nth_ext _ _ 0 0); rewrite !skipn_length; [lia|]. intros n Hn. rewrite !nth_skipn.
    destruct (D (Z.of_nat (K + n))) as [X _]; [lia|]. unfold atZ in X. rewrite Nat2Z.id in X. auto.
  - apply (nth_ext _ _ 0 0); rewrite !skipn_length; [lia|]. intros n Hn. rewrite !nth_skipn.
    destruct (D (Z.of_nat (K + n))) as [_ X]; [lia|]. unfold atZ in X. rewrite Nat2Z.id in X. auto.
Qed.

Lemma aabb_empty K bb : (1 <= K)%Z -> aabb K [] bb = Err IndexError.
Proof.
  intro H. unfold aabb, caabb, forZ. destruct (Z.to_nat (K - 0)) eqn:E; [lia|]. cbn [for_n]. reflexivity.
Qed.

Lemma aabb_wide K points : shape K points -> points <> [] -> (3 < K)%nat -> aabb (Z.of_nat K) points None = Err IndexError.
Proof.
  intros Sh NE HK. unfold aabb, caabb. destruct points as [|row pts]; [congruence|].
  assert (LR : length row = K) by (inversion Sh; auto).
  unfold forZ. replace (Z.to_nat (Z.of_nat K - 0)) with (Datatypes.S (Datatypes.S (Datatypes.S (Datatypes.S (K - 4))))) by lia.
  destruct row as [|a [|b [|c [|d row]]]]; cbn [length] in LR; try lia. reflexivity.
Qed.

(* ---- overlap and intersection ---- *)
Lemma segm3d_tight s e : proper3 (aabb_segm3d s e) /\ in_box3 s (aabb_segm3d s e) /\ in_box3 e (aabb_segm3d s e) /\
  forall b, in_box3 s b -> in_box3 e b -> forall q, in_box3 q (aabb_segm3d s e) -> in_box3 q b.
Proof.
  unfold aabb_segm3d, proper3, in_box3. cbn [fst snd vx vy vz].
  destruct (fmin_spec (vx s) (vx e)) as [? [? Ex]]. destruct (fmax_spec (vx s) (vx e)) as [? [? Fx]].
  destruct (fmin_spec (vy s) (vy e)) as [? [? Ey]]. destruct (fmax_spec (vy s) (vy e)) as [? [? Fy]].
  destruct (fmin_spec (vz s) (vz e)) as [? [? Ez]]. destruct (fmax_spec (vz s) (vz e)) as [? [? Fz]].
  unfold vx, vy, vz in *. cbn [fst snd] in *.
  split; [repeat split; eapply Qcle_trans; eauto|]. split; [repeat split; auto|]. split; [repeat split; auto|].
  assert (G : forall l h s e lo hi q : Qc, (l = s \/ l = e) -> (h = s \/ h = e) -> lo <= s /\ s <= hi -> lo <= e /\ e <= hi ->
    l <= q /\ q <= h -> lo <= q /\ q <= hi).
  { intros l h s0 e0 lo hi q [->| ->] [->| ->] [] [] []; split; qlra. }
  intros b [Sx [Sy Sz]] [Tx [Ty Tz]] q [Qx [Qy Qz]].
  split; [eapply G with (1 := Ex) (2 := Fx); eauto|]. split; [eapply G with (1 := Ey) (2 := Fy); eauto|eapply G with (1 := Ez) (2 := Fz); eauto].
Qed.

Lemma intersection_exact a b :
  match aabb_intersection a b with
  | Some c => proper3 c /\ forall p, in_box3 p c <-> in_box3 p a /\ in_box3 p b
  | None => forall p, ~ (in_box3 p a /\ in_box3 p b)
  end.
Proof.
  unfold aabb_intersection.
  pose proof (fmax_spec (vx (fst a)) (vx (fst b))) as X1. pose proof (fmin_spec (vx (snd a)) (vx (snd b))) as X2.
  pose proof (fmax_spec (vy (fst a)) (vy (fst b))) as Y1. pose proof (fmin_spec (vy (snd a)) (vy (snd b))) as Y2.
  pose proof (fmax_spec (vz (fst a)) (vz (fst b))) as Z1. pose proof (fmin_spec (vz (snd a)) (vz (snd b))) as Z2.
  set (lx := fmax (vx _) (vx _)) in *. set (ly := fmax (vy _) (vy _)) in *. set (lz := fmax (vz _) (vz _)) in *.
  set (hx := fmin (vx _) (vx _)) in *. set (hy := fmin (vy _) (vy _)) in *. set (hz := fmin (vz _) (vz _)) in *.
  destruct X1 as [? [? X1]], X2 as [? [? X2]], Y1 as [? [? Y1]], Y2 as [? [? Y2]], Z1 as [? [? Z1]], Z2 as [? [? Z2]].
  assert (G : forall p l0 l1 h0 h1 l h, l0 <= l -> l1 <= l -> (l = l0 \/ l = l1) -> h <= h0 -> h <= h1 -> (h = h0 \/ h = h1) ->
    ((l <= p /\ p <= h) <-> (l0 <= p /\ p <= h0) /\ (l1 <= p /\ p <= h1))).
  { intros p l0 l1 h0 h1 l h A1 A2 A3 B1 B2 B3. split.
    - intros []. repeat split; eapply Qcle_trans; eauto.
    - intros [[] []]. destruct A3 as [->| ->], B3 as [->| ->]; auto. }
  assert (Bx : forall p, (in_box3 p a /\ in_box3 p b) <-> in_box3 p ((lx, ly, lz), (hx, hy, hz))).
  { intro p. unfold in_box3. cbn [fst snd]. unfold vx at 3 4, vy at 3 4, vz at 3 4. 
    pose proof (G (vx p) _ _ _ _ lx hx H H0 X1 H1 H2 X2). pose proof (G (vy p) _ _ _ _ ly hy H3 H4 Y1 H5 H6 Y2).
    pose proof (G (vz p) _ _ _ _ lz hz H7 H8 Z1 H9 H10 Z2). unfold vx, vy, vz in *. cbn [fst snd] in *. tauto. }
  destruct (qlt hx lx || qlt hy ly || qlt hz lz) eqn:E.
  - intros p Hp. apply Bx in Hp. unfold in_box3, vx, vy, vz in Hp. cbn [fst snd] in Hp. destruct Hp as [[] [[] []]].
    apply orb_prop in E. destruct E as [E|E]; [apply orb_prop in E; destruct E as [E|E]|]; apply qlt_true in E; qlra.
  - apply orb_false_iff in E. destruct E as [E E3]. apply orb_false_iff in E. destruct E as [E1 E2].
    apply qlt_false in E1, E2, E3. split; [unfold proper3, vx, vy, vz; cbn; auto|]. intro p. symmetry. apply Bx.
Qed.

Lemma intersect_intersection a b : proper3 a -> proper3 b ->
  (aabb_intersect_3d a b = true <-> aabb_intersection a b <> None).
Proof.
  unfold proper3, aabb_intersect_3d, aabb_intersection. intros [A1 [A2 A3]] [B1 [B2 B3]].
  rewrite !andb_true_iff, !qle_true.
  assert (G : forall l0 l1 h0 h1, l0 <= h0 -> l1 <= h1 -> (qlt (fmin h0 h1) (fmax l0 l1) = false <-> l0 <= h1 /\ l1 <= h0)).
  { intros l0 l1 h0 h1 P Q. rewrite qlt_false. unfold fmin, fmax.
    destruct (qlt l0 l1) eqn:E; destruct (qlt h1 h0) eqn:F; rewrite ?qlt_true, ?qlt_false in *; (split; [intro X; split|intros [X1 X2]]); qlra. }
  pose proof (G _ _ _ _ A1 B1). pose proof (G _ _ _ _ A2 B2). pose proof (G _ _ _ _ A3 B3).
  destruct (qlt (fmin (vx (snd a)) (vx (snd b))) (fmax (vx (fst a)) (vx (fst b))));
  destruct (qlt (fmin (vy (snd a)) (vy (snd b))) (fmax (vy (fst a)) (vy (fst b))));
  destruct (qlt (fmin (vz (snd a)) (vz (snd b))) (fmax (vz (fst a)) (vz (fst b)))); cbn [orb];
  (split; intro X; [|try (exfalso; apply X; reflexivity)]); try discriminate; try tauto;
  repeat match goal with H : (?b = false <-> _) |- _ => first [assert (true = false) by tauto; discriminate | fail] end; tauto.
Qed.

Lemma intersect_3d_exact a b : proper3 a -> proper3 b ->
  (aabb_intersect_3d a b = true <-> exists p, in_box3 p a /\ in_box3 p b).
Proof.
  intros A B. rewrite (intersect_intersection a b A B). pose proof (intersection_exact a b) as I.
  destruct (aabb_intersection a b) as [c|].
  - destruct I as [P I]. split; [intros _|discriminate]. exists (fst c). apply I. destruct P as [? [? ?]].
    unfold in_box3. repeat split; auto; apply Qcle_refl.
  - split; [congruence|]. intros [p Hp]. exfalso. apply (I p Hp).
Qed.

Lemma columns_exact : forall l1 h1 l2 h2, length l1 = length l2 -> Forall2 Qcle l1 h1 -> Forall2 Qcle l2 h2 ->
  (caabb_intersect (columns (l1, h1) (l2, h2)) = true <-> exists p, in_box p l1 h1 /\ in_box p l2 h2).
Proof.
  unfold columns. cbn [fst snd]. induction l1 as [|x l1 IH]; intros h1 l2 h2 L F1 F2.
  - destruct l2; [|discriminate]. inversion F1; inversion F2; subst. split; auto. intros _. exists []. split; constructor.
  - destruct l2 as [|y l2]; [discriminate|]. inversion F1 as [|? xh ? h1' X1 G1]; subst. inversion F2 as [|? yh ? h2' X2 G2]; subst.
    cbn [combine caabb_intersect]. cbn [length] in L.
    destruct (qle x yh && qle y xh) eqn:E.
    + apply andb_prop in E. destruct E as [E1 E2]. apply qle_true in E1, E2.
      rewrite IH by (auto; lia). split.
      * intros [p [P1 P2]]. exists (fmax x y :: p). destruct (fmax_spec x y) as [? [? [E3|E3]]]; split; constructor; auto; rewrite E3; auto.
      * intros [p [P1 P2]]. inversion P1; subst. inversion P2; subst. eauto.
    + split; [discriminate|]. intros [p [P1 P2]]. exfalso. inversion P1; subst. inversion P2; subst.
      apply andb_false_iff in E. destruct E as [E|E]; apply qle_false in E; qlra.
Qed.

Lemma in_box_3 x y z a b c d e f : in_box [x; y; z] [a; b; c] [d; e; f] <-> in_box3 (x, y, z) ((a, b, c), (d, e, f)).
Proof.
  unfold in_box3, vx, vy, vz. cbn [fst snd]. split.
  - intro H. inversion H as [|? ? ? ? ? ? A1 A2 H1]; subst. inversion H1 as [|? ? ? ? ? ? B1 B2 H2]; subst. inversion H2 as [|? ? ? ? ? ? C1 C2 H3]; subst. auto.
  - intros [[] [[] []]]. repeat constructor; auto.
Qed.

Lemma in_box_length p l h : in_box p l h -> length p = length l.
Proof. induction 1; cbn; auto. Qed.

Lemma intersect_exact b1 b2 : length (fst b1) = length (fst b2) -> proper b1 -> proper b2 ->
  (aabb_intersect b1 b2 = true <-> exists p, in_box p (fst b1) (snd b1) /\ in_box p (fst b2) (snd b2)).
Proof.
  destruct b1 as [l1 h1], b2 as [l2 h2]. unfold proper. cbn [fst snd]. intros L P1 P2.
  pose proof (columns_exact l1 h1 l2 h2 L P1 P2) as C.
  unfold aabb_intersect.
  repeat (match goal with |- context [match ?l with [] => _ | _ :: _ => _ end] =>
    first [destruct l; [exact C|]|destruct l; [|exact C]] end).
  clear C. inversion P1 as [|? ? ? ? A1 Q1]; subst. inversion Q1 as [|? ? ? ? A2 Q2]; subst. inversion Q2 as [|? ? ? ? A3 _]; subst.
  inversion P2 as [|? ? ? ? B1 R1]; subst. inversion R1 as [|? ? ? ? B2 R2]; subst. inversion R2 as [|? ? ? ? B3 _]; subst.
  rewrite intersect_3d_exact by (unfold proper3, vx, vy, vz; cbn; auto). split.
  - intros [[[x y] z] [H1 H2]]. exists [x; y; z]. rewrite !in_box_3. auto.
  - intros [p [H1 H2]]. pose proof (in_box_length _ _ _ H1) as LL. destruct p as [|x [|y [|z [|]]]]; try discriminate.
    exists (x, y, z). rewrite !in_box_3 in *. auto.
Qed.
