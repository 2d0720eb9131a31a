(* Scans and bisection: proofs. *)
From Coq Require Import List Arith ZArith Bool QArith Qcanon Lia Lqa.
From Verif Require Import Common ListLib QcLib SumLib BezModel BezProofs BezProofs2 DacModel DacSpec DacProofs DacProofs2.
Import ListNotations.
Open Scope Qc_scope.

(* ---- bisection1d ---- *)
Lemma sample_S start step k : sample start step k + step = sample start step (S k).
Proof. unfold sample. change (Q2Qc (inject_Z (Z.of_nat k))) with (zq (Z.of_nat k)). change (Q2Qc (inject_Z (Z.of_nat (S k)))) with (zq (Z.of_nat (S k))). rewrite Nat2Z.inj_succ, <- Z.add_1_r, zq_add, zq_1. ring. Qed.
Lemma sample_0 start step : sample start step 0 = start.
Proof. unfold sample. change (Q2Qc (inject_Z (Z.of_nat 0))) with (zq 0). rewrite zq_0. ring. Qed.
Lemma sample_lt start step j k : 0 < step -> (j < k)%nat -> sample start step j < sample start step k.
Proof.
  intros HS L. unfold sample. change (zq (Z.of_nat j)) with (Q2Qc (inject_Z (Z.of_nat j))). assert (Z : zq (Z.of_nat j) < zq (Z.of_nat k)) by (apply zq_lt; lia). unfold zq in Z.
  set (a := Q2Qc (inject_Z (Z.of_nat j))) in *. set (b := Q2Qc (inject_Z (Z.of_nat k))) in *. clearbody a b. assert (0 < (b - a) * step) by (apply qc_mul_pos; qlra). qlra.
Qed.
Lemma sample_count start step stop : 0 < step -> exists N, forall k, (k < N)%nat <-> sample start step k <= stop.
Proof.
  intro HS. destruct (archimedes ((stop - start) / step)) as [K HK].
  assert (B : stop < sample start step K).
  { unfold sample. fold (zq (Z.of_nat K)). assert (E : stop - start = (stop - start) / step * step) by (field; intro X; rewrite X in HS; qlra).
    set (z := (stop - start) / step) in *. set (k := zq (Z.of_nat K)) in *. clearbody z k. assert (0 < (k - z) * step) by (apply qc_mul_pos; qlra). qlra. }
  assert (G : exists N, (forall k, (k < N)%nat -> sample start step k <= stop) /\ stop < sample start step N).
  { clear HK. induction K as [|K IH]; [exists 0%nat; split; auto; intros; lia|]. destruct (Qclt_le_dec stop (sample start step K)) as [C|C]; [auto|]. exists (S K). split; auto.
    intros k Lk. destruct (Nat.eq_dec k K) as [->|NE]; auto. assert (sample start step k < sample start step K) by (apply sample_lt; auto; lia). qlra. }
  destruct G as [N [G1 G2]]. exists N. intro k. split; auto. intro H. destruct (le_lt_dec N k) as [L|L]; auto. exfalso. destruct (Nat.eq_dec k N) as [->|NE]; [qlra|].
  assert (sample start step N < sample start step k) by (apply sample_lt; auto; lia). qlra.
Qed.
Definition flag f start step k : bool :=
  qeq (f (sample start step k)) 0 || negb (Bool.eqb (qlt 0 (f (sample start step k))) (qlt 0 (f (sample start step (k - 1))))).
Definition low_of (f : Qc -> Qc) start step k (mn : option Qc) : Prop :=
  match mn with None => k = 0%nat | Some m => (exists j, (j < k)%nat /\ m = f (sample start step j)) /\ forall j, (j < k)%nat -> m <= f (sample start step j) end.
Lemma scan_ok f start step stop N : 0 < step -> (forall k, (k < N)%nat <-> sample start step k <= stop) ->
  forall c k fuel mn, (c + k = N)%nat -> (c < fuel)%nat -> low_of f start step k mn ->
  exists mn', scan_1d fuel f step stop (sample start step k) (qlt 0 (f (sample start step (k - 1)))) (map (fun j => (sample start step j, f (sample start step j))) (filter (flag f start step) (seq 0 k))) mn
    = Ok (map (fun j => (sample start step j, f (sample start step j))) (filter (flag f start step) (seq 0 N)), mn') /\ low_of f start step N mn'.
Proof.
  intros HS HN. induction c as [|c IH]; intros k fuel mn E F LO; (destruct fuel as [|fuel]; [lia|]); cbn [scan_1d].
  - cbn in E. subst k. destruct (qle (sample start step N) stop) eqn:Q; [apply qle_true in Q; apply HN in Q; lia|]. eauto.
  - assert (Lk : sample start step k <= stop) by (apply HN; lia). apply qle_true in Lk. rewrite Lk. cbn zeta. rewrite sample_S.
    set (rt := if qeq _ 0 then _ else _).
    assert (RT : rt = map (fun j => (sample start step j, f (sample start step j))) (filter (flag f start step) (seq 0 (S k)))).
    { rewrite seq_S, filter_app, map_app. cbn [Nat.add filter]. unfold flag at 2. unfold rt. destruct (qeq (f (sample start step k)) 0); [reflexivity|]. cbn [orb]. destruct (negb _); [reflexivity|]. cbn [map]. now rewrite app_nil_r. }
    rewrite RT. pose proof (fun mn0 => IH (S k) fuel mn0 ltac:(lia) ltac:(lia)) as J. replace (S k - 1)%nat with k in J by lia. apply J. clear J. destruct mn as [m|]; cbn [low_of] in LO |- *.
    + destruct LO as [[j [Lj Ej]] M]. destruct (qlt (f (sample start step k)) m) eqn:Q.
      * apply qlt_true in Q. split; [exists k; split; [lia|auto]|]. intros i Li. destruct (Nat.eq_dec i k) as [->|NE]; [apply Qcle_refl|]. assert (A := M i ltac:(lia)). qlra.
      * apply qlt_false in Q. split; [exists j; split; [lia|auto]|]. intros i Li. destruct (Nat.eq_dec i k) as [->|NE]; auto. apply M; lia.
    + subst k. split; [exists 0%nat; split; [lia|auto]|]. intros i Li. replace i with 0%nat by lia. apply Qcle_refl.
Qed.
Lemma flag_crossing f start step k : flag f start step k = true <-> crossing f start step k.
Proof.
  unfold flag, crossing. rewrite orb_true_iff, negb_true_iff, qeq_true, eqb_false_iff. set (a := f (sample start step k)). split; (intros [H|H]; [left; auto|]).
  - right. split; [destruct k; [exfalso; apply H; unfold a; reflexivity|lia]|]. intro EQ. apply H. destruct (qlt 0 a) eqn:A.
    + apply qlt_true in A. apply EQ in A. apply qlt_true in A. auto.
    + apply qlt_false in A. symmetry. apply qlt_false. destruct (Qclt_le_dec 0 (f (sample start step (k - 1)))) as [C|C]; auto. apply EQ in C. exfalso. qlra.
  - destruct H as [L H]. right. intro EQ. apply H. destruct (qlt 0 a) eqn:A; symmetry in EQ.
    + apply qlt_true in A. apply qlt_true in EQ. tauto.
    + apply qlt_false in A. apply qlt_false in EQ. split; intro; exfalso; qlra.
Qed.
Lemma bisection1d_ok f step start stop : 0 < step -> exists N n roots mn,
  (forall k, (k < N)%nat <-> sample start step k <= stop) /\ (forall fuel, (n < fuel)%nat -> bisection1d fuel f step start stop = Ok (roots, mn)) /\
  (forall x v, In (x, v) roots <-> exists k, (k < N)%nat /\ x = sample start step k /\ v = f x /\ crossing f start step k) /\ NoDup roots /\
  match mn with None => N = 0%nat | Some m => (exists k, (k < N)%nat /\ m = f (sample start step k)) /\ forall k, (k < N)%nat -> m <= f (sample start step k) end.
Proof.
  intro HS. destruct (sample_count start step stop HS) as [N HN]. exists N, N.
  destruct (scan_ok f start step stop N HS HN N 0 (S N) None ltac:(lia) ltac:(lia) eq_refl) as [mn [_ LO]].
  exists (map (fun j => (sample start step j, f (sample start step j))) (filter (flag f start step) (seq 0 N))).
  assert (U : exists mn', forall fuel, (N < fuel)%nat -> bisection1d fuel f step start stop = Ok (map (fun j => (sample start step j, f (sample start step j))) (filter (flag f start step) (seq 0 N)), mn') /\ low_of f start step N mn').
  { assert (MON : forall k m x sg rt mn y, (k <= m)%nat -> scan_1d k f step stop x sg rt mn = Ok y -> scan_1d m f step stop x sg rt mn = Ok y).
    { clear. induction k as [|k IH]; intros m x sg rt mn y LE E; [discriminate|]. destruct m as [|m]; [lia|]. cbn [scan_1d] in *. destruct (qle x stop); auto. cbn zeta in *. apply IH; auto. lia. }
    destruct (scan_ok f start step stop N HS HN N 0 (S N) None ltac:(lia) ltac:(lia) eq_refl) as [mn' [E' LO']]. exists mn'. intros fuel F. split; auto.
    unfold bisection1d. cbn [seq filter map Nat.sub] in E'. rewrite !sample_0 in E'. apply MON with (S N); auto. }
  destruct U as [mn' U]. exists mn'. split; auto. split; [intros fuel F; apply U; auto|]. split; [|split].
  - intros x v. rewrite in_map_iff. split.
    + intros [k [E I]]. inversion E; subst. apply filter_In in I. destruct I as [I FL]. apply in_seq in I. exists k. split; [lia|]. split; auto. split; auto. apply flag_crossing; auto.
    + intros [k [Lk [-> [-> C]]]]. exists k. split; auto. apply filter_In. split; [apply in_seq; lia|]. apply flag_crossing; auto.
  - assert (ND : NoDup (filter (flag f start step) (seq 0 N))) by (apply NoDup_filter, seq_NoDup). revert ND. generalize (filter (flag f start step) (seq 0 N)). induction l as [|k l IH]; intro ND; cbn [map]; constructor; inversion ND; subst; auto.
    intro I. apply in_map_iff in I. destruct I as [j [E I]]. assert (E1 : sample start step j = sample start step k) by exact (f_equal fst E). destruct (Nat.lt_trichotomy j k) as [C|[C|C]]; [|subst; contradiction|];
    apply (sample_lt start step _ _ HS) in C; rewrite E1 in C; qlra.
  - destruct (U (S N) ltac:(lia)) as [_ L]. exact L.
Qed.
Lemma bisection1d_twice f step start stop k : 0 < step -> sample start step (S k) <= stop -> f (sample start step k) = 0 -> 0 < f (sample start step (S k)) ->
  exists n, forall fuel, (n < fuel)%nat -> exists roots mn, bisection1d fuel f step start stop = Ok (roots, mn) /\
    In (sample start step k, f (sample start step k)) roots /\ In (sample start step (S k), f (sample start step (S k))) roots.
Proof.
  intros HS L Z P. destruct (bisection1d_ok f step start stop HS) as [N [n [roots [mn [HN [HR [HI _]]]]]]]. exists n. intros fuel F. exists roots, mn. split; auto.
  assert (LN : (S k < N)%nat) by (apply HN; auto). split; apply HI.
  - exists k. split; [lia|]. split; auto. split; auto. left; auto.
  - exists (S k). split; auto. split; auto. split; auto. right. split; [lia|]. replace (S k - 1)%nat with k by lia. rewrite Z. intros [A _]. specialize (A P). qlra.
Qed.

(* ---- bisection_2d ---- *)
Lemma half_between a b : a <= b -> a <= (a + b) / q2 /\ (a + b) / q2 <= b.
Proof. intro H. qd. split; qlra. Qed.
Definition opposite (f : Qc -> Qc -> Qc) x0 x1 y0 y1 : Prop :=
  exists px py qx qy, x0 <= px /\ px <= x1 /\ y0 <= py /\ py <= y1 /\ x0 <= qx /\ qx <= x1 /\ y0 <= qy /\ qy <= y1 /\ f px py * f qx qy < 0.
Definition corner_opposite (f : Qc -> Qc -> Qc) x0 x1 y0 y1 : Prop := f x0 y0 * f x1 y1 < 0 \/ f x1 y0 * f x0 y1 < 0.
(* one of two values of opposite sign is opposite to a third *)
Lemma opp_third a b c : a * b < 0 -> c <> 0 -> a * c < 0 \/ b * c < 0.
Proof.
  intros H N. destruct (Qclt_le_dec (a * c) 0) as [L|L]; auto. right. destruct (Qclt_le_dec (b * c) 0) as [M|M]; auto. exfalso.
  assert (CC : 0 < c * c) by (destruct (Qclt_le_dec 0 c); [apply qc_mul_pos; auto|assert (0 < - c) by (destruct (Qclt_le_dec c 0); [qlra|exfalso; apply N; qlra]); assert (0 < (- c) * (- c)) by (apply qc_mul_pos; auto); qlra]).
  assert (0 <= (a * c) * (b * c)) by (apply qc_mul_nonneg; auto). assert (0 < (- (a * b)) * (c * c)) by (apply qc_mul_pos; auto; qlra). qlra.
Qed.
Lemma bisect_ok f tol n : 0 < tol -> forall x0 x1 y0 y1, x0 <= x1 -> y0 <= y1 -> (x1 - x0) * q12 ^ n <= tol -> (y1 - y0) * q12 ^ n <= tol -> forall fuel, (n < fuel)%nat ->
  exists x y, bisect_loop fuel f x0 x1 y0 y1 tol = Ok (x, y) /\ x0 <= x /\ x <= x1 /\ y0 <= y /\ y <= y1 /\
   (corner_opposite f x0 x1 y0 y1 -> (forall u v, x0 <= u -> u <= x1 -> y0 <= v -> v <= y1 -> f u v <> 0) -> opposite f (py_max x0 (x - tol)) (py_min x1 (x + tol)) (py_max y0 (y - tol)) (py_min y1 (y + tol))).
Proof.
  intro HT.
  assert (STOP : forall x0 x1 y0 y1, x0 <= x1 -> y0 <= y1 -> (x1 - x0) / q2 <= tol -> (y1 - y0) / q2 <= tol -> corner_opposite f x0 x1 y0 y1 ->
    let x := (x0 + x1) / q2 in let y := (y0 + y1) / q2 in opposite f (py_max x0 (x - tol)) (py_min x1 (x + tol)) (py_max y0 (y - tol)) (py_min y1 (y + tol))).
  { intros x0 x1 y0 y1 LX LY WX WY C. cbn zeta.
    assert (M1 : forall z w, z - tol <= w -> py_max w (z - tol) = w). { intros z w Hz. destruct (py_max_spec w (z - tol)) as [? [? [E|E]]]; auto. rewrite E. qlra. }
    assert (M2 : forall z w, w <= z + tol -> py_min w (z + tol) = w). { intros z w Hz. destruct (py_min_spec w (z + tol)) as [? [? [E|E]]]; auto. rewrite E. qlra. }
    rewrite !M1, !M2 by (qd; qlra).
    destruct C as [C|C]; [exists x0, y0, x1, y1|exists x1, y0, x0, y1]; repeat split; auto; apply Qcle_refl. }
  assert (WID : forall a b k, (b - a) * q12 ^ S k <= tol -> ((a + b) / q2 - a) * q12 ^ k <= tol /\ (b - (a + b) / q2) * q12 ^ k <= tol).
  { intros a b k W. rewrite pow_S in W. set (p := q12 ^ k) in *. clearbody p. qd. unfold q12 in W. split; qlra. }
  assert (SMALL : forall a b, a <= b -> (b - a) * q12 ^ 0 <= tol -> qlt tol ((b - a) / q2) = false).
  { intros a b L W. cbn [Qcpower] in W. apply qlt_false. qd. qlra. }
  induction n as [|n IH]; intros x0 x1 y0 y1 LX LY WX WY fuel F; (destruct fuel as [|fuel]; [lia|]); cbn [bisect_loop].
  - rewrite (SMALL _ _ LX WX), (SMALL _ _ LY WY). cbn [orb]. destruct (half_between x0 x1 LX). destruct (half_between y0 y1 LY). do 2 eexists. split; [reflexivity|]. repeat (split; auto). intros C _.
    apply STOP; auto; [assert (A := SMALL _ _ LX WX)|assert (A := SMALL _ _ LY WY)]; apply qlt_false in A; auto.
  - destruct (qlt tol ((x1 - x0) / q2) || qlt tol ((y1 - y0) / q2)) eqn:Q.
    2:{ apply orb_false_iff in Q. destruct Q as [Q1 Q2]. apply qlt_false in Q1, Q2. destruct (half_between x0 x1 LX). destruct (half_between y0 y1 LY). do 2 eexists. split; [reflexivity|]. repeat (split; auto). }
    clear Q. cbn zeta. destruct (half_between x0 x1 LX) as [HX1 HX2]. destruct (half_between y0 y1 LY) as [HY1 HY2]. destruct (WID x0 x1 n WX) as [WX1 WX2]. destruct (WID y0 y1 n WY) as [WY1 WY2].
    set (xm := (x0 + x1) / q2) in *. set (ym := (y0 + y1) / q2) in *. clearbody xm ym.
    (* continuing in a sub-box *)
    assert (SUB : forall a0 a1 b0 b1, x0 <= a0 -> a0 <= a1 -> a1 <= x1 -> y0 <= b0 -> b0 <= b1 -> b1 <= y1 -> (a1 - a0) * q12 ^ n <= tol -> (b1 - b0) * q12 ^ n <= tol ->
      (corner_opposite f x0 x1 y0 y1 -> f xm ym <> 0 -> corner_opposite f a0 a1 b0 b1) ->
      exists x y, bisect_loop fuel f a0 a1 b0 b1 tol = Ok (x, y) /\ x0 <= x /\ x <= x1 /\ y0 <= y /\ y <= y1 /\
      (corner_opposite f x0 x1 y0 y1 -> (forall u v, x0 <= u -> u <= x1 -> y0 <= v -> v <= y1 -> f u v <> 0) -> opposite f (py_max x0 (x - tol)) (py_min x1 (x + tol)) (py_max y0 (y - tol)) (py_min y1 (y + tol)))).
    { intros a0 a1 b0 b1 A1 A2 A3 B1 B2 B3 W1 W2 CO. destruct (IH a0 a1 b0 b1 A2 B2 W1 W2 fuel ltac:(lia)) as [x [y [E [X1 [X2 [Y1 [Y2 O]]]]]]]. exists x, y. split; auto. split; [qlra|]. split; [qlra|]. split; [qlra|]. split; [qlra|].
      intros C NZ. destruct O as [px [py [qx [qy [P1 [P2 [P3 [P4 [P5 [P6 [P7 [P8 P9]]]]]]]]]]]]; [apply CO; auto|intros; apply NZ; qlra|].
      assert (T1 : py_max x0 (x - tol) <= py_max a0 (x - tol)) by (destruct (py_max_spec a0 (x - tol)) as [? [? _]]; destruct (py_max_spec x0 (x - tol)) as [_ [_ [->| ->]]]; qlra).
      assert (T2 : py_min a1 (x + tol) <= py_min x1 (x + tol)) by (destruct (py_min_spec a1 (x + tol)) as [? [? _]]; destruct (py_min_spec x1 (x + tol)) as [_ [_ [->| ->]]]; qlra).
      assert (T3 : py_max y0 (y - tol) <= py_max b0 (y - tol)) by (destruct (py_max_spec b0 (y - tol)) as [? [? _]]; destruct (py_max_spec y0 (y - tol)) as [_ [_ [->| ->]]]; qlra).
      assert (T4 : py_min b1 (y + tol) <= py_min y1 (y + tol)) by (destruct (py_min_spec b1 (y + tol)) as [? [? _]]; destruct (py_min_spec y1 (y + tol)) as [_ [_ [->| ->]]]; qlra).
      exists px, py, qx, qy. repeat split; auto; eapply Qcle_trans; eauto. }
    destruct (qlt (f x0 y0 * f xm ym) 0) eqn:C1; [apply qlt_true in C1; apply SUB; auto; try apply Qcle_refl; intros _ _; left; auto|].
    destruct (qlt (f x1 y0 * f xm ym) 0) eqn:C2; [apply qlt_true in C2; apply SUB; auto; try apply Qcle_refl; intros _ _; right; auto|].
    destruct (qlt (f x0 y1 * f xm ym) 0) eqn:C3; [apply qlt_true in C3; apply SUB; auto; try apply Qcle_refl; intros _ _; right; rewrite Qcmult_comm; auto|].
    destruct (qlt (f x1 y1 * f xm ym) 0) eqn:C4; [apply qlt_true in C4; apply SUB; auto; try apply Qcle_refl; intros _ _; left; rewrite Qcmult_comm; auto|].
    apply qlt_false in C1, C2, C3, C4.
    assert (NO : corner_opposite f x0 x1 y0 y1 -> f xm ym <> 0 -> False).
    { intros [C|C] NZ; destruct (opp_third _ _ _ C NZ); qlra. }
    destruct (qlt (q_abs (f x0 ym)) (q_abs (f x1 ym))), (qlt (q_abs (f xm y0)) (q_abs (f xm y1))); apply SUB; auto; try apply Qcle_refl; intros C NZ; exfalso; apply (NO C NZ).
Qed.
Lemma two_shrink w1 w2 tol : 0 <= w1 -> 0 <= w2 -> 0 < tol -> exists n, w1 * q12 ^ n <= tol /\ w2 * q12 ^ n <= tol.
Proof.
  intros A B HT. destruct q12_range as [R1 R2]. destruct (shrinks (w1 + w2) q12 tol R1 R2 HT) as [n H]. exists n. assert (P := pow_nonneg q12 n R1). set (p := q12 ^ n) in *. clearbody p.
  assert (0 <= w1 * p) by (apply qc_mul_nonneg; auto). assert (0 <= w2 * p) by (apply qc_mul_nonneg; auto). split; qlra.
Qed.
Lemma bisect_mon f tol : forall k m x0 x1 y0 y1 r, (k <= m)%nat -> bisect_loop k f x0 x1 y0 y1 tol = Ok r -> bisect_loop m f x0 x1 y0 y1 tol = Ok r.
Proof.
  induction k as [|k IH]; intros m x0 x1 y0 y1 r L E; [discriminate|]. destruct m as [|m]; [lia|]. cbn [bisect_loop] in *. destruct (_ || _); auto. cbn zeta in *.
  destruct (qlt _ 0); [apply IH; auto; lia|]. destruct (qlt _ 0); [apply IH; auto; lia|]. destruct (qlt _ 0); [apply IH; auto; lia|]. destruct (qlt _ 0); [apply IH; auto; lia|].
  destruct (qlt _ _), (qlt _ _); apply IH; auto; lia.
Qed.
Lemma bisection_2d_ok f x0 x1 y0 y1 tol : 0 < tol -> x0 <= x1 -> y0 <= y1 ->
  exists n r, (forall fuel, (n < fuel)%nat -> bisection_2d fuel f (x0, x1) (y0, y1) tol = Ok r) /\
  match r with
  | None => 0 < f x0 y0 * f x1 y1
  | Some (x, y) => x0 <= x /\ x <= x1 /\ y0 <= y /\ y <= y1 /\
      ((forall u v, x0 <= u -> u <= x1 -> y0 <= v -> v <= y1 -> f u v <> 0) ->
       exists px py qx qy, x0 <= px /\ px <= x1 /\ y0 <= py /\ py <= y1 /\ x0 <= qx /\ qx <= x1 /\ y0 <= qy /\ qy <= y1 /\ x - tol <= px /\ px <= x + tol /\ y - tol <= py /\ py <= y + tol /\ x - tol <= qx /\ qx <= x + tol /\ y - tol <= qy /\ qy <= y + tol /\ f px py * f qx qy < 0)
  end.
Proof.
  intros HT LX LY. destruct (two_shrink (x1 - x0) (y1 - y0) tol ltac:(qlra) ltac:(qlra) HT) as [n [W1 W2]]. exists n. unfold bisection_2d. destruct (qlt 0 (f x0 y0 * f x1 y1)) eqn:Q.
  - exists None. split; auto. apply qlt_true in Q. auto.
  - apply qlt_false in Q. destruct (bisect_ok f tol n HT x0 x1 y0 y1 LX LY W1 W2 (S n) ltac:(lia)) as [x [y [E [X1 [X2 [Y1 [Y2 O]]]]]]].
    exists (Some (x, y)). split; [intros fuel F; rewrite (bisect_mon f tol (S n) fuel _ _ _ _ _ ltac:(lia) E); reflexivity|]. repeat (split; auto).
    intro NZ. destruct O as [px [py [qx [qy [P1 [P2 [P3 [P4 [P5 [P6 [P7 [P8 P9]]]]]]]]]]]]; auto.
    + left. destruct (Qclt_le_dec (f x0 y0 * f x1 y1) 0) as [C|C]; auto. exfalso. assert (Z : f x0 y0 * f x1 y1 = 0) by qlra. apply Qcmult_integral in Z.
      destruct Z as [Z|Z]; revert Z; apply NZ; auto; apply Qcle_refl.
    + destruct (py_max_spec x0 (x - tol)) as [a1 [a2 _]]. destruct (py_min_spec x1 (x + tol)) as [a3 [a4 _]]. destruct (py_max_spec y0 (y - tol)) as [a5 [a6 _]]. destruct (py_min_spec y1 (y + tol)) as [a7 [a8 _]].
      exists px, py, qx, qy. repeat split; auto; eapply Qcle_trans; eauto.
Qed.
(* a polynomial whose zero is lost *)
Definition lost (x y : Qc) : Qc := (x + y) * (q4 - Q2Qc 3 * x).
Lemma lost_corners : lost (- (1)) (- (1)) * lost 1 1 < 0.
Proof. apply qlt_true. vm_compute. reflexivity. Qed.
Lemma bisection_2d_lost tol : 0 < tol -> tol < Q2Qc (1 # 2) -> exists n, forall fuel, (n < fuel)%nat ->
  exists x y, bisection_2d fuel lost (- (1), 1) (- (1), 1) tol = Ok (Some (x, y)) /\ Q2Qc (1 # 2) <= x /\ 0 <= y.
Proof.
  intros HT H1. destruct (two_shrink q12 q12 tol ltac:(unfold q12; qlra) ltac:(unfold q12; qlra) HT) as [n [W1 W2]]. exists (S (S n)). intros fuel F. destruct fuel as [|[|[|fuel]]]; try lia.
  unfold bisection_2d. replace (qlt 0 (lost (- (1)) (- (1)) * lost 1 1)) with false by (vm_compute; reflexivity).
  assert (D1 : qlt tol ((1 - - (1)) / q2) = true) by (apply qlt_true; qd; qlra).
  assert (D2 : qlt tol ((1 - 0) / q2) = true) by (apply qlt_true; qd; qlra).
  assert (S1 : bisect_loop (S (S (S fuel))) lost (- (1)) 1 (- (1)) 1 tol = bisect_loop (S (S fuel)) lost 0 1 0 1 tol).
  { cbn [bisect_loop]. rewrite D1. cbn [orb]. cbn zeta. assert (M : (- (1) + 1) / q2 = 0) by (qd; qlra). rewrite M.
    replace (qlt (lost (- (1)) (- (1)) * lost 0 0) 0) with false by (vm_compute; reflexivity). replace (qlt (lost 1 (- (1)) * lost 0 0) 0) with false by (vm_compute; reflexivity).
    replace (qlt (lost (- (1)) 1 * lost 0 0) 0) with false by (vm_compute; reflexivity). replace (qlt (lost 1 1 * lost 0 0) 0) with false by (vm_compute; reflexivity).
    replace (qlt (q_abs (lost (- (1)) 0)) (q_abs (lost 1 0))) with false by (vm_compute; reflexivity). replace (qlt (q_abs (lost 0 (- (1)))) (q_abs (lost 0 1))) with false by (vm_compute; reflexivity). reflexivity. }
  assert (S2 : bisect_loop (S (S fuel)) lost 0 1 0 1 tol = bisect_loop (S fuel) lost q12 1 0 q12 tol).
  { cbn [bisect_loop]. rewrite D2. cbn [orb]. cbn zeta. assert (M : (0 + 1) / q2 = q12) by (qd; unfold q12; qlra). rewrite M.
    replace (qlt (lost 0 0 * lost q12 q12) 0) with false by (vm_compute; reflexivity). replace (qlt (lost 1 0 * lost q12 q12) 0) with false by (vm_compute; reflexivity).
    replace (qlt (lost 0 1 * lost q12 q12) 0) with false by (vm_compute; reflexivity). replace (qlt (lost 1 1 * lost q12 q12) 0) with false by (vm_compute; reflexivity).
    replace (qlt (q_abs (lost 0 q12)) (q_abs (lost 1 q12))) with false by (vm_compute; reflexivity). replace (qlt (q_abs (lost q12 0)) (q_abs (lost q12 1))) with true by (vm_compute; reflexivity). reflexivity. }
  rewrite S1, S2. destruct (bisect_ok lost tol n HT q12 1 0 q12 ltac:(unfold q12; qlra) ltac:(unfold q12; qlra)) with (fuel := S fuel) as [x [y [E [X1 [X2 [Y1 [Y2 _]]]]]]].
  - replace (1 - q12) with q12 by (unfold q12; qlra). auto.
  - replace (q12 - 0) with q12 by ring. auto.
  - lia.
  - rewrite E. exists x, y. split; auto.
Qed.
Lemma lost_zeros u v : u <= 1 -> lost u v = 0 -> u + v = 0.
Proof. intros L Z. unfold lost in Z. apply Qcmult_integral in Z. destruct Z as [Z|Z]; auto. exfalso. unfold q4 in Z. qlra. Qed.
