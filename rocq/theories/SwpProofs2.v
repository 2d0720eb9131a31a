(* Intersections, the bound of the coordinates, sorted points and polygons: proofs. *)
From Coq Require Import List ZArith Lia Bool QArith Qround Qcanon Permutation.
From Verif Require Import Common QcLib SurfModel SwpModel SwpSpec SwpProofs1.
Import ListNotations.
Local Open Scope Z_scope.
Local Open Scope Qc_scope.

Lemma mult_0 (x y : Qc) : x * y = 0 -> x = 0 \/ y = 0. Proof. apply Qcmult_integral. Qed.

Lemma slope_parallel i j a b c d : proper a b -> proper c d ->
  (slope_eq (s_slope (new_seg i a b)) (s_slope (new_seg j c d)) = true <-> parallel a b c d).
Proof.
  intros P1 P2. unfold new_seg, parallel.
  destruct (qeq (p_x b) (p_x a)) eqn:E; [apply qeq_true in E|apply qeq_false in E];
  (destruct (qeq (p_x d) (p_x c)) eqn:F; [apply qeq_true in F|apply qeq_false in F]); cbn [negb s_slope slope_eq].
  - split; auto. intros _. rewrite E, F. ring.
  - split; [discriminate|]. rewrite E. intro H. assert (H' : (p_y b - p_y a) * (p_x d - p_x c) = 0) by (rewrite <- H; ring).
    destruct (mult_0 _ _ H') as [K|K]; [|exfalso; apply F; qlra]. destruct P1 as [N|N]; exfalso; apply N; [now symmetry|qlra].
  - split; [discriminate|]. rewrite F. intro H. assert (H' : (p_x b - p_x a) * (p_y d - p_y c) = 0) by (rewrite H; ring).
    destruct (mult_0 _ _ H') as [K|K]; [exfalso; apply E; qlra|]. destruct P2 as [N|N]; exfalso; apply N; [now symmetry|qlra].
  - assert (D1 : p_x b - p_x a <> 0) by (intro; apply E; qlra). assert (D2 : p_x d - p_x c <> 0) by (intro; apply F; qlra).
    rewrite qeq_true. split; intro H.
    + replace (p_y b - p_y a) with ((p_y b - p_y a) / (p_x b - p_x a) * (p_x b - p_x a)) by (field; exact D1). rewrite H. field. exact D2.
    + replace ((p_y b - p_y a) / (p_x b - p_x a)) with ((p_y b - p_y a) * (p_x d - p_x c) / ((p_x b - p_x a) * (p_x d - p_x c))) by (field; split; assumption).
      rewrite <- H. field. split; assumption.
Qed.

Lemma lines_none k i j a b c d : proper a b -> proper c d -> (parallel a b c d -> lines_meet k (new_seg i a b) (new_seg j c d) = None).
Proof. intros P1 P2 H. unfold lines_meet. apply (slope_parallel i j) in H; auto. now rewrite H. Qed.

Lemma vertical_line a b p : p_x a = p_x b -> p_x p = p_x a -> on_line a b p.
Proof. intros E F. unfold on_line, turn. rewrite <- E, F. ring. Qed.

Lemma lines_point k i j a b c d : proper a b -> proper c d -> ~ parallel a b c d -> no_common_end a b c d ->
  exists q, lines_meet k (new_seg i a b) (new_seg j c d) = Some q /\ p_id q = k /\ on_line a b q /\ on_line c d q.
Proof.
  intros P1 P2 N [N1 [N2 [N3 N4]]]. unfold lines_meet.
  destruct (slope_eq (s_slope (new_seg i a b)) (s_slope (new_seg j c d))) eqn:SE. { apply slope_parallel in SE; auto. contradiction. }
  destruct (new_seg_fields i a b) as [_ [-> [-> _]]]. destruct (new_seg_fields j c d) as [_ [-> [-> _]]].
  rewrite N1, N2, N3, N4. cbn [orb]. cbv zeta.
  destruct (new_seg_line i a b) as [V1 L1]. destruct (new_seg_line j c d) as [V2 L2]. unfold line_y.
  destruct (qeq (p_x a) (p_x b)) eqn:E; [apply qeq_true in E|apply qeq_false in E].
  - destruct (Qc_eq_dec (p_x c) (p_x d)) as [F|F].
    { exfalso. apply N. unfold parallel. rewrite E, F. ring. }
    destruct (L2 F) as [m [s [-> [-> H]]]]. eexists. split; [reflexivity|]. split; [reflexivity|]. split; [now apply vertical_line|]. apply H. reflexivity.
  - destruct (L1 E) as [m [s [S1 [S2 H]]]]. rewrite S1, S2 in *.
    destruct (qeq (p_x c) (p_x d)) eqn:F; [apply qeq_true in F|apply qeq_false in F].
    + eexists. split; [reflexivity|]. split; [reflexivity|]. split; [apply H; reflexivity|now apply vertical_line].
    + destruct (L2 F) as [m' [s' [S3 [S4 H']]]]. rewrite S3, S4 in *. eexists. split; [reflexivity|]. split; [reflexivity|].
      split; [apply H; reflexivity|]. apply H'. cbn [p_x p_y]. cbn [slope_eq] in SE. apply qeq_false in SE. field. intro Z0. apply SE. qlra.
Qed.
Lemma lines_end k i j a b c d : ~ parallel a b c d -> proper a b -> proper c d -> peq a c = true \/ peq a d = true ->
  lines_meet k (new_seg i a b) (new_seg j c d) = Some a.
Proof.
  intros N P1 P2 H. unfold lines_meet.
  destruct (slope_eq (s_slope (new_seg i a b)) (s_slope (new_seg j c d))) eqn:SE. { apply slope_parallel in SE; auto. contradiction. }
  destruct (new_seg_fields i a b) as [_ [-> _]]. destruct (new_seg_fields j c d) as [_ [-> [-> _]]].
  destruct H as [-> | ->]; [reflexivity|]. now rewrite orb_true_r.
Qed.
Lemma lines_some k i j a b c d : proper a b -> proper c d -> ~ parallel a b c d -> exists q, lines_meet k (new_seg i a b) (new_seg j c d) = Some q.
Proof.
  intros P1 P2 N. destruct (peq a c || peq a d)%bool eqn:E1. { exists a. apply lines_end; auto. now apply orb_true_iff in E1. }
  destruct (peq b c || peq b d)%bool eqn:E2.
  - exists b. unfold lines_meet. destruct (slope_eq (s_slope (new_seg i a b)) (s_slope (new_seg j c d))) eqn:SE. { apply slope_parallel in SE; auto. contradiction. }
    destruct (new_seg_fields i a b) as [_ [-> [-> _]]]. destruct (new_seg_fields j c d) as [_ [-> [-> _]]]. now rewrite E1, E2.
  - apply orb_false_iff in E1, E2. destruct E1, E2. destruct (lines_point k i j a b c d P1 P2 N) as [q [H3 _]]; [now repeat split|]. now exists q.
Qed.

(* the lines have one common point *)
Lemma common_unique a b c d q r : ~ parallel a b c d -> on_line a b q -> on_line c d q -> on_line a b r -> on_line c d r -> p_x q = p_x r /\ p_y q = p_y r.
Proof.
  unfold on_line, turn, parallel. intros N A B C D.
  set (dx := p_x b - p_x a) in *. set (dy := p_y b - p_y a) in *. set (ex := p_x d - p_x c) in *. set (ey := p_y d - p_y c) in *.
  assert (X : dx * ey - dy * ex <> 0) by (intro H; apply N; qlra).
  assert (E1 : dx * (p_y q - p_y r) - dy * (p_x q - p_x r) = 0).
  { replace (dx * (p_y q - p_y r) - dy * (p_x q - p_x r)) with ((dx * (p_y q - p_y a) - dy * (p_x q - p_x a)) - (dx * (p_y r - p_y a) - dy * (p_x r - p_x a))) by ring. rewrite A, C. ring. }
  assert (E2 : ex * (p_y q - p_y r) - ey * (p_x q - p_x r) = 0).
  { replace (ex * (p_y q - p_y r) - ey * (p_x q - p_x r)) with ((ex * (p_y q - p_y c) - ey * (p_x q - p_x c)) - (ex * (p_y r - p_y c) - ey * (p_x r - p_x c))) by ring. rewrite B, D. ring. }
  assert (F1 : (dx * ey - dy * ex) * (p_x q - p_x r) = 0).
  { replace ((dx * ey - dy * ex) * (p_x q - p_x r)) with (ex * (dx * (p_y q - p_y r) - dy * (p_x q - p_x r)) - dx * (ex * (p_y q - p_y r) - ey * (p_x q - p_x r))) by ring. rewrite E1, E2. ring. }
  assert (F2 : (dx * ey - dy * ex) * (p_y q - p_y r) = 0).
  { replace ((dx * ey - dy * ex) * (p_y q - p_y r)) with (ey * (dx * (p_y q - p_y r) - dy * (p_x q - p_x r)) - dy * (ex * (p_y q - p_y r) - ey * (p_x q - p_x r))) by ring. rewrite E1, E2. ring. }
  apply mult_0 in F1, F2. destruct F1 as [F1|F1]; [contradiction|]. destruct F2 as [F2|F2]; [contradiction|]. split; qlra.
Qed.

Lemma crosses_turn i j a b c d : crosses (new_seg i a b) (new_seg j c d) = true <-> turn a b d <= 0 /\ 0 <= turn c d b.
Proof.
  unfold crosses. destruct (new_seg_fields i a b) as [_ [_ [-> _]]]. destruct (new_seg_fields j c d) as [_ [_ [-> _]]].
  rewrite andb_true_iff, !Z.leb_le.
  pose proof (orientation_turn i a b d) as A. pose proof (orientation_turn j c d b) as B.
  destruct A as [[-> A]|[[-> A]|[-> A]]], B as [[-> B]|[[-> B]|[-> B]]]; split; intros [H K]; try lia; try split; try lia; qlra.
Qed.
Lemma div_unit x y : y < 0 -> y <= x -> x <= 0 -> 0 <= x / y /\ x / y <= 1.
Proof.
  intros Y L U. assert (N : y <> 0) by (intro; qlra).
  split; apply Qcnot_lt_le; intro H.
  - assert (K : 0 < (x / y) * y) by qnra. replace (x / y * y) with x in K by (field; exact N). qlra.
  - assert (K : (x / y) * y < y) by qnra. replace (x / y * y) with x in K by (field; exact N). qlra.
Qed.
(* the first starts on or below the second *)
Lemma crosses_between i j a b c d : ~ parallel a b c d -> 0 <= turn a b c -> turn c d a <= 0 ->
  (crosses (new_seg i a b) (new_seg j c d) = true -> exists q, between a b q /\ between c d q) /\
  (proper a c -> (exists q, between a b q /\ between c d q) -> crosses (new_seg i a b) (new_seg j c d) = true).
Proof.
  intros N S1 S2. rewrite crosses_turn. unfold parallel in N. unfold turn in *.
  set (dx := p_x b - p_x a) in *. set (dy := p_y b - p_y a) in *. set (ex := p_x d - p_x c) in *. set (ey := p_y d - p_y c) in *.
  set (fx := p_x c - p_x a). set (fy := p_y c - p_y a).
  assert (G1 : p_x d - p_x a = fx + ex) by (unfold fx, ex; ring). assert (G2 : p_y d - p_y a = fy + ey) by (unfold fy, ey; ring).
  assert (G3 : p_x a - p_x c = - fx) by (unfold fx; ring). assert (G4 : p_y a - p_y c = - fy) by (unfold fy; ring).
  assert (G5 : p_x b - p_x c = dx - fx) by (unfold dx, fx; ring). assert (G6 : p_y b - p_y c = dy - fy) by (unfold dy, fy; ring).
  rewrite G1, G2, G5, G6. rewrite G3, G4 in S2. fold fx fy in S1.
  assert (D0 : dx * ey - dy * ex <> 0) by (intro H; apply N; qlra).
  split.
  - intros [H1 H2]. assert (D : dx * ey - dy * ex < 0).
    { destruct (Qc_dec (dx * ey - dy * ex) 0) as [[H|H]|H]; [exact H|exfalso; qlra|contradiction]. }
    set (D' := dx * ey - dy * ex) in *.
    exists (mkp 0 (p_x a + ((fx * ey - fy * ex) / D') * dx) (p_y a + ((fx * ey - fy * ex) / D') * dy)). split.
    + exists ((fx * ey - fy * ex) / D'). cbn [p_x p_y]. fold dx dy.
      destruct (div_unit (fx * ey - fy * ex) D' D) as [U1 U2]; [unfold D'; qlra|qlra|]. auto.
    + exists ((fx * dy - fy * dx) / D'). cbn [p_x p_y]. fold ex ey.
      destruct (div_unit (fx * dy - fy * dx) D' D) as [U1 U2]; [unfold D'; qlra|qlra|]. split; [exact U1|]. split; [exact U2|].
      replace (p_x c) with (p_x a + fx) by (unfold fx; ring). replace (p_y c) with (p_y a + fy) by (unfold fy; ring).
      unfold D'. split; field; exact D0.
  - intros PC [q [[t [T0 [T1 [X Y]]]] [s [R0 [R1 [X' Y']]]]]]. fold dx dy in X, Y. fold ex ey in X', Y'.
    assert (E1 : t * dx = fx + s * ex) by (unfold fx; qlra). assert (E2 : t * dy = fy + s * ey) by (unfold fy; qlra).
    set (D' := dx * ey - dy * ex) in *.
    assert (F1 : fx = t * dx - s * ex) by qlra. assert (F2 : fy = t * dy - s * ey) by qlra. clearbody fx fy.
    assert (K1 : dx * fy - dy * fx = - s * D') by (rewrite F1, F2; unfold D'; ring).
    assert (K2 : ex * - fy - ey * - fx = t * D') by (rewrite F1, F2; unfold D'; ring).
    rewrite K1 in S1. rewrite K2 in S2.
    assert (L1 : dx * (fy + ey) - dy * (fx + ex) = (1 - s) * D') by (rewrite F1, F2; unfold D'; ring).
    assert (L2 : ex * (dy - fy) - ey * (dx - fx) = - (1 - t) * D') by (rewrite F1, F2; unfold D'; ring).
    rewrite L1, L2. assert (P1 : 0 <= 1 - s) by qlra. assert (P2 : 0 <= 1 - t) by qlra.
    destruct (Qc_dec D' 0) as [[H|H]|H]; [| |contradiction].
    + split; qnra.
    + (* then both parameters are zero *)
      assert (Z1 : s = 0). { apply Qcle_antisym; [|exact R0]. apply Qcnot_lt_le. intro W. assert (0 < s * D') by qnra. qlra. }
      assert (Z2 : t = 0). { apply Qcle_antisym; [|exact T0]. apply Qcnot_lt_le. intro W. assert (0 < t * D') by qnra. qlra. }
      (* then the starts coincide *)
      exfalso. subst s t. rewrite X in X'. rewrite Y in Y'. destruct PC as [PC|PC]; apply PC; qlra.
Qed.
Lemma between_line a b q : between a b q -> on_line a b q.
Proof. intros [t [_ [_ [X Y]]]]. unfold on_line, turn. rewrite X, Y. ring. Qed.
Lemma between_same a b q r : p_x q = p_x r -> p_y q = p_y r -> between a b q -> between a b r.
Proof. intros E F [t H]. exists t. now rewrite <- E, <- F. Qed.
Lemma crosses_meet k i j a b c d : proper a b -> proper c d -> ~ parallel a b c d -> no_common_end a b c d -> 0 <= turn a b c -> turn c d a <= 0 ->
  crosses (new_seg i a b) (new_seg j c d) = true ->
  exists q, lines_meet k (new_seg i a b) (new_seg j c d) = Some q /\ between a b q /\ between c d q.
Proof.
  intros P1 P2 N E S1 S2 C. destruct (lines_point k i j a b c d P1 P2 N E) as [q [M [_ [L1 L2]]]].
  destruct (proj1 (crosses_between i j a b c d N S1 S2) C) as [r [B1 B2]].
  destruct (common_unique a b c d r q N) as [X Y]; auto using between_line.
  exists q. split; [exact M|]. split; now apply (between_same _ _ r).
Qed.

(* ---- the bound ---- *)

Lemma qabs_lt x b : (qabs x < b) <-> inside b x.
Proof. unfold qabs, inside. destruct (qlt x 0) eqn:E; [apply qlt_true in E|apply qlt_false in E]; split; [intro; split; qlra|intros [? ?]; qlra|intro; split; qlra|intros [? ?]; qlra]. Qed.
Lemma too_big_false b s : too_big b s = false <-> forall x, In x (coords s) -> inside b x.
Proof.
  unfold too_big, coords. rewrite !orb_false_iff, !qle_false. rewrite !qabs_lt. split.
  - intros [[[A B] C] D] x [<-|[<-|[<-|[<-|[]]]]]; assumption.
  - intro H. repeat split; apply H; cbn; auto.
Qed.
Lemma too_big_true b s : too_big b s = true -> exists x, In x (coords s) /\ ~ inside b x.
Proof.
  unfold too_big, coords. rewrite !orb_true_iff, !qle_true. intro H.
  assert (K : forall x, b <= qabs x -> ~ inside b x) by (intros x L G; apply qabs_lt in G; qlra).
  destruct H as [[[H|H]|H]|H]; eexists; (split; [|apply K, H]); cbn; auto.
Qed.
Lemma pow2_pos n : 0 < pow2 n. Proof. induction n as [|n IH]; [reflexivity|]. cbn [pow2]. qlra. Qed.
Lemma pow2_mono n m : (n <= m)%nat -> pow2 n <= pow2 m.
Proof. induction 1 as [|m H IH]; [apply Qcle_refl|]. cbn [pow2]. pose proof (pow2_pos m). qlra. Qed.
Lemma inside_mono b c x : b <= c -> inside b x -> inside c x. Proof. unfold inside. intros L [H K]. split; qlra. Qed.
(* any number is below a power of two *)
Lemma pow2_above x : exists n, inside (pow2 n) x.
Proof.
  assert (P : forall n, Q2Qc (inject_Z (Z.of_nat n)) < pow2 n).
  { induction n as [|n IH]; [reflexivity|]. cbn [pow2]. replace (Q2Qc (inject_Z (Z.of_nat (S n)))) with (Q2Qc (inject_Z (Z.of_nat n)) + 1).
    - pose proof (pow2_mono 0 n ltac:(lia)) as M. cbn [pow2] in M. qlra.
    - symmetry. rewrite Nat2Z.inj_succ. unfold Z.succ. apply Qc_is_canon. eapply Qeq_trans; [apply Qred_correct|]. symmetry. eapply Qeq_trans; [apply Qred_correct|].
      rewrite inject_Z_plus. apply Qplus_comp; [apply Qred_correct|reflexivity]. }
  assert (A : forall y, exists n, y < pow2 n).
  { intro y. exists (Z.to_nat (Z.max 0 (Qfloor (this y) + 1))). eapply Qclt_le_trans with (y := Q2Qc (inject_Z (Z.of_nat (Z.to_nat (Z.max 0 (Qfloor (this y) + 1)))))).
    - unfold Qclt. eapply Qlt_le_trans; [apply Qlt_floor|]. eapply Qle_trans; [|apply Qle_lteq; right; symmetry; apply Qred_correct]. rewrite <- Zle_Qle. lia.
    - apply Qclt_le_weak, P. }
  destruct (A x) as [n H]. destruct (A (- x)) as [m K]. exists (n + m)%nat. unfold inside.
  pose proof (pow2_mono n (n + m) ltac:(lia)). pose proof (pow2_mono m (n + m) ltac:(lia)). split; qlra.
Qed.
Lemma grow_spec f : forall n s b, grow f (pow2 n) s = Ok b -> exists m, (n <= m)%nat /\ b = pow2 m /\ (forall x, In x (coords s) -> inside b x) /\
  (m <> n -> exists x, In x (coords s) /\ ~ inside (pow2 (pred m)) x).
Proof.
  induction f as [|f IH]; intros n s b H; cbn [grow] in H; destruct (too_big (pow2 n) s) eqn:E.
  - discriminate.
  - injection H as <-. exists n. split; [lia|]. split; [reflexivity|]. split; [now apply too_big_false|congruence].
  - change (pow2 n * (1 + 1)) with (pow2 (S n)) in H. destruct (IH _ _ _ H) as [m [L [-> [A B]]]]. exists m. split; [lia|]. split; [reflexivity|]. split; [exact A|].
    intros _. destruct (Nat.eq_dec m (S n)) as [->|N]; [cbn [pred]; now apply too_big_true|apply B, N].
  - injection H as <-. exists n. split; [lia|]. split; [reflexivity|]. split; [now apply too_big_false|congruence].
Qed.
Lemma bound_spec f : forall l n b, bound_all f (pow2 n) l = Ok b -> exists m, (n <= m)%nat /\ b = pow2 m /\
  (forall s x, In s l -> In x (coords s) -> inside b x) /\
  (m <> n -> exists s x, In s l /\ In x (coords s) /\ ~ inside (pow2 (pred m)) x).
Proof.
  induction l as [|s l IH]; intros n b H; cbn [bound_all] in H.
  - injection H as <-. exists n. split; [lia|]. split; [reflexivity|]. split; [intros ? ? []|congruence].
  - destruct (grow f (pow2 n) s) as [i|] eqn:G; [|discriminate]. cbn [bind] in H. destruct (grow_spec _ _ _ _ G) as [k [L [-> [A B]]]].
    destruct (IH _ _ H) as [m [L' [-> [C D]]]]. exists m. split; [lia|]. split; [reflexivity|]. split.
    + intros s' x [<-|I] X; [|eapply C; eauto]. eapply inside_mono; [apply pow2_mono, L'|]. now apply A.
    + intro N. destruct (Nat.eq_dec m k) as [->|K].
      * destruct (B N) as [x [X Y]]. exists s, x. split; [now left|]. auto.
      * destruct (D K) as [s' [x [X [Y Z0]]]]. exists s', x. split; [now right|]. auto.
Qed.
Lemma grow_more f : forall n s b g, grow f (pow2 n) s = Ok b -> (f <= g)%nat -> grow g (pow2 n) s = Ok b.
Proof.
  induction f as [|f IH]; intros n s b g H L; destruct g as [|g]; try lia; cbn [grow] in *; destruct (too_big (pow2 n) s); try discriminate; auto.
  change (pow2 n * (1 + 1)) with (pow2 (S n)) in *. apply IH; auto. lia.
Qed.
Lemma grow_stops m : forall s n, (forall x, In x (coords s) -> inside (pow2 (n + m)) x) -> exists b, grow m (pow2 n) s = Ok b.
Proof.
  induction m as [|m IH]; intros s n H; cbn [grow].
  - rewrite Nat.add_0_r in H. apply too_big_false in H. rewrite H. eauto.
  - destruct (too_big (pow2 n) s); [|eauto]. change (pow2 n * (1 + 1)) with (pow2 (S n)). apply IH. intros x X. replace (S n + m)%nat with (n + S m)%nat by lia. now apply H.
Qed.
Lemma all_above (xs : list Qc) : exists n, forall x, In x xs -> inside (pow2 n) x.
Proof.
  induction xs as [|x xs [n IH]]; [exists O; intros ? []|]. destruct (pow2_above x) as [m H]. exists (n + m)%nat. intros y [<-|I].
  - eapply inside_mono; [apply pow2_mono with (n := m); lia|exact H].
  - eapply inside_mono; [apply pow2_mono with (n := n); lia|auto].
Qed.
Lemma bound_more f g : (f <= g)%nat -> forall l n b, bound_all f (pow2 n) l = Ok b -> bound_all g (pow2 n) l = Ok b.
Proof.
  intros L. induction l as [|s l IH]; intros n b H; cbn [bound_all] in *; [exact H|].
  destruct (grow f (pow2 n) s) as [i|] eqn:G; [|discriminate]. rewrite (grow_more _ _ _ _ g G L). cbn [bind] in *.
  destruct (grow_spec _ _ _ _ G) as [k [_ [-> _]]]. now apply IH.
Qed.
Lemma bound_stops l : exists f b, forall g, (f <= g)%nat -> bound_all g 1 l = Ok b.
Proof.
  assert (H : forall n, exists f b, bound_all f (pow2 n) l = Ok b).
  { induction l as [|s l IH]; intro n; [exists O, (pow2 n); reflexivity|].
    destruct (all_above (coords s)) as [m A]. destruct (grow_stops m s n) as [b G].
    { intros x X. eapply inside_mono; [apply pow2_mono with (n := m); lia|auto]. }
    destruct (grow_spec _ _ _ _ G) as [k [_ [-> _]]]. destruct (IH k) as [f [b F]]. exists (m + f)%nat, b. cbn [bound_all].
    rewrite (grow_more _ _ _ _ (m + f) G) by lia. cbn [bind]. eapply bound_more; [|exact F]. lia. }
  destruct (H O) as [f [b F]]. exists f, b. intros g L. eapply (bound_more f g L l O). exact F.
Qed.

(* ---- sorted points ---- *)

Lemma xy_eqb_true a b : xy_eqb a b = true <-> a = b.
Proof.
  unfold xy_eqb. rewrite andb_true_iff, !qeq_true. destruct a, b. cbn [fst snd]. split; [intros [-> ->]; reflexivity|]. intro E. split; [exact (f_equal fst E)|exact (f_equal snd E)].
Qed.
Lemma xy_mem l x : existsb (fun y => xy_eqb y x) l = true <-> In x l.
Proof.
  rewrite existsb_exists. split; [intros [y [I E]]; apply xy_eqb_true in E; now subst|intro I; exists x; split; auto; now apply xy_eqb_true].
Qed.
Lemma ordered_in {A} (R : A -> A -> Prop) l : ordered R l <-> forall u a v b w, l = u ++ a :: v ++ b :: w -> R a b.
Proof.
  induction l as [|x l IH]; cbn [ordered].
  - split; auto. intros _ u a v b w E. destruct u; discriminate.
  - rewrite IH. split.
    + intros [H K] [|y u] a v b w E; injection E as -> E; [|eapply K; exact E]. apply H. rewrite E. apply in_or_app. right. now left.
    + intro H. split; [|intros u a v b w ->; apply (H (x :: u) a v b w); reflexivity]. intros b I. apply in_split in I. destruct I as [v [w ->]].
      apply (H [] x v b w). reflexivity.
Qed.

Definition key_le (k : xy -> Qc) (desc : bool) (a b : xy) : Prop := if desc then k b <= k a else k a <= k b.
Lemma ins_key_perm k d p l : Permutation (p :: l) (ins_key k d p l).
Proof.
  induction l as [|a l IH]; cbn [ins_key]; auto. destruct (if d then _ else _); [|reflexivity].
  eapply Permutation_trans; [apply perm_swap|]. now constructor.
Qed.
Lemma ins_key_ordered k d p l : ordered (key_le k d) l -> ordered (key_le k d) (ins_key k d p l).
Proof.
  induction l as [|a l IH]; intros O; cbn [ins_key]; [split; auto; intros ? []|]. destruct O as [O1 O2].
  destruct (if d then (qlt (k p) (k a) || qeq (k p) (k a))%bool else (qlt (k a) (k p) || qeq (k a) (k p))%bool) eqn:E.
  - split; [|auto]. intros b I. eapply Permutation_in in I; [|apply Permutation_sym, ins_key_perm]. destruct I as [<-|I]; [|auto].
    unfold key_le. destruct d; apply orb_true_iff in E; rewrite qlt_true, qeq_true in E; destruct E as [E|E]; try (rewrite E; apply Qcle_refl); now apply Qclt_le_weak.
  - split; [|split; auto]. assert (H : key_le k d p a).
    { unfold key_le. destruct d; apply orb_false_iff in E; destruct E as [E _]; now apply qlt_false in E. }
    intros b [<-|I]; [exact H|]. specialize (O1 b I). unfold key_le in *. destruct d; eapply Qcle_trans; eauto.
Qed.
Lemma sort_key_spec k d l : Permutation l (sort_key k d l) /\ ordered (key_le k d) (sort_key k d l).
Proof.
  unfold sort_key. assert (H : forall l acc, ordered (key_le k d) acc -> Permutation (l ++ acc) (fold_left (fun acc p => ins_key k d p acc) l acc) /\ ordered (key_le k d) (fold_left (fun acc p => ins_key k d p acc) l acc)).
  { clear l. induction l as [|p l IH]; intros acc O; cbn [fold_left app]; [split; auto|].
    destruct (IH (ins_key k d p acc) (ins_key_ordered k d p acc O)) as [A B]. split; [|exact B].
    eapply Permutation_trans; [|exact A]. eapply Permutation_trans; [apply Permutation_middle|]. apply Permutation_app_head, ins_key_perm. }
  destruct (H l [] Logic.I) as [A B]. rewrite app_nil_r in A. auto.
Qed.

(* inserting one after another just behind the first *)
Lemma extend_fold (R : xy -> xy -> Prop) v1 v2 : v1 <> v2 -> forall l mid, NoDup (v1 :: mid ++ [v2]) ->
  ordered R l -> ordered (fun a b => R b a) mid -> (forall a b, In a l -> In b mid -> R b a) ->
  exists mid', fold_left (fun acc e => if existsb (fun x => xy_eqb x e) acc then acc else insert_at 1 e acc) l (v1 :: mid ++ [v2]) = v1 :: mid' ++ [v2] /\
    NoDup (v1 :: mid' ++ [v2]) /\ ordered (fun a b => R b a) mid' /\ forall x, In x (v1 :: mid' ++ [v2]) <-> In x (v1 :: mid ++ [v2]) \/ In x l.
Proof.
  intros N. induction l as [|e l IH]; intros mid D O M X; cbn [fold_left].
  - exists mid. repeat split; auto. intros [H|[]]; auto.
  - destruct O as [O1 O2]. destruct (existsb (fun x => xy_eqb x e) (v1 :: mid ++ [v2])) eqn:E.
    + apply xy_mem in E. destruct (IH mid D O2 M) as [m' [A [B [C F]]]]. { intros a b I J. apply X; auto. now right. }
      exists m'. split; [exact A|]. split; [exact B|]. split; [exact C|]. intro x. rewrite F. split; [intros [H|H]; auto; right; now right|].
      intros [H|[<-|H]]; auto.
    + assert (E' : ~ In e (v1 :: mid ++ [v2])) by (intro I; apply xy_mem in I; congruence).
      change (insert_at 1 e (v1 :: mid ++ [v2])) with (v1 :: (e :: mid) ++ [v2]).
      destruct (IH (e :: mid)) as [m' [A [B [C F]]]]; auto.
      * constructor; [|constructor; [|now inversion D]].
        -- intros [H|H]; [apply E'; left; now symmetry|]. inversion D; contradiction.
        -- intro H. apply E'. now right.
      * split; auto. intros b I. apply X; auto. now left.
      * intros a b I [<-|J]; [now apply O1|]. apply X; auto. now right.
      * exists m'. split; [exact A|]. split; [exact B|]. split; [exact C|]. intro x. rewrite F. cbn [app In]. tauto.
Qed.
Lemma extend_spec v1 v2 points : v1 <> v2 -> exists mid, inorder_extend [v1; v2] v1 v2 points = Ok (v1 :: mid ++ [v2]) /\
  NoDup (v1 :: mid ++ [v2]) /\ ordered (along v1 v2) mid /\ forall x, In x (v1 :: mid ++ [v2]) <-> x = v1 \/ x = v2 \/ In x points.
Proof.
  intro N. unfold inorder_extend.
  assert (D : exists k r, (if qlt (fst v1) (fst v2) then (fst, true) else if qlt (fst v2) (fst v1) then (fst, false)
     else if qlt (snd v1) (snd v2) then (snd, true) else (snd, false) : ((xy -> Qc) * bool)%type) = (k, r) /\ forall a b, key_le k r b a -> along v1 v2 a b).
  { unfold along, key_le.
    destruct (qlt (fst v1) (fst v2)) eqn:E1; [apply qlt_true in E1|apply qlt_false in E1].
    { eexists _, _. split; [reflexivity|]. intros a b H. split; [auto|]. split; [intro; exfalso; qlra|]. intro; exfalso; qlra. }
    destruct (qlt (fst v2) (fst v1)) eqn:E2; [apply qlt_true in E2|apply qlt_false in E2].
    { eexists _, _. split; [reflexivity|]. intros a b H. split; [intro; exfalso; qlra|]. split; [auto|]. intro; exfalso; qlra. }
    destruct (qlt (snd v1) (snd v2)) eqn:E3; [apply qlt_true in E3|apply qlt_false in E3]; eexists _, _; (split; [reflexivity|]); intros a b H;
    (split; [intro; exfalso; qlra|]); (split; [intro; exfalso; qlra|]); intros _; (split; [|]); auto; intro; exfalso; qlra. }
  destruct D as [k [r [-> HA]]]. assert (F : find_xy v2 [v1; v2] = Some 1%nat).
  { cbn [find_xy]. destruct (xy_eqb v1 v2) eqn:E; [apply xy_eqb_true in E; contradiction|]. assert (E2 : xy_eqb v2 v2 = true) by now apply xy_eqb_true. now rewrite E2. }
  rewrite F. destruct (sort_key_spec k r points) as [P O].
  destruct (extend_fold (key_le k r) v1 v2 N (sort_key k r points) []) as [mid [A [B [C G]]]]; auto.
  - cbn [app]. constructor; [intros [H|[]]; now apply N|]. constructor; [intros []|constructor].
  - exact Logic.I.
  - intros ? ? ? [].
  - cbn [app] in A. exists mid. split; [now rewrite A|]. split; [exact B|]. split.
    + rewrite ordered_in in *. intros u a v b w E. apply HA. eapply C. exact E.
    + intro x. rewrite G. cbn [app In]. split.
      * intros [[<-|[<-|[]]]|H]; auto. right. right. eapply Permutation_in; [apply Permutation_sym, P|exact H].
      * intros [->|[->|H]]; auto. right. eapply Permutation_in; [exact P|exact H].
Qed.
Lemma inner_spec v1 v2 points : v1 <> v2 -> exists mid, inner_points v1 v2 points = Ok mid /\ NoDup mid /\ ordered (along v1 v2) mid /\
  forall x, In x mid <-> In x points /\ x <> v1 /\ x <> v2.
Proof.
  intro N. unfold inner_points. destruct (extend_spec v1 v2 points N) as [mid [-> [D [O H]]]]. cbn [bind tl]. exists mid.
  rewrite removelast_last. split; [reflexivity|]. inversion D as [|? ? D1 D2]; subst. apply NoDup_remove in D2. rewrite app_nil_r in D2. destruct D2 as [D2 D3].
  split; [exact D2|]. split; [exact O|]. intro x. specialize (H x). cbn [In] in H. rewrite in_app_iff in H. cbn [In] in H. split.
  - intro I. assert (X1 : x <> v1) by (intros ->; apply D1, in_or_app; now left). assert (X2 : x <> v2) by (intros ->; contradiction).
    split; [|auto]. destruct (proj1 H) as [K|[K|K]]; auto; congruence.
  - intros [I [X1 X2]]. destruct (proj2 H) as [K|[K|[K|[]]]]; auto; congruence.
Qed.

(* ---- polygons ---- *)

Lemma mapR_ok {A B} (f : A -> res B) (g : A -> B) l : (forall a, In a l -> f a = Ok (g a)) -> mapR f l = Ok (map g l).
Proof.
  induction l as [|a l IH]; intro H; cbn [mapR map]; auto. rewrite (H a (or_introl eq_refl)). cbn [bind]. rewrite IH; auto. intros b I. apply H. now right.
Qed.
Lemma polygon_spec {A} (poly : list A) : exists l, polygon_segments poly = Ok l /\ map fst l = poly /\
  map snd l = match poly with [] => [] | a :: r => r ++ [a] end.
Proof.
  destruct poly as [|a r] eqn:E; [exists []; repeat split|]. rewrite <- E. unfold polygon_segments.
  set (n := length poly). assert (NP : (0 < n)%nat) by (unfold n; rewrite E; cbn; lia).
  rewrite (mapR_ok _ (fun i => (nth i poly a, nth ((i + 1) mod n) poly a))).
  - eexists. split; [reflexivity|]. rewrite !map_map. cbn [fst snd]. split.
    + apply nth_ext with (d := a) (d' := a); [now rewrite map_length, seq_length|]. intros i L. rewrite map_length, seq_length in L.
      rewrite nth_indep with (d' := nth 0 poly a) by (rewrite map_length, seq_length; exact L).
      rewrite map_nth with (f := fun i => nth i poly a). now rewrite seq_nth.
    + assert (LR : length (r ++ [a]) = n) by (unfold n; rewrite E, app_length; cbn; lia).
      apply nth_ext with (d := a) (d' := a); [now rewrite map_length, seq_length|]. intros i L. rewrite map_length, seq_length in L.
      rewrite nth_indep with (d' := nth ((0 + 1) mod n) poly a) by (rewrite map_length, seq_length; exact L).
      rewrite map_nth with (f := fun i => nth ((i + 1) mod n) poly a). rewrite seq_nth by exact L. cbn [Nat.add].
      destruct (Nat.eq_dec (i + 1) n) as [K|K].
      * rewrite K, Nat.mod_same by lia. assert (LR' : i = length r) by (rewrite app_length in LR; cbn in LR; lia).
        rewrite app_nth2 by lia. rewrite LR', Nat.sub_diag. rewrite E. reflexivity.
      * rewrite Nat.mod_small by lia. rewrite app_nth1 by (rewrite app_length in LR; cbn in LR; lia). rewrite E, Nat.add_1_r. reflexivity.
  - intros i I. apply in_seq in I. rewrite (nth_error_nth' poly a) by (fold n; lia). cbn [bind].
    rewrite (nth_error_nth' poly a) by (fold n; apply Nat.mod_upper_bound; lia). reflexivity.
Qed.
