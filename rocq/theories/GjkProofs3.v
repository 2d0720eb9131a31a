(* The compiled collision test with tol = 0: a yes is right.  Moving both shapes. *)
From Coq Require Import List ZArith Lia Bool QArith Qcanon.
From Verif Require Import Common ListLib QcLib ArrZ SumLib NurbsModel DerModel PlnModel PlnSpec PlnProofs2 PlnProofs4 PlnProofs5 GjkModel GjkSpec GjkProofs1 GjkProofs2.
Import ListNotations.
Local Open Scope Z_scope.
Local Open Scope Qc_scope.

Ltac vring := unfold dot3, cross3, minus3, vneg, along, zero3, det3, dot3, cross3; cbn [vx vy vz]; ring.

Lemma v3_dec (a b : v3) : {a = b} + {a <> b}.
Proof.
  destruct (Qc_eq_dec (vx a) (vx b)) as [X|X]; [|right; congruence]. destruct (Qc_eq_dec (vy a) (vy b)) as [Y|Y]; [|right; congruence].
  destruct (Qc_eq_dec (vz a) (vz b)) as [Z|Z]; [left; now apply v3_ext|right; congruence].
Qed.

Section S.
Variable P : v3 -> Prop.
Definition inside : Prop := hull P zero3.
(* points held and direction while the origin is not known to be inside *)
Inductive state : list v3 -> v3 -> Prop :=
| st1 : forall a, a <> zero3 -> state [a] (vneg a)
| st2 : forall x z, 0 < dot3 (minus3 x z) (vneg z) -> cross3 (minus3 x z) z <> zero3 ->
    state [x; z] (cross3 (cross3 (minus3 x z) (vneg z)) (minus3 x z))
| st3 : forall x y z, 0 < dot3 (cross3 (minus3 y z) (minus3 x z)) (vneg z) ->
    state [x; y; z] (cross3 (minus3 y z) (minus3 x z)).

(* the points held lie behind the direction *)
Lemma st2_behind x z : cross3 (minus3 x z) z <> zero3 -> dot3 z (cross3 (cross3 (minus3 x z) (vneg z)) (minus3 x z)) < 0.
Proof.
  intro H. assert (0 < dot3 (cross3 (minus3 x z) z) (cross3 (minus3 x z) z)).
  { destruct (Qclt_le_dec 0 (dot3 (cross3 (minus3 x z) z) (cross3 (minus3 x z) z))) as [L|L]; [exact L|]. exfalso. apply H.
    apply dot_self_zero. pose proof (dot_self_nonneg (cross3 (minus3 x z) z)). qlra. }
  replace (dot3 z (cross3 (cross3 (minus3 x z) (vneg z)) (minus3 x z))) with (- dot3 (cross3 (minus3 x z) z) (cross3 (minus3 x z) z)) by vring.
  qlra.
Qed.
Lemma st2_level x z : dot3 x (cross3 (cross3 (minus3 x z) (vneg z)) (minus3 x z)) = dot3 z (cross3 (cross3 (minus3 x z) (vneg z)) (minus3 x z)).
Proof. vring. Qed.
Lemma st3_level x y z : dot3 x (cross3 (minus3 y z) (minus3 x z)) = dot3 z (cross3 (minus3 y z) (minus3 x z)) /\
  dot3 y (cross3 (minus3 y z) (minus3 x z)) = dot3 z (cross3 (minus3 y z) (minus3 x z)).
Proof. split; vring. Qed.

(* two points: the older one behind, the newer one not *)
Lemma segment b a d : P b -> P a -> dot3 b d < 0 -> 0 <= dot3 a d -> 0 < dot3 (minus3 b a) (vneg a) ->
  inside \/ state [b; a] (cross3 (cross3 (minus3 b a) (vneg a)) (minus3 b a)).
Proof.
  intros Pb Pa Lb La T. destruct (v3_dec (cross3 (minus3 b a) a) zero3) as [E|E]; [|right; now constructor].
  left. assert (N : minus3 b a <> zero3).
  { intro K. rewrite K in T. replace (dot3 zero3 (vneg a)) with 0 in T by vring. qlra. }
  destruct (parallel_cross a (minus3 b a) N) as [s Es].
  { apply v3_inv in E. unfold zero3 in *. cbn [vx vy vz] in E. unfold cross3 in *. cbn [vx vy vz] in E. destruct E as [E1 [E2 E3]].
    apply v3_ext; cbn [vx vy vz]; qlra. }
  set (u := minus3 b a) in *.
  assert (UU : 0 < dot3 u u).
  { destruct (Qclt_le_dec 0 (dot3 u u)) as [L|L]; [exact L|]. exfalso. apply N. apply dot_self_zero. pose proof (dot_self_nonneg u). qlra. }
  assert (S0 : dot3 u (vneg a) = (- s) * dot3 u u) by (rewrite Es at 1; vring).
  rewrite S0 in T.
  assert (S1 : s < 0).
  { destruct (Qclt_le_dec s 0) as [L|L]; [exact L|]. pose proof (qc_mul_nonneg s (dot3 u u) L ltac:(qlra)).
    replace (- s * dot3 u u) with (- (s * dot3 u u)) in T by ring. qlra. }
  assert (S2 : -1%Qc <= s).
  { destruct (Qclt_le_dec s (-1%Qc)) as [L|L]; [|exact L]. exfalso.
    assert (Hd : dot3 a d = s * (dot3 b d - dot3 a d)) by (rewrite Es at 1; unfold u; vring).
    pose proof (qc_mul_nonneg (- s - 1) (dot3 a d) ltac:(qlra) La) as M1.
    pose proof (qc_mul_pos (- s) (- dot3 b d) ltac:(qlra) ltac:(qlra)) as M2.
    assert (E4 : (- s - 1) * dot3 a d + (- s) * (- dot3 b d) = s * (dot3 b d - dot3 a d) - dot3 a d) by ring.
    rewrite <- Hd in E4. qlra. }
  apply (hull_weights P a b (1 + s) (- s)); auto using hull_point; try qlra.
  1-3: apply v3_inv in Es; unfold u, along, minus3, zero3 in *; cbn [vx vy vz] in *; destruct Es as [X [Y Z]].
  - transitivity (vx a - (0 + s * (vx b - vx a))); [rewrite <- X; ring|ring].
  - transitivity (vy a - (0 + s * (vy b - vy a))); [rewrite <- Y; ring|ring].
  - transitivity (vz a - (0 + s * (vz b - vz a))); [rewrite <- Z; ring|ring].
Qed.

Lemma two b a d : P b -> P a -> dot3 b d < 0 -> 0 <= dot3 a d -> inside \/ state (fst (chandle2 b a 0)) (snd (chandle2 b a 0)).
Proof.
  intros Pb Pa Lb La. unfold chandle2. cbv zeta. change vdot with dot3. change vsub with minus3. change vcross with cross3.
  destruct (qlt 0 (dot3 (minus3 b a) (vneg a))) eqn:E; cbn [fst snd].
  - apply qlt_true in E. now apply segment with (d := d).
  - destruct (v3_dec a zero3) as [Z|Z]; [left; unfold inside; rewrite <- Z; now constructor|right; now constructor].
Qed.

(* the origin in the plane of three points *)
Lemma plane_weights u w p : dot3 (cross3 u w) p = 0 ->
  dot3 (cross3 u w) (cross3 u w) * vx p = dot3 (cross3 p w) (cross3 u w) * vx u + dot3 (cross3 u p) (cross3 u w) * vx w /\
  dot3 (cross3 u w) (cross3 u w) * vy p = dot3 (cross3 p w) (cross3 u w) * vy u + dot3 (cross3 u p) (cross3 u w) * vy w /\
  dot3 (cross3 u w) (cross3 u w) * vz p = dot3 (cross3 p w) (cross3 u w) * vz u + dot3 (cross3 u p) (cross3 u w) * vz w.
Proof.
  intro H. set (n := cross3 u w) in *. 
  assert (G : forall k, dot3 n p * k = 0) by (intro k; rewrite H; ring).
  split; [|split].
  - transitivity (dot3 (cross3 p w) n * vx u + dot3 (cross3 u p) n * vx w + dot3 n p * vx n); [unfold n; vring|rewrite G; ring].
  - transitivity (dot3 (cross3 p w) n * vy u + dot3 (cross3 u p) n * vy w + dot3 n p * vy n); [unfold n; vring|rewrite G; ring].
  - transitivity (dot3 (cross3 p w) n * vz u + dot3 (cross3 u p) n * vz w + dot3 n p * vz n); [unfold n; vring|rewrite G; ring].
Qed.

Lemma in_plane c b a d : P c -> P b -> P a -> dot3 c d = dot3 b d -> dot3 b d < 0 -> 0 <= dot3 a d -> b <> c ->
  dot3 (cross3 (cross3 (minus3 b a) (minus3 c a)) (minus3 c a)) (vneg a) <= 0 ->
  dot3 (cross3 (minus3 b a) (cross3 (minus3 b a) (minus3 c a))) (vneg a) <= 0 ->
  dot3 (cross3 (minus3 b a) (minus3 c a)) (vneg a) = 0 -> inside.
Proof.
  intros Pc Pb Pa Ecb Lb La Nbc R1 R2 R0. unfold inside.
  set (u := minus3 b a) in *. set (w := minus3 c a) in *. set (n := cross3 u w) in *.
  assert (Eu : dot3 u d = dot3 b d - dot3 a d) by (unfold u; vring).
  assert (Ew : dot3 w d = dot3 u d) by (transitivity (dot3 c d - dot3 a d); [unfold w; vring|rewrite Ecb, Eu; reflexivity]).
  destruct (v3_dec n zero3) as [Z|Z].
  - (* collinear *) exfalso. assert (Nu : w <> zero3).
    { intro K. rewrite K in Ew. replace (dot3 zero3 d) with 0 in Ew by vring. qlra. }
    destruct (parallel_cross u w Nu Z) as [s Es].
    assert (E1 : dot3 u d = s * dot3 u d) by (rewrite <- Ew at 2; rewrite Es at 1; vring).
    assert (S1 : s = 1).
    { assert (E2 : (s - 1) * dot3 u d = 0) by (replace ((s - 1) * dot3 u d) with (s * dot3 u d - dot3 u d) by ring; rewrite <- E1; ring).
      apply Qcmult_integral in E2. destruct E2 as [E2|E2]; [replace s with (s - 1 + 1) by ring; rewrite E2; ring|]. qlra. }
    apply Nbc. rewrite S1 in Es. apply v3_inv in Es. unfold u, w, along, zero3, minus3 in Es. cbn [vx vy vz] in Es. destruct Es as [X [Y ZZ]].
    apply v3_ext; qlra.
  - assert (NN : 0 < dot3 n n).
    { destruct (Qclt_le_dec 0 (dot3 n n)) as [L|L]; [exact L|]. exfalso. apply Z. apply dot_self_zero. pose proof (dot_self_nonneg n). qlra. }
    destruct (plane_weights u w (vneg a) R0) as [X [Y ZZ]]. fold n in X, Y, ZZ.
    set (wb := dot3 (cross3 (vneg a) w) n) in *. set (wc := dot3 (cross3 u (vneg a)) n) in *.
    assert (B0 : 0 <= wb) by (replace wb with (- dot3 (cross3 n w) (vneg a)) by (unfold wb; vring); qlra).
    assert (C0 : 0 <= wc) by (replace wc with (- dot3 (cross3 u n) (vneg a)) by (unfold wc; vring); qlra).
    assert (A0 : 0 <= dot3 n n - wb - wc).
    { destruct (Qclt_le_dec (dot3 n n - wb - wc) 0) as [L|L]; [|exact L]. exfalso.
      assert (E : dot3 n n * dot3 (vneg a) d = wb * dot3 u d + wc * dot3 w d).
      { unfold dot3 at 2 3 4. transitivity (dot3 n n * vx (vneg a) * vx d + dot3 n n * vy (vneg a) * vy d + dot3 n n * vz (vneg a) * vz d); [ring|].
        rewrite X, Y, ZZ. ring. }
      rewrite Ew, Eu in E. replace (dot3 (vneg a) d) with (- dot3 a d) in E by vring.
      pose proof (qc_mul_nonneg (wb + wc - dot3 n n) (dot3 a d) ltac:(qlra) La) as M1.
      pose proof (qc_mul_pos (wb + wc) (- dot3 b d) ltac:(qlra) ltac:(qlra)) as M2.
      assert (E2 : (wb + wc - dot3 n n) * dot3 a d + (wb + wc) * - dot3 b d = dot3 n n * - dot3 a d - (wb * (dot3 b d - dot3 a d) + wc * (dot3 b d - dot3 a d))) by ring.
      rewrite E in E2. qlra. }
    apply (hull_weights3 P a b c (dot3 n n - wb - wc) wb wc); auto using hull_point; try qlra;
      clear - X Y ZZ; unfold u, w, vneg, minus3, zero3 in *; cbn [vx vy vz] in *; qlra.
Qed.

Lemma three c b a d : P c -> P b -> P a -> dot3 c d = dot3 b d -> dot3 b d < 0 -> 0 <= dot3 a d -> b <> c ->
  inside \/ state (fst (chandle3 c b a 0)) (snd (chandle3 c b a 0)).
Proof.
  intros Pc Pb Pa Ecb Lb La Nbc. unfold chandle3. cbv zeta. change vdot with dot3. change vsub with minus3. change vcross with cross3.
  pose proof (two b a d Pb Pa Lb La) as T2.
  destruct (qlt 0 (dot3 (cross3 (cross3 (minus3 b a) (minus3 c a)) (minus3 c a)) (vneg a))) eqn:E1.
  - destruct (qlt 0 (dot3 (minus3 c a) (vneg a))) eqn:E2; [|exact T2]. apply qlt_true in E2. cbn [fst snd].
    apply segment with (d := d); auto. now rewrite Ecb.
  - apply qlt_false in E1. destruct (qlt 0 (dot3 (cross3 (minus3 b a) (cross3 (minus3 b a) (minus3 c a))) (vneg a))) eqn:E2; [exact T2|].
    apply qlt_false in E2. destruct (qlt 0 (dot3 (cross3 (minus3 b a) (minus3 c a)) (vneg a))) eqn:E3; cbn [fst snd].
    + apply qlt_true in E3. right. now constructor.
    + apply qlt_false in E3. destruct (Qc_eq_dec (dot3 (cross3 (minus3 b a) (minus3 c a)) (vneg a)) 0) as [Z|Z].
      * left. now apply in_plane with (c := c) (b := b) (a := a) (d := d).
      * right. replace (vneg (cross3 (minus3 b a) (minus3 c a))) with (cross3 (minus3 c a) (minus3 b a)) by (unfold vneg, cross3, minus3; cbn [vx vy vz]; apply v3_ext; cbn [vx vy vz]; ring).
        constructor. replace (dot3 (cross3 (minus3 c a) (minus3 b a)) (vneg a)) with (- dot3 (cross3 (minus3 b a) (minus3 c a)) (vneg a)) by vring.
        assert (dot3 (cross3 (minus3 b a) (minus3 c a)) (vneg a) < 0); [|qlra].
        destruct (Qcle_lt_or_eq _ _ E3) as [L|L]; [exact L|contradiction].
Qed.

(* one pass *)
Lemma pass s d p : state s d -> (forall q, In q s -> P q) -> P p -> 0 <= dot3 p d ->
  exists b s' d', chandle_simplex (s ++ [p]) d 0 = Ok (b, s', d') /\ (b = true -> inside) /\ (b = false -> inside \/ state s' d').
Proof.
  intros H. destruct H as [a Na|x z T N|x y z T]; intros Hs Hp Lp; cbn [app].
  - cbn [chandle_simplex]. eexists _, _, _. split; [reflexivity|]. split; [discriminate|]. intros _.
    apply two with (d := vneg a); auto; [apply Hs; now left|].
    assert (0 < dot3 a a) as L.
    { destruct (Qclt_le_dec 0 (dot3 a a)) as [L|L]; [exact L|]. exfalso. apply Na. apply dot_self_zero. pose proof (dot_self_nonneg a). qlra. }
    rewrite neg_dot. qlra.
  - cbn [chandle_simplex]. eexists _, _, _. split; [reflexivity|]. split; [discriminate|]. intros _.
    eapply three with (d := cross3 (cross3 (minus3 x z) (vneg z)) (minus3 x z)).
    + apply Hs; now left.
    + apply Hs; right; now left.
    + exact Hp.
    + apply st2_level.
    + now apply st2_behind.
    + exact Lp.
    + intros ->. apply N. unfold cross3, minus3, zero3. cbn [vx vy vz]. apply v3_ext; cbn [vx vy vz]; ring.
  - set (d := cross3 (minus3 y z) (minus3 x z)) in *.
    assert (Lz : dot3 z d < 0) by (replace (dot3 d (vneg z)) with (- dot3 z d) in T by vring; qlra).
    destruct (st3_level x y z) as [Lx Ly]. fold d in Lx, Ly.
    assert (Px : P x) by (apply Hs; now left). assert (Py : P y) by (apply Hs; right; now left). assert (Pz : P z) by (apply Hs; right; right; now left).
    assert (Nd : d <> zero3) by (intro K; rewrite K in Lz; replace (dot3 z zero3) with 0 in Lz by vring; qlra).
    cbn [chandle_simplex]. unfold chandle4. cbv zeta. change vdot with dot3. change vsub with minus3. change vcross with cross3. rewrite !face_det.
    destruct (qlt 0 (- det3 p z y)) eqn:E1; [|destruct (qlt 0 (- det3 p y x)) eqn:E2; [|destruct (qlt 0 (- det3 p x z)) eqn:E3]];
      eexists _, _, _; (split; [reflexivity|]).
    + split; [discriminate|]. intros _. apply three with (d := d); auto. intros ->. apply Nd. unfold d, cross3, minus3, zero3. cbn [vx vy vz]. apply v3_ext; cbn [vx vy vz]; ring.
    + split; [discriminate|]. intros _. apply three with (d := d); auto. intros ->. apply Nd. unfold d, cross3, minus3, zero3. cbn [vx vy vz]. apply v3_ext; cbn [vx vy vz]; ring.
    + split; [discriminate|]. intros _. apply three with (d := d); auto; [congruence|congruence|].
      intros ->. apply Nd. unfold d, cross3, minus3, zero3. cbn [vx vy vz]. apply v3_ext; cbn [vx vy vz]; ring.
    + split; [|discriminate]. intros _. apply qlt_false in E1, E2, E3.
      assert (D0 : det3 z x y = - dot3 z d) by (unfold d; vring).
      assert (DS : det3 z x y + det3 p y x + det3 p x z + det3 p z y = dot3 p d - dot3 z d) by (unfold d; vring).
      apply (around_hull P p z y x); auto; [repeat split; qlra|rewrite D0; qlra|rewrite DS; qlra].
Qed.
End S.

Lemma cgjk_sound sqrt A B n k : cgjk_passes sqrt A B 0 n = Ok (true, k) -> meet A B.
Proof.
  intro H. assert (NA : A <> []) by (intro K; subst; discriminate). assert (NB : B <> []) by (intro K; subst; destruct A; discriminate).
  rewrite cgjk_run in H by auto. apply hull_meet.
  set (Inv := fun s d => held A B s d /\ (inside (diffs A B) \/ state s d)).
  assert (St : forall s d p, Inv s d -> diffs A B p -> (forall q, diffs A B q -> dot3 q d <= dot3 p d) ->
    exists b s' d', chandle_simplex (s ++ [p]) d 0 = Ok (b, s', d') /\ (0 <= dot3 p d -> b = false -> Inv s' d')).
  { intros s d p [H1 H2] Dp Mp. destruct (good_step _ A B (chandle_good 0) s d p H1 Dp Mp) as [b [s' [d' [E F]]]].
    exists b, s', d'. split; [exact E|]. intros Lp Hb. split; [now apply F|]. destruct H2 as [H2|H2]; [now left|].
    destruct (pass (diffs A B) s d p H2 (proj2 H1) Dp Lp) as [b2 [s2 [d2 [E2 [_ F2]]]]]. rewrite E2 in E. injection E as -> -> ->. now apply F2. }
  assert (I0 : Inv [fst (support A B (mkv 1 0 0))] (vneg (fst (support A B (mkv 1 0 0))))).
  { pose proof (start_held A B (mkv 1 0 0) (vneg (fst (support A B (mkv 1 0 0)))) NA NB) as H0. split; [exact H0|].
    destruct (v3_dec (fst (support A B (mkv 1 0 0))) zero3) as [Z|Z]; [left|right; now constructor].
    unfold inside. rewrite <- Z. constructor. apply (proj2 H0). now left. }
  destruct (loop_true sqrt (fun s d => chandle_simplex s d 0) A B 0 NA NB Inv St _ _ _ _ _ _ I0 H) as [s0 [d0 [p [s' [d' [[I1 [I2|I2]] [Dp [Mp [Lp Hh]]]]]]]]].
  - exact I2.
  - destruct (pass (diffs A B) s0 d0 p I2 (proj2 I1) Dp Lp) as [b2 [s2 [d2 [E2 [F2 _]]]]].
    cbv beta in Hh. rewrite E2 in Hh. injection Hh as -> -> ->. now apply F2.
Qed.

(* ---- moving both shapes ---- *)
Lemma support_moved_from t d : forall vs i h v k,
  support_from i (moved t vs) d (Some (h + dot3 t d), along v 1 t, k) =
  (let r := support_from i vs d (Some h, v, k) in
   (match fst (fst r) with Some x => Some (x + dot3 t d) | None => None end, along (snd (fst r)) 1 t, snd r)).
Proof.
  induction vs as [|a vs IH]; intros i h v k; cbn [moved map support_from]; [reflexivity|]. fold (moved t vs). cbn [fst].
  replace (vdot (along a 1 t) d) with (vdot a d + dot3 t d) by (unfold vdot; vring).
  replace (qlt (h + dot3 t d) (vdot a d + dot3 t d)) with (qlt h (vdot a d)).
  2:{ destruct (qlt h (vdot a d)) eqn:E; symmetry; [apply qlt_true in E; apply qlt_true|apply qlt_false in E; apply qlt_false]; qlra. }
  destruct (qlt h (vdot a d)); apply IH.
Qed.
Lemma support_moved_vector t vs d : vs <> [] ->
  support_vector (moved t vs) d = (along (fst (support_vector vs d)) 1 t, snd (support_vector vs d)).
Proof.
  destruct vs as [|a vs]; [congruence|]. intros _. unfold support_vector. cbn [moved map support_from fst]. fold (moved t vs).
  replace (vdot (along a 1 t) d) with (vdot a d + dot3 t d) by (unfold vdot; vring).
  rewrite support_moved_from. reflexivity.
Qed.
Lemma support_moved t A B d : A <> [] -> B <> [] -> support (moved t A) (moved t B) d = support A B d.
Proof.
  intros NA NB. unfold support. rewrite !support_moved_vector by auto. cbn [fst snd]. f_equal.
  unfold vsub, along. cbn [vx vy vz]. apply v3_ext; cbn [vx vy vz]; ring.
Qed.
Lemma loop_moved sqrt handle t A B tol : A <> [] -> B <> [] -> forall n k m s d,
  gjk_loop sqrt handle (moved t A) (moved t B) tol n k m s d = gjk_loop sqrt handle A B tol n k m s d.
Proof.
  intros NA NB. induction n as [|n IH]; intros k m s d; [reflexivity|]. rewrite !loop_S. cbv zeta. rewrite support_moved by auto.
  match goal with |- (if ?f then _ else _) = _ => destruct f end; [reflexivity|].
  destruct (qlt _ 0); [reflexivity|]. destruct (handle _ d) as [[[b s'] d']|e]; [|reflexivity]. cbn [bind fst snd].
  destruct b; [reflexivity|]. apply IH.
Qed.
Lemma moved_nil t A : A <> [] -> moved t A <> [].
Proof. destruct A; [congruence|discriminate]. Qed.
Lemma moved_len t A : lenZ (moved t A) = lenZ A.
Proof. unfold lenZ, moved. now rewrite map_length. Qed.
Lemma gjk_moved sqrt t A B tol n : gjk sqrt (moved t A) (moved t B) tol n = gjk sqrt A B tol n /\
  cgjk sqrt (moved t A) (moved t B) tol n = cgjk sqrt A B tol n.
Proof.
  destruct A as [|a A]; [split; reflexivity|]. destruct B as [|b B]; [split; reflexivity|].
  assert (NA : a :: A <> []) by discriminate. assert (NB : b :: B <> []) by discriminate.
  unfold gjk, cgjk. rewrite !gjk_run, !cgjk_run by auto using moved_nil. unfold passes, run. rewrite !moved_len, !support_moved, !loop_moved by auto. auto.
Qed.

(* ---- the square root is only taken of zero ---- *)
Lemma loop_sqrt f g handle A B tol : A <> [] -> B <> [] -> is_sqrt (f 0) 0 -> is_sqrt (g 0) 0 -> forall n k m s d, memo_ok A B m ->
  gjk_loop f handle A B tol n k m s d = gjk_loop g handle A B tol n k m s d.
Proof.
  intros NA NB F G. induction n as [|n IH]; intros k m s d HM; [reflexivity|]. rewrite !loop_S. cbv zeta.
  destruct (support_ok A B d NA NB) as [p [i [j [a [b [Hs [Ra [Rb [Ep [Dp Mp]]]]]]]]]]. rewrite Hs. cbn [fst snd].
  assert (M' : memo_ok A B (match seen m (i, j) with Some _ => m | None => (i, j, p) :: m end)).
  { destruct (seen m (i, j)); [exact HM|]. rewrite Ep. now apply memo_add. }
  assert (E : match seen m (i, j) with Some q => qlt tol (scalar_norm f (vsub q p)) | None => false end =
              match seen m (i, j) with Some q => qlt tol (scalar_norm g (vsub q p)) | None => false end).
  { destruct (seen m (i, j)) as [q|] eqn:Sq; [|reflexivity].
    destruct (HM _ _ Sq) as [a' [b' [Ha [Hb ->]]]]. cbn [fst snd] in Ha, Hb. rewrite Ra in Ha. rewrite Rb in Hb.
    injection Ha as <-. injection Hb as <-. rewrite Ep. change minus3 with vsub. now rewrite !norm_self. }
  rewrite E. match goal with |- (if ?f then _ else _) = _ => destruct f end; [reflexivity|].
  destruct (qlt _ 0); [reflexivity|]. destruct (handle _ d) as [[[bb s'] d']|e]; [|reflexivity]. cbn [bind fst snd].
  destruct bb; [reflexivity|]. now apply IH.
Qed.
Lemma gjk_sqrt f g A B tol n : is_sqrt (f 0) 0 -> is_sqrt (g 0) 0 -> gjk f A B tol n = gjk g A B tol n /\ cgjk f A B tol n = cgjk g A B tol n.
Proof.
  intros F G. destruct A as [|a A]; [split; reflexivity|]. destruct B as [|b B]; [split; reflexivity|].
  assert (NA : a :: A <> []) by discriminate. assert (NB : b :: B <> []) by discriminate.
  unfold gjk, cgjk. rewrite !gjk_run, !cgjk_run by auto. unfold run.
  split; (rewrite (loop_sqrt f g); auto using start_memo).
Qed.
