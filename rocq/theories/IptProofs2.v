(* The Newton iterations. *)
From Coq Require Import List ZArith Lia Bool QArith Qcanon.
From Verif Require Import Common ListLib QcLib ArrZ SumLib NurbsModel DerModel PlnModel PlnSpec PlnProofs2 PlnProofs4 PlnProofs5 VecModel VecSpec VecProofs3 IptModel IptSpec.
Import ListNotations.
Local Open Scope Z_scope.
Local Open Scope Qc_scope.

Lemma lagrange a b : dot3 a a * dot3 b b - dot3 b a * dot3 a b = dot3 (cross3 a b) (cross3 a b).
Proof. v3d. ring. Qed.
Lemma gram_zero a b : det2 (mkm (vdot a a) (vdot b a) (vdot a b) (vdot b b)) <> 0 <-> cross3 a b <> zero3.
Proof.
  unfold det2. cbn [m00 m01 m10 m11]. change vdot with dot3. rewrite lagrange. split; intros H K; apply H.
  - rewrite K. v3d. ring.
  - apply dot_self_zero. auto.
Qed.
Lemma along_minus q d : minus3 (vadd d q) q = d.
Proof. apply v3_ext; v3d; ring. Qed.

Section Two.
Variables f1 f2 : v3 -> Qc.
Variables g1 g2 : v3 -> v3.
Variable sqrt : Qc -> Qc.

Lemma step_ok q ab : exists ab' ok dl, newton_step f1 f2 g1 g2 q ab = Ok (ab', ok, dl) /\
  dl = comb3 (p0 ab') (g1 q) (p1 ab') (g2 q) /\
  (ok = true <-> cross3 (g1 q) (g2 q) <> zero3) /\ (ok = false -> ab' = ab) /\
  (ok = true -> tangent_zero f1 g1 q (vadd dl q) /\ tangent_zero f2 g2 q (vadd dl q)).
Proof.
  unfold newton_step. set (a := g1 q). set (b := g2 q).
  destruct (solve2x2_ok (mkm (vdot a a) (vdot b a) (vdot a b) (vdot b b)) (mkp (- f1 q) (- f2 q)) ab) as [x [o [E [R [S1 S2]]]]].
  rewrite E. cbn [bind]. exists x, o. eexists. split; [reflexivity|]. split; [reflexivity|]. rewrite gram_zero in R. split; [auto|]. split; [auto|].
  intro T. pose proof (proj2 (S1 T x) eq_refl) as K. unfold app2 in K. apply v2_inv in K. cbn [p0 p1 m00 m01 m10 m11] in K. destruct K as [K1 K2].
  unfold tangent_zero. rewrite along_minus. fold a b. v3d. split; [apply (f_equal (fun z => z + f1 q)) in K1|apply (f_equal (fun z => z + f2 q)) in K2].
  - ring_simplify in K1. ring_simplify. rewrite <- K1. ring.
  - ring_simplify in K2. ring_simplify. rewrite <- K2. ring.
Qed.

(* r was reached from q in one step of length n *)
Definition stepped (q r : v3) (n : Qc) (ab : v2) : Prop := exists ab0 ok dl,
  newton_step f1 f2 g1 g2 q ab0 = Ok (ab, ok, dl) /\ r = vadd dl q /\ n = scalar_norm sqrt dl.

Lemma loop_ok tol n : forall q qn ab d, stepped q qn d ab ->
  exists c q' r ab' d', newton_loop sqrt f1 f2 g1 g2 n tol q qn ab d = Ok (c, q', r) /\ stepped q' r d' ab' /\
  (c = true -> d' <= tol) /\ (c = false -> tol < d').
Proof.
  induction n as [|n IH]; intros q qn ab d H; cbn [newton_loop]; destruct (qlt tol d) eqn:Q; rewrite ?qlt_true, ?qlt_false in Q.
  - exists false, q, qn, ab, d. split; [auto|]. split; [auto|]. split; [discriminate|auto].
  - exists true, q, qn, ab, d. split; [auto|]. split; [auto|]. split; [auto|discriminate].
  - destruct (step_ok qn ab) as [ab' [ok [dl [E _]]]]. rewrite E. cbn [bind fst]. apply IH. exists ab, ok, dl. auto.
  - exists true, q, qn, ab, d. split; [auto|]. split; [auto|]. split; [auto|discriminate].
Qed.

Lemma run_ok q0 tol mi : exists c q' r ab' d', icp_run sqrt f1 f2 g1 g2 q0 tol mi = Ok (c, q', r) /\ stepped q' r d' ab' /\
  (c = true -> d' <= tol) /\ (c = false -> tol < d').
Proof.
  unfold icp_run. destruct (step_ok q0 (mkp 0 0)) as [ab' [ok [dl [E _]]]]. rewrite E. cbn [bind fst].
  apply loop_ok. exists (mkp 0 0), ok, dl. split; auto. split; auto. change vsub with minus3. now rewrite along_minus.
Qed.

Lemma stepped_end q r n ab : stepped q r n ab -> n = sqrt (dist2 r q) /\
  (cross3 (g1 q) (g2 q) = zero3 \/ (tangent_zero f1 g1 q r /\ tangent_zero f2 g2 q r)).
Proof.
  intros [ab0 [ok [dl [E [-> ->]]]]]. unfold dist2. rewrite along_minus. split; [reflexivity|].
  destruct (step_ok q ab0) as [ab' [ok' [dl' [E' [_ [R [_ T]]]]]]]. rewrite E in E'. injection E' as <- <- <-.
  destruct ok; [right; auto|left].
  destruct (Qc_eq_dec (dot3 (cross3 (g1 q) (g2 q)) (cross3 (g1 q) (g2 q))) 0) as [Z0|N]; [apply dot_self_zero; auto|].
  exfalso. assert (false = true) by (apply R; intro K; apply N; rewrite K; v3d; ring). discriminate.
Qed.

Lemma icp_exit q0 tol mi r : 
  (intersection_curve_point sqrt f1 f2 g1 g2 q0 tol mi false false = Ok (Point r) \/
   intersection_curve_point sqrt f1 f2 g1 g2 q0 tol mi false true = Ok (Pair true r)) ->
  exists q, sqrt (dist2 r q) <= tol /\
  (cross3 (g1 q) (g2 q) = zero3 \/ (tangent_zero f1 g1 q r /\ tangent_zero f2 g2 q r)).
Proof.
  unfold intersection_curve_point. destruct (run_ok q0 tol mi) as [c [q' [r' [ab [d [E [St [Hc _]]]]]]]]. rewrite E. cbn [bind].
  intro H. assert (K : c = true /\ r' = r).
  { destruct c; cbn in H; destruct H as [H|H]; try discriminate; injection H as <-; auto. }
  destruct K as [-> ->]. exists q'. destruct (stepped_end _ _ _ _ St) as [Ed Ht]. split; auto. rewrite <- Ed. auto.
Qed.

Lemma icp_total q0 tol mi ne : exists c r,
  intersection_curve_point sqrt f1 f2 g1 g2 q0 tol mi false true = Ok (Pair c r) /\
  intersection_curve_point sqrt f1 f2 g1 g2 q0 tol mi false false = (if c then Ok (Point r) else Err ValueError) /\
  (c = true -> exists q a b u w, intersection_curve_point sqrt f1 f2 g1 g2 q0 tol mi true ne =
     Ok (if ne then Nested c q a b u w else Five q a b u w)).
Proof.
  unfold intersection_curve_point. destruct (run_ok q0 tol mi) as [c [q' [r' [ab [d [E [St [Hc _]]]]]]]]. rewrite E. cbn [bind].
  exists c, r'. destruct c, ne; cbn; (split; [reflexivity|]); (split; [reflexivity|]); intro K; try discriminate; repeat eexists.
Qed.
Lemma icp_grads_len q0 tol mi ne a :
  intersection_curve_point sqrt f1 f2 g1 g2 q0 tol mi true ne = Ok a -> answer_len a = 5%Z.
Proof.
  unfold intersection_curve_point. destruct (run_ok q0 tol mi) as [c [q' [r' [ab [d [E _]]]]]]. rewrite E. cbn [bind].
  destruct c, ne; cbn; intro H; try discriminate; injection H as <-; reflexivity.
Qed.

Lemma comb_zero_id a b q : vadd (comb3 0 a 0 b) q = q.
Proof. apply v3_ext; unfold comb3; v3d; ring. Qed.
Lemma comb_zero_dot a b : dot3 (comb3 0 a 0 b) (comb3 0 a 0 b) = 0.
Proof. unfold comb3; v3d; ring. Qed.

Lemma icp_singular q0 tol mi : cross3 (g1 q0) (g2 q0) = zero3 -> sqrt 0 <= tol ->
  intersection_curve_point sqrt f1 f2 g1 g2 q0 tol mi false false = Ok (Point q0) /\
  intersection_curve_point sqrt f1 f2 g1 g2 q0 tol mi false true = Ok (Pair true q0).
Proof.
  intros C T. unfold intersection_curve_point, icp_run.
  destruct (step_ok q0 (mkp 0 0)) as [ab' [ok [dl [E [D [R [O _]]]]]]]. rewrite E. cbn [bind fst].
  assert (ok = false) by (destruct ok; auto; exfalso; apply R; auto). subst ok. specialize (O eq_refl). subst ab'. cbn [p0 p1] in D. subst dl.
  rewrite comb_zero_id. change vsub with minus3. unfold scalar_norm.
  replace (vdot (minus3 q0 q0) (minus3 q0 q0)) with 0 by (v3d; ring).
  assert (Q : qlt tol (sqrt 0) = false) by (apply qlt_false; auto).
  destruct (Z.to_nat (mi + 1)); cbn [newton_loop]; rewrite Q; auto.
Qed.

Lemma cicp_singular q0 old tol mi : cross3 (g1 q0) (g2 q0) = zero3 -> sqrt 0 <= tol ->
  cicp sqrt f1 f2 g1 g2 q0 old tol mi = Ok (q0, false).
Proof.
  intros C T. unfold cicp.
  destruct (step_ok q0 (mkp 0 0)) as [ab' [ok [dl [E [D [R [O _]]]]]]]. rewrite E. cbn [bind fst snd].
  assert (ok = false) by (destruct ok; auto; exfalso; apply R; auto). subst ok. specialize (O eq_refl). subst ab'. cbn [p0 p1] in D. subst dl.
  rewrite comb_zero_id. unfold scalar_norm. change vdot with dot3. rewrite comb_zero_dot.
  assert (Q : qlt tol (sqrt 0) = false) by (apply qlt_false; auto).
  destruct (Z.to_nat (mi + 1)); cbn [newton_loop]; rewrite Q; auto.
Qed.

Lemma cicp_refines q0 old tol mi : exists r b, cicp sqrt f1 f2 g1 g2 q0 old tol mi = Ok (r, b) /\
  (b = true -> cross3 (g1 q0) (g2 q0) <> zero3 /\
     intersection_curve_point sqrt f1 f2 g1 g2 q0 tol mi false false = Ok (Point r)) /\
  (intersection_curve_point sqrt f1 f2 g1 g2 q0 tol mi false false = Err ValueError -> r = old /\ b = false).
Proof.
  unfold cicp, intersection_curve_point, icp_run.
  destruct (step_ok q0 (mkp 0 0)) as [ab' [ok [dl [E [D [R _]]]]]]. rewrite E. cbn [bind fst snd].
  change vsub with minus3. rewrite along_minus.
  destruct (loop_ok tol (Z.to_nat (mi + 1)) q0 (vadd dl q0) ab' (scalar_norm sqrt dl)) as [c [q' [r [ab2 [d' [E2 _]]]]]].
  { exists (mkp 0 0), ok, dl. auto. }
  rewrite E2. cbn [bind fst]. destruct c; eexists _, _; (split; [reflexivity|]); cbn; (split; [|auto; discriminate]).
  - intros ->. split; [apply R; auto|auto].
  - discriminate.
Qed.
End Two.

(* affine functions *)
Section Affine.
Variables f1 f2 : v3 -> Qc.
Variables g1 g2 : v3 -> v3.
Variable sqrt : Qc -> Qc.
Variables (n1 n2 : v3) (c1 c2 : Qc).
Hypothesis A1 : affine3 f1 g1 n1 c1.
Hypothesis A2 : affine3 f2 g2 n2 c2.
Hypothesis I12 : cross3 n1 n2 <> zero3.
Hypothesis S0 : sqrt 0 = 0.

Lemma tangent_affine f g n c q r : affine3 f g n c -> tangent_zero f g q r -> f r = 0.
Proof. intros [F G] T. unfold tangent_zero in T. rewrite F, G in T. rewrite F, <- T. v3d. ring. Qed.

Lemma step_affine q ab : exists ab' dl, newton_step f1 f2 g1 g2 q ab = Ok (ab', true, dl) /\
  dl = comb3 (p0 ab') n1 (p1 ab') n2 /\ f1 (vadd dl q) = 0 /\ f2 (vadd dl q) = 0.
Proof.
  destruct (step_ok f1 f2 g1 g2 q ab) as [ab' [ok [dl [E [D [R [_ T]]]]]]].
  destruct A1 as [F1 G1], A2 as [F2 G2]. rewrite G1, G2 in R, D.
  assert (ok = true) by (apply R; auto). subst ok. destruct (T eq_refl) as [T1 T2]. exists ab', dl. split; auto. split; auto.
  split; eapply tangent_affine; eauto.
Qed.

Lemma step_fixed q ab : f1 q = 0 -> f2 q = 0 -> exists ab', newton_step f1 f2 g1 g2 q ab = Ok (ab', true, zero3).
Proof.
  intros Z1 Z2. destruct (step_affine q ab) as [ab' [dl [E [D [T1 T2]]]]]. exists ab'. rewrite E. repeat f_equal.
  apply dot_self_zero. destruct A1 as [F1 G1], A2 as [F2 G2]. rewrite F1 in T1, Z1. rewrite F2 in T2, Z2.
  assert (K1 : dot3 n1 dl = 0). { rewrite <- (Qcplus_opp_r 0). rewrite <- T1 at 1. rewrite <- Z1. v3d. ring. }
  assert (K2 : dot3 n2 dl = 0). { rewrite <- (Qcplus_opp_r 0). rewrite <- T2 at 1. rewrite <- Z2. v3d. ring. }
  transitivity (p0 ab' * dot3 n1 dl + p1 ab' * dot3 n2 dl).
  - rewrite D at 1. unfold comb3. v3d. ring.
  - rewrite K1, K2. ring.
Qed.

Lemma loop_affine k tol q qn ab d : 0 <= tol -> f1 qn = 0 -> f2 qn = 0 ->
  exists q', newton_loop sqrt f1 f2 g1 g2 (S k) tol q qn ab d = Ok (true, q', qn).
Proof.
  intros T Z1 Z2. cbn [newton_loop]. destruct (qlt tol d); [|eexists; reflexivity].
  destruct (step_fixed qn ab Z1 Z2) as [ab' E]. rewrite E. cbn [bind fst].
  replace (vadd zero3 qn) with qn by (apply v3_ext; v3d; ring). unfold scalar_norm. replace (vdot zero3 zero3) with 0 by (v3d; ring).
  rewrite S0. assert (Q : qlt tol 0 = false) by (apply qlt_false; auto).
  destruct k; cbn [newton_loop]; rewrite Q; eexists; reflexivity.
Qed.

Lemma nearest_affine q0 ab p : let r := vadd (comb3 (p0 ab) n1 (p1 ab) n2) q0 in
  f1 r = 0 -> f2 r = 0 -> f1 p = 0 -> f2 p = 0 -> dist2 q0 r <= dist2 q0 p.
Proof.
  intros r R1 R2 P1 P2. destruct A1 as [F1 _], A2 as [F2 _]. rewrite F1 in R1, P1. rewrite F2 in R2, P2.
  assert (K1 : dot3 n1 (minus3 p r) = 0). { rewrite <- (Qcplus_opp_r 0). rewrite <- P1 at 1. rewrite <- R1. v3d. ring. }
  assert (K2 : dot3 n2 (minus3 p r) = 0). { rewrite <- (Qcplus_opp_r 0). rewrite <- P2 at 1. rewrite <- R2. v3d. ring. }
  assert (E : dist2 q0 p = dist2 q0 r + dist2 p r + (1 + 1) * (p0 ab * dot3 n1 (minus3 p r) + p1 ab * dot3 n2 (minus3 p r))).
  { unfold dist2, r, comb3. v3d. ring. }
  rewrite E, K1, K2. pose proof (dot_self_nonneg (minus3 p r)) as N. unfold dist2 at 3. qlra.
Qed.

Lemma icp_affine q0 old tol mi : 0 <= tol -> (0 <= mi)%Z -> exists r,
  intersection_curve_point sqrt f1 f2 g1 g2 q0 tol mi false false = Ok (Point r) /\
  intersection_curve_point sqrt f1 f2 g1 g2 q0 tol mi false true = Ok (Pair true r) /\
  cicp sqrt f1 f2 g1 g2 q0 old tol mi = Ok (r, true) /\
  f1 r = 0 /\ f2 r = 0 /\ forall p, f1 p = 0 -> f2 p = 0 -> dist2 q0 r <= dist2 q0 p.
Proof.
  intros T M. unfold intersection_curve_point, cicp, icp_run.
  destruct (step_affine q0 (mkp 0 0)) as [ab' [dl [E [D [R1 R2]]]]]. rewrite E. cbn [bind fst snd].
  replace (Z.to_nat (mi + 1)) with (S (Z.to_nat mi)) by lia.
  destruct (loop_affine (Z.to_nat mi) tol q0 (vadd dl q0) ab' (scalar_norm sqrt (vsub (vadd dl q0) q0)) T R1 R2) as [q' E1].
  destruct (loop_affine (Z.to_nat mi) tol q0 (vadd dl q0) ab' (scalar_norm sqrt dl) T R1 R2) as [q2 E2].
  rewrite E1, E2. cbn [bind fst]. exists (vadd dl q0). split; [reflexivity|]. split; [reflexivity|]. split; [reflexivity|]. split; auto. split; auto.
  intros p P1 P2. subst dl. apply nearest_affine; auto.
Qed.
End Affine.
