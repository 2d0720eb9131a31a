(* Points of one surface or of a plane curve, point inversion, frames. *)
From Coq Require Import List ZArith Lia Bool QArith Qcanon.
From Verif Require Import Common ListLib QcLib ArrZ SumLib NurbsModel DerModel PlnModel PlnSpec PlnProofs2 PlnProofs4 PlnProofs5 VecModel VecSpec VecProofs3 IptModel IptSpec IptProofs2.
Import ListNotations.
Local Open Scope Z_scope.
Local Open Scope Qc_scope.

Lemma step_length_ok f c : exists t, step_length f c = Ok t /\ (0 < c -> t * c = - f) /\ (c <= 0 -> t = 0).
Proof.
  unfold step_length. destruct (qlt 0 c) eqn:Q; rewrite ?qlt_true, ?qlt_false in Q.
  - assert (c <> 0) by (intro K; rewrite K in Q; qlra). rewrite divR_ok_ by auto. eexists. split; [reflexivity|]. split; [intros _; field; auto|intro; exfalso; qlra].
  - exists 0. split; auto. split; auto. intro. exfalso. qlra.
Qed.
Lemma dot_pos a : a <> zero3 -> 0 < dot3 a a.
Proof.
  intro H. pose proof (dot_self_nonneg a). destruct (Qc_eq_dec (dot3 a a) 0) as [E|N]; [elim H; apply dot_self_zero; auto|].
  apply Qcle_lt_or_eq in H0. destruct H0; auto. elim N. auto.
Qed.

Section One.
Variable sqrt : Qc -> Qc.
Variable f : v3 -> Qc.
Variable g : v3 -> v3.

(* one pass goes from p to r *)
Lemma surf_step p : exists t r, step_length (f p) (vdot (g p) (g p)) = Ok t /\
  r = vadd (vscale 1 p) (vscale t (g p)) /\ (g p = zero3 -> r = p) /\ (g p <> zero3 -> tangent_zero f g p r).
Proof.
  destruct (step_length_ok (f p) (vdot (g p) (g p))) as [t [E [P N]]]. exists t. eexists. split; [exact E|]. split; [reflexivity|]. split.
  - intro K. rewrite N. { apply v3_ext; v3d; ring. } rewrite K. v3d. apply Qcle_trans with 0; [|apply Qcle_refl]. qlra.
  - intro K. specialize (P (dot_pos _ K)). unfold tangent_zero.
    transitivity (f p + t * vdot (g p) (g p)); [v3d; ring|rewrite P; ring].
Qed.

Lemma surface_exit tol fuel : forall p r, surface_point sqrt f g fuel p tol = Ok r ->
  exists q, sqrt (dist2 r q) < tol /\ ((g q = zero3 /\ r = q) \/ tangent_zero f g q r).
Proof.
  induction fuel as [|k IH]; intros p r; cbn [surface_point]; [discriminate|].
  destruct (surf_step p) as [t [x [E [X [Z0 T]]]]]. rewrite E. cbn [bind]. rewrite <- X.
  destruct (qlt (scalar_norm sqrt (vsub x p)) tol) eqn:Q; [|apply IH].
  apply qlt_true in Q. intro H. injection H as <-. exists p. split; auto.
  destruct (Qc_eq_dec (dot3 (g p) (g p)) 0) as [D|D].
  - left. apply dot_self_zero in D. auto.
  - right. apply T. intro K. apply D. rewrite K. v3d. ring.
Qed.
Lemma surface_flat tol fuel p : g p = zero3 -> sqrt 0 < tol -> surface_point sqrt f g (S fuel) p tol = Ok p.
Proof.
  intros G T. cbn [surface_point]. destruct (surf_step p) as [t [x [E [X [Z0 _]]]]]. rewrite E. cbn [bind]. rewrite <- X, (Z0 G).
  unfold scalar_norm. replace (vdot (vsub p p) (vsub p p)) with 0 by (v3d; ring).
  assert (Q : qlt (sqrt 0) tol = true) by (apply qlt_true; auto). now rewrite Q.
Qed.
Lemma surface_loops tol fuel : forall p, (forall x, 0 <= sqrt x) -> tol <= 0 -> surface_point sqrt f g fuel p tol = Err OutOfFuel.
Proof.
  induction fuel as [|k IH]; intros p S T; cbn [surface_point]; auto.
  destruct (surf_step p) as [t [x [E [X _]]]]. rewrite E. cbn [bind]. rewrite <- X.
  assert (Q : qlt (scalar_norm sqrt (vsub x p)) tol = false) by (apply qlt_false; unfold scalar_norm; pose proof (S (vdot (vsub x p) (vsub x p))); qlra).
  rewrite Q. apply IH; auto.
Qed.
Lemma surface_affine n c tol k p : affine3 f g n c -> n <> zero3 -> sqrt 0 = 0 -> 0 < tol ->
  exists r, surface_point sqrt f g (S (S k)) p tol = Ok r /\ f r = 0 /\ forall q, f q = 0 -> dist2 p r <= dist2 p q.
Proof.
  intros A N Sz T. remember (S k) as k1. pose proof A as [F G]. cbn [surface_point].
  destruct (surf_step p) as [t [x [E [X [_ Tz]]]]]. rewrite E. cbn [bind]. rewrite <- X.
  assert (Zx : f x = 0) by (eapply tangent_affine; eauto; apply Tz; rewrite G; auto).
  assert (Nr : forall q, f q = 0 -> dist2 p x <= dist2 p q).
  { intros q Zq. rewrite F in Zx, Zq. rewrite G in X.
    assert (K : dot3 n (minus3 q x) = 0). { rewrite <- (Qcplus_opp_r 0). rewrite <- Zq at 1. rewrite <- Zx. v3d. ring. }
    assert (D : dist2 p q = dist2 p x + dist2 q x + (1 + 1) * t * dot3 n (minus3 q x)). { rewrite X. unfold dist2. v3d. ring. }
    rewrite D, K. pose proof (dot_self_nonneg (minus3 q x)). unfold dist2 at 3. qlra. }
  destruct (qlt (scalar_norm sqrt (vsub x p)) tol) eqn:Q; [exists x; auto|].
  subst k1. cbn [surface_point]. destruct (surf_step x) as [t2 [y [E2 [Y [_ Ty]]]]].
  destruct (step_length_ok (f x) (vdot (g x) (g x))) as [t3 [E3 [P3 _]]]. rewrite E3. cbn [bind].
  assert (t3 = 0).
  { assert (D : 0 < dot3 (g x) (g x)) by (apply dot_pos; rewrite G; auto). specialize (P3 D). rewrite Zx in P3.
    apply (mul_zero (dot3 (g x) (g x))); [intro K; rewrite K in D; qlra|]. rewrite Qcmult_comm. change dot3 with vdot. rewrite P3. ring. }
  subst t3. replace (vadd (vscale 1 x) (vscale 0 (g x))) with x by (apply v3_ext; v3d; ring).
  unfold scalar_norm. replace (vdot (vsub x x) (vsub x x)) with 0 by (v3d; ring). rewrite Sz.
  assert (Q2 : qlt 0 tol = true) by (apply qlt_true; auto). rewrite Q2. exists x. auto.
Qed.
Lemma surface_plane_fails fuel p tol : forall r, surface_plane sqrt f g fuel p tol <> Ok r.
Proof. intro r. unfold surface_plane. destruct (surface_point sqrt f g fuel p tol); discriminate. Qed.
End One.

Section Plane.
Variable sqrt : Qc -> Qc.
Variable f : v2 -> Qc.
Variable g : v2 -> v2.
Definition tangent2 (q r : v2) : Prop := f q + dot2 (g q) (mkp (p0 r - p0 q) (p1 r - p1 q)) = 0.
Lemma dot2_zero a : dot2 a a = 0 -> a = mkp 0 0.
Proof.
  intro H. unfold dot2 in H. pose proof (sq_nonneg (p0 a)). pose proof (sq_nonneg (p1 a)).
  apply v2_ext; cbn [p0 p1]; apply sq_zero; qlra.
Qed.
Lemma dot2_pos a : a <> mkp 0 0 -> 0 < dot2 a a.
Proof.
  intro H. assert (0 <= dot2 a a) by (unfold dot2; pose proof (sq_nonneg (p0 a)); pose proof (sq_nonneg (p1 a)); qlra).
  apply Qcle_lt_or_eq in H0. destruct H0 as [K|K]; auto. elim H. apply dot2_zero. auto.
Qed.
Lemma tangent2_affine n c q r : affine2 f g n c -> tangent2 q r -> f r = 0.
Proof. intros [F G] T. unfold tangent2 in T. rewrite F, G in T. rewrite F, <- T. unfold dot2. cbn [p0 p1]. ring. Qed.

Lemma curve_step_ok p : exists t r, step_length (f p) (dot2v (g p) (g p)) = Ok t /\ r = add2v p t (g p) /\
  curve_step sqrt f g p = Ok (r, sqrt (sqdist2 p r)) /\
  (g p = mkp 0 0 -> r = p) /\ (g p <> mkp 0 0 -> tangent2 p r).
Proof.
  destruct (step_length_ok (f p) (dot2v (g p) (g p))) as [t [E [P N]]]. exists t. eexists. split; [exact E|]. split; [reflexivity|].
  unfold curve_step. rewrite E. cbn [bind]. split; [reflexivity|]. split.
  - intro K. rewrite N. { apply v2_ext; unfold add2v; cbn [p0 p1]; ring. } rewrite K. unfold dot2v. cbn [p0 p1]. qlra.
  - intro K. specialize (P (dot2_pos _ K)). unfold tangent2.
    transitivity (f p + t * dot2v (g p) (g p)); [unfold dot2, dot2v, add2v; cbn [p0 p1]; ring|rewrite P; ring].
Qed.
Lemma curve_exit delta fuel : forall p r, curve_point sqrt f g fuel p delta = Ok r ->
  exists q, sqrt (sqdist2 q r) <= delta /\ ((g q = mkp 0 0 /\ r = q) \/ tangent2 q r).
Proof.
  induction fuel as [|k IH]; intros p r; cbn [curve_point]; [discriminate|].
  destruct (curve_step_ok p) as [t [x [_ [_ [E [Z0 T]]]]]]. rewrite E. cbn [bind].
  destruct (qlt delta (sqrt (sqdist2 p x))) eqn:Q; [apply IH|].
  apply qlt_false in Q. intro H. injection H as <-. exists p. split; auto.
  destruct (Qc_eq_dec (dot2 (g p) (g p)) 0) as [D|D]; [left; apply dot2_zero in D; auto|].
  right. apply T. intro K. apply D. rewrite K. unfold dot2. cbn [p0 p1]. ring.
Qed.
Lemma near2 n c p t : affine2 f g n c -> let r := add2v p t n in f r = 0 -> forall q, f q = 0 -> sqdist2 p r <= sqdist2 p q.
Proof.
  intros [F G] r Zr q Zq. rewrite F in Zr, Zq.
  assert (K : dot2 n (mkp (p0 q - p0 r) (p1 q - p1 r)) = 0). { rewrite <- (Qcplus_opp_r 0). rewrite <- Zq at 1. rewrite <- Zr. unfold dot2. cbn [p0 p1]. ring. }
  assert (D : sqdist2 p q = sqdist2 p r + sqdist2 q r + (1 + 1) * t * dot2 n (mkp (p0 q - p0 r) (p1 q - p1 r))).
  { unfold sqdist2, dot2, r, add2v. cbn [p0 p1]. ring. }
  rewrite D, K. unfold sqdist2 at 3. pose proof (sq_nonneg (p0 q - p0 r)). pose proof (sq_nonneg (p1 q - p1 r)). qlra.
Qed.
Lemma still n c p : affine2 f g n c -> n <> mkp 0 0 -> f p = 0 -> step_length (f p) (dot2v (g p) (g p)) = Ok 0.
Proof.
  intros [F G] N Zp. destruct (step_length_ok (f p) (dot2v (g p) (g p))) as [t [E [P _]]]. rewrite E. f_equal.
  assert (D : 0 < dot2v (g p) (g p)) by (apply dot2_pos; rewrite G; auto). specialize (P D). rewrite Zp in P.
  apply (mul_zero (dot2v (g p) (g p))); [intro K; rewrite K in D; qlra|]. rewrite Qcmult_comm, P. ring.
Qed.
Lemma curve_affine n c delta k p : affine2 f g n c -> n <> mkp 0 0 -> sqrt 0 = 0 -> 0 <= delta ->
  exists r, curve_point sqrt f g (S (S k)) p delta = Ok r /\ f r = 0 /\ forall q, f q = 0 -> sqdist2 p r <= sqdist2 p q.
Proof.
  intros A N S0 T. remember (S k) as k1. cbn [curve_point]. destruct (curve_step_ok p) as [t [x [_ [X [E [_ Tz]]]]]]. rewrite E. cbn [bind].
  pose proof A as [F G]. assert (Zx : f x = 0) by (eapply tangent2_affine; eauto; apply Tz; rewrite G; auto).
  rewrite G in X. assert (Nr := near2 n c p t A). rewrite <- X in Nr. specialize (Nr Zx).
  destruct (qlt delta (sqrt (sqdist2 p x))); [|exists x; auto].
  subst k1. cbn [curve_point]. unfold curve_step. rewrite (still n c x A N Zx). cbn [bind].
  replace (add2v x 0 (g x)) with x by (apply v2_ext; unfold add2v; cbn [p0 p1]; ring).
  replace (dot2v (sub2v x x) (sub2v x x)) with 0 by (unfold dot2v, sub2v; cbn [p0 p1]; ring). rewrite S0.
  assert (Q2 : qlt delta 0 = false) by (apply qlt_false; auto). rewrite Q2. exists x. auto.
Qed.

Lemma newton2_eq p : exists t, step_length (f p) (dot2v (g p) (g p)) = Ok t /\ curve_point_newton_step f g p = Ok (add2v p t (g p)).
Proof.
  unfold curve_point_newton_step, step_length. destruct (qlt 0 (dot2v (g p) (g p))) eqn:Q.
  - apply qlt_true in Q. assert (dot2v (g p) (g p) <> 0) by (intro K; rewrite K in Q; qlra). rewrite divR_ok_ by auto. eexists. split; reflexivity.
  - exists 0. split; auto. f_equal. apply v2_ext; unfold add2v; cbn [p0 p1]; ring.
Qed.
Lemma loop2_exit tol fuel : forall p d r, curve_point2_loop f g fuel p d tol = Ok r ->
  (d < tol /\ r = p) \/ exists q, fabs (p0 q - p0 r) + fabs (p1 q - p1 r) < tol /\ ((g q = mkp 0 0 /\ r = q) \/ tangent2 q r).
Proof.
  induction fuel as [|k IH]; intros p d r; cbn [curve_point2_loop]; destruct (qle tol d) eqn:Q; rewrite ?qle_true, ?qle_false in Q; try discriminate.
  - intro H. injection H as <-. auto.
  - destruct (newton2_eq p) as [t [E1 E2]]. rewrite E2. cbn [bind]. intro H. right. destruct (IH _ _ _ H) as [[L ->]|[q K]]; [|exists q; auto].
    exists p. split; auto. destruct (curve_step_ok p) as [t' [x [E3 [X [_ [Z0 T]]]]]]. rewrite E1 in E3. injection E3 as <-. rewrite <- X.
    destruct (Qc_eq_dec (dot2 (g p) (g p)) 0) as [D|D]; [left; apply dot2_zero in D; auto|].
    right. apply T. intro K. apply D. rewrite K. unfold dot2. cbn [p0 p1]. ring.
  - intro H. injection H as <-. auto.
Qed.
Lemma curve2_early tol fuel p : 1 < tol -> curve_point2 f g fuel p tol = Ok p.
Proof.
  intro H. unfold curve_point2. assert (Q : qle tol 1 = false) by (apply qle_false; auto). destruct fuel; cbn [curve_point2_loop]; now rewrite Q.
Qed.
Lemma curve2_affine n c tol k p : affine2 f g n c -> n <> mkp 0 0 -> 0 < tol -> tol <= 1 ->
  exists r, curve_point2 f g (S (S k)) p tol = Ok r /\ f r = 0 /\ forall q, f q = 0 -> sqdist2 p r <= sqdist2 p q.
Proof.
  intros A N T T1. unfold curve_point2. remember (S k) as k1. cbn [curve_point2_loop].
  assert (Q : qle tol 1 = true) by (apply qle_true; auto). rewrite Q.
  destruct (newton2_eq p) as [t [E1 E2]]. rewrite E2. cbn [bind].
  destruct (curve_step_ok p) as [t' [x [E3 [X [_ [_ Tz]]]]]]. rewrite E1 in E3. injection E3 as <-. rewrite <- X.
  pose proof A as [F G]. assert (Zx : f x = 0) by (eapply tangent2_affine; eauto; apply Tz; rewrite G; auto).
  rewrite G in X. assert (Nr := near2 n c p t A). rewrite <- X in Nr. specialize (Nr Zx).
  clear Q. subst k1. cbn [curve_point2_loop]. destruct (qle tol (fabs (p0 p - p0 x) + fabs (p1 p - p1 x))); [|exists x; auto].
  destruct (newton2_eq x) as [t2 [E4 E5]]. rewrite (still n c x A N Zx) in E4. injection E4 as <-. rewrite E5. cbn [bind].
  replace (add2v x 0 (g x)) with x by (apply v2_ext; unfold add2v; cbn [p0 p1]; ring).
  replace (fabs (p0 x - p0 x) + fabs (p1 x - p1 x)) with 0.
  2:{ replace (p0 x - p0 x) with 0 by ring. replace (p1 x - p1 x) with 0 by ring. rewrite fabs_0. ring. }
  assert (Q2 : qle tol 0 = false) by (apply qle_false; auto). destruct k; cbn [curve_point2_loop]; rewrite Q2; exists x; auto.
Qed.
End Plane.
