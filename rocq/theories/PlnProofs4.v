(* Coordinates, rays, equations and frames. *)
From Coq Require Import List ZArith Lia Bool QArith Qcanon.
From Verif Require Import Common ListLib QcLib ArrZ SumLib NurbsModel DerModel DerProofs2 KnotProofs2 PlnModel PlnSpec PlnProofs2.
Import ListNotations.
Local Open Scope Z_scope.
Local Open Scope Qc_scope.

Ltac v3d := unfold det3, dot3, cross3, neg3, minus3, along, zero3, vdot, vcross, vadd, vsub, vscale, mycross in *; cbn [vx vy vz] in *.

Lemma sq_zero (x : Qc) : x * x = 0 -> x = 0.
Proof. intro H. qnra. Qed.
Lemma sq_nonneg (x : Qc) : 0 <= x * x.
Proof. qnra. Qed.

Lemma v3_inv a b : a = b -> vx a = vx b /\ vy a = vy b /\ vz a = vz b.
Proof. intros ->. auto. Qed.

Lemma vdot_dot a b : vdot a b = dot3 a b.
Proof. reflexivity. Qed.
Lemma vcross_cross a b : vcross a b = cross3 a b.
Proof. reflexivity. Qed.
Lemma vsub_minus a b : vsub a b = minus3 a b.
Proof. reflexivity. Qed.
Lemma mycross_cross a b : mycross a b = cross3 a b.
Proof. apply v3_ext; v3d; ring. Qed.
Lemma along_eq o s d : vadd o (vscale s d) = along o s d.
Proof. reflexivity. Qed.

Lemma dot_comm a b : dot3 a b = dot3 b a.
Proof. v3d. ring. Qed.
Lemma dot_self_zero a : dot3 a a = 0 -> a = zero3.
Proof.
  intro H. v3d. pose proof (sq_nonneg (vx a)). pose proof (sq_nonneg (vy a)). pose proof (sq_nonneg (vz a)).
  apply v3_ext; cbn [vx vy vz]; apply sq_zero; qlra.
Qed.
Lemma dot_self_nonneg a : 0 <= dot3 a a.
Proof. v3d. pose proof (sq_nonneg (vx a)). pose proof (sq_nonneg (vy a)). pose proof (sq_nonneg (vz a)). qlra. Qed.

Lemma cramer a b c r : (forall e, dot3 r a = 0 -> dot3 r b = 0 -> dot3 r c = 0 -> (e = vx r \/ e = vy r \/ e = vz r) -> det3 a b c * e = 0).
Proof.
  intros e Ha Hb Hc He. destruct He as [->|[->| ->]].
  - transitivity (dot3 r a * vx (cross3 b c) + dot3 r b * vx (cross3 c a) + dot3 r c * vx (cross3 a b)); [v3d; ring|].
    rewrite Ha, Hb, Hc. ring.
  - transitivity (dot3 r a * vy (cross3 b c) + dot3 r b * vy (cross3 c a) + dot3 r c * vy (cross3 a b)); [v3d; ring|].
    rewrite Ha, Hb, Hc. ring.
  - transitivity (dot3 r a * vz (cross3 b c) + dot3 r b * vz (cross3 c a) + dot3 r c * vz (cross3 a b)); [v3d; ring|].
    rewrite Ha, Hb, Hc. ring.
Qed.
Lemma mul_zero (d e : Qc) : d <> 0 -> d * e = 0 -> e = 0.
Proof. intros H E. apply Qcmult_integral in E. tauto. Qed.
Lemma orth_all a b c r : det3 a b c <> 0 -> dot3 r a = 0 -> dot3 r b = 0 -> dot3 r c = 0 -> r = zero3.
Proof.
  intros Hd Ha Hb Hc. apply v3_ext; cbn [vx vy vz zero3]; apply (mul_zero (det3 a b c)); auto; apply cramer with (r := r); auto.
Qed.
Lemma gram a b c : det3 a b c * det3 a b c =
  dot3 a a * (dot3 b b * dot3 c c - dot3 b c * dot3 b c) - dot3 a b * (dot3 a b * dot3 c c - dot3 b c * dot3 a c)
  + dot3 a c * (dot3 a b * dot3 b c - dot3 b b * dot3 a c).
Proof. v3d. ring. Qed.

Lemma frame_det a b c : orthonormal a b c -> det3 a b c <> 0.
Proof.
  intros [H1 [H2 [H3 [H4 [H5 H6]]]]] K. pose proof (gram a b c) as G. rewrite K, H1, H2, H3, H4, H5, H6 in G.
  assert (E : (0 : Qc) = 1) by (rewrite <- (Qcmult_0_l 0), G; ring). discriminate E.
Qed.

(* ---- coordinates ---- *)

Lemma inv_eval pln p : frame pln -> inverse_evaluate_plane pln (evaluate_plane pln p) = p.
Proof.
  intros [H1 [H2 [H3 [H4 [H5 H6]]]]]. unfold inverse_evaluate_plane, evaluate_plane.
  set (o := pl_o pln) in *. set (x := pl_x pln) in *. set (y := pl_y pln) in *. set (z := pl_n pln) in *.
  apply v3_ext; cbn [vx vy vz].
  - transitivity (vx p * dot3 x x + vy p * dot3 x y + vz p * dot3 x z); [v3d; ring|]. rewrite H1, H4, H5. ring.
  - transitivity (vx p * dot3 x y + vy p * dot3 y y + vz p * dot3 y z); [v3d; ring|]. rewrite H2, H4, H6. ring.
  - transitivity (vx p * dot3 x z + vy p * dot3 y z + vz p * dot3 z z); [v3d; ring|]. rewrite H3, H5, H6. ring.
Qed.

Lemma eval_inv pln p : frame pln -> evaluate_plane pln (inverse_evaluate_plane pln p) = p.
Proof.
  intro F. pose proof (frame_det _ _ _ F) as Hd. destruct F as [H1 [H2 [H3 [H4 [H5 H6]]]]].
  set (q := evaluate_plane pln (inverse_evaluate_plane pln p)).
  assert (Z0 : minus3 p q = zero3).
  { unfold q, evaluate_plane, inverse_evaluate_plane.
    set (o := pl_o pln) in *. set (x := pl_x pln) in *. set (y := pl_y pln) in *. set (z := pl_n pln) in *.
    pose (d := minus3 p o).
    apply (orth_all x y z); auto.
    - transitivity (dot3 d x - dot3 d x * dot3 x x - dot3 d y * dot3 x y - dot3 d z * dot3 x z); [unfold d; v3d; ring|].
      rewrite H1, H4, H5. ring.
    - transitivity (dot3 d y - dot3 d x * dot3 x y - dot3 d y * dot3 y y - dot3 d z * dot3 y z); [unfold d; v3d; ring|].
      rewrite H2, H4, H6. ring.
    - transitivity (dot3 d z - dot3 d x * dot3 x z - dot3 d y * dot3 y z - dot3 d z * dot3 z z); [unfold d; v3d; ring|].
      rewrite H3, H5, H6. ring. }
  clearbody q. unfold minus3, zero3 in Z0. apply v3_inv in Z0; cbn [vx vy vz] in Z0; destruct Z0 as [E1 [E2 E3]]. apply v3_ext; qlra.
Qed.

Lemma eval_dist pln p q : frame pln -> dist2 (evaluate_plane pln p) (evaluate_plane pln q) = dist2 p q.
Proof.
  intros [H1 [H2 [H3 [H4 [H5 H6]]]]]. unfold dist2, evaluate_plane.
  set (o := pl_o pln) in *. set (x := pl_x pln) in *. set (y := pl_y pln) in *. set (z := pl_n pln) in *.
  pose (a := vx p - vx q). pose (b := vy p - vy q). pose (c := vz p - vz q).
  transitivity (a * a * dot3 x x + b * b * dot3 y y + c * c * dot3 z z + (1 + 1) * a * b * dot3 x y
    + (1 + 1) * a * c * dot3 x z + (1 + 1) * b * c * dot3 y z); [unfold a, b, c; v3d; ring|].
  rewrite H1, H2, H3, H4, H5, H6. unfold a, b, c. v3d. ring.
Qed.

Lemma arr_round pln ps : frame pln ->
  inverse_evaluate_plane_arr pln (evaluate_plane_arr pln ps) = ps /\
  evaluate_plane_arr pln (inverse_evaluate_plane_arr pln ps) = ps.
Proof.
  intro F. unfold inverse_evaluate_plane_arr, evaluate_plane_arr. rewrite !map_map. split.
  - rewrite <- map_id. apply map_ext. intro p. apply inv_eval. auto.
  - rewrite <- map_id. apply map_ext. intro p. apply eval_inv. auto.
Qed.

(* ---- rays ---- *)

Lemma tiny_pos : 0 < tiny.
Proof. apply qlt_true. vm_compute. reflexivity. Qed.

Lemma fabs_ge_nz x t : 0 < t -> t <= fabs x -> x <> 0.
Proof. intros H L ->. rewrite fabs_0 in L. qlra. Qed.

Lemma on_along o n ro s d : on_plane o n (along ro s d) <-> s * dot3 n d = dot3 n (minus3 o ro).
Proof.
  unfold on_plane. split; intro H.
  - transitivity (dot3 n (minus3 (along ro s d) o) + dot3 n (minus3 o ro)); [v3d; ring|rewrite H; ring].
  - transitivity (s * dot3 n d - dot3 n (minus3 o ro)); [v3d; ring|rewrite H; ring].
Qed.

Lemma ray_core_spec po pn ro rd :
  exists h, ray_plane_core po pn ro rd = Ok h /\
  forall p, h = Some p <-> (tiny <= fabs (dot3 pn rd) /\ exists t, 0 <= t /\ p = along ro t rd /\ on_plane po pn p).
Proof.
  unfold ray_plane_core. rewrite vdot_dot.
  destruct (qlt (fabs (dot3 pn rd)) tiny) eqn:E; [apply qlt_true in E|apply qlt_false in E].
  - eexists. split; [reflexivity|]. intro p. split; [discriminate|]. intros [H _]. exfalso. qlra.
  - pose proof (fabs_ge_nz _ _ tiny_pos E) as N. rewrite divR_ok_ by auto. cbn [bind]. rewrite vdot_dot, vsub_minus.
    set (t := dot3 pn (minus3 po ro) / dot3 pn rd).
    assert (Et : t * dot3 pn rd = dot3 pn (minus3 po ro)) by (unfold t; field; auto).
    assert (Un : forall s, on_plane po pn (along ro s rd) -> s = t).
    { intros s Hs. apply on_along in Hs. unfold t. rewrite <- Hs. field. auto. }
    destruct (qlt t 0) eqn:T; [apply qlt_true in T|apply qlt_false in T]; (eexists; split; [reflexivity|]); intro p.
    + split; [discriminate|]. intros [_ [s [Hs [-> Hp]]]]. apply Un in Hp. exfalso. rewrite Hp in Hs. qlra.
    + rewrite along_eq. split.
      * intros [= <-]. split; auto. exists t. split; auto. split; auto. apply on_along. auto.
      * intros [_ [s [Hs [-> Hp]]]]. apply Un in Hp. now subst s.
Qed.

Lemma ray_spec pln ray : exists h, ray_plane_intersection [pl_o pln; pl_n pln] ray = Ok h /\
  forall p, h = Some p <-> (tiny <= fabs (dot3 (pl_n pln) (ln_d ray)) /\
    exists t, 0 <= t /\ p = along (ln_p ray) t (ln_d ray) /\ on_plane (pl_o pln) (pl_n pln) p).
Proof. apply ray_core_spec. Qed.

Lemma line_spec pln ln tol : 0 < tol -> exists h, plane_line_intersection pln ln tol = Ok h /\
  forall w s p, h = Some (w, s, p) <-> (tol <= fabs (dot3 (pl_n pln) (ln_d ln)) /\
    w = minus3 (ln_p ln) (pl_o pln) /\ p = along (ln_p ln) s (ln_d ln) /\ on_plane (pl_o pln) (pl_n pln) p).
Proof.
  intro Ht. unfold plane_line_intersection. rewrite vdot_dot. set (n := pl_n pln). set (o := pl_o pln). set (ro := ln_p ln). set (rd := ln_d ln).
  destruct (qlt (fabs (dot3 n rd)) tol) eqn:E; [apply qlt_true in E|apply qlt_false in E].
  - eexists. split; [reflexivity|]. intros w s p. split; [discriminate|]. intros [H _]. exfalso. qlra.
  - pose proof (fabs_ge_nz _ _ Ht E) as N. rewrite divR_ok_ by auto. cbn [bind]. rewrite vdot_dot, vsub_minus.
    set (t := - dot3 n (minus3 ro o) / dot3 n rd).
    assert (Et : t * dot3 n rd = dot3 n (minus3 o ro)).
    { unfold t. transitivity (- dot3 n (minus3 ro o)); [field; auto|v3d; ring]. }
    assert (Un : forall s, on_plane o n (along ro s rd) -> s = t).
    { intros s Hs. apply on_along in Hs. rewrite <- Et in Hs. 
      assert (Z0 : (s - t) * dot3 n rd = 0) by (transitivity (s * dot3 n rd - t * dot3 n rd); [ring|rewrite Hs; ring]).
      apply Qcmult_integral in Z0. destruct Z0 as [Z0|Z0]; [qlra|contradiction]. }
    assert (Ep : vadd (vadd (minus3 ro o) (vscale t rd)) o = along ro t rd) by (apply v3_ext; v3d; ring).
    rewrite Ep. eexists. split; [reflexivity|]. intros w s p. split.
    + intros [= <- <- <-]. split; auto. split; auto. split; auto. apply on_along. auto.
    + intros [_ [-> [-> Hp]]]. apply Un in Hp. now subst s.
Qed.

Lemma parametric_spec pln ray :
  dot3 (pl_x pln) (pl_n pln) = 0 -> dot3 (pl_y pln) (pl_n pln) = 0 ->
  exists h, ray_plane_parametric pln ray = Ok h /\
  (forall p u v, h = Some (p, (u, v)) ->
     p = mkv (vx (pl_o pln) + u * vx (pl_x pln) + v * vx (pl_y pln))
             (vy (pl_o pln) + u * vy (pl_x pln) + v * vy (pl_y pln))
             (vz (pl_o pln) + u * vz (pl_x pln) + v * vz (pl_y pln)) /\
     ray_plane_intersection [pl_o pln; pl_n pln] ray = Ok (Some p)) /\
  (tiny <= dot3 (pl_x pln) (pl_x pln) * dot3 (pl_y pln) (pl_y pln) - dot3 (pl_x pln) (pl_y pln) * dot3 (pl_x pln) (pl_y pln) ->
     h = None -> ray_plane_intersection [pl_o pln; pl_n pln] ray = Ok None).
Proof.
  intros HX HY. destruct (ray_spec pln ray) as [h0 [E0 S0]].
  assert (E1 : ray_plane_core (pl_o pln) (pl_n pln) (ln_p ray) (ln_d ray) = Ok h0) by exact E0.
  rewrite E0. unfold ray_plane_parametric. rewrite E1. cbn [bind].
  destruct h0 as [p|]; [|eexists; split; [reflexivity|]; split; [discriminate|auto]].
  destruct (proj1 (S0 p) eq_refl) as [Hn [t [Ht [Hp Hon]]]]. pose proof (fabs_ge_nz _ _ tiny_pos Hn) as Nz.
  cbv zeta. change vdot with dot3. change vsub with minus3. set (X := pl_x pln) in *. set (Y := pl_y pln) in *. set (N := pl_n pln) in *. set (o := pl_o pln) in *.
  set (D := dot3 X X * dot3 Y Y - dot3 X Y * dot3 X Y).
  destruct (qlt (fabs D) tiny) eqn:E; [apply qlt_true in E|apply qlt_false in E].
  - eexists. split; [reflexivity|]. split; [discriminate|]. intros K _. exfalso.
    assert (D <= fabs D) by (unfold fabs; destruct (qlt D 0) eqn:Q; [apply qlt_true in Q|apply qlt_false in Q]; qlra). 
    fold D in K. qlra.
  - pose proof (fabs_ge_nz _ _ tiny_pos E) as ND. rewrite !divR_ok_ by auto. cbn [bind].
    eexists. split; [reflexivity|]. split; [|discriminate].
    intros p' u v [= <- <- <-]. split; auto.
    set (d := minus3 p o).
    set (u := (dot3 X d * dot3 Y Y - dot3 X Y * dot3 Y d) / D). set (v := (- dot3 X Y * dot3 X d + dot3 X X * dot3 Y d) / D).
    set (r := mkv (vx d - u * vx X - v * vx Y) (vy d - u * vy X - v * vy Y) (vz d - u * vz X - v * vz Y)).
    assert (Z0 : r = zero3).
    { apply (orth_all X Y N).
      - intro K. pose proof (gram X Y N) as G. rewrite K, HX, HY in G.
        assert (G' : dot3 N N * D = 0) by (unfold D; transitivity (dot3 X X * (dot3 Y Y * dot3 N N - 0 * 0) - dot3 X Y * (dot3 X Y * dot3 N N - 0 * 0)
             + 0 * (dot3 X Y * 0 - dot3 Y Y * 0)); [ring|rewrite <- G; ring]).
        apply Qcmult_integral in G'. destruct G' as [G'|G']; [|contradiction].
        apply dot_self_zero in G'. apply Nz. rewrite G'. v3d. ring.
      - transitivity (dot3 X d - u * dot3 X X - v * dot3 X Y); [unfold r; v3d; ring|]. unfold u, v. 
        fold D. unfold D in *. field. auto.
      - transitivity (dot3 Y d - u * dot3 X Y - v * dot3 Y Y); [unfold r; v3d; ring|]. unfold u, v. unfold D in *. field. auto.
      - transitivity (dot3 N d - u * dot3 X N - v * dot3 Y N); [unfold r; v3d; ring|]. rewrite HX, HY.
        unfold on_plane in Hon. fold d in Hon. rewrite Hon. ring. }
    unfold r, zero3 in Z0. apply v3_inv in Z0; cbn [vx vy vz] in Z0; destruct Z0 as [Z1 [Z2 Z3]]. unfold d in Z1, Z2, Z3. cbn [vx vy vz minus3] in Z1, Z2, Z3.
    apply v3_ext; cbn [vx vy vz]; qlra.
Qed.

(* ---- equations ---- *)

Lemma eq_coefs p0 p1 p2 : coefs (plane_eq_from_pts p0 p1 p2) = cross3 (minus3 p1 p0) (minus3 p2 p0).
Proof. apply v3_ext; unfold coefs, plane_eq_from_pts; v3d; cbn [pe_a pe_b pe_c pe_d]; ring. Qed.

Lemma eq_plane p0 p1 p2 p : satisfies (plane_eq_from_pts p0 p1 p2) p <-> on_plane p0 (cross3 (minus3 p1 p0) (minus3 p2 p0)) p.
Proof.
  unfold satisfies, on_plane.
  assert (E : pe_a (plane_eq_from_pts p0 p1 p2) * vx p + pe_b (plane_eq_from_pts p0 p1 p2) * vy p +
    pe_c (plane_eq_from_pts p0 p1 p2) * vz p + pe_d (plane_eq_from_pts p0 p1 p2) =
    dot3 (cross3 (minus3 p1 p0) (minus3 p2 p0)) (minus3 p p0)).
  { unfold plane_eq_from_pts; v3d; cbn [pe_a pe_b pe_c pe_d]; ring. }
  rewrite E. reflexivity.
Qed.

Lemma eq_pts p0 p1 p2 : satisfies (plane_eq_from_pts p0 p1 p2) p0 /\ satisfies (plane_eq_from_pts p0 p1 p2) p1 /\
  satisfies (plane_eq_from_pts p0 p1 p2) p2.
Proof. rewrite !eq_plane. unfold on_plane. v3d. split; [ring|split; ring]. Qed.

Lemma signed_zero e pts : Forall (satisfies e) pts <-> plane_signed_distance e pts = map (fun _ => 0) pts.
Proof.
  unfold plane_signed_distance, satisfies. induction pts as [|p pts IH]; cbn; [split; auto|]. split.
  - intro H. inversion H; subst. f_equal; auto. apply IH. auto.
  - intro H. pose proof (f_equal (hd 0) H) as H1. pose proof (f_equal (@tl Qc) H) as H2. cbn [hd tl] in H1, H2. constructor; auto. apply IH; auto.
Qed.

Lemma signed_value p0 p1 p2 pts :
  plane_signed_distance (plane_eq_from_pts p0 p1 p2) pts =
  map (fun p => dot3 (cross3 (minus3 p1 p0) (minus3 p2 p0)) (minus3 p p0)) pts.
Proof.
  unfold plane_signed_distance. apply map_ext. intro p. unfold plane_eq_from_pts; v3d; cbn [pe_a pe_b pe_c pe_d]; ring.
Qed.

(* ---- unit vectors ---- *)

Section S.
Variable sqrt : Qc -> Qc.

Lemma unit_ok v : v <> zero3 -> is_sqrt (sqrt (dot3 v v)) (dot3 v v) ->
  exists u, scalar_unit sqrt v = Ok u /\ dot3 u u = 1 /\ 0 < sqrt (dot3 v v) /\ v = along zero3 (sqrt (dot3 v v)) u.
Proof.
  intros Nv [P Q]. unfold scalar_unit, scalar_norm, vdiv. rewrite vdot_dot. set (s := sqrt (dot3 v v)) in *.
  assert (N : s <> 0). { intro K. apply Nv. apply dot_self_zero. rewrite <- Q, K. ring. }
  rewrite !divR_ok_ by auto. cbn [bind]. eexists. split; [reflexivity|]. split; [|split].
  - transitivity (dot3 v v / (s * s)); [v3d; field; auto|]. rewrite Q. field. rewrite <- Q. intro K. apply sq_zero in K. auto.
  - destruct (Qclt_le_dec 0 s); auto. exfalso. apply N. qlra.
  - apply v3_ext; v3d; field; auto.
Qed.
Lemma unit_zero : sqrt 0 = 0 -> scalar_unit sqrt zero3 = Err ZeroDivision.
Proof.
  intro H. unfold scalar_unit, scalar_norm, vdiv. replace (vdot zero3 zero3) with 0 by (v3d; ring). rewrite H, divR_zero_. reflexivity.
Qed.
Lemma is_sqrt_unique a b x : is_sqrt a x -> is_sqrt b x -> a = b.
Proof.
  intros [P1 Q1] [P2 Q2]. assert (E : (a - b) * (a + b) = 0) by (transitivity (a * a - b * b); [ring|rewrite Q1, Q2; ring]).
  apply Qcmult_integral in E. destruct E as [E|E]; [qlra|]. assert (a = 0) by qlra. assert (b = 0) by qlra. congruence.
Qed.
Lemma sqrt_zero : is_sqrt (sqrt 0) 0 -> sqrt 0 = 0.
Proof. intro H. apply (is_sqrt_unique _ _ 0); auto. split; [qlra|ring]. Qed.

Lemma cauchy a b : dot3 a b * dot3 a b <= dot3 a a * dot3 b b.
Proof.
  assert (E : dot3 a a * dot3 b b - dot3 a b * dot3 a b = dot3 (cross3 a b) (cross3 a b)) by (v3d; ring).
  pose proof (dot_self_nonneg (cross3 a b)) as H. rewrite <- E in H. qlra.
Qed.

Lemma fabs_sq x : fabs x * fabs x = x * x.
Proof. unfold fabs. destruct (qlt x 0); ring. Qed.

Lemma distance_spec pln p : pl_n pln <> zero3 -> is_sqrt (sqrt (dot3 (pl_n pln) (pl_n pln))) (dot3 (pl_n pln) (pl_n pln)) ->
  exists d, distance sqrt pln p = Ok d /\ 0 <= d /\
  (forall q, on_plane (pl_o pln) (pl_n pln) q -> d * d <= dist2 p q) /\
  (exists q, on_plane (pl_o pln) (pl_n pln) q /\ d * d = dist2 p q).
Proof.
  intros Nn [P Q]. unfold distance. set (n := pl_n pln) in *. set (o := pl_o pln) in *.
  change (vx n * vx n + vy n * vy n + vz n * vz n) with (dot3 n n). set (s := sqrt (dot3 n n)) in *.
  assert (NN : dot3 n n <> 0) by (intro K; apply Nn, dot_self_zero; auto).
  assert (N : s <> 0). { intro K. apply NN. rewrite <- Q, K. ring. }
  rewrite !divR_ok_ by auto. cbn [bind]. eexists. split; [reflexivity|]. split; [apply fabs_nonneg|].
  rewrite fabs_sq.
  set (k := dot3 n (minus3 p o)).
  set (t := vx n * vx (vsub p o) / s + vy n * vy (vsub p o) / s + vz n * vz (vsub p o) / s).
  assert (Et : t * t = k * k / dot3 n n).
  { rewrite <- Q. unfold t, k. v3d. field. auto. }
  rewrite Et. split.
  - intros q Hq. assert (K : k = dot3 n (minus3 p q)).
    { unfold k. unfold on_plane in Hq. transitivity (dot3 n (minus3 p q) + dot3 n (minus3 q o)); [v3d; ring|rewrite Hq; ring]. }
    pose proof (dot_self_nonneg n). apply qc_div_le; [qlra|]. rewrite K. unfold dist2. pose proof (cauchy n (minus3 p q)) as C. 
    replace (dot3 (minus3 p q) (minus3 p q) * dot3 n n) with (dot3 n n * dot3 (minus3 p q) (minus3 p q)) by ring. auto.
  - exists (along p (- (k / dot3 n n)) n). split.
    + apply on_along. unfold k. transitivity (- dot3 n (minus3 p o)); [field; auto|v3d; ring].
    + unfold dist2. set (c := k / dot3 n n). transitivity (c * c * dot3 n n); [unfold c; field; auto|v3d; ring].
Qed.

Lemma frame3 N X : dot3 N N = 1 -> dot3 X X = 1 -> dot3 N X = 0 ->
  orthonormal X (cross3 N X) N /\ cross3 X (cross3 N X) = N.
Proof.
  intros H1 H2 H3.
  assert (K : dot3 (cross3 N X) (cross3 N X) = 1).
  { transitivity (dot3 N N * dot3 X X - dot3 N X * dot3 N X); [v3d; ring|rewrite H1, H2, H3; ring]. }
  split.
  - split; [auto|]. split; [auto|]. split; [auto|]. split; [v3d; ring|]. split; [rewrite dot_comm; auto|v3d; ring].
  - apply v3_ext.
    + transitivity (dot3 X X * vx N - dot3 N X * vx X); [v3d; ring|rewrite H2, H3; ring].
    + transitivity (dot3 X X * vy N - dot3 N X * vy X); [v3d; ring|rewrite H2, H3; ring].
    + transitivity (dot3 X X * vz N - dot3 N X * vz X); [v3d; ring|rewrite H2, H3; ring].
Qed.

Lemma from_3pt p0 p1 p2 : let c := cross3 (minus3 p1 p0) (minus3 p2 p0) in c <> zero3 ->
  is_sqrt (sqrt (dot3 c c)) (dot3 c c) ->
  is_sqrt (sqrt (dist2 p1 p0)) (dist2 p1 p0) ->
  exists pl, plane_from_3pt sqrt p0 p1 p2 = Ok (pl, plane_eq_from_pts p0 p1 p2) /\
  frame pl /\ cross3 (pl_x pl) (pl_y pl) = pl_n pl /\ pl_o pl = p0 /\
  on_plane (pl_o pl) (pl_n pl) p1 /\ on_plane (pl_o pl) (pl_n pl) p2 /\
  (exists s, 0 < s /\ p1 = along (pl_o pl) s (pl_x pl)) /\
  0 < dot3 (pl_y pl) (minus3 p2 p0).
Proof.
  intros c Nc Sc Sd. unfold plane_from_3pt. change (mkv _ _ _) with (coefs (plane_eq_from_pts p0 p1 p2)). rewrite eq_coefs. fold c.
  assert (Nd : minus3 p1 p0 <> zero3). { intro K. apply Nc. unfold c. rewrite K. apply v3_ext; v3d; ring. }
  destruct (unit_ok c Nc Sc) as [N [EN [N1 [N2 N3]]]]. rewrite EN. cbn [bind]. rewrite vsub_minus.
  destruct (unit_ok (minus3 p1 p0) Nd Sd) as [X [EX [X1 [X2 X3]]]]. rewrite EX. cbn [bind].
  unfold dist2 in *. set (s := sqrt (dot3 c c)) in *. set (t := sqrt (dot3 (minus3 p1 p0) (minus3 p1 p0))) in *.
  assert (NX : dot3 N X = 0).
  { assert (K : s * t * dot3 N X = 0).
    { transitivity (dot3 c (minus3 p1 p0)); [rewrite N3, X3; v3d; ring|unfold c; v3d; ring]. }
    apply Qcmult_integral in K. destruct K as [K|K]; auto. exfalso. pose proof (qc_mul_pos _ _ N2 X2). qlra. }
  assert (NP2 : dot3 N (minus3 p2 p0) = 0).
  { assert (K : s * dot3 N (minus3 p2 p0) = 0).
    { transitivity (dot3 c (minus3 p2 p0)); [rewrite N3; v3d; ring|unfold c; v3d; ring]. }
    apply Qcmult_integral in K. destruct K as [K|K]; auto. exfalso. qlra. }
  destruct (frame3 N X N1 X1 NX) as [F1 F2].
  eexists. split; [reflexivity|]. cbn [pl_o pl_x pl_y pl_n]. unfold frame. cbn [pl_x pl_y pl_n]. rewrite vcross_cross.
  split; auto. split; auto. split; auto. split; [|split; [|split]].
  - unfold on_plane. rewrite X3. transitivity (t * dot3 N X); [v3d; ring|rewrite NX; ring].
  - exact NP2.
  - exists t. split; auto. unfold minus3, along, zero3 in X3. apply v3_inv in X3; cbn [vx vy vz] in X3; destruct X3 as [E1 [E2 E3]]. cbn [vx vy vz] in *.
    apply v3_ext; cbn [vx vy vz along]; qlra.
  - assert (K : t * dot3 (cross3 N X) (minus3 p2 p0) = s).
    { transitivity (dot3 N c); [unfold c; rewrite X3; v3d; ring|]. rewrite N3.
      transitivity (s * dot3 N N); [v3d; ring|rewrite N1; ring]. }
    destruct (Qclt_le_dec 0 (dot3 (cross3 N X) (minus3 p2 p0))); auto. exfalso. qnra.
Qed.

Lemma from_eq e : coefs e <> zero3 -> is_sqrt (sqrt (dot3 (coefs e) (coefs e))) (dot3 (coefs e) (coefs e)) ->
  exists o N, plane_from_eq sqrt e = Ok (o, N) /\ dot3 N N = 1 /\ cross3 N (coefs e) = zero3 /\ 0 < dot3 N (coefs e) /\
  (satisfies e o <-> pe_d e = 0).
Proof.
  intros Nc Sc. unfold plane_from_eq. change (mkv _ _ _) with (coefs e). destruct (unit_ok _ Nc Sc) as [N [EN [N1 [N2 N3]]]].
  rewrite EN. cbn [bind]. set (s := sqrt (dot3 (coefs e) (coefs e))) in *.
  do 2 eexists. split; [reflexivity|]. split; auto. split; [rewrite N3; apply v3_ext; v3d; ring|]. split.
  - rewrite N3. replace (dot3 N (along zero3 s N)) with (s * dot3 N N) by (v3d; ring). rewrite N1. qlra.
  - assert (E : pe_a e * vx (vscale (pe_d e) N) + pe_b e * vy (vscale (pe_d e) N) + pe_c e * vz (vscale (pe_d e) N) + pe_d e = pe_d e * (s + 1)).
    { transitivity (pe_d e * dot3 (coefs e) N + pe_d e); [unfold coefs; v3d; ring|]. rewrite N3.
      transitivity (pe_d e * (s * dot3 N N) + pe_d e); [v3d; ring|rewrite N1; ring]. }
    unfold satisfies. rewrite E. split; intro H.
    + apply Qcmult_integral in H. destruct H as [H|H]; auto. exfalso. qlra.
    + rewrite H. ring.
Qed.

Lemma fabs_lt x t : fabs x < t <-> - t < x < t.
Proof.
  unfold fabs. destruct (qlt x 0) eqn:E; [apply qlt_true in E|apply qlt_false in E]; (split; [intro H; split; qlra|intros [H1 H2]; qlra]).
Qed.

Lemma perp_side u : dot3 u u = 1 -> is_side u (perp_to_vector u tol5) /\ perp_to_vector u tol5 <> zero3.
Proof.
  intro H. unfold perp_to_vector. rewrite vdot_dot, H.
  replace (qle tol5 1) with true by reflexivity.
  assert (T : 0 < tol5) by (apply qlt_true; reflexivity).
  assert (T1 : tol5 * tol5 + tol5 * tol5 < 1) by (apply qlt_true; reflexivity).
  change (pl_n WORLD_XY) with (mkv 0 0 1). change (pl_x WORLD_XY) with (mkv 1 0 0). rewrite !mycross_cross.
  destruct (qle tol5 (fabs (vx u)) || qle tol5 (fabs (vy u))) eqn:E.
  - assert (K : ~ near_z u).
    { intros [A B]. apply (proj2 (fabs_lt _ _)) in A. apply (proj2 (fabs_lt _ _)) in B. fold tol5 in A, B.
      apply orb_true_iff in E. rewrite !qle_true in E. destruct E; qlra. }
    split; [right; auto|]. intro Z0. apply K. unfold cross3, zero3 in Z0. cbn [vx vy vz] in Z0. apply v3_inv in Z0; cbn [vx vy vz] in Z0; destruct Z0 as [Z1 [Z2 _]].
    assert (vx u = 0) by qlra. assert (vy u = 0) by qlra. unfold near_z. fold tol5. split; split; qlra.
  - apply orb_false_iff in E. rewrite !qle_false in E. destruct E as [A B].
    assert (K : near_z u) by (split; apply fabs_lt; auto).
    split; [left; auto|]. intro Z0. unfold cross3, zero3 in Z0. cbn [vx vy vz] in Z0. apply v3_inv in Z0; cbn [vx vy vz] in Z0; destruct Z0 as [_ [Z1 Z2]].
    assert (vy u = 0) by qlra. assert (vz u = 0) by qlra. destruct K as [[K1 K2] _]. fold tol5 in K1, K2.
    assert (X : vx u * vx u = 1). { rewrite <- H. v3d. rewrite H0, H1. ring. }
    assert (vx u * vx u < 1); [|qlra].
    assert (T2 : tol5 < 1) by (apply qlt_true; reflexivity). qnra.
Qed.

Lemma from_normal2 o n u w : Q2Qc (1 # 10 ^ 5) < dot3 n n ->
  is_sqrt (sqrt (dot3 n n)) (dot3 n n) -> n = along zero3 (sqrt (dot3 n n)) u ->
  is_side u w -> is_sqrt (sqrt (dot3 w w)) (dot3 w w) -> is_sqrt (sqrt 1) 1 ->
  exists pl, plane_from_normal2 sqrt o n tol5 = Ok pl /\ pl_o pl = o /\ pl_n pl = u /\ frame pl /\
    cross3 (pl_x pl) (pl_y pl) = neg3 (pl_n pl).
Proof.
  intros Hn Sn Eu Sw Sqw S1. change (Q2Qc (1 # 10 ^ 5)) with tol5 in Hn. unfold plane_from_normal2. rewrite vdot_dot.
  assert (T : 0 < tol5) by (apply qlt_true; reflexivity).
  destruct (qle (dot3 n n) tol5) eqn:E; [apply qle_true in E; exfalso; qlra|].
  assert (Nn : n <> zero3). { intro K. rewrite K in Hn. assert (dot3 zero3 zero3 = 0) by (v3d; ring). qlra. }
  destruct (unit_ok n Nn Sn) as [u' [Eu' [U1 [U2 U3]]]]. rewrite Eu'. cbn [bind]. clear E Eu'.
  assert (u' = u).
  { set (s := sqrt (dot3 n n)) in *. rewrite Eu in U3. unfold along, zero3 in U3. apply v3_inv in U3; cbn [vx vy vz] in U3; destruct U3 as [A [B C]]. cbn [vx vy vz] in *.
    assert (Ns : s <> 0) by (intro K; rewrite K in U2; qlra).
    apply v3_ext; [apply (mul_zero s (vx u' - vx u)) in Ns|apply (mul_zero s (vy u' - vy u)) in Ns|apply (mul_zero s (vz u' - vz u)) in Ns]; qlra. }
  subst u'. destruct (perp_side u U1) as [Sp Np].
  assert (Ew : perp_to_vector u tol5 = w).
  { destruct Sp as [[A ->]|[A ->]], Sw as [[B ->]|[B ->]]; auto; contradiction. }
  rewrite Ew in *. destruct (unit_ok w Np Sqw) as [X [EX [X1 [X2 X3]]]]. rewrite EX. cbn [bind].
  assert (XN : dot3 X u = 0).
  { assert (K : sqrt (dot3 w w) * dot3 X u = 0).
    { transitivity (dot3 w u); [set (s := sqrt (dot3 w w)) in *; rewrite X3; v3d; ring|].
      destruct Sw as [[_ ->]|[_ ->]]; v3d; ring. }
    apply Qcmult_integral in K. destruct K as [K|K]; auto. exfalso. qlra. }
  rewrite mycross_cross.
  assert (Y1 : dot3 (cross3 X u) (cross3 X u) = 1).
  { transitivity (dot3 X X * dot3 u u - dot3 X u * dot3 X u); [v3d; ring|rewrite X1, U1, XN; ring]. }
  assert (Sy : sqrt (dot3 (cross3 X u) (cross3 X u)) = 1).
  { rewrite Y1. apply (is_sqrt_unique _ _ 1); auto. split; [qlra|ring]. }
  unfold scalar_unit, scalar_norm, vdiv. rewrite vdot_dot, Sy. rewrite !divR_ok_ by discriminate. cbn [bind].
  eexists. split; [reflexivity|]. cbn [pl_o pl_x pl_y pl_n]. unfold frame. cbn [pl_x pl_y pl_n].
  replace (mkv (vx (cross3 X u) / 1) (vy (cross3 X u) / 1) (vz (cross3 X u) / 1)) with (cross3 X u)
    by (apply v3_ext; cbn [vx vy vz]; field; discriminate).
  split; auto. split; auto. split.
  - split; auto. split; auto. split; auto. split; [v3d; ring|]. split; auto. v3d. ring.
  - apply v3_ext; cbn [vx vy vz neg3].
    + transitivity (dot3 X u * vx X - dot3 X X * vx u); [v3d; ring|rewrite X1, XN; ring].
    + transitivity (dot3 X u * vy X - dot3 X X * vy u); [v3d; ring|rewrite X1, XN; ring].
    + transitivity (dot3 X u * vz X - dot3 X X * vz u); [v3d; ring|rewrite X1, XN; ring].
Qed.

Lemma from_normal2_default o n : dot3 n n <= Q2Qc (1 # 10 ^ 5) -> is_sqrt (sqrt 1) 1 ->
  plane_from_normal2 sqrt o n tol5 = Ok (mkpl o (mkv 0 1 0) (mkv 1 0 0) (mkv 0 0 1)).
Proof.
  intros Hn S1. unfold plane_from_normal2. rewrite vdot_dot.
  change (Q2Qc (1 # 10 ^ 5)) with tol5 in Hn. rewrite (proj2 (qle_true _ _) Hn). cbn [bind].
  assert (E1 : sqrt 1 = 1) by (apply (is_sqrt_unique _ _ 1); auto; split; [qlra|ring]).
  assert (K : forall v, dot3 v v = 1 -> scalar_unit sqrt v = Ok v).
  { intros v Hv. unfold scalar_unit, scalar_norm, vdiv. rewrite vdot_dot, Hv, E1. rewrite !divR_ok_ by discriminate. cbn [bind].
    f_equal. apply v3_ext; cbn [vx vy vz]; field; discriminate. }
  replace (perp_to_vector (mkv 0 0 1) tol5) with (mkv 0 1 0).
  2:{ assert (Q : perp_to_vector (mkv 0 0 1) tol5 = mycross (mkv 0 0 1) (mkv 1 0 0)) by reflexivity. rewrite Q. apply v3_ext; v3d; ring. }
  rewrite K by (v3d; ring). cbn [bind]. replace (mycross (mkv 0 1 0) (mkv 0 0 1)) with (mkv 1 0 0) by (apply v3_ext; v3d; ring).
  rewrite K by (v3d; ring). reflexivity.
Qed.

Lemma from_normal_origin_xn n o : vsub (project_point_by_normal (mkv 0 0 0) n o) o = along (neg3 o) (dot3 o n) n.
Proof. apply v3_ext; unfold project_point_by_normal; v3d; ring. Qed.

Lemma from_normal_origin n o : dot3 n n = 1 -> let w := along (neg3 o) (dot3 o n) n in
  w <> zero3 -> is_sqrt (sqrt (dot3 w w)) (dot3 w w) ->
  exists pl, plane_from_normal_origin sqrt n o = Ok pl /\ pl_o pl = o /\ pl_n pl = n /\ frame pl /\
    cross3 (pl_x pl) (pl_y pl) = pl_n pl.
Proof.
  intros Hn w Nw Sw. unfold plane_from_normal_origin. rewrite from_normal_origin_xn. fold w.
  destruct (unit_ok w Nw Sw) as [X [EX [X1 [X2 X3]]]]. unfold scalar_unit in EX. rewrite EX. cbn [bind].
  assert (NX : dot3 n X = 0).
  { assert (K : sqrt (dot3 w w) * dot3 n X = 0).
    { transitivity (dot3 n w); [set (s := sqrt (dot3 w w)) in *; rewrite X3; v3d; ring|].
      unfold w. transitivity (dot3 o n * dot3 n n - dot3 o n); [v3d; ring|rewrite Hn; ring]. }
    apply Qcmult_integral in K. destruct K as [K|K]; auto. exfalso. qlra. }
  destruct (frame3 n X Hn X1 NX) as [F1 F2].
  eexists. split; [reflexivity|]. cbn [pl_o pl_x pl_y pl_n]. split; auto. 
Qed.

Lemma from_normal_origin_fails n k : dot3 n n = 1 -> is_sqrt (sqrt 0) 0 ->
  plane_from_normal_origin sqrt n (along zero3 k n) = Err ZeroDivision.
Proof.
  intros Hn S0. unfold plane_from_normal_origin. rewrite from_normal_origin_xn.
  assert (Z0 : along (neg3 (along zero3 k n)) (dot3 (along zero3 k n) n) n = zero3).
  { replace (dot3 (along zero3 k n) n) with (k * dot3 n n) by (v3d; ring). rewrite Hn. apply v3_ext; v3d; ring. }
  rewrite Z0. pose proof (unit_zero (sqrt_zero S0)) as U. unfold scalar_unit in U. rewrite U. reflexivity.
Qed.
End S.

(* ---- projection ---- *)

Lemma project_same pln p : project pln p = project_point_by_normal p (pl_n pln) (pl_o pln).
Proof. apply v3_ext; unfold project, project_point_by_normal; v3d; ring. Qed.

Lemma project_spec p n o : dot3 n n = 1 -> let q := project_point_by_normal p n o in
  on_plane o n q /\ (exists s, p = along q s n) /\ (forall q', on_plane o n q' -> dist2 p q <= dist2 p q').
Proof.
  intros Hn q. set (s := dot3 (minus3 p o) n).
  assert (Eq : q = along p (- s) n) by (unfold q, project_point_by_normal, s; apply v3_ext; v3d; ring).
  assert (On : on_plane o n q).
  { rewrite Eq. apply on_along. rewrite Hn. unfold s. v3d. ring. }
  split; auto. split.
  - exists s. rewrite Eq. apply v3_ext; v3d; ring.
  - intros q' Hq'. pose proof (dot_self_nonneg (minus3 q q')) as P. unfold on_plane in On, Hq'.
    assert (E : dist2 p q' = dist2 p q + dot3 (minus3 q q') (minus3 q q')).
    { unfold dist2. transitivity (dot3 (minus3 p q) (minus3 p q) + dot3 (minus3 q q') (minus3 q q') + (1 + 1) * dot3 (minus3 p q) (minus3 q q')); [v3d; ring|].
      assert (C : dot3 (minus3 p q) (minus3 q q') = s * (dot3 n (minus3 q o) - dot3 n (minus3 q' o))) by (rewrite Eq; v3d; ring).
      rewrite C, On, Hq'. ring. }
    rewrite E. qlra.
Qed.

(* ---- local and world ---- *)
Lemma local_world p pln : frame pln ->
  (exists w, local_to_world p (ObjectP pln) = Ok w /\ world_to_local w (ObjectP pln) = Ok p) /\
  (exists l, world_to_local p (ObjectP pln) = Ok l /\ local_to_world l (ObjectP pln) = Ok p).
Proof.
  intro F.
  assert (W : forall q, local_to_world q (ObjectP pln) = Ok (evaluate_plane pln q)).
  { intro q. unfold local_to_world. cbn [attrs bind]. f_equal. unfold evaluate_plane. apply v3_ext; v3d; ring. }
  assert (L : forall q, world_to_local q (ObjectP pln) = Ok (inverse_evaluate_plane pln q)).
  { intro q. unfold world_to_local. cbn [attrs bind]. f_equal. unfold inverse_evaluate_plane. apply v3_ext; v3d; ring. }
  split; eexists; rewrite ?W, ?L; (split; [reflexivity|]); rewrite ?W, ?L; f_equal; [apply inv_eval|apply eval_inv]; auto.
Qed.
