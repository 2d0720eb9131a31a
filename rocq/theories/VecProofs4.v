(* Orientation of polygons, curvilinear coordinates, cross products. *)
From Coq Require Import List ZArith Lia Bool QArith Qcanon.
From Verif Require Import Common ListLib QcLib ArrZ SumLib NurbsModel DerModel DerProofs2 KnotProofs2 PlnModel PlnSpec PlnProofs2 PlnProofs4 PlnProofs5 VecModel VecSpec VecProofs1 VecProofs2 VecProofs3.
Import ListNotations.
Local Open Scope Z_scope.
Local Open Scope Qc_scope.

Notation o2 := (mkp 0 0).

Lemma cdet_cons p q r : cdet (p :: q :: r) = (p0 q - p0 p) * (p1 q + p1 p) + cdet (q :: r).
Proof. reflexivity. Qed.

Lemma cdet_app l p r : cdet (l ++ p :: r) = cdet (l ++ [p]) + cdet (p :: r).
Proof.
  induction l as [|a l IH]; [cbn [app]; change (cdet [p]) with 0; ring|].
  destruct l as [|b l].
  - cbn [app]. rewrite cdet_cons. change (cdet [a; p]) with ((p0 p - p0 a) * (p1 p + p1 a) + 0). ring.
  - cbn [app] in *. rewrite !cdet_cons, IH. ring.
Qed.

Lemma cdet_rev l : cdet (rev l) = - cdet l.
Proof.
  induction l as [|p l IH]; [cbn; ring|]. destruct l as [|q l]; [cbn; ring|].
  cbn [rev] in *. rewrite <- app_assoc. cbn [app]. rewrite cdet_app, IH. change (cdet [q; p]) with ((p0 p - p0 q) * (p1 p + p1 q) + 0).
  rewrite cdet_cons. ring.
Qed.

Lemma cdet_shift t p l : cdet (map (shift2 t) (p :: l)) = cdet (p :: l) + (1 + 1) * p1 t * (p0 (last (p :: l) o2) - p0 p).
Proof.
  revert p. induction l as [|q l IH]; intro p; [cbn; ring|].
  cbn [map] in *. rewrite !cdet_cons, IH. change (last (p :: q :: l) o2) with (last (q :: l) o2). cbn [shift2 p0 p1]. ring.
Qed.

(* the loop with the first point repeated at the end *)
Lemma cdet_sum l : cdet l = sumn (length l - 1) (fun i => (p0 (nth (S i) l o2) - p0 (nth i l o2)) * (p1 (nth (S i) l o2) + p1 (nth i l o2))).
Proof.
  induction l as [|p l IH]; [reflexivity|]. destruct l as [|q l]; [reflexivity|].
  rewrite cdet_cons, IH. cbn [length]. replace (S (S (length l)) - 1)%nat with (S (S (length l) - 1)) by lia. rewrite sumn_first. cbn [nth]. ring.
Qed.

Lemma telescope n f : sumn n (fun i => f (S i) - f i) = f n - f 0%nat.
Proof. induction n as [|n IH]; [cbn; ring|]. rewrite sumn_S, IH. ring. Qed.

Lemma nth_close (p : v2) l i : (i < S (length l))%nat -> nth (S i) ((p :: l) ++ [p]) o2 = next_of (p :: l) i.
Proof.
  intro Hi. unfold next_of. cbn [length]. destruct (Nat.eqb_spec (S i) (S (length l))) as [E|E].
  - rewrite app_nth2 by (cbn; lia). cbn [length]. replace (S i - S (length l))%nat with 0%nat by lia. reflexivity.
  - rewrite app_nth1 by (cbn; lia). reflexivity.
Qed.

Lemma cdet_closed p l : cdet ((p :: l) ++ [p]) = - area2 (p :: l).
Proof.
  rewrite cdet_sum. unfold area2. set (n := length (p :: l)). rewrite app_length. cbn [length]. replace (S (length l) + 1 - 1)%nat with n by (unfold n; cbn; lia).
  set (P := fun i => nth i ((p :: l) ++ [p]) o2).
  transitivity (sumn n (fun i => p0 (P (S i)) * p1 (P (S i)) - p0 (P i) * p1 (P i)) - sumn n (fun i => p0 (nth i (p :: l) o2) * p1 (next_of (p :: l) i) - p0 (next_of (p :: l) i) * p1 (nth i (p :: l) o2))).
  - rewrite <- sumn_sub. apply sumn_ext. intros i Hi. unfold P. rewrite nth_close by (unfold n in Hi; cbn in Hi; lia).
    rewrite app_nth1 by exact Hi. ring.
  - rewrite (telescope n (fun i => p0 (P i) * p1 (P i))).
    assert (E : P n = P 0%nat). { unfold P, n. rewrite app_nth2 by lia. rewrite Nat.sub_diag. reflexivity. }
    rewrite E. ring.
Qed.

Lemma order_spec l : (points_order l = 0%Z <-> 0 < cdet l) /\ (points_order l = 1%Z <-> cdet l < 0) /\ (points_order l = (-1)%Z <-> cdet l = 0).
Proof.
  unfold points_order. destruct (qlt 0 (cdet l)) eqn:A; [apply qlt_true in A|apply qlt_false in A].
  - split; [split; auto|]. split; split; intro H; try discriminate; try qlra.
  - destruct (qlt (cdet l) 0) eqn:B; [apply qlt_true in B|apply qlt_false in B].
    + split; [split; intro H; [discriminate|qlra]|]. split; [split; auto|]. split; intro H; [discriminate|]. rewrite H in B. qlra.
    + split; [split; intro H; [discriminate|qlra]|]. split; [split; intro H; [discriminate|qlra]|]. split; auto. intros _. qlra.
Qed.

Lemma order_closed p l :
  (points_order ((p :: l) ++ [p]) = 0%Z <-> area2 (p :: l) < 0) /\
  (points_order ((p :: l) ++ [p]) = 1%Z <-> 0 < area2 (p :: l)) /\
  (points_order ((p :: l) ++ [p]) = (-1)%Z <-> area2 (p :: l) = 0).
Proof.
  destruct (order_spec ((p :: l) ++ [p])) as [A [B C]]. rewrite A, B, C, cdet_closed.
  split; [split; intro; qlra|]. split; [split; intro; qlra|]. split; intro H; qlra.
Qed.

Lemma features_closed pts : (3 <= length pts)%nat -> exists c, features_points_order pts true = Ok c /\
  (c = 0%Z <-> area2 pts < 0) /\ (c = 1%Z <-> 0 < area2 pts) /\ (c = (-1)%Z <-> area2 pts = 0).
Proof.
  intro L. destruct pts as [|p l]; [cbn in L; lia|]. unfold features_points_order.
  destruct (Z.ltb_spec (lenZ (p :: l)) 3) as [K|K]; [unfold lenZ in K; lia|].
  rewrite (rdZ_ok p) by (unfold lenZ; cbn; lia). cbn [bind]. change (atZ p (p :: l) 0) with p. eexists. split; [reflexivity|]. apply order_closed.
Qed.
Lemma features_short pts close : (length pts < 3)%nat -> features_points_order pts close = Err ValueError.
Proof. intro L. unfold features_points_order. destruct (Z.ltb_spec (lenZ pts) 3) as [K|K]; auto. unfold lenZ in K. lia. Qed.

Lemma cdet_shift_closed t p l : cdet (map (shift2 t) ((p :: l) ++ [p])) = cdet ((p :: l) ++ [p]).
Proof.
  cbn [app]. rewrite (cdet_shift t p (l ++ [p])). replace (last (p :: l ++ [p]) o2) with p.
  - ring.
  - change (p :: l ++ [p]) with ((p :: l) ++ [p]). now rewrite last_last.
Qed.
Lemma order_shift_closed t p l : points_order (map (shift2 t) ((p :: l) ++ [p])) = points_order ((p :: l) ++ [p]).
Proof. unfold points_order. now rewrite cdet_shift_closed. Qed.

Lemma order_rev l : points_order (rev l) = match points_order l with 0%Z => 1%Z | 1%Z => 0%Z | c => c end.
Proof.
  destruct (order_spec l) as [A [B C]]. destruct (order_spec (rev l)) as [A' [B' C']]. rewrite cdet_rev in *.
  destruct (Qclt_le_dec 0 (cdet l)) as [K|K].
  - rewrite (proj2 A K). apply B'. qlra.
  - destruct (Qclt_le_dec (cdet l) 0) as [K'|K'].
    + rewrite (proj2 B K'). apply A'. qlra.
    + assert (Z : cdet l = 0) by qlra. rewrite (proj2 C Z). apply C'. rewrite Z. ring.
Qed.

Lemma half_nz : (1 + 1 : Qc) <> 0.
Proof. intro H. discriminate H. Qed.

Lemma order_open p l : p0 p <> p0 (last (p :: l) o2) ->
  exists t t', points_order (map (shift2 t) (p :: l)) = 0%Z /\ points_order (map (shift2 t') (p :: l)) = 1%Z.
Proof.
  intro N. set (d := p0 (last (p :: l) o2) - p0 p). assert (D : d <> 0) by (unfold d; intro Z; apply N; qlra).
  pose proof half_nz as HN.
  exists (mkp 0 ((1 - cdet (p :: l)) / ((1 + 1) * d))), (mkp 0 ((- (1) - cdet (p :: l)) / ((1 + 1) * d))).
  split; apply order_spec; rewrite cdet_shift; fold d; cbn [p1].
  - replace (cdet (p :: l) + (1 + 1) * ((1 - cdet (p :: l)) / ((1 + 1) * d)) * d) with 1 by (field; auto). apply qlt_true. reflexivity.
  - replace (cdet (p :: l) + (1 + 1) * ((- (1) - cdet (p :: l)) / ((1 + 1) * d)) * d) with (- (1) : Qc) by (field; auto). apply qlt_true. reflexivity.
Qed.

(* ---- scalar Gram-Schmidt ---- *)
Lemma sgs_ok t a b : t <> SameB -> scalar_gram_schmidt t a b = along b (- dot3 b a) a /\
  dot3 (scalar_gram_schmidt t a b) a = dot3 b a * (1 - dot3 a a).
Proof.
  intro N. destruct t; [| |easy]; unfold scalar_gram_schmidt; (split; [apply v3_ext; v3d; ring|v3d; ring]).
Qed.
Lemma sgs_same a b : scalar_gram_schmidt SameB a b = zero3.
Proof. unfold scalar_gram_schmidt. apply v3_ext; v3d; ring. Qed.

(* ---- cross products ---- *)
Lemma cross_rows_ok a b junk : length b = length a -> length junk = length a ->
  cross_rows a b junk = Ok (map (fun i => cross3 (nth i a zero3) (nth i b zero3)) (seq 0 (length a))).
Proof.
  intros Lb Lj. unfold cross_rows. rewrite (lenZ_of _ a _ eq_refl). apply (fill_list zero3); auto.
  intros i r Hi Lr _. rewrite !(rdZ_ok zero3) by (unfold lenZ; lia). cbn [bind]. unfold atZ. now rewrite Nat2Z.id.
Qed.
Lemma cross_orth a b : dot3 (cross3 a b) a = 0 /\ dot3 (cross3 a b) b = 0 /\ cross3 a b = neg3 (cross3 b a) /\
  dot3 (cross3 a b) (cross3 a b) + dot3 a b * dot3 a b = dot3 a a * dot3 b b.
Proof. split; [v3d; ring|]. split; [v3d; ring|]. split; [apply v3_ext; v3d; ring|v3d; ring]. Qed.
Lemma normal4_ok a b c d : dot3 (normal_from_4pt a b c d) (minus3 c a) = 0 /\ dot3 (normal_from_4pt a b c d) (minus3 d b) = 0.
Proof. unfold normal_from_4pt. split; v3d; ring. Qed.
Lemma normal4_plane o n a b c d : n <> zero3 -> on_plane o n a -> on_plane o n b -> on_plane o n c -> on_plane o n d ->
  exists s, normal_from_4pt a b c d = along zero3 s n.
Proof.
  intros N A B C D. apply parallel_cross; auto. unfold normal_from_4pt. change vsub with minus3. change vcross with cross3.
  assert (U : dot3 (minus3 c a) n = 0) by (unfold on_plane in *; transitivity (dot3 n (minus3 c o) - dot3 n (minus3 a o)); [v3d; ring|rewrite A, C; ring]).
  assert (V : dot3 (minus3 d b) n = 0) by (unfold on_plane in *; transitivity (dot3 n (minus3 d o) - dot3 n (minus3 b o)); [v3d; ring|rewrite B, D; ring]).
  set (u := minus3 c a) in *. set (v := minus3 d b) in *.
  assert (E : cross3 (cross3 u v) n = minus3 (along zero3 (dot3 u n) v) (along zero3 (dot3 v n) u)) by (apply v3_ext; v3d; ring).
  rewrite E, U, V. apply v3_ext; v3d; ring.
Qed.

(* ---- curvilinear coordinates ---- *)
Section Trig.
Variables sqrt sin cos : Qc -> Qc.
Variable atan2 : Qc -> Qc -> Qc.
Lemma spherical_round p :
  let rho := sqrt (vx p * vx p + vy p * vy p) in
  let r := sqrt (vx p * vx p + vy p * vy p + vz p * vz p) in
  polar sin cos atan2 (vz p) rho r -> polar sin cos atan2 (vx p) (vy p) rho ->
  spherical_to_cartesian sin cos (cartesian_to_spherical sqrt atan2 p) = p.
Proof.
  intros rho r [A B] [C D]. unfold spherical_to_cartesian, cartesian_to_spherical. cbn [vx vy vz]. fold rho. fold r.
  apply v3_ext; cbn [vx vy vz]; [rewrite B; auto|rewrite B; auto|auto].
Qed.
Lemma spherical_radius p : 0 <= vx p ->
  cos (vy p) * cos (vy p) + sin (vy p) * sin (vy p) = 1 -> cos (vz p) * cos (vz p) + sin (vz p) * sin (vz p) = 1 ->
  is_sqrt (sqrt (vx p * vx p)) (vx p * vx p) ->
  vx (cartesian_to_spherical sqrt atan2 (spherical_to_cartesian sin cos p)) = vx p.
Proof.
  intros P A B S. unfold cartesian_to_spherical, spherical_to_cartesian. cbn [vx vy vz].
  set (s := sin (vy p)) in *. set (c := cos (vy p)) in *. set (s' := sin (vz p)) in *. set (c' := cos (vz p)) in *.
  replace (vx p * s * c' * (vx p * s * c') + vx p * s * s' * (vx p * s * s') + vx p * c * (vx p * c)) with (vx p * vx p).
  - apply (is_sqrt_unique _ _ (vx p * vx p)); auto. split; auto.
  - transitivity (vx p * vx p * (c * c + s * s * (c' * c' + s' * s'))); [|ring]. rewrite B, Qcmult_1_r, A. ring.
Qed.

Lemma cylindrical_round p :
  let q := courtesan_to_cylindrical sqrt atan2 p in
  cos (vy q) * cos (vy q) + sin (vy q) * sin (vy q) = 1 ->
  is_sqrt (vx q) (vx p * vx p + vy p * vy p + vz p * vz p) -> vz p <> 0 ->
  cylindrical_to_xyz sin cos q <> p.
Proof.
  intros q A [_ S] N E. apply N, sq_zero. apply v3_inv in E. destruct E as [E1 [E2 _]]. cbn [vx vy vz cylindrical_to_xyz] in E1, E2.
  assert (K : vx q * vx q * (cos (vy q) * cos (vy q) + sin (vy q) * sin (vy q)) = vx p * vx p + vy p * vy p) by (rewrite <- E1, <- E2; ring).
  rewrite A, S in K. transitivity ((vx p * vx p + vy p * vy p + vz p * vz p) * 1 - (vx p * vx p + vy p * vy p)); [ring|rewrite K; ring].
Qed.
(* on the plane z = 0 the angle is that of the positive y axis *)
Lemma cylindrical_flat p : vz p = 0 -> let rho := sqrt (vx p * vx p + vy p * vy p) in rho <> 0 -> rho * cos (atan2 rho 0) = 0 -> vx p <> 0 ->
  cylindrical_to_xyz sin cos (courtesan_to_cylindrical sqrt atan2 p) <> p.
Proof.
  intros Z rho R H N E. apply N. apply v3_inv in E. destruct E as [E _]. cbn [vx vy vz cylindrical_to_xyz courtesan_to_cylindrical] in E.
  fold rho in E. rewrite Z in E. rewrite <- E. assert (C : cos (atan2 rho 0) = 0) by (apply Qcmult_integral in H; tauto). rewrite C. ring.
Qed.
End Trig.

(* ---- closeness ---- *)
Lemma close_refl a atol rtol : 0 <= atol -> 0 <= rtol -> is_close a a atol rtol = true.
Proof.
  intros A R. unfold is_close. apply qle_true. replace (a - a) with 0 by ring. rewrite fabs_0.
  pose proof (fabs_nonneg a). assert (0 <= rtol * fabs a) by (apply mulnn; auto). qlra.
Qed.
Lemma close_asym atol rtol : 0 <= atol -> 0 < rtol -> exists a b, is_close a b atol rtol = true /\ is_close b a atol rtol = false.
Proof.
  intros A R. exists 1, (1 + atol + rtol + rtol * rtol). set (b := 1 + atol + rtol + rtol * rtol).
  pose proof (sq_nonneg rtol) as SQ. assert (SP : 0 < rtol * rtol) by (apply qc_mul_pos; auto). assert (B : 1 < b) by (unfold b; qlra).
  assert (F1 : fabs (1 - b) = b - 1) by (unfold fabs; rewrite (proj2 (qlt_true _ _)); [ring|qlra]).
  assert (F2 : fabs (b - 1) = b - 1) by (unfold fabs; destruct (qlt (b - 1) 0) eqn:Q; auto; apply qlt_true in Q; qlra).
  assert (F3 : fabs b = b) by (unfold fabs; destruct (qlt b 0) eqn:Q; auto; apply qlt_true in Q; qlra).
  assert (F4 : fabs 1 = 1) by reflexivity.
  split.
  - apply qle_true. rewrite F1, F3. unfold b.
    assert (P1 : 0 <= rtol * atol) by (apply mulnn; auto; qlra). assert (P2 : 0 < rtol * (rtol * rtol)) by (apply qc_mul_pos; auto).
    replace (atol + rtol * (1 + atol + rtol + rtol * rtol)) with (atol + rtol + rtol * atol + rtol * rtol + rtol * (rtol * rtol)) by ring. qlra.
  - apply qle_false. rewrite F2, F4. unfold b. qlra.
Qed.
