(* Point inversion and frames. *)
From Coq Require Import List ZArith Lia Bool QArith Qcanon.
From Verif Require Import Common ListLib QcLib ArrZ SumLib NurbsModel DerModel PlnModel PlnSpec PlnProofs2 PlnProofs4 PlnProofs5 VecModel VecSpec VecProofs3 IptModel IptSpec IptProofs2 IptProofs3.
Import ListNotations.
Local Open Scope Z_scope.
Local Open Scope Qc_scope.

Lemma divR_inv a b c : divR a b = Ok c -> b <> 0 /\ c = a / b.
Proof.
  intro H. destruct (Qc_eq_dec b 0) as [->|N]; [rewrite divR_zero_ in H; discriminate|].
  rewrite divR_ok_ in H by auto. injection H as <-. auto.
Qed.

Section Curve.
Variable sqrt : Qc -> Qc.
Variables C C1 C2 : Qc -> v3.

Lemma inversion_never P tol1 tol2 n : forall ui c c1 c2 u,
  inversion_loop sqrt C C1 C2 n P tol1 tol2 ui c c1 c2 = Ok u -> u = ui \/ tol1 < sqrt (dist2 (C u) P).
Proof.
  induction n as [|n IH]; intros ui c c1 c2 u; cbn [inversion_loop]; [intro H; injection H as <-; auto|].
  destruct (qle (fabs _) close8); [intro H; injection H as <-; auto|].
  destruct (divR _ _) as [s|]; cbn [bind]; [|discriminate].
  destruct (qle (_ * _) tol1); [intro H; injection H as <-; auto|].
  destruct (qle (scalar_norm sqrt (vsub (C (ui - s)) P)) tol1) eqn:Q; [intro H; injection H as <-; auto|]. apply qle_false in Q.
  destruct (divR _ _) as [m|]; cbn [bind]; [|discriminate].
  destruct (qle m tol2); [intro H; injection H as <-; auto|].
  intro H. destruct (IH _ _ _ _ _ H) as [->|K]; auto.
Qed.

Lemma inversion_start P tol1 tol2 u0 mi : 0 <= tol1 -> dot3 (C1 u0) (minus3 (C u0) P) = 0 ->
  point_inversion_curve sqrt C C1 C2 P u0 tol1 tol2 mi = Ok u0.
Proof.
  intros T D. unfold point_inversion_curve. destruct (Z.to_nat mi); cbn [inversion_loop]; auto.
  destruct (qle (fabs _) close8) eqn:Q; auto.
  match goal with |- context [divR ?a ?b] => assert (N : b <> 0) end.
  { intro K. rewrite K, fabs_0 in Q. apply qle_false in Q. assert (0 < close8) by (apply qlt_true; vm_compute; reflexivity). qlra. }
  rewrite divR_ok_ by auto. cbn [bind]. change vsub with minus3 in *. change vdot with dot3 in *. rewrite D.
  match goal with |- context [0 / ?b] => replace (0 / b) with 0 by (field; auto) end.
  replace (u0 - 0 - u0) with 0 by ring. rewrite fabs_0, Qcmult_0_l.
  assert (Q2 : qle 0 tol1 = true) by (apply qle_true; auto). now rewrite Q2.
Qed.
End Curve.

Lemma inversion_line sqrt o d P u0 tol1 tol2 mi : 0 <= tol2 ->
  let F := point_inversion_curve sqrt (line_at o d) (fun _ => d) (fun _ => zero3) P u0 tol1 tol2 mi in
  (forall u, F = Ok u -> u = u0) /\ (sqrt (dot3 d d) <> 0 -> sqrt (dist2 d P) <> 0 -> F = Ok u0).
Proof.
  intros T F. unfold F, point_inversion_curve. destruct (Z.to_nat mi) as [|n]; cbn [inversion_loop].
  { split; auto. intros u H; injection H as <-; auto. }
  destruct (qle (fabs _) close8) eqn:Q; [split; auto; intros u H; injection H as <-; auto|].
  match goal with |- context [divR ?a ?b] => assert (N : b <> 0) end.
  { intro K. rewrite K, fabs_0 in Q. apply qle_false in Q. assert (0 < close8) by (apply qlt_true; vm_compute; reflexivity). qlra. }
  rewrite divR_ok_ by auto. cbn [bind].
  destruct (qle (_ * _) tol1); [split; auto; intros u H; injection H as <-; auto|].
  destruct (qle (scalar_norm _ _) tol1); [split; auto; intros u H; injection H as <-; auto|].
  match goal with |- context [fabs (vdot d (vsub (line_at o d ?x) P))] => assert (D : vdot d (vsub (line_at o d x) P) = 0) end.
  { match goal with |- vdot d (vsub (line_at o d (u0 - ?fi / ?dd)) P) = 0 => transitivity (fi - fi / dd * dd) end.
    - unfold line_at. v3d. ring.
    - field. auto. }
  rewrite D, fabs_0. unfold scalar_norm. change vdot with dot3. change vsub with minus3. fold (dist2 d P).
  destruct (Qc_eq_dec (sqrt (dot3 d d) * sqrt (dist2 d P)) 0) as [K|K].
  - rewrite K, divR_zero_. cbn [bind]. split; [discriminate|]. intros A B. apply Qcmult_integral in K. tauto.
  - rewrite divR_ok_ by auto. cbn [bind].
    assert (Q2 : qle (0 / (sqrt (dot3 d d) * sqrt (dist2 d P))) tol2 = true).
    { apply qle_true. replace (0 / (sqrt (dot3 d d) * sqrt (dist2 d P))) with 0 by (unfold Qcdiv; ring). auto. }
    rewrite Q2. split; auto. intros u H; injection H as <-; auto.
Qed.

Section Surf.
Variable sqrt : Qc -> Qc.
Variables S Su Sv : v2 -> v3.

Lemma inversion_surface_never P tol1 tol2 n : forall uv dl r,
  inversion_surface_loop sqrt S Su Sv n P tol1 tol2 uv dl = Ok r -> r = uv \/ tol1 < sqrt (dist2 (S r) P).
Proof.
  induction n as [|n IH]; intros uv dl r; cbn [inversion_surface_loop]; [intro H; injection H as <-; auto|].
  destruct (solve2x2 _ _ dl) as [[x ok]|]; cbn [bind]; [|discriminate]. destruct ok; cbn [negb]; [|discriminate].
  destruct (qle (_ * _) tol1); [intro H; injection H as <-; auto|].
  destruct (qle (scalar_norm _ _) tol1) eqn:Q; [intro H; injection H as <-; auto|]. apply qle_false in Q.
  destruct (_ && _); [intro H; injection H as <-; auto|].
  intro H. destruct (IH _ _ _ H) as [->|K]; auto.
Qed.

Lemma gram_sym a b : det2 (mkm (vdot a a) (vdot a b) (vdot b a) (vdot b b)) <> 0 <-> cross3 a b <> zero3.
Proof. rewrite <- gram_zero. unfold det2. cbn [m00 m01 m10 m11]. replace (vdot a b * vdot b a) with (vdot b a * vdot a b) by ring. tauto. Qed.

Lemma inversion_surface_start P tol1 tol2 u0 v0 mi : let uv := mkp u0 v0 in 0 <= tol1 -> cross3 (Su uv) (Sv uv) <> zero3 ->
  dot3 (Su uv) (minus3 (S uv) P) = 0 -> dot3 (Sv uv) (minus3 (S uv) P) = 0 -> sqrt 0 = 0 ->
  point_inversion_surface sqrt S Su Sv P u0 v0 tol1 tol2 mi = Ok uv.
Proof.
  intros uv T N A B S0. unfold point_inversion_surface. fold uv. destruct (Z.to_nat mi); cbn [inversion_surface_loop]; auto.
  change vsub with minus3. 
  match goal with |- context [solve2x2 ?m ?y ?d] => destruct (solve2x2_ok m y d) as [x [ok [E [R [Un _]]]]] end.
  rewrite E. cbn [bind]. rewrite gram_sym in R. assert (ok = true) by (apply R; auto). subst ok. cbn [negb].
  assert (X : mkp 0 0 = x).
  { apply (Un eq_refl). unfold app2. cbn [m00 m01 m10 m11 p0 p1]. change vdot with dot3. rewrite A, B. apply v2_ext; cbn [p0 p1]; ring. }
  rewrite <- X. replace (dot2v _ _) with 0 by (unfold dot2v, sub2v; cbn [p0 p1]; ring). rewrite S0, Qcmult_0_l.
  assert (Q2 : qle 0 tol1 = true) by (apply qle_true; auto). now rewrite Q2.
Qed.
End Surf.

Lemma inversion_plane sqrt o a b P u0 v0 tol1 tol2 mi : cross3 a b <> zero3 -> is_sqrt (sqrt (dot3 a a)) (dot3 a a) -> 0 <= tol1 -> 0 <= tol2 ->
  point_inversion_surface sqrt (plane_at o a b) (fun _ => a) (fun _ => b) P u0 v0 tol1 tol2 mi = Ok (mkp u0 v0).
Proof.
  intros N [Sp Sq] T1 T2. unfold point_inversion_surface. destruct (Z.to_nat mi); cbn [inversion_surface_loop]; auto.
  match goal with |- context [solve2x2 ?m ?y ?d] => destruct (solve2x2_ok m y d) as [x [ok [E [R [Un _]]]]] end.
  rewrite E. cbn [bind]. rewrite gram_sym in R. assert (ok = true) by (apply R; auto). subst ok. cbn [negb].
  pose proof (proj2 (Un eq_refl x) eq_refl) as K. apply v2_inv in K. unfold app2 in K. cbn [m00 m01 m10 m11 p0 p1] in K. destruct K as [K1 _].
  destruct (qle (_ * _) tol1); auto.
  destruct (qle (scalar_norm _ _) tol1) eqn:Q; auto. apply qle_false in Q.
  match goal with |- context [fabs (vdot a ?X)] => set (diff := X) in * end.
  assert (D : vdot a diff = 0).
  { transitivity (vdot a (vsub (plane_at o a b (mkp u0 v0)) P) - (vdot a a * p0 x + vdot a b * p1 x)).
    - unfold diff, plane_at, sub2v. cbn [p0 p1]. v3d. ring.
    - rewrite K1. ring. }
  rewrite D, fabs_0.
  assert (Na : sqrt (dot3 a a) <> 0).
  { intro Y. apply N. rewrite Y in Sq. assert (Z0 : dot3 a a = 0) by (rewrite <- Sq; ring). apply dot_self_zero in Z0. rewrite Z0. apply v3_ext; v3d; ring. }
  assert (Nn : scalar_norm sqrt a * scalar_norm sqrt diff <> 0).
  { intro Y. apply Qcmult_integral in Y. destruct Y as [Y|Y]; [auto|]. rewrite Y in Q. qlra. }
  assert (Q1 : qeq (scalar_norm sqrt a * scalar_norm sqrt diff) 0 = false) by (apply qeq_false; auto).
  assert (Q2 : qle (0 / (scalar_norm sqrt a * scalar_norm sqrt diff)) tol2 = true).
  { apply qle_true. replace (0 / (scalar_norm sqrt a * scalar_norm sqrt diff)) with 0; auto. unfold Qcdiv. ring. }
  rewrite Q1, Q2. reflexivity.
Qed.

(* frames *)
Section Frames.
Variable sqrt : Qc -> Qc.

Lemma small10_pos : 0 < small10.
Proof. apply qlt_true. vm_compute. reflexivity. Qed.
Lemma renorm_ok v : is_sqrt (sqrt (dot3 v v)) (dot3 v v) -> small10 < sqrt (dot3 v v) ->
  exists u, renormalize sqrt v = Ok u /\ dot3 u u = 1 /\ v = along zero3 (sqrt (dot3 v v)) u.
Proof.
  intros R L. pose proof small10_pos. assert (N : v <> zero3).
  { intro K. destruct R as [_ R]. assert (Z0 : dot3 v v = 0) by (rewrite K; v3d; ring). rewrite Z0 in R, L. apply sq_zero in R. rewrite R in L. qlra. }
  destruct (unit_ok sqrt v N R) as [u [E [U [_ V]]]]. exists u. split; auto.
  unfold renormalize, scalar_norm. change vdot with dot3. assert (Q : qlt small10 (sqrt (dot3 v v)) = true) by (apply qlt_true; auto).
  rewrite Q. exact E.
Qed.
Lemma renorm_small v : sqrt (dot3 v v) <= small10 -> renormalize sqrt v = Err ValueError.
Proof. intro L. unfold renormalize, scalar_norm. change vdot with dot3. assert (Q : qlt small10 (sqrt (dot3 v v)) = false) by (apply qlt_false; auto). now rewrite Q. Qed.

Lemma perp_scaled n a v : n <> 0 -> dot3 a a = 1 -> perp_part (along zero3 n a) v = minus3 v (along zero3 (dot3 a v) a).
Proof.
  intros N A. unfold perp_part.
  assert (E1 : dot3 (along zero3 n a) v = n * dot3 a v) by (v3d; ring).
  assert (E2 : dot3 (along zero3 n a) (along zero3 n a) = n * n) by (transitivity (n * n * dot3 a a); [v3d; ring|rewrite A; ring]).
  rewrite E1, E2. set (k := dot3 a v). unfold along, minus3, zero3. cbn [vx vy vz].
  f_equal; field; auto.
Qed.
Lemma sub_eq u v : vsub v (vscale (vdot u v) u) = minus3 v (along zero3 (dot3 u v) u).
Proof. apply v3_ext; v3d; ring. Qed.

Lemma ortho_ok u v w : let v1 := perp_part u v in let w2 := perp_part v1 (perp_part u w) in
  u <> zero3 -> is_sqrt (sqrt (dot3 u u)) (dot3 u u) -> is_sqrt (sqrt (dot3 v1 v1)) (dot3 v1 v1) -> is_sqrt (sqrt (dot3 w2 w2)) (dot3 w2 w2) ->
  small10 < sqrt (dot3 v1 v1) -> small10 < sqrt (dot3 w2 w2) ->
  exists a b c, orthonormalize sqrt u v w = (Ok (a, b, c), Some b, Some c) /\ orthonormal a b c /\
  (exists k, 0 < k /\ u = along zero3 k a) /\
  (exists k l, 0 < l /\ v = along (along zero3 k a) l b) /\
  (exists k l m, 0 < m /\ w = along (along (along zero3 k a) l b) m c).
Proof.
  intros v1 w2 Nu Ru Rv Rw Lv Lw. pose proof small10_pos as SP. unfold orthonormalize.
  destruct (unit_ok sqrt u Nu Ru) as [a [Ea [A1 [Pn U]]]]. unfold scalar_unit in Ea. rewrite Ea. set (n := sqrt (dot3 u u)) in *.
  assert (Nn : n <> 0) by (intro K; rewrite K in Pn; qlra).
  rewrite sub_eq. assert (V1 : v1 = minus3 v (along zero3 (dot3 a v) a)) by (unfold v1; rewrite U; apply perp_scaled; auto).
  rewrite <- V1. destruct (renorm_ok v1 Rv Lv) as [b [Eb [B1 V]]]. rewrite Eb. set (m := sqrt (dot3 v1 v1)) in *.
  assert (Nm : m <> 0) by (intro K; rewrite K in Lv; qlra).
  cbv zeta. rewrite (sub_eq a w). assert (W1 : perp_part u w = minus3 w (along zero3 (dot3 a w) a)) by (rewrite U; apply perp_scaled; auto).
  rewrite <- W1. rewrite (sub_eq b (perp_part u w)). set (w1 := perp_part u w) in *.
  assert (W2 : w2 = minus3 w1 (along zero3 (dot3 b w1) b)) by (unfold w2; rewrite V; apply perp_scaled; auto).
  rewrite <- W2. destruct (renorm_ok w2 Rw Lw) as [c [Ec [C1 W]]]. rewrite Ec. set (l := sqrt (dot3 w2 w2)) in *.
  assert (Nl : l <> 0) by (intro K; rewrite K in Lw; qlra).
  assert (AB : dot3 a b = 0).
  { apply (mul_zero m); auto. transitivity (dot3 a v1); [rewrite V at 1; v3d; ring|]. rewrite V1.
    transitivity (dot3 a v * (1 - dot3 a a)); [v3d; ring|rewrite A1; ring]. }
  assert (Aw1 : dot3 a w1 = 0).
  { rewrite W1. transitivity (dot3 a w * (1 - dot3 a a)); [v3d; ring|rewrite A1; ring]. }
  assert (AC : dot3 a c = 0).
  { apply (mul_zero l); auto. transitivity (dot3 a w2); [rewrite W at 1; v3d; ring|]. rewrite W2.
    transitivity (dot3 a w1 - dot3 b w1 * dot3 a b); [v3d; ring|rewrite AB, Aw1; ring]. }
  assert (BC : dot3 b c = 0).
  { apply (mul_zero l); auto. transitivity (dot3 b w2); [rewrite W at 1; v3d; ring|]. rewrite W2.
    transitivity (dot3 b w1 * (1 - dot3 b b)); [v3d; ring|rewrite B1; ring]. }
  exists a, b, c. split; [reflexivity|]. split; [unfold orthonormal; auto 10|]. split; [exists n; auto|]. split.
  - exists (dot3 a v), m. split; [qlra|]. apply v3_ext; apply v3_inv in V; apply v3_inv in V1; destruct V as [X [Y Z0]]; destruct V1 as [X1 [Y1 Z1]];
      unfold along, minus3, zero3 in *; cbn [vx vy vz] in *; [rewrite X1 in X|rewrite Y1 in Y|rewrite Z1 in Z0]; clear - X Y Z0; [rename X into H|rename Y into H|rename Z0 into H];
      match type of H with ?p - ?q = _ => transitivity (q + (p - q)); [ring|rewrite H; ring] end.
  - exists (dot3 a w), (dot3 b w1), l. split; [qlra|]. apply v3_inv in W; apply v3_inv in W1; apply v3_inv in W2. destruct W as [X [Y Z0]]; destruct W1 as [X1 [Y1 Z1]]; destruct W2 as [X2 [Y2 Z2]].
    set (k1 := dot3 a w) in *. set (k2 := dot3 b w1) in *.
    unfold along, minus3, zero3 in *; cbn [vx vy vz] in *. apply v3_ext; cbn [vx vy vz].
    + transitivity (vx w2 + (0 + k2 * vx b) + (0 + k1 * vx a)); [rewrite X2, X1; ring|rewrite X; ring].
    + transitivity (vy w2 + (0 + k2 * vy b) + (0 + k1 * vy a)); [rewrite Y2, Y1; ring|rewrite Y; ring].
    + transitivity (vz w2 + (0 + k2 * vz b) + (0 + k1 * vz a)); [rewrite Z2, Z1; ring|rewrite Z0; ring].
Qed.

Lemma ortho_parallel u v w : let v1 := perp_part u v in u <> zero3 -> is_sqrt (sqrt (dot3 u u)) (dot3 u u) -> sqrt (dot3 v1 v1) <= small10 ->
  orthonormalize sqrt u v w = (Err ValueError, Some v1, Some w).
Proof.
  intros v1 Nu Ru L. unfold orthonormalize.
  destruct (unit_ok sqrt u Nu Ru) as [a [Ea [A1 [Pn U]]]]. unfold scalar_unit in Ea. rewrite Ea. set (n := sqrt (dot3 u u)) in *.
  assert (Nn : n <> 0) by (intro K; rewrite K in Pn; qlra).
  rewrite sub_eq. assert (V1 : v1 = minus3 v (along zero3 (dot3 a v) a)) by (unfold v1; rewrite U; apply perp_scaled; auto).
  rewrite <- V1, (renorm_small v1 L). reflexivity.
Qed.

Lemma frenet_ok r r1 r2 : let K := along zero3 (1 / sqrt (dot3 r1 r1)) (perp_part r1 r2) in
  cross3 r1 r2 <> zero3 -> is_sqrt (sqrt (dot3 r1 r1)) (dot3 r1 r1) -> is_sqrt (sqrt (dot3 K K)) (dot3 K K) ->
  exists T N B, frenet sqrt r r1 r2 = Ok (r, T, N, B) /\ orthonormal T N B /\ det3 T N B = 1 /\
  (exists k, 0 < k /\ r1 = along zero3 k T) /\ (exists k l, 0 < l /\ r2 = along (along zero3 k T) l N).
Proof.
  intros K Ncr R1 RK. unfold frenet.
  assert (N1 : r1 <> zero3) by (intro E; apply Ncr; rewrite E; apply v3_ext; v3d; ring).
  destruct (unit_ok sqrt r1 N1 R1) as [T [ET [T1 [Pn U]]]]. unfold scalar_unit in ET. rewrite ET. cbn [bind].
  unfold scalar_norm in *. change (vdot r1 r1) with (dot3 r1 r1). set (n := sqrt (dot3 r1 r1)) in *.
  assert (Nn : n <> 0) by (intro E; rewrite E in Pn; qlra).
  replace (vdot r2 T) with (vdot T r2) by (v3d; ring). rewrite sub_eq.
  assert (P : perp_part r1 r2 = minus3 r2 (along zero3 (dot3 T r2) T)) by (rewrite U; apply perp_scaled; auto).
  rewrite <- P. set (p := perp_part r1 r2) in *.
  assert (EK : vdiv p n = Ok K).
  { unfold vdiv. rewrite !divR_ok_ by auto. cbn [bind]. f_equal. unfold K, along, zero3. cbn [vx vy vz]. f_equal; field; auto. }
  rewrite EK. cbn [bind].
  assert (NK : K <> zero3).
  { intro E. apply Ncr. assert (Pz : p = zero3).
    { unfold K in E. apply v3_inv in E. unfold along, zero3 in E. cbn [vx vy vz] in E. destruct E as [X [Y Z0]].
      assert (G : forall x, 0 + 1 / n * x = 0 -> x = 0). { intros x H. transitivity (n * (0 + 1 / n * x)); [field; auto|rewrite H; ring]. }
      apply v3_ext; cbn [vx vy vz zero3]; apply G; auto. }
    rewrite Pz in P. apply v3_inv in P. unfold minus3, along, zero3 in P. cbn [vx vy vz] in P. destruct P as [X [Y Z0]].
    set (k := dot3 T r2) in *. rewrite U. unfold cross3, along, zero3. cbn [vx vy vz].
    assert (X' : vx r2 = k * vx T) by (transitivity (0 + (0 + k * vx T)); [rewrite X at 1; ring|ring]).
    assert (Y' : vy r2 = k * vy T) by (transitivity (0 + (0 + k * vy T)); [rewrite Y at 1; ring|ring]).
    assert (Z' : vz r2 = k * vz T) by (transitivity (0 + (0 + k * vz T)); [rewrite Z0 at 1; ring|ring]).
    rewrite X', Y', Z'. f_equal; ring. }
  destruct (unit_ok sqrt K NK RK) as [N [EN [NN [Pm UK]]]]. unfold scalar_unit, scalar_norm in EN. rewrite EN. cbn [bind]. change vcross with cross3.
  set (m := sqrt (dot3 K K)) in *. assert (Nm : m <> 0) by (intro E; rewrite E in Pm; qlra).
  assert (Pp : p = along zero3 n K). { unfold K, along, zero3. cbn [vx vy vz]. apply v3_ext; cbn [vx vy vz]; field; auto. }
  assert (TN : dot3 T N = 0).
  { assert (TP : dot3 T p = 0). { rewrite P. transitivity (dot3 T r2 * (1 - dot3 T T)); [v3d; ring|rewrite T1; ring]. }
    assert (X : n * m * dot3 T N = 0). { rewrite <- TP, Pp, UK. v3d. ring. }
    apply Qcmult_integral in X. destruct X as [X|X]; auto. apply Qcmult_integral in X. tauto. }
  assert (L : dot3 (cross3 T N) (cross3 T N) = 1).
  { rewrite <- lagrange, T1, NN, (dot_comm N T), TN. ring. }
  exists T, N, (cross3 T N). split; [reflexivity|]. split.
  { unfold orthonormal. split; auto. split; auto. split; auto. split; auto. split; v3d; ring. }
  split. { rewrite <- L. v3d. ring. }
  split; [exists n; auto|]. exists (dot3 T r2), (n * m). split; [apply qc_mul_pos; auto|].
  assert (Pq : minus3 r2 (along zero3 (dot3 T r2) T) = along zero3 (n * m) N).
  { rewrite <- P, Pp, UK. unfold along, zero3. cbn [vx vy vz]. f_equal; ring. }
  set (k := dot3 T r2) in *. apply v3_inv in Pq. unfold minus3, along, zero3 in *. cbn [vx vy vz] in *. destruct Pq as [X [Y Z0]].
  apply v3_ext; cbn [vx vy vz].
  - transitivity ((0 + k * vx T) + (vx r2 - (0 + k * vx T))); [ring|rewrite X; ring].
  - transitivity ((0 + k * vy T) + (vy r2 - (0 + k * vy T))); [ring|rewrite Y; ring].
  - transitivity ((0 + k * vz T) + (vz r2 - (0 + k * vz T))); [ring|rewrite Z0; ring].
Qed.

Lemma gs_fails a b : a <> zero3 -> b <> zero3 -> is_sqrt (sqrt (dot3 a a)) (dot3 a a) -> is_sqrt (sqrt (dot3 b b)) (dot3 b b) ->
  vec_gram_schmidt sqrt a b = Err NameError /\ projection_length sqrt a b = Err NameError.
Proof.
  intros Na Nb Ra Rb. unfold vec_gram_schmidt. destruct (unit_ok sqrt a Na Ra) as [x [E _]]. rewrite E. cbn [bind].
  destruct (unit_ok sqrt b Nb Rb) as [y [E2 _]]. rewrite E2. cbn [bind]. auto.
Qed.
End Frames.

Lemma offset_never fuel x : offset_property fuel x = Err OutOfFuel.
Proof. induction fuel; cbn; auto. Qed.
Lemma in_implicit f p : point_in_implicit_curve f p = true <-> f p <= close8.
Proof.
  assert (0 < close8) by (apply qlt_true; vm_compute; reflexivity).
  unfold point_in_implicit_curve. destruct (qle (f p) 0) eqn:Q; rewrite ?qle_true, ?qle_false in Q; [split; auto; intro; qlra|].
  unfold fabs. assert (X : qlt (f p) 0 = false) by (apply qlt_false; qlra). rewrite X. apply qle_true.
Qed.
Lemma perp_ok v : dot2 v (perp2d v) = 0 /\ dot2 (perp2d v) (perp2d v) = dot2 v v /\ 0 <= p0 v * p1 (perp2d v) - p1 v * p0 (perp2d v) /\
  perp2d (perp2d v) = mkp (- p0 v) (- p1 v).
Proof. unfold dot2, perp2d. cbn [p0 p1]. split; [ring|]. split; [ring|]. split; [|reflexivity]. pose proof (sq_nonneg (p0 v)). pose proof (sq_nonneg (p1 v)). qlra. Qed.
Lemma sq_mono p q : 0 <= p -> p <= q -> p * p <= q * q.
Proof. intros A B. pose proof (mulnn p (q - p) A ltac:(qlra)). pose proof (mulnn (q - p) q ltac:(qlra) ltac:(qlra)). qlra. Qed.
Lemma clamp1 a b x : a <= b -> let m := (if qlt x b then x else b) in let y := (if qlt a m then m else a) in
    (a <= y <= b) /\ (a <= x <= b -> y = x) /\ forall t, a <= t <= b -> (x - y) * (x - y) <= (x - t) * (x - t).
Proof.
  intros L m y.
  assert (K : (y = x /\ a <= x <= b) \/ (y = a /\ x <= a) \/ (y = b /\ b <= x)).
  { unfold y, m. destruct (qlt x b) eqn:Q1; [destruct (qlt a x) eqn:Q2|destruct (qlt a b) eqn:Q2]; rewrite ?qlt_true, ?qlt_false in *.
    - left. split; auto. split; qlra.
    - right. left. split; auto.
    - right. right. split; auto.
    - right. right. split; auto. apply Qcle_antisym; auto. }
  clearbody y. clear m. destruct K as [[-> H]|[[-> H]|[-> H]]].
  - split; auto. split; auto. intros t _. replace (x - x) with 0 by ring. rewrite Qcmult_0_l. apply sq_nonneg.
  - split; [split; [apply Qcle_refl|auto]|]. split; [intros [A _]; apply Qcle_antisym; auto|]. intros t [A _].
    replace ((x - a) * (x - a)) with ((a - x) * (a - x)) by ring. replace ((x - t) * (x - t)) with ((t - x) * (t - x)) by ring. apply sq_mono; qlra.
  - split; [split; [auto|apply Qcle_refl]|]. split; [intros [_ A]; apply Qcle_antisym; auto|]. intros t [_ A]. apply sq_mono; qlra.
Qed.
Lemma clamp_ok s lo hi : p0 lo <= p0 hi -> p1 lo <= p1 hi ->
  let r := clamp2 s lo hi in (p0 lo <= p0 r <= p0 hi) /\ (p1 lo <= p1 r <= p1 hi) /\
  ((p0 lo <= p0 s <= p0 hi) -> (p1 lo <= p1 s <= p1 hi) -> r = s) /\
  (forall t, (p0 lo <= p0 t <= p0 hi) -> (p1 lo <= p1 t <= p1 hi) -> sqdist2 s r <= sqdist2 s t).
Proof.
  intros A B r. destruct (clamp1 _ _ (p0 s) A) as [X1 [X2 X3]]. destruct (clamp1 _ _ (p1 s) B) as [Y1 [Y2 Y3]].
  split; [exact X1|]. split; [exact Y1|]. split.
  - intros H1 H2. apply v2_ext; [apply X2; auto|apply Y2; auto].
  - intros t H1 H2. unfold sqdist2. pose proof (X3 _ H1) as P. pose proof (Y3 _ H2) as Q. apply Qcplus_le_compat; [exact P|exact Q].
Qed.
