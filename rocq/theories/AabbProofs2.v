(* Clipping of segments and rays against boxes: lemmas. *)
From Coq Require Import List ZArith Bool QArith Qcanon Lia.
From Verif Require Import Common ListLib QcLib ArrZ AabbModel AabbSpec AabbProofs.
Import ListNotations.
Local Open Scope Z_scope.
Local Open Scope Qc_scope.

Lemma tiny_pos : 0 < tiny. Proof. reflexivity. Qed.
Lemma tiny_lt_1 : tiny < 1. Proof. reflexivity. Qed.
Lemma huge_ge_1 : 1 <= huge. Proof. vm_compute. discriminate. Qed.

Lemma plain_dec x : plain x -> (x = 0 /\ qlt (fabs x) tiny = true) \/ (x <> 0 /\ qlt (fabs x) tiny = false).
Proof.
  pose proof tiny_pos. intros [->|[P|P]].
  - left. split; reflexivity.
  - right. split; [intros ->; qlra|]. unfold fabs. destruct (qlt x 0) eqn:E; [apply qlt_true in E; qlra|]. apply qlt_false. auto.
  - right. split; [intros ->; qlra|]. unfold fabs. destruct (qlt x 0) eqn:E; [|apply qlt_false in E; qlra]. apply qlt_false. qlra.
Qed.

Definition in_slab (s : slab) (t : Qc) : Prop := sb0 s <= so s + t * sd s /\ so s + t * sd s <= sb1 s.

Lemma inv_neg a : a < 0 -> / a < 0.
Proof.
  intro H. destruct (Qclt_le_dec (/ a) 0) as [L|L]; auto.
  assert (E : a * / a = 1) by (apply Qcmult_inv_r; intro; subst; qlra). exfalso. qnra.
Qed.

(* the two crossing parameters, in order *)
Lemma slab_cross s t : sd s <> 0 -> sb0 s <= sb1 s ->
  let i := 1 / sd s in let u := (sb0 s - so s) * i in let v := (sb1 s - so s) * i in
  (in_slab s t <-> (if qlt v u then v else u) <= t /\ t <= (if qlt v u then u else v)).
Proof.
  intros N P i u v. unfold in_slab.
  assert (Ei : i * sd s = 1) by (unfold i; field; auto).
  assert (Eu : u * sd s = sb0 s - so s). { unfold u. rewrite <- Qcmult_assoc, Ei. ring. }
  assert (Ev : v * sd s = sb1 s - so s). { unfold v. rewrite <- Qcmult_assoc, Ei. ring. }
  clearbody u v. clear i Ei.
  destruct (Qclt_le_dec 0 (sd s)) as [Q|Q].
  - assert (L : u <= v). { destruct (Qclt_le_dec v u); auto. exfalso. qnra. }
    apply qlt_false in L as L'. rewrite L'. split; intros [A B]; split.
    + destruct (Qclt_le_dec t u); auto. exfalso. assert (0 < (u - t) * sd s) by (apply qc_mul_pos; qlra). qlra.
    + destruct (Qclt_le_dec v t); auto. exfalso. assert (0 < (t - v) * sd s) by (apply qc_mul_pos; qlra). qlra.
    + assert (0 <= (t - u) * sd s) by (apply qc_mul_nonneg; qlra). qlra.
    + assert (0 <= (v - t) * sd s) by (apply qc_mul_nonneg; qlra). qlra.
  - assert (Q' : 0 < - sd s). { assert (sd s < 0) by (destruct (Qclt_le_dec (sd s) 0); auto; exfalso; apply N, Qcle_antisym; auto). qlra. }
    assert (L : v <= u). { destruct (Qclt_le_dec u v); auto. exfalso. assert (0 < (v - u) * (- sd s)) by (apply qc_mul_pos; qlra). qlra. }
    assert (M : (if qlt v u then v else u) = v /\ (if qlt v u then u else v) = u).
    { destruct (qlt v u) eqn:E; auto. apply qlt_false in E. assert (u = v) by (apply Qcle_antisym; auto). auto. }
    destruct M as [-> ->]. split; intros [A B]; split.
    + destruct (Qclt_le_dec t v); auto. exfalso. assert (0 < (v - t) * (- sd s)) by (apply qc_mul_pos; qlra). qlra.
    + destruct (Qclt_le_dec u t); auto. exfalso. assert (0 < (t - u) * (- sd s)) by (apply qc_mul_pos; qlra). qlra.
    + assert (0 <= (u - t) * (- sd s)) by (apply qc_mul_nonneg; qlra). qlra.
    + assert (0 <= (t - v) * (- sd s)) by (apply qc_mul_nonneg; qlra). qlra.
Qed.

Lemma slab_step_ok s a b : plain (sd s) -> sb0 s <= sb1 s -> a <= b ->
  match slab_step s (a, b) with
  | Some (a', b') => a' <= b' /\ a <= a' /\ b' <= b /\ forall t, (a' <= t /\ t <= b') <-> (a <= t /\ t <= b) /\ in_slab s t
  | None => forall t, a <= t -> t <= b -> ~ in_slab s t
  end.
Proof.
  intros Pl P L. unfold slab_step. destruct (plain_dec _ Pl) as [[Z E]|[N E]]; rewrite E.
  - destruct (qlt (so s) (sb0 s) || qlt (sb1 s) (so s)) eqn:Q.
    + intros t _ _ [A B]. rewrite Z in A, B. apply orb_prop in Q. destruct Q as [Q|Q]; apply qlt_true in Q; qlra.
    + apply orb_false_iff in Q. destruct Q as [Q1 Q2]. apply qlt_false in Q1, Q2.
      split; auto. split; [apply Qcle_refl|]. split; [apply Qcle_refl|]. intro t. unfold in_slab. rewrite Z.
      split; [intros []; repeat split; auto; qlra|tauto].
  - pose proof (slab_cross s) as C. cbv zeta in C.
    set (u := (sb0 s - so s) * (1 / sd s)) in *. set (v := (sb1 s - so s) * (1 / sd s)) in *.
    assert (C' : forall t, in_slab s t <-> (if qlt v u then v else u) <= t /\ t <= (if qlt v u then u else v)) by (intro t; apply C; auto).
    clear C. replace (if qlt v u then (v, u) else (u, v)) with (if qlt v u then v else u, if qlt v u then u else v) by (destruct (qlt v u); auto).
    set (p := if qlt v u then v else u) in *. set (q := if qlt v u then u else v) in *. clearbody p q u v.
    set (a' := if qlt a p then p else a). set (b' := if qlt q b then q else b).
    assert (A' : a <= a' /\ p <= a' /\ (a' = a \/ a' = p)).
    { unfold a'. destruct (qlt a p) eqn:X; [apply qlt_true in X|apply qlt_false in X]; repeat split; auto; qlra. }
    assert (B' : b' <= b /\ b' <= q /\ (b' = b \/ b' = q)).
    { unfold b'. destruct (qlt q b) eqn:X; [apply qlt_true in X|apply qlt_false in X]; repeat split; auto; qlra. }
    destruct A' as [A1 [A2 A3]], B' as [B1 [B2 B3]]. clearbody a' b'.
    assert (G : forall t, (a' <= t /\ t <= b') <-> (a <= t /\ t <= b) /\ in_slab s t).
    { intro t. rewrite C'. split; [intros []; repeat split; qlra|]. intros [[] []]. destruct A3 as [->| ->], B3 as [->| ->]; auto. }
    destruct (qlt b' a') eqn:X.
    + apply qlt_true in X. intros t T1 T2 I. assert (a' <= t /\ t <= b') by (apply G; auto). destruct H. qlra.
    + apply qlt_false in X. auto.
Qed.

Lemma slab_loop_ok : forall l a b, Forall (fun s => plain (sd s) /\ sb0 s <= sb1 s) l -> a <= b ->
  match slab_loop l (a, b) with
  | Some (a', b') => a' <= b' /\ a <= a' /\ b' <= b /\ forall t, (a' <= t /\ t <= b') <-> (a <= t /\ t <= b) /\ Forall (fun s => in_slab s t) l
  | None => forall t, a <= t -> t <= b -> ~ Forall (fun s => in_slab s t) l
  end.
Proof.
  induction l as [|s l IH]; intros a b F L; cbn [slab_loop].
  - split; auto. split; [apply Qcle_refl|]. split; [apply Qcle_refl|]. intro t. split; [intros []; auto|tauto].
  - inversion F as [|? ? [Pl P] F']; subst. pose proof (slab_step_ok s a b Pl P L) as S.
    destruct (slab_step s (a, b)) as [[a1 b1]|].
    + destruct S as [L1 [A1 [B1 S]]]. specialize (IH a1 b1 F' L1). destruct (slab_loop l (a1, b1)) as [[a2 b2]|].
      * destruct IH as [L2 [A2 [B2 IH]]]. split; auto. split; [qlra|]. split; [qlra|]. intro t. rewrite IH, S. rewrite Forall_cons_iff. tauto.
      * intros t T1 T2 Fl. inversion Fl as [|? ? I Fr]; subst. assert (a1 <= t /\ t <= b1) as [X Y] by (apply S; auto). apply (IH t X Y Fr).
    + intros t T1 T2 Fl. inversion Fl as [|? ? I Fr]; subst. apply (S t T1 T2 I).
Qed.

Lemma slabs_in b o d t : Forall (fun s => in_slab s t) (slabs b o d) <-> in_box3 (ray_at o d t) b.
Proof.
  unfold slabs, ray_at, in_box3, in_slab. rewrite !Forall_cons_iff. unfold vx, vy, vz. cbn [sb0 sb1 so sd fst snd].
  split; [tauto|]. intros [? [? ?]]. repeat split; try tauto; constructor.
Qed.
Lemma slabs_ok b o d : proper3 b -> plain3 d -> Forall (fun s => plain (sd s) /\ sb0 s <= sb1 s) (slabs b o d).
Proof. intros [? [? ?]] [? [? ?]]. unfold slabs. repeat apply Forall_cons; try apply Forall_nil; cbn [sb0 sb1 sd]; split; auto. Qed.

Lemma seg_ray s t : seg_at s t = ray_at (fst s) (vsub (snd s) (fst s)) t.
Proof. unfold seg_at, ray_at, vsub, vx, vy, vz. cbn [fst snd]. f_equal; [f_equal|]; ring. Qed.
Lemma at_param_seg s t : at_param s t = seg_at s t.
Proof. unfold seg_at, at_param, lerp. f_equal; [f_equal|]; ring. Qed.

Lemma segment_exact b s : proper3 b -> plain3 (vsub (snd s) (fst s)) ->
  match segment_aabb_intersect b s with
  | Some (t0, t1) => 0 <= t0 /\ t0 <= t1 /\ t1 <= 1 /\ forall t, (t0 <= t /\ t <= t1) <-> (0 <= t /\ t <= 1) /\ in_box3 (seg_at s t) b
  | None => forall t, 0 <= t -> t <= 1 -> ~ in_box3 (seg_at s t) b
  end.
Proof.
  intros P Pl. unfold segment_aabb_intersect, segment_core. set (d := vsub (snd s) (fst s)) in *.
  pose proof (slab_loop_ok (slabs b (fst s) d) 0 1 (slabs_ok b (fst s) d P Pl) ltac:(qlra)) as L.
  destruct (slab_loop (slabs b (fst s) d) (0, 1)) as [[a c]|].
  - destruct L as [L1 [L2 [L3 L4]]].
    assert (Q1 : qlt c 0 = false) by (apply qlt_false; qlra). assert (Q2 : qlt 1 a = false) by (apply qlt_false; qlra).
    rewrite Q1, Q2. cbn [orb].
    set (cm := if qlt 0 a then a else 0). set (cx := if qlt c 1 then c else 1).
    assert (cm = a) by (unfold cm; destruct (qlt 0 a) eqn:X; auto; apply qlt_false in X; qlra).
    assert (cx = c) by (unfold cx; destruct (qlt c 1) eqn:X; auto; apply qlt_false in X; qlra).
    rewrite H, H0. assert (Q3 : qlt c a = false) by (apply qlt_false; auto). rewrite Q3.
    assert (Pos : (0 <? (if qlt (fabs (a - c)) tiny then 1 else 2))%Z = true) by (destruct (qlt (fabs (a - c)) tiny); auto).
    rewrite Pos.
    assert (E1 : (if qle a 0 then 0 else a) = a). { destruct (qle a 0) eqn:X; auto. apply qle_true in X. qlra. }
    assert (E2 : (if qle 1 c then 1 else c) = c). { destruct (qle 1 c) eqn:X; auto. apply qle_true in X. qlra. }
    rewrite E1, E2. split; auto. split; auto. split; auto. intro t. rewrite L4, slabs_in, seg_ray. tauto.
  - cbn. intros t T1 T2 I. rewrite seg_ray in I. fold d in I. apply (L t T1 T2). apply slabs_in. auto.
Qed.

Lemma segment_hit b s : proper3 b -> plain3 (vsub (snd s) (fst s)) ->
  (segment_aabb_intersect b s <> None <-> exists t, 0 <= t /\ t <= 1 /\ in_box3 (seg_at s t) b).
Proof.
  intros P Pl. pose proof (segment_exact b s P Pl) as E. destruct (segment_aabb_intersect b s) as [[t0 t1]|].
  - destruct E as [A [B [C D]]]. split; [intros _|discriminate]. exists t0. 
    assert ((0 <= t0 /\ t0 <= 1) /\ in_box3 (seg_at s t0) b) by (apply D; split; [apply Qcle_refl|auto]). tauto.
  - split; [congruence|]. intros [t [A [B C]]]. exfalso. apply (E t A B C).
Qed.

(* the point at u of the segment between the points at t0 and t1 *)
Lemma seg_sub s t0 t1 u : seg_at (seg_at s t0, seg_at s t1) u = seg_at s ((1 - u) * t0 + u * t1).
Proof. unfold seg_at, vx, vy, vz. cbn [fst snd]. f_equal; [f_equal|]; ring. Qed.

Lemma clip_exact b s : proper3 b -> plain3 (vsub (snd s) (fst s)) ->
  match segment_aabb_clip b s with
  | Some c => forall p, (exists t, 0 <= t /\ t <= 1 /\ p = seg_at s t /\ in_box3 p b) <-> (exists u, 0 <= u /\ u <= 1 /\ p = seg_at c u)
  | None => forall t, 0 <= t -> t <= 1 -> ~ in_box3 (seg_at s t) b
  end.
Proof.
  intros P Pl. unfold segment_aabb_clip. pose proof (segment_exact b s P Pl) as E.
  destruct (segment_aabb_intersect b s) as [[t0 t1]|]; auto. destruct E as [A [B [C D]]].
  intro p. rewrite !at_param_seg. split.
  - intros [t [T1 [T2 [-> I]]]]. assert (R : t0 <= t /\ t <= t1) by (apply D; auto). destruct R as [R1 R2].
    destruct (Qclt_le_dec t0 t1) as [L|L].
    + assert (L' : 0 < t1 - t0) by qlra. exists ((t - t0) / (t1 - t0)).
      split; [apply qc_div_nonneg; auto; qlra|]. split; [apply qc_div_le; auto; qlra|].
      rewrite seg_sub. f_equal. field. intro X. rewrite X in L'. qlra.
    + exists 0. split; [qlra|]. split; [qlra|]. rewrite seg_sub. f_equal. assert (t = t0) by qlra. subst. ring.
  - intros [u [U1 [U2 ->]]]. rewrite seg_sub. set (t := (1 - u) * t0 + u * t1).
    assert (R : t0 <= t /\ t <= t1). { unfold t. split; qnra. }
    apply D in R. destruct R as [[R1 R2] R3]. exists t. auto.
Qed.

(* ---- rays ---- *)
Lemma ray_exact b o d : proper3 b -> plain3 d ->
  match ray_aabb_intersect b o d with
  | Some (t0, t1) => (0 <= t0 /\ in_box3 (ray_at o d t0) b /\ forall t, 0 <= t -> t < t0 -> ~ in_box3 (ray_at o d t) b) /\
      forall t, 0 <= t -> t <= 1 -> (in_box3 (ray_at o d t) b <-> t0 <= t /\ t <= t1)
  | None => forall t, 0 <= t -> t <= huge -> ~ in_box3 (ray_at o d t) b
  end.
Proof.
  intros P Pl. unfold ray_aabb_intersect, ray_core. pose proof huge_ge_1 as HH. set (H := huge) in *. clearbody H.
  pose proof (slab_loop_ok (slabs b o d) (- H) H (slabs_ok b o d P Pl) ltac:(qlra)) as L.
  destruct (slab_loop (slabs b o d) (- H, H)) as [[a c]|].
  - destruct L as [L1 [L2 [L3 L4]]].
    destruct (qlt c 0) eqn:Q.
    + apply qlt_true in Q. cbn. intros t T1 T2 I. assert (a <= t /\ t <= c) by (apply L4; split; [split; qlra|now apply slabs_in]).
      destruct H0. qlra.
    + apply qlt_false in Q.
      assert (E : (let '(t, (tmin, tmax)) := (if qle 0 a then (a, (a, c)) else if qle 0 c then (c, (a, c)) else (-(1), (a, c))) in
         if qle 0 t then Some (if qle tmin 0 then 0 else tmin, if qle 1 tmax then 1 else tmax) else None)
         = Some (if qle a 0 then 0 else a, if qle 1 c then 1 else c)).
      { destruct (qle 0 a) eqn:X; [now rewrite X|]. apply qle_true in Q. now rewrite Q, Q. }
      rewrite E. clear E.
      assert (T0 : forall t, 0 <= t -> t <= H -> (in_box3 (ray_at o d t) b <-> a <= t /\ t <= c)).
      { intros t X Y. rewrite L4, slabs_in. split; [intro; split; auto; split; qlra|tauto]. }
      set (t0 := if qle a 0 then 0 else a). assert (T00 : 0 <= t0 /\ a <= t0 /\ t0 <= c /\ (t0 = 0 \/ t0 = a)).
      { unfold t0. destruct (qle a 0) eqn:X; [apply qle_true in X|apply qle_false in X]; repeat split; auto; qlra. }
      destruct T00 as [U1 [U2 [U3 U4]]]. split.
      * split; auto. split; [apply T0; auto; qlra|]. intros t X Y I. apply T0 in I; [|auto|qlra]. destruct I as [I1 I2].
        destruct U4 as [->| ->]; qlra.
      * intros t X Y. rewrite T0 by (auto; qlra). set (t1 := if qle 1 c then 1 else c).
        assert (V : t1 <= c /\ (t1 = 1 \/ t1 = c)). { unfold t1. destruct (qle 1 c) eqn:Z; [apply qle_true in Z|]; split; auto; qlra. }
        destruct V as [V1 V2]. split.
        -- intros [A B]. split; [destruct U4 as [->| ->]; auto|destruct V2 as [->| ->]; auto].
        -- intros [A B]. split; qlra.
  - cbn. intros t T1 T2 I. apply (L t); auto; [qlra|]. apply slabs_in. auto.
Qed.

(* the second number is cut at 1, so a box met only beyond parameter 1 gives a reversed pair *)
Lemma ray_far_refuted b o d : proper3 b -> plain3 d ->
  (exists t, 0 <= t /\ t <= huge /\ in_box3 (ray_at o d t) b) ->
  (forall t, 0 <= t -> t <= 1 -> ~ in_box3 (ray_at o d t) b) ->
  exists t0 t1, ray_aabb_intersect b o d = Some (t0, t1) /\ t1 < t0.
Proof.
  intros P Pl [t [T1 [T2 I]]] N. pose proof (ray_exact b o d P Pl) as R.
  destruct (ray_aabb_intersect b o d) as [[t0 t1]|] eqn:E; [|exfalso; apply (R t T1 T2 I)].
  destruct R as [[A [B C]] _]. exists t0, t1. split; auto.
  assert (1 < t0). { destruct (Qclt_le_dec 1 t0); auto. exfalso. apply (N t0 A q B). }
  assert (t1 <= 1).
  { unfold ray_aabb_intersect in E. destruct (ray_core b o d) as [u [v w]]. destruct (qle 0 u); [|discriminate].
    inversion E. destruct (qle 1 w) eqn:X; [qlra|]. apply qle_false in X. qlra. }
  qlra.
Qed.

(* ---- very short extents ---- *)
Lemma tiny_extent b h y z : proper3 b -> 0 < h -> h < tiny ->
  vy (fst b) <= y -> y <= vy (snd b) -> vz (fst b) <= z -> z <= vz (snd b) ->
  let inside := (vx (snd b), y, z) in let outside := (vx (snd b) + h, y, z) in
  segment_aabb_intersect b (inside, outside) = Some (0, 1) /\ ~ in_box3 outside b /\
  segment_aabb_intersect b (outside, inside) = None /\ in_box3 inside b.
Proof.
  intros [P1 [P2 P3]] H0 H1 Y1 Y2 Z1 Z2. cbv zeta.
  assert (Z0 : forall x, x - x = 0) by (intro; ring).
  assert (T0 : qlt (fabs 0) tiny = true) by reflexivity.
  assert (Th : forall x, x = h \/ x = - h -> qlt (fabs x) tiny = true).
  { intros x [->| ->]; unfold fabs; destruct (qlt _ 0) eqn:X; apply qlt_true; try (apply qlt_true in X); try (apply qlt_false in X); qlra. }
  assert (Ty : qlt y (vy (fst b)) || qlt (vy (snd b)) y = false).
  { apply orb_false_iff. split; apply qlt_false; auto. }
  assert (Tz : qlt z (vz (fst b)) || qlt (vz (snd b)) z = false).
  { apply orb_false_iff. split; apply qlt_false; auto. }
  assert (Tx : qlt (vx (snd b)) (vx (fst b)) || qlt (vx (snd b)) (vx (snd b)) = false).
  { apply orb_false_iff. split; apply qlt_false; auto. apply Qcle_refl. }
  assert (Tx' : qlt (vx (snd b) + h) (vx (fst b)) || qlt (vx (snd b)) (vx (snd b) + h) = true).
  { apply orb_true_iff. right. apply qlt_true. qlra. }
  split; [|split; [|split]].
  - unfold segment_aabb_intersect, segment_core. cbn [fst snd].
    change (slabs b (vx (snd b), y, z) (vsub (vx (snd b) + h, y, z) (vx (snd b), y, z))) with
      [mkslab (vx (fst b)) (vx (snd b)) (vx (snd b)) (vx (snd b) + h - vx (snd b));
       mkslab (vy (fst b)) (vy (snd b)) y (y - y); mkslab (vz (fst b)) (vz (snd b)) z (z - z)].
    cbn [slab_loop slab_step sd so sb0 sb1].
    rewrite !Z0. rewrite (Th (vx (snd b) + h - vx (snd b))) by (left; ring). rewrite Tx. cbn [slab_step sd so sb0 sb1]. rewrite T0, Ty. cbn [slab_step sd so sb0 sb1]. rewrite T0, Tz. reflexivity.
  - unfold in_box3, vx at 2 3. cbn [fst snd]. intros [[_ A] _]. unfold vx in A. cbn [fst snd] in A. qlra.
  - unfold segment_aabb_intersect, segment_core. cbn [fst snd].
    change (slabs b (vx (snd b) + h, y, z) (vsub (vx (snd b), y, z) (vx (snd b) + h, y, z))) with
      [mkslab (vx (fst b)) (vx (snd b)) (vx (snd b) + h) (vx (snd b) - (vx (snd b) + h));
       mkslab (vy (fst b)) (vy (snd b)) y (y - y); mkslab (vz (fst b)) (vz (snd b)) z (z - z)].
    cbn [slab_loop slab_step sd so sb0 sb1].
    rewrite (Th (vx (snd b) - (vx (snd b) + h))) by (right; ring). rewrite Tx'. reflexivity.
  - unfold in_box3. repeat split; auto. apply Qcle_refl.
Qed.

Lemma point_in_3 b p : length (fst b) = 3%nat -> length (snd b) = 3%nat -> length p = 3%nat ->
  exists r, point_in_aabb b p = Ok r /\ (r = true <-> in_box p (fst b) (snd b)).
Proof.
  destruct b as [l h]. cbn [fst snd]. intros L1 L2 L3.
  destruct l as [|a0 [|a1 [|a2 [|]]]]; try discriminate. destruct h as [|c0 [|c1 [|c2 [|]]]]; try discriminate.
  destruct p as [|p0 [|p1 [|p2 [|]]]]; try discriminate. setoid_rewrite in_box_3.
  replace (point_in_aabb ([a0; a1; a2], [c0; c1; c2]) [p0; p1; p2]) with
    (if negb (qle a0 p0 && qle p0 c0) then Ok false else if negb (qle a1 p1 && qle p1 c1) then Ok false else Ok (qle a2 p2 && qle p2 c2)) by reflexivity.
  unfold in_box3, vx, vy, vz. cbn [fst snd].
  destruct (qle a0 p0 && qle p0 c0) eqn:E0; cbn [negb].
  2:{ exists false. split; auto. split; [discriminate|]. intros [[A B] _]. apply andb_false_iff in E0.
      destruct E0 as [E|E]; apply qle_false in E; qlra. }
  apply andb_prop in E0. destruct E0 as [X0 X0']. apply qle_true in X0, X0'.
  destruct (qle a1 p1 && qle p1 c1) eqn:E1; cbn [negb].
  2:{ exists false. split; auto. split; [discriminate|]. intros [_ [[A B] _]]. apply andb_false_iff in E1.
      destruct E1 as [E|E]; apply qle_false in E; qlra. }
  apply andb_prop in E1. destruct E1 as [X1 X1']. apply qle_true in X1, X1'.
  eexists. split; [reflexivity|]. rewrite andb_true_iff, !qle_true. tauto.
Qed.
Lemma point_in_2 b p : length (fst b) = 2%nat -> length (snd b) = 2%nat -> length p = 2%nat ->
  exists r, point_in_aabb b p = Ok r /\ (r = true <-> in_box p (fst b) (snd b)).
Proof.
  destruct b as [l h]. cbn [fst snd]. intros L1 L2 L3.
  destruct l as [|a0 [|a1 [|]]]; try discriminate. destruct h as [|c0 [|c1 [|]]]; try discriminate.
  destruct p as [|p0 [|p1 [|]]]; try discriminate.
  assert (IB : in_box [p0; p1] [a0; a1] [c0; c1] <-> (a0 <= p0 /\ p0 <= c0) /\ (a1 <= p1 /\ p1 <= c1)).
  { split; [intro H|intros [[] []]; repeat constructor; auto].
    inversion H as [|? ? ? ? ? ? A1 A2 H1]; subst. inversion H1 as [|? ? ? ? ? ? B1 B2 H2]; subst. auto. }
  setoid_rewrite IB.
  replace (point_in_aabb ([a0; a1], [c0; c1]) [p0; p1]) with
    (if negb (qle a0 p0 && qle p0 c0) then Ok false else if negb (qle a1 p1 && qle p1 c1) then Ok false else Ok true) by reflexivity.
  destruct (qle a0 p0 && qle p0 c0) eqn:E0; cbn [negb].
  2:{ exists false. split; auto. split; [discriminate|]. intros [[A B] _]. apply andb_false_iff in E0.
      destruct E0 as [E|E]; apply qle_false in E; qlra. }
  apply andb_prop in E0. destruct E0 as [X0 X0']. apply qle_true in X0, X0'.
  destruct (qle a1 p1 && qle p1 c1) eqn:E1; cbn [negb].
  2:{ exists false. split; auto. split; [discriminate|]. intros [_ [A B]]. apply andb_false_iff in E1.
      destruct E1 as [E|E]; apply qle_false in E; qlra. }
  apply andb_prop in E1. destruct E1 as [X1 X1']. apply qle_true in X1, X1'.
  exists true. tauto.
Qed.
