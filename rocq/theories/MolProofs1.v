(* The segment and one triangle. *)
From Coq Require Import List ZArith Lia Bool QArith Qcanon.
From Verif Require Import Common ListLib QcLib ArrZ AabbModel AabbSpec AabbProofs AabbProofs2 BvhModel BvhSpec MolModel MolSpec.
Import ListNotations.
Local Open Scope Z_scope.
Local Open Scope Qc_scope.

Lemma eps8_pos : 0 < eps8. Proof. reflexivity. Qed.
Lemma eps8_1 : eps8 < 1. Proof. reflexivity. Qed.
Lemma p3_eq (a b c a' b' c' : Qc) : a = a' -> b = b' -> c = c' -> (a, b, c) = (a', b', c').
Proof. now intros -> -> ->. Qed.
Lemma p3_inv (a b c a' b' c' : Qc) : (a, b, c) = (a', b', c') -> a = a' /\ b = b' /\ c = c'.
Proof. intro H. split; [|split]; [exact (f_equal vx H)|exact (f_equal vy H)|exact (f_equal vz H)]. Qed.
Ltac d3 := repeat match goal with x : v3 |- _ => let a := fresh x "x" in let b := fresh x "y" in let c := fresh x "z" in destruct x as [[a b] c]
                             | x : tri |- _ => destruct x as [[? ?] ?] end.
Ltac v3s := cbn [vx vy vz fst snd].
Ltac v3h := cbn [vx vy vz fst snd] in *.

(* the determinant *)
Definition mdet (t : tri) (s e : v3) : Qc :=
  let '(v0, v1, v2) := t in mdot (vsub v1 v0) (mcross (vsub e s) (vsub v2 v0)).
Lemma mdet_span t s e : mdet t s e = span6 t s e.
Proof. d3. unfold mdet, span6, mdot, mcross, vsub. v3s. ring. Qed.

Lemma seg_le a : negb (qlt (- eps8) a && qlt a eps8) = true <-> eps8 <= a \/ a <= - eps8.
Proof.
  rewrite negb_true_iff, andb_false_iff. split.
  - intros [H|H]; apply qlt_false in H; auto.
  - intros [H|H]; [right|left]; now apply qlt_false.
Qed.

Lemma tri_small t s e : - eps8 < span6 t s e -> span6 t s e < eps8 -> tri_segment t s e = None.
Proof.
  intros H1 H2. rewrite <- mdet_span in H1, H2. destruct t as [[v0 v1] v2]. unfold tri_segment, mdet in *.
  apply qlt_true in H1. apply qlt_true in H2. now rewrite H1, H2.
Qed.

Lemma cramer (sv dir a b : v3) :
  mdot b (mcross sv a) * vx dir + mdot a (mcross dir b) * vx sv = mdot sv (mcross dir b) * vx a + mdot dir (mcross sv a) * vx b /\
  mdot b (mcross sv a) * vy dir + mdot a (mcross dir b) * vy sv = mdot sv (mcross dir b) * vy a + mdot dir (mcross sv a) * vy b /\
  mdot b (mcross sv a) * vz dir + mdot a (mcross dir b) * vz sv = mdot sv (mcross dir b) * vz a + mdot dir (mcross sv a) * vz b.
Proof. d3. unfold mdot, mcross. v3s. repeat split; ring. Qed.

Lemma or_lt u h k : qlt u h || qlt k u = false <-> h <= u /\ u <= k.
Proof.
  rewrite orb_false_iff. split; intros [A B]; split.
  - now apply qlt_false in A. - now apply qlt_false in B. - now apply qlt_false. - now apply qlt_false.
Qed.
Lemma or_lt2 u h k v : qlt u h || qlt k v = false <-> h <= u /\ v <= k.
Proof.
  rewrite orb_false_iff. split; intros [A B]; split.
  - now apply qlt_false in A. - now apply qlt_false in B. - now apply qlt_false. - now apply qlt_false.
Qed.

Lemma nz_of a : eps8 <= a \/ a <= - eps8 -> a <> 0.
Proof. intros [H|H] ->; vm_compute in H; now apply H. Qed.

Lemma div_comb (a x y z d s p q : Qc) : a <> 0 -> x * d + a * s = y * p + z * q -> s = 1 / a * y * p + 1 / a * z * q - 1 / a * x * d.
Proof. intros A H. replace s with (1 / a * (x * d + a * s) - 1 / a * x * d) by (field; exact A). rewrite H. field. exact A. Qed.

Lemma tri_sound t s e p : tri_segment t s e = Some p ->
  (exists r, - eps8 <= r /\ r <= 1 + eps8 /\ p = seg_at (s, e) r) /\ near_tri eps8 t p /\ (eps8 <= span6 t s e \/ span6 t s e <= - eps8).
Proof.
  rewrite <- mdet_span. destruct t as [[v0 v1] v2]. unfold tri_segment, mdet.
  set (dir := vsub e s). set (e1 := vsub v1 v0). set (e2 := vsub v2 v0). set (sv := vsub s v0).
  destruct (qlt (- eps8) _ && _) eqn:Ha; [discriminate|]. assert (HA := proj1 (seg_le _) (proj2 (negb_true_iff _) Ha)). clear Ha.
  pose proof (nz_of _ HA) as NZ. destruct (cramer sv dir e1 e2) as [Cx [Cy Cz]].
  set (a := mdot e1 (mcross dir e2)) in *. set (U := mdot sv (mcross dir e2)) in *. set (W := mdot dir (mcross sv e1)) in *. set (R := mdot e2 (mcross sv e1)) in *.
  destruct (qlt (1 / a * U) _ || _) eqn:Hu; [discriminate|]. apply or_lt in Hu.
  destruct (qlt (1 / a * W) _ || _) eqn:Hw; [discriminate|]. apply or_lt2 in Hw.
  destruct (qlt (1 / a * R) _ || _) eqn:Hr; [discriminate|]. apply or_lt in Hr.
  intro H. assert (Hp : p = (vx s + 1 / a * R * vx dir, vy s + 1 / a * R * vy dir, vz s + 1 / a * R * vz dir)) by (injection H; congruence). clear H.
  apply (div_comb a) in Cx; auto. apply (div_comb a) in Cy; auto. apply (div_comb a) in Cz; auto.
  set (u := 1 / a * U) in *. set (w := 1 / a * W) in *. set (r := 1 / a * R) in *. clearbody u w r. clearbody a.
  split; [|split].
  - exists r. split; [tauto|]. split; [tauto|]. rewrite Hp. unfold dir. d3. unfold seg_at, vsub. v3s. apply p3_eq; ring.
  - exists u, w. repeat split; try tauto. rewrite Hp. unfold tri_at.
    assert (E : forall x y z : Qc, x = y + (x - y)) by (intros; ring).
    apply p3_eq.
    + replace (vx s) with (vx v0 + vx sv) by (unfold sv; d3; unfold vsub; v3s; ring). rewrite Cx. unfold e1, e2. d3. unfold vsub. v3s. ring.
    + replace (vy s) with (vy v0 + vy sv) by (unfold sv; d3; unfold vsub; v3s; ring). rewrite Cy. unfold e1, e2. d3. unfold vsub. v3s. ring.
    + replace (vz s) with (vz v0 + vz sv) by (unfold sv; d3; unfold vsub; v3s; ring). rewrite Cz. unfold e1, e2. d3. unfold vsub. v3s. ring.
  - exact HA.
Qed.

Lemma eq_shift (A B L R : Qc) : A = B -> L - R = A - B -> L = R.
Proof. intros -> H. replace L with (L - R + R) by ring. rewrite H. ring. Qed.
Lemma tri_found t s e r u w : eps8 <= span6 t s e \/ span6 t s e <= - eps8 -> - eps8 <= r -> r <= 1 + eps8 ->
  - eps8 <= u -> u <= 1 + eps8 -> - eps8 <= w -> u + w <= 1 + eps8 -> seg_at (s, e) r = tri_at t u w ->
  tri_segment t s e = Some (seg_at (s, e) r).
Proof.
  intros HA R0 R1 U0 U1 W0 W1 E. rewrite <- mdet_span in HA. destruct t as [[v0 v1] v2]. unfold tri_segment, mdet in *.
  set (dir := vsub e s) in *. set (e1 := vsub v1 v0) in *. set (e2 := vsub v2 v0) in *. set (sv := vsub s v0).
  pose proof (nz_of _ HA) as NZ. apply seg_le in HA. apply negb_true_iff in HA. rewrite HA. clear HA.
  assert (S3 : sv = (u * vx e1 + w * vx e2 - r * vx dir, u * vy e1 + w * vy e2 - r * vy dir, u * vz e1 + w * vz e2 - r * vz dir)).
  { unfold sv, e1, e2, dir. unfold seg_at, tri_at in E. v3h. apply p3_inv in E. destruct E as [Ex [Ey Ez]].
    unfold vsub. v3s. apply p3_eq.
    - apply (eq_shift _ _ _ _ Ex). ring.
    - apply (eq_shift _ _ _ _ Ey). ring.
    - apply (eq_shift _ _ _ _ Ez). ring. }
  assert (ED : seg_at (s, e) r = (vx s + r * vx dir, vy s + r * vy dir, vz s + r * vz dir)).
  { unfold dir, seg_at, vsub. v3s. apply p3_eq; ring. }
  rewrite ED. clear ED.
  clearbody sv. subst sv. clear E. clearbody dir e1 e2.
  assert (EU : mdot (u * vx e1 + w * vx e2 - r * vx dir, u * vy e1 + w * vy e2 - r * vy dir, u * vz e1 + w * vz e2 - r * vz dir) (mcross dir e2) = u * mdot e1 (mcross dir e2)) by (d3; unfold mdot, mcross; v3s; ring).
  assert (EW : mdot dir (mcross (u * vx e1 + w * vx e2 - r * vx dir, u * vy e1 + w * vy e2 - r * vy dir, u * vz e1 + w * vz e2 - r * vz dir) e1) = w * mdot e1 (mcross dir e2)) by (d3; unfold mdot, mcross; v3s; ring).
  assert (ER : mdot e2 (mcross (u * vx e1 + w * vx e2 - r * vx dir, u * vy e1 + w * vy e2 - r * vy dir, u * vz e1 + w * vz e2 - r * vz dir) e1) = r * mdot e1 (mcross dir e2)) by (d3; unfold mdot, mcross; v3s; ring).
  rewrite EU, EW, ER. clear EU EW ER. set (a := mdot e1 (mcross dir e2)) in *. clearbody a.
  replace (1 / a * (u * a)) with u by (field; exact NZ). replace (1 / a * (w * a)) with w by (field; exact NZ). replace (1 / a * (r * a)) with r by (field; exact NZ).
  rewrite (proj2 (or_lt _ _ _) (conj U0 U1)), (proj2 (or_lt2 _ _ _ _) (conj W0 W1)), (proj2 (or_lt _ _ _) (conj R0 R1)).
  reflexivity.
Qed.
