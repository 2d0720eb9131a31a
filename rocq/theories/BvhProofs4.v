(* Lemmas for BvhProps.v: the signed distance of a box. *)
From Coq Require Import List Arith ZArith Bool QArith Qcanon Lia Permutation.
From Verif Require Import Common QcLib AabbModel AabbSpec AabbProofs BvhModel BvhSpec BvhProofs BvhProofs3.
Import ListNotations.
Local Open Scope Qc_scope.

Definition gap1 (lo hi x : Qc) : Qc := fmax (lo - x) (x - hi).
Lemma abs_gap lo hi x : lo <= hi -> fabs (x - (lo + hi) * half) - (hi - (lo + hi) * half) = gap1 lo hi x.
Proof.
  intros H. pose proof (half_eq (lo + hi)) as E. set (c := (lo + hi) * half) in *. unfold fabs, gap1, fmax.
  destruct (qlt (x - c) 0) eqn:A; [apply qlt_true in A|apply qlt_false in A]; destruct (qlt (lo - x) (x - hi)) eqn:B; [apply qlt_true in B|apply qlt_false in B|apply qlt_true in B|apply qlt_false in B]; qlra.
Qed.
(* nearest point of an interval *)
Definition clamp (lo hi x : Qc) : Qc := if qlt x lo then lo else if qlt hi x then hi else x.
Lemma clamp_in lo hi x : lo <= hi -> lo <= clamp lo hi x /\ clamp lo hi x <= hi.
Proof.
  intros H. unfold clamp. destruct (qlt x lo) eqn:A; [split; qlra|]. apply qlt_false in A. destruct (qlt hi x) eqn:B; [split; qlra|]. apply qlt_false in B. split; assumption.
Qed.
Lemma clamp_gap lo hi x : lo <= hi -> fmax (gap1 lo hi x) 0 * fmax (gap1 lo hi x) 0 = (x - clamp lo hi x) * (x - clamp lo hi x).
Proof.
  intros H. unfold clamp, gap1. destruct (fmax_spec (lo - x) (x - hi)) as [G1 [G2 G3]]. set (g := fmax (lo - x) (x - hi)) in *. clearbody g. destruct (fmax_spec g 0) as [F1 [F2 F3]]. set (m := fmax g 0) in *. clearbody m.
  destruct (qlt x lo) eqn:A; [apply qlt_true in A|apply qlt_false in A; destruct (qlt hi x) eqn:B; [apply qlt_true in B|apply qlt_false in B]].
  - assert (m = lo - x) as -> by (destruct F3 as [F3|F3], G3 as [G3|G3]; subst; qlra). ring.
  - assert (m = x - hi) as -> by (destruct F3 as [F3|F3], G3 as [G3|G3]; subst; qlra). ring.
  - assert (m = 0) as -> by (destruct F3 as [F3|F3], G3 as [G3|G3]; subst; qlra). ring.
Qed.
Lemma sq_nn a : 0 <= a * a.
Proof. destruct (Qclt_le_dec a 0) as [H|H]; [replace (a * a) with ((- a) * (- a)) by ring; apply qc_mul_nonneg; qlra|apply qc_mul_nonneg; assumption]. Qed.
Lemma clamp_near lo hi x y : lo <= hi -> lo <= y -> y <= hi -> (x - clamp lo hi x) * (x - clamp lo hi x) <= (x - y) * (x - y).
Proof.
  intros H A B. unfold clamp. destruct (qlt x lo) eqn:C; [apply qlt_true in C; qnra|apply qlt_false in C; destruct (qlt hi x) eqn:D; [apply qlt_true in D; qnra|apply qlt_false in D]].
  pose proof (sq_nn (x - y)). replace ((x - x) * (x - x)) with 0 by ring. assumption.
Qed.

Lemma sd_gap b p : proper3 b -> sd_aabb b p =
  let d := (gap1 (vx (fst b)) (vx (snd b)) (vx p), gap1 (vy (fst b)) (vy (snd b)) (vy p), gap1 (vz (fst b)) (vz (snd b)) (vz p)) in
  if qle (max3 d) 0 then max3 d else fmax (vx d) 0 * fmax (vx d) 0 + fmax (vy d) 0 * fmax (vy d) 0 + fmax (vz d) 0 * fmax (vz d) 0.
Proof.
  intros [H [K L]]. unfold sd_aabb, sd_box. destruct b as [[[a0 a1] a2] [[b0 b1] b2]], p as [[p0 p1] p2]. unfold vscale, vadd, vsub, vx, vy, vz in *. cbn [fst snd] in *.
  rewrite !abs_gap by assumption. reflexivity.
Qed.
Lemma max3_spec v : (vx v <= max3 v /\ vy v <= max3 v /\ vz v <= max3 v) /\ (max3 v = vx v \/ max3 v = vy v \/ max3 v = vz v).
Proof.
  unfold max3. destruct (fmax_spec (vx v) (vy v)) as [A [B C]]. destruct (fmax_spec (fmax (vx v) (vy v)) (vz v)) as [D [E F]].
  split; [repeat split; [qlra|qlra|exact E]|]. destruct F as [F|F]; [|auto]. rewrite F. destruct C as [C|C]; auto.
Qed.
Lemma gap_in lo hi x : gap1 lo hi x <= 0 <-> lo <= x /\ x <= hi.
Proof. unfold gap1. destruct (fmax_spec (lo - x) (x - hi)) as [A [B C]]. split; [intros H; split; qlra|intros [H K]; destruct C as [C|C]; rewrite C; qlra]. Qed.

(* in the box: minus the distance to the nearest side; else the squared distance to the nearest point *)
Lemma signed_distance b p : proper3 b ->
  (in_box3 p b -> let gaps := [vx p - vx (fst b); vx (snd b) - vx p; vy p - vy (fst b); vy (snd b) - vy p; vz p - vz (fst b); vz (snd b) - vz p] in
     Forall (fun g => - sd_aabb b p <= g) gaps /\ In (- sd_aabb b p) gaps) /\
  (~ in_box3 p b -> 0 < sd_aabb b p /\ (exists q, in_box3 q b /\ sqdist p q = sd_aabb b p) /\ forall q, in_box3 q b -> sd_aabb b p <= sqdist p q).
Proof.
  intros P. rewrite (sd_gap b p P). destruct P as [H [K L]]. destruct b as [lo hi]; cbn [fst snd] in *. cbv zeta.
  set (d := (_, _, _)). destruct (max3_spec d) as [[M1 [M2 M3]] M]. set (m := max3 d) in *.
  assert (I : in_box3 p (lo, hi) <-> m <= 0).
  { split.
    - intros [A [B C]]. cbn [fst snd] in *. apply gap_in in A, B, C. destruct M as [M|[M|M]]; rewrite M; subst d; cbn [vx vy vz fst snd]; assumption.
    - intros N. subst d. cbn [vx vy vz fst snd] in M1, M2, M3. split; [|split]; cbn [fst snd]; apply gap_in; eapply Qcle_trans; try exact N; assumption. }
  split.
  - intros Q. apply I in Q. rewrite (proj2 (qle_true m 0) Q). subst d. unfold gap1, vx, vy, vz in *; cbn [fst snd] in *.
    destruct (fmax_spec (fst (fst lo) - fst (fst p)) (fst (fst p) - fst (fst hi))) as [A1 [A2 A3]]. destruct (fmax_spec (snd (fst lo) - snd (fst p)) (snd (fst p) - snd (fst hi))) as [B1 [B2 B3]]. destruct (fmax_spec (snd lo - snd p) (snd p - snd hi)) as [C1 [C2 C3]].
    split; [repeat (apply Forall_cons; [qlra|]); constructor|]. cbn [In].
    destruct M as [M|[M|M]]; [destruct A3 as [A3|A3]|destruct B3 as [B3|B3]|destruct C3 as [C3|C3]]; [left|right; left|do 2 right; left|do 3 right; left|do 4 right; left|do 5 right; left]; qlra.
  - intros Q. assert (N : 0 < m) by (destruct (Qclt_le_dec 0 m) as [Z|Z]; [exact Z|exfalso; apply Q, I, Z]). rewrite (proj2 (qle_false m 0) N).
    subst d. unfold gap1, vx, vy, vz in *; cbn [fst snd] in *. fold (gap1 (fst (fst lo)) (fst (fst hi)) (fst (fst p))) in *. fold (gap1 (snd (fst lo)) (snd (fst hi)) (snd (fst p))) in *. fold (gap1 (snd lo) (snd hi) (snd p)) in *.
    set (g1 := gap1 (fst (fst lo)) (fst (fst hi)) (fst (fst p))) in *. set (g2 := gap1 (snd (fst lo)) (snd (fst hi)) (snd (fst p))) in *. set (g3 := gap1 (snd lo) (snd hi) (snd p)) in *.
    split; [|split].
    + destruct (fmax_spec g1 0) as [A1 [A2 _]]. destruct (fmax_spec g2 0) as [B1 [B2 _]]. destruct (fmax_spec g3 0) as [C1 [C2 _]].
      set (u := fmax g1 0) in *. set (v := fmax g2 0) in *. set (w := fmax g3 0) in *. clearbody u v w g1 g2 g3 m.
      assert (0 <= u * u) by (apply qc_mul_nonneg; assumption). assert (0 <= v * v) by (apply qc_mul_nonneg; assumption). assert (0 <= w * w) by (apply qc_mul_nonneg; assumption).
      destruct M as [M|[M|M]]; [assert (0 < u * u) by (apply qc_mul_pos; qlra)|assert (0 < v * v) by (apply qc_mul_pos; qlra)|assert (0 < w * w) by (apply qc_mul_pos; qlra)]; qlra.
    + exists (clamp (fst (fst lo)) (fst (fst hi)) (fst (fst p)), clamp (snd (fst lo)) (snd (fst hi)) (snd (fst p)), clamp (snd lo) (snd hi) (snd p)). split.
      * split; [|split]; unfold vx, vy, vz; cbn [fst snd]; apply clamp_in; assumption.
      * unfold sqdist, vx, vy, vz; cbn [fst snd]. subst g1 g2 g3. rewrite !clamp_gap by assumption. reflexivity.
    + intros q [[A1 A2] [[B1 B2] [C1 C2]]]. unfold vx, vy, vz in *; cbn [fst snd] in *. subst g1 g2 g3. rewrite !clamp_gap by assumption. unfold sqdist, vx, vy, vz.
      pose proof (clamp_near _ _ (fst (fst p)) _ H A1 A2). pose proof (clamp_near _ _ (snd (fst p)) _ K B1 B2). pose proof (clamp_near _ _ (snd p) _ L C1 C2).
      set (a := _ * _) in *. qlra.
Qed.
