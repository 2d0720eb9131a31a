(* Cylinders and tubes: distance, bounding box and gradient. *)
From Coq Require Import List ZArith Lia Bool QArith Qcanon.
From Verif Require Import Common ListLib QcLib ArrZ SumLib NurbsModel DerModel PlnModel PlnSpec PlnProofs2 PlnProofs4 PrmModel PrmSpec PrmProofs1.
Import ListNotations.
Local Open Scope Z_scope.
Local Open Scope Qc_scope.

(* foot of the perpendicular from p to the line through o along d *)
Definition fpar (o d p : v3) : Qc := dot3 (minus3 p o) d / dot3 d d.
Definition perp (o d p : v3) : v3 := minus3 p (along o (fpar o d p) d).

Lemma dd_nz s e : s <> e -> dot3 (minus3 e s) (minus3 e s) <> 0.
Proof.
  intros N K. apply dot_self_zero in K. apply N. apply v3_inv in K. unfold minus3, zero3 in K; cbn [vx vy vz] in K.
  destruct K as (A & B & C). apply v3_ext; qlra.
Qed.
Lemma perp_orth o d p : dot3 d d <> 0 -> dot3 (perp o d p) d = 0.
Proof.
  intro N. unfold perp.
  assert (E : dot3 (minus3 p (along o (fpar o d p) d)) d = dot3 (minus3 p o) d - fpar o d p * dot3 d d) by (v3d; ring).
  rewrite E. unfold fpar. field. auto.
Qed.
Lemma perp_min o d p t : dot3 d d <> 0 -> dot3 (perp o d p) (perp o d p) <= dist2 p (along o t d).
Proof.
  intro N. pose proof (perp_orth o d p N) as O. set (w := perp o d p) in *.
  assert (E : minus3 p (along o t d) = along w (fpar o d p - t) d).
  { apply v3_ext; unfold w, perp; v3d; ring. }
  unfold dist2. rewrite E.
  assert (F : dot3 (along w (fpar o d p - t) d) (along w (fpar o d p - t) d) =
    dot3 w w + (1 + 1) * (fpar o d p - t) * dot3 w d + (fpar o d p - t) * (fpar o d p - t) * dot3 d d) by (clearbody w; v3d; ring).
  rewrite F, O. pose proof (dot_self_nonneg d). pose proof (sq_nonneg (fpar o d p - t)) as S.
  pose proof (qc_mul_nonneg _ _ S H). qlra.
Qed.
Lemma perp_dist o d p : dot3 (perp o d p) (perp o d p) = dist2 p (along o (fpar o d p) d).
Proof. reflexivity. Qed.

Section P.
Variable sqrt : Qc -> Qc.

Lemma bn_eq d : sq2 (vx d) + sq2 (vy d) + sq2 (vz d) = dot3 d d.
Proof. reflexivity. Qed.

Lemma normal_ok c p : dot3 (c_d c) (c_d c) <> 0 -> normal_not_unit c p = Ok (perp (c_o c) (c_d c) p).
Proof.
  intro N. unfold normal_not_unit. rewrite bn_eq. rewrite !divR_ok_ by auto. cbn [bind]. f_equal.
  unfold perp, fpar. unfold dot3 in *. apply v3_ext; unfold minus3, along; cbn [vx vy vz]; field; exact N.
Qed.
Lemma normal_zero c p : dot3 (c_d c) (c_d c) = 0 -> normal_not_unit c p = Err ZeroDivision.
Proof. intro Z. unfold normal_not_unit. rewrite bn_eq, Z. rewrite divR_zero_. reflexivity. Qed.

(* a line distance is unique *)
Lemma line_distance_perp s e p n : s <> e -> is_sqrt n (dot3 (perp s (minus3 e s) p) (perp s (minus3 e s) p)) -> line_distance s e p n.
Proof.
  intros N [P Q]. split; [auto|]. split.
  - exists (fpar s (minus3 e s) p). rewrite Q. apply perp_dist.
  - intro t. rewrite Q. apply perp_min, dd_nz; auto.
Qed.

Lemma cyl_implicit_eq c p : dot3 (c_d c) (c_d c) <> 0 ->
  cyl_implicit sqrt c p = Ok (sqrt (dot3 (perp (c_o c) (c_d c) p) (perp (c_o c) (c_d c) p)) - c_r c).
Proof. intro N. unfold cyl_implicit. rewrite normal_ok by auto. reflexivity. Qed.
Lemma tube_implicit_eq c t p : dot3 (c_d c) (c_d c) <> 0 ->
  tube_implicit sqrt c t p = Ok (fabs (c_r c - sqrt (dot3 (perp (c_o c) (c_d c) p) (perp (c_o c) (c_d c) p))) - t / two).
Proof.
  intro N. unfold tube_implicit. rewrite bn_eq. rewrite divR_ok_ by auto. cbn [bind].
  match goal with |- Ok (_ + fabs (_ - sqrt ?a)) = Ok (fabs (_ - sqrt ?b) - _) => replace a with b end.
  - set (k := fabs _). f_equal. field. apply two_nz.
  - unfold perp, fpar, sq2. unfold dot3 in *. unfold minus3, along; cbn [vx vy vz]. field. exact N.
Qed.

(* ---- histories ---- *)
Lemma run_icyl_eq l : forall s e r t, run_icyl sqrt (icyl_init sqrt s e r t) l =
  icyl_init sqrt (last_start s l) (last_end e l) (last_radius r l) t.
Proof.
  unfold run_icyl, last_start, last_end, last_radius. induction l as [|op l IH]; intros s e r t; [reflexivity|].
  cbn [fold_left]. destruct op; [apply (IH s0 e r t)|apply (IH s e0 r t)|apply (IH s e r0 t)].
Qed.

(* ---- bounding boxes ---- *)
Lemma perp_bound d i w r k : dot3 i i = 1 -> dot3 d d <> 0 -> 0 <= r -> is_sqrt k (1 - dot3 d i * dot3 d i / dot3 d d) ->
  dot3 w d = 0 -> dot3 w w <= r * r -> - (r * k) <= dot3 w i <= r * k.
Proof.
  intros I N R [P Q] O W. apply sq_le; [apply qc_mul_nonneg; auto|].
  set (i' := along i (- (dot3 d i / dot3 d d)) d).
  assert (E1 : dot3 w i = dot3 w i').
  { transitivity (dot3 w i - dot3 d i / dot3 d d * dot3 w d); [rewrite O; ring|]. unfold i'. v3d. ring. }
  assert (E2 : dot3 i' i' = k * k).
  { rewrite Q. transitivity (dot3 i i - (1 + 1) * (dot3 d i / dot3 d d) * dot3 d i + (dot3 d i / dot3 d d) * (dot3 d i / dot3 d d) * dot3 d d).
    - set (m := dot3 d i / dot3 d d) in *. clearbody m. unfold i'. v3d. ring.
    - rewrite I. field. auto. }
  rewrite E1. pose proof (cauchy w i') as C. rewrite E2 in C.
  pose proof (sq_nonneg k) as K.
  assert (L : 0 <= (r * r - dot3 w w) * (k * k)) by (apply qc_mul_nonneg; auto; clear C K; qlra).
  replace (r * k * (r * k)) with (dot3 w w * (k * k) + (r * r - dot3 w w) * (k * k)) by ring.
  set (x := dot3 w w * (k * k)) in *. set (y := (r * r - dot3 w w) * (k * k)) in *. clearbody x y.
  clear Q E1 E2 K. qlra.
Qed.
Lemma perp_extreme d i r k : dot3 i i = 1 -> dot3 d d <> 0 -> 0 <= r -> is_sqrt k (1 - dot3 d i * dot3 d i / dot3 d d) ->
  exists w, dot3 w d = 0 /\ dot3 w w <= r * r /\ dot3 w i = r * k.
Proof.
  intros I N R [P Q]. destruct (Qc_eq_dec k 0) as [->|K].
  - exists zero3. repeat split; try (v3d; ring). replace (dot3 zero3 zero3) with 0 by (v3d; ring). apply sq_nonneg.
  - set (m := dot3 d i / dot3 d d). set (i' := along i (- m) d).
    assert (E0 : dot3 i' d = 0).
    { transitivity (dot3 d i - m * dot3 d d); [unfold i'; clearbody m; v3d; ring|]. unfold m. field. auto. }
    assert (E1 : dot3 i' i = k * k).
    { rewrite Q. transitivity (dot3 i i - m * dot3 d i); [unfold i'; clearbody m; v3d; ring|]. rewrite I. unfold m. field. auto. }
    assert (E2 : dot3 i' i' = k * k).
    { assert (G : forall x, dot3 x i' = dot3 x i - m * dot3 x d) by (intro x; unfold i'; clearbody m; clear; v3d; ring).
      rewrite G, E0, E1. ring. }
    exists (along zero3 (r / k) i'). clearbody i'. 
    assert (F : forall x, dot3 (along zero3 (r / k) i') x = r / k * dot3 i' x) by (intro x; v3d; ring).
    assert (K2 : k * k <> 0) by (intro; apply K, sq_zero; auto).
    repeat split.
    + rewrite F, E0. ring.
    + rewrite F. rewrite dot_comm, F, E2. replace (r / k * (r / k * (k * k))) with (r * r) by (field; auto). apply Qcle_refl.
    + rewrite F, E1. field. auto.
Qed.

Definition eX : v3 := mkv 1 0 0.
Definition eY : v3 := mkv 0 1 0.
Definition eZ : v3 := mkv 0 0 1.

Lemma fmin_cases a b : (a <= b /\ fmin a b = a) \/ (b < a /\ fmin a b = b).
Proof. unfold fmin. destruct (qlt b a) eqn:E; [apply qlt_true in E|apply qlt_false in E]; auto. Qed.
Lemma fmax_cases a b : (b <= a /\ fmax a b = a) \/ (a < b /\ fmax a b = b).
Proof. unfold fmax. destruct (qlt a b) eqn:E; [apply qlt_true in E|apply qlt_false in E]; auto. Qed.

Lemma mix_bounds a b k x t m : 0 <= t <= 1 -> - k <= x <= k -> m = a + t * (b - a) + x ->
  fmin (a - k) (b - k) <= m <= fmax (a + k) (b + k).
Proof.
  intros [T0 T1] [X0 X1] ->.
  destruct (Qclt_le_dec a b) as [L|L].
  - assert (0 <= t * (b - a)) by (apply qc_mul_nonneg; qlra). assert (0 <= (1 - t) * (b - a)) by (apply qc_mul_nonneg; qlra).
    split.
    + destruct (fmin_cases (a - k) (b - k)) as [[? ->]|[? ->]]; qlra.
    + destruct (fmax_cases (a + k) (b + k)) as [[? ->]|[? ->]]; qlra.
  - assert (0 <= t * (a - b)) by (apply qc_mul_nonneg; qlra). assert (0 <= (1 - t) * (a - b)) by (apply qc_mul_nonneg; qlra).
    split.
    + destruct (fmin_cases (a - k) (b - k)) as [[? ->]|[? ->]]; qlra.
    + destruct (fmax_cases (a + k) (b + k)) as [[? ->]|[? ->]]; qlra.
Qed.

Lemma solid_end s e r w (b : bool) : dot3 w (minus3 e s) = 0 -> dot3 w w <= r * r -> solid s e r (vadd (if b then s else e) w).
Proof.
  intros O W. exists (if b then 0 else 1). split; [destruct b; split; qlra|]. cbv zeta.
  assert (E : minus3 (vadd (if b then s else e) w) (along s (if b then 0 else 1) (minus3 e s)) = w).
  { apply v3_ext; destruct b; v3d; ring. }
  unfold dist2. rewrite !E. auto.
Qed.

Lemma face_lo s e r i k (c : v3 -> Qc) : dot3 i i = 1 -> (forall v, c v = dot3 v i) ->
  dot3 (minus3 e s) (minus3 e s) <> 0 -> 0 <= r ->
  is_sqrt k (1 - dot3 (minus3 e s) i * dot3 (minus3 e s) i / dot3 (minus3 e s) (minus3 e s)) ->
  exists p, solid s e r p /\ c p = fmin (c s - r * k) (c e - r * k).
Proof.
  intros I C N R K. destruct (perp_extreme _ i r k I N R K) as (w & W1 & W2 & W3).
  assert (M1 : dot3 (neg3 w) (minus3 e s) = 0) by (transitivity (- dot3 w (minus3 e s)); [v3d; ring|rewrite W1; ring]).
  assert (M2 : dot3 (neg3 w) (neg3 w) <= r * r) by (replace (dot3 (neg3 w) (neg3 w)) with (dot3 w w) by (v3d; ring); auto).
  assert (M3 : forall q, c (vadd q (neg3 w)) = c q - r * k).
  { intro q. rewrite !C. rewrite <- W3. clear. v3d. ring. }
  destruct (fmin_cases (c s - r * k) (c e - r * k)) as [[L E]|[L E]]; rewrite E.
  - exists (vadd s (neg3 w)). split; [apply (solid_end s e r _ true); auto|apply M3].
  - exists (vadd e (neg3 w)). split; [apply (solid_end s e r _ false); auto|apply M3].
Qed.
Lemma face_hi s e r i k (c : v3 -> Qc) : dot3 i i = 1 -> (forall v, c v = dot3 v i) ->
  dot3 (minus3 e s) (minus3 e s) <> 0 -> 0 <= r ->
  is_sqrt k (1 - dot3 (minus3 e s) i * dot3 (minus3 e s) i / dot3 (minus3 e s) (minus3 e s)) ->
  exists p, solid s e r p /\ c p = fmax (c s + r * k) (c e + r * k).
Proof.
  intros I C N R K. destruct (perp_extreme _ i r k I N R K) as (w & W1 & W2 & W3).
  assert (M3 : forall q, c (vadd q w) = c q + r * k).
  { intro q. rewrite !C. rewrite <- W3. clear. v3d. ring. }
  destruct (fmax_cases (c s + r * k) (c e + r * k)) as [[L E]|[L E]]; rewrite E.
  - exists (vadd s w). split; [apply (solid_end s e r _ true); auto|apply M3].
  - exists (vadd e w). split; [apply (solid_end s e r _ false); auto|apply M3].
Qed.
Lemma inside s e r i k (c : v3 -> Qc) p : dot3 i i = 1 -> (forall v, c v = dot3 v i) ->
  dot3 (minus3 e s) (minus3 e s) <> 0 -> 0 <= r ->
  is_sqrt k (1 - dot3 (minus3 e s) i * dot3 (minus3 e s) i / dot3 (minus3 e s) (minus3 e s)) ->
  solid s e r p -> fmin (c s - r * k) (c e - r * k) <= c p <= fmax (c s + r * k) (c e + r * k).
Proof.
  intros I C N R K (t & T & O & W). cbv zeta in *. unfold dist2 in W. set (w := minus3 p (along s t (minus3 e s))) in *.
  pose proof (perp_bound _ i w r k I N R K O W) as B.
  apply (mix_bounds _ _ _ (dot3 w i) t); auto. rewrite !C. unfold w. clear. v3d. ring.
Qed.

Lemma cylinder_aabb_tight s e r : s <> e -> 0 <= r -> aabb_roots sqrt s e ->
  exists b, cylinder_aabb sqrt s e (minus3 e s) r = Some b /\ tight b (solid s e r).
Proof.
  intros N R (Kx & Ky & Kz). apply dd_nz in N. unfold cylinder_aabb.
  change (vx (minus3 e s) * vx (minus3 e s) + vy (minus3 e s) * vy (minus3 e s) + vz (minus3 e s) * vz (minus3 e s))
    with (dot3 (minus3 e s) (minus3 e s)).
  assert (Q : qeq (dot3 (minus3 e s) (minus3 e s)) 0 = false) by (apply qeq_false; auto). rewrite Q.
  eexists. split; [reflexivity|].
  set (d := minus3 e s) in *. unfold exact_sqrt in *.
  assert (CX : forall v, vx v = dot3 v eX) by (intro; unfold dot3, eX; cbn [vx vy vz]; ring).
  assert (CY : forall v, vy v = dot3 v eY) by (intro; unfold dot3, eY; cbn [vx vy vz]; ring).
  assert (CZ : forall v, vz v = dot3 v eZ) by (intro; unfold dot3, eZ; cbn [vx vy vz]; ring).
  assert (IX : dot3 eX eX = 1) by (unfold dot3, eX; cbn [vx vy vz]; ring).
  assert (IY : dot3 eY eY = 1) by (unfold dot3, eY; cbn [vx vy vz]; ring).
  assert (IZ : dot3 eZ eZ = 1) by (unfold dot3, eZ; cbn [vx vy vz]; ring).
  set (kx := sqrt (1 - vx d * vx d / dot3 d d)) in *. set (ky := sqrt (1 - vy d * vy d / dot3 d d)) in *.
  set (kz := sqrt (1 - vz d * vz d / dot3 d d)) in *. clearbody kx ky kz.
  rewrite (CX d) in Kx. rewrite (CY d) in Ky. rewrite (CZ d) in Kz.
  split.
  - intros p Sp. unfold in_box. cbn [fst snd vx vy vz].
    split; [apply (inside s e r eX kx vx p); auto|]. split; [apply (inside s e r eY ky vy p); auto|apply (inside s e r eZ kz vz p); auto].
  - cbn [fst snd vx vy vz].
    split; [apply (face_lo s e r eX kx vx); auto|]. split; [apply (face_hi s e r eX kx vx); auto|].
    split; [apply (face_lo s e r eY ky vy); auto|]. split; [apply (face_hi s e r eY ky vy); auto|].
    split; [apply (face_lo s e r eZ kz vz); auto|apply (face_hi s e r eZ kz vz); auto].
Qed.
End P.
