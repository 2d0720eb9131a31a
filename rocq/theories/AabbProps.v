(* C19-C21, C75-C78: mmcore/numeric/_aabb.pyx, mmcore/numeric/aabb.py *)
From Coq Require Import List ZArith Bool QArith Qcanon Lia.
From Verif Require Import Common ListLib QcLib ArrZ AabbModel AabbSpec AabbProofs AabbProofs2.
Import ListNotations.
Local Open Scope Qc_scope.

Definition qz (k : Z) : Qc := Q2Qc (inject_Z k).
Definition V (x y z : Z) : v3 := (qz x, qz y, qz z).
Definition B (x0 y0 z0 x1 y1 z1 : Z) : box3 := (V x0 y0 z0, V x1 y1 z1).
Definition row (l : list Z) : list Qc := map qz l.
Definition show3 (p : v3) : list Q := [this (vx p); this (vy p); this (vz p)].
Definition showb (b : box3) : list (list Q) := [show3 (fst b); show3 (snd b)].
Ltac num := repeat split; vm_compute; discriminate.

(* ---- C19 ---- *)
Theorem C19_tight : forall K points lo hi, shape K points -> points <> [] -> (K <= length lo)%nat -> (K <= length hi)%nat ->
  exists lo' hi', aabb (Z.of_nat K) points (Some (lo, hi)) = Ok (lo', hi') /\
    (forall p, In p points -> in_box p (firstn K lo') (firstn K hi')) /\
    (forall l h, (forall p, In p points -> in_box p l h) ->
       forall q, in_box q (firstn K lo') (firstn K hi') -> in_box q l h) /\
    length lo' = length lo /\ length hi' = length hi /\
    skipn K lo' = skipn K lo /\ skipn K hi' = skipn K hi.
Proof. intros K points lo hi A H C D. exact (aabb_tight K points (lo, hi) lo hi A H eq_refl C D). Qed.
Print Assumptions C19_tight.

(* without an output array: three columns *)
Theorem C19_tight_default : forall points, shape 3 points -> points <> [] ->
  exists lo hi, aabb 3 points None = Ok (lo, hi) /\ length lo = 3%nat /\ length hi = 3%nat /\
    (forall p, In p points -> in_box p lo hi) /\
    (forall l h, (forall p, In p points -> in_box p l h) -> forall q, in_box q lo hi -> in_box q l h).
Proof.
  intros points A H. destruct (aabb_tight 3 points (zeros 3, zeros 3) (zeros 3) (zeros 3) A H eq_refl) as [lo [hi [E [I [T [L1 [L2 _]]]]]]]; [cbn; lia|cbn; lia|].
  exists lo, hi. change (length (zeros 3)) with 3%nat in L1, L2. rewrite !firstn_all2 in I by lia. rewrite !firstn_all2 in T by lia. repeat split; auto.
Qed.
Print Assumptions C19_tight_default.

(* the box of a segment *)
Theorem C19_segment : forall s e, proper3 (aabb_segm3d s e) /\ in_box3 s (aabb_segm3d s e) /\ in_box3 e (aabb_segm3d s e) /\
  forall b, in_box3 s b -> in_box3 e b -> forall q, in_box3 q (aabb_segm3d s e) -> in_box3 q b.
Proof. exact segm3d_tight. Qed.
Print Assumptions C19_segment.

Theorem C19_empty : forall K bb, (1 <= K)%Z -> aabb K [] bb = Err IndexError.
Proof. exact aabb_empty. Qed.
Print Assumptions C19_empty.

Definition cloud : list (list Qc) := [row [3; -1; 4]; row [1; 5; 9]; row [2; 6; -5]; row [3; 5; 8]]%Z.
Example C19_case : shape 3 cloud /\ cloud <> [] /\
  match aabb 3 cloud None with Ok (lo, hi) => map this lo = [1 # 1; -1 # 1; -5 # 1]%Q /\ map this hi = [3 # 1; 6 # 1; 9 # 1]%Q | Err _ => False end /\
  showb (aabb_segm3d (V 3 0 7) (V 1 5 7)) = [[1 # 1; 0; 7 # 1]; [3 # 1; 5 # 1; 7 # 1]]%Q.
Proof. split; [repeat constructor|]. split; [discriminate|]. split; [split|]; reflexivity. Qed.

(* ---- C20 ---- *)
Theorem C20_overlap : forall b1 b2, length (fst b1) = length (fst b2) -> proper b1 -> proper b2 ->
  (aabb_intersect b1 b2 = true <-> exists p, in_box p (fst b1) (snd b1) /\ in_box p (fst b2) (snd b2)).
Proof. exact intersect_exact. Qed.
Print Assumptions C20_overlap.
Theorem C20_overlap_3d : forall a b, proper3 a -> proper3 b ->
  (aabb_intersect_3d a b = true <-> exists p, in_box3 p a /\ in_box3 p b).
Proof. exact intersect_3d_exact. Qed.
Print Assumptions C20_overlap_3d.
Theorem C20_intersection : forall a b,
  match aabb_intersection a b with
  | Some c => proper3 c /\ forall p, in_box3 p c <-> in_box3 p a /\ in_box3 p b
  | None => forall p, ~ (in_box3 p a /\ in_box3 p b)
  end.
Proof. exact intersection_exact. Qed.
Print Assumptions C20_intersection.
Theorem C20_point : forall b p, length (fst b) = length p -> length (snd b) = length p -> length p = 2%nat \/ length p = 3%nat ->
  exists r, point_in_aabb b p = Ok r /\ (r = true <-> in_box p (fst b) (snd b)).
Proof. intros b p L1 L2 [L|L]; rewrite L in L1, L2; [exact (point_in_2 b p L1 L2 L)|exact (point_in_3 b p L1 L2 L)]. Qed.
Print Assumptions C20_point.
(* two boxes that touch in one corner, and two disjoint ones *)
Example C20_case : proper3 (B 0 0 0 2 2 2) /\ proper3 (B 2 2 2 3 4 5) /\
  aabb_intersect_3d (B 0 0 0 2 2 2) (B 2 2 2 3 4 5) = true /\
  match aabb_intersection (B 0 0 0 2 2 2) (B 1 (-1) 2 3 1 5) with Some c => showb c = [[1 # 1; 0; 2 # 1]; [2 # 1; 1 # 1; 2 # 1]]%Q | None => False end /\
  aabb_intersection (B 0 0 0 2 2 2) (B 0 0 3 2 2 4) = None /\
  aabb_intersect (row [0; 0], row [2; 2])%Z (row [1; 3], row [4; 5])%Z = false /\
  point_in_aabb (row [0; 0], row [2; 2])%Z (row [2; 1])%Z = Ok true.
Proof. split; [num|]. split; [num|]. repeat split. Qed.
Example C20_case_nd : proper (row [0; 0; 0; 0], row [2; 2; 2; 2])%Z /\
  aabb_intersect (row [0; 0; 0; 0], row [2; 2; 2; 2])%Z (row [1; 1; 1; 2], row [4; 5; 3; 3])%Z = true.
Proof. split; [repeat constructor; vm_compute; discriminate|reflexivity]. Qed.

(* ---- C21 ---- *)
Theorem C21_segment : forall b s, proper3 b -> plain3 (vsub (snd s) (fst s)) ->
  match segment_aabb_intersect b s with
  | Some (t0, t1) => 0 <= t0 /\ t0 <= t1 /\ t1 <= 1 /\
      forall t, (t0 <= t /\ t <= t1) <-> (0 <= t /\ t <= 1) /\ in_box3 (seg_at s t) b
  | None => forall t, 0 <= t -> t <= 1 -> ~ in_box3 (seg_at s t) b
  end.
Proof. exact segment_exact. Qed.
Print Assumptions C21_segment.
Theorem C21_hit : forall b s, proper3 b -> plain3 (vsub (snd s) (fst s)) ->
  (segment_aabb_intersect b s <> None <-> exists t, 0 <= t /\ t <= 1 /\ in_box3 (seg_at s t) b).
Proof. exact segment_hit. Qed.
Print Assumptions C21_hit.
Theorem C21_clip : forall b s, proper3 b -> plain3 (vsub (snd s) (fst s)) ->
  match segment_aabb_clip b s with
  | Some c => forall p, (exists t, 0 <= t /\ t <= 1 /\ p = seg_at s t /\ in_box3 p b) <-> (exists u, 0 <= u /\ u <= 1 /\ p = seg_at c u)
  | None => forall t, 0 <= t -> t <= 1 -> ~ in_box3 (seg_at s t) b
  end.
Proof. exact clip_exact. Qed.
Print Assumptions C21_clip.
(* crossing, axis-parallel on a face, corner contact, zero length *)
Ltac pln := repeat split; first [left; apply Qc_is_canon; reflexivity | right; left; vm_compute; discriminate | right; right; vm_compute; discriminate].
Example C21_case : proper3 (B 0 0 0 2 2 2) /\ plain3 (vsub (V 3 1 1) (V (-1) 1 1)) /\
  match segment_aabb_clip (B 0 0 0 2 2 2) (V (-1) 1 1, V 3 1 1) with Some c => showb c = [[0; 1 # 1; 1 # 1]; [2 # 1; 1 # 1; 1 # 1]]%Q | None => False end /\
  match segment_aabb_intersect (B 0 0 0 2 2 2) (V 1 3 2, V 3 1 2) with Some (a, c) => this a = (1 # 2)%Q /\ this c = (1 # 2)%Q | None => False end /\
  segment_aabb_intersect (B 0 0 0 2 2 2) (V 3 3 3, V 3 3 3) = None.
Proof.
  split; [num|]. split; [pln|]. repeat split; reflexivity.
Qed.

(* ---- C75: dimension of the default result ---- *)
Theorem C75_wide_refuted : forall K points, shape K points -> points <> [] -> (3 < K)%nat ->
  aabb (Z.of_nat K) points None = Err IndexError.
Proof. exact aabb_wide. Qed.
Print Assumptions C75_wide_refuted.
(* fewer than three columns: the result has three, the rest zero *)
Theorem C75_narrow_partial : forall K points, shape K points -> points <> [] -> (K <= 3)%nat ->
  exists lo hi, aabb (Z.of_nat K) points None = Ok (lo, hi) /\ length lo = 3%nat /\ length hi = 3%nat /\
    (forall p, In p points -> in_box p (firstn K lo) (firstn K hi)) /\
    Forall (eq 0) (skipn K lo) /\ Forall (eq 0) (skipn K hi).
Proof.
  intros K points A H L. destruct (aabb_tight K points (zeros 3, zeros 3) (zeros 3) (zeros 3) A H eq_refl) as [lo [hi [E [I [_ [L1 [L2 [S1 S2]]]]]]]]; [cbn; lia|cbn; lia|].
  exists lo, hi. repeat split; auto; rewrite ?S1, ?S2; destruct K as [|[|[|[|]]]]; repeat constructor; lia.
Qed.
Print Assumptions C75_narrow_partial.
Example C75_case : shape 4 [row [1; 2; 3; 4]; row [0; 5; 2; 2]]%Z /\ aabb 4 [row [1; 2; 3; 4]; row [0; 5; 2; 2]]%Z None = Err IndexError.
Proof. split; [repeat constructor|reflexivity]. Qed.
Example C75_narrow_case : shape 2 [row [1; 2]; row [0; 5]]%Z /\
  match aabb 2 [row [1; 2]; row [0; 5]]%Z None with Ok (lo, hi) => map this lo = [0; 2 # 1; 0]%Q /\ map this hi = [1 # 1; 5 # 1; 0]%Q | Err _ => False end.
Proof. split; [repeat constructor|split; reflexivity]. Qed.

(* ---- C76: very short segments ---- *)
Theorem C76_tiny_refuted : forall b h y z, proper3 b -> 0 < h -> h < Q2Qc (1 # 1000000000000000) ->
  vy (fst b) <= y -> y <= vy (snd b) -> vz (fst b) <= z -> z <= vz (snd b) ->
  let inside := (vx (snd b), y, z) in let outside := (vx (snd b) + h, y, z) in
  segment_aabb_intersect b (inside, outside) = Some (0, 1) /\ ~ in_box3 outside b /\
  segment_aabb_intersect b (outside, inside) = None /\ in_box3 inside b.
Proof. exact tiny_extent. Qed.
Print Assumptions C76_tiny_refuted.
Example C76_case : proper3 (B 0 0 0 2 2 2) /\ 0 < Q2Qc (1 # 2000000000000000) /\
  Q2Qc (1 # 2000000000000000) < Q2Qc (1 # 1000000000000000) /\ vy (fst (B 0 0 0 2 2 2)) <= qz 1 /\ qz 1 <= vy (snd (B 0 0 0 2 2 2)).
Proof. split; [num|]. split; [reflexivity|]. split; [reflexivity|]. num. Qed.

(* ---- C77, C78: rays ---- *)
Theorem C77_first_hit : forall b o d, proper3 b -> plain3 d ->
  match ray_aabb_intersect b o d with
  | Some (t0, t1) => (0 <= t0 /\ in_box3 (ray_at o d t0) b /\ forall t, 0 <= t -> t < t0 -> ~ in_box3 (ray_at o d t) b) /\
      forall t, 0 <= t -> t <= 1 -> (in_box3 (ray_at o d t) b <-> t0 <= t /\ t <= t1)
  | None => forall t, 0 <= t -> t <= huge -> ~ in_box3 (ray_at o d t) b
  end.
Proof. exact ray_exact. Qed.
Print Assumptions C77_first_hit.
Theorem C78_far_refuted : forall b o d, proper3 b -> plain3 d ->
  (exists t, 0 <= t /\ t <= huge /\ in_box3 (ray_at o d t) b) ->
  (forall t, 0 <= t -> t <= 1 -> ~ in_box3 (ray_at o d t) b) ->
  exists t0 t1, ray_aabb_intersect b o d = Some (t0, t1) /\ t1 < t0.
Proof. exact ray_far_refuted. Qed.
Print Assumptions C78_far_refuted.
Example C77_case : proper3 (B 4 0 0 6 2 2) /\ plain3 (V 1 0 0) /\
  match ray_aabb_intersect (B 4 0 0 6 2 2) (V 5 1 1) (V 10 0 0) with Some (a, c) => this a = 0%Q /\ this c = (1 # 10)%Q | None => False end /\
  ray_aabb_intersect (B 4 0 0 6 2 2) (V 7 1 1) (V 1 0 0) = None.
Proof. split; [num|]. split; [split; [|split]; [right; left; vm_compute; discriminate|left; reflexivity|left; reflexivity]|]. repeat split; reflexivity. Qed.
Example C78_case :
  (exists t, 0 <= t /\ t <= huge /\ in_box3 (ray_at (V 0 1 1) (V 1 0 0) t) (B 4 0 0 6 2 2)) /\
  (forall t, 0 <= t -> t <= 1 -> ~ in_box3 (ray_at (V 0 1 1) (V 1 0 0) t) (B 4 0 0 6 2 2)) /\
  match ray_aabb_intersect (B 4 0 0 6 2 2) (V 0 1 1) (V 1 0 0) with Some (a, c) => this a = (4 # 1)%Q /\ this c = (1 # 1)%Q | None => False end.
Proof.
  split; [exists (qz 4); num|]. split; [|split; reflexivity].
  intros t _ H [[X _] _]. assert (E : ray_at (V 0 1 1) (V 1 0 0) t = (t, qz 1, qz 1)).
  { unfold ray_at, V, vx, vy, vz. cbn [fst snd]. change (qz 0) with 0. change (qz 1) with 1. f_equal; [f_equal|]; ring. }
  rewrite E in X. change (qz 4 <= t) in X. assert (qz 4 <= 1) by (apply Qcle_trans with t; auto). apply H0. reflexivity.
Qed.
