(* Properties of the octree. *)
From Coq Require Import List Arith ZArith Bool QArith Qround Qcanon Lia.
From Verif Require Import Common QcLib SumLib AabbModel OctModel OctSpec DacProofs OctProofs OctProofs2.
Import ListNotations.
Local Open Scope Qc_scope.

Lemma tree_good t : tree t -> good t.
Proof. induction 1 as [fuel b target t P H|t T IH]; [exact (proj1 (create_ok fuel b target t P H))|apply traverse_ok, IH]. Qed.
Definition room_case : box3 := ((0, 0, 0), (zq 8, zq 4, zq 2)).
Definition three : v3 := (zq 3, zq 3, zq 3).
Lemma room_proper : proper room_case.
Proof. repeat split; apply qle_true; vm_compute; reflexivity. Qed.
Definition room_tree : node := match create_octree 10 room_case three with Ok t => t | Err _ => leaf room_case end.
Lemma room_built : tree room_tree.
Proof. apply (Built 10 room_case three); [apply room_proper|]. unfold room_tree. destruct (create_octree 10 room_case three) as [t|e] eqn:E; [reflexivity|]. exfalso. revert E. vm_compute. discriminate. Qed.

(* C134: the leaves tile the box *)
Theorem C134_tile : forall t, tree t -> tile (box_of t) (leaves t).
Proof. intros t T. apply good_tile, tree_good, T. Qed.
Print Assumptions C134_tile.
Example C134_case : tree room_tree /\ List.length (leaves room_tree) = 8%nat /\ tree (traverse (traverse room_tree)) /\ List.length (leaves (traverse (traverse room_tree))) = 512%nat.
Proof. split; [apply room_built|]. split; [vm_compute; reflexivity|]. split; [apply Divided, Divided, room_built|vm_compute; reflexivity]. Qed.

(* C135: building ends, and no leaf is larger than asked by more than the rounding *)
Theorem C135_ends : forall b target, proper b -> 0 <= vx target -> 0 <= vy target -> 0 <= vz target -> exists t n, (forall fuel, (n < fuel)%nat -> create_octree fuel b target = Ok t) /\ box_of t = b /\
  Forall (fun l => vx (snd l) - vx (fst l) <= vx target + slack /\ vy (snd l) - vy (fst l) <= vy target + slack /\ vz (snd l) - vz (fst l) <= vz target + slack) (leaves t).
Proof.
  intros b target P T1 T2 T3. destruct (octree_ends b target P T1 T2 T3) as [t [n H]]. exists t, n. split; [exact H|]. destruct (create_ok (S n) b target t P (H (S n) (le_n _))) as [G [B M]]. split; [exact B|]. pose proof (good_leaves t G) as L. rewrite Forall_forall in *. intros l I. specialize (M l I). destruct M as [M1 [M2 M3]]. destruct (L l I) as [L1 [L2 L3]].
  assert (R : forall lo hi x, lo <= hi -> round4 (hi - lo) <= x -> hi - lo <= x + slack). { intros lo hi x A C. destruct (round4_spec (hi - lo)) as [z [_ [_ [D [E _]]]]]; [qlra|]. change slack with u4. qlra. }
  split; [apply R; [exact L1|exact M1]|split; apply R; [exact L2|exact M2|exact L3|exact M3]].
Qed.
Theorem C135_never : forall b target fuel, proper b -> vx target < 0 \/ vy target < 0 \/ vz target < 0 -> create_octree fuel b target = Err OutOfFuel.
Proof. intros b target fuel P H. apply octree_diverges; assumption. Qed.
Print Assumptions C135_ends.
Print Assumptions C135_never.
Example C135_case : proper room_case /\ 0 <= vx three /\ 0 <= vy three /\ 0 <= vz three /\ vy (0, - (1), 0) < 0 /\
  match create_octree 10 room_case three with Ok t => List.length (leaves t) = 8%nat | Err _ => False end.
Proof. split; [apply room_proper|]. split; [apply qle_true; vm_compute; reflexivity|]. split; [apply qle_true; vm_compute; reflexivity|]. split; [apply qle_true; vm_compute; reflexivity|]. split; [apply qlt_true; vm_compute; reflexivity|vm_compute; reflexivity]. Qed.

(* C136: the closest node is a leaf around the point, exactly when the point is in the box *)
Theorem C136_closest : forall t p, tree t -> (within (box_of t) p -> exists m, closest_node t p = Some m /\ In (box_of m) (leaves t) /\ within (box_of m) p /\ leaves m = [box_of m]) /\ (~ within (box_of t) p -> closest_node t p = None).
Proof. intros t p T. apply closest_ok, tree_good, T. Qed.
Print Assumptions C136_closest.
Example C136_case : tree room_tree /\ option_map (fun m => map this [vx (fst (box_of m)); vx (snd (box_of m)); vy (snd (box_of m)); vz (snd (box_of m))]) (closest_node room_tree (zq 5, 1, 1)) = Some (map this [zq 4; zq 6; zq 2; zq 2]).
Proof. split; [apply room_built|vm_compute; reflexivity]. Qed.

(* C137: tests between boxes are exact *)
Theorem C137_overlap : forall n m, proper (box_of n) -> proper m -> (overlap n m = true <-> exists p, within (box_of n) p /\ within m p).
Proof. exact overlap_exact. Qed.
Theorem C137_contains : forall n m, proper m -> (contains_bbox n m = true <-> forall p, within m p -> within (box_of n) p).
Proof. exact contains_exact. Qed.
Theorem C137_in : forall n m, proper (box_of n) -> (in_bbox n m = true <-> forall p, within (box_of n) p -> within m p).
Proof. exact in_bbox_exact. Qed.
Theorem C137_point : forall n p, contains_point n p = true <-> within (box_of n) p.
Proof. exact contains_iff. Qed.
Print Assumptions C137_overlap.
Print Assumptions C137_contains.
Print Assumptions C137_in.
Print Assumptions C137_point.
Example C137_case : proper (box_of (leaf room_case)) /\ overlap (leaf room_case) ((zq 8, 0, 0), (zq 9, 1, 1)) = true /\ overlap (leaf room_case) ((zq 9, 0, 0), (zq 10, 1, 1)) = false /\ contains_bbox (leaf room_case) ((1, 1, 1), (zq 2, zq 2, zq 2)) = true /\ in_bbox (leaf room_case) ((0, 0, 0), (1, 1, 1)) = false.
Proof. split; [apply room_proper|]. repeat split; vm_compute; reflexivity. Qed.

(* C138: one more division cuts every leaf into the eight boxes around its centre *)
Theorem C138_traverse : forall t, tree t -> box_of (traverse t) = box_of t /\ exists parts, leaves (traverse t) = List.concat parts /\ Forall2 (fun b l => tile b l /\ List.length l = 8%nat /\ Forall (fun x => within x (center b)) l) (leaves t) parts.
Proof.
  intros t T. split; [apply box_traverse|]. destruct (traverse_ok t (tree_good t T)) as [_ E]. exists (map (fun b => divide_xyz (fst b) (snd b) (center b)) (leaves t)). split; [rewrite E; apply flat_map_concat_map|]. pose proof (good_leaves t (tree_good t T)) as L. clear E. induction L as [|b l P L IH]; [constructor|]. cbn [map]. constructor; [|exact IH]. pose proof (center_within b P) as C. split; [|split; [reflexivity|]].
  - assert (D : division b (divide_xyz (fst b) (snd b) (center b))) by (apply (division_ok b (center b) P C); cbn [In]; tauto). apply D.
  - clear IH. unfold within in C. destruct C as [C1 [C2 [C3 [C4 [C5 C6]]]]]. unfold divide_xyz, within. generalize dependent (center b). intros c C1 C2 C3 C4 C5 C6. destruct c as [[c0 c1] c2]. destruct b as [[[a0 a1] a2] [[b0 b1] b2]]. unfold vx, vy, vz in *. cbn [fst snd] in *. repeat (apply Forall_cons; [cbn [fst snd]; repeat split; first [apply Qcle_refl|assumption]|]). apply Forall_nil.
Qed.
Print Assumptions C138_traverse.
Example C138_case : tree room_tree /\ List.length (leaves (traverse room_tree)) = 64%nat.
Proof. split; [apply room_built|vm_compute; reflexivity]. Qed.

(* C139: the power of two *)
Theorem C139_power : forall x, (1 <= x)%Z -> exists k, (0 <= k)%Z /\ power_of_two x = (2 ^ k)%Z /\ (x <= 2 ^ k)%Z /\ forall j, (0 <= j)%Z -> (x <= 2 ^ j)%Z -> (2 ^ k <= 2 ^ j)%Z.
Proof. exact power_of_two_ok. Qed.
Theorem C139_low_refuted : forall x, (x <= 0)%Z -> (2 <= power_of_two x)%Z.
Proof. exact power_of_two_low. Qed.
Print Assumptions C139_power.
Print Assumptions C139_low_refuted.
Example C139_case : (1 <= 5)%Z /\ power_of_two 5 = 8%Z /\ power_of_two 8 = 8%Z /\ power_of_two 0 = 2%Z /\ power_of_two (-7) = 16%Z.
Proof. repeat split; try lia; vm_compute; reflexivity. Qed.

(* C140: the division of a rectangle *)
Theorem C140_rectangle : forall lo hi c d target l, fst lo <= fst hi -> snd lo <= snd hi -> within2 (lo, hi) c -> find_division_option_2d lo hi c d target = Ok l ->
  (forall p, within2 (lo, hi) p <-> exists x, In x l /\ within2 x p) /\ ForallOrdPairs apart2 l.
Proof. exact division_2d. Qed.
Theorem C140_raises_refuted : forall lo hi c d target, find_division_option_2d lo hi c d target = Err KeyError <-> fst d <= fst target /\ snd d <= snd target.
Proof.
  intros lo hi c d target. unfold find_division_option_2d. destruct (qlt (fst target) (fst d)) eqn:E1, (qlt (snd target) (snd d)) eqn:E2; (split; [intros H; try discriminate|intros [A B]]); try (apply qlt_true in E1; exfalso; qlra); try (apply qlt_true in E2; exfalso; qlra); [|reflexivity]. apply qlt_false in E1, E2. auto.
Qed.
Print Assumptions C140_rectangle.
Print Assumptions C140_raises_refuted.
Example C140_case : within2 ((0, 0), (zq 4, zq 4)) (zq 2, 1) /\ match find_division_option_2d (0, 0) (zq 4, zq 4) (zq 2, 1) (zq 4, zq 4) (1, 1) with Ok l => List.length l = 4%nat | Err _ => False end.
Proof. split; [repeat split; apply qle_true; vm_compute; reflexivity|vm_compute; reflexivity]. Qed.
