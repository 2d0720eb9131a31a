(* Dual contouring: theorems C380-C390. *)
From Coq Require Import List Arith ZArith Bool QArith Qcanon Lia.
From Verif Require Import Common QcLib AabbModel ImplModel DcModel DcSpec DcProofs1 DcProofs2 DcProofs3.
Import ListNotations.
Local Open Scope Qc_scope.

Definition q (a : Z) (b : positive) : Qc := Q2Qc (a # b).
Definition num2 (p : p2) : Q * Q := (this (fst p), this (snd p)).
Definition numc (c : box2) : (Q * Q) * (Q * Q) := (num2 (fst c), num2 (snd c)).
Definition shown {A B} (f : A -> B) (r : res A) : res B := do a <- r ; Ok (f a).
Ltac qdec := apply Qclt_alt || apply Qcle_alt; vm_compute; (reflexivity || discriminate).
Ltac qnot := let H := fresh in intro H; apply Qclt_alt in H; vm_compute in H; discriminate H.

(* C380 *)
Theorem C380_shapes : forall a b p,
  (inside (union a b) p <-> inside a p \/ inside b p) /\ (inside (intersection a b) p <-> inside a p /\ inside b p) /\
  (inside (inv a) p <-> 0 < a p) /\ (inside (substract a b) p <-> inside a p /\ 0 < b p).
Proof. exact csg_ok. Qed.
Print Assumptions C380_shapes.
Theorem C380_rectangle : forall lo hi p, inside (rectangle lo hi) p <-> (fst lo < fst p /\ fst p < fst hi) /\ (snd lo < snd p /\ snd p < snd hi).
Proof. exact rectangle_ok. Qed.
Print Assumptions C380_rectangle.
Theorem C380_xor : forall d1 d2, opXor d1 d2 < 0 <-> (d1 < 0 /\ 0 < d2) \/ (0 < d1 /\ d2 < 0).
Proof. exact xor_ok. Qed.
Print Assumptions C380_xor.
Definition sq1 : shape := rectangle (q 0 1, q 0 1) (q 2 1, q 2 1).
Definition sq2 : shape := rectangle (q 1 1, q 1 1) (q 3 1, q 3 1).
Example C380_case : inside (union sq1 sq2) (q 1 2, q 1 2) /\ ~ inside (intersection sq1 sq2) (q 1 2, q 1 2) /\ inside (substract sq1 sq2) (q 1 2, q 1 2).
Proof. unfold inside. split; [qdec|]. split; [qnot|qdec]. Qed.

(* C381 *)
Theorem C381_zero : forall s a b fuel, changes s a b -> exists p, zero (S (S fuel)) s a b = Ok p /\ near_change s a b p.
Proof. exact zero_ok. Qed.
Print Assumptions C381_zero.
Theorem C381_zero_outside : forall s fuel a b, ~ inside s a -> ~ inside s b -> zero fuel s a b = Err OutOfFuel.
Proof. exact zero_never. Qed.
Print Assumptions C381_zero_outside.
Example C381_case : changes sq1 (q 1 1, q 1 1) (q 3 1, q 1 1) /\ shown num2 (zero 2 sq1 (q 3 1, q 1 1) (q 1 1, q 1 1)) = Ok (2047 # 1024, 1)%Q /\ ~ inside sq1 (q 3 1, q 1 1).
Proof. unfold changes, inside. split; [left; split; [qdec|qnot]|]. split; [vm_compute; reflexivity|qnot]. Qed.

(* C382 *)
Theorem C382_contours : forall s cell fuel, exists es ps, edges s cell = Ok es /\ contours (S (S fuel)) s cell = Ok ps /\
  (forall sd, (crossed s cell sd -> uses es sd = 1%nat) /\ (~ crossed s cell sd -> uses es sd = 0%nat)) /\
  (forall i o, In (i, o) es -> inside s (left_entering cell i) /\ inside s (left_leaving cell o)) /\
  Forall2 (fun e p => near_change s (fst (side_ends cell (fst e))) (snd (side_ends cell (fst e))) (fst p) /\
                      near_change s (fst (side_ends cell (snd e))) (snd (side_ends cell (snd e))) (snd p)) es ps.
Proof. exact contours_ok. Qed.
Print Assumptions C382_contours.
Example C382_case : edges sq1 ((q 1 1, q 1 1), (q 3 1, q 3 1)) = Ok [(Lower, Left)] /\
  shown (map (fun e => (num2 (fst e), num2 (snd e)))) (contours 2 sq1 ((q 1 1, q 1 1), (q 3 1, q 3 1))) = Ok [((2047 # 1024, 1), (1, 2047 # 1024))]%Q.
Proof. split; vm_compute; reflexivity. Qed.

(* C383 *)
Theorem C383_contours_join : forall s a b c d e es1 es2 fuel, edges s ((a, b), (c, d)) = Ok es1 -> edges s ((a, d), (c, e)) = Ok es2 ->
  pt fuel s ((a, b), (c, d)) Upper = pt fuel s ((a, d), (c, e)) Lower /\
  ((exists i, In (i, Upper) es1) <-> (exists o, In (Lower, o) es2)) /\ ((exists o, In (Upper, o) es1) <-> (exists i, In (i, Lower) es2)).
Proof. intros s a b c d e es1 es2 fuel. now apply joins_side. Qed.
Print Assumptions C383_contours_join.
Theorem C383_contours_join_right : forall s a b c d e es1 es2 fuel, edges s ((a, b), (c, d)) = Ok es1 -> edges s ((c, b), (e, d)) = Ok es2 ->
  pt fuel s ((a, b), (c, d)) Right = pt fuel s ((c, b), (e, d)) Left /\
  ((exists i, In (i, Right) es1) <-> (exists o, In (Left, o) es2)) /\ ((exists o, In (Right, o) es1) <-> (exists i, In (i, Left) es2)).
Proof. intros s a b c d e es1 es2 fuel. now apply joins_side. Qed.
Print Assumptions C383_contours_join_right.
Example C383_case : edges sq1 ((q 1 1, q (-1) 1), (q 3 1, q 1 1)) = Ok [(Left, Upper)] /\ edges sq1 ((q 1 1, q 1 1), (q 3 1, q 3 1)) = Ok [(Lower, Left)] /\
  shown num2 (pt 2 sq1 ((q 1 1, q (-1) 1), (q 3 1, q 1 1)) Upper) = Ok (2047 # 1024, 1)%Q.
Proof. split; [|split]; vm_compute; reflexivity. Qed.

(* C384 *)
Theorem C384_interpolate : forall s c, proper c -> forall p, In p [(x0 c, y0 c); (x1 c, y0 c); (x0 c, y1 c); (x1 c, y1 c)] -> interpolate s c p = Ok (s p).
Proof. exact interp_corners. Qed.
Print Assumptions C384_interpolate.
Theorem C384_bilinear_exact : forall k0 k1 k2 k3 u v w z p, u <> w -> v <> z ->
  interpolate (fun r => k0 + k1 * fst r + k2 * snd r + k3 * fst r * snd r) ((u, v), (w, z)) p = Ok (k0 + k1 * fst p + k2 * snd p + k3 * fst p * snd p).
Proof. exact bilinear_exact. Qed.
Print Assumptions C384_bilinear_exact.
Theorem C384_degenerate : forall s u v w z p, interpolate s ((u, v), (w, z)) p = Err ZeroDivision <-> u = w \/ v = z.
Proof. exact interp_zero. Qed.
Print Assumptions C384_degenerate.
Example C384_case : proper ((q 1 1, q 1 1), (q 3 1, q 3 1)) /\ shown this (interpolate sq1 ((q 1 1, q 1 1), (q 3 1, q 3 1)) (q 3 1, q 1 1)) = Ok 1%Q /\
  shown this (interpolate sq1 ((q 1 1, q 1 1), (q 3 1, q 3 1)) (q 2 1, q 2 1)) = Ok (1 # 2)%Q.
Proof. split; [split; unfold x0, x1, y0, y1; cbn [fst snd]; qdec|]. split; vm_compute; reflexivity. Qed.

(* C385 *)
Theorem C385_merge : forall s t cell, tiled t cell -> proper cell -> exists t', merge s t = Ok t' /\ tiled t' cell /\ no_flat s t' cell /\ merge s t' = Ok t' /\
  (forall c, In c (leaves t') -> In c (leaves t) \/ flat s c) /\ (is_root t' -> is_root t).
Proof. exact merge_ok. Qed.
Print Assumptions C385_merge.
Definition unit4 : box2 := ((q 0 1, q 0 1), (q 4 1, q 4 1)).
Definition halfplane : shape := fun p => fst p + snd p - q 2 1.
Definition demo_tree : tree2 := collapse2d halfplane (build_tree2d (fst unit4) (snd unit4) 2).
Example C385_case : tiled demo_tree unit4 /\ proper unit4 /\ length (leaves demo_tree) = 3%nat /\
  shown (fun t => length (leaves t)) (merge (fun p => fst p) (build_tree2d (fst unit4) (snd unit4) 2)) = Ok 1%nat.
Proof.
  split; [apply collapse_tiled; apply build_tiled|]. split; [split; unfold x0, x1, y0, y1; cbn [fst snd unit4]; qdec|]. split; vm_compute; reflexivity.
Qed.

(* C386 *)
Theorem C386_fold : forall (mu : box2 -> Qc) t, (forall c, let '(qa, qb, qc, qd) := quarters c in mu c = mu qa + mu qb + mu qc + mu qd) ->
  forall c, foldTree t c (fun _ => 0) mu mu mu = mu c.
Proof. exact fold_additive. Qed.
Print Assumptions C386_fold.
Definition area (c : box2) : Qc := (x1 c - x0 c) * (y1 c - y0 c).
Example C386_case : (forall c, let '(qa, qb, qc, qd) := quarters c in area c = area qa + area qb + area qc + area qd) /\
  this (foldTree demo_tree unit4 (fun _ => 0) area area area) = 16%Q /\ this (foldTree demo_tree unit4 (fun _ => 0) area (fun _ => 0) (fun _ => 0)) = 13%Q.
Proof. split; [|split; vm_compute; reflexivity]. intro c. unfold quarters, area, x0, x1, y0, y1. cbn [fst snd]. ring. Qed.

(* C387 *)
Theorem C387_horizontal_edges : forall (A : Type) (f : box2 -> A) t1 t2 q1 q2 p, tiled t1 q1 -> tiled t2 q2 -> proper q1 -> proper q2 -> x1 q1 = x0 q2 -> y0 q1 = y0 q2 -> y1 q1 = y1 q2 ->
  (In p (edgeProcH f t1 t2) <-> exists c1 c2, In c1 (leaves t1) /\ In c2 (leaves t2) /\ beside c1 c2 /\ p = (f c1, f c2)).
Proof. exact @procH_feature. Qed.
Print Assumptions C387_horizontal_edges.
Theorem C387_tiled : forall s lo hi i, tiled (build_tree2d lo hi i) (lo, hi) /\ forall t c, tiled t c -> tiled (collapse2d s t) c.
Proof. intros s lo hi i. split; [apply build_tiled|apply collapse_tiled]. Qed.
Print Assumptions C387_tiled.
Definition left_cell : box2 := ((q 0 1, q 0 1), (q 2 1, q 2 1)).
Definition right_cell : box2 := ((q 2 1, q 0 1), (q 4 1, q 2 1)).
Definition upper_cell : box2 := ((q 0 1, q 2 1), (q 2 1, q 4 1)).
Example C387_case : x1 left_cell = x0 right_cell /\ y1 left_cell = y1 right_cell /\
  edgeProcH numc (Leaf2 left_cell) (build_tree2d (fst right_cell) (snd right_cell) 1) = [(numc left_cell, ((2, 0), (3, 1))); (numc left_cell, ((2, 1), (3, 2)))]%Q.
Proof. split; [reflexivity|]. split; [reflexivity|]. vm_compute. reflexivity. Qed.

(* C388 *)
Theorem C388_vertical_edges_refuted : forall (A : Type) (f : box2 -> A) t1 t2 q1 q2 p, tiled t1 q1 -> tiled t2 q2 -> proper q1 -> proper q2 -> y1 q1 = y0 q2 -> is_root t1 \/ is_root t2 ->
  In p (edgeProcV f t1 t2) -> exists c1 c2, In c1 (leaves t1) /\ In c2 (leaves t2) /\ p = (f c1, f c2) /\ y1 c1 < y0 c2.
Proof. exact @procV_gap. Qed.
Print Assumptions C388_vertical_edges_refuted.
Theorem C388_vertical_edges_partial : forall (A : Type) (f : box2 -> A) q1 q2, proper q1 -> proper q2 -> y1 q1 = y0 q2 -> x0 q1 = x0 q2 -> x1 q1 = x1 q2 ->
  edgeProcV f (Leaf2 q1) (Leaf2 q2) = [(f q1, f q2)] /\ stacked q1 q2.
Proof. intros A f q1 q2 (P1 & _) (P2 & _) Y X0 X1. split; [apply leaves_V_ok|]. split; auto. rewrite X0, X1. auto. Qed.
Print Assumptions C388_vertical_edges_partial.
Example C388_case : y1 left_cell = y0 upper_cell /\
  edgeProcV numc (Leaf2 left_cell) (build_tree2d (fst upper_cell) (snd upper_cell) 1) = [(numc left_cell, ((0, 3), (1, 4))); (numc left_cell, ((1, 3), (2, 4)))]%Q.
Proof. split; [reflexivity|]. vm_compute. reflexivity. Qed.

(* C389 *)
Theorem C389_traversal_partial : forall t, map snd (trav t leaf_filter) = map Leaf2 (below t).
Proof. exact trav_leaves. Qed.
Print Assumptions C389_traversal_partial.
Theorem C389_filter_refuted : forall t fltr, (forall ch, In ch (children t) -> fltr t ch = false) -> map snd (trav t fltr) = map Leaf2 (flat_map below (children t)).
Proof. exact trav_other. Qed.
Print Assumptions C389_filter_refuted.
Theorem C389_border_cells_refuted : forall s t, is_root (collapse2d s t) -> map snd (trav (collapse2d s t) leaf_filter) = map Leaf2 (all_leaves t).
Proof. exact trav_collapsed. Qed.
Print Assumptions C389_border_cells_refuted.
Example C389_case : is_root demo_tree /\ length (trav demo_tree leaf_filter) = 16%nat /\ length (leaves demo_tree) = 3%nat /\
  length (trav demo_tree (fun _ _ => false)) = 16%nat.
Proof. split; [exact Logic.I|]. split; [|split]; vm_compute; reflexivity. Qed.

(* C390 *)
Theorem C390_nd_max_partial : forall x y la lb,
  nd_max (Num x) (Num y) = Ok (Num (larger x y), Num x, Num y) /\
  (exists b', nd_max (Arr la) (Num y) = Ok (Arr (map (fun x => larger x y) la), b', Num y)) /\
  (exists b', nd_max (Num x) (Arr lb) = Ok (Arr (map (fun y => larger y x) lb), Num x, b')) /\
  (length la = length lb -> exists r b', nd_max (Arr la) (Arr lb) = Ok (Arr r, b', Arr lb) /\ length r = length la /\
    forall i, (i < length la)%nat -> nth i r 0 = larger (nth i la 0) (nth i lb 0)).
Proof.
  intros x y la lb. split; [apply nd_max_nums|]. split; [eexists; apply nd_max_left|]. split; [eexists; apply nd_max_right|].
  intro L. destruct (nd_max_arrays la lb L) as (r & E & K). exists r, (Arr r). auto.
Qed.
Print Assumptions C390_nd_max_partial.
Theorem C390_nd_max_overwrites_refuted : forall la lb y, length la = length lb ->
  (exists r, nd_max (Arr la) (Arr lb) = Ok (Arr r, Arr r, Arr lb) /\ forall i, (i < length la)%nat -> nth i r 0 = larger (nth i la 0) (nth i lb 0)) /\
  (exists r, nd_max (Arr la) (Num y) = Ok (Arr r, Arr r, Num y)) /\ (exists r, nd_max (Num y) (Arr lb) = Ok (Arr r, Num y, Arr r)).
Proof.
  intros la lb y L. split; [destruct (nd_max_arrays la lb L) as (r & E & _ & K); exists r; auto|]. split; [eexists; apply nd_max_left|eexists; apply nd_max_right].
Qed.
Print Assumptions C390_nd_max_overwrites_refuted.
Definition num_value (v : value) : list Q := match v with Num x => [this x] | Arr l => map this l end.
Example C390_case : shown (fun '(r, a, b) => (num_value r, num_value a, num_value b)) (nd_max (Arr [q 1 1; q (-5) 1]) (Arr [q (-2) 1; q 3 1])) = Ok ([-2; -5], [-2; -5], [-2; 3])%Q.
Proof. vm_compute. reflexivity. Qed.
