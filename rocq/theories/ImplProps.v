(* C43, C44, C108-C113: implicit shapes and their cell trees. *)
From Coq Require Import List Arith ZArith Bool QArith Qcanon Lia.
From Verif Require Import Common QcLib SumLib AabbModel AabbSpec ImplModel ImplSpec ImplProofs ImplProofs2 ImplProofs3.
Import ListNotations.
Local Open Scope Qc_scope.

Definition qz (k : Z) : Qc := Q2Qc (inject_Z k).
(* squared-radius discs and balls with their bounding squares and cubes *)
Definition disc (x y r : Z) : shape2 :=
  {| impl2 p := (fst p - qz x) * (fst p - qz x) + (snd p - qz y) * (snd p - qz y) - qz r * qz r;
     bounds2 := ((qz (x - r), qz (y - r)), (qz (x + r), qz (y + r))) |}.
Definition ball (x y z r : Z) : shape3 :=
  {| impl3 p := (vx p - qz x) * (vx p - qz x) + (vy p - qz y) * (vy p - qz y) + (vz p - qz z) * (vz p - qz z) - qz r * qz r;
     bounds3 := ((qz (x - r), qz (y - r), qz (z - r)), (qz (x + r), qz (y + r), qz (z + r))) |}.
Definition show2 (b : box2) := ((this (fst (fst b)), this (snd (fst b))), (this (fst (snd b)), this (snd (snd b)))).
Definition show_cells (r : res itree2) := match r with Ok t => Some (map show2 (full (it_cells t)), map show2 (empty (it_cells t)), map show2 (border (it_cells t))) | Err _ => None end.

(* ---- C43 ---- *)
Theorem C43_operators : forall a b, (op_union a b < 0 <-> a < 0 \/ b < 0) /\ (op_intersection a b < 0 <-> a < 0 /\ b < 0) /\
  (op_subtraction b a < 0 <-> a < 0 /\ 0 < b) /\ (op_xor a b < 0 <-> (a < 0 /\ 0 < b) \/ (b < 0 /\ 0 < a)) /\ (op_inv a < 0 <-> 0 < a).
Proof. exact ops. Qed.
Print Assumptions C43_operators.
Example C43_case_operators : (this (op_union (qz (-2)) (qz 3)), this (op_intersection (qz (-2)) (qz 3)), this (op_subtraction (qz 3) (qz (-2))), this (op_xor (qz (-2)) (qz 3)), this (op_inv (qz (-2)))) = (-2 # 1, 3 # 1, -2 # 1, -2 # 1, 2 # 1)%Q.
Proof. vm_compute. reflexivity. Qed.

Theorem C43_solids_partial : forall e : expr shape3, no_minus e -> exists s, eval3 e = Ok s /\
  (forall p, (impl3 s p < 0 <-> within impl3 e p) /\ (0 < impl3 s p <-> without impl3 e p)) /\ (Forall bounded3 (prims e) -> bounded3 s).
Proof. exact solids3. Qed.
Print Assumptions C43_solids_partial.
Theorem C43_plane_partial : forall e : expr shape2, no_minus e -> no_and e -> exists s, eval2 e = Ok s /\
  (forall p, (impl2 s p < 0 <-> within impl2 e p) /\ (0 < impl2 s p <-> without impl2 e p)) /\ (Forall bounded2 (prims e) -> bounded2 s).
Proof. exact solids2. Qed.
Print Assumptions C43_plane_partial.
(* what - does: every expression means its reading with the operands of - swapped *)
Theorem C43_minus_swapped_partial : (forall e s, eval2 e = Ok s -> forall p, (impl2 s p < 0 <-> within impl2 (swapped e) p) /\ (0 < impl2 s p <-> without impl2 (swapped e) p)) /\
  (forall e s, eval3 e = Ok s -> forall p, (impl3 s p < 0 <-> within impl3 (swapped e) p) /\ (0 < impl3 s p <-> without impl3 (swapped e) p)).
Proof. exact (conj eval2_means eval3_means). Qed.
Print Assumptions C43_minus_swapped_partial.
Definition lens := And (Or (Prim (ball 0 0 0 3)) (Prim (ball 4 0 0 1))) (Add (Prim (ball 2 0 0 2)) (Prim (ball 0 0 0 1))).
Example C43_case_solids : no_minus lens /\ Forall bounded3 (prims lens) /\
  match eval3 lens with Ok s => (qlt (impl3 s (qz 2, 0, 0)) 0, qlt 0 (impl3 s (qz 5, 0, 0)), map this [vx (fst (bounds3 s)); vx (snd (bounds3 s))]) = (true, true, [-1 # 1; 4 # 1]%Q) | Err _ => False end.
Proof.
  split; [cbn; auto|]. split; [|vm_compute; reflexivity].
  assert (B : forall x y z r, (0 <= r)%Z -> bounded3 (ball x y z r)).
  { intros x y z r R p H. cbn [ball impl3 bounds3] in *. assert (P : forall a k, (a - qz k) * (a - qz k) <= qz r * qz r -> qz (k - r) <= a /\ a <= qz (k + r)).
    { intros a k L. assert (E1 : qz (k - r) = qz k - qz r) by (change qz with zq; unfold Z.sub, Qcminus; rewrite zq_add, zq_opp; reflexivity). assert (E2 : qz (k + r) = qz k + qz r) by (change qz with zq; apply zq_add).
      assert (0 <= qz r) by (rewrite <- zq_0; apply zq_le; exact R). rewrite E1, E2. set (q := qz r) in *. set (c := qz k) in *. clearbody q c.
      split; [destruct (Qclt_le_dec a (c - q)) as [D|D]; [|exact D]|destruct (Qclt_le_dec (c + q) a) as [D|D]; [|exact D]]; exfalso; qnra. }
    assert (S : forall a : Qc, 0 <= a * a) by (intros a; destruct (Qclt_le_dec a 0) as [D|D]; [replace (a * a) with ((- a) * (- a)) by ring; apply qc_mul_nonneg; qlra|apply qc_mul_nonneg; assumption]).
    pose proof (S (vx p - qz x)). pose proof (S (vy p - qz y)). pose proof (S (vz p - qz z)).
    set (a := (vx p - qz x) * (vx p - qz x)) in *. set (b := (vy p - qz y) * (vy p - qz y)) in *. set (c := (vz p - qz z) * (vz p - qz z)) in *. set (q := qz r * qz r) in *.
    assert (L1 : a <= q) by qlra. assert (L2 : b <= q) by qlra. assert (L3 : c <= q) by qlra. unfold a, b, c, q in L1, L2, L3.
    split; [|split]; cbn [fst snd vx vy vz]; apply P; assumption. }
  cbn [lens prims app]. repeat (apply Forall_cons; [apply B; lia|]). constructor.
Qed.
Definition blob := Or (Prim (disc 0 0 2)) (Add (Prim (disc 5 0 1)) (Prim (disc 0 4 1))).
Example C43_case_plane : no_minus blob /\ no_and blob /\ match eval2 blob with Ok s => show2 (bounds2 s) = ((-2 # 1, -2 # 1), (6 # 1, 5 # 1))%Q | Err _ => False end.
Proof. split; [cbn; auto|]. split; [cbn; auto|]. vm_compute. reflexivity. Qed.

Theorem C43_difference_refuted : (forall a b, exists s, eval3 (Minus (Prim a) (Prim b)) = Ok s /\ bounds3 s = bounds3 a /\
    (forall p, impl3 s p < 0 -> ~ within impl3 (Minus (Prim a) (Prim b)) p) /\ (forall p, within impl3 (Minus (Prim a) (Prim b)) p -> 0 < impl3 s p)) /\
  (forall a b, exists s, eval2 (Minus (Prim a) (Prim b)) = Ok s /\ bounds2 s = bounds2 a /\
    (forall p, impl2 s p < 0 -> ~ within impl2 (Minus (Prim a) (Prim b)) p) /\ (forall p, within impl2 (Minus (Prim a) (Prim b)) p -> 0 < impl2 s p)).
Proof. exact (conj minus_wrong minus_wrong2). Qed.
Print Assumptions C43_difference_refuted.
Theorem C43_difference_bounds_refuted : forall a b p, impl2 b p < 0 -> 0 < impl2 a p -> ~ in2 p (bounds2 a) -> exists s, eval2 (Minus (Prim a) (Prim b)) = Ok s /\ impl2 s p < 0 /\ ~ in2 p (bounds2 s).
Proof. exact minus_bounds. Qed.
Print Assumptions C43_difference_bounds_refuted.
Theorem C43_intersection_2d_refuted : forall e, ~ no_and e -> eval2 e = Err TypeError.
Proof. exact eval2_and. Qed.
Print Assumptions C43_intersection_2d_refuted.
Example C43_case_difference : match eval2 (Minus (Prim (disc 0 0 2)) (Prim (disc 2 0 2))) with
    | Ok s => (qlt (impl2 s (qz (-1), 0)) 0, qlt (impl2 s (qz 3, 0)) 0, show2 (bounds2 s)) = (false, true, ((-2 # 1, -2 # 1), (2 # 1, 2 # 1)))%Q | Err _ => False end /\
  impl2 (disc 2 0 2) (qz 3, 0) < 0 /\ 0 < impl2 (disc 0 0 2) (qz 3, 0) /\ ~ in2 (qz 3, 0) (bounds2 (disc 0 0 2)) /\
  eval2 (Or (Prim (disc 0 0 2)) (And (Prim (disc 0 0 2)) (Prim (disc 1 0 2)))) = Err TypeError.
Proof.
  split; [vm_compute; reflexivity|]. split; [apply qlt_true; vm_compute; reflexivity|]. split; [apply qlt_true; vm_compute; reflexivity|]. split; [|reflexivity].
  intros [[_ H] _]. cbn [fst snd disc bounds2] in H. apply qle_true in H. vm_compute in H. discriminate.
Qed.

(* ---- C44 ---- *)
Theorem C44_quadtree : forall s d0 d, let b := bounds2 s in exists t, build2 (new_tree2 (Shape2 s) d0 None) (Some d) = Ok t /\
  (forall sg x, In x (reported sg (it_cells t)) <-> exists j K L, (j <= d /\ K < 2 ^ j /\ L < 2 ^ j)%nat /\ x = grid2 b j K L /\ all2 (impl2 s) b d sg j K L /\ ((0 < j)%nat -> ~ all2 (impl2 s) b d sg (j - 1) (K / 2) (L / 2))) /\
  (forall x, In x (border (it_cells t)) <-> exists K L, (K < 2 ^ d /\ L < 2 ^ d)%nat /\ x = grid2 b d K L /\ ~ all2 (impl2 s) b d Neg d K L /\ ~ all2 (impl2 s) b d Nonneg d K L) /\
  (proper2 b -> tiles2 b (every (it_cells t))).
Proof. exact build2_own. Qed.
Print Assumptions C44_quadtree.
Definition slope : shape2 := {| impl2 p := fst p + snd p - qz 3; bounds2 := ((0, 0), (qz 4, qz 4)) |}.
Example C44_case_quadtree : proper2 (bounds2 slope) /\ show_cells (build2 (new_tree2 (Shape2 slope) 3 None) (Some 2%nat)) =
  Some ([((0, 0), (1, 1))], [((3, 0), (4, 1)); ((2, 1), (3, 2)); ((3, 1), (4, 2)); ((1, 2), (2, 3)); ((0, 3), (1, 4)); ((1, 3), (2, 4)); ((2, 2), (4, 4))],
        [((1, 0), (2, 1)); ((0, 1), (1, 2)); ((1, 1), (2, 2)); ((2, 0), (3, 1)); ((0, 2), (1, 3))])%Q.
Proof. split; [split; apply qle_true; vm_compute; reflexivity|]. vm_compute. reflexivity. Qed.
Theorem C44_octree : forall f b d,
  (forall sg x, In x (reported sg (build3 f b d)) <-> exists j K L M, (j <= d /\ K < 2 ^ j /\ L < 2 ^ j /\ M < 2 ^ j)%nat /\ x = grid3 b j K L M /\ all3 f b d sg j K L M /\ ((0 < j)%nat -> ~ all3 f b d sg (j - 1) (K / 2) (L / 2) (M / 2))) /\
  (forall x, In x (border (build3 f b d)) <-> exists K L M, (K < 2 ^ d /\ L < 2 ^ d /\ M < 2 ^ d)%nat /\ x = grid3 b d K L M /\ ~ all3 f b d Neg d K L M /\ ~ all3 f b d Nonneg d K L M) /\
  (proper3 b -> tiles3 b (every (build3 f b d))).
Proof. exact build3_all. Qed.
Print Assumptions C44_octree.
Definition show3 (b : box3) := map this [vx (fst b); vy (fst b); vz (fst b); vx (snd b); vy (snd b); vz (snd b)].
Example C44_case_octree : let c := build3 (fun p => vx p + vy p + vz p - qz 3) ((0, 0, 0), (qz 2, qz 2, qz 2)) 1 in (map show3 (full c), map show3 (empty c), map show3 (border c)) =
  ([], [[1; 1; 1; 2; 2; 2]], [[0; 0; 0; 1; 1; 1]; [1; 0; 0; 2; 1; 1]; [0; 1; 0; 1; 2; 1]; [1; 1; 0; 2; 2; 1]; [0; 0; 1; 1; 1; 2]; [1; 0; 1; 2; 1; 2]; [0; 1; 1; 1; 2; 2]])%Q.
Proof. vm_compute. reflexivity. Qed.

(* ---- C108: explicit bounds ---- *)
Theorem C108_elsewhere_refuted : forall s bounds d0 d, proper2 (bounds2 s) -> exists t, build2 (new_tree2 (Shape2 s) d0 (Some bounds)) (Some d) = Ok t /\
  forall p, ~ in2 p (bounds2 s) -> Forall (fun c => ~ in2 p c) (every (it_cells t)).
Proof. exact build2_elsewhere. Qed.
Print Assumptions C108_elsewhere_refuted.
Example C108_case : show_cells (build2 (new_tree2 (Shape2 slope) 3 (Some ((qz 8, qz 8), (qz 9, qz 9)))) (Some 2%nat)) = Some ([], [((0, 0), (4 # 1, 4 # 1))], [])%Q /\ qlt (impl2 slope (0, 0)) 0 = true.
Proof. split; vm_compute; reflexivity. Qed.

(* ---- C109: the tree attribute of a 2D shape ---- *)
Theorem C109_shape_tree_refuted : forall s depth, every (it_cells (shape2_tree s depth)) = [] /\ forall d, build2 (shape2_tree s depth) d = Err AttributeError.
Proof. exact shape_tree_unbuilt. Qed.
Print Assumptions C109_shape_tree_refuted.
Example C109_case : build2 (shape2_tree slope 3) None = Err AttributeError /\ bounds2 slope = it_bounds (shape2_tree slope 3).
Proof. split; reflexivity. Qed.

(* ---- C110: rebuilding ---- *)
Theorem C110_rebuild : forall t d t', build2 t d = Ok t' -> build2 t' None = Ok t' /\ forall d2 t1 t2, build2 t' d2 = Ok t1 -> build2 t (Some (it_depth t1)) = Ok t2 -> t1 = t2.
Proof. exact rebuild2. Qed.
Print Assumptions C110_rebuild.
Example C110_case : exists t, build2 (new_tree2 (Shape2 slope) 3 None) (Some 2%nat) = Ok t /\ length (every (it_cells t)) = 13%nat /\ show_cells (build2 t (Some 0%nat)) = Some ([], [], [((0, 0), (4, 4))])%Q.
Proof. eexists. split; [reflexivity|]. split; vm_compute; reflexivity. Qed.

(* ---- C111: membership test ---- *)
Theorem C111_point_inside : forall s p, point_inside s p = true <-> impl2 s p <= atol.
Proof. exact inside_iff. Qed.
Print Assumptions C111_point_inside.
Example C111_case : (point_inside slope (0, 0), point_inside slope (qz 1, qz 2), point_inside slope (qz 2, qz 2)) = (true, true, false).
Proof. vm_compute. reflexivity. Qed.

(* ---- C112: gradient ---- *)
Theorem C112_gradient : forall a b c d e g s x y, (forall p, impl2 s p = quadratic a b c d e g p) ->
  gradient2d s (x, y) = (two * a * x + b * y + d, b * x + two * c * y + e).
Proof. exact gradient_quadratic. Qed.
Print Assumptions C112_gradient.
Theorem C112_tangent : forall s v, fst (tangent2d (gradient2d s v)) * fst (gradient2d s v) + snd (tangent2d (gradient2d s v)) * snd (gradient2d s v) = 0.
Proof. exact tangent_perp. Qed.
Print Assumptions C112_tangent.
Definition parabola : shape2 := {| impl2 := quadratic 1 (qz 2) 0 (qz (-1)) (qz 5) (qz 7); bounds2 := ((0, 0), (1, 1)) |}.
Example C112_case : this (fst (gradient2d parabola (qz 3, qz 4))) = (13 # 1)%Q /\ this (snd (gradient2d parabola (qz 3, qz 4))) = (11 # 1)%Q.
Proof. split; vm_compute; reflexivity. Qed.

(* ---- C113: projecting on a straight curve ---- *)
Theorem C113_on_curve_refuted : forall d e g s v, (forall p, impl2 s p = quadratic 0 0 0 d e g p) -> impl2 s v <> 0 -> (impl2 s (point_on_curve s v) = 0 <-> d * d + e * e = 1).
Proof. exact on_curve_iff. Qed.
Print Assumptions C113_on_curve_refuted.
Definition halfplane : shape2 := {| impl2 := quadratic 0 0 0 (qz 3) (qz 4) (qz (-5)); bounds2 := ((0, 0), (1, 1)) |}.
Definition unitline : shape2 := {| impl2 := quadratic 0 0 0 (Q2Qc (3 # 5)) (Q2Qc (4 # 5)) (qz (-5)); bounds2 := ((0, 0), (1, 1)) |}.
Example C113_case : this (impl2 halfplane (qz 2, qz 1)) = (5 # 1)%Q /\ this (impl2 halfplane (point_on_curve halfplane (qz 2, qz 1))) = (-120 # 1)%Q /\
  this (impl2 unitline (qz 2, qz 1)) = (-3 # 1)%Q /\ this (impl2 unitline (point_on_curve unitline (qz 2, qz 1))) = 0%Q.
Proof. repeat split; vm_compute; reflexivity. Qed.
