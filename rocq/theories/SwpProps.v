(* The sweep line: theorems and concrete cases. *)
From Coq Require Import List ZArith Lia Bool QArith Qcanon.
From Verif Require Import Common QcLib SurfModel SwpModel SwpSpec SwpProofs1 SwpProofs2.
Import ListNotations.
Local Open Scope Z_scope.
Local Open Scope Qc_scope.

Definition q (a : Z) (b : positive) : Qc := Q2Qc (a # b).
Definition pt_ (i x y : Z) : point := mkp i (q x 1) (q y 1).
Definition p2 (x y : Z) : xy := (q x 1, q y 1).
Ltac canon := apply Qc_is_canon; vm_compute; reflexivity.
Ltac ne := let E := fresh in intro E; vm_compute in E; discriminate E.
Definition shown (o : option point) : option (Z * Q * Q) := match o with Some p => Some (p_id p, this (p_x p), this (p_y p)) | None => None end.
Definition nums (r : res (list xy)) : option (list (Z * Z)) :=
  match r with Ok l => Some (map (fun p => (Qnum (this (fst p)), Qnum (this (snd p)))) l) | Err _ => None end.

(* C355: the order of points *)
Theorem C355_point_order_refuted : forall x y i j k, i <> j -> j <> k -> i <> k ->
  (let a := mkp i x y in let b := mkp j (x + eps2) (y - 1) in let c := mkp k (x + eps2 + eps2) (y - (1 + 1)) in
   plt b a = true /\ plt c b = true /\ plt a c = true) /\
  (let a := mkp i x y in let b := mkp j (x + eps2) y in let c := mkp k (x + eps2 + eps2) y in
   peq a b = true /\ peq b c = true /\ peq a c = false).
Proof.
  intros x y i j k A B C. split; [|now apply peq_chain]. cbv zeta. destruct (pcompare_cycle x y i j k A B C) as [D [E F]].
  unfold plt. rewrite D, E, F. repeat split.
Qed.
Print Assumptions C355_point_order_refuted.
Theorem C355_point_order_partial : forall a b, pcompare a b = (- pcompare b a)%Z /\ pcompare a a = 0%Z /\
  (clear_points a b -> (pcompare a b = (-1)%Z <-> before a b) /\ (pcompare a b = 1%Z <-> before b a) /\ (pcompare a b = 0%Z <-> p_x a = p_x b /\ p_y a = p_y b)).
Proof. exact (fun a b => conj (pcompare_anti a b) (conj (pcompare_self a) (pcompare_clear a b))). Qed.
Print Assumptions C355_point_order_partial.
Example C355_case : clear_points (pt_ 1 0 3) (pt_ 2 0 5) /\ pcompare (pt_ 1 0 3) (pt_ 2 0 5) = (-1)%Z /\ pcompare (pt_ 1 1 3) (pt_ 2 0 5) = 1%Z.
Proof.
  split; [|split; vm_compute; reflexivity]. split; [intro H; discriminate H|]. split; [left; reflexivity|right; right; reflexivity].
Qed.

(* C356: which side of a segment *)
Theorem C356_orientation : forall i a b p, sign_of (orientation (new_seg i a b) p) (turn a b p) /\
  (orientation (new_seg i a b) p = 0%Z <-> on_line a b p) /\
  forall j, orientation (new_seg j b a) p = (- orientation (new_seg i a b) p)%Z.
Proof.
  intros i a b p. pose proof (orientation_turn i a b p) as H. split; [exact H|]. split; [|intro j; apply orientation_reversed].
  unfold on_line. destruct H as [[-> H]|[[-> H]|[-> H]]].
  - split; [discriminate|]. intro E. rewrite E in H. now apply Qclt_not_eq in H.
  - split; auto.
  - split; [discriminate|]. intro E. rewrite E in H. now apply Qclt_not_eq in H.
Qed.
Print Assumptions C356_orientation.
Example C356_case : orientation (new_seg 1 (pt_ 1 0 0) (pt_ 2 4 0)) (pt_ 3 1 2) = 1%Z /\ orientation (new_seg 1 (pt_ 1 0 0) (pt_ 2 4 0)) (pt_ 3 9 0) = 0%Z /\
  orientation (new_seg 1 (pt_ 1 0 0) (pt_ 2 4 0)) (pt_ 3 1 (-2)) = (-1)%Z.
Proof. vm_compute. auto. Qed.

(* C357: the line of a segment *)
Theorem C357_line : forall i a b,
  (p_x a = p_x b -> s_slope (new_seg i a b) = None /\ s_shift (new_seg i a b) = None) /\
  (p_x a <> p_x b -> exists m c, s_slope (new_seg i a b) = Some m /\ s_shift (new_seg i a b) = Some c /\
     forall p, on_line a b p <-> p_y p = m * p_x p + c).
Proof. exact new_seg_line. Qed.
Print Assumptions C357_line.
Theorem C357_trivial : forall i a b, is_trivial (new_seg i a b) = true <-> ~ proper a b.
Proof. exact trivial_iff. Qed.
Print Assumptions C357_trivial.
Example C357_case : match s_slope (new_seg 1 (pt_ 1 1 1) (pt_ 2 3 5)), s_shift (new_seg 1 (pt_ 1 1 1) (pt_ 2 3 5)) with
  | Some m, Some c => (this m, this c) = (2 # 1, -1 # 1)%Q | _, _ => False end /\ s_slope (new_seg 1 (pt_ 1 1 1) (pt_ 2 1 5)) = None.
Proof. vm_compute. auto. Qed.

(* C358: the common point of two lines *)
Theorem C358_lines_refuted : forall k i j a b c d, proper a b -> proper c d -> ~ parallel a b c d -> peq a c = true -> ~ on_line c d a ->
  exists p, lines_meet k (new_seg i a b) (new_seg j c d) = Some p /\ ~ on_line c d p.
Proof. intros k i j a b c d A B C D E. exists a. split; [|exact E]. apply lines_end; auto. Qed.
Print Assumptions C358_lines_refuted.
Theorem C358_lines_partial : forall k i j a b c d, proper a b -> proper c d ->
  (lines_meet k (new_seg i a b) (new_seg j c d) = None <-> parallel a b c d) /\
  (~ parallel a b c d -> no_common_end a b c d -> exists p, lines_meet k (new_seg i a b) (new_seg j c d) = Some p /\ on_line a b p /\ on_line c d p /\
     forall r, on_line a b r -> on_line c d r -> p_x r = p_x p /\ p_y r = p_y p).
Proof.
  intros k i j a b c d A B. split.
  - split; [|apply lines_none; auto]. intro E. destruct (Qc_eq_dec ((p_x b - p_x a) * (p_y d - p_y c)) ((p_y b - p_y a) * (p_x d - p_x c))) as [P|P]; [exact P|].
    destruct (lines_some k i j a b c d A B P) as [p H]. congruence.
  - intros N E. destruct (lines_point k i j a b c d A B N E) as [p [H1 [_ [H2 H3]]]]. exists p. split; [exact H1|]. split; [exact H2|]. split; [exact H3|].
    intros r R1 R2. now apply (common_unique a b c d).
Qed.
Print Assumptions C358_lines_partial.
Example C358_case : shown (lines_meet 9 (new_seg 1 (pt_ 1 0 0) (pt_ 2 4 4)) (new_seg 2 (pt_ 3 0 2) (pt_ 4 4 0))) = Some (9%Z, 4 # 3, 4 # 3)%Q /\
  shown (lines_meet 9 (new_seg 1 (pt_ 1 1 0) (pt_ 2 1 4)) (new_seg 2 (pt_ 3 0 2) (pt_ 4 4 4))) = Some (9%Z, 1 # 1, 5 # 2)%Q /\
  lines_meet 9 (new_seg 1 (pt_ 1 1 0) (pt_ 2 1 4)) (new_seg 2 (pt_ 3 5 2) (pt_ 4 5 4)) = None /\
  no_common_end (pt_ 1 0 0) (pt_ 2 4 4) (pt_ 3 0 2) (pt_ 4 4 0) /\
  (peq (pt_ 1 0 0) (mkp 3 eps2 0) = true /\ ~ on_line (mkp 3 eps2 0) (pt_ 4 4 9) (pt_ 1 0 0) /\ ~ parallel (pt_ 1 0 0) (pt_ 2 4 4) (mkp 3 eps2 0) (pt_ 4 4 9)).
Proof.
  split; [vm_compute; reflexivity|]. split; [vm_compute; reflexivity|]. split; [vm_compute; reflexivity|]. split; [repeat split; vm_compute; reflexivity|].
  split; [vm_compute; reflexivity|]. split; ne.
Qed.

(* C359: the order of segments at the sweep point *)
Theorem C359_segment_order_refuted : forall w i j a2 b1 b2, (i < j)%Z -> p_id w <> p_id b1 -> p_x b2 = p_x w -> p_y b2 = p_y w -> proper b1 b2 -> 0 < turn b1 b2 a2 ->
  seg_compare w (new_seg i w a2) (new_seg j b1 b2) = Ok 1%Z /\ exists x, seg_compare w (new_seg j b1 b2) (new_seg i w a2) = Ok x /\ (0 < x)%Z.
Proof. exact seg_compare_both. Qed.
Print Assumptions C359_segment_order_refuted.
Theorem C359_segment_order_partial : forall w i j a2 b1 b2, i <> j -> proper w a2 -> proper b1 b2 -> b1 = w \/ p_id w <> p_id b1 /\ (on_line b1 b2 w -> passes b1 b2 w) ->
  exists x, seg_compare w (new_seg i w a2) (new_seg j b1 b2) = Ok x /\ seg_compare w (new_seg j b1 b2) (new_seg i w a2) = Ok (- x)%Z.
Proof.
  intros w i j a2 b1 b2 A B C [->|[D E]]; [now apply seg_compare_anti_start|now apply seg_compare_anti].
Qed.
Print Assumptions C359_segment_order_partial.
Theorem C359_bundle_partial : forall w i j k a b c x y z, before w a -> before w b -> before w c -> i <> j -> j <> k -> i <> k ->
  seg_compare w (new_seg i w a) (new_seg j w b) = Ok x -> seg_compare w (new_seg j w b) (new_seg k w c) = Ok y ->
  seg_compare w (new_seg i w a) (new_seg k w c) = Ok z -> (0 < x)%Z -> (0 < y)%Z -> (0 < z)%Z.
Proof. exact bundle_order. Qed.
Print Assumptions C359_bundle_partial.
Theorem C359_raises : forall w a b, p_id w <> p_id (s_p1 a) -> p_id w <> p_id (s_p1 b) -> s_id a <> s_id b -> seg_compare w a b = Err ValueError.
Proof. exact seg_compare_raises. Qed.
Print Assumptions C359_raises.
Example C359_case : let w := pt_ 1 0 0 in
  seg_compare w (new_seg 1 w (pt_ 2 3 1)) (new_seg 2 (pt_ 3 (-4) 0) (pt_ 1 0 0)) = Ok 1%Z /\ seg_compare w (new_seg 2 (pt_ 3 (-4) 0) (pt_ 1 0 0)) (new_seg 1 w (pt_ 2 3 1)) = Ok 1%Z /\
  0 < turn (pt_ 3 (-4) 0) (pt_ 1 0 0) (pt_ 2 3 1) /\ passes (pt_ 3 (-4) 0) (pt_ 4 4 0) w /\
  seg_compare w (new_seg 1 w (pt_ 2 3 1)) (new_seg 2 (pt_ 3 (-4) 0) (pt_ 4 4 0)) = Ok 1%Z /\ seg_compare w (new_seg 5 w (pt_ 2 3 1)) (new_seg 2 w (pt_ 6 6 2)) = Ok 3%Z.
Proof.
  cbv zeta. split; [vm_compute; reflexivity|]. split; [vm_compute; reflexivity|]. split; [vm_compute; reflexivity|].
  split; [exists (q 1 2); split; [reflexivity|split; canon]|]. split; vm_compute; reflexivity.
Qed.

(* C360: the test of neighbours *)
Theorem C360_crossing : forall i j a b c d, ~ parallel a b c d -> 0 <= turn a b c -> turn c d a <= 0 ->
  (crosses (new_seg i a b) (new_seg j c d) = true -> exists p, between a b p /\ between c d p) /\
  (proper a c -> (exists p, between a b p /\ between c d p) -> crosses (new_seg i a b) (new_seg j c d) = true).
Proof. exact crosses_between. Qed.
Print Assumptions C360_crossing.
Theorem C360_crossing_point : forall k i j a b c d, proper a b -> proper c d -> ~ parallel a b c d -> no_common_end a b c d -> 0 <= turn a b c -> turn c d a <= 0 ->
  crosses (new_seg i a b) (new_seg j c d) = true ->
  exists p, lines_meet k (new_seg i a b) (new_seg j c d) = Some p /\ between a b p /\ between c d p.
Proof. exact crosses_meet. Qed.
Print Assumptions C360_crossing_point.
Example C360_case : crosses (new_seg 1 (pt_ 1 0 0) (pt_ 2 4 4)) (new_seg 2 (pt_ 3 0 2) (pt_ 4 4 0)) = true /\
  crosses (new_seg 1 (pt_ 1 0 0) (pt_ 2 2 2)) (new_seg 2 (pt_ 3 0 2) (pt_ 4 4 0)) = true /\ crosses (new_seg 1 (pt_ 1 0 0) (pt_ 2 1 0)) (new_seg 2 (pt_ 3 0 2) (pt_ 4 4 0)) = false /\
  0 <= turn (pt_ 1 0 0) (pt_ 2 4 4) (pt_ 3 0 2) /\ turn (pt_ 3 0 2) (pt_ 4 4 0) (pt_ 1 0 0) <= 0 /\ ~ parallel (pt_ 1 0 0) (pt_ 2 4 4) (pt_ 3 0 2) (pt_ 4 4 0).
Proof.
  split; [vm_compute; reflexivity|]. split; [vm_compute; reflexivity|]. split; [vm_compute; reflexivity|]. split; [vm_compute; discriminate|]. split; [vm_compute; discriminate|]. ne.
Qed.

(* C361: the bound of the coordinates *)
Theorem C361_bound : forall f l b, bound_all f 1 l = Ok b -> exists m, b = pow2 m /\ (forall s x, In s l -> In x (coords s) -> inside b x) /\
  (m <> O -> exists s x, In s l /\ In x (coords s) /\ ~ inside (pow2 (pred m)) x).
Proof. intros f l b H. destruct (bound_spec f l O b H) as [m [_ K]]. now exists m. Qed.
Print Assumptions C361_bound.
Theorem C361_bound_found : forall l, exists f b, forall g, (f <= g)%nat -> bound_all g 1 l = Ok b.
Proof. exact bound_stops. Qed.
Print Assumptions C361_bound_found.
Example C361_case : match bound_all 9 1 [(p2 1 (-5), p2 0 0); (p2 3 3, p2 (-8) 2)] with Ok b => this b | Err _ => 0%Q end = 16%Q.
Proof. vm_compute. reflexivity. Qed.

(* C362: the points of a segment in order *)
Theorem C362_sorted_points : forall v1 v2 points, v1 <> v2 -> exists mid, inner_points v1 v2 points = Ok mid /\ NoDup mid /\ ordered (along v1 v2) mid /\
  forall x, In x mid <-> In x points /\ x <> v1 /\ x <> v2.
Proof. exact inner_spec. Qed.
Print Assumptions C362_sorted_points.
Example C362_case : nums (inner_points (p2 9 0) (p2 0 9) [p2 3 6; p2 6 3; p2 3 6; p2 0 9; p2 8 1]) = Some [(8, 1); (6, 3); (3, 6)]%Z /\ p2 9 0 <> p2 0 9.
Proof. split; [vm_compute; reflexivity|]. intro E. apply (f_equal fst) in E. discriminate E. Qed.

(* C363: the sides of a polygon *)
Theorem C363_sides : forall (A : Type) (poly : list A), exists l, polygon_segments poly = Ok l /\ map fst l = poly /\
  map snd l = match poly with [] => [] | a :: r => r ++ [a] end.
Proof. exact (fun A poly => polygon_spec poly). Qed.
Print Assumptions C363_sides.
Example C363_case : polygon_segments [1; 2; 3]%Z = Ok [(1, 2); (2, 3); (3, 1)]%Z /\ polygon_segments [7]%Z = Ok [(7, 7)]%Z.
Proof. split; reflexivity. Qed.
