(* C29-C32, C98-C107: bounding boxes and the bounding volume hierarchy. *)
From Coq Require Import List Arith ZArith Bool QArith Qcanon Lia Permutation Sorted.
From Verif Require Import Common QcLib AabbModel AabbSpec BvhModel BvhSpec BvhProofs BvhProofs2 BvhProofs3 BvhProofs4.
Import ListNotations.
Local Open Scope Qc_scope.

Definition qz (k : Z) : Qc := Q2Qc (inject_Z k).
Definition vz3 (a b c : Z) : v3 := (qz a, qz b, qz c).
Definition bx (a b c d e f : Z) : bbox := mkbox (vz3 a b c) (vz3 d e f).
Definition ob (k a b c d e f : Z) : obj Z := {| obox := bx a b c d e f; value := k |}.
(* five boxes, two of them with the same centre *)
Definition five : list (obj Z) := [ob 1 4 0 0 6 2 2; ob 2 0 0 0 1 1 1; ob 3 (-1) (-1) (-1) 2 2 2; ob 4 8 5 0 9 7 3; ob 5 3 0 0 5 1 1]%Z.
Definition tree_of (l : list (obj Z)) (n : Z) : bvh Z := match build_bvh 10 l n with Ok (t, _) => t | Err _ => BLeaf (bx 0 0 0 0 0 0) (Many (bx 0 0 0 0 0 0) []) end.
Definition ids (ps : list (payload Z)) : list (list Z) := map (fun p => map value (held p)) ps.
Lemma made_bx a b c d e f : (a <= d)%Z -> (b <= e)%Z -> (c <= f)%Z -> made (bx a b c d e f).
Proof. intros. apply made_mk. repeat split; cbn; unfold qz; apply qc_le_Q; rewrite !this_Q2Qc; rewrite <- Zle_Qle; assumption. Qed.
Lemma five_made : Forall (fun o => made (obox o)) five. Proof. repeat (apply Forall_cons; [apply made_bx; lia|]). apply Forall_nil. Qed.
Lemma tree_built l n : (1 <= n)%Z -> l <> [] -> Forall (fun o => made (obox o)) l -> (length l < 10)%nat -> built (tree_of l n) l n.
Proof. intros Hn N M L. split; [exact Hn|]. split; [exact N|]. split; [exact M|]. destruct (build_ok n Hn 10 l N M L) as [t [s [E _]]]. exists 10%nat, s. unfold tree_of. rewrite E. reflexivity. Qed.
Lemma five_built n : (n = 1 \/ n = 2)%Z -> built (tree_of five n) five n.
Proof. intros H. apply tree_built; [lia|discriminate|exact five_made|cbn; lia]. Qed.

(* ---- C29 ---- *)
Theorem C29_build : forall (A : Type) (l : list (obj A)) n, (1 <= n)%Z -> l <> [] -> Forall (fun o => made (obox o)) l -> exists k, forall fuel, (k < fuel)%nat ->
  exists t after, build_bvh fuel l n = Ok (t, after) /\ Permutation (below t) l /\ bounded t /\
    Forall (fun p => (1 <= Z.of_nat (length (held p)) <= n)%Z) (leaves t).
Proof. exact @build_all. Qed.
Print Assumptions C29_build.
Theorem C29_invalid : forall (A : Type) (l : list (obj A)) n, l = [] \/ (n <= 0)%Z -> exists k, forall fuel, (k < fuel)%nat -> build_bvh fuel l n = Err ValueError.
Proof. exact @build_invalid. Qed.
Print Assumptions C29_invalid.
Example C29_case : Forall (fun o => made (obox o)) five /\ ids (leaves (tree_of five 1)) = [[2]; [3]; [5]; [1]; [4]]%Z /\ ids (leaves (tree_of five 2)) = [[2; 3]; [5]; [1; 4]]%Z /\
  build_bvh 10 five 0 = Err ValueError.
Proof. split; [exact five_made|]. repeat split; vm_compute; reflexivity. Qed.

(* ---- C30 ---- *)
Theorem C30_box_query : forall (A : Type) (l : list (obj A)) t q, built t l 1 -> made q ->
  exists found missed, traverse_bvh t q [] = map One found /\ Permutation (found ++ missed) l /\ Forall (fun o => meets (obox o) q) found /\ Forall (fun o => ~ meets (obox o) q) missed.
Proof. exact @box_query. Qed.
Print Assumptions C30_box_query.
(* any leaf size: a leaf's box, and hence the leaf, is met whenever one of its objects is *)
Theorem C30_leaves : forall (A : Type) (l : list (obj A)) t n q, built t l n -> made q ->
  exists found missed, traverse_bvh t q [] = found /\ Permutation (flat_map held found ++ flat_map held missed) l /\ Forall (fun p => (1 <= Z.of_nat (length (held p)) <= n)%Z /\ meets (payload_box p) q) found /\ Forall (fun o => ~ meets (obox o) q) (flat_map held missed).
Proof. exact @box_query_leaves. Qed.
Print Assumptions C30_leaves.
Example C30_case : built (tree_of five 1) five 1 /\ made (bx 2 0 0 4 1 1) /\ ids (traverse_bvh (tree_of five 1) (bx 2 0 0 4 1 1) []) = [[3]; [5]; [1]]%Z /\
  ids (traverse_bvh (tree_of five 2) (bx 2 0 0 3 1 1) []) = [[2; 3]; [5]]%Z.
Proof. split; [apply five_built; auto|]. split; [apply made_bx; lia|]. split; vm_compute; reflexivity. Qed.

(* ---- C31 ---- *)
Theorem C31_pairs : forall (A : Type) (la lb : list (obj A)) ta tb, built ta la 1 -> built tb lb 1 -> exists n, forall fuel, (n < fuel)%nat ->
  exists found missed, intersect_bvh_objects fuel ta tb = Ok (map (fun p => (BLeaf (obox (fst p)) (One (fst p)), BLeaf (obox (snd p)) (One (snd p)))) found) /\ Permutation (found ++ missed) (list_prod la lb) /\
    Forall (fun p => meets (obox (fst p)) (obox (snd p))) found /\ Forall (fun p => ~ meets (obox (fst p)) (obox (snd p))) missed.
Proof. exact @pair_query. Qed.
Print Assumptions C31_pairs.
Theorem C31_leaf_pairs : forall (A : Type) (la lb : list (obj A)) (ta tb : bvh A) m k, built ta la m -> built tb lb k -> exists n, forall fuel, (n < fuel)%nat ->
  exists (found missed : list (bvh A * bvh A)), intersect_bvh_objects fuel ta tb = Ok found /\ Permutation (found ++ missed) (list_prod (leaf_nodes ta) (leaf_nodes tb)) /\
    Forall (fun p => meets (node_box (fst p)) (node_box (snd p))) found /\ Forall (fun p => forall a b, In a (below (fst p)) -> In b (below (snd p)) -> ~ meets (obox a) (obox b)) missed.
Proof. exact @pair_query_leaves. Qed.
Print Assumptions C31_leaf_pairs.
(* the boxes of intersect_bvh cover exactly the common points *)
Theorem C31_overlap : forall (A : Type) (la lb : list (obj A)) (ta tb : bvh A), built ta la 1 -> built tb lb 1 -> exists n, forall fuel, (n < fuel)%nat -> exists boxes, intersect_bvh fuel ta tb = Ok (map Some boxes) /\
  Forall made boxes /\ forall p, (exists c, In c boxes /\ in_box3 p (corners c)) <-> (exists a : obj A, In a la /\ in_box3 p (corners (obox a))) /\ (exists b : obj A, In b lb /\ in_box3 p (corners (obox b))).
Proof. exact @overlap_boxes. Qed.
Print Assumptions C31_overlap.
Definition two : list (obj Z) := [ob 10 5 0 0 8 6 1; ob 11 (-3) 0 0 (-1) 1 1]%Z.
Example C31_case : built (tree_of five 1) five 1 /\
  (match intersect_bvh_objects 200 (tree_of five 1) (tree_of two 1) with Ok l => map (fun p => (ids (leaves (fst p)), ids (leaves (snd p)))) l | Err _ => [] end)
  = [([[4]], [[10]]); ([[1]], [[10]]); ([[5]], [[10]]); ([[3]], [[11]])]%Z.
Proof. split; [apply five_built; auto|]. vm_compute. reflexivity. Qed.

(* ---- C32 ---- *)
(* the cut is at (min + max) * parameter: right only for 1/2 or a box starting at 0 *)
Theorem C32_cut_refuted : forall b a i p l r, axis_of a = Ok i -> split b a p = Ok (l, r) -> comp (bmin b) i <> 0 -> p <> half ->
  comp (bmax l) i <> comp (bmin b) i + (comp (bmax b) i - comp (bmin b) i) * p /\ comp (bmin r) i = comp (bmax l) i.
Proof. exact split_off. Qed.
Print Assumptions C32_cut_refuted.
(* both halves keep the overlap test, the volume and the centre of the whole box *)
Theorem C32_stale_refuted : forall b a p l r, made b -> split b a p = Ok (l, r) ->
  (forall c, intersect l c = intersect b c /\ intersect r c = intersect b c) /\ volume l = volume b /\ volume r = volume b /\ bcenter l = bcenter b /\ bcenter r = bcenter b.
Proof. exact split_stale. Qed.
Print Assumptions C32_stale_refuted.
Theorem C32_half_partial : forall b a, proper3 (corners b) -> (-3 <= a < 3)%Z -> exists l r, split b a half = Ok (l, r) /\ tiles b [l; r] /\ proper3 (corners l) /\ proper3 (corners r).
Proof. exact split_half_tiles. Qed.
Print Assumptions C32_half_partial.
Theorem C32_from_zero_partial : forall b a i p, axis_of a = Ok i -> proper3 (corners b) -> comp (bmin b) i = 0 -> 0 <= p -> p <= 1 -> exists l r, split b a p = Ok (l, r) /\ tiles b [l; r].
Proof. exact split_zero_tiles. Qed.
Print Assumptions C32_from_zero_partial.
Theorem C32_split8_partial : forall b a1 a2 a3, proper3 (corners b) -> (-3 <= a1 < 3)%Z -> (-3 <= a2 < 3)%Z -> (-3 <= a3 < 3)%Z ->
  (exists bs, split4 b a1 a2 half half = Ok bs /\ length bs = 4%nat /\ tiles b bs) /\
  exists bs, split8 b a1 a2 a3 half half half = Ok bs /\ length bs = 8%nat /\ tiles b bs.
Proof. exact split8_tiles. Qed.
Print Assumptions C32_split8_partial.
(* a quarter of [10, 14] is cut at 6, outside the box *)
Example C32_case : made (bx 10 0 0 14 2 2) /\ made (bx 10 0 0 11 1 1) /\
  (match split (bx 10 0 0 14 2 2) 0 (Q2Qc (1 # 4)) with Ok (l, r) => Some (this (vx (bmax l)), this (vx (bmin r)), intersect r (bx 10 0 0 11 1 1)) | Err _ => None end) = Some (6 # 1, 6 # 1, true)%Q /\
  (match split (bx 10 0 0 14 2 2) (-1) half with Ok (l, r) => Some (this (vz (bmax l)), this (vz (bmin r))) | Err _ => None end) = Some (1 # 1, 1 # 1)%Q.
Proof. split; [apply made_bx; lia|]. split; [apply made_bx; lia|]. split; vm_compute; reflexivity. Qed.

(* ---- C98 ---- *)
Theorem C98_point : forall (A : Type) (l : list (obj A)) t q, built t l 1 ->
  exists found missed, contains_point t q = map One found /\ Permutation (found ++ missed) l /\ Forall (fun o => in_box3 q (corners (obox o))) found /\ Forall (fun o => ~ in_box3 q (corners (obox o))) missed.
Proof. exact @point_query. Qed.
Print Assumptions C98_point.
(* one node whose objects are all that can contain the point *)
Theorem C98_node : forall (A : Type) (l : list (obj A)) n (t : bvh A) p, built t l n -> match traverse_bvh_point t p with
  | None => ~ in_box3 p (corners (node_box t))
  | Some m => In m (nodes t) /\ in_box3 p (corners (node_box m)) /\ exists a b, below t = a ++ below m ++ b /\ Forall (fun o => ~ in_box3 p (corners (obox o))) (a ++ b)
  end.
Proof. exact @point_node_built. Qed.
Print Assumptions C98_node.
Theorem C98_listing : forall (A : Type) (t : bvh A), traverse_leafs t [] = leaves t /\ traverse_all_bbox t [] = map (fun n => corners (node_box n)) (nodes t).
Proof. exact @listing. Qed.
Print Assumptions C98_listing.
Example C98_case : built (tree_of five 1) five 1 /\ ids (contains_point (tree_of five 1) (vz3 5 1 1)) = [[5]; [1]]%Z /\ ids (contains_point (tree_of five 1) (vz3 1 1 1)) = [[2]; [3]]%Z /\
  option_map (fun n => ids (leaves n)) (traverse_bvh_point (tree_of five 1) (vz3 1 1 1)) = Some [[2]; [3]]%Z /\
  option_map (fun n => ids (leaves n)) (traverse_bvh_point (tree_of five 1) (vz3 8 6 1)) = Some [[4]]%Z.
Proof. split; [apply five_built; auto|]. repeat split; vm_compute; reflexivity. Qed.

(* ---- C99: the second variant reports a lone object twice and reports None for nothing found ---- *)
Theorem C99_second_refuted : forall (A : Type) (l : list (obj A)) n (t : bvh A) q, built t l n -> made q -> 
  (forall b o, t = BLeaf b o -> intersect b q = true -> traverse_bvh2 t q [] = [Some o; Some o]) /\
  (is_node t -> intersect (node_box t) q = true -> traverse_bvh t q [] = [] -> traverse_bvh2 t q [] = [None]).
Proof. exact @second_never. Qed.
Print Assumptions C99_second_refuted.
Theorem C99_found_partial : forall (A : Type) b (x y : bvh A) q, traverse_bvh (BNode b x y) q [] <> [] -> traverse_bvh2 (BNode b x y) q [] = map Some (traverse_bvh (BNode b x y) q []).
Proof. exact @second_query_some. Qed.
Print Assumptions C99_found_partial.
Definition ids2 (ps : list (option (payload Z))) : list (option (list Z)) := map (option_map (fun p => map value (held p))) ps.
Example C99_case : built (tree_of five 1) five 1 /\ ids2 (contains_point2 (tree_of five 1) (vz3 7 4 1)) = [None] /\ ids2 (contains_point2 (tree_of [ob 2 0 0 0 1 1 1] 1) (vz3 1 0 1)) = [Some [2]; Some [2]]%Z /\
  ids2 (contains_point2 (tree_of five 1) (vz3 1 1 1)) = [Some [2]; Some [3]]%Z.
Proof. split; [apply five_built; auto|]. repeat split; vm_compute; reflexivity. Qed.

(* ---- C100 ---- *)
Theorem C100_vicinity : forall (A : Type) p (l : list (obj A)) (t : bvh A) n, built t l n -> is_node t -> match find_closest_vicinity t p with
  | None => Forall (fun q => ~ in_box3 p (corners (payload_box q))) (leaves t)
  | Some (os, d) => os <> [] /\ exists missed, Permutation (os ++ missed) (leaves t) /\ Forall (fun q => in_box3 p (corners (payload_box q)) /\ distance q p = d) os /\
      Forall (fun q => in_box3 p (corners (payload_box q)) -> d < distance q p) missed
  end.
Proof. exact @vicinity_built. Qed.
Print Assumptions C100_vicinity.
Example C100_case : built (tree_of five 1) five 1 /\ option_map (fun r => (ids (fst r), this (snd r))) (find_closest_vicinity (tree_of five 1) (Q2Qc (1 # 2), Q2Qc (1 # 2), Q2Qc (1 # 2))) = Some ([[3]]%Z, (-3 # 2)%Q) /\
  option_map (fun r => ids (fst r)) (find_closest_vicinity (tree_of five 1) (vz3 7 4 1)) = None /\
  option_map (fun r => ids (fst r)) (find_closest_vicinity (tree_of five 1) (vz3 5 1 0)) = Some [[5]; [1]]%Z.
Proof. split; [apply five_built; auto|]. repeat split; vm_compute; reflexivity. Qed.

(* what the signed distance of a box is: in the box minus the distance to the
   nearest side, elsewhere the (squared, see BvhModel) distance to the nearest point *)
Theorem C100_signed_distance : forall b p, proper3 b ->
  (in_box3 p b -> let gaps := [vx p - vx (fst b); vx (snd b) - vx p; vy p - vy (fst b); vy (snd b) - vy p; vz p - vz (fst b); vz (snd b) - vz p] in
     Forall (fun g => - sd_aabb b p <= g) gaps /\ In (- sd_aabb b p) gaps) /\
  (~ in_box3 p b -> 0 < sd_aabb b p /\ (exists q, in_box3 q b /\ sqdist p q = sd_aabb b p) /\ forall q, in_box3 q b -> sd_aabb b p <= sqdist p q).
Proof. exact signed_distance. Qed.
Print Assumptions C100_signed_distance.
Example C100_case_distance : this (sd_aabb (vz3 0 0 0, vz3 4 6 8) (vz3 1 3 4)) = (-1 # 1)%Q /\ this (sd_aabb (vz3 0 0 0, vz3 4 6 8) (vz3 7 3 12)) = (25 # 1)%Q.
Proof. split; vm_compute; reflexivity. Qed.

(* ---- C101: the default search follows the nearer child only ---- *)
Theorem C101_greedy_refuted : forall (A : Type) p (l : list (obj A)) n b (x y : bvh A), built (BNode b x y) l n -> sd_aabb (corners (node_box x)) p < sd_aabb (corners (node_box y)) p ->
  (exists near, In near (leaves y) /\ Forall (fun q => distance near p < distance q p) (leaves x)) ->
  exists near, In near (leaves (BNode b x y)) /\ Forall (fun q => distance near p < distance q p) (fst (find_closest_breadth (BNode b x y) p)).
Proof. exact @greedy. Qed.
Print Assumptions C101_greedy_refuted.
Theorem C101_reported_partial : forall (A : Type) p (l : list (obj A)) (t : bvh A) n, built t l n -> let '(os, d) := find_closest_breadth t p in os <> [] /\ exists missed, Permutation (os ++ missed) (leaves t) /\ Forall (fun q => distance q p = d) os.
Proof. exact @breadth_built. Qed.
Print Assumptions C101_reported_partial.
(* the point (4,5,0) lies in the box of 1 and 2 but is nearer to 3 *)
Definition spread : list (obj Z) := [ob 1 0 0 0 1 1 1; ob 2 4 9 0 5 10 1; ob 3 6 5 0 7 6 1; ob 4 20 0 0 21 1 1]%Z.
Example C101_case : built (tree_of spread 1) spread 1 /\
  (match tree_of spread 1 with BNode _ x y => (ids (leaves x), ids (leaves y), qlt (sd_aabb (corners (node_box x)) (vz3 4 5 0)) (sd_aabb (corners (node_box y)) (vz3 4 5 0)),
    map (fun q => this (distance q (vz3 4 5 0))) (leaves x), map (fun q => this (distance q (vz3 4 5 0))) (leaves y)) | _ => ([], [], false, [], []) end)
   = ([[1]; [2]]%Z, [[3]; [4]]%Z, true, [25 # 1; 16 # 1]%Q, [4 # 1; 272 # 1]%Q) /\
  (let r := find_closest_breadth (tree_of spread 1) (vz3 4 5 0) in (ids (fst r), this (snd r))) = ([[2]]%Z, (16 # 1)%Q).
Proof. split; [apply tree_built; [lia|discriminate|repeat (apply Forall_cons; [apply made_bx; lia|]); apply Forall_nil|cbn; lia]|]. split; vm_compute; reflexivity. Qed.

(* ---- C102 ---- *)
Theorem C102_segment : forall (A : Type) (l : list (obj A)) (t : bvh A) s, built t l 1 -> plain3 (vsub (snd s) (fst s)) -> exists n, forall fuel, (n < fuel)%nat ->
  exists found missed, bvh_segment_intersection fuel t s = Ok (map (fun o => (One o, s)) found) /\ Permutation (found ++ missed) l /\
    Forall (fun o => crosses s (obox o)) found /\ Forall (fun o => ~ crosses s (obox o)) missed.
Proof. exact @segment_query. Qed.
Print Assumptions C102_segment.
Example C102_case : built (tree_of five 1) five 1 /\ plain3 (vsub (vz3 9 7 1) (vz3 0 (-1) 1)) /\
  (match bvh_segment_intersection 50 (tree_of five 1) (vz3 0 (-1) 1, vz3 9 7 1) with Ok l => ids (map fst l) | Err _ => [] end) = [[4]; [3]]%Z.
Proof. split; [apply five_built; auto|]. split; [repeat split; first [left; apply Qc_is_canon; reflexivity | right; left; vm_compute; discriminate | right; right; vm_compute; discriminate]|]. vm_compute. reflexivity. Qed.

(* ---- C103 ---- *)
Theorem C103_corners : forall b, proper3 (corners b) -> length (get_corners b) = 8%nat /\ forall p, In p (get_corners b) <-> vertex b p.
Proof. exact corners_ok. Qed.
Print Assumptions C103_corners.
Theorem C103_edges : forall b, proper3 (corners b) -> exists es, get_edges b = Ok es /\ length es = 12%nat /\ Forall (fun e => edge b (fst e) (snd e)) es /\ forall p q, edge b p q -> In (p, q) es.
Proof. exact edges_eq. Qed.
Print Assumptions C103_edges.
Theorem C103_faces : forall b, proper3 (corners b) -> exists fs, get_faces b = Ok fs /\ length fs = 6%nat /\
  Forall (fun f => exists i side, (i < 3)%nat /\ (side = comp (bmin b) i \/ side = comp (bmax b) i) /\ face b f i side) fs /\
  forall i, (i < 3)%nat -> (exists f, In f fs /\ face b f i (comp (bmin b) i)) /\ (exists f, In f fs /\ face b f i (comp (bmax b) i)).
Proof. exact faces_eq. Qed.
Print Assumptions C103_faces.
Definition shown (v : v3) : list Q := [this (vx v); this (vy v); this (vz v)].
Example C103_case : made (bx 0 1 2 3 4 5) /\ map shown (get_corners (bx 0 1 2 3 4 5)) = [[0; 1; 2]; [0; 1; 5]; [0; 4; 2]; [0; 4; 5]; [3; 1; 2]; [3; 1; 5]; [3; 4; 2]; [3; 4; 5]]%Q.
Proof. split; [apply made_bx; lia|]. vm_compute. reflexivity. Qed.

(* ---- C104 ---- *)
Theorem C104_merge : forall a b, made a -> made b -> made (merge a b) /\ covers (merge a b) a /\ covers (merge a b) b /\ (forall c, covers c a -> covers c b -> covers c (merge a b)).
Proof. exact merge_spec. Qed.
Print Assumptions C104_merge.
Theorem C104_intersection : forall a b, match intersection a b with
  | Some c => made c /\ forall p, in_box3 p (corners c) <-> in_box3 p (corners a) /\ in_box3 p (corners b)
  | None => ~ meets a b end.
Proof. exact intersection_ok. Qed.
Print Assumptions C104_intersection.
Theorem C104_intersect : forall a b, made a -> made b -> (intersect a b = true <-> meets a b).
Proof. exact intersect_meets. Qed.
Print Assumptions C104_intersect.
Theorem C104_interiors : forall a b, solid a -> solid b -> (intersect_disjoint a b = true <-> exists p, inside p (corners a) /\ inside p (corners b)).
Proof. exact disjoint_exact. Qed.
Print Assumptions C104_interiors.
Theorem C104_contains : forall b p, contains b p = true <-> in_box3 p (corners b).
Proof. exact contains_in. Qed.
Print Assumptions C104_contains.
Example C104_case : made (bx 0 0 0 2 2 2) /\ made (bx 1 1 2 4 3 3) /\ option_map (fun b => (shown (bmin b), shown (bmax b))) (intersection (bx 0 0 0 2 2 2) (bx 1 1 2 4 3 3)) = Some ([1; 1; 2], [2; 2; 2])%Q /\
  intersect (bx 0 0 0 2 2 2) (bx 1 1 2 4 3 3) = true /\ intersect_disjoint (bx 0 0 0 2 2 2) (bx 1 1 2 4 3 3) = false /\ shown (bmax (merge (bx 0 0 0 2 2 2) (bx 1 1 2 4 3 3))) = [4; 3; 3]%Q.
Proof. split; [apply made_bx; lia|]. split; [apply made_bx; lia|]. repeat split; vm_compute; reflexivity. Qed.

(* ---- C105: expanding in place leaves the overlap test and the volume as they were ---- *)
Theorem C105_expand_refuted : forall a b, made a -> made b -> covers (expand a b) a /\ covers (expand a b) b /\ (forall c, covers c a -> covers c b -> covers c (expand a b)) /\ (forall c, intersect (expand a b) c = intersect a c) /\ volume (expand a b) = volume a.
Proof. exact expand_ok. Qed.
Print Assumptions C105_expand_refuted.
Example C105_case : made (bx 0 0 0 1 1 1) /\ made (bx 5 5 5 6 6 6) /\ contains (expand (bx 0 0 0 1 1 1) (bx 5 5 5 6 6 6)) (vz3 5 5 5) = true /\ intersect (expand (bx 0 0 0 1 1 1) (bx 5 5 5 6 6 6)) (bx 5 5 5 6 6 6) = false.
Proof. split; [apply made_bx; lia|]. split; [apply made_bx; lia|]. split; vm_compute; reflexivity. Qed.

(* ---- C106 ---- *)
Theorem C106_evaluate_refuted : forall b i u, (i < 3)%nat -> comp (bmin b) i <> 0 -> comp u i <> half -> comp (evaluate b u) i <> comp (bmin b) i + (comp (bmax b) i - comp (bmin b) i) * comp u i.
Proof. exact evaluate_off. Qed.
Print Assumptions C106_evaluate_refuted.
Example C106_case : shown (evaluate (bx 10 0 2 14 2 2) (vz3 1 1 0)) = [24; 2; 0]%Q.
Proof. vm_compute. reflexivity. Qed.

(* ---- C107: building sorts the caller's list ---- *)
Theorem C107_reordered_refuted : forall (A : Type) (l : list (obj A)) n fuel t s, (1 <= n)%Z -> (n < Z.of_nat (length l))%Z -> Forall (fun o => made (obox o)) l -> (forall i, (i < 3)%nat -> ~ in_order i l) -> build_bvh fuel l n = Ok (t, s) -> s <> l.
Proof. exact @list_reordered. Qed.
Print Assumptions C107_reordered_refuted.
Theorem C107_sorted_partial : forall (A : Type) (l : list (obj A)) n fuel t s, (1 <= n)%Z -> (n < Z.of_nat (length l))%Z -> Forall (fun o => made (obox o)) l -> build_bvh fuel l n = Ok (t, s) -> exists i, (i < 3)%nat /\ in_order i s.
Proof. exact @list_sorted. Qed.
Print Assumptions C107_sorted_partial.
Example C107_case : (match build_bvh 10 five 1 with Ok (_, s) => map value s | Err _ => [] end) = [2; 3; 5; 1; 4]%Z /\ (forall i, (i < 3)%nat -> ~ in_order i five).
Proof.
  split; [vm_compute; reflexivity|]. intros i Hi O. unfold in_order, five in O. inversion O as [|? ? _ F]; subst. inversion F as [|? ? H F2]; subst. inversion F2 as [|? ? H2 _]; subst. apply qle_true in H. apply qle_true in H2.
  destruct i as [|[|[|]]]; [vm_compute in H; discriminate|vm_compute in H; discriminate|vm_compute in H; discriminate|lia].
Qed.
