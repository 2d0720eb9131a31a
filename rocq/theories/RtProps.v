(* Array routines and the boolean operation on curves: the properties. *)
From Coq Require Import List Arith ZArith Bool QArith Qcanon Lia Permutation Sorting.Sorted.
From Verif Require Import Common QcLib ListLib SumLib LuModel SortModel SortSpec SortProofs SurfModel RtModel RtSpec RtProofs1 RtProofs2 RtProofs3.
Import ListNotations.
Local Open Scope Qc_scope.

(* numbers of the cases *)
Definition rz (k : Z) : Qc := Q2Qc (inject_Z k).
Definition rzs (l : list Z) : list Qc := map rz l.
Definition seen (v : nval) : list Q := match v with Num x => [this x] | Arr l => map this l end.

(* C399: minimum and maximum of arrays *)
Theorem C399_elementwise n a b : sized n a -> sized n b ->
  (exists a' b' r, nd_min a b = Ok (a', b', r) /\ forall i, (i < n)%nat -> at_ r i <= at_ a i /\ at_ r i <= at_ b i /\ (at_ r i = at_ a i \/ at_ r i = at_ b i)) /\
  (exists a' b' r, nd_max a b = Ok (a', b', r) /\ forall i, (i < n)%nat -> at_ a i <= at_ r i /\ at_ b i <= at_ r i /\ (at_ r i = at_ a i \/ at_ r i = at_ b i)).
Proof. intros A B. split; [exact (nd_min_ok n a b A B)|exact (nd_max_ok n a b A B)]. Qed.
Print Assumptions C399_elementwise.
Theorem C399_arguments_kept_refuted a b i : length a = length b -> (i < length a)%nat ->
  (nth i b 0 < nth i a 0 -> exists a' b' r, nd_min (Arr a) (Arr b) = Ok (a', b', r) /\ at_ a' i = nth i b 0 /\ a' <> Arr a) /\
  (nth i a 0 < nth i b 0 -> exists a' b' r, nd_max (Arr a) (Arr b) = Ok (a', b', r) /\ at_ a' i = nth i b 0 /\ a' <> Arr a).
Proof. intros L H. split; [exact (nd_min_changes a b i L H)|exact (nd_max_changes a b i L H)]. Qed.
Print Assumptions C399_arguments_kept_refuted.
Example C399_case : match nd_min (Arr (rzs [3; 1; 5]%Z)) (Arr (rzs [2; 4; 5]%Z)) with Ok (a, b, r) => (seen a, seen b, seen r) = ([2; 1; 5], [2; 4; 5], [2; 1; 5])%Q | _ => False end /\
  match nd_max (Num (rz 3)) (Arr (rzs [2; 4]%Z)) with Ok (a, b, r) => (seen a, seen b, seen r) = ([3], [3; 4], [3; 4])%Q | _ => False end.
Proof. vm_compute. auto. Qed.

(* C400: most similar values *)
Theorem C400_find_similar value values : values <> [] -> exists l, find_similar value values = Ok l /\ l <> [] /\ StronglySorted lt l /\
  forall i, In i l <-> (i < length values)%nat /\ forall j, (j < length values)%nat -> fabs (nth i values 0 - value) <= fabs (nth j values 0 - value).
Proof. exact (find_similar_ok value values). Qed.
Print Assumptions C400_find_similar.
Theorem C400_empty value : find_similar value [] = Err ValueError.
Proof. reflexivity. Qed.
Print Assumptions C400_empty.
Example C400_case : find_similar (rz 3) (rzs [1; 4; 7; 2; 4]%Z) = Ok [1; 3; 4]%nat.
Proof. vm_compute. auto. Qed.

(* C401: cartesian product *)
Theorem C401_cartesian_product {T} (d : T) arrays : arrays <> [] -> cartesian_product d arrays = Ok (choices arrays).
Proof. intro NE. unfold cartesian_product. destruct arrays as [|a r]; [contradiction|]. rewrite product_rows. reflexivity. Qed.
Print Assumptions C401_cartesian_product.
Theorem C401_rows {T} (d : T) arrays : arrays <> [] -> exists rows, cartesian_product d arrays = Ok rows /\ length rows = fold_right Nat.mul 1%nat (map (@length T) arrays) /\
  forall row, In row rows <-> Forall2 (fun x l => In x l) row arrays.
Proof. intro NE. exists (choices arrays). split; [apply C401_cartesian_product; auto|]. split; [apply choices_length|apply choices_In]. Qed.
Print Assumptions C401_rows.
Example C401_case : cartesian_product 0%nat [[1; 2]; [3]; [4; 5]]%nat = Ok [[1; 3; 4]; [1; 3; 5]; [2; 3; 4]; [2; 3; 5]]%nat /\ cartesian_product 0%nat [[1; 2]; []]%nat = Ok [] /\ cartesian_product 0%nat [] = Err ValueError.
Proof. vm_compute. auto. Qed.

(* C402: grids of parameters *)
Theorem C402_grids junk cu cv bu bv : length junk = (cu * cv)%nat -> uvs junk cu cv bu bv = Ok (pairs (linspace (fst bu) (snd bu) cu) (linspace (fst bv) (snd bv) cv)) /\
  point_grid_2d cu cv bu bv = uvs junk cu cv bu bv.
Proof. intro L. rewrite (uvs_ok junk cu cv bu bv L). split; auto. apply point_grid_ok. Qed.
Print Assumptions C402_grids.
Theorem C402_corners_and_bounds junk cu cv bu bv : length junk = (cu * cv)%nat -> (2 <= cu)%nat -> (2 <= cv)%nat -> exists g, uvs junk cu cv bu bv = Ok g /\ length g = (cu * cv)%nat /\
  nth 0 g (0, 0) = (fst bu, fst bv) /\ nth (cu * cv - 1) g (0, 0) = (snd bu, snd bv) /\
  (fst bu <= snd bu -> fst bv <= snd bv -> forall p, In p g -> (fst bu <= fst p /\ fst p <= snd bu) /\ (fst bv <= snd p /\ snd p <= snd bv)).
Proof.
  intros L A B. rewrite (uvs_ok junk cu cv bu bv L). eexists. split; [reflexivity|]. set (u := linspace (fst bu) (snd bu) cu). set (v := linspace (fst bv) (snd bv) cv).
  assert (LU : length u = cu) by apply linspace_length. assert (LV : length v = cv) by apply linspace_length. split; [rewrite pairs_length, LU, LV; reflexivity|]. split; [|split].
  - change 0%nat with (0 * length v + 0)%nat at 1. rewrite pairs_nth by lia. unfold u, v. rewrite !linspace_first by lia. reflexivity.
  - replace (cu * cv - 1)%nat with ((cu - 1) * length v + (cv - 1))%nat by (rewrite LV; nia). rewrite pairs_nth by lia. unfold u, v. rewrite !linspace_last by lia. reflexivity.
  - intros U V p P. unfold pairs in P. apply in_flat_map in P. destruct P as (x & X & P). apply in_map_iff in P. destruct P as (y & <- & Y). cbn [fst snd]. split; [apply (linspace_in _ _ cu); auto|apply (linspace_in _ _ cv); auto].
Qed.
Print Assumptions C402_corners_and_bounds.
Example C402_case : match uvs (repeat (rz 9, rz 9) 6) 2 3 (rz 0, rz 1) (rz 0, rz 4) with Ok l => map (fun '(a, b) => (this a, this b)) l = [(0, 0); (0, 2); (0, 4); (1, 0); (1, 2); (1, 4)]%Q | _ => False end.
Proof. vm_compute. auto. Qed.

(* C403: insertion into a tuple *)
Theorem C403_insert {T} (tpl : list T) i v : exists pre post, tpl = pre ++ post /\ insert_in_tuple tpl i v = pre ++ v :: post /\
  (let n := Z.of_nat (length tpl) in Z.of_nat (length pre) = if i <? 0 then Z.max 0 (n + i) else Z.min i n)%Z.
Proof. exact (insert_ok tpl i v). Qed.
Print Assumptions C403_insert.
Example C403_case : insert_in_tuple [1; 2; 3]%nat 1 9%nat = [1; 9; 2; 3]%nat /\ insert_in_tuple [1; 2; 3]%nat (-1) 9%nat = [1; 2; 9; 3]%nat /\ insert_in_tuple [1; 2]%nat 7 9%nat = [1; 2; 9]%nat /\ insert_in_tuple [1; 2]%nat (-7) 9%nat = [9; 1; 2]%nat.
Proof. vm_compute. auto. Qed.

(* C404: splitting one dimension *)
Theorem C404_split_dim_partial {T} (a : arr T) i v : wf a -> (0 < v)%Z -> (- Z.of_nat (length (snd a)) <= i < Z.of_nat (length (snd a)))%Z ->
  exists pre d post, snd a = pre ++ d :: post /\ Z.of_nat (length pre) = (if i <? 0 then Z.of_nat (length (snd a)) + i else i)%Z /\
    ((v | d)%Z -> split_dim a i v Before = Ok (fst a, pre ++ [v; (d / v)%Z] ++ post) /\ split_dim a i v After = Ok (fst a, pre ++ [(d / v)%Z; v] ++ post)) /\
    (~ (v | d)%Z -> split_dim a i v Before = Err ValueError /\ split_dim a i v After = Err ValueError).
Proof. exact (split_dim_ok a i v). Qed.
Print Assumptions C404_split_dim_partial.
Theorem C404_index_refuted tpl v : tpl <> [] -> v <> 0%Z -> insert_after_in_shape tpl (- Z.of_nat (length tpl) - 1) v = Ok (removelast tpl ++ [(last tpl 0 / v)%Z; v] ++ tpl).
Proof. exact (insert_low tpl v). Qed.
Print Assumptions C404_index_refuted.
Example C404_case : split_dim (seq 0 12, [2; 6]%Z) (-1) 3 Before = Ok (seq 0 12, [2; 3; 2]%Z) /\ split_dim (seq 0 12, [2; 6]%Z) 1 3 After = Ok (seq 0 12, [2; 2; 3]%Z) /\ split_dim (seq 0 12, [2; 6]%Z) 1 4 After = Err ValueError /\
  insert_after_in_shape [2; 6]%Z (-3) 3 = Ok [2; 2; 3; 2; 6]%Z /\ wf (seq 0 12, [2; 6]%Z).
Proof. split; [vm_compute; reflexivity|]. split; [vm_compute; reflexivity|]. split; [vm_compute; reflexivity|]. split; [vm_compute; reflexivity|]. split; [reflexivity|repeat constructor]. Qed.

(* C405: adding and removing dimensions *)
Theorem C405_add_dim {T} (a : arr T) first other vals : wf a -> snd a = first :: other -> vals <> [] -> Forall (fun v => 0 < v)%Z vals ->
  ((zsize vals | first)%Z -> add_dim a vals = Ok (fst a, (first / zsize vals)%Z :: vals ++ other)) /\ (~ (zsize vals | first)%Z -> add_dim a vals = Err ValueError).
Proof. exact (add_dim_ok a first other vals). Qed.
Print Assumptions C405_add_dim.
Theorem C405_remove_add {T} (a : arr T) first other vals b : wf a -> snd a = first :: other -> vals <> [] -> Forall (fun v => 0 < v)%Z vals -> add_dim a vals = Ok b -> remove_dim b (length vals) = Ok a.
Proof. exact (remove_add a first other vals b). Qed.
Print Assumptions C405_remove_add.
Theorem C405_remove_dim {T} (a : arr T) count : wf a -> snd a <> [] -> remove_dim a count = Ok (fst a, zsize (firstn (count + 1) (snd a)) :: skipn (count + 1) (snd a)).
Proof. exact (remove_ok a count). Qed.
Print Assumptions C405_remove_dim.
Example C405_case : add_dim (seq 0 24, [12; 2]%Z) [2; 3]%Z = Ok (seq 0 24, [2; 2; 3; 2]%Z) /\ remove_dim (seq 0 24, [2; 2; 3; 2]%Z) 2 = Ok (seq 0 24, [12; 2]%Z) /\ add_dim (seq 0 24, [12; 2]%Z) [5]%Z = Err ValueError.
Proof. vm_compute. auto. Qed.

(* C406: splitting into parts *)
Theorem C406_split_by_parts_partial {T} (a : list T) parts : parts <> [] -> (last parts 0 <= length a)%nat -> exists ps, split_by_parts a parts = Ok ps /\ concat ps = a /\ length ps = (length parts + 1)%nat /\
  ((total parts <= length a)%nat -> map (@length T) ps = parts ++ [(length a - total parts)%nat]).
Proof. exact (split_parts a parts). Qed.
Print Assumptions C406_split_by_parts_partial.
Theorem C406_one_piece_per_part_refuted {T} (a : list T) parts : parts <> [] -> total parts = length a -> exists ps, split_by_parts a parts = Ok (ps ++ [[]]) /\ length ps = length parts.
Proof. exact (split_parts_empty a parts). Qed.
Print Assumptions C406_one_piece_per_part_refuted.
Example C406_case : split_by_parts [1; 2; 3; 4; 5]%nat [2; 3]%nat = Ok [[1; 2]; [3; 4; 5]; []]%nat /\ split_by_parts [1; 2; 3]%nat [1; 9]%nat = Ok [[1]; [2; 3]]%nat /\ split_by_parts [1; 2; 3]%nat [1; 1]%nat = Ok [[1]; [2]; [3]]%nat.
Proof. vm_compute. auto. Qed.

(* C407: equal intervals *)
Theorem C407_divide_interval_partial start stop step : 0 < step -> start < stop -> exists n, divide_interval start stop step = Ok (map (fun i => (start + qn i * step, start + qn (S i) * step)) (seq 0 (S n))) /\
  start + qn n * step < stop /\ stop <= start + qn (S n) * step.
Proof. exact (divide_ok start stop step). Qed.
Print Assumptions C407_divide_interval_partial.
Theorem C407_within_interval_refuted start stop step : 0 < step -> start < stop -> (forall k, stop <> start + qn k * step) -> exists rows a b, divide_interval start stop step = Ok (rows ++ [(a, b)]) /\ a < stop /\ stop < b.
Proof. exact (divide_over start stop step). Qed.
Print Assumptions C407_within_interval_refuted.
Example C407_case : match divide_interval (rz 0) (rz 5) (rz 2) with Ok l => map (fun '(a, b) => (this a, this b)) l = [(0, 2); (2, 4); (4, 6)]%Q | _ => False end /\ match divide_interval (rz 0) (rz 4) (rz 2) with Ok l => length l = 2%nat | _ => False end /\
  (forall k, rz 5 <> rz 0 + qn k * rz 2).
Proof.
  split; [vm_compute; reflexivity|]. split; [vm_compute; reflexivity|]. intros k E. assert (H : zq 5 = zq (Z.of_nat k * 2)%Z) by (rewrite zq_mul; transitivity (rz 0 + qn k * rz 2); [exact E|]; change (rz 0) with (0 : Qc); unfold rz, qn, zq; ring).
  apply zq_inj in H. lia.
Qed.

(* C408: cubic curve *)
Theorem C408_cubic_spline p0 c0 c1 p1 t : cubic_spline p0 c0 c1 p1 t = (casteljau (fst p0) (fst c0) (fst c1) (fst p1) t, casteljau (snd p0) (snd c0) (snd c1) (snd p1) t) /\
  cubic_spline p0 c0 c1 p1 0 = p0 /\ cubic_spline p0 c0 c1 p1 1 = p1.
Proof.
  unfold cubic_spline. rewrite !cubic_casteljau. split; auto. rewrite <- !cubic_casteljau. rewrite !(proj1 (cubic_ends _ _ _ _)), !(proj2 (cubic_ends _ _ _ _)). destruct p0, p1. auto.
Qed.
Print Assumptions C408_cubic_spline.
Theorem C408_in_the_box p0 c0 c1 p1 t lo hi : Forall (fun p => (fst lo <= fst p /\ fst p <= fst hi) /\ (snd lo <= snd p /\ snd p <= snd hi)) [p0; c0; c1; p1] -> 0 <= t -> t <= 1 ->
  let p := cubic_spline p0 c0 c1 p1 t in (fst lo <= fst p /\ fst p <= fst hi) /\ (snd lo <= snd p /\ snd p <= snd hi).
Proof.
  intros F T0 T1 p. inversion F as [|? ? (A1 & A2) F1]; subst. inversion F1 as [|? ? (B1 & B2) F2]; subst. inversion F2 as [|? ? (C1 & C2) F3]; subst. inversion F3 as [|? ? (D1 & D2) _]; subst.
  split; apply cubic_box; auto; repeat (constructor; auto).
Qed.
Print Assumptions C408_in_the_box.
Example C408_case : let p := cubic_spline (rz 0, rz 0) (rz 0, rz 8) (rz 8, rz 8) (rz 8, rz 0) (Q2Qc (1 # 2)) in (this (fst p), this (snd p)) = (4, 6)%Q.
Proof. vm_compute. auto. Qed.

(* C409: columns *)
Theorem C409_append_vector_partial a v : length v <> length a -> column_concat a (Vec v) = Ok (map (fun r => r ++ v) a).
Proof. intro N. unfold column_concat. rewrite (proj2 (Nat.eqb_neq _ _)) by auto. rewrite join_repeat. reflexivity. Qed.
Print Assumptions C409_append_vector_partial.
Theorem C409_append_vector_refuted a v : length v = length a -> exists m, column_concat a (Vec v) = Ok m /\ forall i, (i < length a)%nat -> nth i m [] = nth i a [] ++ [nth i v 0].
Proof.
  intro E. unfold column_concat. rewrite (proj2 (Nat.eqb_eq _ _)) by auto. eexists. split; [reflexivity|]. intros i H. rewrite join_nth by (rewrite ?map_length; auto). f_equal.
  rewrite (nth_indep _ [] ((fun x => [x]) 0)) by (rewrite map_length; lia). exact (map_nth (fun x => [x]) v 0 i).
Qed.
Print Assumptions C409_append_vector_refuted.
Theorem C409_scalar_refuted a x : column_concat a (Scalar x) = Err AttributeError.
Proof. reflexivity. Qed.
Print Assumptions C409_scalar_refuted.
Theorem C409_append_matrix a m : (length m = length a -> exists r, column_concat a (Mat m) = Ok r /\ forall i, (i < length a)%nat -> nth i r [] = nth i a [] ++ nth i m []) /\
  (length m <> length a -> forall r, m = [r] -> column_concat a (Mat m) = Ok (map (fun s => s ++ r) a)) /\ (length m <> length a -> length m <> 1%nat -> column_concat a (Mat m) = Err ValueError).
Proof.
  unfold column_concat. split; [|split].
  - intro E. rewrite (proj2 (Nat.eqb_eq _ _)) by auto. eexists. split; [reflexivity|]. intros i H. apply join_nth; auto.
  - intros N r ->. rewrite (proj2 (Nat.eqb_neq _ _)) by auto. rewrite join_repeat. reflexivity.
  - intros N N1. rewrite (proj2 (Nat.eqb_neq _ _)) by auto. destruct m as [|r [|s m]]; auto. cbn in N1. lia.
Qed.
Print Assumptions C409_append_matrix.
Definition seen2 (r : res (list (list Qc))) : list (list Q) := match r with Ok m => map (map this) m | Err _ => [] end.
Example C409_case : seen2 (column_concat [rzs [1; 2]; rzs [3; 4]]%Z (Vec (rzs [7; 8; 9]%Z))) = [[1; 2; 7; 8; 9]; [3; 4; 7; 8; 9]]%Q /\ seen2 (column_concat [rzs [1; 2]; rzs [3; 4]]%Z (Vec (rzs [7; 8]%Z))) = [[1; 2; 7]; [3; 4; 8]]%Q.
Proof. vm_compute. auto. Qed.

(* C410: values up to a tolerance *)
Theorem C410_groups a tol : a <> [] -> exists gs, unique_with_tolerance a tol = Ok (map mean gs) /\ Permutation a (concat gs) /\ ascending (concat gs) /\ Forall (fun g => g <> [] /\ chained tol g) gs /\ apart tol gs.
Proof. intro NE. destruct (unique_groups a tol NE) as (gs & E & _ & C & F & A). exists gs. destruct (qsort_ok a) as (P & S). rewrite C. auto. Qed.
Print Assumptions C410_groups.
Theorem C410_spread a tol : a <> [] -> exists r, unique_with_tolerance a tol = Ok r /\ r <> [] /\ spread tol r.
Proof. exact (unique_spread a tol). Qed.
Print Assumptions C410_spread.
Theorem C410_order_irrelevant a b tol : Permutation a b -> unique_with_tolerance a tol = unique_with_tolerance b tol.
Proof. exact (unique_perm a b tol). Qed.
Print Assumptions C410_order_irrelevant.
Theorem C410_near_a_value_refuted x tol : 0 < tol -> exists m, unique_with_tolerance [x; x + tol; x + (tol + tol); x + (tol + tol + tol)] tol = Ok [m] /\ tol < m - x.
Proof. exact (unique_chain x tol). Qed.
Print Assumptions C410_near_a_value_refuted.
Example C410_case : match unique_with_tolerance (rzs [9; 1; 2; 20; 8; 3]%Z) (rz 1) with Ok l => map this l = [2; 17 # 2; 20]%Q | _ => False end /\ unique_with_tolerance [] (rz 1) = Err IndexError.
Proof. vm_compute. auto. Qed.

(* C411: the boolean operation *)
Theorem C411_operations_partial seg params split1 split2 hits2 hits1 : params <> [] -> let A := split1 (sorted_set (map fst params)) in let B := split2 (sorted_set (map snd params)) in
  curve_boolean_operation seg params split1 split2 hits2 hits1 0 = Ok (filter (fun s => negb (inside hits2 s)) A ++ filter (fun s => negb (inside hits1 s)) B) /\
  curve_boolean_operation seg params split1 split2 hits2 hits1 1 = Ok (filter (inside hits2) A ++ filter (inside hits1) B) /\
  curve_boolean_operation seg params split1 split2 hits2 hits1 2 = Ok (filter (fun s => negb (inside hits2 s)) A ++ filter (inside hits1) B).
Proof. exact (boolean_ok params split1 split2 hits2 hits1). Qed.
Print Assumptions C411_operations_partial.
Theorem C411_every_piece_once seg params split1 split2 hits2 hits1 : params <> [] -> exists un int, curve_boolean_operation seg params split1 split2 hits2 hits1 0 = Ok un /\ curve_boolean_operation seg params split1 split2 hits2 hits1 1 = Ok int /\
  Permutation (un ++ int) (split1 (sorted_set (map fst params)) ++ split2 (sorted_set (map snd params))).
Proof.
  intro NE. destruct (boolean_ok params split1 split2 hits2 hits1 NE) as (E0 & E1 & _). do 2 eexists. split; [exact E0|]. split; [exact E1|]. rewrite <- app_assoc.
  eapply perm_trans; [apply Permutation_app_head; rewrite app_assoc; apply Permutation_app_tail, Permutation_app_comm|]. rewrite <- app_assoc, app_assoc. apply Permutation_app; apply filter_perm.
Qed.
Print Assumptions C411_every_piece_once.
Theorem C411_unknown_operation seg params split1 split2 hits2 hits1 op : params <> [] -> (op <> 0 -> op <> 1 -> op <> 2 -> split1 (sorted_set (map fst params)) <> [] -> curve_boolean_operation seg params split1 split2 hits2 hits1 op = Err ValueError)%Z.
Proof. intros NE A B C D. unfold curve_boolean_operation. destruct params; [contradiction|]. rewrite select_unknown by auto. reflexivity. Qed.
Print Assumptions C411_unknown_operation.
Theorem C411_disjoint_curves_refuted seg split1 split2 hits2 hits1 op : curve_boolean_operation seg [] split1 split2 hits2 hits1 op = Err ValueError.
Proof. reflexivity. Qed.
Print Assumptions C411_disjoint_curves_refuted.
Theorem C411_two_crossings_refuted seg (hits : seg -> list Qc) s x y : hits s = [x; y] -> x <= y -> y - x <= Q2Qc (1 # 100000) -> inside hits s = true.
Proof. exact (close_pair hits s x y). Qed.
Print Assumptions C411_two_crossings_refuted.
Definition case_hits (s : nat) : list Qc := match s with 1%nat | 4%nat => rzs [1]%Z | 2%nat => rzs [1; 2]%Z | _ => [] end.
Example C411_case : curve_boolean_operation nat [(rz 1, rz 2)] (fun _ => [1; 2]%nat) (fun _ => [3; 4]%nat) case_hits case_hits 0 = Ok [2; 3]%nat /\ curve_boolean_operation nat [(rz 1, rz 2)] (fun _ => [1; 2]%nat) (fun _ => [3; 4]%nat) case_hits case_hits 1 = Ok [1; 4]%nat /\
  curve_boolean_operation nat [(rz 1, rz 2)] (fun _ => [1; 2]%nat) (fun _ => [3; 4]%nat) case_hits case_hits 2 = Ok [2; 4]%nat.
Proof. vm_compute. auto. Qed.
