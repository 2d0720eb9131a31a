(* Theorems about vectors. *)
From Coq Require Import List ZArith Lia Bool QArith Qcanon.
From Verif Require Import Common ListLib QcLib ArrZ SumLib NurbsModel DerModel PlnModel PlnSpec PlnProofs2 PlnProofs4 PlnProofs5 PlnProps VecModel VecSpec VecProofs1 VecProofs2 VecProofs3 VecProofs4.
Import ListNotations.
Local Open Scope Z_scope.
Local Open Scope Qc_scope.

(* concrete data for the cases *)
Definition lz (l : list Z) : list Qc := map zq l.
Definition mz (m : list (list Z)) : mat := map lz m.
Definition ql (l : list Qc) : list Q := map this l.
Definition qrlist (r : res (list Qc)) : list Q := match r with Ok l => ql l | Err _ => [7777%Q] end.
Definition qrmat (r : res mat) : list (list Q) := match r with Ok m => map ql m | Err _ => [] end.
Definition qp (p : v2) : list Q := [this (p0 p); this (p1 p)].
Definition pz (a b : Z) : v2 := mkp (zq a) (zq b).
(* the square root on the numbers of the cases *)
Definition sq5 (x : Qc) : Qc := if qeq x (zq 25) then zq 5 else if qeq x (zq 169) then zq 13 else if qeq x 0 then 0 else sq x.
Lemma rect_mz n k m : length m = n -> (forallb (fun r => Nat.eqb (length r) k) m = true) -> rect n k (mz m).
Proof.
  intros L H. split; [unfold mz; now rewrite map_length|]. intros i Hi. rewrite forallb_forall in H. unfold mz.
  change (@nil Qc) with (lz []). rewrite map_nth. unfold lz. rewrite map_length. apply Nat.eqb_eq, H, nth_In. lia.
Qed.
Ltac rectz := apply rect_mz; reflexivity.
Ltac nz := let H := fresh in intro H; apply (f_equal this) in H; vm_compute in H; discriminate H.

(* ---- C193: inner products ---- *)
Theorem C193_inner_products :
  (forall a b, length a = length b -> scalar_dot a b = Ok (inner a b)) /\
  (forall n k a b junk, rect n k a -> rect n k b -> length junk = n -> dot a b junk = Ok (row_products a b)).
Proof. split; [exact scalar_dot_ok|exact dot_ok]. Qed.
Print Assumptions C193_inner_products.
Example C193_case : rect 2 3 (mz [[1; 2; 3]; [4; 5; 6]]%Z) /\
  qrlist (dot (mz [[1; 2; 3]; [4; 5; 6]]%Z) (mz [[1; 0; 2]; [0; -1; 1]]%Z) (lz [9; 9]%Z)) = [7%Q; 1%Q].
Proof. split; [rectz|]. vm_compute. reflexivity. Qed.

(* ---- C194: products that add to memory nobody has set ---- *)
Theorem C194_products_refuted :
  (forall n k a b junk, rect n k a -> rect n k b -> length junk = n ->
     dot_array_x_array a b junk = Ok (plus_list junk (row_products a b))) /\
  (forall n k v a junk, rect n k a -> length v = k -> length junk = n ->
     dot_vec_x_array v a junk = Ok (plus_list junk (vec_products v a)) /\
     dot_array_x_vec a v junk = Ok (plus_list junk (vec_products v a))) /\
  (forall n k m a b junk, (0 < k)%nat -> rect n k a -> rect k m b -> rect n m junk ->
     exists r, matmul_array [a] [b] [junk] = Ok [r] /\ rect n m r /\
     forall i j, (i < n)%nat -> (j < m)%nat ->
       nth j (nth i r []) 0 = nth j (nth i junk []) 0 + sumn k (fun l => nth l (nth i a []) 0 * nth j (nth l b []) 0)).
Proof.
  split; [exact dot_axa_ok|]. split; [exact dot_vxa_ok|]. intros n k m a b junk Hk Ra Rb Rj.
  destruct (matmul_one_ok n k m a b junk Hk Ra Rb Rj) as [r [E H]]. exists r. split; auto. cbn [matmul_array]. now rewrite E.
Qed.
Print Assumptions C194_products_refuted.
(* memory left at 100 shows in the result *)
Example C194_case :
  qrlist (dot_array_x_array (mz [[1; 2]]%Z) (mz [[3; 4]]%Z) (lz [100]%Z)) = [111%Q] /\
  qrlist (dot_vec_x_array (lz [1; 2]%Z) (mz [[3; 4]]%Z) (lz [100]%Z)) = [111%Q] /\
  qrlist (dot_array_x_vec (mz [[3; 4]]%Z) (lz [1; 2]%Z) (lz [100]%Z)) = [111%Q] /\
  qrmat (matmul_one (mz [[1; 2]]%Z) (mz [[3]; [4]]%Z) (mz [[100]]%Z)) = [[111%Q]].
Proof. repeat split; vm_compute; reflexivity. Qed.
Lemma plus_zero k l : length l = k -> plus_list (repeat 0 k) l = l.
Proof.
  intro L. apply list_ext0; unfold plus_list; rewrite map_length, seq_length, repeat_length; auto.
  intros i Hi. rewrite nth_map_seq by auto. rewrite nth_repeat. ring.
Qed.
(* memory that happens to be zero gives the products *)
Theorem C194_products_partial :
  (forall n k a b, rect n k a -> rect n k b -> dot_array_x_array a b (repeat 0 n) = Ok (row_products a b)) /\
  (forall n k v a, rect n k a -> length v = k ->
     dot_vec_x_array v a (repeat 0 n) = Ok (vec_products v a) /\ dot_array_x_vec a v (repeat 0 n) = Ok (vec_products v a)).
Proof.
  split.
  - intros n k a b Ra Rb. rewrite (dot_axa_ok n k) by (auto; apply repeat_length). f_equal. apply plus_zero.
    unfold row_products. rewrite map_length, seq_length. apply Ra.
  - intros n k v a Ra Lv. destruct (dot_vxa_ok n k v a (repeat 0 n) Ra Lv (repeat_length _ _)) as [-> ->].
    rewrite plus_zero; auto. unfold vec_products. rewrite map_length, seq_length. apply Ra.
Qed.
Print Assumptions C194_products_partial.
Example C194_partial_case : qrlist (dot_vec_x_array (lz [1; 2]%Z) (mz [[3; 4]; [5; 6]]%Z) (repeat 0 2)) = [11%Q; 17%Q].
Proof. vm_compute. reflexivity. Qed.

(* ---- C195: lengths and unit vectors ---- *)
Theorem C195_unit : forall sqrt,
  (forall v, vnorm sqrt v = Ok (sqrt (inner v v))) /\
  (forall a junk, length junk = length a -> norm sqrt a junk = Ok (map (fun row => sqrt (inner row row)) a)) /\
  (forall v junk, length junk = length v -> is_sqrt (sqrt (inner v v)) (inner v v) -> ~ (forall x, In x v -> x = 0) ->
     exists u, vunit sqrt v junk = Ok u /\ unit_of v u) /\
  (forall v junk, v <> [] -> sqrt 0 = 0 -> (forall x, In x v -> x = 0) -> vunit sqrt v junk = Err ZeroDivision) /\
  (forall a junk, length junk = length a -> (forall i, (i < length a)%nat -> length (nth i junk []) = length (nth i a [])) ->
     (forall v, In v a -> is_sqrt (sqrt (inner v v)) (inner v v) /\ ~ (forall x, In x v -> x = 0)) ->
     exists r, unit_rows sqrt a junk = Ok r /\ length r = length a /\
       forall i, (i < length a)%nat -> unit_of (nth i a []) (nth i r [])).
Proof.
  intro sqrt. split; [intro; apply vnorm_ok|]. split; [intros; now apply norm_ok|]. split; [intros; now apply vunit_ok|].
  split; [intros; now apply vunit_zero|]. intros; now apply unit_rows_ok.
Qed.
Print Assumptions C195_unit.
Example C195_case : is_sqrt (sq5 (inner (lz [3; 4]%Z) (lz [3; 4]%Z))) (inner (lz [3; 4]%Z) (lz [3; 4]%Z)) /\
  qrlist (vunit sq5 (lz [3; 4]%Z) (lz [9; 9]%Z)) = [3 # 5; 4 # 5]%Q /\
  qrmat (unit_rows sq5 (mz [[3; 4]; [5; 12]]%Z) (mz [[9; 9]; [9; 9]]%Z)) = [[3 # 5; 4 # 5]; [5 # 13; 12 # 13]]%Q /\
  qrlist (norm sq5 (mz [[3; 4]; [5; 12]]%Z) (lz [9; 9]%Z)) = [5%Q; 13%Q].
Proof. split; [sqrt_case|]. split; [|split]; vm_compute; reflexivity. Qed.

(* ---- C196: normalising in place ---- *)
Theorem C196_normalize : forall sqrt v, is_sqrt (sqrt (inner v v)) (inner v v) ->
  (tiny < sqrt (inner v v) -> exists u, scalar_normalize sqrt v = Ok (u, 1%Z) /\ unit_of v u) /\
  (sqrt (inner v v) <= tiny -> scalar_normalize sqrt v = Ok (v, 0%Z)).
Proof. intros sqrt v H. split; intro K; [now apply normalize_ok|now apply normalize_short]. Qed.
Print Assumptions C196_normalize.
Example C196_case : tiny < sq5 (inner (lz [3; 4]%Z) (lz [3; 4]%Z)) /\ sq5 (inner (lz [0; 0]%Z) (lz [0; 0]%Z)) <= tiny /\
  match scalar_normalize sq5 (lz [3; 4]%Z) with Ok (u, c) => (ql u, c) | Err _ => ([], 7%Z) end = ([3 # 5; 4 # 5]%Q, 1%Z) /\
  match scalar_normalize sq5 (lz [0; 0]%Z) with Ok (u, c) => (ql u, c) | Err _ => ([], 7%Z) end = ([0; 0]%Q, 0%Z).
Proof. split; [apply qlt_true; vm_compute; reflexivity|]. split; [apply qle_true; vm_compute; reflexivity|]. split; vm_compute; reflexivity. Qed.

(* ---- C197: support points ---- *)
Theorem C197_support :
  (forall n vs d, rect n (length d) vs -> (0 < n)%nat -> exists k, first_max vs d k /\ support_vector vs d = Ok (nth k vs [])) /\
  (forall d, support_vector [] d = Ok (repeat 0 (length d))) /\
  (forall n vs ds k, rect n k vs -> (0 < n)%nat -> (forall d, In d ds -> length d = k) ->
     exists r, multi_support_vector vs ds = Ok r /\ length r = length ds /\
       forall i, (i < length ds)%nat -> exists m, first_max vs (nth i ds []) m /\ nth i r [] = nth m vs []).
Proof. split; [exact support_ok|]. split; [exact support_empty|exact multi_support_ok]. Qed.
Print Assumptions C197_support.
Definition square : mat := mz [[0; 0]; [2; 0]; [2; 2]; [0; 2]]%Z.
Example C197_case : rect 4 2 square /\ qrlist (support_vector square (lz [1; 0]%Z)) = [2%Q; 0%Q] /\
  qrlist (support_vector square (lz [-3; 1]%Z)) = [0%Q; 2%Q] /\
  qrmat (multi_support_vector square (mz [[1; 1]; [-1; -1]]%Z)) = [[2; 2]; [0; 0]]%Q.
Proof. split; [rectz|]. split; [|split]; vm_compute; reflexivity. Qed.

(* ---- C198: removing the component along another vector, row by row ---- *)
Theorem C198_gram_schmidt_rows_refuted : forall n k a b junk, rect n k a -> rect n k b -> rect n k junk -> (0 < k)%nat ->
  exists r, gram_schmidt_rows a b junk = Ok r /\ rect n k r /\
  (forall i j, (i < n)%nat -> (j < k)%nat ->
     nth j (nth i r []) 0 = nth (k - 1) (nth i b []) 0 - nth (k - 1) (nth i a []) 0 * inner (nth i b []) (nth i a [])) /\
  (forall i, (i < n)%nat -> inner (nth i r []) (nth i a []) =
     (nth (k - 1) (nth i b []) 0 - nth (k - 1) (nth i a []) 0 * inner (nth i b []) (nth i a [])) * sumn k (fun j => nth j (nth i a []) 0)).
Proof.
  intros n k a b junk Ra Rb Rj Hk. destruct (gs_rows_ok n k a b junk Ra Rb Rj Hk) as [r [E [R H]]]. exists r. split; auto. split; auto. split; auto.
  intros i Hi. apply (gs_rows_inner n k a b junk r i); auto.
Qed.
Print Assumptions C198_gram_schmidt_rows_refuted.
(* a is the x axis, b = (2, 5): the answer should be (0, 5) *)
Example C198_case : rect 1 2 (mz [[1; 0]]%Z) /\ qrmat (gram_schmidt_rows (mz [[1; 0]]%Z) (mz [[2; 5]]%Z) (mz [[9; 9]]%Z)) = [[5; 5]]%Q.
Proof. split; [rectz|]. vm_compute. reflexivity. Qed.

(* ---- C199: removing the component along another vector ---- *)
Theorem C199_gram_schmidt_refuted : forall a b, scalar_gram_schmidt SameB a b = zero3.
Proof. exact sgs_same. Qed.
Print Assumptions C199_gram_schmidt_refuted.
Theorem C199_gram_schmidt_partial : forall t a b, t <> SameB -> dot3 a a = 1 ->
  scalar_gram_schmidt t a b = along b (- dot3 b a) a /\ dot3 (scalar_gram_schmidt t a b) a = 0.
Proof. intros t a b N U. destruct (sgs_ok t a b N) as [E1 E2]. split; auto. rewrite E2, U. ring. Qed.
Print Assumptions C199_gram_schmidt_partial.
Example C199_case : dot3 (v 1 0 0) (v 1 0 0) = 1 /\ qv (scalar_gram_schmidt Fresh (v 1 0 0) (v 2 5 3)) = [0%Q; 5%Q; 3%Q] /\
  qv (scalar_gram_schmidt SameA (v 1 0 0) (v 2 5 3)) = [0%Q; 5%Q; 3%Q] /\ qv (scalar_gram_schmidt SameB (v 1 0 0) (v 2 5 3)) = [0%Q; 0%Q; 0%Q].
Proof. split; [canon|]. repeat split; vm_compute; reflexivity. Qed.

(* ---- C200: two by two systems ---- *)
Theorem C200_solve : forall m y old, exists x b, solve2x2 m y old = Ok (x, b) /\
  (b = true <-> det2 m <> 0) /\ (b = true -> forall z, app2 m z = y <-> z = x) /\ (b = false -> x = old).
Proof. exact solve2x2_ok. Qed.
Print Assumptions C200_solve.
Theorem C200_invert : forall j old, exists x c, cinvert_jacobian j old = Ok (x, c) /\
  ((c = 0%Z /\ det2 j <> 0 /\ mul2 j x = id2 /\ mul2 x j = id2) \/ (c = (-1)%Z /\ det2 j = 0 /\ x = old)).
Proof. exact cinvert_ok. Qed.
Print Assumptions C200_invert.
Definition mm (a b c d : Z) : m2 := mkm (zq a) (zq b) (zq c) (zq d).
Definition qsol (r : res (v2 * bool)) : list Q * bool := match r with Ok (x, b) => (qp x, b) | Err _ => ([], false) end.
Definition qm (m : m2) : list Q := [this (m00 m); this (m01 m); this (m10 m); this (m11 m)].
Example C200_case : qsol (solve2x2 (mm 2 1 1 3) (pz 5 10) (pz 9 9)) = ([1; 3]%Q, true) /\
  qsol (solve2x2 (mm 2 1 4 2) (pz 5 10) (pz 9 9)) = ([9; 9]%Q, false) /\
  match cinvert_jacobian (mm 2 1 1 1) (mm 9 9 9 9) with Ok (x, c) => (qm x, c) | Err _ => ([], 7%Z) end = ([1; -1; -1; 2]%Q, 0%Z).
Proof. repeat split; vm_compute; reflexivity. Qed.

(* ---- C201: solving with the right-hand side as result ---- *)
Theorem C201_solve_in_place_refuted : forall m y, det2 m <> 0 ->
  exists x x', solve2x2 m y y = Ok (x, true) /\ solve2x2_inplace m y = Ok (x', true) /\ p0 x' = p0 x /\
  p1 x' - p1 x = m10 m * (p0 y - p0 x) / det2 m.
Proof. exact solve2x2_inplace_ok. Qed.
Print Assumptions C201_solve_in_place_refuted.
Example C201_case : det2 (mm 2 1 1 3) <> 0 /\ qsol (solve2x2_inplace (mm 2 1 1 3) (pz 5 10)) = ([1; 19 # 5]%Q, true).
Proof. split; [nz|]. vm_compute. reflexivity. Qed.
Theorem C201_solve_in_place_partial : forall m y, det2 m <> 0 -> m10 m = 0 -> solve2x2_inplace m y = solve2x2 m y y.
Proof.
  intros m y D Z. destruct (solve2x2_inplace_ok m y D) as [x [x' [-> [-> [E0 E1]]]]]. f_equal. f_equal. apply v2_ext; auto.
  rewrite Z in E1. replace (0 * (p0 y - p0 x) / det2 m) with 0 in E1 by (field; auto). qlra.
Qed.
Print Assumptions C201_solve_in_place_partial.
Example C201_partial_case : qsol (solve2x2_inplace (mm 2 1 0 3) (pz 5 9)) = ([1; 3]%Q, true).
Proof. vm_compute. reflexivity. Qed.

(* ---- C202: inverting many matrices at once ---- *)
Theorem C202_invert_many_refuted : forall js junk, invert_jacobian (J3 js) junk = Err ValueError.
Proof. reflexivity. Qed.
Print Assumptions C202_invert_many_refuted.
Theorem C202_invert_partial : forall j junk, exists x c, invert_jacobian (J2 j) junk = Ok (x, c) /\
  ((c = 0%Z /\ det2 j <> 0 /\ mul2 j x = id2 /\ mul2 x j = id2) \/ (c = (-1)%Z /\ det2 j = 0 /\ x = junk)).
Proof. exact cinvert_ok. Qed.
Print Assumptions C202_invert_partial.
Example C202_case : invert_jacobian (J3 [mm 1 0 0 1]) (mm 9 9 9 9) = Err ValueError /\
  match invert_jacobian (J2 (mm 0 1 1 0)) (mm 9 9 9 9) with Ok (x, c) => (qm x, c) | Err _ => ([], 7%Z) end = ([0; 1; 1; 0]%Q, 0%Z).
Proof. split; vm_compute; reflexivity. Qed.

(* ---- C203: coordinates of a vector along two others ---- *)
Theorem C203_decompose :
  (forall v a b junk, length a = length v -> length b = length v -> independent a b ->
     exists c, decompose_vector v a b junk = Ok c /\
     forall x y, inner (residual v a b (p0 c) (p1 c)) (residual v a b (p0 c) (p1 c)) <= inner (residual v a b x y) (residual v a b x y) /\
       (inner (residual v a b (p0 c) (p1 c)) (residual v a b (p0 c) (p1 c)) = inner (residual v a b x y) (residual v a b x y) -> c = mkp x y)) /\
  (forall v a b junk x y, length a = length v -> length b = length v -> independent a b ->
     (forall i, (i < length v)%nat -> nth i v 0 = x * nth i a 0 + y * nth i b 0) -> decompose_vector v a b junk = Ok (mkp x y)) /\
  (forall vs a b result n, rect n (length a) vs -> length b = length a -> length result = n ->
     exists r, decompose_vectors vs a b result = Ok r /\ length r = n /\
       forall i, (i < n)%nat -> decompose_vector (nth i vs []) a b (nth i result (mkp 0 0)) = Ok (nth i r (mkp 0 0))).
Proof. split; [exact decompose_ok|]. split; [exact decompose_exact|exact decompose_rows]. Qed.
Print Assumptions C203_decompose.
Definition qrp (r : res v2) : list Q := match r with Ok p => qp p | Err _ => [] end.
Example C203_case : independent (lz [1; 0; 0]%Z) (lz [1; 1; 0]%Z) /\
  qrp (decompose_vector (lz [5; 2; 7]%Z) (lz [1; 0; 0]%Z) (lz [1; 1; 0]%Z) (pz 9 9)) = [3%Q; 2%Q] /\
  match decompose_vectors (mz [[5; 2; 7]; [1; 1; 0]]%Z) (lz [1; 0; 0]%Z) (lz [1; 1; 0]%Z) [pz 9 9; pz 9 9] with Ok l => map qp l | Err _ => [] end
    = [[3; 2]; [0; 1]]%Q.
Proof.
  split.
  - intros x y H. pose proof (H 1%nat ltac:(cbn; lia)) as H1. pose proof (H 0%nat ltac:(cbn; lia)) as H0. cbn [lz map nth] in H0, H1.
    change (zq 1) with 1 in *. change (zq 0) with 0 in *. split; qlra.
  - split; vm_compute; reflexivity.
Qed.

(* ---- C204: coordinates along parallel vectors ---- *)
Theorem C204_decompose_dependent_refuted : forall v a b junk, length a = length v -> length b = length v -> ~ independent a b ->
  decompose_vector v a b junk = Ok junk.
Proof. exact decompose_dependent. Qed.
Print Assumptions C204_decompose_dependent_refuted.
Example C204_case : ~ independent (lz [1; 0]%Z) (lz [2; 0]%Z) /\
  qrp (decompose_vector (lz [4; 0]%Z) (lz [1; 0]%Z) (lz [2; 0]%Z) (pz 9 9)) = [9%Q; 9%Q].
Proof.
  split; [|vm_compute; reflexivity]. intro H. destruct (H (zq 2) (- (1))) as [E _]; [|revert E; nz].
  intros [|[|i]] Hi; [canon|canon|cbn in Hi; lia].
Qed.

(* ---- C205: projections and closest points on a line ---- *)
Theorem C205_closest :
  (forall a b, b <> zero3 -> vector_projection a b = Ok (along zero3 (dot3 a b / dot3 b b) b)) /\
  (forall a, vector_projection a zero3 = Err ZeroDivision) /\
  (forall o d q, d <> zero3 -> exists p, closest_point_on_ray o d q = Ok p /\ closest_on_line o d q p) /\
  (forall a b q, a <> b -> exists p, closest_point_on_line a b q = Ok p /\ closest_on_line a (minus3 b a) q p).
Proof. split; [exact proj_ok|]. split; [exact proj_zero|]. split; [exact ray_line_ok|exact segment_line_ok]. Qed.
Print Assumptions C205_closest.
Example C205_case : v 1 1 0 <> v 3 1 0 /\ qrv (closest_point_on_line (v 1 1 0) (v 3 1 0) (v 5 4 2)) = [5%Q; 1%Q; 0%Q] /\
  qrv (vector_projection (v 3 4 0) (v 0 2 0)) = [0%Q; 4%Q; 0%Q].
Proof.
  split; [intro H; apply (f_equal (fun p => this (vx p))) in H; vm_compute in H; discriminate H|]. split; vm_compute; reflexivity.
Qed.

(* ---- C206: the closest point of a ray is on the ray ---- *)
Theorem C206_ray_refuted : forall o d q p, d <> zero3 -> dot3 (minus3 q o) d < 0 -> closest_point_on_ray o d q = Ok p ->
  forall t, 0 <= t -> p <> along o t d.
Proof. exact ray_behind. Qed.
Print Assumptions C206_ray_refuted.
Theorem C206_ray_partial : forall o d q, d <> zero3 -> 0 <= dot3 (minus3 q o) d ->
  exists t, 0 <= t /\ closest_point_on_ray o d q = Ok (along o t d) /\ closest_on_line o d q (along o t d).
Proof.
  intros o d q N H. destruct (ray_line_ok o d q N) as [p [E C]]. pose proof C as [[t ->] [_ O]]. exists t. split; auto.
  assert (K : dot3 (minus3 q (along o t d)) d = dot3 (minus3 q o) d - t * dot3 d d) by (v3d; ring). rewrite K in O.
  pose proof (dot_self_nonneg d) as P. destruct (Qclt_le_dec t 0) as [L|L]; auto. exfalso.
  assert (NZ : dot3 d d <> 0) by (intro Z; apply N, dot_self_zero; auto).
  apply Qcle_lt_or_eq in P. destruct P as [P|P]; [|congruence].
  assert (0 < (- t) * dot3 d d) by (apply qc_mul_pos; auto; qlra).
  assert ((- t) * dot3 d d = - (t * dot3 d d)) by ring. qlra.
Qed.
Print Assumptions C206_ray_partial.
Example C206_case : dot3 (minus3 (v (-2) 1 0) (v 0 0 0)) (v 1 0 0) < 0 /\ qrv (closest_point_on_ray (v 0 0 0) (v 1 0 0) (v (-2) 1 0)) = [-2; 0; 0]%Q.
Proof. split; [apply qlt_true; vm_compute; reflexivity|vm_compute; reflexivity]. Qed.

(* ---- C207: the closest point functions of the vector module ---- *)
Theorem C207_vector_closest_refuted :
  (forall o d q r, d <> zero3 -> vec_closest_point_on_ray o d q = Ok r -> (closest_on_line o d q r <-> o = zero3)) /\
  (forall a b q r, a <> b -> vec_closest_point_on_line a b q = Ok r -> (closest_on_line a (minus3 b a) q r <-> a = zero3)).
Proof. split; [exact vec_ray_wrong|exact vec_line_wrong]. Qed.
Print Assumptions C207_vector_closest_refuted.
Theorem C207_vector_closest_partial :
  (forall o d q, d <> zero3 -> exists r p, vec_closest_point_on_ray o d q = Ok r /\ closest_point_on_ray o d q = Ok p /\ p = along r 1 o) /\
  (forall a b q, a <> b -> exists r p, vec_closest_point_on_line a b q = Ok r /\ closest_point_on_line a b q = Ok p /\ p = along r 1 a).
Proof. split; [exact vec_ray_ok|exact vec_line_ok]. Qed.
Print Assumptions C207_vector_closest_partial.
Example C207_case : qrv (vec_closest_point_on_line (v 1 1 0) (v 3 1 0) (v 5 4 2)) = [4%Q; 0%Q; 0%Q].
Proof. vm_compute. reflexivity. Qed.

(* ---- C208: the closest point function of the surface marching module ---- *)
Theorem C208_marching_closest_refuted : forall a b q p, a <> b -> (forall t, q <> along a t (minus3 b a)) ->
  pp_closest_point_on_line a b q = Ok p -> p = a \/ forall t, p <> along a t (minus3 b a).
Proof. exact pp_line_wrong. Qed.
Print Assumptions C208_marching_closest_refuted.
Theorem C208_marching_closest_partial : forall a b q, a <> b -> exists p k, pp_closest_point_on_line a b q = Ok p /\
  p = along a k (minus3 q a) /\ k * dist2 b a = vx b - vx a + (vy b - vy a) + (vz b - vz a).
Proof. exact pp_line_ok. Qed.
Print Assumptions C208_marching_closest_partial.
Example C208_case : (forall t, v 0 4 0 <> along (v 0 0 0) t (minus3 (v 2 0 0) (v 0 0 0))) /\
  qrv (pp_closest_point_on_line (v 0 0 0) (v 2 0 0) (v 0 4 0)) = [0%Q; 2%Q; 0%Q].
Proof.
  split; [|vm_compute; reflexivity]. intros t H. apply v3_inv in H. destruct H as [_ [H _]]. cbn [vx vy vz along minus3 v] in H.
  replace (zq 0 + t * (zq 0 - zq 0)) with (zq 0) in H by ring. revert H. nz.
Qed.

(* ---- C209: orientation of a closed polygon ---- *)
Theorem C209_orientation :
  (forall p l, (points_order ((p :: l) ++ [p]) = 0%Z <-> area2 (p :: l) < 0) /\
               (points_order ((p :: l) ++ [p]) = 1%Z <-> 0 < area2 (p :: l)) /\
               (points_order ((p :: l) ++ [p]) = (-1)%Z <-> area2 (p :: l) = 0)) /\
  (forall pts, (3 <= length pts)%nat -> exists c, features_points_order pts true = Ok c /\
     (c = 0%Z <-> area2 pts < 0) /\ (c = 1%Z <-> 0 < area2 pts) /\ (c = (-1)%Z <-> area2 pts = 0)) /\
  (forall pts close, (length pts < 3)%nat -> features_points_order pts close = Err ValueError) /\
  (forall t p l, points_order (map (shift2 t) ((p :: l) ++ [p])) = points_order ((p :: l) ++ [p])) /\
  (forall l, points_order (rev l) = match points_order l with 0%Z => 1%Z | 1%Z => 0%Z | c => c end) /\
  (forall ls, multi_points_order ls = map points_order ls).
Proof.
  split; [exact order_closed|]. split; [exact features_closed|]. split; [exact features_short|]. split; [exact order_shift_closed|].
  split; [exact order_rev|reflexivity].
Qed.
Print Assumptions C209_orientation.
Example C209_case : this (area2 [pz 0 0; pz 2 0; pz 2 2; pz 0 2]) = 8%Q /\
  features_points_order [pz 0 0; pz 2 0; pz 2 2; pz 0 2] true = Ok 1%Z /\
  features_points_order [pz 0 2; pz 2 2; pz 2 0; pz 0 0] true = Ok 0%Z /\
  points_order [pz 0 0; pz 1 1; pz 2 2; pz 0 0] = (-1)%Z.
Proof. repeat split; vm_compute; reflexivity. Qed.

(* ---- C210: orientation of a polygon whose first point is not repeated ---- *)
Theorem C210_open_refuted : forall p l, p0 p <> p0 (last (p :: l) (mkp 0 0)) ->
  exists t t', points_order (map (shift2 t) (p :: l)) = 0%Z /\ points_order (map (shift2 t') (p :: l)) = 1%Z.
Proof. exact order_open. Qed.
Print Assumptions C210_open_refuted.
Example C210_case : features_points_order [pz 0 0; pz 2 0; pz 2 2] false = Ok (-1)%Z /\
  points_order [pz 0 0; pz 2 0; pz 2 2] = (-1)%Z /\ points_order (map (shift2 (pz 0 5)) [pz 0 0; pz 2 0; pz 2 2]) = 0%Z /\
  points_order (map (shift2 (pz 0 (-5))) [pz 0 0; pz 2 0; pz 2 2]) = 1%Z.
Proof. repeat split; vm_compute; reflexivity. Qed.

(* ---- C211: cross products ---- *)
Theorem C211_cross :
  (forall a b junk, length b = length a -> length junk = length a ->
     cross_rows a b junk = Ok (map (fun i => cross3 (nth i a zero3) (nth i b zero3)) (seq 0 (length a)))) /\
  (forall a b, dot3 (cross3 a b) a = 0 /\ dot3 (cross3 a b) b = 0 /\ cross3 a b = neg3 (cross3 b a) /\
     dot3 (cross3 a b) (cross3 a b) + dot3 a b * dot3 a b = dot3 a a * dot3 b b) /\
  (forall a b c d, dot3 (normal_from_4pt a b c d) (minus3 c a) = 0 /\ dot3 (normal_from_4pt a b c d) (minus3 d b) = 0) /\
  (forall o n a b c d, n <> zero3 -> on_plane o n a -> on_plane o n b -> on_plane o n c -> on_plane o n d ->
     exists s, normal_from_4pt a b c d = along zero3 s n).
Proof. split; [exact cross_rows_ok|]. split; [exact cross_orth|]. split; [exact normal4_ok|exact normal4_plane]. Qed.
Print Assumptions C211_cross.
Example C211_case : on_plane (v 0 0 1) (v 0 0 1) (v 0 0 1) /\ on_plane (v 0 0 1) (v 0 0 1) (v 2 2 1) /\
  qv (normal_from_4pt (v 0 0 1) (v 2 0 1) (v 2 2 1) (v 0 2 1)) = [0%Q; 0%Q; 8%Q] /\
  match cross_rows [v 1 0 0; v 0 1 0] [v 0 1 0; v 1 0 0] [v 9 9 9; v 9 9 9] with Ok l => map qv l | Err _ => [] end = [[0; 0; 1]; [0; 0; -1]]%Q.
Proof. split; [canon|]. split; [canon|]. split; vm_compute; reflexivity. Qed.

(* ---- C212: spherical coordinates ---- *)
Theorem C212_spherical : forall sqrt sin cos atan2,
  (forall p, let rho := sqrt (vx p * vx p + vy p * vy p) in
     let r := sqrt (vx p * vx p + vy p * vy p + vz p * vz p) in
     polar sin cos atan2 (vz p) rho r -> polar sin cos atan2 (vx p) (vy p) rho ->
     spherical_to_cartesian sin cos (cartesian_to_spherical sqrt atan2 p) = p) /\
  (forall p, 0 <= vx p ->
     cos (vy p) * cos (vy p) + sin (vy p) * sin (vy p) = 1 -> cos (vz p) * cos (vz p) + sin (vz p) * sin (vz p) = 1 ->
     is_sqrt (sqrt (vx p * vx p)) (vx p * vx p) ->
     vx (cartesian_to_spherical sqrt atan2 (spherical_to_cartesian sin cos p)) = vx p).
Proof. intros sqrt sin cos atan2. split; [apply spherical_round|apply spherical_radius]. Qed.
Print Assumptions C212_spherical.
(* angles of the case are named by the tangent of their half; that of (x, y) of length r is y / (r + x) *)
Definition csin (t : Qc) : Qc := zq 2 * t / (1 + t * t).
Definition ccos (t : Qc) : Qc := (1 - t * t) / (1 + t * t).
Definition catan (y x : Qc) : Qc := y / (sq5 (x * x + y * y) + x).
Example C212_case : polar csin ccos catan (zq 12) (zq 5) (zq 13) /\ polar csin ccos catan (zq 3) (zq 4) (zq 5) /\
  qv (cartesian_to_spherical sq5 catan (v 3 4 12)) = [13; 1 # 5; 1 # 2]%Q /\
  qv (spherical_to_cartesian csin ccos (vq 13 (1 # 5) (1 # 2))) = [3%Q; 4%Q; 12%Q].
Proof. split; [split; canon|]. split; [split; canon|]. split; vm_compute; reflexivity. Qed.

(* ---- C213: cylindrical coordinates ---- *)
Theorem C213_cylindrical_refuted : forall sqrt sin cos atan2,
  (forall p, let q := courtesan_to_cylindrical sqrt atan2 p in
     cos (vy q) * cos (vy q) + sin (vy q) * sin (vy q) = 1 ->
     is_sqrt (vx q) (vx p * vx p + vy p * vy p + vz p * vz p) -> vz p <> 0 ->
     cylindrical_to_xyz sin cos q <> p) /\
  (forall p, vz p = 0 -> let rho := sqrt (vx p * vx p + vy p * vy p) in rho <> 0 -> rho * cos (atan2 rho 0) = 0 -> vx p <> 0 ->
     cylindrical_to_xyz sin cos (courtesan_to_cylindrical sqrt atan2 p) <> p).
Proof. intros sqrt sin cos atan2. split; [apply cylindrical_round|apply cylindrical_flat]. Qed.
Print Assumptions C213_cylindrical_refuted.
Example C213_case : qv (courtesan_to_cylindrical sq5 catan (v 3 4 12)) = [13; 1 # 5; 12]%Q /\
  qv (cylindrical_to_xyz csin ccos (vq 13 (1 # 5) 12)) = [12%Q; 5%Q; 12%Q] /\
  qv (cylindrical_to_xyz csin ccos (courtesan_to_cylindrical sq5 catan (v 3 4 0))) = [0%Q; 5%Q; 0%Q].
Proof. repeat split; vm_compute; reflexivity. Qed.

(* ---- C214: closeness of numbers ---- *)
Theorem C214_close_refuted : forall atol rtol, 0 <= atol -> 0 < rtol ->
  exists a b, is_close a b atol rtol = true /\ is_close b a atol rtol = false.
Proof. exact close_asym. Qed.
Print Assumptions C214_close_refuted.
Theorem C214_close_partial : forall a b atol, 0 <= atol ->
  (forall rtol, 0 <= rtol -> is_close a a atol rtol = true) /\ is_close a b atol 0 = is_close b a atol 0.
Proof.
  intros a b atol A. split; [intros rtol R; now apply close_refl|]. unfold is_close.
  replace (0 * fabs b) with 0 by ring. replace (0 * fabs a) with 0 by ring. f_equal. unfold fabs.
  destruct (qlt (a - b) 0) eqn:E1; destruct (qlt (b - a) 0) eqn:E2; try ring.
  - apply qlt_true in E1. apply qlt_true in E2. qlra.
  - apply qlt_false in E1. apply qlt_false in E2. qlra.
Qed.
Print Assumptions C214_close_partial.
Example C214_case : is_close (zq 9) (zq 10) 0 (Q2Qc (1 # 10)) = true /\ is_close (zq 10) (zq 9) 0 (Q2Qc (1 # 10)) = false.
Proof. split; vm_compute; reflexivity. Qed.
