(* Theorems about NURBS surfaces: evaluation, boundary, bounding box, knot
   insertion, splitting, normalisation, subdivision and decomposition. *)
From Coq Require Import List ZArith Lia Bool QArith Qcanon Permutation Sorted.
From Verif Require Import Common ListLib QcLib ArrZ SplineTheory SplineTheory2 NurbsModel NurbsSpec NurbsProofs NurbsProofs2 NurbsProofs3 NurbsEditModel NurbsEditSpec NurbsProps NurbsEditProps SurfModel SurfSpec SurfProofs1 SurfProofs2 SurfProofs3 SurfProofs4 SurfProofs5.
Import ListNotations.
Local Open Scope Z_scope.
Local Open Scope Qc_scope.

(* a 4 x 3 rational patch, quadratic in u and linear in v *)
Definition patch_pts : grid :=
  [ [row 0 0 0 1; row 0 1 2 1; row 0 4 0 2];
    [row 1 0 1 1; row 2 2 6 2; row 1 2 1 1];
    [row 2 0 1 1; row 6 3 0 3; row 2 2 (-1) 1];
    [row 6 0 0 2; row 3 1 1 1; row 3 2 0 1] ]%Z.
Definition patch : surface :=
  mksurf patch_pts 2 1 (map qz [0; 0; 0; 1; 2; 2; 2]%Z) (map qz [0; 0; 1; 3; 3]%Z) ((qz 0, qz 2), (qz 0, qz 3)).
Definition noise (i j : Z) : pt := mkpt (qz (7 * i + j)) (qz 9) (qz (- i)) (qz 5).
Definition noises (k : nat) : Z -> Z -> pt := fun i j => noise (i + Z.of_nat k) j.
Definition noisess (k : nat) : nat -> Z -> Z -> pt := fun l => noises (k + l).

Lemma patch_valid : valid_surface patch.
Proof.
  split; [|split].
  - split; [reflexivity|]. repeat constructor.
  - apply valid_knotsb_ok. vm_compute. auto.
  - apply valid_knotsb_ok. vm_compute. auto.
Qed.
Lemma patch_weights : weights_positive patch.
Proof. repeat constructor; vm_compute; reflexivity. Qed.
Lemma patch_current : interval_current patch.
Proof. reflexivity. Qed.

Definition out_pt (r : res (Qc * Qc * Qc)) : list Q :=
  match r with Ok (x, y, z) => [this x; this y; this z] | Err _ => [] end.
Definition out_kn (l : list Qc) : list Q := map this l.

(* ---- C156: evaluation is the tensor product NURBS definition ---- *)
Theorem C156_evaluate_surface : forall s u v, valid_surface s -> weights_positive s -> in_dom s u v ->
  evaluate_surface s u v = Ok (nurbs_surface_point s u v).
Proof. exact evaluate_surface_pos. Qed.
Print Assumptions C156_evaluate_surface.

(* the array holds w*P and w: control_points gives the P *)
Theorem C156_control_points : forall s, weights_positive s ->
  control_points s = Ok (map (map to_space) (s_pts s)).
Proof. exact control_points_ok. Qed.
Print Assumptions C156_control_points.

Example C156_case : valid_surface patch /\ weights_positive patch /\ in_dom patch (qf 3 2) (qf 1 2) /\
  out_pt (evaluate_surface patch (qf 3 2) (qf 1 2)) = [61 # 29; 19 # 29; 14 # 29]%Q.
Proof.
  split; [exact patch_valid|]. split; [exact patch_weights|]. split; [|vm_compute; reflexivity].
  repeat split; apply qle_true; vm_compute; reflexivity.
Qed.

(* ---- C157: a clamped side of the surface is the curve of that side of the net ---- *)
Theorem C157_boundary_u : forall s v, valid_surface s -> weights_positive s -> clamped_u s ->
  knot (s_ku s) (s_du s) < knot (s_ku s) (s_du s + 1) -> dom_v s v ->
  evaluate_surface s (knot (s_ku s) 0) v
    = Ok (row_point (s_kv s) (s_nv s - 1) (s_dv s) (fun j => entry (s_pts s) 0 j) v) /\
  evaluate_surface s (knot (s_ku s) (s_nu s + s_du s)) v
    = Ok (row_point (s_kv s) (s_nv s - 1) (s_dv s) (fun j => entry (s_pts s) (s_nu s - 1) j) v).
Proof. exact boundary_u. Qed.
Print Assumptions C157_boundary_u.

Theorem C157_boundary_v : forall s u, valid_surface s -> weights_positive s -> clamped_v s ->
  knot (s_kv s) (s_dv s) < knot (s_kv s) (s_dv s + 1) -> dom_u s u ->
  evaluate_surface s u (knot (s_kv s) 0)
    = Ok (row_point (s_ku s) (s_nu s - 1) (s_du s) (fun i => entry (s_pts s) i 0) u) /\
  evaluate_surface s u (knot (s_kv s) (s_nv s + s_dv s))
    = Ok (row_point (s_ku s) (s_nu s - 1) (s_du s) (fun i => entry (s_pts s) i (s_nv s - 1)) u).
Proof. exact boundary_v. Qed.
Print Assumptions C157_boundary_v.

Theorem C157_corners : forall s, valid_surface s -> weights_positive s -> clamped_u s -> clamped_v s ->
  knot (s_ku s) (s_du s) < knot (s_ku s) (s_du s + 1) -> knot (s_kv s) (s_dv s) < knot (s_kv s) (s_dv s + 1) ->
  let u0 := knot (s_ku s) 0 in let u1 := knot (s_ku s) (s_nu s + s_du s) in
  let v0 := knot (s_kv s) 0 in let v1 := knot (s_kv s) (s_nv s + s_dv s) in
  let P i j := to_space (entry (s_pts s) i j) in
  evaluate_surface s u0 v0 = Ok (P 0 0)%Z /\ evaluate_surface s u0 v1 = Ok (P 0 (s_nv s - 1))%Z /\
  evaluate_surface s u1 v0 = Ok (P (s_nu s - 1) 0)%Z /\ evaluate_surface s u1 v1 = Ok (P (s_nu s - 1) (s_nv s - 1))%Z.
Proof. exact corners. Qed.
Print Assumptions C157_corners.

Lemma clampedb_ok p n U :
  (forallb (fun i => qeq (knot U i) (knot U 0)) (ixs (p + 1)) &&
   forallb (fun i => qeq (knot U (n + 1 + i)) (knot U (n + p + 1))) (ixs (p + 1)))%bool = true -> (0 <= p)%Z -> clamped p n U.
Proof.
  intros H Hp. apply andb_true_iff in H. destruct H as [A B]. rewrite forallb_forall in A, B.
  assert (I : forall i, (0 <= i <= p)%Z -> In i (ixs (p + 1))).
  { intros i Hi. unfold ixs. apply in_map_iff. exists (Z.to_nat i). split; [lia|]. apply in_seq. lia. }
  split; intros i Hi.
  - apply qeq_true. apply A. apply I. auto.
  - apply qeq_true. specialize (B (i - n - 1)%Z). replace (n + 1 + (i - n - 1))%Z with i in B by lia. apply B. apply I. lia.
Qed.
Example C157_case : clamped_u patch /\ clamped_v patch /\ knot (s_ku patch) 2 < knot (s_ku patch) 3 /\
  knot (s_kv patch) 1 < knot (s_kv patch) 2 /\
  out_pt (evaluate_surface patch (qz 2) (qz 0)) = [3; 0; 0]%Q /\ out_pt (evaluate_surface patch (qz 0) (qz 3)) = [0; 2; 0]%Q /\
  out_pt (evaluate_surface patch (qz 2) (qf 1 2)) = [3; 1 # 3; 1 # 3]%Q.
Proof.
  split; [apply clampedb_ok; [vm_compute; reflexivity|discriminate]|]. split; [apply clampedb_ok; [vm_compute; reflexivity|discriminate]|].
  split; [apply qlt_true; vm_compute; reflexivity|]. split; [apply qlt_true; vm_compute; reflexivity|].
  repeat split; vm_compute; reflexivity.
Qed.

(* ---- C158: the bounding box contains the surface and the control points ---- *)
Theorem C158_bbox : forall s u v, valid_surface s -> weights_positive s -> in_dom s u v ->
  exists b p, surface_bbox s = Ok b /\ evaluate_surface s u v = Ok p /\ in_box3 b p /\
    (forall q, In q (concat (s_pts s)) -> in_box3 b (to_space q)).
Proof. exact surface_in_bbox. Qed.
Print Assumptions C158_bbox.

Example C158_case : match surface_bbox patch with
  | Ok ((a, b, c), (d, e, f)) => out_kn [a; b; c; d; e; f] = [0; 0; -1; 3; 2; 3]%Q | _ => False end.
Proof. vm_compute. reflexivity. Qed.

(* ---- C159: knot insertion keeps the surface ---- *)
Theorem C159_insert_u : forall s t count junk, valid_surface s ->
  knot (s_ku s) (s_du s) <= t -> t < knot (s_ku s) (s_nu s) -> separated t (s_ku s) ->
  (0 <= count)%Z -> (count + multiplicity (s_ku s) t <= s_du s)%Z ->
  exists s', insert_knot_u s t count junk = Ok s' /\ valid_surface s' /\ interval_current s' /\
    s_du s' = s_du s /\ s_dv s' = s_dv s /\ s_nu s' = (s_nu s + count)%Z /\ s_nv s' = s_nv s /\
    Permutation (s_ku s') (repeat t (Z.to_nat count) ++ s_ku s) /\ s_kv s' = s_kv s /\
    (forall u v, in_dom s' u v <-> in_dom s u v) /\
    (forall u v, in_dom s u v -> evaluate_surface s' u v = evaluate_surface s u v).
Proof. exact insert_knot_u_ok. Qed.
Print Assumptions C159_insert_u.

Theorem C159_insert_v : forall s t count junk, valid_surface s ->
  knot (s_kv s) (s_dv s) <= t -> t < knot (s_kv s) (s_nv s) -> separated t (s_kv s) ->
  (0 <= count)%Z -> (count + multiplicity (s_kv s) t <= s_dv s)%Z ->
  exists s', insert_knot_v s t count junk = Ok s' /\ valid_surface s' /\ interval_current s' /\
    s_du s' = s_du s /\ s_dv s' = s_dv s /\ s_nu s' = s_nu s /\ s_nv s' = (s_nv s + count)%Z /\
    s_ku s' = s_ku s /\ Permutation (s_kv s') (repeat t (Z.to_nat count) ++ s_kv s) /\
    (forall u v, in_dom s' u v <-> in_dom s u v) /\
    (forall u v, in_dom s u v -> evaluate_surface s' u v = evaluate_surface s u v).
Proof. exact insert_knot_v_ok. Qed.
Print Assumptions C159_insert_v.

Example C159_case : separated (qf 3 2) (s_ku patch) /\ (2 + multiplicity (s_ku patch) (qf 3 2) <= 2)%Z /\
  match insert_knot_u patch (qf 3 2) 2 noise with
  | Ok s' => out_kn (s_ku s') = [0; 0; 0; 1; 3 # 2; 3 # 2; 2; 2; 2]%Q /\ out_pt (evaluate_surface s' (qf 7 4) (qz 2)) = out_pt (evaluate_surface patch (qf 7 4) (qz 2))
  | _ => False end /\
  match insert_knot_v patch (qz 2) 1 noise with
  | Ok s' => out_kn (s_kv s') = [0; 0; 1; 2; 3; 3]%Q /\ out_pt (evaluate_surface s' (qf 7 4) (qf 5 2)) = out_pt (evaluate_surface patch (qf 7 4) (qf 5 2))
  | _ => False end.
Proof. split; [apply sepb_ok; vq|]. split; [vm_compute; discriminate|]. split; vm_compute; auto. Qed.

(* ---- C160: splitting ---- *)
Theorem C160_split_u : forall s t tol junk, valid_surface s -> interval_current s -> 0 <= tol ->
  cuttable (s_du s) (s_nu s) (s_ku s) t tol ->
  exists s1 s2, split_surface_u s t tol junk = Ok (s1, s2) /\
    piece_of s s1 (fun u _ => u <= t) /\ piece_of s s2 (fun u _ => t <= u) /\
    s_int s1 = ((fst (fst (s_int s)), t), snd (s_int s)) /\ s_int s2 = ((t, snd (fst (s_int s))), snd (s_int s)).
Proof.
  intros s t tol junk V I T C. destruct (split_u_ok s t tol junk V I T C) as [s1 [s2 [E [Cu [I1 I2]]]]].
  destruct (cut_u_pieces _ _ _ _ Cu). exists s1, s2. auto.
Qed.
Print Assumptions C160_split_u.

Theorem C160_split_v : forall s t tol junk, valid_surface s -> interval_current s -> 0 <= tol ->
  cuttable (s_dv s) (s_nv s) (s_kv s) t tol ->
  exists s1 s2, split_surface_v s t tol junk = Ok (s1, s2) /\
    piece_of s s1 (fun _ v => v <= t) /\ piece_of s s2 (fun _ v => t <= v) /\
    s_int s1 = (fst (s_int s), (fst (snd (s_int s)), t)) /\ s_int s2 = (fst (s_int s), (t, snd (snd (s_int s)))).
Proof.
  intros s t tol junk V I T C. destruct (split_v_ok s t tol junk V I T C) as [s1 [s2 [E [Cu [I1 I2]]]]].
  destruct (cut_v_pieces _ _ _ _ Cu). exists s1, s2. auto.
Qed.
Print Assumptions C160_split_v.

(* a parameter at or within tol of an end, or outside, is refused *)
Theorem C160_split_u_edge : forall s t tol junk, t <= fst (fst (s_int s)) \/ snd (fst (s_int s)) <= t \/
  qabs (t - fst (fst (s_int s))) <= tol \/ qabs (t - snd (fst (s_int s))) <= tol -> split_surface_u s t tol junk = Err ValueError.
Proof. exact split_u_edge. Qed.
Print Assumptions C160_split_u_edge.
Theorem C160_split_v_edge : forall s t tol junk, t <= fst (snd (s_int s)) \/ snd (snd (s_int s)) <= t \/
  qabs (t - fst (snd (s_int s))) <= tol \/ qabs (t - snd (snd (s_int s))) <= tol -> split_surface_v s t tol junk = Err ValueError.
Proof. exact split_v_edge. Qed.
Print Assumptions C160_split_v_edge.

Ltac ql := first [apply qle_true; vm_compute; reflexivity | apply qlt_true; vm_compute; reflexivity].
Ltac cutt := split; [vm_compute; discriminate|]; repeat (split; [ql|]); split; [apply sepb_ok; vq|vm_compute; discriminate].

Example C160_case : cuttable (s_du patch) (s_nu patch) (s_ku patch) (qz 1) split_tol /\
  cuttable (s_dv patch) (s_nv patch) (s_kv patch) (qz 2) split_tol /\
  match split_surface_u patch (qz 1) split_tol noise with
  | Ok (s1, s2) => out_kn (s_ku s1) = [0; 0; 0; 1; 1; 1]%Q /\ out_kn (s_ku s2) = [1; 1; 1; 2; 2; 2]%Q /\
      out_pt (evaluate_surface s1 (qf 1 3) (qz 2)) = out_pt (evaluate_surface patch (qf 1 3) (qz 2)) /\
      out_pt (evaluate_surface s2 (qf 4 3) (qz 2)) = out_pt (evaluate_surface patch (qf 4 3) (qz 2))
  | _ => False end.
Proof. split; [cutt|]. split; [cutt|]. vm_compute. auto. Qed.

(* ---- C161: normalisation ---- *)
Theorem C161_normalize : forall s, valid_surface s ->
  let hu := unit_map (s_ku s) (s_du s) (s_nu s - 1) in let hv := unit_map (s_kv s) (s_dv s) (s_nv s - 1) in
  exists s', normalize_surface s = Ok s' /\ valid_surface s' /\ interval_current s' /\
    s_int s' = ((0, 1), (0, 1)) /\ s_pts s' = s_pts s /\ s_du s' = s_du s /\ s_dv s' = s_dv s /\
    s_ku s' = map hu (s_ku s) /\ s_kv s' = map hv (s_kv s) /\
    (forall u v, in_dom s u v -> in_dom s' (hu u) (hv v) /\ evaluate_surface s' (hu u) (hv v) = evaluate_surface s u v).
Proof. exact normalize_ok. Qed.
Print Assumptions C161_normalize.

Example C161_case : match normalize_surface patch with
  | Ok s' => out_kn (s_kv s') = [0; 0; 1 # 3; 1; 1]%Q /\ out_pt (evaluate_surface s' (qf 3 4) (qf 1 6)) = out_pt (evaluate_surface patch (qf 3 2) (qf 1 2))
  | _ => False end.
Proof. vm_compute. auto. Qed.

(* ---- C162: subdivision ---- *)
Theorem C162_subdivide_partial : forall s u v tol j1 j2 j3, valid_surface s -> interval_current s -> 0 <= tol ->
  cuttable (s_du s) (s_nu s) (s_ku s) u tol -> cuttable (s_dv s) (s_nv s) (s_kv s) v tol ->
  exists s11 s12 s21 s22, subdivide_surface s u v tol false j1 j2 j3 = Ok (s11, s12, s21, s22) /\
    piece_of s s11 (fun x y => x <= u /\ y <= v) /\ piece_of s s12 (fun x y => x <= u /\ v <= y) /\
    piece_of s s21 (fun x y => u <= x /\ y <= v) /\ piece_of s s22 (fun x y => u <= x /\ v <= y).
Proof. exact subdivide_ok. Qed.
Print Assumptions C162_subdivide_partial.

(* with normalize_knots=True the halves are normalised before they are cut at
   v, so a v of the surface outside (0, 1) is refused *)
Theorem C162_normalized_refuted : forall s u v tol j1 j2 j3, valid_surface s -> interval_current s -> 0 <= tol ->
  cuttable (s_du s) (s_nu s) (s_ku s) u tol -> v <= 0 \/ 1 <= v ->
  subdivide_surface s u v tol true j1 j2 j3 = Err ValueError.
Proof. exact subdivide_normalized_fails. Qed.
Print Assumptions C162_normalized_refuted.

Example C162_case :
  match subdivide_surface patch (qf 3 2) (qz 2) split_tol false noise noise noise with
  | Ok (_, s12, _, _) => out_kn (s_ku s12) = [0; 0; 0; 1; 3 # 2; 3 # 2; 3 # 2]%Q /\ out_kn (s_kv s12) = [2; 2; 3; 3]%Q
  | _ => False end /\
  cuttable (s_dv patch) (s_nv patch) (s_kv patch) (qz 2) split_tol /\ 1 <= qz 2.
Proof. split; [vm_compute; auto|]. split; [cutt|ql]. Qed.

(* ---- C163: decomposition into Bezier patches ---- *)
Theorem C163_decompose_uv : forall s a b c d junk, valid_surface s -> interval_current s ->
  decomposable (s_du s) (s_ku s) a b -> decomposable (s_dv s) (s_kv s) c d ->
  exists l us vs, decompose_surface s DirUV junk = Ok l /\ covers s l /\
    (forall q, In q l -> valid_surface q /\ interval_current q /\ s_du q = s_du s /\ s_dv q = s_dv s /\ bezier_u q /\ bezier_v q) /\
    inner_knots (s_ku s) a b us /\ inner_knots (s_kv s) c d vs /\
    map s_int l = list_prod (consecutive (a :: us ++ [b])) (consecutive (c :: vs ++ [d])).
Proof. exact decompose_uv_ok. Qed.
Print Assumptions C163_decompose_uv.

Theorem C163_decompose_u : forall s a b junk, valid_surface s -> interval_current s -> decomposable (s_du s) (s_ku s) a b ->
  exists l us, decompose_surface s DirU junk = Ok l /\ covers s l /\
    (forall q, In q l -> valid_surface q /\ interval_current q /\ s_du q = s_du s /\ s_dv q = s_dv s /\ bezier_u q /\ s_kv q = s_kv s) /\
    inner_knots (s_ku s) a b us /\ map (fun q => fst (s_int q)) l = consecutive (a :: us ++ [b]).
Proof.
  intros s a b junk V I D. destruct (decompose_u_ok s a b (junk 0%nat) V I D) as [l [us [E [C [P [K J]]]]]].
  exists l, us. split; [exact E|]. split; auto. split; auto. intros q Hq. destruct (P q Hq) as [[G1 G2] [[S1 [S2 [S3 _]]] B]]. auto 10.
Qed.
Print Assumptions C163_decompose_u.

Theorem C163_decompose_v : forall s c d junk, valid_surface s -> interval_current s -> decomposable (s_dv s) (s_kv s) c d ->
  exists l vs, decompose_surface s DirV junk = Ok l /\ covers s l /\
    (forall q, In q l -> valid_surface q /\ interval_current q /\ s_du q = s_du s /\ s_dv q = s_dv s /\ bezier_v q /\ s_ku q = s_ku s) /\
    inner_knots (s_kv s) c d vs /\ map (fun q => snd (s_int q)) l = consecutive (c :: vs ++ [d]).
Proof.
  intros s a b junk V I D. destruct (decompose_v_ok s a b (junk 0%nat) V I D) as [l [us [E [C [P [K J]]]]]].
  exists l, us. split; [exact E|]. split; auto. split; auto. intros q Hq. destruct (P q Hq) as [[G1 G2] [[S1 [S2 [S3 _]]] B]]. auto 10.
Qed.
Print Assumptions C163_decompose_v.

Definition spacedb (U : list Qc) : bool :=
  forallb (fun x => forallb (fun y => negb (qlt x y) ||
    (qlt (Q2Qc (1 # 10000000)) (y - x) && qlt (calc_epsilon x) (y - x) && qlt (calc_epsilon y) (y - x))) U) U.
Lemma spacedb_ok U : spacedb U = true -> spaced U.
Proof.
  unfold spacedb. intros H x y Hx Hy L. rewrite forallb_forall in H. specialize (H x Hx). cbv beta in H.
  rewrite forallb_forall in H. specialize (H y Hy). apply orb_true_iff in H. destruct H as [H|H].
  - apply negb_true_iff, qlt_false in H. exfalso. qlra.
  - apply andb_true_iff in H. destruct H as [H H3]. apply andb_true_iff in H. destruct H as [H1 H2].
    apply qlt_true in H1. apply qlt_true in H2. apply qlt_true in H3. auto.
Qed.
Lemma mult_bound U p a b : (1 <= p)%Z -> forallb (fun t => negb (qlt a t && qlt t b) || (multiplicity U t <=? p)%Z) U = true ->
  forall t, a < t -> t < b -> (multiplicity U t <= p)%Z.
Proof.
  intros Hp H t H1 H2. rewrite forallb_forall in H. destruct (in_dec Qc_eq_dec t U) as [Hi|Hi].
  - specialize (H t Hi). apply orb_true_iff in H. destruct H as [H|H]; [|lia].
    apply negb_true_iff in H. apply qlt_true in H1. apply qlt_true in H2. rewrite H1, H2 in H. discriminate.
  - unfold multiplicity. apply (count_occ_not_In Qc_eq_dec) in Hi. rewrite Hi. lia.
Qed.

Example C163_case : decomposable (s_du patch) (s_ku patch) (qz 0) (qz 2) /\ decomposable (s_dv patch) (s_kv patch) (qz 0) (qz 3) /\
  match decompose_surface patch DirUV noisess with
  | Ok l => map (fun q => (out_kn (s_ku q), out_kn (s_kv q))) l =
      [([0; 0; 0; 1; 1; 1], [0; 0; 1; 1]); ([0; 0; 0; 1; 1; 1], [1; 1; 3; 3]);
       ([1; 1; 1; 2; 2; 2], [0; 0; 1; 1]); ([1; 1; 1; 2; 2; 2], [1; 1; 3; 3])]%Q
  | _ => False end.
Proof.
  split; [|split; [|vm_compute; reflexivity]].
  - split; [vm_compute; discriminate|]. split; [|split; [apply spacedb_ok; vm_compute; reflexivity|apply mult_bound; vm_compute; [discriminate|reflexivity]]].
    split; [ql|]. exists [qz 1]. split; [reflexivity|]. intros x [<-|[]]. split; ql.
  - split; [vm_compute; discriminate|]. split; [|split; [apply spacedb_ok; vm_compute; reflexivity|apply mult_bound; vm_compute; [discriminate|reflexivity]]].
    split; [ql|]. exists [qz 1]. split; [reflexivity|]. intros x [<-|[]]. split; ql.
Qed.

(* ---- C164: the stored interval ---- *)
Theorem C164_new_surface_partial : forall G nu nv du dv, shaped nu nv G -> (0 <= du < nu)%Z -> (0 <= dv < nv)%Z ->
  exists s, new_surface G du dv None None = Ok s /\ s_pts s = G /\ s_du s = du /\ s_dv s = dv /\
    valid_surface s /\ interval_current s /\ clamped_u s /\ clamped_v s /\
    s_int s = ((zq 0, zq (nu - du)), (zq 0, zq (nv - dv))) /\
    (forall i, (0 <= i <= nu + du)%Z -> knot (s_ku s) i = zq (Z.max 0 (Z.min (nu - du) (i - du)))) /\
    (forall j, (0 <= j <= nv + dv)%Z -> knot (s_kv s) j = zq (Z.max 0 (Z.min (nv - dv) (j - dv)))).
Proof. exact new_surface_ok. Qed.
Print Assumptions C164_new_surface_partial.

Theorem C164_set_knots_partial : forall s k, valid_surface s ->
  (valid_knots (s_du s) (s_nu s - 1) k ->
   exists s', set_knots_u s k = Ok s' /\ valid_surface s' /\ interval_current s' /\ s_ku s' = k /\ s_kv s' = s_kv s /\ s_pts s' = s_pts s) /\
  (valid_knots (s_dv s) (s_nv s - 1) k ->
   exists s', set_knots_v s k = Ok s' /\ valid_surface s' /\ interval_current s' /\ s_kv s' = k /\ s_ku s' = s_ku s /\ s_pts s' = s_pts s).
Proof. intros s k V. split; [now apply set_knots_u_ok|now apply set_knots_v_ok]. Qed.
Print Assumptions C164_set_knots_partial.

(* assigning another degree leaves the old interval behind *)
Theorem C164_set_degree_refuted : forall G nu nv du dv du' dv', shaped nu nv G -> (0 <= du < nu)%Z -> (0 <= dv < nv)%Z ->
  (0 <= du' < nu)%Z -> (0 <= dv' < nv)%Z -> (du', dv') <> (du, dv) ->
  exists s, new_surface G du dv None None = Ok s /\ interval_current s /\
    valid_surface (set_degree s du' dv') /\ ~ interval_current (set_degree s du' dv').
Proof. exact set_degree_stale. Qed.
Print Assumptions C164_set_degree_refuted.

Example C164_case : shaped 4 3 patch_pts /\
  match new_surface patch_pts 2 2 None None with
  | Ok s => out_kn (s_ku s) = [0; 0; 0; 1; 2; 2; 2]%Q /\
      this (snd (fst (s_int (set_degree s 1 2)))) = 2%Q /\ out_kn (s_ku (set_degree s 1 2)) = [0; 0; 1; 2; 3; 3]%Q
  | _ => False end.
Proof. split; [apply patch_valid|]. vm_compute. auto. Qed.
