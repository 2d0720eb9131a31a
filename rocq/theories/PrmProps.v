(* Properties of spheres, cylinders and tubes. *)
From Coq Require Import List ZArith Lia Bool QArith Qcanon.
From Verif Require Import Common ListLib QcLib ArrZ SumLib NurbsModel DerModel PlnModel PlnSpec PlnProofs2 PlnProofs4 PrmModel PrmSpec PrmProofs1 PrmProofs2 PrmProofs3 PrmProofs4.
Import ListNotations.
Local Open Scope Z_scope.
Local Open Scope Qc_scope.

(* a root function that is exact at the squares used in the cases below *)
Definition q (a : Z) (b : positive) : Qc := Q2Qc (a # b).
Definition table : list (Qc * Qc) :=
  [(q 0 1, q 0 1); (q 1 1, q 1 1); (q 25 1, q 5 1); (q 16 25, q 4 5); (q 9 25, q 3 5); (q 4 1, q 2 1); (q 49 1, q 7 1); (q 9 1, q 3 1);
   (q 4004001 1000000, q 2001 1000); (q 3996001 1000000, q 1999 1000)].
Definition root (x : Qc) : Qc :=
  match find (fun e => qeq (fst e) x) table with Some e => snd e | None => 0 end.
Definition o0 : v3 := mkv 0 0 0.
Definition e34 : v3 := mkv (q 3 1) (q 4 1) 0.
Ltac canon := apply Qc_is_canon; reflexivity.
Ltac okc := vm_compute; first [reflexivity | f_equal; first [canon | apply v3_ext; canon | f_equal; apply v3_ext; canon]].
Ltac root_ok := split; [vm_compute; discriminate|apply Qc_is_canon; vm_compute; reflexivity].

(* C260: the signed distance of a sphere *)
Theorem C260_sphere_distance : forall sqrt o r l p, let s := run_sphere (sphere_init o r) l in
  let c := last_o o l in let k := last_r r l in
  0 <= k -> exact_sqrt sqrt (dist2 p c) ->
  is_sqrt (sphere_implicit sqrt s p + k) (dist2 p c) /\
  (sphere_implicit sqrt s p = 0 <-> dist2 p c = k * k) /\
  (sphere_implicit sqrt s p < 0 <-> dist2 p c < k * k) /\
  (0 < sphere_implicit sqrt s p <-> k * k < dist2 p c).
Proof.
  intros sqrt o r l p. cbv zeta. intros K H. rewrite run_sphere_eq. exact (sphere_distance sqrt (sphere_init (last_o o l) (last_r r l)) p K H).
Qed.
Print Assumptions C260_sphere_distance.
Example C260_case : 0 <= last_r 1 [SetR (q 2 1); SetO (mkv 1 1 1)] /\ exact_sqrt root (dist2 (mkv 1 1 (q 3 1)) (last_o o0 [SetR (q 2 1); SetO (mkv 1 1 1)])) /\
  sphere_implicit root (run_sphere (sphere_init o0 1) [SetR (q 2 1); SetO (mkv 1 1 1)]) (mkv 1 1 (q 3 1)) = 0.
Proof. split; [vm_compute; discriminate|]. split; [root_ok|]. apply Qc_is_canon; vm_compute; reflexivity. Qed.

(* C261: the bounding box of a sphere is the smallest one *)
Theorem C261_sphere_bounds : forall o r l, let s := run_sphere (sphere_init o r) l in
  0 <= last_r r l -> tight (s_b s) (ball (last_o o l) (last_r r l)).
Proof. intros o r l. exact (proj2 (proj2 (sphere_history o r l))). Qed.
Print Assumptions C261_sphere_bounds.
Example C261_case : vx (fst (s_b (run_sphere (sphere_init o0 1) [SetR (q 2 1); SetO (mkv 1 1 1)]))) = - (1).
Proof. apply Qc_is_canon; vm_compute; reflexivity. Qed.

(* C262: the gradient of a sphere leads to its surface *)
Theorem C262_sphere_gradient : forall sqrt s p, exact_sqrt sqrt (dist2 p (s_o s)) ->
  (p = s_o s -> sphere_gradient sqrt s p = Err ZeroDivision) /\
  (p <> s_o s -> exists g, sphere_gradient sqrt s p = Ok g /\ dot3 g g = 1 /\
    dist2 (along p (- sphere_implicit sqrt s p) g) (s_o s) = s_r s * s_r s /\
    exists k, 0 < k /\ minus3 p (s_o s) = along zero3 k g).
Proof.
  intros sqrt s p H. split; [|exact (sphere_gradient_spec sqrt s p H)]. intros ->. apply sphere_gradient_centre.
  unfold exact_sqrt in H. replace (dist2 (s_o s) (s_o s)) with 0 in H; [exact H|]. unfold dist2. v3d. ring.
Qed.
Print Assumptions C262_sphere_gradient.
Example C262_case : exact_sqrt root (dist2 e34 o0) /\ e34 <> o0 /\
  sphere_gradient root (sphere_init o0 1) e34 = Ok (mkv (q 3 5) (q 4 5) 0).
Proof.
  split; [root_ok|]. split; [intro H; apply (f_equal vx) in H; vm_compute in H; discriminate|].
  okc.
Qed.

(* C263: the values change no faster than the point moves *)
Theorem C263_sphere_lipschitz : forall sqrt s p q, exact_sqrt sqrt (dist2 p (s_o s)) -> exact_sqrt sqrt (dist2 q (s_o s)) ->
  (sphere_implicit sqrt s p - sphere_implicit sqrt s q) * (sphere_implicit sqrt s p - sphere_implicit sqrt s q) <= dist2 p q.
Proof. exact sphere_lipschitz. Qed.
Print Assumptions C263_sphere_lipschitz.
Theorem C263_tube_lipschitz : forall sqrt s e r t l p q m n, let c := run_icyl sqrt (icyl_init sqrt s e r t) l in
  last_start s l <> last_end e l -> line_distance (last_start s l) (last_end e l) p m -> line_distance (last_start s l) (last_end e l) q n ->
  exact_sqrt sqrt (m * m) -> exact_sqrt sqrt (n * n) ->
  exists a b, icyl_implicit sqrt c p = Ok a /\ icyl_implicit sqrt c q = Ok b /\ (a - b) * (a - b) <= dist2 p q.
Proof. exact icyl_lipschitz. Qed.
Print Assumptions C263_tube_lipschitz.
Lemma o_e : o0 <> e34.
Proof. intro H; apply (f_equal vx) in H; vm_compute in H; discriminate. Qed.
Lemma above z m : 0 <= z -> z * z = m * m -> 0 <= m -> line_distance o0 e34 (mkv 0 0 z) m.
Proof.
  intros Z M P. split; [auto|]. split.
  - exists 0. rewrite <- M. unfold o0, e34, dist2. v3d. ring.
  - intro t. rewrite <- M. unfold o0, e34, dist2. v3d.
    replace (q 3 1) with (1 + 1 + 1) by (apply Qc_is_canon; reflexivity). replace (q 4 1) with (1 + 1 + 1 + 1) by (apply Qc_is_canon; reflexivity).
    pose proof (sq_nonneg t). qnra.
Qed.
Example C263_case : o0 <> e34 /\ line_distance o0 e34 (mkv 0 0 (q 2 1)) (q 2 1) /\ line_distance o0 e34 (mkv 0 0 (q 7 1)) (q 7 1) /\
  exact_sqrt root (q 2 1 * q 2 1) /\ exact_sqrt root (q 7 1 * q 7 1) /\
  icyl_implicit root (icyl_init root o0 e34 1 (Some 1)) (mkv 0 0 (q 7 1)) = Ok (q 11 2).
Proof.
  split; [exact o_e|]. split; [apply above; auto; vm_compute; discriminate|]. split; [apply above; auto; vm_compute; discriminate|].
  split; [root_ok|]. split; [root_ok|]. okc.
Qed.

(* C264: cylinders and tubes are given by the distance to the axis *)
Theorem C264_axis_distance : forall sqrt s e r t l p n, let c := run_icyl sqrt (icyl_init sqrt s e r t) l in
  last_start s l <> last_end e l -> line_distance (last_start s l) (last_end e l) p n -> exact_sqrt sqrt (n * n) ->
  icyl_implicit sqrt c p = Ok (match t with None => n - last_radius r l | Some t => fabs (n - last_radius r l) - t / (1 + 1) end).
Proof. exact icyl_at_distance. Qed.
Print Assumptions C264_axis_distance.
Theorem C264_degenerate : forall sqrt s e r t l p, let c := run_icyl sqrt (icyl_init sqrt s e r t) l in
  last_start s l = last_end e l ->
  icyl_implicit sqrt c p = Err ZeroDivision /\ icyl_gradient sqrt c p = Err ZeroDivision /\ c_b c = None.
Proof. exact icyl_degenerate. Qed.
Print Assumptions C264_degenerate.
Example C264_case : last_start o0 [End o0; Radius 1; End e34] <> last_end e34 [End o0; Radius 1; End e34] /\
  line_distance o0 e34 (mkv 0 0 (q 2 1)) (q 2 1) /\
  icyl_implicit root (run_icyl root (icyl_init root o0 e34 (q 5 1) None) [End o0; Radius 1; End e34]) (mkv 0 0 (q 2 1)) = Ok 1 /\
  last_start o0 [End o0] = last_end e34 [End o0].
Proof.
  split; [exact o_e|]. split; [apply above; auto; vm_compute; discriminate|]. split; [|reflexivity].
  okc.
Qed.

(* C265: the bounding box of a cylinder or a tube is the smallest one around the solid *)
Theorem C265_solid_bounds : forall sqrt s e r t l, let c := run_icyl sqrt (icyl_init sqrt s e r t) l in
  let k := last_radius r l + match t with None => 0 | Some t => t / (1 + 1) end in
  last_start s l <> last_end e l -> 0 <= k -> aabb_roots sqrt (last_start s l) (last_end e l) ->
  exists b, c_b c = Some b /\ tight b (solid (last_start s l) (last_end e l) k).
Proof. exact icyl_bounds_tight. Qed.
Print Assumptions C265_solid_bounds.
Example C265_case : o0 <> e34 /\ aabb_roots root o0 e34 /\
  c_b (icyl_init root o0 e34 1 None) = Some (mkv (q (-4) 5) (q (-3) 5) (q (-1) 1), mkv (q 19 5) (q 23 5) 1).
Proof.
  split; [exact o_e|]. split; [split; [|split]; root_ok|].
  okc.
Qed.

(* C266: every value is taken again outside the bounding box *)
Theorem C266_bounds_contain_refuted : forall sqrt s e r t b p, s <> e -> exists q, ~ in_box b q /\
  icyl_implicit sqrt (icyl_init sqrt s e r t) q = icyl_implicit sqrt (icyl_init sqrt s e r t) p.
Proof. exact icyl_infinite. Qed.
Print Assumptions C266_bounds_contain_refuted.
Theorem C266_bounds_contain_partial : forall sqrt s e r n p, s <> e -> 0 <= r -> aabb_roots sqrt s e ->
  line_distance s e p n -> exact_sqrt sqrt (n * n) ->
  (exists v, icyl_implicit sqrt (icyl_init sqrt s e r None) p = Ok v /\ v <= 0) ->
  0 <= dot3 (minus3 p s) (minus3 e s) <= dist2 e s ->
  exists b, c_b (icyl_init sqrt s e r None) = Some b /\ in_box b p.
Proof.
  intros sqrt s e r n p N R K L H (v & V & VN) [A B].
  pose proof (icyl_at_distance sqrt s e r None [] p n N L H) as V'. cbv zeta in V'. change (run_icyl sqrt (icyl_init sqrt s e r None) []) with (icyl_init sqrt s e r None) in V'.
  rewrite V' in V. injection V as <-. change (last_radius r []) with r in VN.
  destruct (icyl_bounds_tight sqrt s e r None [] N) as (b & Hb & (T & _)); [change (last_radius r []) with r; clear - R; qlra|exact K|].
  exists b. split; [exact Hb|]. apply T. change (last_radius r []) with r. change (last_start s []) with s. change (last_end e []) with e.
  pose proof (dd_nz _ _ N) as DD. pose proof (dot_self_nonneg (minus3 e s)) as DP.
  assert (DP' : 0 < dot3 (minus3 e s) (minus3 e s)).
  { destruct (Qclt_le_dec 0 (dot3 (minus3 e s) (minus3 e s))) as [X|X]; auto. exfalso. apply DD. clear - X DP. apply Qcle_antisym; auto. }
  destruct (line_distance_sq _ _ _ _ N L) as [P Q].
  exists (fpar s (minus3 e s) p). split; [split|].
  - apply qc_div_nonneg; auto.
  - apply qc_div_le; auto. unfold dist2 in B. clear - B. qlra.
  - cbv zeta. split; [exact (perp_orth s (minus3 e s) p DD)|]. rewrite <- perp_dist, <- Q.
    replace (r + 0) with r by ring. apply (sq_le2 n r); auto. clear - VN. qlra.
Qed.
Print Assumptions C266_bounds_contain_partial.
Example C266_case : o0 <> e34 /\ aabb_roots root o0 e34 /\ line_distance o0 e34 (mkv 0 0 (q 2 1)) (q 2 1) /\
  0 <= dot3 (minus3 (mkv 0 0 (q 2 1)) o0) (minus3 e34 o0) <= dist2 e34 o0 /\
  icyl_implicit root (icyl_init root o0 e34 (q 2 1) None) (mkv 0 0 (q 2 1)) = Ok 0.
Proof.
  split; [exact o_e|]. split; [split; [|split]; root_ok|]. split; [apply above; auto; vm_compute; discriminate|].
  split; [split; vm_compute; discriminate|]. okc.
Qed.

(* C267: the gradient of a cylinder *)
Theorem C267_cylinder_gradient : forall sqrt s e r l p n, let c := run_icyl sqrt (icyl_init sqrt s e r None) l in
  last_start s l <> last_end e l -> line_distance (last_start s l) (last_end e l) p n -> exact_sqrt sqrt (n * n) ->
  (n = 0 -> icyl_gradient sqrt c p = Err ZeroDivision) /\
  (n <> 0 -> exists g, icyl_gradient sqrt c p = Ok g /\ dot3 g g = 1 /\ dot3 g (minus3 (last_end e l) (last_start s l)) = 0 /\
     (forall m, 0 <= m -> line_distance (last_start s l) (last_end e l) (along p (m - n) g) m)).
Proof. exact cyl_gradient_spec. Qed.
Print Assumptions C267_cylinder_gradient.
Example C267_case : line_distance o0 e34 (mkv 0 0 (q 2 1)) (q 2 1) /\ q 2 1 <> 0 /\
  icyl_gradient root (icyl_init root o0 e34 1 None) (mkv 0 0 (q 2 1)) = Ok (mkv 0 0 1).
Proof.
  split; [apply above; auto; vm_compute; discriminate|]. split; [intro H; vm_compute in H; discriminate|].
  okc.
Qed.

(* C268: the gradient of a tube is the central difference of its values *)
Theorem C268_tube_gradient : forall sqrt s e r t p, s <> e -> let c := icyl_init sqrt s e r (Some t) in
  exists gx gy gz, icyl_gradient sqrt c p = Ok (mkv gx gy gz) /\
    central (icyl_implicit sqrt c) p (mkv h3 0 0) = Ok gx /\ central (icyl_implicit sqrt c) p (mkv 0 h3 0) = Ok gy /\
    central (icyl_implicit sqrt c) p (mkv 0 0 h3) = Ok gz.
Proof. exact tube_gradient_spec. Qed.
Print Assumptions C268_tube_gradient.
Example C268_case : o0 <> e34 /\ central (icyl_implicit root (icyl_init root o0 e34 1 (Some 1))) (mkv 0 0 (q 2 1)) (mkv 0 0 h3) = Ok 1.
Proof. split; [exact o_e|]. okc. Qed.

(* C269: it is not a unit vector: half way through the wall it is zero *)
Theorem C269_tube_gradient_unit_refuted : forall sqrt s k r t z, k <> 0 -> h3 <= r ->
  exact_sqrt sqrt ((r + h3) * (r + h3)) -> exact_sqrt sqrt ((r - h3) * (r - h3)) ->
  icyl_gradient sqrt (icyl_init sqrt s (mkv (vx s) (vy s) (vz s + k)) r (Some t)) (mkv (vx s + r) (vy s) z) = Ok zero3.
Proof. exact tube_gradient_mid. Qed.
Print Assumptions C269_tube_gradient_unit_refuted.
Example C269_case : exact_sqrt root ((q 2 1 + h3) * (q 2 1 + h3)) /\ exact_sqrt root ((q 2 1 - h3) * (q 2 1 - h3)) /\ h3 <= q 2 1.
Proof. split; [root_ok|]. split; [root_ok|]. vm_compute; discriminate. Qed.

(* C270: the gradient inherited from the base class is exact for quadratic functions *)
Theorem C270_base_gradient : forall sqrt f p, exact_sqrt sqrt (dot3 (quad_grad f p) (quad_grad f p)) ->
  exists g, base_gradient sqrt (fun q => Ok (quad_at f q)) p = Ok g /\
    (quad_grad f p = zero3 -> g = zero3) /\
    (quad_grad f p <> zero3 -> dot3 g g = 1 /\ exists k, 0 < k /\ quad_grad f p = along zero3 k g).
Proof. exact quad_gradient. Qed.
Print Assumptions C270_base_gradient.
Theorem C270_base_default : forall sqrt p, exact_sqrt sqrt 0 -> base_gradient sqrt base_implicit p = Ok zero3.
Proof. exact base_default. Qed.
Print Assumptions C270_base_default.
Example C270_case : let f := mkq 0 (mkv 1 0 0) 1 (q 2 1) 0 0 0 0 in let p := mkv 1 1 0 in
  exact_sqrt root (dot3 (quad_grad f p) (quad_grad f p)) /\ vx (quad_grad f p) = q 3 1 /\ vy (quad_grad f p) = q 4 1 /\
  base_gradient root (fun q => Ok (quad_at f q)) p = Ok (mkv (q 3 5) (q 4 5) 0).
Proof.
  cbv zeta. split; [root_ok|]. split; [apply Qc_is_canon; reflexivity|]. split; [apply Qc_is_canon; reflexivity|].
  okc.
Qed.

(* C271: the parametric cylinder covers its surface and nothing else *)
Theorem C271_parametrisation : forall sqrt s e r, s <> e -> not_minus_x s e -> frame_roots sqrt s e -> 0 < r -> exact_sqrt sqrt (r * r) ->
  exists c, cylinder_init sqrt s e r = Ok c /\
    (forall cu su v, cu * cu + su * su = 1 ->
       line_distance s e (cylinder_evaluate c cu su v) r /\
       cylinder_implicit sqrt c (cylinder_evaluate c cu su v) = Ok 0 /\
       is_sqrt (p_dnorm c) (dist2 e s) /\
       dot3 (minus3 (cylinder_evaluate c cu su v) s) (minus3 e s) = v * p_dnorm c) /\
    (forall p, line_distance s e p r -> exists cu su v, cu * cu + su * su = 1 /\ cylinder_evaluate c cu su v = p).
Proof.
  intros sqrt s e r N X F R H. destruct (cylinder_init_ok sqrt s e r N X F) as (c & C & G). exists c. split; [exact C|].
  assert (R' : 0 <= r) by (clear - R; qlra). split.
  - intros cu su v CS. split; [apply (eval_distance sqrt s e r c); auto|]. split; [apply (eval_zero sqrt s e r c); auto|].
    destruct (eval_perp sqrt s e r c cu su v N G CS) as (g & _ & _ & _ & _ & FP).
    destruct G as (n & D & U & -> & NP & NN & E & DD & _). cbn [p_dnorm] in *. split; [split; [clear - NP; qlra|auto]|].
    unfold fpar in FP. fold (dist2 e s) in FP. assert (n0 : n <> 0) by (intro Z; rewrite Z in NP; clear - NP; qlra).
    set (y := dot3 _ (minus3 e s)) in *. rewrite <- NN in FP. transitivity (y / (n * n) * (n * n)); [field; auto|rewrite FP; field; auto].
  - intros p L. destruct (eval_surjective sqrt s e r c p N G R L) as (cu & su & v & CS & P & _). exists cu, su, v. auto.
Qed.
Print Assumptions C271_parametrisation.
Theorem C271_within_bounds : forall sqrt s e r c, s <> e -> not_minus_x s e -> frame_roots sqrt s e -> 0 < r -> aabb_roots sqrt s e ->
  cylinder_init sqrt s e r = Ok c ->
  (forall cu su v, cu * cu + su * su = 1 -> 0 <= v <= p_dnorm c ->
     exists b, cylinder_bounds c = Some b /\ in_box b (cylinder_evaluate c cu su v)) /\
  (forall p, line_distance s e p r -> solid s e r p ->
     exists cu su v, cu * cu + su * su = 1 /\ 0 <= v <= p_dnorm c /\ cylinder_evaluate c cu su v = p).
Proof.
  intros sqrt s e r c N X F R K C. destruct (cylinder_init_ok sqrt s e r N X F) as (c' & C' & G). rewrite C in C'. injection C' as <-.
  assert (R' : 0 <= r) by (clear - R; qlra). split.
  - intros cu su v CS V. apply (eval_bounds sqrt s e r c); auto.
  - intros p L S. destruct (eval_surjective sqrt s e r c p N G R L) as (cu & su & v & CS & P & V). exists cu, su, v. auto.
Qed.
Print Assumptions C271_within_bounds.
Lemma e34_not_x : not_minus_x o0 e34.
Proof. intros (H & _). vm_compute in H. discriminate. Qed.
Lemma e34_frame : frame_roots root o0 e34.
Proof. split; [|split]; root_ok. Qed.
Definition cyl34 : cylinder := match cylinder_init root o0 e34 1 with Ok c => c | Err _ => mkpc (icyl_init root o0 e34 1 None) o0 o0 0 o0 0 o0 o0 end.
Example C271_case : o0 <> e34 /\ not_minus_x o0 e34 /\ frame_roots root o0 e34 /\ exact_sqrt root (1 * 1) /\ aabb_roots root o0 e34 /\
  cylinder_init root o0 e34 1 = Ok cyl34 /\ cylinder_evaluate cyl34 0 1 (q 5 1) = mkv (q 11 5) (q 23 5) 0.
Proof.
  split; [exact o_e|]. split; [exact e34_not_x|]. split; [exact e34_frame|]. split; [root_ok|]. split; [split; [|split]; root_ok|].
  split; [reflexivity|]. apply v3_ext; apply Qc_is_canon; vm_compute; reflexivity.
Qed.

(* C272: its gradient at the parameters of a point *)
Theorem C272_parametric_gradient : forall sqrt s e r, s <> e -> not_minus_x s e -> frame_roots sqrt s e -> 0 < r -> exact_sqrt sqrt (r * r) ->
  exists c, cylinder_init sqrt s e r = Ok c /\
    forall cu su v, cu * cu + su * su = 1 ->
      cylinder_gradient sqrt c (cylinder_evaluate c cu su v) = Ok (vadd (along zero3 cu (p_uhat c)) (along zero3 su (p_v c))).
Proof.
  intros sqrt s e r N X F R H. destruct (cylinder_init_ok sqrt s e r N X F) as (c & C & G). exists c. split; [exact C|].
  intros cu su v CS. apply (eval_gradient sqrt s e r c); auto.
Qed.
Print Assumptions C272_parametric_gradient.
Example C272_case : o0 <> e34 /\ not_minus_x o0 e34 /\ frame_roots root o0 e34 /\ exact_sqrt root (1 * 1) /\
  p_v cyl34 = mkv (q (-4) 5) (q 3 5) 0.
Proof.
  split; [exact o_e|]. split; [exact e34_not_x|]. split; [exact e34_frame|]. split; [root_ok|].
  apply v3_ext; apply Qc_is_canon; vm_compute; reflexivity.
Qed.

(* C273: the constructor does not work for an axis along -x *)
Theorem C273_any_axis_refuted : forall sqrt s k r, 0 < k -> exact_sqrt sqrt (k * k) -> exact_sqrt sqrt 0 ->
  cylinder_init sqrt s (mkv (vx s - k) (vy s) (vz s)) r = Err ZeroDivision.
Proof. exact minus_x_fails. Qed.
Print Assumptions C273_any_axis_refuted.
Theorem C273_any_axis_partial : forall sqrt s e r, s <> e -> not_minus_x s e -> frame_roots sqrt s e ->
  exists c, cylinder_init sqrt s e r = Ok c /\ orthonormal (p_uhat c) (p_v c) (p_dhat c) /\
    minus3 e s = along zero3 (p_dnorm c) (p_dhat c) /\ 0 < p_dnorm c /\ cross3 (p_uhat c) (p_v c) = p_dhat c.
Proof.
  intros sqrt s e r N X F. destruct (cylinder_init_ok sqrt s e r N X F) as (c & C & G). exists c. split; [exact C|].
  destruct G as (n & D & U & -> & NP & NN & E & DD & UU & DU). cbn [p_uhat p_v p_dhat p_dnorm].
  destruct (frame3 D U DD UU DU) as [O V]. auto.
Qed.
Print Assumptions C273_any_axis_partial.
Example C273_case : 0 < q 3 1 /\ exact_sqrt root (q 3 1 * q 3 1) /\ exact_sqrt root 0 /\ not_minus_x o0 e34 /\ frame_roots root o0 e34.
Proof. split; [reflexivity|]. split; [root_ok|]. split; [root_ok|]. split; [exact e34_not_x|exact e34_frame]. Qed.

(* C274: assigning the public radius changes only half of the object *)
Theorem C274_assign_radius_refuted : forall sqrt s e r r2, s <> e -> not_minus_x s e -> frame_roots sqrt s e -> 0 <= r2 -> exact_sqrt sqrt (r2 * r2) ->
  exists c, cylinder_init sqrt s e r = Ok c /\ cylinder_bounds (assign_radius c r2) = cylinder_bounds c /\
    forall cu su v, cu * cu + su * su = 1 ->
      cylinder_implicit sqrt (assign_radius c r2) (cylinder_evaluate (assign_radius c r2) cu su v) = Ok (r2 - r).
Proof.
  intros sqrt s e r r2 N X F R H. destruct (cylinder_init_ok sqrt s e r N X F) as (c & C & G). exists c. split; [exact C|].
  split; [reflexivity|]. intros cu su v CS. exact (proj1 (stale_radius sqrt s e r c r2 cu su v N G CS R H)).
Qed.
Print Assumptions C274_assign_radius_refuted.
Example C274_case : not_minus_x o0 e34 /\ frame_roots root o0 e34 /\ exact_sqrt root (q 2 1 * q 2 1) /\ q 2 1 - 1 <> 0.
Proof. split; [exact e34_not_x|]. split; [exact e34_frame|]. split; [root_ok|]. intro H. vm_compute in H. discriminate. Qed.
