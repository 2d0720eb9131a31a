(* Parametric curves and surfaces: theorems and concrete cases. *)
From Coq Require Import List ZArith Lia Bool QArith Qcanon.
From Verif Require Import Common QcLib ArrZ SumLib NurbsModel DerModel PlnModel PlnSpec PlnProofs2 ParModel ParSpec ParProofs1 ParProofs2.
Import ListNotations.
Local Open Scope Z_scope.
Local Open Scope Qc_scope.

Definition q (a : Z) (b : positive) : Qc := Q2Qc (a # b).
Definition pt3 (x y z : Z) : v3 := mkv (q x 1) (q y 1) (q z 1).
(* roots of the squares used in the cases *)
Definition root (x : Qc) : Qc :=
  if Qc_eq_dec x (q 1 (10 ^ 12)) then q 1 (10 ^ 6) else if Qc_eq_dec x (q 9 1) then q 3 1 else if Qc_eq_dec x (q 4 1) then q 2 1
  else if Qc_eq_dec x (q 25 1) then q 5 1 else if Qc_eq_dec x (q 16 1) then q 4 1 else if Qc_eq_dec x 1 then 1 else 0.
Ltac canon := apply Qc_is_canon; vm_compute; reflexivity.
Ltac v3c := apply v3_ext; canon.
Ltac lc := vm_compute; repeat first [reflexivity | v3c | f_equal].
Ltac neq3 := let E := fresh in intro E; vm_compute in E; discriminate E.
Ltac root_ok := split; [vm_compute; discriminate|canon].
Ltac rng := split; vm_compute; discriminate.

(* C275: derivative of a curve that gives only evaluate *)
Theorem C275_default_derivative_refuted : forall a b c t, quadratic' a b c t <> zero3 ->
  ~ vderiv (quadratic a b c) t (e1 (plain_curve (quadratic a b c)) t).
Proof. intros a b c t N W. exact (N (curve_derivative_wrong a b c t W)). Qed.
Print Assumptions C275_default_derivative_refuted.
Theorem C275_default_derivative_partial : forall a b c t, exists d1 d2 : Qc -> v3,
  (forall s, vderiv (quadratic a b c) s (d1 s) /\ vderiv d1 s (d2 s)) /\
  e1 (plain_curve (quadratic a b c)) t = vscale (Q2Qc (1 # 10 ^ 6)) (d1 t) /\
  e2 (plain_curve (quadratic a b c)) t = vscale (Q2Qc (1 # 10 ^ 12)) (d2 t).
Proof.
  intros a b c t. exists (quadratic' a b c), (quadratic'' a b c).
  split; [intro s; split; [apply quadratic_deriv|apply quadratic_deriv2]|]. cbn [plain_curve e1 e2].
  rewrite curve_second_scaled, curve_derivative_scaled. split; f_equal; apply Qc_is_canon; reflexivity.
Qed.
Print Assumptions C275_default_derivative_partial.
Example C275_case : quadratic' (pt3 0 0 0) (pt3 1 0 0) (pt3 0 2 0) 1 = pt3 1 4 0 /\
  e1 (plain_curve (quadratic (pt3 0 0 0) (pt3 1 0 0) (pt3 0 2 0))) 1 = mkv (q 1 (10 ^ 6)) (q 4 (10 ^ 6)) 0 /\ pt3 1 4 0 <> zero3.
Proof. split; [v3c|]. split; [v3c|neq3]. Qed.

(* C276: the curvature of such a curve *)
Theorem C276_curvature_of_plain_curve : forall sqrt a b c t, quadratic' a b c t <> zero3 ->
  exact sqrt (Q2Qc (1 # 10 ^ 12) * dot3 (quadratic' a b c t) (quadratic' a b c t)) ->
  exists w, pc_curvature sqrt (plain_curve (quadratic a b c)) t = Ok w /\
    curvature_vector (quadratic' a b c t) (quadratic'' a b c t) w.
Proof.
  intros sqrt a b c t N S1. apply plain_curvature; auto.
Qed.
Print Assumptions C276_curvature_of_plain_curve.
Example C276_case : quadratic' (pt3 0 0 0) (pt3 1 0 0) (pt3 0 2 0) 0 <> zero3 /\
  exact root (Q2Qc (1 # 10 ^ 12) * dot3 (quadratic' (pt3 0 0 0) (pt3 1 0 0) (pt3 0 2 0) 0) (quadratic' (pt3 0 0 0) (pt3 1 0 0) (pt3 0 2 0) 0)) /\
  pc_curvature root (plain_curve (quadratic (pt3 0 0 0) (pt3 1 0 0) (pt3 0 2 0))) 0 = Ok (pt3 0 4 0).
Proof. split; [neq3|]. split; [root_ok|]. lc. Qed.

(* C277: the frame of any curve with derivatives that are not parallel *)
Theorem C277_frame_of_curve : forall sqrt c t, cross3 (e1 c t) (e2 c t) <> zero3 -> exact sqrt (dot3 (e1 c t) (e1 c t)) ->
  exact sqrt (dot3 (cross3 (e1 c t) (e2 c t)) (cross3 (e1 c t) (e2 c t)) / dot3 (e1 c t) (e1 c t)) ->
  exists T N, pc_plane_at sqrt c t = Ok [e0 c t; T; N; cross3 T N] /\ pc_normal sqrt c t = Ok N /\
    curve_frame (e1 c t) (e2 c t) T N (cross3 T N).
Proof. exact pc_frame. Qed.
Print Assumptions C277_frame_of_curve.
Theorem C277_tangent_of_curve : forall sqrt c t, exact sqrt (dot3 (e1 c t) (e1 c t)) -> Q2Qc (1 # 10 ^ 30) < dot3 (e1 c t) (e1 c t) ->
  exists T k, pc_tangent sqrt c t = Ok T /\ dot3 T T = 1 /\ 0 < k /\ e1 c t = vscale k T.
Proof. exact pc_tangent_ok. Qed.
Print Assumptions C277_tangent_of_curve.
Definition cub : pcurve := cubic (pt3 0 0 0) (pt3 1 0 0) (pt3 2 2 0) (pt3 3 2 5).
Example C277_case : cross3 (e1 cub 0) (e2 cub 0) <> zero3 /\ exact root (dot3 (e1 cub 0) (e1 cub 0)) /\
  Q2Qc (1 # 10 ^ 30) < dot3 (e1 cub 0) (e1 cub 0) /\ e1 cub 0 = pt3 3 0 0 /\ e2 cub 0 = pt3 0 12 0.
Proof. split; [neq3|]. split; [root_ok|]. split; [reflexivity|]. split; v3c. Qed.
Definition root2 (x : Qc) : Qc := if Qc_eq_dec x (q 144 1) then q 12 1 else root x.
Example C277_case2 : exact root2 (dot3 (cross3 (e1 cub 0) (e2 cub 0)) (cross3 (e1 cub 0) (e2 cub 0)) / dot3 (e1 cub 0) (e1 cub 0)) /\
  pc_plane_at root2 cub 0 = Ok [pt3 0 0 0; pt3 1 0 0; pt3 0 1 0; pt3 0 0 1].
Proof.
  split; [root_ok|]. lc.
Qed.

(* C278: calling a curve with a list of parameters *)
Theorem C278_call_refuted : forall c t, call c (Num t) = Ok [e0 c t] /\ call c (Seq [t]) = Err TypeError /\ call c (Seq []) = Err TypeError.
Proof. intros c t. split; [reflexivity|]. split; apply call_short; cbn; lia. Qed.
Print Assumptions C278_call_refuted.
Theorem C278_call_partial : forall c l, (2 <= length l)%nat ->
  exists r, call c (Seq l) = Ok r /\ length r = length l /\ forall i, (i < length l)%nat -> nth i r zero3 = e0 c (nth i l 0).
Proof. exact call_seq. Qed.
Print Assumptions C278_call_partial.
Example C278_case : call cub (Seq [0; 1]) = Ok [pt3 0 0 0; pt3 3 2 5].
Proof. lc. Qed.

(* C279: points *)
Theorem C279_points : forall c n, (2 <= n)%nat -> length (points c n) = n /\
  nth 0 (points c n) zero3 = e0 c (lo c) /\ nth (n - 1) (points c n) zero3 = e0 c (hi c) /\
  forall i, (i < n)%nat -> nth i (points c n) zero3 = e0 c (spread (lo c) (hi c) n i).
Proof.
  intros c n L. destruct (points_ok c n L) as (A & B). destruct (spread_ends (lo c) (hi c) n L) as (E & F).
  split; [auto|]. split; [rewrite B, E by lia; auto|]. split; [rewrite B, F by lia; auto|auto].
Qed.
Print Assumptions C279_points.
Example C279_case : points cub 3 = [pt3 0 0 0; mkv (q 3 2) 1 (q 5 8); pt3 3 2 5] /\ spread 0 1 3 1 = q 1 2.
Proof. split; [|canon]. lc. Qed.

(* C280: the derivatives of the cubic curves *)
Theorem C280_cubic_derivatives : forall p0 c0 c1 p1 t,
  vderiv (e0 (cubic p0 c0 c1 p1)) t (e1 (cubic p0 c0 c1 p1) t) /\ vderiv (e1 (cubic p0 c0 c1 p1)) t (e2 (cubic p0 c0 c1 p1) t).
Proof. exact cubic_deriv. Qed.
Print Assumptions C280_cubic_derivatives.
Theorem C280_two_cubic_classes : forall p0 c0 c1 p1 t, e0 (cubic p0 c0 c1 p1) t = coords pycub0 p0 c0 c1 p1 t /\
  e1 (cubic p0 c0 c1 p1) t = coords pycub1 p0 c0 c1 p1 t /\ e2 (cubic p0 c0 c1 p1) t = coords pycub2 p0 c0 c1 p1 t.
Proof.
  intros p0 c0 c1 p1 t. unfold cubic, coords. cbn [e0 e1 e2]. split; [|split]; apply v3_ext; cbn [vx vy vz];
  [exact (proj1 (cubic_same _ _ _ _ t))|exact (proj1 (cubic_same _ _ _ _ t))|exact (proj1 (cubic_same _ _ _ _ t))
  |exact (proj1 (proj2 (cubic_same _ _ _ _ t)))|exact (proj1 (proj2 (cubic_same _ _ _ _ t)))|exact (proj1 (proj2 (cubic_same _ _ _ _ t)))
  |exact (proj2 (proj2 (cubic_same _ _ _ _ t)))|exact (proj2 (proj2 (cubic_same _ _ _ _ t)))|exact (proj2 (proj2 (cubic_same _ _ _ _ t)))].
Qed.
Print Assumptions C280_two_cubic_classes.
Example C280_case : e0 cub (q 1 2) = mkv (q 3 2) 1 (q 5 8) /\ e1 cub (q 1 2) = mkv (q 3 1) (q 3 1) (q 15 4) /\ e2 cub (q 1 2) = mkv 0 0 (q 15 1).
Proof. split; [v3c|]. split; v3c. Qed.

(* C281: the cubic curve is the Bezier curve of its four points *)
Theorem C281_cubic_is_bezier : forall p0 c0 c1 p1 t, e0 (cubic p0 c0 c1 p1) t = casteljau p0 c0 c1 p1 t.
Proof. exact cubic_casteljau. Qed.
Print Assumptions C281_cubic_is_bezier.
Theorem C281_cubic_hull : forall p0 c0 c1 p1 n k t, 0 <= t <= 1 ->
  dot3 n p0 <= k -> dot3 n c0 <= k -> dot3 n c1 <= k -> dot3 n p1 <= k -> dot3 n (e0 (cubic p0 c0 c1 p1) t) <= k.
Proof. exact cubic_hull. Qed.
Print Assumptions C281_cubic_hull.
Example C281_case : casteljau (pt3 0 0 0) (pt3 1 0 0) (pt3 2 2 0) (pt3 3 2 5) (q 1 3) = e0 cub (q 1 3) /\
  dot3 (pt3 1 0 0) (e0 cub (q 1 3)) = 1 /\ dot3 (pt3 1 0 0) (pt3 3 2 5) = q 3 1.
Proof. split; [v3c|]. split; canon. Qed.

(* C282: the documentation says that c0 and c1 are the derivatives at the ends *)
Theorem C282_end_derivatives_refuted : forall p0 c0 c1 p1, let c := cubic p0 c0 c1 p1 in
  e1 c 0 = c0 -> vscale (1 + 1) c0 = vscale (1 + 1 + 1) p0.
Proof.
  cbv zeta. intros p0 c0 c1 p1 E. destruct (cubic_ends p0 c0 c1 p1) as (_ & _ & D & _). rewrite D in E. apply (f_equal (fun v => (vx v, vy v, vz v))) in E.
  injection E as X Y Z. cbn [vscale vsub vx vy vz] in X, Y, Z. apply v3_ext; cbn [vscale vx vy vz]; qlra.
Qed.
Print Assumptions C282_end_derivatives_refuted.
Theorem C282_end_derivatives_partial : forall p0 c0 c1 p1, let c := cubic p0 c0 c1 p1 in
  e0 c 0 = p0 /\ e0 c 1 = p1 /\ e1 c 0 = vscale (1 + 1 + 1) (vsub c0 p0) /\ e1 c 1 = vscale (1 + 1 + 1) (vsub p1 c1).
Proof. exact cubic_ends. Qed.
Print Assumptions C282_end_derivatives_partial.
Example C282_case : e1 cub 0 = pt3 3 0 0 /\ pt3 3 0 0 <> pt3 1 0 0 /\ vscale (1 + 1) (pt3 1 0 0) <> vscale (1 + 1 + 1) (pt3 0 0 0).
Proof. split; [v3c|]. split; neq3. Qed.

(* C283: derivative_u and derivative_v of a surface that gives only evaluate *)
Theorem C283_surface_derivatives_refuted : forall a b c,
  (forall u v, u < H \/ 1 - H < u -> c v <> zero3 -> ~ vderiv (fun x => in_u a b c x v) u (surf_u (in_u a b c) u v)) /\
  (forall u v, v < H \/ 1 - H < v -> c u <> zero3 -> ~ vderiv (fun y => in_v a b c u y) v (surf_v (in_v a b c) u v)).
Proof. intros a b c. split; intros u v B N; exact (difference_wrong _ _ _ _ B N). Qed.
Print Assumptions C283_surface_derivatives_refuted.
Theorem C283_surface_derivatives_partial : forall a b c,
  (forall u v, H <= u <= 1 - H -> vderiv (fun x => in_u a b c x v) u (surf_u (in_u a b c) u v)) /\
  (forall u v, H <= v <= 1 - H -> vderiv (fun y => in_v a b c u y) v (surf_v (in_v a b c) u v)) /\
  (forall u v, vderiv (fun x => in_u a b (fun _ => zero3) x v) u (surf_u (in_u a b (fun _ => zero3)) u v)) /\
  (forall u v, vderiv (fun y => in_v a b (fun _ => zero3) u y) v (surf_v (in_v a b (fun _ => zero3)) u v)).
Proof.
  intros a b c. split; [|split; [|split]]; intros u v; try intro B; first [exact (difference_ok _ _ _ _ B)|exact (difference_line _ _ _)].
Qed.
Print Assumptions C283_surface_derivatives_partial.
(* a parabolic cylinder *)
Definition para : Qc -> Qc -> v3 := in_u (fun v => mkv 0 v 0) (fun _ => mkv 1 0 0) (fun _ => mkv 0 0 1).
Example C283_case : surf_u para (q 1 2) (q 1 2) = mkv 1 0 1 /\ surf_u para 0 0 = mkv 1 0 (q 1 1000) /\ surf_u para 1 0 = mkv 1 0 (q 1999 1000) /\
  surf_v para (q 1 2) (q 1 2) = mkv 0 1 0 /\ (H <= q 1 2 <= 1 - H).
Proof. split; [v3c|]. split; [v3c|]. split; [v3c|]. split; [v3c|rng]. Qed.

(* C284: second derivatives of such a surface *)
Theorem C284_second_derivatives_refuted : forall a b c,
  (forall u v, (0 <= u /\ u < H) \/ (1 - H < u /\ u <= 1) -> surf_uu (surf_u (in_u a b c)) u v = c v) /\
  (forall u v, (0 <= v /\ v < H) \/ (1 - H < v /\ v <= 1) -> surf_vv (surf_v (in_v a b c)) u v = c u) /\
  (forall u v, vderiv (quadratic' (a v) (b v) (c v)) u (c v) -> c v = zero3).
Proof.
  intros a b c. split; [|split].
  - intros u v [B|B]; [exact (second_lo _ _ _ _ B)|exact (second_hi _ _ _ _ B)].
  - intros u v [B|B]; [exact (second_lo _ _ _ _ B)|exact (second_hi _ _ _ _ B)].
  - intros u v W. pose proof (vderiv_unique _ _ _ _ W (quadratic_deriv2 (a v) (b v) (c v) u)) as E. unfold quadratic'' in E.
    apply (vscale_fix (1 + 1)); [discriminate|auto].
Qed.
Print Assumptions C284_second_derivatives_refuted.
Theorem C284_second_derivatives_partial : forall a b c,
  (forall u v, H + H <= u <= 1 - (H + H) -> vderiv (quadratic' (a v) (b v) (c v)) u (surf_uu (surf_u (in_u a b c)) u v)) /\
  (forall u v, H + H <= v <= 1 - (H + H) -> vderiv (quadratic' (a u) (b u) (c u)) v (surf_vv (surf_v (in_v a b c)) u v)) /\
  (forall b0 b1 b2 c0 c1 c2 u v, H <= u <= 1 - H -> H <= v <= 1 - H ->
     let f := in_u a (quadratic b0 b1 b2) (quadratic c0 c1 c2) in
     vderiv (fun y => surf_u f u y) v (surf_uv (surf_u f) u v) /\ (forall y, vderiv (fun x => f x y) u (surf_u f u y))).
Proof.
  intros a b c. split; [|split].
  - intros u v B. rewrite surf_uu_eq. change (fun x => in_u a b c x v) with (quadratic (a v) (b v) (c v)). rewrite second_mid by auto. apply quadratic_deriv2.
  - intros u v B. rewrite surf_vv_eq. change (fun y => in_v a b c u y) with (quadratic (a u) (b u) (c u)). rewrite second_mid by auto. apply quadratic_deriv2.
  - intros. apply surf_uv_ok; auto.
Qed.
Print Assumptions C284_second_derivatives_partial.
Example C284_case : surf_uu (surf_u para) (q 1 2) 0 = mkv 0 0 (q 2 1) /\ surf_uu (surf_u para) 0 0 = mkv 0 0 1 /\ surf_uu (surf_u para) 1 0 = mkv 0 0 1.
Proof. split; [v3c|]. split; v3c. Qed.

(* C285: where the surface is evaluated *)
Theorem C285_inside_domain_refuted :
  (forall f u v, 0 <= u /\ u < H -> exists g, agree 0 1 0 1 f g /\ fst (surf_derivatives g u v) <> fst (surf_derivatives f u v)) /\
  (forall f a b c d v, H <= a -> exists g, agree a b c d f g /\ surf_u g a v <> surf_u f a v).
Proof. split; [exact derivatives_outside|exact surf_u_outside]. Qed.
Print Assumptions C285_inside_domain_refuted.
Theorem C285_inside_domain_partial : forall f g u v, agree 0 1 0 1 f g -> 0 <= u <= 1 -> 0 <= v <= 1 ->
  surf_u f u v = surf_u g u v /\ surf_v f u v = surf_v g u v /\ surf_uu (surf_u f) u v = surf_uu (surf_u g) u v /\
  surf_vv (surf_v f) u v = surf_vv (surf_v g) u v /\ surf_uv (surf_u f) u v = surf_uv (surf_u g) u v.
Proof. exact surf_local. Qed.
Print Assumptions C285_inside_domain_partial.
Definition para_cut (u v : Qc) : v3 := if qlt u 0 then zero3 else para u v.
Lemma para_cut_agrees : agree 0 1 0 1 para para_cut.
Proof. intros u v [A _] _. unfold para_cut. rewrite (proj2 (qlt_false u 0)) by auto. reflexivity. Qed.
Example C285_case : agree 0 1 0 1 para para_cut /\ surf_u para_cut 0 1 = surf_u para 0 1 /\
  fst (surf_derivatives para_cut 0 1) = mkv (q 1 2) (q 500 1) (q 1 2000) /\ fst (surf_derivatives para 0 1) = mkv 1 0 0 /\ para (- H) 1 <> para_cut (- H) 1.
Proof. split; [exact para_cut_agrees|]. split; [v3c|]. split; [v3c|]. split; [v3c|neq3]. Qed.

(* C286: the tangent plane of a surface *)
Theorem C286_surface_plane : forall sqrt f du dv u v, cross3 (du u v) (dv u v) <> zero3 -> exact sqrt (dot3 (du u v) (du u v)) ->
  exact sqrt (dot3 (cross3 (du u v) (dv u v)) (cross3 (du u v) (dv u v)) / dot3 (du u v) (du u v)) ->
  exists x y n, surf_plane_at sqrt f du dv u v = Ok [f u v; x; y; n] /\ curve_frame (du u v) (dv u v) x y n.
Proof. exact surf_plane_ok. Qed.
Print Assumptions C286_surface_plane.
Definition quad : bilinear := bilinear_init (pt3 0 0 0) (pt3 3 0 0) (pt3 4 4 7) (pt3 3 4 0).
Example C286_case : cross3 (bcoords bl_u quad 0 0) (bcoords bl_v quad 0 0) <> zero3 /\
  exact root (dot3 (bcoords bl_u quad 0 0) (bcoords bl_u quad 0 0)) /\
  exact root (dot3 (cross3 (bcoords bl_u quad 0 0) (bcoords bl_v quad 0 0)) (cross3 (bcoords bl_u quad 0 0) (bcoords bl_v quad 0 0)) / dot3 (bcoords bl_u quad 0 0) (bcoords bl_u quad 0 0)) /\
  surf_plane_at root (bcoords bl0 quad) (bcoords bl_u quad) (bcoords bl_v quad) 0 0 = Ok [pt3 0 0 0; pt3 1 0 0; pt3 0 1 0; pt3 0 0 1].
Proof.
  split; [neq3|]. split; [root_ok|]. split; [root_ok|]. lc.
Qed.

(* C287: ruled surfaces *)
Theorem C287_ruled_surface : forall a b u v,
  ruled0 a b u 0 = e0 a (remap a u) /\ ruled0 a b u 1 = e0 b (remap b u) /\ remap a 0 = lo a /\ remap a 1 = hi a /\
  (forall w, ruled0 a b u w = vadd (ruled0 a b u v) (vscale (w - v) (ruled_v a b u v))) /\
  vderiv (fun y => ruled0 a b u y) v (ruled_v a b u v) /\ vderiv (fun y => ruled_v a b u y) v (ruled_vv a b u v).
Proof.
  intros a b u v. destruct (ruled_ends a b u) as (A & B & C & D). destruct (ruled_v_ok a b u v) as (E & F & G). auto 10.
Qed.
Print Assumptions C287_ruled_surface.
Definition arc2 (l h : Qc) : pcurve := mkpcv (quadratic (pt3 0 0 0) (pt3 1 0 0) (pt3 0 1 0)) (quadratic' (pt3 0 0 0) (pt3 1 0 0) (pt3 0 1 0)) (quadratic'' (pt3 0 0 0) (pt3 1 0 0) (pt3 0 1 0)) l h.
Definition line2 (l h : Qc) : pcurve := mkpcv (quadratic (pt3 0 0 4) (pt3 1 0 0) zero3) (quadratic' (pt3 0 0 4) (pt3 1 0 0) zero3) (quadratic'' (pt3 0 0 4) (pt3 1 0 0) zero3) l h.
Example C287_case : ruled0 (arc2 0 (q 2 1)) (line2 0 (q 2 1)) 1 (q 1 2) = pt3 2 2 2 /\ ruled_v (arc2 0 (q 2 1)) (line2 0 (q 2 1)) 1 (q 1 2) = pt3 0 (-4) 4.
Proof. split; v3c. Qed.

(* C288: the u derivative of a ruled surface *)
Theorem C288_ruled_u_refuted : forall a b u v L, hi a - lo a = L -> hi b - lo b = L -> L <> 1 ->
  vderiv (e0 a) (remap a u) (e1 a (remap a u)) -> vderiv (e0 b) (remap b u) (e1 b (remap b u)) ->
  ruled_u a b u v <> zero3 -> ~ vderiv (fun x => ruled0 a b x v) u (ruled_u a b u v).
Proof. exact ruled_u_wrong. Qed.
Print Assumptions C288_ruled_u_refuted.
Theorem C288_ruled_u_partial : forall a b u v L, hi a - lo a = L -> hi b - lo b = L ->
  vderiv (e0 a) (remap a u) (e1 a (remap a u)) -> vderiv (e0 b) (remap b u) (e1 b (remap b u)) ->
  vderiv (fun x => ruled0 a b x v) u (vscale L (ruled_u a b u v)) /\
  (L = 1 -> vderiv (fun x => ruled0 a b x v) u (ruled_u a b u v)).
Proof.
  intros a b u v L A B DA DB. pose proof (ruled_u_scaled a b u v L A B DA DB) as R. split; [exact R|]. intros ->.
  replace (ruled_u a b u v) with (vscale 1 (ruled_u a b u v)); [exact R|]. apply v3_ext; cbn [vscale vx vy vz]; ring.
Qed.
Print Assumptions C288_ruled_u_partial.
Example C288_case : hi (arc2 0 (q 2 1)) - lo (arc2 0 (q 2 1)) = q 2 1 /\ q 2 1 <> 1 /\
  (forall t, vderiv (e0 (arc2 0 (q 2 1))) t (e1 (arc2 0 (q 2 1)) t)) /\ (forall t, vderiv (e0 (line2 0 (q 2 1))) t (e1 (line2 0 (q 2 1)) t)) /\
  ruled_u (arc2 0 (q 2 1)) (line2 0 (q 2 1)) 1 (q 1 2) = pt3 1 2 0 /\ ruled_u (arc2 0 (q 2 1)) (line2 0 (q 2 1)) 1 (q 1 2) <> zero3.
Proof.
  split; [canon|]. split; [discriminate|]. split; [intro; apply quadratic_deriv|]. split; [intro; apply quadratic_deriv|]. split; [v3c|neq3].
Qed.

(* C289: bilinear surfaces *)
Theorem C289_bilinear_corners : forall a b c d, let s := bilinear_init a b c d in
  bcoords bl0 s 0 0 = a /\ bcoords bl0 s 1 0 = b /\ bcoords bl0 s 1 1 = c /\ bcoords bl0 s 0 1 = d.
Proof. exact bilinear_corners. Qed.
Print Assumptions C289_bilinear_corners.
Theorem C289_bilinear_derivatives : forall s u v,
  vderiv (fun x => bcoords bl0 s x v) u (bcoords bl_u s u v) /\ vderiv (fun y => bcoords bl0 s u y) v (bcoords bl_v s u v) /\
  vderiv (fun y => bcoords bl_u s u y) v (bcoords bl_uv s u v) /\ vderiv (fun x => bcoords bl_v s x v) u (bcoords bl_uv s u v) /\
  vderiv (fun x => bcoords bl_u s x v) u zero3 /\ vderiv (fun y => bcoords bl_v s u y) v zero3.
Proof. exact bilinear_deriv. Qed.
Print Assumptions C289_bilinear_derivatives.
Theorem C289_bilinear_hull : forall a b c d n k u v, 0 <= u <= 1 -> 0 <= v <= 1 ->
  dot3 n a <= k -> dot3 n b <= k -> dot3 n c <= k -> dot3 n d <= k -> dot3 n (bcoords bl0 (bilinear_init a b c d) u v) <= k.
Proof. exact bilinear_hull. Qed.
Print Assumptions C289_bilinear_hull.
Example C289_case : bcoords bl0 quad (q 1 2) (q 1 2) = mkv (q 5 2) (q 2 1) (q 7 4) /\ bcoords bl_uv quad (q 1 2) (q 1 2) = pt3 (-2) 0 7 /\
  dot3 (pt3 0 0 1) (pt3 4 4 7) <= q 7 1.
Proof. split; [v3c|]. split; [v3c|]. vm_compute. discriminate. Qed.

(* C290: the differences of a callback *)
Theorem C290_callback_derivatives : forall a b c,
  (forall u v, vderiv (fun x => in_u a b c x v) u (ev_u (in_u a b c) u v) /\ vderiv (fun x => ev_u (in_u a b c) x v) u (ev_uu (in_u a b c) u v)) /\
  (forall u v, vderiv (fun y => in_v a b c u y) v (ev_v (in_v a b c) u v) /\ vderiv (fun y => ev_v (in_v a b c) u y) v (ev_vv (in_v a b c) u v)) /\
  (forall b0 b1 b2 c0 c1 c2 u v, let f := in_u a (quadratic b0 b1 b2) (quadratic c0 c1 c2) in vderiv (fun y => ev_u f u y) v (ev_uv f u v)) /\
  (forall f u v, ev_second f u v = [f u v; ev_u f u v; ev_v f u v; ev_uu f u v; ev_vv f u v; ev_uv f u v]).
Proof.
  intros a b c. split; [|split; [|split]].
  - intros u v. split; [apply ev_u_ok|apply ev_uu_ok].
  - intros u v. split; [apply ev_v_ok|apply ev_vv_ok].
  - intros. apply ev_uv_ok.
  - reflexivity.
Qed.
Print Assumptions C290_callback_derivatives.
Example C290_case : ev_second para 0 (q 1 2) = [mkv 0 (q 1 2) 0; mkv 1 0 0; mkv 0 1 0; mkv 0 0 (q 2 1); zero3; zero3].
Proof. lc. Qed.

(* C291: the normal of a callback *)
Theorem C291_callback_normal : forall sqrt f u v, let a := ev_u f u v in let b := ev_v f u v in
  exact sqrt (dot3 (cross3 a b) (cross3 a b)) ->
  (cross3 a b <> zero3 -> exists n k, ev_normal sqrt f u v = Ok [a; b; n] /\ dot3 n n = 1 /\ dot3 n a = 0 /\ dot3 n b = 0 /\ 0 < k /\ cross3 a b = vscale k n) /\
  (cross3 a b = zero3 -> ev_normal sqrt f u v = Err ZeroDivision).
Proof. exact ev_normal_ok. Qed.
Print Assumptions C291_callback_normal.
Example C291_case : exact root (dot3 (cross3 (ev_u para 0 1) (ev_v para 0 1)) (cross3 (ev_u para 0 1) (ev_v para 0 1))) /\
  cross3 (ev_u para 0 1) (ev_v para 0 1) <> zero3 /\ ev_normal root para 0 1 = Ok [pt3 1 0 0; pt3 0 1 0; pt3 0 0 1] /\
  ev_normal root (fun u v => mkv u u 0) 0 1 = Err ZeroDivision.
Proof.
  split; [root_ok|]. split; [neq3|]. split; [lc|reflexivity].
Qed.
