(* Theorems about implicit points, point inversion and frames. *)
From Coq Require Import List ZArith Lia Bool QArith Qcanon.
From Verif Require Import Common ListLib QcLib ArrZ SumLib NurbsModel DerModel PlnModel PlnSpec PlnProofs2 PlnProofs4 PlnProofs5 PlnProps VecModel VecSpec VecProofs3 VecProps IptModel IptSpec IptProofs1 IptProofs2 IptProofs3 IptProofs4.
Import ListNotations.
Local Open Scope Z_scope.
Local Open Scope Qc_scope.

(* concrete data for the cases *)
Definition qri (r : res (v2 * bool)) : list Q * bool := match r with Ok (p, b) => (qp p, b) | Err _ => ([], false) end.
Definition qans (r : res answer) : list Q :=
  match r with Ok (Point q) => qv q | Ok (Pair _ q) => qv q | Ok (Five q _ _ _ _) => qv q | Ok (Nested _ q _ _ _ _) => qv q | Err _ => [] end.
Definition qrp (r : res v2) : list Q := match r with Ok p => qp p | Err _ => [] end.
Definition qrx (r : res Qc) : list Q := match r with Ok x => [this x] | Err _ => [] end.
(* a vector with a first (second, third) coordinate that is not zero *)
Lemma nzx a b : vx a <> vx b -> a <> b.
Proof. intros H K. now rewrite K in H. Qed.
Lemma nzz a b : vz a <> vz b -> a <> b.
Proof. intros H K. now rewrite K in H. Qed.
Definition fn (n : v3) (c : Qc) (p : v3) : Qc := dot3 n p + c.
Lemma fn_affine n c : affine3 (fn n c) (fun _ => n) n c.
Proof. split; reflexivity. Qed.
(* f = x y z + 1: zero gradient at the origin *)
Definition fprod (p : v3) : Qc := vx p * vy p * vz p + 1.
Definition gprod (p : v3) : v3 := mkv (vy p * vz p) (vx p * vz p) (vx p * vy p).

(* ---- C215: a displacement in space as a displacement in parameters ---- *)
Theorem C215_improve_uv : forall du dv p q old, exists r b, improve_uv du dv p q old = Ok (r, b) /\
  (b = true <-> (mxy du dv < small9 /\ mxz du dv < small9 /\ myz du dv < small9)) /\
  (b = true -> r = old) /\
  (b = false -> forall x y, minus3 q p = comb3 x du y dv -> r = mkp x y).
Proof. exact improve_ok. Qed.
Print Assumptions C215_improve_uv.
Example C215_case : minus3 (v 8 9 11) (v 1 1 1) = comb3 (zq 2) (v 2 1 2) (zq 3) (v 1 2 2) /\
  qri (improve_uv (v 2 1 2) (v 1 2 2) (v 1 1 1) (v 8 9 11) (pz 7 7)) = ([2%Q; 3%Q], false).
Proof. split; [canon3|]. vm_compute. reflexivity. Qed.

(* ---- C216: the order of the two derivatives does not decide about failure ---- *)
Theorem C216_order_refuted : forall du dv p q p' q' old old' r,
  0 <= mxy du dv -> 0 <= mxz du dv -> 0 <= myz du dv ->
  improve_uv du dv p q old = Ok (r, false) -> improve_uv dv du p' q' old' = Ok (old', true).
Proof. exact improve_swap. Qed.
Print Assumptions C216_order_refuted.
Example C216_case : qri (improve_uv (v 1 0 0) (v 0 1 0) (v 0 0 0) (v 5 6 0) (pz 7 7)) = ([5%Q; 6%Q], false) /\
  qri (improve_uv (v 0 1 0) (v 1 0 0) (v 0 0 0) (v 5 6 0) (pz 7 7)) = ([7%Q; 7%Q], true).
Proof. split; vm_compute; reflexivity. Qed.

(* ---- C217: the Python versions ---- *)
Theorem C217_improve_uv_python_refuted : forall a d p q old, 0 < a * d ->
  improve_uv_py (mkv a 0 0) (mkv 0 d 0) p q old = Ok (old, false) /\
  offset_improve_uv (mkv a 0 0) (mkv 0 d 0) p q = Ok (mkp 0 0).
Proof.
  intros a d p q old H. split; [apply improve_py_axes; auto|]. unfold offset_improve_uv. now rewrite improve_py_axes.
Qed.
Print Assumptions C217_improve_uv_python_refuted.
Example C217_case : qrp (offset_improve_uv (v 1 0 0) (v 0 1 0) (v 0 0 0) (v 5 6 0)) = [0%Q; 0%Q].
Proof. vm_compute. reflexivity. Qed.
(* what is reported as solved is the solution *)
Theorem C217_improve_uv_python_partial : forall du dv p q old, exists r b, improve_uv_py du dv p q old = Ok (r, b) /\
  (b = false -> r = old) /\ (b = true -> forall x y, minus3 q p = comb3 x du y dv -> r = mkp x y).
Proof. exact improve_py_ok. Qed.
Print Assumptions C217_improve_uv_python_partial.
Example C217_partial_case : minus3 (v 8 9 11) (v 1 1 1) = comb3 (zq 2) (v 2 1 2) (zq 3) (v 1 2 2) /\
  qri (improve_uv_py (v 2 1 2) (v 1 2 2) (v 1 1 1) (v 8 9 11) (pz 7 7)) = ([2%Q; 3%Q], true).
Proof. split; [canon3|]. vm_compute. reflexivity. Qed.

(* ---- C218: two planes ---- *)
Theorem C218_planes_meet : forall sqrt f1 f2 g1 g2 n1 n2 c1 c2,
  affine3 f1 g1 n1 c1 -> affine3 f2 g2 n2 c2 -> cross3 n1 n2 <> zero3 -> sqrt 0 = 0 ->
  forall q0 old tol max_iter, 0 <= tol -> (0 <= max_iter)%Z -> exists r,
  intersection_curve_point sqrt f1 f2 g1 g2 q0 tol max_iter false false = Ok (Point r) /\
  intersection_curve_point sqrt f1 f2 g1 g2 q0 tol max_iter false true = Ok (Pair true r) /\
  cicp sqrt f1 f2 g1 g2 q0 old tol max_iter = Ok (r, true) /\
  f1 r = 0 /\ f2 r = 0 /\ forall p, f1 p = 0 -> f2 p = 0 -> dist2 q0 r <= dist2 q0 p.
Proof. intros sqrt f1 f2 g1 g2 n1 n2 c1 c2 A1 A2 N Sz q0 old tol mi. exact (icp_affine f1 f2 g1 g2 sqrt n1 n2 c1 c2 A1 A2 N Sz q0 old tol mi). Qed.
Print Assumptions C218_planes_meet.
Example C218_case : affine3 (fn (v 1 1 0) (zq (-2))) (fun _ => v 1 1 0) (v 1 1 0) (zq (-2)) /\ cross3 (v 1 1 0) (v 0 0 1) <> zero3 /\
  qans (intersection_curve_point sq5 (fn (v 1 1 0) (zq (-2))) (fn (v 0 0 1) (zq (-3))) (fun _ => v 1 1 0) (fun _ => v 0 0 1) (v 4 0 0) 0 0 false false) = [3%Q; (-1)%Q; 3%Q].
Proof. split; [apply fn_affine|]. split; [apply nzx; nz|]. vm_compute. reflexivity. Qed.

(* ---- C219: what holds at the point returned ---- *)
Theorem C219_last_step : forall f1 f2 g1 g2 sqrt q0 tol max_iter r,
  (intersection_curve_point sqrt f1 f2 g1 g2 q0 tol max_iter false false = Ok (Point r) \/
   intersection_curve_point sqrt f1 f2 g1 g2 q0 tol max_iter false true = Ok (Pair true r)) ->
  exists q, sqrt (dist2 r q) <= tol /\
  (cross3 (g1 q) (g2 q) = zero3 \/ (tangent_zero f1 g1 q r /\ tangent_zero f2 g2 q r)).
Proof. exact icp_exit. Qed.
Print Assumptions C219_last_step.
(* x^2 = 4 and y = 0 from (5/2, 1, 0): one step leads to (41/20, 0, 0) *)
Definition fsq (p : v3) : Qc := vx p * vx p - zq 4.
Definition gsq (p : v3) : v3 := mkv (zq 2 * vx p) 0 0.
Example C219_case :
  qans (intersection_curve_point (fun x => x) fsq (fn (v 0 1 0) 0) gsq (fun _ => v 0 1 0) (mkv (Q2Qc (5 # 2)) 1 0) (zq 2) 5 false false) = [(41 # 20)%Q; 0%Q; 0%Q] /\
  tangent_zero fsq gsq (mkv (Q2Qc (5 # 2)) 1 0) (mkv (Q2Qc (41 # 20)) 0 0).
Proof. split; [vm_compute; reflexivity|canon]. Qed.

(* ---- C220: success means that the point is near both surfaces ---- *)
Theorem C220_success_refuted : forall f1 f2 g1 g2 sqrt q0 tol max_iter,
  cross3 (g1 q0) (g2 q0) = zero3 -> sqrt 0 <= tol ->
  intersection_curve_point sqrt f1 f2 g1 g2 q0 tol max_iter false false = Ok (Point q0) /\
  intersection_curve_point sqrt f1 f2 g1 g2 q0 tol max_iter false true = Ok (Pair true q0).
Proof. exact icp_singular. Qed.
Print Assumptions C220_success_refuted.
(* the planes z = 1000 and z = -1000 *)
Example C220_case : cross3 (v 0 0 1) (v 0 0 1) = zero3 /\
  qans (intersection_curve_point sq5 (fn (v 0 0 1) (zq (-1000))) (fn (v 0 0 1) (zq 1000)) (fun _ => v 0 0 1) (fun _ => v 0 0 1) (v 1 2 3) (Q2Qc (1 # 1000000)) 100 false true) = [1%Q; 2%Q; 3%Q].
Proof. split; [canon3|]. vm_compute. reflexivity. Qed.

(* ---- C221: the pair (success, data) ---- *)
Theorem C221_grads_pair_refuted : forall f1 f2 g1 g2 sqrt q0 tol max_iter no_err a,
  intersection_curve_point sqrt f1 f2 g1 g2 q0 tol max_iter true no_err = Ok a -> answer_len a = 5%Z.
Proof. exact icp_grads_len. Qed.
Print Assumptions C221_grads_pair_refuted.
Example C221_case : exists a b u w, intersection_curve_point sq5 (fn (v 0 0 1) 0) (fn (v 0 1 0) 0) (fun _ => v 0 0 1) (fun _ => v 0 1 0) (v 1 0 0) 1 100 true true =
  Ok (Nested true (v 1 0 0) a b u w).
Proof.
  destruct (icp_total (fn (v 0 0 1) 0) (fn (v 0 1 0) 0) (fun _ => v 0 0 1) (fun _ => v 0 1 0) sq5 (v 1 0 0) 1 100 true) as [c [r [_ _]]].
  unfold intersection_curve_point, icp_run, newton_step. cbn [bind].
  match goal with |- context [solve2x2 ?m ?y ?o] => replace (solve2x2 m y o) with (Ok (mkp 0 0, true) : res (v2 * bool)) end.
  2:{ unfold solve2x2. cbn [m00 m01 m10 m11 p0 p1]. match goal with |- context [qeq ?x 0] => replace x with 1 by canon end.
      assert (Q : qeq 1 0 = false) by (apply qeq_false; nz). rewrite Q, !divR_ok_ by nz. cbn [bind]. repeat f_equal; canon. }
  cbn [bind fst p0 p1].
  replace (vadd (vadd (vscale 0 (v 0 0 1)) (vscale 0 (v 0 1 0))) (v 1 0 0)) with (v 1 0 0) by canon3.
  match goal with |- context [scalar_norm ?s ?x] => replace (scalar_norm s x) with 0 by canon end.
  change (Z.to_nat (100 + 1)) with 101%nat. cbn [newton_loop]. assert (Q : qlt 1 0 = false) by (apply qlt_false; apply qle_true; vm_compute; reflexivity).
  rewrite Q. cbn [bind negb andb]. repeat eexists.
Qed.
(* without the gradients the form of the answer follows no_err *)
Theorem C221_answer_form_partial : forall f1 f2 g1 g2 sqrt q0 tol max_iter ne, exists c r,
  intersection_curve_point sqrt f1 f2 g1 g2 q0 tol max_iter false true = Ok (Pair c r) /\
  intersection_curve_point sqrt f1 f2 g1 g2 q0 tol max_iter false false = (if c then Ok (Point r) else Err ValueError) /\
  (c = true -> exists q a b u w, intersection_curve_point sqrt f1 f2 g1 g2 q0 tol max_iter true ne =
     Ok (if ne then Nested c q a b u w else Five q a b u w)).
Proof. exact icp_total. Qed.
Print Assumptions C221_answer_form_partial.
(* x^2 + 1 has no zero: no convergence, an error or False *)
Definition fno (p : v3) : Qc := vx p * vx p + 1.
Example C221_partial_case :
  intersection_curve_point (fun x => x) fno (fn (v 0 1 0) 0) gsq (fun _ => v 0 1 0) (v 1 0 0) (Q2Qc (1 # 1000)) (-1) false false = Err ValueError /\
  qans (intersection_curve_point (fun x => x) fno (fn (v 0 1 0) 0) gsq (fun _ => v 0 1 0) (v 1 0 0) (Q2Qc (1 # 1000)) (-1) false true) = [0%Q; 0%Q; 0%Q].
Proof. split; vm_compute; reflexivity. Qed.

(* ---- C222: the compiled version against the Python one ---- *)
Theorem C222_compiled_agrees : forall f1 f2 g1 g2 sqrt q0 old tol max_iter, exists r b,
  cicp sqrt f1 f2 g1 g2 q0 old tol max_iter = Ok (r, b) /\
  (b = true -> cross3 (g1 q0) (g2 q0) <> zero3 /\
     intersection_curve_point sqrt f1 f2 g1 g2 q0 tol max_iter false false = Ok (Point r)) /\
  (intersection_curve_point sqrt f1 f2 g1 g2 q0 tol max_iter false false = Err ValueError -> r = old /\ b = false) /\
  (cross3 (g1 q0) (g2 q0) = zero3 -> sqrt 0 <= tol -> r = q0 /\ b = false).
Proof.
  intros f1 f2 g1 g2 sqrt q0 old tol mi. destruct (cicp_refines f1 f2 g1 g2 sqrt q0 old tol mi) as [r [b [E [H1 H2]]]]. exists r, b.
  split; auto. split; auto. split; auto. intros C T. rewrite (cicp_singular f1 f2 g1 g2 sqrt q0 old tol mi C T) in E. injection E as <- <-. auto.
Qed.
Print Assumptions C222_compiled_agrees.
Example C222_case :
  match cicp (fun x => x) fsq (fn (v 0 1 0) 0) gsq (fun _ => v 0 1 0) (mkv (Q2Qc (5 # 2)) 1 0) (v 7 7 7) (zq 2) 5 with Ok (r, b) => (qv r, b) | Err _ => ([], false) end
  = ([(41 # 20)%Q; 0%Q; 0%Q], true).
Proof. vm_compute. reflexivity. Qed.

(* ---- C223: a point of one surface ---- *)
Theorem C223_surface_point : forall sqrt f g,
  (forall tol fuel p r, surface_point sqrt f g fuel p tol = Ok r ->
     exists q, sqrt (dist2 r q) < tol /\ ((g q = zero3 /\ r = q) \/ tangent_zero f g q r)) /\
  (forall n c tol k p, affine3 f g n c -> n <> zero3 -> sqrt 0 = 0 -> 0 < tol ->
     exists r, surface_point sqrt f g (S (S k)) p tol = Ok r /\ f r = 0 /\ forall q, f q = 0 -> dist2 p r <= dist2 p q).
Proof. intros sqrt f g. split; [apply surface_exit|apply surface_affine]. Qed.
Print Assumptions C223_surface_point.
Example C223_case : affine3 (fn (v 1 2 2) (zq (-9))) (fun _ => v 1 2 2) (v 1 2 2) (zq (-9)) /\ v 1 2 2 <> zero3 /\
  qrv (surface_point sq5 (fn (v 1 2 2) (zq (-9))) (fun _ => v 1 2 2) 2 (v 0 0 0) (Q2Qc (1 # 1000))) = [1%Q; 2%Q; 2%Q].
Proof. split; [apply fn_affine|]. split; [apply nzx; nz|]. vm_compute. reflexivity. Qed.

(* ---- C224: the point returned is near the surface; the iteration stops ---- *)
Theorem C224_surface_point_refuted : forall sqrt f g,
  (forall tol fuel p, g p = zero3 -> sqrt 0 < tol -> surface_point sqrt f g (S fuel) p tol = Ok p) /\
  (forall tol fuel p, (forall x, 0 <= sqrt x) -> tol <= 0 -> surface_point sqrt f g fuel p tol = Err OutOfFuel).
Proof. intros sqrt f g. split; [apply surface_flat|apply surface_loops]. Qed.
Print Assumptions C224_surface_point_refuted.
Example C224_case : gprod (v 0 0 0) = zero3 /\ fprod (v 0 0 0) = 1 /\
  qrv (surface_point sq5 fprod gprod 1 (v 0 0 0) (Q2Qc (1 # 1000))) = [0%Q; 0%Q; 0%Q].
Proof. split; [canon3|]. split; [canon|]. vm_compute. reflexivity. Qed.

(* ---- C225: the tangent plane ---- *)
Theorem C225_surface_plane_refuted : forall sqrt f g fuel p tol r, surface_plane sqrt f g fuel p tol <> Ok r.
Proof. intros sqrt f g fuel p tol. apply surface_plane_fails. Qed.
Print Assumptions C225_surface_plane_refuted.
Example C225_case : surface_plane sq5 (fn (v 1 2 2) (zq (-9))) (fun _ => v 1 2 2) 2 (v 0 0 0) (Q2Qc (1 # 1000)) = Err ValueError.
Proof. vm_compute. reflexivity. Qed.

(* ---- C226: a point of a plane curve ---- *)
Theorem C226_curve_point : forall sqrt f g,
  (forall delta fuel p r, curve_point sqrt f g fuel p delta = Ok r ->
     exists q, sqrt (sqdist2 q r) <= delta /\ ((g q = mkp 0 0 /\ r = q) \/ f q + dot2 (g q) (mkp (p0 r - p0 q) (p1 r - p1 q)) = 0)) /\
  (forall n c delta k p, affine2 f g n c -> n <> mkp 0 0 -> sqrt 0 = 0 -> 0 <= delta ->
     exists r, curve_point sqrt f g (S (S k)) p delta = Ok r /\ f r = 0 /\ forall q, f q = 0 -> sqdist2 p r <= sqdist2 p q) /\
  (forall n c tol k p, affine2 f g n c -> n <> mkp 0 0 -> 0 < tol -> tol <= 1 ->
     exists r, curve_point2 f g (S (S k)) p tol = Ok r /\ f r = 0 /\ forall q, f q = 0 -> sqdist2 p r <= sqdist2 p q).
Proof. intros sqrt f g. split; [apply curve_exit|]. split; [apply curve_affine|apply (curve2_affine sqrt)]. Qed.
Print Assumptions C226_curve_point.
Definition fl2 (p : v2) : Qc := zq 3 * p0 p + zq 4 * p1 p - zq 25.
Lemma fl2_affine : affine2 fl2 (fun _ => pz 3 4) (pz 3 4) (zq (-25)).
Proof. split; [|reflexivity]. intro p. unfold fl2, dot2, pz. cbn [p0 p1]. replace (zq (-25)) with (- zq 25) by canon. ring. Qed.
Example C226_case : affine2 fl2 (fun _ => pz 3 4) (pz 3 4) (zq (-25)) /\
  qrp (curve_point sq5 fl2 (fun _ => pz 3 4) 2 (pz 0 0) (Q2Qc (1 # 1000))) = [3%Q; 4%Q] /\
  qrp (curve_point2 fl2 (fun _ => pz 3 4) 2 (pz 0 0) (Q2Qc (1 # 1000))) = [3%Q; 4%Q].
Proof. split; [apply fl2_affine|]. split; vm_compute; reflexivity. Qed.

(* ---- C227: the second version of it always moves to the curve ---- *)
Theorem C227_curve_point2_refuted : forall f g tol fuel p, 1 < tol -> curve_point2 f g fuel p tol = Ok p.
Proof. intros f g tol fuel p. apply curve2_early. Qed.
Print Assumptions C227_curve_point2_refuted.
Example C227_case : qrp (curve_point2 fl2 (fun _ => pz 3 4) 9 (pz 0 0) (zq 2)) = [0%Q; 0%Q] /\ qrp (curve_point sq5 fl2 (fun _ => pz 3 4) 9 (pz 0 0) (zq 2)) = [3%Q; 4%Q].
Proof. split; vm_compute; reflexivity. Qed.
Theorem C227_curve_point2_partial : forall f g tol fuel p r, tol <= 1 -> curve_point2 f g fuel p tol = Ok r ->
  exists q, aval (p0 q - p0 r) + aval (p1 q - p1 r) < tol /\ ((g q = mkp 0 0 /\ r = q) \/ f q + dot2 (g q) (mkp (p0 r - p0 q) (p1 r - p1 q)) = 0).
Proof.
  intros f g tol fuel p r T H. destruct (loop2_exit (fun x => x) f g tol fuel p 1 r H) as [[L _]|K]; [exfalso; qlra|exact K].
Qed.
Print Assumptions C227_curve_point2_partial.
Example C227_partial_case : qrp (curve_point2 (fun p => p0 p * p0 p - zq 4) (fun p => mkp (zq 2 * p0 p) 0) 9 (mkp (Q2Qc (5 # 2)) 0) 1) = [(41 # 20)%Q; 0%Q].
Proof. vm_compute. reflexivity. Qed.

(* ---- C228: the parameter of a point of a curve ---- *)
Theorem C228_curve_inversion_refuted :
  (forall sqrt C C1 C2 P u0 tol1 tol2 max_iter u,
     point_inversion_curve sqrt C C1 C2 P u0 tol1 tol2 max_iter = Ok u -> u = u0 \/ tol1 < sqrt (dist2 (C u) P)) /\
  (forall sqrt o d P u0 tol1 tol2 max_iter u, 0 <= tol2 ->
     point_inversion_curve sqrt (line_at o d) (fun _ => d) (fun _ => zero3) P u0 tol1 tol2 max_iter = Ok u -> u = u0) /\
  (forall sqrt o d P u0 tol1 tol2 max_iter, 0 <= tol2 -> sqrt (dot3 d d) <> 0 -> sqrt (dist2 d P) <> 0 ->
     point_inversion_curve sqrt (line_at o d) (fun _ => d) (fun _ => zero3) P u0 tol1 tol2 max_iter = Ok u0).
Proof.
  split; [intros sqrt C C1 C2 P u0 tol1 tol2 mi u; apply inversion_never|]. split.
  - intros sqrt o d P u0 tol1 tol2 mi u T. apply (proj1 (inversion_line sqrt o d P u0 tol1 tol2 mi T)).
  - intros sqrt o d P u0 tol1 tol2 mi T. apply (proj2 (inversion_line sqrt o d P u0 tol1 tol2 mi T)).
Qed.
Print Assumptions C228_curve_inversion_refuted.
(* the point at parameter 7 of the x axis, from 0 *)
Example C228_case : line_at (v 0 0 0) (v 1 0 0) (zq 7) = v 7 0 0 /\
  qrx (point_inversion_curve sq5 (line_at (v 0 0 0) (v 1 0 0)) (fun _ => v 1 0 0) (fun _ => zero3) (v 7 0 0) 0 (Q2Qc (1 # 1000)) (Q2Qc (1 # 1000)) 100) = [0%Q].
Proof. split; [canon3|]. vm_compute. reflexivity. Qed.
(* a start at a foot of the point is kept *)
Theorem C228_curve_inversion_partial : forall sqrt C C1 C2 P tol1 tol2 u0 max_iter, 0 <= tol1 ->
  dot3 (C1 u0) (minus3 (C u0) P) = 0 -> point_inversion_curve sqrt C C1 C2 P u0 tol1 tol2 max_iter = Ok u0.
Proof. intros sqrt C C1 C2 P tol1 tol2 u0 mi. apply inversion_start. Qed.
Print Assumptions C228_curve_inversion_partial.
Example C228_partial_case : dot3 (v 1 0 0) (minus3 (line_at (v 0 0 0) (v 1 0 0) (zq 7)) (v 7 5 0)) = 0.
Proof. canon. Qed.

(* ---- C229: the parameters of a point of a surface ---- *)
Theorem C229_surface_inversion_refuted :
  (forall sqrt F Fu Fv P u0 v0 tol1 tol2 max_iter r,
     point_inversion_surface sqrt F Fu Fv P u0 v0 tol1 tol2 max_iter = Ok r -> r = mkp u0 v0 \/ tol1 < sqrt (dist2 (F r) P)) /\
  (forall sqrt o a b P u0 v0 tol1 tol2 max_iter, cross3 a b <> zero3 -> is_sqrt (sqrt (dot3 a a)) (dot3 a a) -> 0 <= tol1 -> 0 <= tol2 ->
     point_inversion_surface sqrt (plane_at o a b) (fun _ => a) (fun _ => b) P u0 v0 tol1 tol2 max_iter = Ok (mkp u0 v0)).
Proof.
  split; [intros sqrt F Fu Fv P u0 v0 tol1 tol2 mi r; apply inversion_surface_never|]. exact inversion_plane.
Qed.
Print Assumptions C229_surface_inversion_refuted.
Example C229_case : cross3 (v 1 0 0) (v 0 1 0) <> zero3 /\ is_sqrt (sq5 (dot3 (v 1 0 0) (v 1 0 0))) (dot3 (v 1 0 0) (v 1 0 0)) /\
  plane_at (v 0 0 0) (v 1 0 0) (v 0 1 0) (pz 3 4) = v 3 4 0 /\
  qrp (point_inversion_surface sq5 (plane_at (v 0 0 0) (v 1 0 0) (v 0 1 0)) (fun _ => v 1 0 0) (fun _ => v 0 1 0) (v 3 4 0) 0 0 (Q2Qc (1 # 1000)) (Q2Qc (1 # 1000)) 100) = [0%Q; 0%Q].
Proof. split; [apply nzz; nz|]. split; [sqrt_case|]. split; [canon3|]. vm_compute. reflexivity. Qed.
Theorem C229_surface_inversion_partial : forall sqrt F Fu Fv P tol1 tol2 u0 v0 max_iter, 0 <= tol1 ->
  cross3 (Fu (mkp u0 v0)) (Fv (mkp u0 v0)) <> zero3 ->
  dot3 (Fu (mkp u0 v0)) (minus3 (F (mkp u0 v0)) P) = 0 -> dot3 (Fv (mkp u0 v0)) (minus3 (F (mkp u0 v0)) P) = 0 -> sqrt 0 = 0 ->
  point_inversion_surface sqrt F Fu Fv P u0 v0 tol1 tol2 max_iter = Ok (mkp u0 v0).
Proof. intros sqrt F Fu Fv P tol1 tol2 u0 v0 mi. apply inversion_surface_start. Qed.
Print Assumptions C229_surface_inversion_partial.
Example C229_partial_case : dot3 (v 1 0 0) (minus3 (plane_at (v 0 0 0) (v 1 0 0) (v 0 1 0) (pz 3 4)) (v 3 4 9)) = 0 /\
  dot3 (v 0 1 0) (minus3 (plane_at (v 0 0 0) (v 1 0 0) (v 0 1 0) (pz 3 4)) (v 3 4 9)) = 0.
Proof. split; canon. Qed.

(* ---- C230: orthonormal triples ---- *)
Theorem C230_orthonormalize : forall sqrt u v w, u <> zero3 -> is_sqrt (sqrt (dot3 u u)) (dot3 u u) ->
  let v1 := perp_part u v in let w2 := perp_part v1 (perp_part u w) in
  (is_sqrt (sqrt (dot3 v1 v1)) (dot3 v1 v1) -> is_sqrt (sqrt (dot3 w2 w2)) (dot3 w2 w2) ->
   small10 < sqrt (dot3 v1 v1) -> small10 < sqrt (dot3 w2 w2) ->
   exists a b c, fst (fst (orthonormalize sqrt u v w)) = Ok (a, b, c) /\ orthonormal a b c /\
   (exists k, 0 < k /\ u = along zero3 k a) /\
   (exists k l, 0 < l /\ v = along (along zero3 k a) l b) /\
   (exists k l m, 0 < m /\ w = along (along (along zero3 k a) l b) m c)) /\
  (sqrt (dot3 v1 v1) <= small10 -> fst (fst (orthonormalize sqrt u v w)) = Err ValueError).
Proof.
  intros sqrt u v w Nu Ru v1 w2. split.
  - intros Rv Rw Lv Lw. destruct (ortho_ok sqrt u v w Nu Ru Rv Rw Lv Lw) as [a [b [c [E H]]]]. exists a, b, c. rewrite E. auto.
  - intro L. rewrite (ortho_parallel sqrt u v w Nu Ru L). reflexivity.
Qed.
Print Assumptions C230_orthonormalize.
(* a zero first vector is an error *)
Theorem C230_zero_vector : forall sqrt v w, sqrt 0 = 0 -> fst (fst (orthonormalize sqrt zero3 v w)) = Err ValueError.
Proof.
  intros sqrt v w H. unfold orthonormalize, scalar_norm. replace (vdot zero3 zero3) with 0 by (unfold vdot, zero3; cbn; apply Qc_is_canon; reflexivity).
  rewrite H. reflexivity.
Qed.
Print Assumptions C230_zero_vector.
Definition qrt (r : res (v3 * v3 * v3)) : list (list Q) := match r with Ok (a, b, c) => [qv a; qv b; qv c] | Err _ => [] end.
Example C230_case : qv (perp_part (v 2 0 0) (v 1 3 0)) = [0%Q; 3%Q; 0%Q] /\
  qrt (fst (fst (orthonormalize sq5 (v 2 0 0) (v 1 3 0) (v 5 6 (-2))))) = [[1%Q; 0%Q; 0%Q]; [0%Q; 1%Q; 0%Q]; [0%Q; 0%Q; (-1)%Q]].
Proof. split; vm_compute; reflexivity. Qed.

(* ---- C231: the vectors given are left as they are ---- *)
Theorem C231_arguments_refuted : forall sqrt u v w, let v1 := perp_part u v in let w2 := perp_part v1 (perp_part u w) in
  u <> zero3 -> is_sqrt (sqrt (dot3 u u)) (dot3 u u) ->
  (is_sqrt (sqrt (dot3 v1 v1)) (dot3 v1 v1) -> is_sqrt (sqrt (dot3 w2 w2)) (dot3 w2 w2) ->
   small10 < sqrt (dot3 v1 v1) -> small10 < sqrt (dot3 w2 w2) ->
   exists a b c, orthonormalize sqrt u v w = (Ok (a, b, c), Some b, Some c)) /\
  (sqrt (dot3 v1 v1) <= small10 -> orthonormalize sqrt u v w = (Err ValueError, Some v1, Some w)).
Proof.
  intros sqrt u v w v1 w2 Nu Ru. split.
  - intros Rv Rw Lv Lw. destruct (ortho_ok sqrt u v w Nu Ru Rv Rw Lv Lw) as [a [b [c [E _]]]]. exists a, b, c. auto.
  - intro L. apply ortho_parallel; auto.
Qed.
Print Assumptions C231_arguments_refuted.
(* v = (1, 3, 0) becomes (0, 1, 0) *)
Example C231_case : match snd (fst (orthonormalize sq5 (v 2 0 0) (v 1 3 0) (v 5 6 (-2)))) with Some p => qv p | None => [] end = [0%Q; 1%Q; 0%Q].
Proof. vm_compute. reflexivity. Qed.

(* ---- C232: the frame of a curve ---- *)
Theorem C232_frenet : forall sqrt r r1 r2, let K := along zero3 (1 / sqrt (dot3 r1 r1)) (perp_part r1 r2) in
  cross3 r1 r2 <> zero3 -> is_sqrt (sqrt (dot3 r1 r1)) (dot3 r1 r1) -> is_sqrt (sqrt (dot3 K K)) (dot3 K K) ->
  exists T N B, frenet sqrt r r1 r2 = Ok (r, T, N, B) /\ orthonormal T N B /\ det3 T N B = 1 /\
  (exists k, 0 < k /\ r1 = along zero3 k T) /\ (exists k l, 0 < l /\ r2 = along (along zero3 k T) l N).
Proof. intros sqrt r r1 r2. apply frenet_ok. Qed.
Print Assumptions C232_frenet.
Definition qrf (r : res (v3 * v3 * v3 * v3)) : list (list Q) := match r with Ok (a, b, c, d) => [qv a; qv b; qv c; qv d] | Err _ => [] end.
Example C232_case : cross3 (v 2 0 0) (v 5 0 4) <> zero3 /\
  qrf (frenet sq5 (v 1 2 3) (v 2 0 0) (v 5 0 4)) = [[1%Q; 2%Q; 3%Q]; [1%Q; 0%Q; 0%Q]; [0%Q; 0%Q; 1%Q]; [0%Q; (-1)%Q; 0%Q]].
Proof. split; [intro H; apply (f_equal vy) in H; revert H; nz|]. vm_compute. reflexivity. Qed.

(* ---- C233: perpendicular vectors in space ---- *)
Theorem C233_perpendicular_refuted : forall sqrt a b, a <> zero3 -> b <> zero3 ->
  is_sqrt (sqrt (dot3 a a)) (dot3 a a) -> is_sqrt (sqrt (dot3 b b)) (dot3 b b) ->
  vec_gram_schmidt sqrt a b = Err NameError /\ projection_length sqrt a b = Err NameError.
Proof. exact gs_fails. Qed.
Print Assumptions C233_perpendicular_refuted.
Example C233_case : v 2 0 0 <> zero3 /\ is_sqrt (sq5 (dot3 (v 2 0 0) (v 2 0 0))) (dot3 (v 2 0 0) (v 2 0 0)) /\ vec_gram_schmidt sq5 (v 2 0 0) (v 0 3 0) = Err NameError.
Proof. split; [apply nzx; nz|]. split; [sqrt_case|]. vm_compute. reflexivity. Qed.
(* in the plane the perpendicular is the quarter turn to the left *)
Theorem C233_perpendicular_partial : forall w,
  dot2 w (perp2d w) = 0 /\ dot2 (perp2d w) (perp2d w) = dot2 w w /\ 0 <= p0 w * p1 (perp2d w) - p1 w * p0 (perp2d w) /\
  perp2d (perp2d w) = mkp (- p0 w) (- p1 w).
Proof. exact perp_ok. Qed.
Print Assumptions C233_perpendicular_partial.
Example C233_partial_case : qp (perp2d (pz 3 4)) = [(-4)%Q; 3%Q].
Proof. vm_compute. reflexivity. Qed.

(* ---- C234: the distance of an offset curve ---- *)
Theorem C234_offset_refuted : forall fuel stored, offset_property fuel stored = Err OutOfFuel.
Proof. exact offset_never. Qed.
Print Assumptions C234_offset_refuted.
Example C234_case : offset_property 50 (zq 1) = Err OutOfFuel.
Proof. reflexivity. Qed.

(* ---- C235: inside an implicit curve; clamping ---- *)
Theorem C235_inside_and_clamp :
  (forall f p, point_in_implicit_curve f p = true <-> f p <= Q2Qc (1 # 10 ^ 8)) /\
  (forall s lo hi, p0 lo <= p0 hi -> p1 lo <= p1 hi ->
   let r := clamp2 s lo hi in (p0 lo <= p0 r <= p0 hi) /\ (p1 lo <= p1 r <= p1 hi) /\
   ((p0 lo <= p0 s <= p0 hi) -> (p1 lo <= p1 s <= p1 hi) -> r = s) /\
   (forall t, (p0 lo <= p0 t <= p0 hi) -> (p1 lo <= p1 t <= p1 hi) -> sqdist2 s r <= sqdist2 s t)).
Proof. split; [exact in_implicit|exact clamp_ok]. Qed.
Print Assumptions C235_inside_and_clamp.
Example C235_case : qp (clamp2 (pz 9 (-5)) (pz 0 0) (pz 3 4)) = [3%Q; 0%Q] /\ point_in_implicit_curve (fun p => p0 p - 1) (pz 1 5) = true /\ point_in_implicit_curve (fun p => p0 p - 1) (pz 2 5) = false.
Proof. repeat split; vm_compute; reflexivity. Qed.
