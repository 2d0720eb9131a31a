(* C24-C26, C81-C86: binomials, monomial form, degree elevation. *)
From Coq Require Import List Arith ZArith Bool QArith Qcanon Lia.
From Verif Require Import Common QcLib ArrZ SumLib DerivLib BinomModel SkipSpec BezModel BezSpec BezProofs BezProofs2.
Import ListNotations.
Open Scope Qc_scope.

Definition qz (k : Z) : Qc := Q2Qc (inject_Z k).
Definition ga (l : list (list Z)) : arr := map (map qz) l.
Definition shown (r : res (list Qc)) : option (list Q) := match r with Ok l => Some (map this l) | Err _ => None end.
Definition shown2 (r : res (list (list Qc))) : option (list (list Q)) := match r with Ok l => Some (map (map this) l) | Err _ => None end.

(* C24: the entry (n, k) is the number of k-element sublists of any n distinct values *)
Theorem C24_binomial_counts : forall (A : Type) (l : list A) k, (length l <= 30)%nat -> (k <= 30)%nat -> NoDup l ->
  binomial_coefficient (lenZ l) (Z.of_nat k) = Ok (zq (Z.of_nat (length (sublists k l)))) /\
  NoDup (sublists k l) /\ forall s, In s (sublists k l) <-> subseq s l /\ length s = k.
Proof. exact @binomial_counts. Qed.
Print Assumptions C24_binomial_counts.
Example C24_case : NoDup [7; 5; 9]%nat /\ sublists 2 [7; 5; 9]%nat = [[7; 5]; [7; 9]; [5; 9]]%nat /\
  (match binomial_coefficient 3 2 with Ok x => Some (this x) | Err _ => None end) = Some 3%Q.
Proof. split; [|split; vm_compute; reflexivity]. repeat constructor; cbn; intuition discriminate. Qed.

(* C25 *)
Theorem C25_same_polynomial : forall p, table_size p -> exists q, bezier_to_monomial p = Ok q /\ rows q = rows p /\ cols q = cols p /\ wf_patch q /\
  forall u v, evaluate_monomial2d q u v = map (fun X => bezier_value (rows p) (cols p) X u v) (coords p).
Proof. exact to_monomial_ok. Qed.
Print Assumptions C25_same_polynomial.
Theorem C25_bernstein_sum : forall p u v, evaluate_bezier_patch p u v = map (fun X => bezier_value (rows p) (cols p) X u v) (coords p).
Proof. exact eval_bez_spec. Qed.
Print Assumptions C25_bernstein_sum.
Theorem C25_back_to_bezier : forall inv p, inverts inv -> table_size p -> wf_patch p -> exists r, monomial_to_bezier inv p = Ok r /\ rows r = rows p /\ cols r = cols p /\ length (coords r) = length (coords p) /\
  forall u v, evaluate_bezier_patch r u v = map (fun X => poly_value (rows p) (cols p) X u v) (coords p).
Proof. exact to_bezier_value. Qed.
Print Assumptions C25_back_to_bezier.
Theorem C25_round_trip : forall inv p, inverts inv -> table_size p -> wf_patch p ->
  exists q r, bezier_to_monomial p = Ok q /\ monomial_to_bezier inv q = Ok p /\ monomial_to_bezier inv p = Ok r /\ bezier_to_monomial r = Ok p.
Proof. exact round_trip_ok. Qed.
Print Assumptions C25_round_trip.
(* the conversion matrices do have inverses *)
Theorem C25_invertible : inverts exact_inv.
Proof. exact exact_inv_ok. Qed.
Print Assumptions C25_invertible.
Example C25_case : shown2 (do q <- bezier_to_monomial (mkPatch 3 2 [ga [[1; 2]; [3; 5]; [0; 7]]%Z]) ; getR (coords q) 0) = Some [[1; 1]; [4; 2]; [-5 # 1; 4]]%Q.
Proof. vm_compute. reflexivity. Qed.

(* C26 *)
Theorem C26_same_curve : forall pts dim p t, (p + t <= 30)%nat -> length pts = (p + 1)%nat -> Forall (fun r => length r = dim) pts ->
  exists r, degree_elevation_bez pts dim p t = Ok (r, (p + t)%nat) /\ length r = (p + t + 1)%nat /\ Forall (fun q => length q = dim) r /\
    forall d u, bezier_curve r d u = bezier_curve pts d u.
Proof. exact elevation_ok. Qed.
Print Assumptions C26_same_curve.
Theorem C26_same_ends : forall pts dim p t r q, (p + t <= 30)%nat -> length pts = (p + 1)%nat -> Forall (fun r => length r = dim) pts ->
  degree_elevation_bez pts dim p t = Ok (r, q) -> nth 0 r [] = nth 0 pts [] /\ nth (p + t) r [] = nth p pts [].
Proof. exact elevation_ends. Qed.
Print Assumptions C26_same_ends.
Theorem C26_wrong_count : forall pts dim p t, length pts <> (p + 1)%nat -> degree_elevation_bez pts dim p t = Err ValueError.
Proof. exact elevation_wrong. Qed.
Print Assumptions C26_wrong_count.
Example C26_case : shown2 (do (r, _) <- degree_elevation_bez (ga [[0; 0]; [6; 6]; [12; 0]]%Z) 2 2 1 ; Ok r) = Some [[0; 0]; [4; 4]; [8; 4]; [12; 0]]%Q.
Proof. vm_compute. reflexivity. Qed.

(* C81, refuted: beyond degree 30 the code reads outside the table *)
Theorem C81_elevation_outside_refuted : forall pts dim p t, length pts = (p + 1)%nat -> (30 < p + t)%nat -> degree_elevation_bez pts dim p t = Err IndexError.
Proof. exact elevation_outside. Qed.
Print Assumptions C81_elevation_outside_refuted.
Theorem C81_conversion_outside_refuted : forall p, (1 <= rows p)%nat -> (1 <= cols p)%nat -> (31 < rows p \/ 31 < cols p)%nat -> bezier_to_monomial p = Err IndexError.
Proof. exact monomial_outside. Qed.
Print Assumptions C81_conversion_outside_refuted.
Example C81_case : length (repeat [qz 1; qz 2] 26) = (25 + 1)%nat /\ (30 < 25 + 6)%nat.
Proof. split; [reflexivity|lia]. Qed.

(* C82 *)
Theorem C82_cross_product : forall a b, length (coords a) = 3%nat -> length (coords b) = 3%nat -> exists c, cross_product_monomial a b = Ok c /\ wf_patch c /\
  rows c = (rows a + rows b - 1)%nat /\ cols c = (cols a + cols b - 1)%nat /\
  forall u v, exists ax ay az bx by_ bz, evaluate_monomial2d a u v = [ax; ay; az] /\ evaluate_monomial2d b u v = [bx; by_; bz] /\
    evaluate_monomial2d c u v = [ay * bz - az * by_; az * bx - ax * bz; ax * by_ - ay * bx].
Proof. exact cross_ok. Qed.
Print Assumptions C82_cross_product.
Example C82_case : shown (do c <- cross_product_monomial (mkPatch 2 1 [ga [[1]; [2]]; ga [[0]; [1]]; ga [[3]; [0]]]%Z) (mkPatch 1 2 [ga [[1; 1]]; ga [[2; 0]]; ga [[0; 5]]]%Z) ;
  Ok (evaluate_monomial2d c (qz 2) (qz 3))) = Some [24; -63 # 1; 2]%Q.
Proof. vm_compute. reflexivity. Qed.

(* C83 *)
Theorem C83_partial_derivatives : forall p d u v, (d < length (coords p))%nat ->
  let (du, dv) := monomial_partial_derivatives p in
  wf_patch du /\ wf_patch dv /\ length (coords du) = length (coords p) /\ length (coords dv) = length (coords p) /\
  is_deriv (fun x => nth d (evaluate_monomial2d p x v) 0) u (nth d (evaluate_monomial2d du u v) 0) /\
  is_deriv (fun y => nth d (evaluate_monomial2d p u y) 0) v (nth d (evaluate_monomial2d dv u v) 0).
Proof. exact partials_ok. Qed.
Print Assumptions C83_partial_derivatives.
(* a function has at most one derivative in this sense *)
Theorem C83_derivative_unique : forall f t a b, is_deriv f t a -> is_deriv f t b -> a = b.
Proof. exact deriv_unique. Qed.
Print Assumptions C83_derivative_unique.
Example C83_case : map (map this) (map (fun r => r) (nth 0 (coords (fst (monomial_partial_derivatives (mkPatch 3 2 [ga [[1; 2]; [3; 5]; [4; 7]]%Z])))) [])) = [[3; 5]; [8; 14]]%Q.
Proof. vm_compute. reflexivity. Qed.

(* C84 *)
Theorem C84_normal : forall p, length (coords p) = 3%nat -> exists c, normal_vector_monomial p = Ok c /\
  forall u v (su sv : list Qc), length su = 3%nat -> length sv = 3%nat ->
    (forall d, (d < 3)%nat -> is_deriv (fun x => nth d (evaluate_monomial2d p x v) 0) u (nth d su 0)) ->
    (forall d, (d < 3)%nat -> is_deriv (fun y => nth d (evaluate_monomial2d p u y) 0) v (nth d sv 0)) ->
    evaluate_monomial2d c u v = [nth 1 su 0 * nth 2 sv 0 - nth 2 su 0 * nth 1 sv 0; nth 2 su 0 * nth 0 sv 0 - nth 0 su 0 * nth 2 sv 0; nth 0 su 0 * nth 1 sv 0 - nth 1 su 0 * nth 0 sv 0].
Proof. exact normal_ok. Qed.
Print Assumptions C84_normal.
(* z = u v over the plane: normal (-v, -u, 1) *)
Example C84_case : shown (do c <- normal_vector_monomial (mkPatch 2 2 [ga [[0; 0]; [1; 0]]; ga [[0; 1]; [0; 0]]; ga [[0; 0]; [0; 1]]]%Z) ; Ok (evaluate_monomial2d c (qz 2) (qz 3))) = Some [-3 # 1; -2 # 1; 1]%Q.
Proof. vm_compute. reflexivity. Qed.

(* C85, refuted: whenever the coefficients do not add up to the last one, the
   surface differs at the corner (1, 1) *)
Theorem C85_no_basis_change_refuted : forall p X, (1 <= rows p)%nat -> (1 <= cols p)%nat -> In X (coords p) ->
  sumn (rows p) (fun i => sumn (cols p) (fun j => ent X i j)) <> ent X (rows p - 1) (cols p - 1) ->
  evaluate_bezier_patch (to_bezier p) 1 1 <> evaluate_monomial2d p 1 1 /\ evaluate_monomial2d (from_bezier p) 1 1 <> evaluate_bezier_patch p 1 1.
Proof. exact no_conversion_differs. Qed.
Print Assumptions C85_no_basis_change_refuted.
(* C85, partial: constants are the same in both forms *)
Theorem C85_constant_partial : forall p u v, rows p = 1%nat -> cols p = 1%nat -> evaluate_bezier_patch (to_bezier p) u v = evaluate_monomial2d p u v.
Proof. exact no_conversion_constant. Qed.
Print Assumptions C85_constant_partial.
Example C85_case : let p := mkPatch 2 2 [ga [[1; 2]; [3; 4]]%Z] in
  map this (evaluate_bezier_patch (to_bezier p) 1 1) = [4]%Q /\ map this (evaluate_monomial2d p 1 1) = [10]%Q.
Proof. vm_compute. auto. Qed.

(* C86 *)
Theorem C86_rational_patch : forall inv p q, inverts inv -> table_size p -> wf_patch p -> length (coords p) = 4%nat ->
  homogeneous_monomial_to_rational_bezier inv p = Ok q ->
  exists x y z w, coords q = [x; y; z; w] /\ forall u v hx hy hz hw, evaluate_monomial2d p u v = [hx; hy; hz; hw] -> hw <> 0 ->
    evaluate_rational_bezier_patch (mkPatch (rows q) (cols q) [x; y; z]) w u v = Ok [hx / hw; hy / hw; hz / hw].
Proof. exact rational_ok. Qed.
Print Assumptions C86_rational_patch.
Example C86_case : shown2 (do q <- homogeneous_monomial_to_rational_bezier exact_inv (mkPatch 2 1 [ga [[2]; [4]]; ga [[0]; [3]]; ga [[1]; [1]]; ga [[2]; [1]]]%Z) ; getR (coords q) 0) = Some [[1]; [2]]%Q.
Proof. vm_compute. reflexivity. Qed.
