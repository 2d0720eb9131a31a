(* Specification vocabulary for parametric curves and surfaces, independent of
   the code.  Vectors and dot3 are those of PlnSpec. *)
From Coq Require Import List ZArith Bool QArith Qcanon.
From Verif Require Import Common QcLib ArrZ SumLib NurbsModel DerModel PlnModel PlnSpec ParModel.
Import ListNotations.
Local Open Scope Z_scope.
Local Open Scope Qc_scope.

(* d is the derivative of f at t, by the definition with limits *)
Definition deriv (f : Qc -> Qc) (t d : Qc) : Prop :=
  forall eps, 0 < eps -> exists delta, 0 < delta /\
    forall h, fabs h < delta -> fabs (f (t + h) - f t - h * d) <= eps * fabs h.
Definition vderiv (f : Qc -> v3) (t : Qc) (d : v3) : Prop :=
  deriv (fun x => vx (f x)) t (vx d) /\ deriv (fun x => vy (f x)) t (vy d) /\ deriv (fun x => vz (f x)) t (vz d).

(* curves and functions of degree at most two *)
Definition quadratic (a b c : v3) (t : Qc) : v3 := vadd (vadd a (vscale t b)) (vscale (t * t) c).
Definition quadratic' (a b c : v3) (t : Qc) : v3 := vadd b (vscale ((1 + 1) * t) c).
Definition quadratic'' (a b c : v3) (t : Qc) : v3 := vscale (1 + 1) c.

(* k is the curvature vector of a curve with these derivatives *)
Definition curvature_vector (d1 d2 k : v3) : Prop :=
  vscale (dot3 d1 d1 * dot3 d1 d1) k = vsub (vscale (dot3 d1 d1) d2) (vscale (dot3 d2 d1) d1).
(* p, T, N, B is the frame of a curve at p with these derivatives *)
Definition curve_frame (d1 d2 T N B : v3) : Prop :=
  orthonormal T N B /\ cross3 T N = B /\
  (exists k, 0 < k /\ d1 = vscale k T) /\ (exists a b, 0 < b /\ d2 = vadd (vscale a T) (vscale b N)).

(* x lies between the smallest and the largest of the numbers in l *)
Definition among (l : list Qc) (x : Qc) : Prop :=
  (exists a, In a l /\ a <= x) /\ (exists b, In b l /\ x <= b).
(* the point with weights s and t, de Casteljau's construction *)
Definition mix (t : Qc) (a b : v3) : v3 := vadd (vscale (1 - t) a) (vscale t b).
Definition casteljau (p0 c0 c1 p1 : v3) (t : Qc) : v3 :=
  let a := mix t p0 c0 in let b := mix t c0 c1 in let c := mix t c1 p1 in
  mix t (mix t a b) (mix t b c).

(* two surfaces that cannot be told apart on a rectangle *)
Definition agree (a b c d : Qc) (f g : Qc -> Qc -> v3) : Prop :=
  forall u v, a <= u <= b -> c <= v <= d -> f u v = g u v.

(* surfaces of degree at most two in u, and in both parameters *)
Definition in_u (a b c : Qc -> v3) (u v : Qc) : v3 := quadratic (a v) (b v) (c v) u.
Definition in_v (a b c : Qc -> v3) (u v : Qc) : v3 := quadratic (a u) (b u) (c u) v.
Definition exact (sqrt : Qc -> Qc) (x : Qc) : Prop := is_sqrt (sqrt x) x.
(* the i-th of n numbers spread evenly from a to b *)
Definition number (n : nat) : Qc := Q2Qc (inject_Z (Z.of_nat n)).
Definition spread (a b : Qc) (n i : nat) : Qc := (number (n - 1 - i) * a + number i * b) / number (n - 1).
