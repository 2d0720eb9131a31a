(* Specification vocabulary for planes, independent of the code. *)
From Coq Require Import List ZArith Bool QArith Qcanon.
From Verif Require Import Common QcLib ArrZ SumLib NurbsModel DerModel PlnModel.
Import ListNotations.
Local Open Scope Z_scope.
Local Open Scope Qc_scope.

Definition dot3 (a b : v3) : Qc := vx a * vx b + vy a * vy b + vz a * vz b.
Definition minus3 (a b : v3) : v3 := mkv (vx a - vx b) (vy a - vy b) (vz a - vz b).
Definition cross3 (a b : v3) : v3 :=
  mkv (vy a * vz b - vz a * vy b) (vz a * vx b - vx a * vz b) (vx a * vy b - vy a * vx b).
Definition neg3 (a : v3) : v3 := mkv (- vx a) (- vy a) (- vz a).
Definition zero3 : v3 := mkv 0 0 0.
(* the point o + s d *)
Definition along (o : v3) (s : Qc) (d : v3) : v3 := mkv (vx o + s * vx d) (vy o + s * vy d) (vz o + s * vz d).
Definition dist2 (a b : v3) : Qc := dot3 (minus3 a b) (minus3 a b).
Definition det3 (a b c : v3) : Qc := dot3 a (cross3 b c).

(* p is on the plane through o with normal n *)
Definition on_plane (o n p : v3) : Prop := dot3 n (minus3 p o) = 0.

Definition orthonormal (a b c : v3) : Prop :=
  dot3 a a = 1 /\ dot3 b b = 1 /\ dot3 c c = 1 /\ dot3 a b = 0 /\ dot3 a c = 0 /\ dot3 b c = 0.
Definition frame (p : plane) : Prop := orthonormal (pl_x p) (pl_y p) (pl_n p).

(* s is the non-negative square root of x *)
Definition is_sqrt (s x : Qc) : Prop := 0 <= s /\ s * s = x.

(* an equation a x + b y + c z + d = 0 *)
Definition satisfies (e : peq) (p : v3) : Prop := pe_a e * vx p + pe_b e * vy p + pe_c e * vz p + pe_d e = 0.
Definition coefs (e : peq) : v3 := mkv (pe_a e) (pe_b e) (pe_c e).

(* what a linear system demands: row r of m times x is v r *)
Definition solves (n : Z) (m : mat) (v : list Qc) (x : Z -> Qc) : Prop :=
  forall r, (0 <= r < n)%Z ->
    sumn (Z.to_nat n) (fun c => nth c (nth (Z.to_nat r) m []) 0 * x (Z.of_nat c)) = nth (Z.to_nat r) v 0.

(* the direction used as x axis for a unit normal u: u x Z, or u x X when u is
   within 1e-5 of the z axis in both other coordinates *)
Definition near_z (u : v3) : Prop :=
  (- Q2Qc (1 # 10 ^ 5) < vx u < Q2Qc (1 # 10 ^ 5)) /\ (- Q2Qc (1 # 10 ^ 5) < vy u < Q2Qc (1 # 10 ^ 5)).
Definition is_side (u w : v3) : Prop :=
  (near_z u /\ w = cross3 u (mkv 1 0 0)) \/ (~ near_z u /\ w = cross3 u (mkv 0 0 1)).
