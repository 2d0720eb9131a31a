(* Pickling and copy.copy of NURBSCurve (mmcore/geom/nurbs.pyx). *)
From Coq Require Import List ZArith Bool QArith Qcanon.
From Verif Require Import Common QcLib ArrZ NurbsModel.
Import ListNotations.
Local Open Scope Qc_scope.

(* nurbs.pyx:1149-1150 __reduce__ and the call of the constructor (1151-1171) when the curve is restored;
   numpy restores the arrays with the same values *)
Definition reduce (c : curve) : list pt * Z * list Qc * bool := (c_pts c, c_deg c, c_knots c, c_per c).
(* for pickle_trip, nurbs.pyx:1149-1150 *)
Definition restore (r : list pt * Z * list Qc * bool) : res curve := let '(P, d, K, per) := r in new_curve P d (Some K) per.
(* nurbs.pyx:1149-1150 *)
Definition pickle_trip (c : curve) : res curve := restore (reduce c).
(* nurbs.pyx:1280-1296 control_points.setter with rows that carry their weight *)
Definition set_control_points (c : curve) (P : list pt) : res curve :=
  if (lenZ P <? c_deg c + 1)%Z then Err ValueError
  else if negb (lenZ P =? lenZ (c_pts c))%Z then Err ValueError
  else Ok (mkcurve P (c_deg c) (c_knots c) (c_per c) (c_int c) (c_grev c)).
