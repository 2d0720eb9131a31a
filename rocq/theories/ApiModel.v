(* Model of the object API: mmcore/api/bbox.py, _base_vectors.py, vectors.py,
   _base.py, plane.py and the lines and circles of curves.py (38-755).  Doubles
   are exact rationals; numpy gives nan or an infinity for a division by zero,
   here [None] where the value is only compared or [Err ZeroDivision] where it
   is returned.  An object is its contents; a method that changes its object
   returns the new contents next to its result. *)
From Coq Require Import List ZArith Bool QArith Qcanon.
From Verif Require Import Common QcLib ArrZ SumLib NurbsModel DerModel PlnModel.
From Verif Require AabbModel.
Import ListNotations.
Local Open Scope Z_scope.
Local Open Scope Qc_scope.

(* Vector2D, Point2D: vectors.py:13-154, 289-292 *)
Definition p2 : Type := (Qc * Qc)%type.
(* python min and max, bbox.py:229-232 *)
Definition pmin (a b : Qc) : Qc := if qlt b a then b else a.
(* python max, bbox.py:229 *)
Definition pmax (a b : Qc) : Qc := if qlt a b then b else a.

(* ---- bounding boxes ---- *)

(* BoundingBox2D, bbox.py:188-283: min and max *)
Record bb2 : Type := mkb2 { mn2 : p2; mx2 : p2 }.
(* BoundingBox3D, bbox.py:286-417 *)
Record bb3 : Type := mkb3 { mn3 : v3; mx3 : v3 }.

(* unpacking a row into two names, bbox.py:209 *)
Definition unpack2 (l : list Qc) : res p2 := match l with [a; b] => Ok (a, b) | _ => Err ValueError end.
(* unpacking a row into three names, bbox.py:304-310 *)
Definition unpack3 (l : list Qc) : res v3 := match l with [a; b; c] => Ok (mkv a b c) | _ => Err ValueError end.
(* aabb of an array of points (_aabb.pyx:84-89); np.array of no point has one dimension, which the typed argument refuses *)
Definition api_aabb (pts : list (list Qc)) : res (list Qc * list Qc) :=
  match pts with
  | [] => Err ValueError
  | r :: _ => AabbModel.aabb (lenZ r) pts None
  end.
(* bbox.py:208-209 BoundingBox2D.set_from_array; 32-37 __init__, 83-92 create_from_many_points, 95-96 create_from_array *)
Definition bb2_from_array (pts : list (list Qc)) : res bb2 :=
  do mm <- api_aabb pts ; do a <- unpack2 (fst mm) ; do b <- unpack2 (snd mm) ; Ok (mkb2 a b).
(* bbox.py:304-310 BoundingBox3D.set_from_array *)
Definition bb3_from_array (pts : list (list Qc)) : res bb3 :=
  do mm <- api_aabb pts ; do a <- unpack3 (fst mm) ; do b <- unpack3 (snd mm) ; Ok (mkb3 a b).
(* bbox.py:39-40 __array__ *)
Definition bb2_array (b : bb2) : list (list Qc) := [[fst (mx2 b); snd (mx2 b)]; [fst (mn2 b); snd (mn2 b)]].
(* bbox.py:39-40 __array__ *)
Definition bb3_array (b : bb3) : list (list Qc) :=
  [[vx (mx3 b); vy (mx3 b); vz (mx3 b)]; [vx (mn3 b); vy (mn3 b); vz (mn3 b)]].
(* bbox.py:42-45 union *)
Definition bb2_union (a b : bb2) : res bb2 := bb2_from_array (bb2_array a ++ bb2_array b).
(* bbox.py:42-45 union *)
Definition bb3_union (a b : bb3) : res bb3 := bb3_from_array (bb3_array a ++ bb3_array b).
(* bbox.py:68-80 create_from_min_max_points *)
Definition bb2_create_min_max (mn mx : p2) : bb2 := mkb2 mx mn.
(* bbox.py:68-80 create_from_min_max_points *)
Definition bb3_create_min_max (mn mx : v3) : bb3 := mkb3 mx mn.
(* bbox.py:134-141 copy *)
Definition bb2_copy (b : bb2) : bb2 := bb2_create_min_max (mn2 b) (mx2 b).
(* bbox.py:134-141 copy *)
Definition bb3_copy (b : bb3) : bb3 := bb3_create_min_max (mn3 b) (mx3 b).
(* bbox.py:198-202 BoundingBox2D.create *)
Definition bb2_create (mn mx : p2) : bb2 := mkb2 mn mx.
(* bbox.py:298-302 BoundingBox3D.create *)
Definition bb3_create (mn mx : v3) : bb3 := mkb3 mn mx.
(* bbox.py:19-20 sizes *)
Definition bb3_sizes (b : bb3) : v3 := vsub (mx3 b) (mn3 b).
(* bbox.py:312-314 volume *)
Definition bb3_volume (b : bb3) : Qc := vx (bb3_sizes b) * vy (bb3_sizes b) * vz (bb3_sizes b).
(* bbox.py:183-185 centroid *)
Definition bb3_centroid (b : bb3) : v3 :=
  mkv ((vx (mn3 b) + vx (mx3 b)) / (1 + 1)) ((vy (mn3 b) + vy (mx3 b)) / (1 + 1)) ((vz (mn3 b) + vz (mx3 b)) / (1 + 1)).
(* bbox.py:211-220 BoundingBox2D.contains *)
Definition bb2_contains (b : bb2) (p : p2) : bool :=
  qle (fst p) (fst (mx2 b)) && qle (fst (mn2 b)) (fst p) && (qle (snd p) (snd (mx2 b)) && qle (snd (mn2 b)) (snd p)).
(* bbox.py:316-325 BoundingBox3D.contains *)
Definition bb3_contains (b : bb3) (p : v3) : bool :=
  qle (vx p) (vx (mx3 b)) && qle (vx (mn3 b)) (vx p) && (qle (vy p) (vy (mx3 b)) && qle (vy (mn3 b)) (vy p)).
(* bbox.py:222-233 BoundingBox2D.expand *)
Definition bb2_expand (b : bb2) (p : p2) : bb2 * bool :=
  (mkb2 (pmin (fst (mn2 b)) (fst p), pmin (snd (mn2 b)) (snd p)) (pmax (fst (mx2 b)) (fst p), pmax (snd (mx2 b)) (snd p)), true).
(* bbox.py:327-340 BoundingBox3D.expand *)
Definition bb3_expand (b : bb3) (p : v3) : bb3 * bool :=
  (mkb3 (mkv (pmin (vx (mn3 b)) (vx p)) (pmin (vy (mn3 b)) (vy p)) (pmin (vz (mn3 b)) (vz p)))
        (mkv (pmax (vx (mx3 b)) (vx p)) (pmax (vy (mx3 b)) (vy p)) (pmax (vz (mx3 b)) (vz p))), true).
(* bbox.py:247-262 BoundingBox2D.combine *)
Definition bb2_combine (a b : bb2) : bb2 * bool :=
  (mkb2 (pmin (fst (mn2 a)) (fst (mn2 b)), pmin (snd (mn2 a)) (snd (mn2 b)))
        (pmax (fst (mx2 a)) (fst (mx2 b)), pmax (snd (mx2 a)) (snd (mx2 b))), true).
(* bbox.py:384-400 BoundingBox3D.combine *)
Definition bb3_combine (a b : bb3) : bb3 * bool :=
  (mkb3 (mkv (pmin (vx (mn3 a)) (vx (mn3 b))) (pmin (vy (mn3 a)) (vy (mn3 b))) (pmin (vz (mn3 a)) (vz (mn3 b))))
        (mkv (pmax (vx (mx3 a)) (vx (mx3 b))) (pmax (vy (mx3 a)) (vy (mx3 b))) (pmax (vz (mx3 a)) (vz (mx3 b)))), true).
(* bbox.py:235-245 BoundingBox2D.intersects *)
Definition bb2_intersects (a b : bb2) : bool :=
  negb ((qlt (fst (mx2 a)) (fst (mn2 b)) || qlt (fst (mx2 b)) (fst (mn2 a))) ||
        (qlt (snd (mx2 a)) (snd (mn2 b)) || qlt (snd (mx2 b)) (snd (mn2 a)))).
(* bbox.py:370-382 BoundingBox3D.intersects *)
Definition bb3_intersects (a b : bb3) : bool :=
  negb ((qlt (vx (mx3 a)) (vx (mn3 b)) || qlt (vx (mx3 b)) (vx (mn3 a))) ||
        (qlt (vy (mx3 a)) (vy (mn3 b)) || qlt (vy (mx3 b)) (vy (mn3 a))) ||
        (qlt (vz (mx3 a)) (vz (mn3 b)) || qlt (vz (mx3 b)) (vz (mn3 a)))).
(* bbox.py:264-273 BoundingBox2D.overlap *)
Definition bb2_overlap (a b : bb2) : bool :=
  if qlt 0 (fst (mn2 b) - fst (mx2 a)) || qlt 0 (snd (mn2 b) - snd (mx2 a)) then false
  else if qlt 0 (fst (mn2 a) - fst (mx2 b)) || qlt 0 (snd (mn2 a) - snd (mx2 b)) then false
  else true.
(* bbox.py:402-417 BoundingBox3D.overlap *)
Definition bb3_overlap (a b : bb3) : bool :=
  if qlt 0 (vx (mn3 b) - vx (mx3 a)) || qlt 0 (vy (mn3 b) - vy (mx3 a)) || qlt 0 (vz (mn3 b) - vz (mx3 a)) then false
  else if qlt 0 (vx (mn3 a) - vx (mx3 b)) || qlt 0 (vy (mn3 a) - vy (mx3 b)) || qlt 0 (vz (mn3 a) - vz (mx3 b)) then false
  else true.
(* bbox.py:275-283 BoundingBox2D.intersection; va and vb are the lists of to_vertices (29-30) *)
Definition bb2_intersection (a b : bb2) (va vb : list p2) : res bb2 :=
  bb2_from_array (map (fun p => [fst p; snd p]) (filter (bb2_contains b) va ++ filter (bb2_contains a) vb)).
(* bbox.py:342-368 BoundingBox3D.intersection *)
Definition bb3_intersection (a b : bb3) : option bb3 :=
  if negb (bb3_intersects a b) then None else
  Some (mkb3 (mkv (pmax (vx (mn3 a)) (vx (mn3 b))) (pmax (vy (mn3 a)) (vy (mn3 b))) (pmax (vz (mn3 a)) (vz (mn3 b))))
             (mkv (pmin (vx (mx3 a)) (vx (mx3 b))) (pmin (vy (mx3 a)) (vy (mx3 b))) (pmin (vz (mx3 a)) (vz (mx3 b))))).

(* ---- vectors ---- *)

(* rtol = 1e-5 and atol = 1e-8 of np.isclose, _base_vectors.py:138 *)
Definition rtol : Qc := Q2Qc (1 # 100000).
(* atol of np.isclose, _base_vectors.py:138 *)
Definition atol : Qc := Q2Qc (1 # 100000000).
(* np.isclose, _base_vectors.py:138 *)
Definition isclose (a b : Qc) : bool := qle (fabs (a - b)) (atol + rtol * fabs b).
(* scalar_dot of two coordinates, vectors.py:40 *)
Definition dot2 (a b : p2) : Qc := fst a * fst b + snd a * snd b.
(* vectors.py:58-64 Vector2D.is_parallel *)
Definition v2_is_parallel (a b : p2) : bool := isclose (dot2 a b) 1.
(* _base_vectors.py:132-138 is_parallel *)
Definition v3_is_parallel (a b : v3) : bool := isclose (fabs (vdot a b)) 1.
(* _base_vectors.py:140-146 is_perpendicular; vectors.py:66-72 *)
Definition v3_is_perpendicular (a b : v3) : bool := isclose (vdot a b) 0.
(* vectors.py:66-72 Vector2D.is_perpendicular *)
Definition v2_is_perpendicular (a b : p2) : bool := isclose (dot2 a b) 0.
(* _base_vectors.py:24-28 __add__, the two operands and the result *)
Definition v3_plus (a b : v3) : v3 := vadd a b.
(* vectors.py:195-202 Vector3D.add *)
Definition v3_add (a b : v3) : v3 * bool := (vadd a b, true).
(* _base_vectors.py:157-164 subtract *)
Definition v3_subtract (a b : v3) : v3 * bool := (vsub a b, true).
(* _base_vectors.py:30-34 __iadd__: the object after the statement v += w and what the name v is bound to *)
Definition v3_iadd (a b : v3) : v3 * option v3 := (vadd a b, None).
(* _base_vectors.py:54-58 __isub__ *)
Definition v3_isub (a b : v3) : v3 * option v3 := (vsub a b, None).
(* _base_vectors.py:42-46 __imul__ by a number *)
Definition v3_imul (a : v3) (k : Qc) : v3 * option v3 := (vscale k a, None).
(* _base_vectors.py:66-73 scale *)
Definition v3_scale (a : v3) (k : Qc) : v3 * bool := (vscale k a, true).
(* _base_vectors.py:75-80 length, for Vector2D *)
Definition v2_length (sqrt : Qc -> Qc) (a : p2) : res Qc := Ok (sqrt (dot2 a a)).
(* vectors.py:239-244 Vector3D.length: dist is called with one of its two arguments *)
Definition v3_length (a : v3) : res Qc := Err TypeError.

(* ---- matrices ---- *)

(* three rows of three numbers, vectors.py:477-484 *)
Record m33 : Type := mkm { r0 : v3; r1 : v3; r2 : v3 }.
(* product of a matrix and a column, np.dot, _base_vectors.py:267 *)
Definition mv (m : m33) (v : v3) : v3 := mkv (vdot (r0 m) v) (vdot (r1 m) v) (vdot (r2 m) v).
(* columns of a matrix, vectors.py:509-512 *)
Definition col0 (m : m33) : v3 := mkv (vx (r0 m)) (vx (r1 m)) (vx (r2 m)).
(* vectors.py:511 *)
Definition col1 (m : m33) : v3 := mkv (vy (r0 m)) (vy (r1 m)) (vy (r2 m)).
(* vectors.py:512 *)
Definition col2 (m : m33) : v3 := mkv (vz (r0 m)) (vz (r1 m)) (vz (r2 m)).
(* a row times a matrix, np.dot, _base_vectors.py:261 *)
Definition vm (v : v3) (m : m33) : v3 := mkv (vdot v (col0 m)) (vdot v (col1 m)) (vdot v (col2 m)).
(* product of two matrices, np.dot, _base_vectors.py:261 *)
Definition mm (a b : m33) : m33 := mkm (vm (r0 a) b) (vm (r1 a) b) (vm (r2 a) b).
(* np.eye(3), _base_vectors.py:252 *)
Definition eye3 : m33 := mkm (mkv 1 0 0) (mkv 0 1 0) (mkv 0 0 1).
(* sum of two matrices and product of a column and a row, np.dot of blocks, _base_vectors.py:261 *)
Definition madd_outer (m : m33) (t b : v3) : m33 :=
  mkm (vadd (r0 m) (vscale (vx t) b)) (vadd (r1 m) (vscale (vy t) b)) (vadd (r2 m) (vscale (vz t) b)).

(* Matrix3D, vectors.py:470-484: the 4 x 4 array in blocks [[lin, trans], [bot, corner]] *)
Record m4 : Type := mkm4 { lin : m33; trans : v3; bot : v3; corner : Qc }.
(* vectors.py:477-484 __init__ without an argument, 487-493 create, _base_vectors.py:247-253 set_to_identity *)
Definition m4_identity : m4 := mkm4 eye3 (mkv 0 0 0) (mkv 0 0 0) 1.
(* vectors.py:477-484 __init__ of a list of rows: the cells are overwritten by the identity *)
Definition m4_of_list (cells : m4) : m4 := m4_identity.
(* _base_vectors.py:255-262 transform *)
Definition m4_transform (a b : m4) : m4 :=
  mkm4 (madd_outer (mm (lin a) (lin b)) (trans a) (bot b))
       (vadd (mv (lin a) (trans b)) (vscale (corner b) (trans a)))
       (vadd (vm (bot a) (lin b)) (vscale (corner a) (bot b)))
       (vdot (bot a) (trans b) + corner a * corner b).
(* _base_vectors.py:264-268 __matmul__ with a vector: np.append(v, 1), then cast keeps three coordinates (vectors.py:170-175) *)
Definition m4_apply (a : m4) (v : v3) : v3 := vadd (mv (lin a) v) (trans a).
(* _base_vectors.py:269-272 __matmul__ with a matrix *)
Definition m4_matmul (a b : m4) : m4 := m4_transform a b.
(* vectors.py:602-608 translation setter *)
Definition m4_set_translation (a : m4) (v : v3) : m4 := mkm4 (lin a) v (bot a) (corner a).
(* vectors.py:234-237 Vector3D.to_translation *)
Definition v3_to_translation (v : v3) : m4 := m4_set_translation m4_identity v.
(* vectors.py:222-229 Vector3D.transform: Matrix3D has no attribute m *)
Definition v3_transform (v : v3) (m : m4) : res (v3 * bool) := Err AttributeError.
(* vectors.py:317-333 _construct_affine3d, 520-536 set_with_coordinate_system *)
Definition m4_set_coordinate_system (m : m4) (o x y z : v3) : m4 * bool :=
  (mkm4 (mkm x y z) (mkv 0 0 0) o 1, true).
(* vectors.py:499-519 get_as_coordinate_system: origin, x axis, y axis, z axis *)
Definition m4_get_coordinate_system (m : m4) : v3 * v3 * v3 * v3 :=
  (trans m, col0 (lin m), col1 (lin m), col2 (lin m)).
(* vectors.py:538-558 set_to_align_coordinate_systems: np.linalg.inv is given the bool that the setter returned (LinAlgError, a ValueError) *)
Definition m4_align (m : m4) (fo fx fy fz to tx ty tz : v3) : m4 * res bool :=
  let m1 := fst (m4_set_coordinate_system m fo fx fy fz) in
  let m2 := fst (m4_set_coordinate_system m1 to tx ty tz) in
  (m2, Err ValueError).
(* np.allclose(v, 0), vectors.py:567 *)
Definition allclose0 (v : v3) : bool := isclose (vx v) 0 && isclose (vy v) 0 && isclose (vz v) 0.
Section Rotations.
(* scipy Rotation.from_rotvec(v).as_matrix(); np.arccos and np.radians, vectors.py:575-576, 589 *)
Variable rotvec : v3 -> m33.
Variable arccos : Qc -> Qc.
Variable radians : Qc -> Qc.
(* np.clip(x, -1, 1), vectors.py:575 *)
Definition clip1 (x : Qc) : Qc := pmin (pmax x (- (1))) 1.
(* vectors.py:560-578 set_to_rotate_to *)
Definition m4_set_to_rotate_to (m : m4) (f t : v3) (axis : option v3) : m4 * bool :=
  let rv := vcross f t in
  if allclose0 rv then
    let rv' := match axis with Some a => if qlt (vdot f t) 0 then a else rv | None => rv end in
    (mkm4 (rotvec (vscale (arccos (clip1 (vdot f t))) rv')) (trans m) (bot m) (corner m), true)
  else (m, false).
(* vectors.py:580-592 set_to_rotation, of a Vector3D and a Point3D *)
Definition m4_set_to_rotation (m : m4) (angle : Qc) (axis origin : v3) : m4 * bool :=
  (mkm4 (rotvec (vscale (radians angle) axis)) origin (bot m) (corner m), true).
End Rotations.

(* Matrix2D, vectors.py:336-350: the 3 x 3 array in blocks; the rows of the linear part are points of the plane *)
Record m3 : Type := mkm3 { q0 : p2; q1 : p2; trans2 : p2; bot2 : p2; corner2 : Qc }.
(* vectors.py:343-350 __init__ *)
Definition m3_identity : m3 := mkm3 (1, 0) (0, 1) (0, 0) (0, 0) 1.
(* _base_vectors.py:264-268 __matmul__ with a vector *)
Definition m3_apply (m : m3) (v : p2) : p2 :=
  (dot2 (q0 m) v + fst (trans2 m), dot2 (q1 m) v + snd (trans2 m)).
(* _base_vectors.py:255-262 transform *)
Definition m3_transform (a b : m3) : m3 :=
  let c0 := (fst (q0 b), fst (q1 b)) in
  let c1 := (snd (q0 b), snd (q1 b)) in
  mkm3 (dot2 (q0 a) c0 + fst (trans2 a) * fst (bot2 b), dot2 (q0 a) c1 + fst (trans2 a) * snd (bot2 b))
       (dot2 (q1 a) c0 + snd (trans2 a) * fst (bot2 b), dot2 (q1 a) c1 + snd (trans2 a) * snd (bot2 b))
       (dot2 (q0 a) (trans2 b) + fst (trans2 a) * corner2 b, dot2 (q1 a) (trans2 b) + snd (trans2 a) * corner2 b)
       (dot2 (bot2 a) c0 + corner2 a * fst (bot2 b), dot2 (bot2 a) c1 + corner2 a * snd (bot2 b))
       (dot2 (bot2 a) (trans2 b) + corner2 a * corner2 b).
(* vectors.py:151-154 Vector2D.to_translation *)
Definition v2_to_translation (v : p2) : m3 := mkm3 (1, 0) (0, 1) v (0, 0) 1.
(* vectors.py:103-111 Vector2D.transform: a 3 x 3 array times two coordinates *)
Definition v2_transform (v : p2) (m : m3) : res (p2 * bool) := Err ValueError.
(* vectors.py:301-314 _construct_affine2d, 375-388 set_with_coordinate_system *)
Definition m3_set_coordinate_system (m : m3) (o x y : p2) : m3 * bool := (mkm3 x y (0, 0) o 1, true).
(* vectors.py:431-448 get_as_coordinate_system *)
Definition m3_get_coordinate_system (m : m3) : p2 * p2 * p2 :=
  (trans2 m, (fst (q0 m), fst (q1 m)), (snd (q0 m), snd (q1 m))).
(* vectors.py:390-406 set_to_align_coordinate_systems *)
Definition m3_align (m : m3) (fo fx fy to tx ty : p2) : m3 * res bool :=
  let m1 := fst (m3_set_coordinate_system m fo fx fy) in
  let m2 := fst (m3_set_coordinate_system m1 to tx ty) in
  (m2, Err ValueError).
(* a row times the linear part, origin @ array, vectors.py:428 *)
Definition row_times (v : p2) (a b : p2) : p2 := (fst v * fst a + snd v * fst b, fst v * snd a + snd v * snd b).
(* vectors.py:418-429 set_to_rotation; the angle is the pair of its cosine and its sine *)
Definition m3_set_to_rotation (m : m3) (angle : p2) (origin : option p2) : m3 * bool :=
  let a := (fst angle, - snd angle) in
  let b := (snd angle, fst angle) in
  let t := match origin with
           | Some o => (fst o - fst (row_times o a b), snd o - snd (row_times o a b))
           | None => trans2 m
           end in
  (mkm3 a b t (bot2 m) (corner2 m), true).
(* vectors.py:408-416 set_to_rotate_to; the cosine and sine of arctan2(det, dot) are dot / n and det / n with n the root
   of their sum of squares (arctan2(0, 0) is 0) *)
Definition m3_set_to_rotate_to (sqrt : Qc -> Qc) (m : m3) (f t : p2) : m3 * bool :=
  let d := dot2 f t in
  let e := fst f * snd t - snd f * fst t in
  let n := sqrt (d * d + e * e) in
  let angle := if qeq n 0 then (1, 0) else (d / n, e / n) in
  (fst (m3_set_to_rotation m angle (Some (0, 0))), true).

(* ---- collections ---- *)

(* operations of ObjectCollection, _base.py:128-191 *)
Inductive op (A : Type) : Type := OpAdd (x : A) | OpRemove (x : A) | OpDel (i : Z) | OpClear.
Arguments OpAdd {A} _. Arguments OpRemove {A} _. Arguments OpDel {A} _. Arguments OpClear {A}.
(* _base.py:136-143 add, 145-151 remove, 153-160 __delitem__, 179-184 clear *)
Definition oc_do {A} (l : list A) (o : op A) : list A * bool :=
  match o with OpAdd _ | OpRemove _ | OpDel _ | OpClear => (l, false) end.
(* _base.py:171-177 __contains__ *)
Definition oc_contains {A} (l : list A) (x : A) : bool := false.
(* _base.py:187-191 count *)
Definition oc_count {A} (l : list A) : Z := 0%Z.
(* _base.py:162-169 find *)
Definition oc_find {A} (l : list A) (x : A) (start : Z) : Z := 0%Z.
(* _base.py:128-134 __getitem__: a new Base object, here [None] *)
Definition oc_getitem {A} (l : list A) (i : Z) : option A := None.

(* ---- lines ---- *)

(* InfiniteLine3D, curves.py:252-334, and Line3D, 365-523: the origin that the base class keeps and the two ends *)
Inductive line3 : Type :=
| Infinite (o d : v3)
| Segment (origin start stop : v3).
(* curves.py:262-268 InfiniteLine3D.__init__ *)
Definition infinite_line (o d : v3) : line3 := Infinite o d.
(* curves.py:379-382 Line3D.__init__ *)
Definition line_segment (a b : v3) : line3 := Segment a a b.
(* curves.py:477-485 Line3D.set; 306-315 InfiniteLine3D.set *)
Definition line_set (l : line3) (a b : v3) : line3 :=
  match l with Infinite _ _ => Infinite a b | Segment o _ _ => Segment o a b end.
(* curves.py:495-499 start_point setter of Line3D; 236-240 origin setter of InfiniteLine3D *)
Definition line_set_start (l : line3) (a : v3) : line3 :=
  match l with Infinite _ d => Infinite a d | Segment o _ b => Segment o a b end.
(* curves.py:229-233 origin *)
Definition line_origin (l : line3) : v3 := match l with Infinite o _ => o | Segment o _ _ => o end.
(* curves.py:243-245, 488-492 start_point *)
Definition line_start (l : line3) : v3 := match l with Infinite o _ => o | Segment _ a _ => a end.
(* curves.py:332-334, 502-506 end_point *)
Definition line_end (l : line3) : v3 := match l with Infinite o d => vadd o d | Segment _ _ b => b end.
(* curves.py:318-322, 395-396 direction *)
Definition line_direction (l : line3) : v3 := match l with Infinite _ d => d | Segment _ a b => vsub b a end.
(* curves.py:225-226, 522-523 __call__ *)
Definition line_call (l : line3) (t : Qc) : v3 := vadd (line_start l) (vscale t (line_direction l)).
(* curves.py:412-413 as_line_2d: Line2D takes no argument *)
Definition line_as_2d (l : line3) : res unit := Err TypeError.
(* curves.py:415-421 Line3D.is_colinear *)
Definition line_is_colinear (a b : line3) : bool := v3_is_parallel (line_direction a) (line_direction b).

(* a numpy quotient that is nan or infinite is None, curves.py:42 *)
Definition quo (a b : Qc) : option Qc := if qeq b 0 then None else Some (a / b).
(* curves.py:38-66 line_line_tsz: t, s and z0 *)
Definition line_line_tsz (p1 p2 p3 p4 : v3) : option Qc * option Qc * option Qc :=
  let x1 := vx p1 in let y1 := vy p1 in let z1 := vz p1 in
  let x2 := vx p2 in let y2 := vy p2 in let z2 := vz p2 in
  let x3 := vx p3 in let y3 := vy p3 in let z3 := vz p3 in
  let x4 := vx p4 in let y4 := vy p4 in let z4 := vz p4 in
  let c1 := x1 * y3 - x1 * y4 - x2 * y3 + x2 * y4 - x3 * y1 + x3 * y2 + x4 * y1 - x4 * y2 in
  let s := quo (x1 * y3 - x1 * y4 - x3 * y1 + x3 * y4 + x4 * y1 - x4 * y3) c1 in
  let t := quo (- (x1 * y2 - x1 * y3 - x2 * y1 + x2 * y3 + x3 * y1 - x3 * y2)) c1 in
  let z0 := quo (- (x1 * y2 * z3 - x1 * y2 * z4 - x1 * y3 * z2 + x1 * y3 * z4 + x1 * y4 * z2 - x1 * y4 * z3
                    - x2 * y1 * z3 + x2 * y1 * z4 - x2 * y3 * z4 + x2 * y4 * z3 + x3 * y1 * z2 - x3 * y1 * z4
                    + x3 * y2 * z4 - x3 * y4 * z2 - x4 * y1 * z2 + x4 * y1 * z3 - x4 * y2 * z3 + x4 * y3 * z2))
                (x2 * y3 - x2 * y4 - x3 * y2 + x3 * y4 + x4 * y2 - x4 * y3) in
  (t, s, z0).
(* 0 <= t <= 1, curves.py:433 *)
Definition in01 (t : option Qc) : bool := match t with Some x => qle 0 x && qle x 1 | None => false end.
(* np.allclose(z, 0, atol=1e-5), curves.py:433 *)
Definition near0 (z : option Qc) : bool := match z with Some x => qle (fabs x) rtol | None => false end.
(* curves.py:171-196 and 423-448 intersect_with_line: success, t1, t2 *)
Definition line_x_line (a b : line3) : bool * option Qc * option Qc :=
  match line_line_tsz (line_start a) (line_end a) (line_start b) (line_end b) with
  | (t1, t2, z) =>
      match b with
      | Infinite _ _ => (near0 z && in01 t1, t1, t2)
      | Segment _ _ _ => (near0 z && (in01 t1 && in01 t2), t1, t2)
      end
  end.
(* curves.py:198-212 intersect_with_curve of a Line3D: three values are unpacked into two names *)
Definition line_x_curve (a b : line3) : res (list v3) := Err ValueError.
(* curves.py:337-362 line_line_intersection: None stands for nan *)
Definition line_line_intersection (a b : line3) : bool * option (Qc * Qc) :=
  let v1 := vsub (line_end a) (line_start a) in
  let v2 := vsub (line_end b) (line_start b) in
  let cp := vcross v1 v2 in
  if allclose0 cp then (false, None) else
  let w := vsub (line_start a) (line_start b) in
  let n2 := vdot cp cp in
  (true, Some (vdot (vcross w v2) cp / n2, vdot (vcross w v1) cp / n2)).

(* ---- circles through three points ---- *)

(* 0.5, curves.py:554 *)
Definition half : Qc := 1 / (1 + 1).
(* curves.py:552-620 circle2d_from_3pt: x, y and the radius *)
Definition circle2d_from_3pt (sqrt : Qc -> Qc) (a b c : p2) : res (Qc * Qc * Qc) :=
  let x1 := fst a in let y1 := snd a in
  let x2 := fst b in let y2 := snd b in
  let x3 := fst c in let y3 := snd c in
  let d := x1 * y2 - x1 * y3 - x2 * y1 + x2 * y3 + x3 * y1 - x3 * y2 in
  let nx := x1 * x1 * y2 - x1 * x1 * y3 - x2 * x2 * y1 + x2 * x2 * y3 + x3 * x3 * y1 - x3 * x3 * y2
            + y1 * y1 * y2 - y1 * y1 * y3 - y1 * (y2 * y2) + y1 * (y3 * y3) + y2 * y2 * y3 - y2 * (y3 * y3) in
  let ny := x1 * x1 * x2 - x1 * x1 * x3 - x1 * (x2 * x2) + x1 * (x3 * x3) - x1 * (y2 * y2) + x1 * (y3 * y3)
            + x2 * x2 * x3 - x2 * (x3 * x3) + x2 * (y1 * y1) - x2 * (y3 * y3) - x3 * (y1 * y1) + x3 * (y2 * y2) in
  let two := 1 + 1 in
  let rad := (x1 * x1 - two * x1 * x2 + x2 * x2 + y1 * y1 - two * y1 * y2 + y2 * y2)
             * (x1 * x1 - two * x1 * x3 + x3 * x3 + y1 * y1 - two * y1 * y3 + y3 * y3)
             * (x2 * x2 - two * x2 * x3 + x3 * x3 + y2 * y2 - two * y2 * y3 + y3 * y3) in
  if qeq d 0 then Err ZeroDivision else
  Ok (half * nx / d, - half * ny / d, fabs (half * sqrt rad / d)).
(* Circle2D, curves.py:626-636: centre and radius *)
Record circle2 : Type := mkc2 { c2_center : p2; c2_radius : Qc }.
(* curves.py:667-686 create_by_three_points, 653-654 cast *)
Definition circle2_by_3pt (sqrt : Qc -> Qc) (a b c : p2) : res circle2 :=
  do k <- circle2d_from_3pt sqrt a b c ;
  Ok (mkc2 (fst (fst k), snd (fst k)) (snd k)).
(* curves.py:642-650 evaluate at the angle (cosine, sine) *)
Definition circle2_evaluate (c : circle2) (t : p2) : v3 := mkv (c2_radius c * fst t) (c2_radius c * snd t) 0.

(* ---- planes ---- *)

(* Plane, plane.py:13-42: the 4 x 3 array; _origin is a row of it until the setter replaces it *)
Record aplane : Type := mkap { ap_array : plane; ap_origin : v3 }.
(* plane.py:22-42 __init__ with an array *)
Definition plane_of_array (p : plane) : aplane := mkap p (pl_o p).
(* plane.py:200-207 copy *)
Definition plane_copy (p : aplane) : aplane := plane_of_array (ap_array p).
(* plane.py:217-218 origin setter *)
Definition plane_set_origin (p : aplane) (o : v3) : aplane := mkap (ap_array p) o.
(* plane.py:229-237 normal setter: a Vector3D does not support item assignment *)
Definition plane_set_normal (p : aplane) (n : v3) : res aplane := Err TypeError.
(* plane.py:109-120 set_xy_directions *)
Definition plane_set_xy (p : aplane) (x y : v3) : aplane * bool :=
  (mkap (mkpl (pl_o (ap_array p)) x y (vcross x y)) (ap_origin p), true).
(* plane.py:161-162 evaluate *)
Definition plane_evaluate (p : aplane) (uvh : v3) : v3 := evaluate_plane (ap_array p) uvh.
(* plane.py:164-165 evaluate_inverse *)
Definition plane_evaluate_inverse (p : aplane) (q : v3) : v3 := inverse_evaluate_plane (ap_array p) q.
(* plane.py:122-124 is_parallel_plane *)
Definition plane_is_parallel (p q : aplane) : bool := v3_is_parallel (pl_n (ap_array p)) (pl_n (ap_array q)).
(* plane.py:126-128 is_parallel_line *)
Definition plane_is_parallel_line (p : aplane) (l : line3) : bool :=
  v3_is_perpendicular (pl_n (ap_array p)) (line_direction l).
(* 1e-10, plane.py:145 *)
Definition tol10 : Qc := Q2Qc (1 # 10000000000).
(* plane.py:138-146 is_coplanar *)
Definition plane_is_coplanar (p q : aplane) : bool :=
  qlt (fabs (vdot (ap_origin q) (pl_n (ap_array p)) - vdot (ap_origin p) (pl_n (ap_array p)))) tol10.
(* plane.py:148-159 intersect_with_plane *)
Definition plane_x_plane (p q : aplane) : option line3 :=
  if negb (plane_is_parallel p q) then
    Some (infinite_line (mkv 0 0 0) (vcross (pl_n (ap_array p)) (pl_n (ap_array q))))
  else None.
(* plane.py:167-178 intersect_with_line *)
Definition plane_x_line (p : aplane) (l : line3) : option v3 :=
  if negb (plane_is_parallel_line p l) then
    let n := pl_n (ap_array p) in
    let v := vsub (line_origin l) (ap_origin p) in
    let t := - vdot n v / vdot n (line_direction l) in
    let pt := vadd (line_origin l) (vscale t (line_direction l)) in
    match l with
    | Infinite _ _ => Some pt
    | Segment _ _ _ => if qle 0 t && qle t 1 then Some pt else None
    end
  else None.
