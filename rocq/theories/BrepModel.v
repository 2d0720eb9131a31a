(* Model of mmcore/topo/brep/__init__.py (the boundary representation), of
   mmcore/numeric/intersection/ssx/boundary_intersection.py (iso curves,
   boundaries and the points where boundaries meet the other surface) and of
   the Terminator of ssx/_terminator.py.  Doubles are exact rationals, except
   that the rounded coordinates of a point keep the sign of a zero, because
   their bytes are hashed.  Objects compared with [is] carry an identity. *)
From Coq Require Import List ZArith Bool QArith Qround Qcanon.
From Verif Require Import Common QcLib ArrZ NurbsModel SurfModel.
Import ListNotations.
Local Open Scope Z_scope.
Local Open Scope Qc_scope.

(* a point of space, boundary_intersection.py:60 *)
Definition tri : Type := (Qc * Qc * Qc)%type.

(* ---- geometry: brep/__init__.py:23-36, 134-167 ---- *)

(* rint: the nearest integer, ties to even; np.round, brep/__init__.py:31 *)
Definition rint (x : Qc) : Z :=
  let f := Qfloor (this x) in
  let r := x - Q2Qc (inject_Z f) in
  if qlt r (1 / (1 + 1)) then f
  else if qlt (1 / (1 + 1)) r then (f + 1)%Z
  else if Z.even f then f else (f + 1)%Z.
(* ten to the 8, brep/__init__.py:31 *)
Definition ten8 : Qc := Q2Qc (inject_Z 100000000).
(* one coordinate of np.round(value, 8): the multiple of 1e-8 and the sign of a zero (a negative number that rounds to
   zero gives -0.0), brep/__init__.py:31 *)
Definition round8 (x : Qc) : Z * bool := let n := rint (x * ten8) in (n, Z.eqb n 0 && qlt x 0).
(* the values that a representation can hold: an array, a NURBSCurve or a NURBSSurface, brep/__init__.py:136-138 *)
Inductive geom : Type := GPoint (p : list Qc) | GCurve (c : curve) | GSurf (s : surface).
(* what is hashed: brep/__init__.py:27-34; nurbs.pyx:1177-1197 and 2565-2583 for curves and surfaces *)
Inductive hkey : Type :=
| KP (cells : list (Z * bool))
| KC (deg : Z) (knots : list Qc) (pts : list pt) (iv : Qc * Qc)
| KS (du dv : Z) (ku kv : list Qc) (pts : list (list pt)) (iv : (Qc * Qc) * (Qc * Qc)).
(* brep/__init__.py:27-34 __hash__, before the hash function itself *)
Definition key_of (g : geom) : hkey :=
  match g with
  | GPoint p => KP (map round8 p)
  | GCurve c => KC (c_deg c) (c_knots c) (c_pts c) (c_int c)
  | GSurf s => KS (s_du s) (s_dv s) (s_ku s) (s_kv s) (s_pts s) (s_int s)
  end.
(* GeometryRepresentation, brep/__init__.py:24-26 *)
Record rep : Type := mkrep { r_index : Z; r_value : geom }.
(* BRepGeometry, brep/__init__.py:134-138 *)
Record store : Type := mkst { st_points : list rep; st_curves : list rep; st_surfs : list rep }.
(* default factories, brep/__init__.py:136-138 *)
Definition empty_store : store := mkst [] [] [].

(* Vertex, brep/__init__.py:39-41 *)
Record vertex : Type := mkv0 { v_rep : rep }.
(* Edge, brep/__init__.py:87-90, with its two ends *)
Record edge : Type := mke { e_rep : rep; e_start : vertex; e_end : vertex }.
(* Loop, brep/__init__.py:102-104, with the identity of the object *)
Record loop : Type := mkl { l_id : nat; l_edges : list edge }.
(* Face, brep/__init__.py:116-119 *)
Record face : Type := mkf { f_rep : rep; f_loops : list loop }.

Section Hash.
(* hash of bytes and of tuples, brep/__init__.py:31, nurbs.pyx:1187 *)
Variable h : hkey -> Z.

(* brep/__init__.py:35-36 __eq__ *)
Definition rep_eq (a b : rep) : bool := Z.eqb (h (key_of (r_value a))) (h (key_of (r_value b))).
(* the first equal element: [r in container] and container.index, brep/__init__.py:154-155 *)
Definition first_eq (r : rep) (l : list rep) : option rep := find (fun x => rep_eq x r) l.
(* brep/__init__.py:149-160 add, for one container *)
Definition add_to (l : list rep) (g : geom) (check : bool) : list rep * rep :=
  let r := mkrep (lenZ l) g in
  match (if check then first_eq r l else None) with
  | Some x => (l, x)
  | None => (l ++ [r], r)
  end.
(* brep/__init__.py:140-167 add, add_point, add_curve, add_surface *)
Definition add (s : store) (g : geom) (check : bool) : store * rep :=
  match g with
  | GCurve _ => let '(l, r) := add_to (st_curves s) g check in (mkst (st_points s) l (st_surfs s), r)
  | GSurf _ => let '(l, r) := add_to (st_surfs s) g check in (mkst (st_points s) (st_curves s) l, r)
  | GPoint _ => let '(l, r) := add_to (st_points s) g check in (mkst l (st_curves s) (st_surfs s), r)
  end.

(* brep/__init__.py:207-213 add_vertex, 235-241 add_vertex_unsafe *)
Definition add_vertex (vs : list vertex) (r : rep) (check : bool) : list vertex * vertex :=
  match (if check then find (fun v => rep_eq (v_rep v) r) vs else None) with
  | Some v => (vs, v)
  | None => (vs ++ [mkv0 r], mkv0 r)
  end.
(* the test of add_edge, brep/__init__.py:225-226 *)
Definition edge_matches (r : rep) (a b : vertex) (e : edge) : bool :=
  rep_eq (e_rep e) r &&
  (rep_eq (v_rep (e_start e)) (v_rep a) || rep_eq (v_rep (e_end e)) (v_rep a)) &&
  (rep_eq (v_rep (e_start e)) (v_rep b) || rep_eq (v_rep (e_end e)) (v_rep b)).
(* brep/__init__.py:221-230 add_edge, 215-219 add_edge_unsafe *)
Definition add_edge (es : list edge) (r : rep) (a b : vertex) (check : bool) : list edge * edge :=
  match (if check then find (edge_matches r a b) es else None) with
  | Some e => (es, e)
  | None => (es ++ [mke r a b], mke r a b)
  end.
(* hash of a tuple from the hashes of its items, brep/__init__.py:39, 87, 102, 115 *)
Variable hc : list Z -> Z.
(* the hash of a value: a list and an array have none, a tuple hashes its items, a dataclass hashes the tuple of its fields,
   a representation hashes its content; brep/__init__.py:23-36, 39, 65, 87, 102, 115 *)
Inductive pyval : Type := PyRep (r : rep) | PyGeom (g : geom) | PyList (l : list pyval) | PyTuple (l : list pyval).
Fixpoint pyhash (v : pyval) : res Z :=
  match v with
  | PyRep r => Ok (h (key_of (r_value r)))
  | PyGeom (GPoint _) => Err TypeError
  | PyGeom g => Ok (h (key_of g))
  | PyList _ => Err TypeError
  | PyTuple l =>
      (fix go (l : list pyval) (acc : list Z) : res Z :=
         match l with [] => Ok (hc acc) | x :: r => do a <- pyhash x ; go r (acc ++ [a]) end) l []
  end.
(* the fields of a vertex, brep/__init__.py:39-41 *)
Definition py_vertex (v : vertex) : pyval := PyTuple [PyRep (v_rep v)].
(* the fields of an edge, brep/__init__.py:87-90 *)
Definition py_edge (e : edge) : pyval := PyTuple [PyRep (e_rep e); PyList [py_vertex (e_start e); py_vertex (e_end e)]].
(* the fields of a loop, brep/__init__.py:102-104 *)
Definition py_loop (l : loop) : pyval := PyTuple [PyList (map py_edge (l_edges l))].
(* the fields of a face, brep/__init__.py:115-118 *)
Definition py_face (f : face) : pyval := PyTuple [PyRep (f_rep f); PyList (map py_loop (f_loops f))].
(* the call of a function with lru_cache: the key is hashed first, brep/__init__.py:65, 82 *)
Definition cached {A} (args : list pyval) (k : res A) : res A := do a <- pyhash (PyTuple args) ; k.
(* brep/__init__.py:81-84, 92-93 get_ends_parameters; search stands for the body 66-78 *)
Definition ends_parameters (search : curve -> list Qc -> list Qc -> Qc * Qc) (c : curve) (a b : list Qc) : res (Qc * Qc) :=
  cached [PyGeom (GCurve c); PyGeom (GPoint a); PyGeom (GPoint b)] (Ok (search c a b)).
(* the hashes of bounded_by[1:], brep/__init__.py:266 *)
Fixpoint hashes (ls : list loop) : res (list Z) :=
  match ls with [] => Ok [] | l :: r => do a <- pyhash (py_loop l) ; do b <- hashes r ; Ok (a :: b) end.
(* the loop over the faces in add_face: a face, or None to append, brep/__init__.py:262-267; the order of the hashes is irrelevant, both lists are the same *)
Fixpoint face_scan (fs : list face) (r : rep) (ls : list loop) : res (option face) :=
  match fs with
  | [] => Ok None
  | f :: rest =>
      if Z.eqb (h (key_of (r_value (f_rep f)))) (h (key_of (r_value r))) then
        match ls, f_loops f with
        | l :: holes, k :: _ =>
            if Nat.eqb (l_id l) (l_id k) then
              do a <- hashes holes ; do b <- hashes holes ;
              if list_eq_dec Z.eq_dec a b then Ok (Some f) else face_scan rest r ls
            else face_scan rest r ls
        | _, _ => Err IndexError
        end
      else face_scan rest r ls
  end.
(* brep/__init__.py:257-272 add_face, 252-255 add_face_unsafe *)
Definition add_face (fs : list face) (r : rep) (ls : list loop) (check : bool) : res (list face * face) :=
  if check then
    do o <- face_scan fs r ls ;
    match o with Some f => Ok (fs, f) | None => Ok (fs ++ [mkf r ls], mkf r ls) end
  else Ok (fs ++ [mkf r ls], mkf r ls).
End Hash.

(* brep/__init__.py:275-283 add_shell and 284-292 add_solid, with the list of what is there: raise NotImplemented is a TypeError *)
Definition add_group {A} (l : list A) (x : A) (check : bool) : res (list A * A) :=
  if check then Err TypeError else Ok (l ++ [x], x).
(* ---- Sparce: brep/__init__.py:169-192 ---- *)

(* the dictionary (newest entry first, one entry per key) and the lists of neighbours _rc in the order of insertion *)
Record sparce (V : Type) : Type := mksp { sp_items : list ((Z * Z) * V); sp_rc : list (Z * list Z) }.
Arguments mksp {V} _ _. Arguments sp_items {V} _. Arguments sp_rc {V} _.
(* brep/__init__.py:170-173 *)
Definition sp_new {V} : sparce V := mksp [] [].
(* equality of keys, brep/__init__.py:185 *)
Definition keyb (a b : Z * Z) : bool := Z.eqb (fst a) (fst b) && Z.eqb (snd a) (snd b).
(* dict.get, brep/__init__.py:192 *)
Definition dget {V} (l : list ((Z * Z) * V)) (k : Z * Z) : option V :=
  match find (fun e => keyb (fst e) k) l with Some e => Some (snd e) | None => None end.
(* dict.__setitem__, brep/__init__.py:185 *)
Definition dset {V} (l : list ((Z * Z) * V)) (k : Z * Z) (v : V) : list ((Z * Z) * V) :=
  (k, v) :: filter (fun e => negb (keyb (fst e) k)) l.
(* the neighbours of a node, brep/__init__.py:177 *)
Definition rget (l : list (Z * list Z)) (a : Z) : option (list Z) :=
  match find (fun e => Z.eqb (fst e) a) l with Some e => Some (snd e) | None => None end.
(* if a not in self._rc: self._rc[a] = [], brep/__init__.py:177-180 *)
Definition rnew (l : list (Z * list Z)) (a : Z) : list (Z * list Z) :=
  match rget l a with Some _ => l | None => l ++ [(a, [])] end.
(* if b not in self._rc[a]: self._rc[a].append(b), brep/__init__.py:181-184 *)
Definition radd (l : list (Z * list Z)) (a b : Z) : list (Z * list Z) :=
  map (fun e => if Z.eqb (fst e) a then
                  (fst e, if existsb (Z.eqb b) (snd e) then snd e else snd e ++ [b])
                else e) l.
(* brep/__init__.py:175-186 __setitem__ *)
Definition sp_set {V} (s : sparce V) (a b : Z) (v : V) : sparce V :=
  let rc := radd (radd (rnew (rnew (sp_rc s) a) b) a b) b a in
  mksp (dset (dset (sp_items s) (a, b) v) (b, a) v) rc.
(* brep/__init__.py:188-190 __getitem__ of a pair *)
Definition sp_get {V} (s : sparce V) (a b : Z) : res V :=
  match dget (sp_items s) (a, b) with Some v => Ok v | None => Err KeyError end.
(* brep/__init__.py:191-192 __getitem__ of a node: one entry for every node *)
Definition sp_row {V} (s : sparce V) (a : Z) : list (Z * option V) :=
  map (fun e => (fst e, dget (sp_items s) (a, fst e))) (sp_rc s).
(* dict.__delitem__, inherited by Sparce, brep/__init__.py:169 *)
Definition sp_del {V} (s : sparce V) (a b : Z) : res (sparce V) :=
  match dget (sp_items s) (a, b) with
  | Some _ => Ok (mksp (filter (fun e => negb (keyb (fst e) (a, b))) (sp_items s)) (sp_rc s))
  | None => Err KeyError
  end.

(* ---- nurbs_surf_to_brep: brep/__init__.py:295-325 ---- *)

(* equality of tuples of floats, brep/__init__.py:314 *)
Definition tri_eqb (a b : tri) : bool :=
  qeq (fst (fst a)) (fst (fst b)) && qeq (snd (fst a)) (snd (fst b)) && qeq (snd a) (snd b).
(* list.index, brep/__init__.py:315 *)
Fixpoint index_of (p : tri) (l : list tri) : option nat :=
  match l with
  | [] => None
  | x :: r => if tri_eqb x p then Some O else option_map S (index_of p r)
  end.
(* brep/__init__.py:309-320 one end of a boundary: the points and the number of the vertex *)
Definition add_end (pts : list tri) (p : tri) : list tri * nat :=
  match index_of p pts with
  | Some i => (pts, i)
  | None => (pts ++ [p], length pts)
  end.
(* brep/__init__.py:304-323 the loop over the boundaries, given by their ends; the numbers of the vertices of each edge *)
Fixpoint to_brep (pts : list tri) (ends : list (tri * tri)) : list tri * list (nat * nat) :=
  match ends with
  | [] => (pts, [])
  | (a, b) :: r =>
      let '(pts1, i) := add_end pts a in
      let '(pts2, j) := add_end pts1 b in
      let '(pts3, es) := to_brep pts2 r in
      (pts3, (i, j) :: es)
  end.

(* ---- iso curves and boundaries: boundary_intersection.py:18-39, 227-302 ---- *)

(* the test of the range, boundary_intersection.py:249-250, 279-280 *)
Definition out_of_range (iv : Qc * Qc) (t : Qc) : bool := qlt t (fst iv) || qlt (snd iv) t.
(* one row of the array, boundary_intersection.py:294-295 *)
Definition row_entry (vspan q row : Z) (Pw : grid) (Nv : list Qc) : res pt :=
  forZ 0 (q + 1) (mkpt 0 0 0 0) (fun k acc =>
    do nk <- rdZ Nv k ;
    do c <- rd2 Pw row (vspan - q + k) ;
    Ok (padd acc (pscale nk c))).
(* boundary_intersection.py:245-273 extract_isocurve in the direction u *)
Definition isocurve_u (s : surface) (u : Qc) : res curve :=
  if out_of_range (fst (s_int s)) u then Err ValueError else
  do span <- find_span (s_nu s - 1) (s_du s) u (s_ku s) false ;
  do N <- basis_funs span u (s_du s) (s_ku s) (repeat (0 : Qc) (Z.to_nat (s_du s + 1))) ;
  do P <- mapR (fun i => temp_entry span (s_du s) i (s_pts s) N) (ixs (s_nv s)) ;
  new_curve P (s_dv s) (Some (s_kv s)) false.
(* boundary_intersection.py:275-302 extract_isocurve in the direction v *)
Definition isocurve_v (s : surface) (v : Qc) : res curve :=
  if out_of_range (snd (s_int s)) v then Err ValueError else
  do span <- find_span (s_nv s - 1) (s_dv s) v (s_kv s) false ;
  do N <- basis_funs span v (s_dv s) (s_kv s) (repeat (0 : Qc) (Z.to_nat (s_dv s + 1))) ;
  do P <- mapR (fun i => row_entry span (s_dv s) i (s_pts s) N) (ixs (s_nu s)) ;
  new_curve P (s_du s) (Some (s_ku s)) false.
(* boundary_intersection.py:18-39 extract_surface_boundaries *)
Definition surface_boundaries (s : surface) : res (list curve) :=
  let '((u0, u1), (v0, v1)) := s_int s in
  do a <- isocurve_u s u0 ; do b <- isocurve_u s u1 ; do c <- isocurve_v s v0 ; do d <- isocurve_v s v1 ;
  Ok [a; b; c; d].

(* start() and end() of a boundary, parametric.pyx:76-85; brep/__init__.py:306 *)
Definition curve_ends (c : curve) : res (tri * tri) :=
  do a <- evaluate c (fst (c_int c)) ; do b <- evaluate c (snd (c_int c)) ; Ok (a, b).
(* brep/__init__.py:295-325 nurbs_surf_to_brep: the points and, for each edge of the loop, its two vertices *)
Definition surf_to_brep (s : surface) : res (list tri * list (nat * nat)) :=
  do bs <- surface_boundaries s ; do es <- mapR curve_ends bs ; Ok (to_brep [] es).

(* ---- points of boundaries: boundary_intersection.py:41-224 ---- *)

(* IntersectionPoint, boundary_intersection.py:44-75 *)
Record ipoint : Type := mkip {
  ip_point : tri; ip_param : Qc; ip_uv : Qc * Qc; ip_index : Z; ip_first : bool; ip_int : (Qc * Qc) * (Qc * Qc) }.
(* boundary_intersection.py:98-108 _boundary_index_to_params *)
Definition index_to_params (i : Z) (t : Qc) (iv : (Qc * Qc) * (Qc * Qc)) : Qc * Qc :=
  if (i =? 0)%Z then (fst (fst iv), t)
  else if (i =? 1)%Z then (snd (fst iv), t)
  else if (i =? 2)%Z then (t, fst (snd iv))
  else (t, snd (snd iv)).
(* boundary_intersection.py:67-72 surface1_params *)
Definition params1 (p : ipoint) : Qc * Qc :=
  if ip_first p then index_to_params (ip_index p) (ip_param p) (ip_int p) else ip_uv p.
(* boundary_intersection.py:67-72 surface2_params *)
Definition params2 (p : ipoint) : Qc * Qc :=
  if ip_first p then ip_uv p else index_to_params (ip_index p) (ip_param p) (ip_int p).
(* boundary_intersection.py:77-96 get_start_params *)
Definition start_params (p : ipoint) : (Qc * Qc) * (Qc * Qc) :=
  if ip_first p then (index_to_params (ip_index p) (ip_param p) (ip_int p), ip_uv p)
  else (ip_uv p, index_to_params (ip_index p) (ip_param p) (ip_int p)).
(* squared distance, boundary_intersection.py:167 *)
Definition sqd (a b : tri) : Qc :=
  let x := fst (fst a) - fst (fst b) in let y := snd (fst a) - snd (fst b) in let z := snd a - snd b in
  x * x + y * y + z * z.
(* np.linalg.norm(a - b) < tol, boundary_intersection.py:167 *)
Definition close (tol : Qc) (a b : tri) : bool := qlt 0 tol && qlt (sqd a b) (tol * tol).
(* boundary_intersection.py:162-171 removal of the duplicates *)
Definition unique_points (tol : Qc) (ps : list ipoint) : list ipoint :=
  fold_left (fun acc p => if existsb (fun e => close tol (ip_point p) (ip_point e)) acc then acc else acc ++ [p]) ps [].
(* boundary_intersection.py:131-145, 148-160 the hits of the boundaries of one surface; csx stands for nurbs_csx: point, curve parameter,
   surface parameters *)
Definition boundary_hits (csx : curve -> list (tri * Qc * (Qc * Qc))) (first : bool) (iv : (Qc * Qc) * (Qc * Qc))
  (bs : list curve) : list ipoint :=
  concat (map (fun ib => map (fun x => mkip (fst (fst x)) (snd (fst x)) (snd x) (Z.of_nat (fst ib)) first iv) (csx (snd ib)))
              (combine (seq 0 (length bs)) bs)).
(* boundary_intersection.py:110-173 find_boundary_intersections *)
Definition find_boundary_intersections (csx : curve -> surface -> list (tri * Qc * (Qc * Qc))) (s1 s2 : surface) (tol : Qc)
  : res (list ipoint) :=
  do b1 <- surface_boundaries s1 ;
  do b2 <- surface_boundaries s2 ;
  Ok (unique_points tol (boundary_hits (fun c => csx c s2) true (s_int s1) b1 ++
                         boundary_hits (fun c => csx c s1) false (s_int s2) b2)).

(* the nearest of a list of indices to a point, the first of equal distances, boundary_intersection.py:201-212 *)
Definition nearest (ps : list ipoint) (cur : ipoint) (idx : list nat) : option (nat * Qc) :=
  fold_left (fun best i =>
    match nth_error ps i with
    | Some c => let d := sqd (ip_point cur) (ip_point c) in
                match best with
                | Some (_, m) => if qlt d m then Some (i, d) else best
                | None => Some (i, d)
                end
    | None => best
    end) idx None.
Section Order.
(* the order in which a set of integers is walked and popped at a given moment, boundary_intersection.py:190-206 *)
Variable order : nat -> list nat -> list nat.
(* boundary_intersection.py:193-222: the outer loop of sort_boundary_intersections; one sequence per pass *)
Fixpoint pair_loop (fuel : nat) (ps : list ipoint) (un : list nat) : res (list (list ipoint)) :=
  match order (2 * fuel + 1) un with
  | [] => Ok []
  | i :: rest =>
      match fuel with
      | O => Err OutOfFuel
      | S f =>
          match nth_error ps i with
          | None => Err IndexError
          | Some a =>
              match nearest ps a (order (2 * fuel) rest) with
              | None => do r <- pair_loop f ps rest ; Ok ([a] :: r)
              | Some (j, _) =>
                  match nth_error ps j with
                  | None => Err IndexError
                  | Some b => do r <- pair_loop f ps (remove Nat.eq_dec j rest) ; Ok ([a; b] :: r)
                  end
              end
          end
      end
  end.
(* boundary_intersection.py:175-224 sort_boundary_intersections *)
Definition sort_points (ps : list ipoint) : res (list (list ipoint)) :=
  pair_loop (length ps) ps (seq 0 (length ps)).
End Order.

(* ---- Terminator: _terminator.py:24-121, 141-154 ---- *)

(* _terminator.py:25-33: rows of xyz, uv1, uv2, the size, whether there is a KDTree *)
Record term : Type := mkt { t_xyz : list tri; t_uv1 : list (Qc * Qc); t_uv2 : list (Qc * Qc); t_size : Z; t_kd : bool }.
(* _terminator.py:27-35 __init__ *)
Definition new_term (xyz : list tri) (uv1 uv2 : list (Qc * Qc)) : term := mkt xyz uv1 uv2 (lenZ xyz) true.
(* _terminator.py:65-73 __delitem__: np.delete flattens, checks the index and returns new arrays, which are dropped *)
Definition term_del (t : term) (key : Z) : res term :=
  let n := lenZ (t_xyz t) in
  if ((- (2 * n) <=? key) && (key <? 2 * n))%Z then
    Ok (mkt (t_xyz t) (t_uv1 t) (t_uv2 t) (t_size t - 1) (1 <? t_size t - 1)%Z)
  else Err IndexError.
(* 1e-6, _terminator.py:78 *)
Definition tol6 : Qc := Q2Qc (1 # 1000000).
(* _terminator.py:76-103 remove; the query has distance zero exactly when a row is equal; the failed query on None leaves d unset *)
Definition term_remove (t : term) (p : tri) : res term :=
  if negb (t_kd t) && (t_size t =? 1)%Z then
    match t_xyz t with
    | x :: _ => if close tol6 x p then term_del t 0 else Err ValueError
    | [] => Err IndexError
    end
  else if negb (t_kd t) && (t_size t =? 0)%Z then Ok t
  else if negb (t_kd t) then Err NameError
  else match index_of p (t_xyz t) with
       | Some i => term_del t (Z.of_nat i)
       | None => Err ValueError
       end.
(* _terminator.py:105-121 pop *)
Definition term_pop (t : term) : res (term * (tri * (Qc * Qc) * (Qc * Qc))) :=
  match t_xyz t, t_uv1 t, t_uv2 t with
  | x :: xs, a :: as_, b :: bs => Ok (mkt xs as_ bs (t_size t - 1) (1 <? t_size t - 1)%Z, (x, a, b))
  | _, _, _ => Err IndexError
  end.
(* pop as long as __bool__ says so: _terminator.py:63-64, 105-121 *)
Fixpoint pop_all (fuel : nat) (t : term) : res (list (tri * (Qc * Qc) * (Qc * Qc))) :=
  if (0 <? t_size t)%Z then
    match fuel with
    | O => Err OutOfFuel
    | S f => do x <- term_pop t ; do r <- pop_all f (fst x) ; Ok (snd x :: r)
    end
  else Ok [].
(* equality of pairs of floats, _terminator.py:146 *)
Definition uv_eqb (a b : Qc * Qc) : bool := qeq (fst a) (fst b) && qeq (snd a) (snd b).
(* _terminator.py:145-152 the points kept for NURBS surfaces: position and parameters must all be new *)
Definition keep_points (ps : list ipoint) : list (tri * (Qc * Qc) * (Qc * Qc)) :=
  fold_left (fun acc p =>
    let x := ip_point p in let a := params1 p in let b := params2 p in
    if existsb (fun e => tri_eqb (fst (fst e)) x) acc || existsb (fun e => uv_eqb (snd (fst e)) a) acc ||
       existsb (fun e => uv_eqb (snd e) b) acc
    then acc else acc ++ [(x, a, b)]) ps [].
(* _terminator.py:51-55 get_closest; the tree's choice among the nearest rows is an argument *)
Definition get_closest (query : list tri -> tri -> nat) (t : term) (p : tri) : res (tri * (Qc * Qc) * (Qc * Qc)) :=
  let i := Z.of_nat (if t_kd t then query (t_xyz t) p else O) in
  do x <- rdZ (t_xyz t) i ; do a <- rdZ (t_uv1 t) i ; do b <- rdZ (t_uv2 t) i ; Ok (x, a, b).
