(* Parameters of the tessellation of a surface and of the triangulation of polygons with holes: Model of
   /repo/mmcore/topo/mesh/tess.py (lines 48-154) and /repo/mmcore/topo/mesh/triangle/tri.py (lines 3-28, 81, 85, 155-161, 185-210).

   Numbers are exact rationals, np.linspace and uvs are those of RtModel.  np.allclose of two points is the function argument
   `close`, the lengths measured along curves are arguments.  The object given as surface is what unpacking it yields
   (None when it cannot be iterated).  Triangle itself, the C library called by triang, is not modelled. *)
From Coq Require Import List Arith ZArith Bool QArith Qcanon String.
From Verif Require Import Common QcLib ListLib LuModel RtModel.
Import ListNotations.
Local Open Scope list_scope.
Local Open Scope Qc_scope.

(* a point of the parameter plane, tess.py:49 *)
Definition pt := (Qc * Qc)%type.

(* tri.py:185-186 segments_by_loop *)
Definition segments_by_loop {A} (l : list A) (start : nat) : list (nat * nat) :=
  map (fun i => ((i + start)%nat, ((i + 1) mod List.length l + start)%nat)) (seq 0 (List.length l)).

Section Prepare.
(* np.allclose of two points, tri.py:195 *)
Variable close : pt -> pt -> bool.
(* the end of a closed loop is dropped; an empty loop has no first point; tri.py:195-196, 202-203 *)
Definition drop_end (l : list pt) : res (list pt) :=
  match l with
  | [] => Err IndexError
  | x :: _ => Ok (if close x (last l x) then removelast l else l)
  end.
(* np.average(hole, axis=0), nan (None) for no points; tri.py:204 *)
Definition average (l : list pt) : option pt :=
  match l with
  | [] => None
  | _ => Some (fold_right (fun p s => fst p + s) 0 l / qn (List.length l), fold_right (fun p s => snd p + s) 0 l / qn (List.length l))
  end.
(* tri.py:194-199 the loop over the boundaries: the edges and _max *)
Fixpoint bnd_loop (bs : list (list pt)) (edges : list (nat * nat)) (mx : nat) : res (list (nat * nat) * nat) :=
  match bs with
  | [] => Ok (edges, mx)
  | b :: r => do b' <- drop_end b ; bnd_loop r (edges ++ segments_by_loop b' mx) (mx + List.length b')%nat
  end.
(* tri.py:200-207 the loop over the holes: the hole points, the edges and _max *)
Fixpoint hole_loop (hs : list (list pt)) (cs : list (option pt)) (edges : list (nat * nat)) (mx : nat) : res (list (option pt) * list (nat * nat) * nat) :=
  match hs with
  | [] => Ok (cs, edges, mx)
  | h :: r => do h' <- drop_end (rev h) ; hole_loop r (cs ++ [average h']) (edges ++ segments_by_loop h' mx) (mx + List.length h')%nat
  end.
(* what prepare_args returns, tri.py:192, 209 *)
Record tdata := { d_vertices : list pt; d_holes : list (option pt); d_segments : list (nat * nat) }.
(* tri.py:189-210 prepare_args; np.concatenate of no arrays is a ValueError *)
Definition prepare_args (boundaries holes : list (list pt)) : res tdata :=
  match boundaries ++ holes with
  | [] => Err ValueError
  | _ =>
      do (edges, mx) <- bnd_loop boundaries [] 0 ;
      do (p, _) <- hole_loop holes [] edges mx ;
      Ok {| d_vertices := List.concat (boundaries ++ holes); d_holes := fst p; d_segments := snd p |}
  end.
(* _is_close_0, tess.py:56-57 *)
Definition is_close_0 (a tol : Qc) : bool := qle (fabs a) tol.
(* tess.py:60-72 match_edge_cases; the array built in the last statement is not returned *)
Definition match_edge_cases (polygon : list pt) (b : pt * pt) (tol : Qc) : res (option (list pt)) :=
  match polygon with
  | [] => Err IndexError
  | p :: _ =>
      let q := last polygon p in
      if close q p then Ok (Some polygon)
      else
        let '((u0, v0), (u1, v1)) := b in
        if (is_close_0 (fst p - u0) tol && is_close_0 (fst q - u0) tol) || (is_close_0 (fst p - u1) tol && is_close_0 (fst q - u1) tol) ||
           (is_close_0 (snd p - v0) tol && is_close_0 (snd q - v0) tol) || (is_close_0 (snd p - v1) tol && is_close_0 (snd q - v1) tol)
        then Ok (Some polygon) else Ok None
  end.
End Prepare.

(* the names of the arrays and those of the C library, tri.py:3-25 *)
Definition terms : list (string * string) :=
  [ ("pointlist", "vertices"); ("pointattributelist", "vertex_attributes"); ("pointmarkerlist", "vertex_markers");
    ("trianglelist", "triangles"); ("trianglearealist", "triangle_max_area"); ("triangleattributelist", "triangle_attributes");
    ("segmentlist", "segments"); ("segmentmarkerlist", "segment_markers"); ("holelist", "holes"); ("regionlist", "regions");
    ("neighborlist", "neighbors"); ("edgelist", "edges"); ("edgemarkerlist", "edge_markers") ]%string.
(* d[k] of a dictionary built from pairs, the last pair of a key counts; for translate_frw, tri.py:27 *)
Fixpoint dict_get (d : list (string * string)) (k : string) : res string :=
  match d with
  | [] => Err KeyError
  | (a, b) :: r => match dict_get r k with Ok v => Ok v | Err e => if String.eqb a k then Ok b else Err e end
  end.
(* tri.py:27 translate_frw *)
Definition translate_frw (k : string) : res string := dict_get terms k.
(* tri.py:28 translate_inv *)
Definition translate_inv (k : string) : res string := dict_get (map (fun p => (snd p, fst p)) terms) k.
(* a dictionary with its keys translated, tri.py:81, 85 *)
Fixpoint rename {A} (tr : string -> res string) (d : list (string * A)) : res (list (string * A)) :=
  match d with
  | [] => Ok []
  | (k, x) :: r => do k' <- tr k ; do r' <- rename tr r ; Ok ((k', x) :: r')
  end.

(* tri.py:155-161 voronoi: the finite edges, the origins of the rays and their directions *)
Definition voronoi_split (e : list (Z * Z)) (n : list pt) : list (Z * Z) * list Z * list pt :=
  let fltr := map (fun p => negb (snd p =? -1)%Z) e in
  (map fst (filter snd (combine e fltr)), map fst (map fst (filter (fun x => negb (snd x)) (combine e fltr))), map fst (filter (fun x => negb (snd x)) (combine n fltr))).

(* a trimming curve: its curve in the parameter plane, its interval and its length; tess.py:48-49, 114 *)
Record trim := { t_curve : Qc -> pt; t_lo : Qc; t_hi : Qc; t_length : Qc }.
(* int(x) of a float; tess.py:106 *)
Definition to_int (x : Qc) : Z := Z.quot (Qnum (this x)) (Zpos (Qden (this x))).
(* an integer as a float; tess.py:106 *)
Definition zn (k : Z) : Qc := Q2Qc (inject_Z k).
(* division of floats; tess.py:108, 133 *)
Definition fdiv (a b : Qc) : res Qc := if qeq b 0 then Err ZeroDivision else Ok (a / b).
(* the third argument of np.linspace; tess.py:49, 128 *)
Definition count (n : option Z) : res nat :=
  match n with None => Err TypeError | Some k => if (k <? 0)%Z then Err ValueError else Ok (Z.to_nat k) end.
(* np.linspace of two points; tess.py:128 *)
Definition linspace2 (a b : pt) (n : nat) : list pt := combine (linspace (fst a) (fst b) n) (linspace (snd a) (snd b) n).
(* tess.py:48-53 _process_trim *)
Definition process_trim (t : trim) (n : option Z) : res (list pt * list (nat * nat)) :=
  do k <- count n ;
  let polygon := map (t_curve t) (linspace (t_lo t) (t_hi t) k) in
  Ok (polygon, map (fun i => (i, ((i + 1) mod List.length polygon)%nat)) (seq 0 (List.length polygon))).
(* tess.py:101-124 the counts; `density` is the result (ratio, lu) of calculate_uv_ratio when calculate_density *)
Definition counts (density : option (Qc * Qc)) (u v : option Z) : res (option Z * option Z) :=
  match density with
  | Some (ratio, _) =>
      match u, v with
      | Some _, None => Ok (Some 25%Z, Some (to_int (ratio * zn 25)))
      | None, None => Err TypeError
      | None, Some k => do q <- fdiv 1 ratio ; Ok (Some (to_int (q * zn k)), v)
      | Some _, Some _ => Ok (u, v)
      end
  | None =>
      match u, v with
      | Some _, None => Ok (Some 25%Z, Some 25%Z)
      | None, _ => Ok (v, v)
      | Some _, Some _ => Ok (u, v)
      end
  end.
(* tess.py:100, 113-115 the number of points on each trim *)
Fixpoint trims_density (density : option (Qc * Qc)) (boundary_count : Z) (u : option Z) (ts : list trim) : res (list Z) :=
  match ts with
  | [] => Ok []
  | t :: r =>
      do k <- (match density with
               | None => Ok boundary_count
               | Some (_, lu) => do q <- fdiv lu (t_length t) ; match u with None => Err TypeError | Some n => Ok (to_int (q * zn n / zn 4)) end
               end) ;
      do ks <- trims_density density boundary_count u r ; Ok (k :: ks)
  end.
(* tess.py:128-132 the boundary of the rectangle *)
Definition rectangle (b : pt * pt) (nu nv : nat) : list pt :=
  let '((u0, v0), (u1, v1)) := b in
  linspace2 (u0, v0) (u1, v0) nu ++ linspace2 (u1, v0) (u1, v1) nv ++ linspace2 (u1, v1) (u0, v1) nu ++ linspace2 (u0, v1) (u0, v0) nv.
(* tess.py:141-146 the loop over the trims: the vertices, the segments and _max *)
Fixpoint trim_loop (ts : list (trim * Z)) (vs : list pt) (segs : list (nat * nat)) (mx : nat) : res (list pt * list (nat * nat)) :=
  match ts with
  | [] => Ok (vs, segs)
  | (t, n) :: r =>
      do (polygon, edges) <- process_trim t (Some n) ;
      trim_loop r (vs ++ polygon) (segs ++ map (fun e => ((fst e + mx)%nat, (snd e + mx)%nat)) edges) (mx + List.length edges)%nat
  end.
(* tess.py:133-135, 147 the points inside; `junk` is the memory that uvs fills *)
Definition interior (junk : list pt) (b : pt * pt) (nu nv : nat) : res (list pt) :=
  let '((u0, v0), (u1, v1)) := b in
  do us <- fdiv (u1 - u0) (qn nu) ; do vs <- fdiv (v1 - v0) (qn nv) ;
  uvs junk (nu - 1) (nv - 1) (u0 + us, v0 + vs) (u1 - us, v1 - vs).
(* tess.py:100-154 tessellate_surface up to the call of triangulate: the vertices and the segments *)
Definition tess_params (junk : list pt) (surface : option (pt * pt)) (density : option (Qc * Qc)) (ts : list trim) (u v : option Z) (boundary_count : Z) : res (list pt * list (nat * nat)) :=
  do (u', v') <- counts density u v ;
  do ks <- trims_density density boundary_count u' ts ;
  match surface with
  | None => Err TypeError
  | Some b =>
      do nu <- count u' ; do nv <- count v' ;
      let boundary := rectangle b nu nv in
      do (vs, segs) <- trim_loop (combine ts ks) boundary (map (fun i => (i, ((i + 1) mod List.length boundary)%nat)) (seq 0 (List.length boundary))) (List.length boundary) ;
      do uv <- interior junk b nu nv ;
      let vxs := vs ++ uv in
      Ok (match density with Some (ratio, _) => map (fun p => (fst p, snd p * ratio)) vxs | None => vxs end, segs)
  end.
