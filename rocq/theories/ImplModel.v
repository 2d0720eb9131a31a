(* Model of the implicit shapes of mmcore/geom/implicit/implicit.py and of the
   quad- and octrees of mmcore/geom/implicit/tree/{collapse2d,tree2d,collapse3d,
   tree3d}.py and cbuild_tree3d.pyx.  Doubles are exact rationals.  A shape is
   what the code asks of it: its implicit function and its bounds. *)
From Coq Require Import List ZArith Bool QArith Qcanon.
From Verif Require Import Common QcLib AabbModel.
Import ListNotations.
Local Open Scope Qc_scope.

(* for box2, implicit.py:333-353 *)
Definition p2 := (Qc * Qc)%type.
(* for shape2, implicit.py:333-353 *)
Definition box2 := (p2 * p2)%type.
(* for gradient2d, implicit.py:208-219 *)
Definition two : Qc := Q2Qc 2.

(* implicit.py:16-33; Python's min and max keep the first of equal arguments *)
Definition op_union (d1 d2 : Qc) : Qc := fmin d1 d2.
(* for sub2d, implicit.py:434-444 *)
Definition op_subtraction (d1 d2 : Qc) : Qc := fmax (- d1) d2.
(* for intersection3d, implicit.py:408-431 *)
Definition op_intersection (d1 d2 : Qc) : Qc := fmax d1 d2.
(* implicit.py:16-33 *)
Definition op_xor (d1 d2 : Qc) : Qc := fmax (fmin d1 d2) (- fmax d1 d2).
(* implicit.py:16-33 *)
Definition op_inv (a : Qc) : Qc := - a.

(* a two-dimensional shape: implicit(v) and bounds()  [for union2d, implicit.py:333-353] *)
Record shape2 := { impl2 : p2 -> Qc; bounds2 : box2 }.
(* for union3d, implicit.py:356-379 *)
Record shape3 := { impl3 : v3 -> Qc; bounds3 : box3 }.

(* implicit.py:333-353 Union2D *)
Definition union2d (a b : shape2) : res shape2 :=
  let '((axmin, aymin), (axmax, aymax)) := bounds2 a in
  let '((bxmin, bymin), (bxmax, bymax)) := bounds2 b in
  Ok {| impl2 v := op_union (impl2 a v) (impl2 b v);
        bounds2 := ((fmin axmin bxmin, fmin aymin bymin), (fmax axmax bxmax, fmax aymax bymax)) |}.
(* implicit.py:356-379 Union3D *)
Definition union3d (a b : shape3) : res shape3 :=
  let '((axmin, aymin, azmin), (axmax, aymax, azmax)) := bounds3 a in
  let '((bxmin, bymin, bzmin), (bxmax, bymax, bzmax)) := bounds3 b in
  Ok {| impl3 v := op_union (impl3 a v) (impl3 b v);
        bounds3 := ((fmin axmin bxmin, fmin aymin bymin, fmin azmin bzmin),
                    (fmax axmax bxmax, fmax aymax bymax, fmax azmax bzmax)) |}.
(* implicit.py:382-405 Intersection2D; solve_bounds calls self._bounds, which is None *)
Definition intersection2d (a b : shape2) : res shape2 := Err TypeError.
(* implicit.py:408-431 Intersection3D *)
Definition intersection3d (a b : shape3) : res shape3 :=
  let '((axmin, aymin, azmin), (axmax, aymax, azmax)) := bounds3 a in
  let '((bxmin, bymin, bzmin), (bxmax, bymax, bzmax)) := bounds3 b in
  Ok {| impl3 v := op_intersection (impl3 a v) (impl3 b v);
        bounds3 := ((fmax axmin bxmin, fmax aymin bymin, fmax azmin bzmin),
                    (fmin axmax bxmax, fmin aymax bymax, fmin azmax bzmax)) |}.
(* implicit.py:434-444 Sub2D *)
Definition sub2d (a b : shape2) : res shape2 :=
  Ok {| impl2 v := op_subtraction (impl2 a v) (impl2 b v); bounds2 := bounds2 a |}.
(* implicit.py:447-457 Sub3D *)
Definition sub3d (a b : shape3) : res shape3 :=
  Ok {| impl3 v := op_subtraction (impl3 a v) (impl3 b v); bounds3 := bounds3 a |}.

(* expressions a user writes: shapes combined by &, -, + and |  [for eval2, implicit.py:196-197, 221-235] *)
Inductive expr (S : Type) :=
| Prim (s : S)
| And (a b : expr S)
| Minus (a b : expr S)
| Add (a b : expr S)
| Or (a b : expr S).
Arguments Prim {S}. Arguments And {S}. Arguments Minus {S}. Arguments Add {S}. Arguments Or {S}.
(* implicit.py:196-197, 221-235 Implicit2D.union, intersection, substraction, __and__, __sub__, __add__, __or__ *)
Fixpoint eval2 (e : expr shape2) : res shape2 :=
  match e with
  | Prim s => Ok s
  | And a b => do x <- eval2 a ; do y <- eval2 b ; intersection2d x y
  | Minus a b => do x <- eval2 a ; do y <- eval2 b ; sub2d x y
  | Add a b | Or a b => do x <- eval2 a ; do y <- eval2 b ; union2d x y
  end.
(* implicit.py:277-297, the same for Implicit3D *)
Fixpoint eval3 (e : expr shape3) : res shape3 :=
  match e with
  | Prim s => Ok s
  | And a b => do x <- eval3 a ; do y <- eval3 b ; intersection3d x y
  | Minus a b => do x <- eval3 a ; do y <- eval3 b ; sub3d x y
  | Add a b | Or a b => do x <- eval3 a ; do y <- eval3 b ; union3d x y
  end.

(* implicit.py:176-187 Implicit2D.point_inside; numpy.isclose(res, 0) with the
   default tolerances is |res| <= 1e-8 *)
Definition atol : Qc := Q2Qc (1 # 100000000).
(* implicit.py:176-187 *)
Definition point_inside (s : shape2) (pt : p2) : bool :=
  let r := impl2 s pt in
  if qlt r 0 then true else if qle (fabs r) atol then true else false.

(* implicit.py:208-219 Implicit2D.gradient: the line that divides by the norm
   drops its result (a zero gradient only produces a NaN warning there) *)
Definition gstep : Qc := Q2Qc (1 # 1000).
(* implicit.py:208-219 *)
Definition gradient2d (s : shape2) (v : p2) : p2 :=
  let '(x, y) := v in
  ((impl2 s (x + gstep, y + 0) - impl2 s (x - gstep, y - 0)) / two / gstep,
   (impl2 s (x + 0, y + gstep) - impl2 s (x - 0, y - gstep)) / two / gstep).
(* implicit.py:36-40 tangent2d, 193-194 Implicit2D.tangent *)
Definition tangent2d (normal : p2) : p2 := (- snd normal, fst normal).
(* implicit.py:115-122 point_on_curve: both branches are the same *)
Definition point_on_curve (s : shape2) (v : p2) : p2 :=
  let d := impl2 s v in
  let g := gradient2d s v in
  (fst v - fst g * d, snd v - snd g * d).

(* tree/collapse2d.py:11-75 Tree, Root, Empty, Full, Leaf *)
Inductive tree2 :=
| Leaf2 (data : box2)
| Empty2 (node : tree2)
| Full2 (node : tree2)
| Root2 (a b c d : tree2).

(* tree/collapse2d.py:81-96 build_tree2d; a negative depth never reaches 0 and is not modelled *)
Fixpoint build_tree2d (lo hi : p2) (i : nat) : tree2 :=
  match i with
  | O => Leaf2 (lo, hi)
  | S i =>
      let '(xmin, ymin) := lo in
      let '(xmax, ymax) := hi in
      let xmid := (xmin + xmax) / two in
      let ymid := (ymin + ymax) / two in
      let a := build_tree2d (xmin, ymin) (xmid, ymid) i in
      let b := build_tree2d (xmid, ymin) (xmax, ymid) i in
      let c := build_tree2d (xmin, ymid) (xmid, ymax) i in
      let d := build_tree2d (xmid, ymid) (xmax, ymax) i in
      Root2 a b c d
  end.

(* for collapse2d, tree/collapse2d.py:98-191 *)
Definition is_empty2 (t : tree2) : bool := match t with Empty2 _ => true | _ => false end.
(* for collapse2d, tree/collapse2d.py:98-191 *)
Definition is_full2 (t : tree2) : bool := match t with Full2 _ => true | _ => false end.

(* tree/collapse2d.py:152-161 _collapse *)
Definition collapse_leaf2 (shape : p2 -> Qc) (data : box2) : tree2 :=
  let '((xmin, ymin), (xmax, ymax)) := data in
  let values := flat_map (fun x => map (fun y => shape (x, y)) [ymin; ymax]) [xmin; xmax] in
  if forallb (fun v => qlt v 0) values then Full2 (Leaf2 data)
  else if forallb (fun v => qle 0 v) values then Empty2 (Leaf2 data)
  else Leaf2 data.
(* tree/collapse2d.py:98-191 collapse2d, with 163-184 _collapse_root *)
Fixpoint collapse2d (shape : p2 -> Qc) (t : tree2) : tree2 :=
  match t with
  | Leaf2 data => collapse_leaf2 shape data
  | Root2 ra rb rc rd =>
      let a := collapse2d shape ra in
      let b := collapse2d shape rb in
      let c := collapse2d shape rc in
      let d := collapse2d shape rd in
      if is_empty2 a && is_empty2 b && is_empty2 c && is_empty2 d then Empty2 t
      else if is_full2 a && is_full2 b && is_full2 c && is_full2 d then Full2 t
      else Root2 a b c d
  | _ => t
  end.

(* the three lists of an ImplicitTree2D or ImplicitTree3D  [for no_cells, tree/tree2d.py:9-18] *)
Record cells (B : Type) := { full : list B; empty : list B; border : list B }.
Arguments full {B}. Arguments empty {B}. Arguments border {B}.
(* for new_tree2, tree/tree2d.py:9-18 *)
Definition no_cells {B} : cells B := {| full := []; empty := []; border := [] |}.

(* tree/tree2d.py:40-56 build_node *)
Fixpoint build_node2 (t : tree2) (quad : box2) (s : cells box2) : cells box2 :=
  match t with
  | Empty2 _ => {| full := full s; empty := empty s ++ [quad]; border := border s |}
  | Full2 _ => {| full := full s ++ [quad]; empty := empty s; border := border s |}
  | Leaf2 _ => {| full := full s; empty := empty s; border := border s ++ [quad] |}
  | Root2 a b c d =>
      let '((xmin, ymin), (xmax, ymax)) := quad in
      let xmid := (xmin + xmax) / two in
      let ymid := (ymin + ymax) / two in
      let s := build_node2 a ((xmin, ymin), (xmid, ymid)) s in
      let s := build_node2 b ((xmid, ymin), (xmax, ymid)) s in
      let s := build_node2 c ((xmin, ymid), (xmid, ymax)) s in
      build_node2 d ((xmid, ymid), (xmax, ymax)) s
  end.

(* what is given as the shape of a tree: an object with implicit and bounds, or
   a bare function, which has neither attribute  [for itree2, tree/tree2d.py:9-18] *)
Inductive given2 := Shape2 (s : shape2) | Func2 (f : p2 -> Qc).
(* tree/tree2d.py:9-18 ImplicitTree2D.__init__; _tree and _collapsed_tree are
   overwritten by build before they are used *)
Record itree2 := { it_cells : cells box2; it_depth : nat; it_shape : given2; it_bounds : box2 }.
(* for new_tree2, tree/tree2d.py:9-18 *)
Definition q5 : Qc := Q2Qc 5.
(* tree/tree2d.py:9-18 *)
Definition new_tree2 (shape : given2) (depth : nat) (bounds : option box2) : itree2 :=
  {| it_cells := no_cells; it_depth := depth; it_shape := shape;
     it_bounds := match bounds with
                  | Some b => b
                  | None => match shape with Shape2 s => bounds2 s | Func2 _ => ((- q5, - q5), (q5, q5)) end
                  end |}.
(* tree/tree2d.py:20-38 build_tree, collapse, clear, build *)
Definition build2 (t : itree2) (depth : option nat) : res itree2 :=
  let d := match depth with Some d => d | None => it_depth t end in
  let tree := build_tree2d (fst (it_bounds t)) (snd (it_bounds t)) d in
  match it_shape t with
  | Func2 _ => Err AttributeError   (* self.shape.bounds() *)
  | Shape2 s =>
      Ok {| it_cells := build_node2 (collapse2d (impl2 s) tree) (bounds2 s) no_cells;
            it_depth := d; it_shape := it_shape t; it_bounds := it_bounds t |}
  end.
(* implicit.py:263-264 Implicit2D.build_tree and 153-157 the tree property of a new shape *)
Definition shape2_tree (s : shape2) (depth : nat) : itree2 := new_tree2 (Func2 (impl2 s)) depth (Some (bounds2 s)).

(* tree/cbuild_tree3d.pyx:7-40 *)
Inductive tree3 :=
| Leaf3 (data : box3)
| Empty3 (node : tree3)
| Full3 (node : tree3)
| Root3 (a b c d e f g h : tree3).

(* tree/cbuild_tree3d.pyx:42-75 build_tree3d *)
Fixpoint build_tree3d (lo hi : v3) (i : nat) : tree3 :=
  match i with
  | O => Leaf3 (lo, hi)
  | S i =>
      let '(xmin, ymin, zmin) := lo in
      let '(xmax, ymax, zmax) := hi in
      let xmid := (xmin + xmax) / two in
      let ymid := (ymin + ymax) / two in
      let zmid := (zmin + zmax) / two in
      let a := build_tree3d (xmin, ymin, zmin) (xmid, ymid, zmid) i in
      let b := build_tree3d (xmid, ymin, zmin) (xmax, ymid, zmid) i in
      let c := build_tree3d (xmin, ymid, zmin) (xmid, ymax, zmid) i in
      let d := build_tree3d (xmid, ymid, zmin) (xmax, ymax, zmid) i in
      let e := build_tree3d (xmin, ymin, zmid) (xmid, ymid, zmax) i in
      let f := build_tree3d (xmid, ymin, zmid) (xmax, ymid, zmax) i in
      let g := build_tree3d (xmin, ymid, zmid) (xmid, ymax, zmax) i in
      let h := build_tree3d (xmid, ymid, zmid) (xmax, ymax, zmax) i in
      Root3 a b c d e f g h
  end.

(* for collapse3d, tree/collapse3d.py:113-180 *)
Definition is_empty3 (t : tree3) : bool := match t with Empty3 _ => true | _ => false end.
(* for collapse3d, tree/collapse3d.py:113-180 *)
Definition is_full3 (t : tree3) : bool := match t with Full3 _ => true | _ => false end.

(* tree/collapse3d.py:127-136 _collapse *)
Definition collapse_leaf3 (shape : v3 -> Qc) (data : box3) : tree3 :=
  let '((xmin, ymin, zmin), (xmax, ymax, zmax)) := data in
  let values := flat_map (fun x => flat_map (fun y => map (fun z => shape (x, y, z)) [zmin; zmax]) [ymin; ymax]) [xmin; xmax] in
  if forallb (fun v => qlt v 0) values then Full3 (Leaf3 data)
  else if forallb (fun v => qle 0 v) values then Empty3 (Leaf3 data)
  else Leaf3 data.
(* tree/collapse3d.py:113-180 collapse3d *)
Fixpoint collapse3d (shape : v3 -> Qc) (t : tree3) : tree3 :=
  match t with
  | Leaf3 data => collapse_leaf3 shape data
  | Root3 ra rb rc rd re rf rg rh =>
      let a := collapse3d shape ra in
      let b := collapse3d shape rb in
      let c := collapse3d shape rc in
      let d := collapse3d shape rd in
      let e := collapse3d shape re in
      let f := collapse3d shape rf in
      let g := collapse3d shape rg in
      let h := collapse3d shape rh in
      if is_empty3 a && is_empty3 b && is_empty3 c && is_empty3 d && is_empty3 e && is_empty3 f && is_empty3 g && is_empty3 h then Empty3 t
      else if is_full3 a && is_full3 b && is_full3 c && is_full3 d && is_full3 e && is_full3 f && is_full3 g && is_full3 h then Full3 t
      else Root3 a b c d e f g h
  | _ => t
  end.
(* tree/tree3d.py:39-60 build_node *)
Fixpoint build_node3 (t : tree3) (quad : box3) (s : cells box3) : cells box3 :=
  match t with
  | Empty3 _ => {| full := full s; empty := empty s ++ [quad]; border := border s |}
  | Full3 _ => {| full := full s ++ [quad]; empty := empty s; border := border s |}
  | Leaf3 _ => {| full := full s; empty := empty s; border := border s ++ [quad] |}
  | Root3 a b c d e f g h =>
      let '((xmin, ymin, zmin), (xmax, ymax, zmax)) := quad in
      let xmid := (xmin + xmax) / two in
      let ymid := (ymin + ymax) / two in
      let zmid := (zmin + zmax) / two in
      let s := build_node3 a ((xmin, ymin, zmin), (xmid, ymid, zmid)) s in
      let s := build_node3 b ((xmid, ymin, zmin), (xmax, ymid, zmid)) s in
      let s := build_node3 c ((xmin, ymid, zmin), (xmid, ymax, zmid)) s in
      let s := build_node3 d ((xmid, ymid, zmin), (xmax, ymax, zmid)) s in
      let s := build_node3 e ((xmin, ymin, zmid), (xmid, ymid, zmax)) s in
      let s := build_node3 f ((xmid, ymin, zmid), (xmax, ymid, zmax)) s in
      let s := build_node3 g ((xmin, ymid, zmid), (xmid, ymax, zmax)) s in
      build_node3 h ((xmid, ymid, zmid), (xmax, ymax, zmax)) s
  end.
(* tree/tree3d.py:19-37 build_tree, collapse, clear, build; fi is the implicit
   attribute of the shape when it has one and the shape itself otherwise *)
Definition build3 (fi : v3 -> Qc) (bounds : box3) (depth : nat) : cells box3 :=
  build_node3 (collapse3d fi (build_tree3d (fst bounds) (snd bounds) depth)) bounds no_cells.
