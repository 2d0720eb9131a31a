(* mmcore/geom/implicit/tree/octree.py and utils.py (box division tables).  Exact rationals. *)
From Coq Require Import List Arith ZArith Bool QArith Qround Qcanon Lia.
From Verif Require Import Common QcLib SumLib AabbModel.
Import ListNotations.
Local Open Scope Qc_scope.

(* the builtin round: ties go to the even neighbour; round(x, 4)  [for round_even, octree.py:14-27] *)
Definition half : Qc := Q2Qc (1 # 2).
(* for round4, octree.py:14-27 *)
Definition round_even (x : Qc) : Z :=
  let n := Qfloor (this x) in let f := x - zq n in
  if qlt f half then n else if qlt half f then (n + 1)%Z else if Z.even n then n else (n + 1)%Z.
(* for dims, octree.py:14-27 *)
Definition round4 (x : Qc) : Qc := zq (round_even (x * zq 10000)) / zq 10000.

(* octree.py:14-27 OCNode.__init__: dims and center are functions of the box *)
Definition dims (b : box3) : v3 :=
  (round4 (vx (snd b) - vx (fst b)), round4 (vy (snd b) - vy (fst b)), round4 (vz (snd b) - vz (fst b))).
(* octree.py:14-27 *)
Definition center (b : box3) : v3 :=
  (vx (fst b) + vx (dims b) * half, vy (fst b) + vy (dims b) * half, vz (fst b) + vz (dims b) * half).
(* box, children, lamp  [for box_of, octree.py:59-98] *)
Inductive node := Node (b : box3) (kids : list node) (lamp : option v3).
(* for overlap, octree.py:59-98 *)
Definition box_of (n : node) : box3 := match n with Node b _ _ => b end.

(* utils.py:27-38 divide_xyz *)
Definition divide_xyz (lo hi c : v3) : list box3 :=
  [ (lo, c);
    ((vx c, vy lo, vz lo), (vx hi, vy c, vz c));
    ((vx c, vy c, vz lo), (vx hi, vy hi, vz c));
    ((vx lo, vy c, vz lo), (vx c, vy hi, vz c));
    ((vx lo, vy lo, vz c), (vx c, vy c, vz hi));
    ((vx c, vy lo, vz c), (vx hi, vy c, vz hi));
    (c, hi);
    ((vx lo, vy c, vz c), (vx c, vy hi, vz hi)) ].
(* utils.py:41-48 divide *)
Inductive axis := X | Y | Z_.
(* utils.py:41-48 *)
Definition divide (d : axis) (lo hi c : v3) : list box3 :=
  match d with
  | X => [(lo, (vx c, vy hi, vz hi)); ((vx c, vy lo, vz lo), hi)]
  | Y => [(lo, (vx hi, vy c, vz hi)); ((vx lo, vy c, vz lo), hi)]
  | Z_ => [(lo, (vx hi, vy hi, vz c)); ((vx lo, vy lo, vz c), hi)]
  end.
(* utils.py:50-62 divide_two; the argument is the axis that is not divided *)
Definition divide_two (d : axis) (lo hi c : v3) : list box3 :=
  match d with
  | Z_ => [(lo, (vx c, vy c, vz hi)); ((vx c, vy lo, vz lo), (vx hi, vy c, vz hi)); ((vx c, vy c, vz lo), hi); ((vx lo, vy c, vz lo), (vx c, vy hi, vz hi))]
  | Y => [(lo, (vx c, vy hi, vz c)); ((vx c, vy lo, vz lo), (vx hi, vy hi, vz c)); ((vx c, vy lo, vz c), hi); ((vx lo, vy lo, vz c), (vx c, vy hi, vz hi))]
  | X => [(lo, (vx hi, vy c, vz c)); ((vx lo, vy lo, vz c), (vx hi, vy c, vz hi)); ((vx lo, vy c, vz c), hi); ((vx lo, vy c, vz lo), (vx hi, vy hi, vz c))]
  end.
(* utils.py:64-76 find_division_option; None when no side is too long *)
Definition find_division_option (lo hi c d target : v3) : option (list box3) :=
  match qlt (vx target) (vx d), qlt (vy target) (vy d), qlt (vz target) (vz d) with
  | true, false, false => Some (divide X lo hi c)
  | false, true, false => Some (divide Y lo hi c)
  | false, false, true => Some (divide Z_ lo hi c)
  | true, true, false => Some (divide_two Z_ lo hi c)
  | true, false, true => Some (divide_two Y lo hi c)
  | false, true, true => Some (divide_two X lo hi c)
  | true, true, true => Some (divide_xyz lo hi c)
  | false, false, false => None
  end.
(* octree.py:131-143 create_octree; fuel bounds the depth of recursion.  Iterating over None raises. *)
Fixpoint all_of (f : box3 -> res node) (l : list box3) : res (list node) :=
  match l with [] => Ok [] | b :: r => do n <- f b ; do ns <- all_of f r ; Ok (n :: ns) end.
(* octree.py:131-143 *)
Fixpoint create_octree (fuel : nat) (b : box3) (target : v3) : res node :=
  match fuel with
  | O => Err OutOfFuel
  | S f =>
    let d := dims b in
    if qle (vx d) (vx target) && qle (vy d) (vy target) && qle (vz d) (vz target) then Ok (Node b [] (Some (center b)))
    else match find_division_option (fst b) (snd b) (center b) d target with
         | None => Err TypeError
         | Some arr => do ns <- all_of (fun x => create_octree f x target) arr ; Ok (Node b ns None)
         end
  end.
(* octree.py:50-57 create_children with the default count; children are appended *)
Definition leaf (b : box3) : node := Node b [] (Some (center b)).
(* octree.py:50-57 *)
Definition create_children (n : node) : node :=
  match n with Node b ks _ => Node b (ks ++ map leaf (divide_xyz (fst b) (snd b) (center b))) None end.
(* octree.py:123-128 traverse *)
Fixpoint traverse (n : node) : node :=
  match n with
  | Node b ks (Some c) => create_children (Node b ks (Some c))
  | Node b ks None => Node b (map traverse ks) None
  end.
(* octree.py:59-98 *)
Definition overlap (n : node) (m : box3) : bool :=
  let s := box_of n in
  if qlt 0 (vx (fst m) - vx (snd s)) || qlt 0 (vy (fst m) - vy (snd s)) || qlt 0 (vz (fst m) - vz (snd s)) then false
  else if qlt 0 (vx (fst s) - vx (snd m)) || qlt 0 (vy (fst s) - vy (snd m)) || qlt 0 (vz (fst s) - vz (snd m)) then false
  else true.
(* octree.py:59-98 *)
Definition le3 (a b : v3) : bool := qle (vx a) (vx b) && qle (vy a) (vy b) && qle (vz a) (vz b).
(* octree.py:59-98 *)
Definition in_bbox (n : node) (m : box3) : bool := le3 (fst m) (fst (box_of n)) && le3 (snd (box_of n)) (snd m).
(* octree.py:59-98 *)
Definition contains_bbox (n : node) (m : box3) : bool := le3 (fst (box_of n)) (fst m) && le3 (snd m) (snd (box_of n)).
(* for closest_node, octree.py:108-119 *)
Definition contains_point (n : node) (p : v3) : bool :=
  qle (vx p) (vx (snd (box_of n))) && qle (vx (fst (box_of n))) (vx p) &&
  (qle (vy p) (vy (snd (box_of n))) && qle (vy (fst (box_of n))) (vy p)) &&
  (qle (vz p) (vz (snd (box_of n))) && qle (vz (fst (box_of n))) (vz p)).
(* octree.py:108-119 closest_node *)
Fixpoint closest_node (n : node) (p : v3) : option node :=
  match n with
  | Node b ks l =>
    if contains_point (Node b ks l) p then
      match ks with
      | [] => Some (Node b ks l)
      | _ => (fix first (ks : list node) : option node := match ks with [] => None | k :: r => match closest_node k p with Some x => Some x | None => first r end end) ks
      end
    else None
  end.

(* utils.py:2-4 power_of_two: int.bit_length ignores the sign *)
Definition bit_length (x : Z) : Z := match Z.abs x with Z0 => 0 | Zpos p => Z.log2 (Zpos p) + 1 | Zneg _ => 0 end.
(* utils.py:2-4 *)
Definition power_of_two (x : Z) : Z := 2 ^ bit_length (x - 1).

(* utils.py:80-91 divide_2d, find_division_option_2d *)
Definition q2 := (Qc * Qc)%type.
(* utils.py:80-91 *)
Definition find_division_option_2d (lo hi c d target : q2) : res (list (q2 * q2)) :=
  match qlt (fst target) (fst d), qlt (snd target) (snd d) with
  | true, false => Ok [(lo, (fst c, snd hi)); ((fst c, snd lo), hi)]
  | false, true => Ok [(lo, (fst hi, snd c)); ((fst lo, snd c), hi)]
  | true, true => Ok [(lo, c); ((fst c, snd lo), (fst hi, snd c)); (c, hi); ((fst lo, snd c), (fst c, snd hi))]
  | false, false => Err KeyError
  end.
