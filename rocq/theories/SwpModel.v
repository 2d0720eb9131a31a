(* Points, segments and the small parts of the sweep line algorithm for the intersection of segments.
   Model of /repo/mmcore/numeric/algorithms/sweep_line/ point.py, segment.py and of the parts of sweep_intersector.py around the main loop.
   Coordinates are rationals; object identity is the identity of the number that each point and segment gets when it is made. *)
From Coq Require Import List ZArith QArith Qcanon Bool.
From Verif Require Import Common QcLib SurfModel.
Import ListNotations.
Local Open Scope Z_scope.
Local Open Scope Qc_scope.

(* ---- point.py ---- *)

(* point.py:12-20 Point *)
Record point : Type := mkp { p_id : Z; p_x : Qc; p_y : Qc }.
(* point.py:14-15 EPS2 *)
Definition eps2 : Qc := Q2Qc (1 # 10000000000).
(* point.py:22-30 compare *)
Definition pcompare (a b : point) : Z :=
  if Z.eqb (p_id a) (p_id b) then 0%Z
  else
    let dx := p_x a - p_x b in
    if qlt eps2 dx then 1%Z
    else if qlt dx (- eps2) then (-1)%Z
    else
      let dy := p_y a - p_y b in
      if qlt eps2 dy then 1%Z
      else if qlt dy (- eps2) then (-1)%Z
      else 0%Z.
(* point.py:44-46 __eq__ *)
Definition peq (a b : point) : bool := Z.eqb (pcompare a b) 0.
(* point.py:35-36 __lt__ *)
Definition plt (a b : point) : bool := Z.ltb (pcompare a b) 0.

(* ---- segment.py ---- *)

(* segment.py:18-32 Segment; None is the infinite slope and the shift minus infinity of a vertical segment *)
Record seg : Type := mks { s_id : Z; s_p1 : point; s_p2 : point; s_dx : Qc; s_dy : Qc; s_slope : option Qc; s_shift : option Qc }.
(* segment.py:18-32 __init__ *)
Definition new_seg (id : Z) (a b : point) : seg :=
  let dx := p_x b - p_x a in let dy := p_y b - p_y a in
  if negb (qeq (p_x b) (p_x a)) then
    let m := dy / dx in mks id a b dx dy (Some m) (Some (p_y a - m * p_x a))
  else mks id a b dx dy None None.
(* segment.py:40-41 isTrivial *)
Definition is_trivial (s : seg) : bool := qeq (s_dx s) 0 && qeq (s_dy s) 0.
(* segment.py:50-51 cmpVal *)
Definition cmp_val (a b : Qc) : Z := ((if qlt b a then 1 else 0) - (if qlt a b then 1 else 0))%Z.
(* segment.py:70-73 orientation *)
Definition orientation (s : seg) (p : point) : Z :=
  cmp_val (s_dy s * (p_x (s_p1 s) - p_x p)) (s_dx s * (p_y (s_p1 s) - p_y p)).
(* segment.py:53-68 compare, with the sweep point; the exception of line 62 stands as ValueError *)
Definition seg_compare (sweep : point) (a b : seg) : res Z :=
  if Z.eqb (s_id a) (s_id b) then Ok 0%Z
  else
    do s <- (if Z.eqb (p_id sweep) (p_id (s_p1 a)) then Ok (orientation b sweep)
             else if Z.eqb (p_id sweep) (p_id (s_p1 b)) then Ok (- orientation a sweep)%Z
             else Err ValueError) ;
    if negb (Z.eqb s 0) || is_trivial a || is_trivial b then Ok s
    else let s2 := orientation b (s_p2 a) in
         Ok (if negb (Z.eqb s2 0) then s2 else (s_id a - s_id b)%Z).
(* equality of slopes, segment.py:76 *)
Definition slope_eq (a b : option Qc) : bool :=
  match a, b with Some x, Some y => qeq x y | None, None => true | _, _ => false end.
(* a number times a finite slope plus a finite shift, segment.py:89, 91 *)
Definition line_y (s : seg) (x : Qc) : option Qc :=
  match s_slope s, s_shift s with Some m, Some c => Some (m * x + c) | _, _ => None end.
(* segment.py:75-92 intersectionOfLines; the number is the one a new point gets *)
Definition lines_meet (id : Z) (a s : seg) : option point :=
  if slope_eq (s_slope a) (s_slope s) then None
  else if peq (s_p1 a) (s_p1 s) || peq (s_p1 a) (s_p2 s) then Some (s_p1 a)
  else if peq (s_p2 a) (s_p1 s) || peq (s_p2 a) (s_p2 s) then Some (s_p2 a)
  else
    let vert := qeq (p_x (s_p1 a)) (p_x (s_p2 a)) in
    match (if vert then Some (p_x (s_p1 a))
           else if qeq (p_x (s_p1 s)) (p_x (s_p2 s)) then Some (p_x (s_p1 s))
           else match s_shift s, s_shift a, s_slope a, s_slope s with
                | Some c', Some c, Some m, Some m' => Some ((c' - c) / (m - m'))
                | _, _, _, _ => None
                end) with
    | None => None
    | Some cx => match (if vert then line_y s cx else line_y a cx) with
                 | Some cy => Some (mkp id cx cy)
                 | None => None
                 end
    end.

(* ---- sweep_intersector.py ---- *)

(* the test of computeIntersection, sweep_intersector.py:280 *)
Definition crosses (s0 s1 : seg) : bool := Z.leb (orientation s0 (s_p2 s1)) 0 && Z.leb 0 (orientation s1 (s_p2 s0)).
(* a pair of coordinates in the input, sweep_intersector.py:28-30 *)
Definition xy : Type := (Qc * Qc)%type.
(* absolute value, sweep_intersector.py:226 *)
Definition qabs (x : Qc) : Qc := if qlt x 0 then - x else x.
(* the test of the loop, sweep_intersector.py:226-227 *)
Definition too_big (inf : Qc) (s : xy * xy) : bool :=
  qle inf (qabs (fst (fst s))) || qle inf (qabs (snd (fst s))) || qle inf (qabs (fst (snd s))) || qle inf (qabs (snd (snd s))).
(* sweep_intersector.py:226-228 the inner loop *)
Fixpoint grow (fuel : nat) (inf : Qc) (s : xy * xy) : res Qc :=
  if too_big inf s then match fuel with O => Err OutOfFuel | S f => grow f (inf * (1 + 1)) s end else Ok inf.
(* sweep_intersector.py:221-228 the bound for all segments *)
Fixpoint bound_all (fuel : nat) (inf : Qc) (l : list (xy * xy)) : res Qc :=
  match l with [] => Ok inf | s :: r => do i <- grow fuel inf s ; bound_all fuel i r end.

(* equality of tuples, sweep_intersector.py:306, 310 *)
Definition xy_eqb (a b : xy) : bool := qeq (fst a) (fst b) && qeq (snd a) (snd b).
(* insertion into a stable descending or ascending order of the keys; sorted, sweep_intersector.py:305 *)
Fixpoint ins_key (k : xy -> Qc) (desc : bool) (p : xy) (l : list xy) : list xy :=
  match l with
  | [] => [p]
  | a :: r => if (if desc then qlt (k p) (k a) || qeq (k p) (k a) else qlt (k a) (k p) || qeq (k a) (k p))
              then a :: ins_key k desc p r else p :: l
  end.
(* sorted(points, key=k, reverse=r): equal keys keep their order, sweep_intersector.py:305 *)
Definition sort_key (k : xy -> Qc) (desc : bool) (l : list xy) : list xy := fold_left (fun acc p => ins_key k desc p acc) l [].
(* next(i for i, p in enumerate(segment) if p == v2), sweep_intersector.py:306 *)
Fixpoint find_xy (v : xy) (l : list xy) : option nat :=
  match l with [] => None | a :: r => if xy_eqb a v then Some O else option_map S (find_xy v r) end.
(* list.insert, sweep_intersector.py:311 *)
Definition insert_at {A} (i : nat) (x : A) (l : list A) : list A := firstn i l ++ x :: skipn i l.
(* sweep_intersector.py:296-312 inorderExtend; the assertion of line 307 stands as ValueError *)
Definition inorder_extend (sg : list xy) (v1 v2 : xy) (points : list xy) : res (list xy) :=
  let '(k, r) := if qlt (fst v1) (fst v2) then (fst, true)
                 else if qlt (fst v2) (fst v1) then (fst, false)
                 else if qlt (snd v1) (snd v2) then (snd, true) else (snd, false) : ((xy -> Qc) * bool)%type in
  let l := sort_key k r points in
  match find_xy v2 sg with
  | None => Err ValueError
  | Some i => Ok (fold_left (fun acc e => if existsb (fun x => xy_eqb x e) acc then acc else insert_at i e acc) l sg)
  end.
(* sweep_intersector.py:314-318 collectAndSortResult and 325-330 find_intersection for one segment: the ends are cut off *)
Definition inner_points (v1 v2 : xy) (points : list xy) : res (list xy) :=
  do l <- inorder_extend [v1; v2] v1 v2 points ; Ok (removelast (tl l)).
(* sweep_intersector.py:331-337 polygon_segments *)
Definition polygon_segments {A} (poly : list A) : res (list (A * A)) :=
  let n := length poly in
  mapR (fun i => do a <- (match nth_error poly i with Some x => Ok x | None => Err IndexError end) ;
                 do b <- (match nth_error poly ((i + 1) mod n) with Some x => Ok x | None => Err IndexError end) ;
                 Ok (a, b)) (seq 0 n).
