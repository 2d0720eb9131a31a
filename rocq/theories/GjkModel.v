(* Model of the collision test between convex shapes given by their vertices, in its
   Python and its compiled version, and of the distance from a point to a triangle:
   mmcore/numeric/algorithms/gjk.py, numeric/algorithms/_gjk.cpp,
   numeric/algorithms/cygjk.pyx.
   Arithmetic is exact; sqrt is an argument.  Vertices have three coordinates.
   The start value -sys.float_info.max of a search for the largest product is below
   every product: "none found yet".  The arrays visited and visited_pts (visited and
   cache) are one list of index pairs with their points. *)
From Coq Require Import List ZArith Bool QArith Qcanon.
From Verif Require Import Common QcLib ArrZ SumLib NurbsModel DerModel PlnModel.
Import ListNotations.
Local Open Scope Z_scope.
Local Open Scope Qc_scope.

(* unary minus of a vector, gjk.py:85, 98, _gjk.cpp:56 *)
Definition vneg (a : v3) : v3 := mkv (- vx a) (- vy a) (- vz a).
Definition tol6 : Qc := Q2Qc (1 # 10 ^ 6). (* the default tol=1e-6, gjk.py:70, 134 *)

(* ---- distance to a triangle ---- *)

(* gjk.py:20-22 np.sign *)
Definition npsign (x : Qc) : Qc := if qlt 0 x then 1 else if qlt x 0 then - 1%Qc else 0.
(* gjk.py:29-31 np.clip(x, 0.0, 1.0) *)
Definition clip01 (x : Qc) : Qc := if qlt x 0 then 0 else if qlt 1 x then 1 else x.
(* gjk.py:37 min of two *)
Definition qmin (a b : Qc) : Qc := if qlt b a then b else a.
(* gjk.py:7-8 *)
Definition dot2v (v : v3) : Qc := vdot v v.

(* gjk.py:10-40 udTriangle; scalar_dot gives a Python float, so that dividing by a zero one raises *)
Definition ud_triangle (sqrt : Qc -> Qc) (p a b c : v3) : res Qc :=
  let ba := vsub b a in let pa := vsub p a in
  let cb := vsub c b in let pb := vsub p b in
  let ac := vsub a c in let pc := vsub p c in
  let nor := vcross ba ac in
  let sign_sum := npsign (vdot (vcross ba nor) pa) + npsign (vdot (vcross cb nor) pb)
                  + npsign (vdot (vcross ac nor) pc) in
  if qlt sign_sum (zq 2) then
    do q1 <- divR (vdot ba pa) (dot2v ba) ;
    do q2 <- divR (vdot cb pb) (dot2v cb) ;
    do q3 <- divR (vdot ac pc) (dot2v ac) ;
    let v1 := vsub (vscale (clip01 q1) ba) pa in
    let v2 := vsub (vscale (clip01 q2) cb) pb in
    let v3 := vsub (vscale (clip01 q3) ac) pc in
    Ok (sqrt (qmin (qmin (vdot v1 v1) (vdot v2 v2)) (vdot v3 v3)))
  else
    do d <- divR (vdot nor pa * vdot nor pa) (vdot nor nor) ;
    Ok (sqrt d).

(* ---- support points ---- *)

(* gjk.py:59-65, _gjk.cpp:38-44 the loop: best product, vertex and index so far *)
Fixpoint support_from (i : Z) (vs : list v3) (d : v3) (best : option Qc * v3 * Z) : option Qc * v3 * Z :=
  match vs with
  | [] => best
  | v :: t =>
    let x := vdot v d in
    support_from (i + 1) t d
      (if match fst (fst best) with None => true | Some h => qlt h x end then (Some x, v, i) else best)
  end.
(* gjk.py:44-67 support_vector, _gjk.cpp:33-47 supportVector (only the index) *)
Definition support_vector (vs : list v3) (d : v3) : v3 * Z :=
  let r := support_from 0 vs d (None, v30, (-1)%Z) in (snd (fst r), snd r).
(* gjk.py:82-86 support, _gjk.cpp:148-152; the pair of indices as in gjk.py:86, _gjk.cpp:156 *)
Definition support (vs1 vs2 : list v3) (d : v3) : v3 * (Z * Z) :=
  let r1 := support_vector vs1 d in let r2 := support_vector vs2 (vneg d) in
  (vsub (fst r1) (fst r2), (snd r1, snd r2)).

(* gjk.py:79-80 visited, visited_pts, _gjk.cpp:142-143 visited, cache *)
Definition memo : Type := list (Z * Z * v3).
Fixpoint seen (m : memo) (k : Z * Z) : option v3 :=
  match m with
  | [] => None
  | (i, j, p) :: t => if ((i =? fst k) && (j =? snd k))%Z then Some p else seen t k
  end.

(* ---- the Python version ---- *)

(* gjk.py:136-147 two points held, simplex = [b; a]: answer, points held after, direction after *)
Definition handle2 (b a : v3) (tol : Qc) : list v3 * v3 :=
  let ab := vsub b a in let ao := vneg a in
  if qlt tol (vdot ab ao) then ([b; a], vcross (vcross ab ao) ab) else ([a], ao).
(* gjk.py:149-173 three points held, simplex = [c; b; a].  The recursive calls work on a new
   list, so the points held stay the same, and use the default tol *)
Definition handle3 (c b a : v3) (tol : Qc) : list v3 * v3 :=
  let ab := vsub b a in let ac := vsub c a in let ao := vneg a in
  let abc := vcross ab ac in
  if qlt tol (vdot (vcross abc ac) ao) then
    if qlt tol (vdot ac ao) then ([c; a], vcross (vcross ac ao) ac)
    else ([c; b; a], snd (handle2 a b tol6))
  else if qlt tol (vdot (vcross ab abc) ao) then ([c; b; a], snd (handle2 a b tol6))
  else if qlt tol (vdot abc ao) then ([c; b; a], abc)
  else ([b; c; a], vneg abc).
(* gjk.py:174-200 four points held, simplex = [e; c; b; a] *)
Definition handle4 (e c b a : v3) : bool * list v3 * v3 -> bool * list v3 * v3 := fun before =>
  let ab := vsub b a in let ac := vsub c a in let ad := vsub e a in let ao := vneg a in
  if qlt 0 (vdot (vcross ab ac) ao) then (false, [c; b; a], snd (handle3 a b c tol6))
  else if qlt 0 (vdot (vcross ac ad) ao) then (false, [e; b; a], snd (handle3 a b e tol6))
  else if qlt 0 (vdot (vcross ad ab) ao) then (false, [e; c; a], snd (handle3 a c e tol6))
  else (true, snd (fst before), snd before).
(* gjk.py:134-203 handle_simplex: answer, points held and direction afterwards *)
Definition handle_simplex (s : list v3) (d : v3) (tol : Qc) : res (bool * list v3 * v3) :=
  match s with
  | [b; a] => Ok (false, fst (handle2 b a tol), snd (handle2 b a tol))
  | [c; b; a] => Ok (false, fst (handle3 c b a tol), snd (handle3 c b a tol))
  | [e; c; b; a] => Ok (handle4 e c b a (false, s, d))
  | _ => Err ValueError
  end.

Section Loop.
Variable sqrt : Qc -> Qc.
(* gjk.py:100-127, _gjk.cpp:162-186 the loop, given the function that handles the points held: answer and number of passes begun *)
Fixpoint gjk_loop (handle : list v3 -> v3 -> res (bool * list v3 * v3)) (vs1 vs2 : list v3) (tol : Qc)
    (n : nat) (done : Z) (m : memo) (s : list v3) (d : v3) : res (bool * Z) :=
  match n with
  | O => Ok (false, done)
  | S n' =>
    let np := support vs1 vs2 d in
    let far := match seen m (snd np) with
               | Some q => qlt tol (scalar_norm sqrt (vsub q (fst np)))
               | None => false end in
    if far then Ok (false, (done + 1)%Z)
    else
      let m' := match seen m (snd np) with Some _ => m | None => (snd np, fst np) :: m end in
      if qlt (vdot (fst np) d) 0 then Ok (false, (done + 1)%Z)
      else
        do (r, d') <- handle (s ++ [fst np]) d ;
        if fst r then Ok (true, (done + 1)%Z)
        else gjk_loop handle vs1 vs2 tol n' (done + 1) m' (snd r) d'
  end.

(* gjk.py:70-131 gjk_collision_detection and the number of passes begun; an index into an empty
   array of flags raises at gjk.py:92 *)
Definition gjk_passes (vs1 vs2 : list v3) (tol : Qc) (max_iter : Z) : res (bool * Z) :=
  match vs1, vs2 with
  | [], _ | _, [] => Err IndexError
  | _, _ =>
    let p := support vs1 vs2 (mkv 1 0 0) in
    gjk_loop (fun s d => handle_simplex s d tol) vs1 vs2 tol (Z.to_nat max_iter) 0 [(snd p, fst p)] [fst p] (vneg (fst p))
  end.
Definition gjk (vs1 vs2 : list v3) (tol : Qc) (max_iter : Z) : res bool :=
  do (b, k) <- gjk_passes vs1 vs2 tol max_iter ; Ok b.

(* ---- the compiled version ---- *)

(* _gjk.cpp:52-65 *)
Definition chandle2 (b a : v3) (tol : Qc) : list v3 * v3 :=
  let ab := vsub b a in let ao := vneg a in
  if qlt tol (vdot ab ao) then ([b; a], vcross (vcross ab ao) ab) else ([a], ao).
(* _gjk.cpp:66-97; here the recursive calls work on the same points *)
Definition chandle3 (c b a : v3) (tol : Qc) : list v3 * v3 :=
  let ab := vsub b a in let ac := vsub c a in let ao := vneg a in
  let abc := vcross ab ac in
  if qlt tol (vdot (vcross abc ac) ao) then
    if qlt 0 (vdot ac ao) then ([c; a], vcross (vcross ac ao) ac)
    else chandle2 b a tol
  else if qlt tol (vdot (vcross ab abc) ao) then chandle2 b a tol
  else if qlt tol (vdot abc ao) then ([c; b; a], abc)
  else ([b; c; a], vneg abc).
(* _gjk.cpp:98-125 *)
Definition chandle4 (e c b a : v3) (tol : Qc) : option (list v3 * v3) :=
  let ab := vsub b a in let ac := vsub c a in let ad := vsub e a in let ao := vneg a in
  if qlt 0 (vdot (vcross ab ac) ao) then Some (chandle3 c b a tol)
  else if qlt 0 (vdot (vcross ac ad) ao) then Some (chandle3 e b a tol)
  else if qlt 0 (vdot (vcross ad ab) ao) then Some (chandle3 e c a tol)
  else None.
(* _gjk.cpp:49-128 handleSimplex; other sizes are left alone *)
Definition chandle_simplex (s : list v3) (d : v3) (tol : Qc) : res (bool * list v3 * v3) :=
  match s with
  | [b; a] => Ok (false, fst (chandle2 b a tol), snd (chandle2 b a tol))
  | [c; b; a] => Ok (false, fst (chandle3 c b a tol), snd (chandle3 c b a tol))
  | [e; c; b; a] =>
    match chandle4 e c b a tol with Some r => Ok (false, fst r, snd r) | None => Ok (true, s, d) end
  | _ => Ok (false, s, d)
  end.
(* _gjk.cpp:130-189, cygjk.pyx:17-34 gjk for max_iter >= 0.  An empty shape throws a C++ exception
   which cygjk.pxd does not declare: [Err ValueError] stands for the end of the process *)
Definition cgjk_passes (vs1 vs2 : list v3) (tol : Qc) (max_iter : Z) : res (bool * Z) :=
  match vs1, vs2 with
  | [], _ | _, [] => Err ValueError
  | _, _ =>
    let n := if (max_iter =? 0)%Z then (lenZ vs1 * lenZ vs2)%Z else max_iter in
    let p := support vs1 vs2 (mkv 1 0 0) in
    gjk_loop (fun s d => chandle_simplex s d tol) vs1 vs2 tol (Z.to_nat n) 0 [(snd p, fst p)] [fst p] (vneg (fst p))
  end.
Definition cgjk (vs1 vs2 : list v3) (tol : Qc) (max_iter : Z) : res bool :=
  do (b, k) <- cgjk_passes vs1 vs2 tol max_iter ; Ok b.
End Loop.
