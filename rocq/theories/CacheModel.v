(* The evaluation cache of NURBSCurve (mmcore/geom/nurbs.pyx) over programs that hold any number
   of curves and arrays.  Arrays are shared memory, curves refer to them by place.
   The Greville abscissae are left out: evaluation does not read them. *)
From Coq Require Import List ZArith Bool QArith Qcanon.
From Verif Require Import Common QcLib ArrZ NurbsModel NurbsEditModel.
Import ListNotations.
Local Open Scope Qc_scope.

(* for obj, nurbs.pxd:435-441 *)
Definition p3 := (Qc * Qc * Qc)%type.
(* nurbs.pxd:435-441.  o_bound is the curve whose _evaluate the lru_cache wraps, o_cache what it
   remembers.  A division by zero or a read outside an array is a value too: evaluation never raises. *)
Record obj := { o_pts : nat; o_knots : nat; o_deg : Z; o_per : bool; o_int : Qc * Qc; o_bound : nat; o_cache : list (Qc * res p3) }.
(* nurbs.pxd:435-441 *)
Record st := { parr : list (list pt); karr : list (list Qc); objs : list obj }.

(* nurbs.pxd:435-441 *)
Definition curve_of (s : st) (o : obj) : curve := mkcurve (nth (o_pts o) (parr s) []) (o_deg o) (nth (o_knots o) (karr s) []) (o_per o) (o_int o) [].
(* nurbs.pxd:435-441 *)
Definition set_obj (s : st) (i : nat) (o : obj) : st := {| parr := parr s; karr := karr s; objs := upd (objs s) i o |}.
(* nurbs.pxd:435-441 *)
Definition with_obj (s : st) (i : nat) (f : obj -> obj) : st := match nth_error (objs s) i with Some o => set_obj s i (f o) | None => s end.

(* assignments to the attributes of curve i  [nurbs.pxd:435-441] *)
Definition put_pts (i : nat) (P : list pt) (s : st) : st :=
  with_obj {| parr := parr s ++ [P]; karr := karr s; objs := objs s |} i
    (fun o => {| o_pts := length (parr s); o_knots := o_knots o; o_deg := o_deg o; o_per := o_per o; o_int := o_int o; o_bound := o_bound o; o_cache := o_cache o |}).
(* nurbs.pxd:435-441 *)
Definition put_knots (i : nat) (K : list Qc) (s : st) : st :=
  with_obj {| parr := parr s; karr := karr s ++ [K]; objs := objs s |} i
    (fun o => {| o_pts := o_pts o; o_knots := length (karr s); o_deg := o_deg o; o_per := o_per o; o_int := o_int o; o_bound := o_bound o; o_cache := o_cache o |}).
(* nurbs.pxd:435-441 *)
Definition share_pts (i l : nat) (s : st) : st :=
  with_obj s i (fun o => {| o_pts := l; o_knots := o_knots o; o_deg := o_deg o; o_per := o_per o; o_int := o_int o; o_bound := o_bound o; o_cache := o_cache o |}).
(* nurbs.pxd:435-441 *)
Definition share_knots (i l : nat) (s : st) : st :=
  with_obj s i (fun o => {| o_pts := o_pts o; o_knots := l; o_deg := o_deg o; o_per := o_per o; o_int := o_int o; o_bound := o_bound o; o_cache := o_cache o |}).
(* nurbs.pxd:435-441 *)
Definition put_deg (i : nat) (d : Z) (s : st) : st :=
  with_obj s i (fun o => {| o_pts := o_pts o; o_knots := o_knots o; o_deg := d; o_per := o_per o; o_int := o_int o; o_bound := o_bound o; o_cache := o_cache o |}).
(* nurbs.pxd:435-441 *)
Definition put_per (i : nat) (b : bool) (s : st) : st :=
  with_obj s i (fun o => {| o_pts := o_pts o; o_knots := o_knots o; o_deg := o_deg o; o_per := b; o_int := o_int o; o_bound := o_bound o; o_cache := o_cache o |}).
(* nurbs.pxd:435-441 *)
Definition put_int (i : nat) (v : Qc * Qc) (s : st) : st :=
  with_obj s i (fun o => {| o_pts := o_pts o; o_knots := o_knots o; o_deg := o_deg o; o_per := o_per o; o_int := v; o_bound := o_bound o; o_cache := o_cache o |}).
(* self._evaluate_cached.cache_clear()  [nurbs.pxd:435-441] *)
Definition put_cache (i : nat) (l : list (Qc * res p3)) (s : st) : st :=
  with_obj s i (fun o => {| o_pts := o_pts o; o_knots := o_knots o; o_deg := o_deg o; o_per := o_per o; o_int := o_int o; o_bound := o_bound o; o_cache := l |}).
(* nurbs.pxd:435-441 *)
Definition clear (i : nat) (s : st) : st := put_cache i [] s.
(* writing into the array a curve uses  [nurbs.pxd:435-441] *)
Definition write_pts (i : nat) (P : list pt) (s : st) : st :=
  match nth_error (objs s) i with Some o => {| parr := upd (parr s) (o_pts o) P; karr := karr s; objs := objs s |} | None => s end.
(* nurbs.pxd:435-441 *)
Definition write_knots (i : nat) (K : list Qc) (s : st) : st :=
  match nth_error (objs s) i with Some o => {| parr := parr s; karr := upd (karr s) (o_knots o) K; objs := objs s |} | None => s end.

(* an array made for the call, or one the program already holds  [for assign_pts, nurbs.pxd:435-441] *)
Inductive psrc := PFresh (P : list pt) | PShared (l : nat).
(* for assign_knots, nurbs.pxd:435-441 *)
Inductive ksrc := KFresh (K : list Qc) | KShared (l : nat).
(* nurbs.pxd:435-441 *)
Definition assign_pts (i : nat) (p : psrc) (s : st) : st := match p with PFresh P => put_pts i P s | PShared l => share_pts i l s end.
(* nurbs.pxd:435-441 *)
Definition assign_knots (i : nat) (k : ksrc) (s : st) : st := match k with KFresh K => put_knots i K s | KShared l => share_knots i l s end.

(* for at_, nurbs.pxd:435-441 *)
Inductive out := Unit | Curve (i : nat) | Point (v : res p3).
(* the attributes of curve i; a program cannot name a curve it does not hold  [nurbs.pxd:435-441] *)
Definition at_ (i : nat) (s : st) (k : curve -> st * res out) : st * res out :=
  match nth_error (objs s) i with Some o => k (curve_of s o) | None => (s, Err KeyError) end.
(* nurbs.pyx:1371-1373 _update_interval *)
Definition hook (i : nat) (s : st) (k : st -> st * res out) : st * res out :=
  at_ i s (fun c => match update_interval (c_knots c) with Ok v => k (put_int i v s) | Err e => (s, Err e) end).

(* nurbs.pyx:1144 __cinit__, 1151-1171 __init__: the control points are copied, the knots are kept *)
Definition blank (s : st) (bound : nat) : st :=
  {| parr := parr s ++ [[]]; karr := karr s ++ [[]]; objs := objs s ++ [{| o_pts := length (parr s); o_knots := length (karr s); o_deg := 0; o_per := false; o_int := (0, 0); o_bound := bound; o_cache := [] |}] |}.
(* nurbs.pyx:1383-1406 make_periodic *)
Definition make_periodic_ (i : nat) (s : st) : st * res out :=
  at_ i s (fun c =>
    if is_periodic (c_pts c) (c_deg c) then (s, Ok Unit)
    else let P := c_pts c ++ firstn (Z.to_nat (c_deg c)) (c_pts c) in
         let s1 := put_knots i (generate_knots_periodic (lenZ P) (c_deg c)) (put_pts i P s) in
         hook i s1 (fun s2 => (clear i (put_per i true s2), Ok Unit))).
(* nurbs.pyx:1144, 1151-1171 *)
Definition new (P : list pt) (deg : Z) (k : option ksrc) (per : bool) (s : st) : st * res out :=
  let i := length (objs s) in
  let s1 := put_pts i P (put_per i per (put_deg i deg (blank s i))) in
  let s2 := match k with Some k => assign_knots i k s1 | None => put_knots i (generate_knots (lenZ P) deg) s1 end in
  hook i s2 (fun s3 => if per then match make_periodic_ i s3 with (s4, Ok _) => (s4, Ok (Curve i)) | (s4, Err e) => (s4, Err e) end else (s3, Ok (Curve i))).
(* nurbs.pyx:1281-1296 control_points.setter *)
Definition set_points (i : nat) (P : list pt) (s : st) : st * res out :=
  at_ i s (fun c =>
    if (lenZ P <? c_deg c + 1)%Z then (s, Err ValueError)
    else if negb (lenZ P =? lenZ (c_pts c))%Z then (s, Err ValueError)
    else (clear i (put_pts i P s), Ok Unit)).
(* nurbs.pyx:1304-1309 knots.setter *)
Definition set_knots (i : nat) (k : ksrc) (s : st) : st * res out :=
  let s1 := assign_knots i k s in hook i s1 (fun s2 => (clear i s2, Ok Unit)).
(* nurbs.pyx:1314-1317 weights.setter: the column is overwritten in place *)
Definition set_weights (i : nat) (w : list Qc) (s : st) : st * res out :=
  at_ i s (fun c =>
    if negb (lenZ w =? lenZ (c_pts c))%Z then (s, Err ValueError)
    else (clear i (write_pts i (map (fun qw => mkpt (px (fst qw)) (py (fst qw)) (pz (fst qw)) (snd qw)) (combine (c_pts c) w)) s), Ok Unit)).
(* nurbs.pyx:1206-1218 degree.setter *)
Definition set_degree (i : nat) (d : Z) (s : st) : st * res out := at_ i s (fun _ => (put_deg i d s, Ok Unit)).
(* nurbs.pyx:1499-1502 set *)
Definition set_ (i : nat) (p : psrc) (k : ksrc) (s : st) : st * res out :=
  at_ i s (fun _ => (clear i (assign_knots i k (assign_pts i p s)), Ok Unit)).
(* nurbs.pyx:1716-1748 insert_knot; where the computation reads outside an array nothing is said about the
   state the code leaves, here it is left as it was *)
Definition insert_ (i : nat) (t : Qc) (count : Z) (junk : list pt) (s : st) : st * res out :=
  at_ i s (fun c =>
    match insert_knot c t count junk with
    | Ok c' => (clear i (put_int i (c_int c') (put_knots i (c_knots c') (put_pts i (c_pts c') s))), Ok Unit)
    | Err e => (s, Err e)
    end).
(* nurbs.pyx:1968-1981 multiply_knot *)
Definition multiply_ (i : nat) (t : Qc) (junk : list pt) (s : st) : st * res out :=
  at_ i s (fun c =>
    match find_multiplicity t (c_knots c) with
    | Ok m => if (0 <? c_deg c - m)%Z then insert_ i t (c_deg c - m) junk s else (s, Ok Unit)
    | Err e => (s, Err e)
    end).
(* nurbs.pyx:1872-1887 normalize_knots: in place *)
Definition normalize_ (i : nat) (s : st) : st * res out :=
  at_ i s (fun c =>
    match (do a <- list_min (c_knots c) ; do b <- list_max (c_knots c) ; do d <- divR 1 (b - a) ; Ok (map (fun k => (k - a) * d) (c_knots c))) with
    | Ok K => hook i (write_knots i K s) (fun s2 => (clear i s2, Ok Unit))
    | Err e => (s, Err e)
    end).
(* parametric.pyx:81-94 start, is_closed, is_open; nurbs.pyx:1412-1423 make_open.  The slice of
   the control points is a view of the old array; here it is a new array. *)
Definition eps7 : Qc := Q2Qc (1 # (10 ^ 7)).
(* parametric.pyx:81-94 *)
Definition is_closed (c : curve) : res bool :=
  do e <- evaluate c (snd (c_int c)) ;
  do b <- evaluate c (fst (c_int c)) ;
  let '(e0, e1, e2) := e in let '(b0, b1, b2) := b in
  Ok (qle (qabs (e0 - b0)) eps7 && qle (qabs (e1 - b1)) eps7 && qle (qabs (e2 - b2)) eps7).
(* nurbs.pyx:1412-1423 *)
Definition make_open_ (i : nat) (s : st) : st * res out :=
  at_ i s (fun c =>
    match is_closed c with
    | Err e => (s, Err e)
    | Ok true => (s, Ok Unit)
    | Ok false =>
      let P := slice_to (c_pts c) (lenZ (c_pts c) - c_deg c) in
      let s1 := put_knots i (generate_knots (lenZ P) (c_deg c)) (put_pts i P s) in
      hook i s1 (fun s2 => (clear i (put_per i false s2), Ok Unit))
    end).
(* nurbs.pyx:1754-1789 ccopy *)
Definition ccopy (c : curve) (bound : nat) (s : st) : st :=
  let j := length (objs s) in
  put_int j (c_int c) (put_per j (c_per c) (put_deg j (c_deg c) (put_knots j (c_knots c) (put_pts j (c_pts c) (blank s bound))))).
(* nurbs.pyx:1792-1796 copy: the cache of the copy wraps the _evaluate of the original *)
Definition copy_ (i : nat) (s : st) : st * res out := at_ i s (fun c => (ccopy c i s, Ok (Curve (length (objs s))))).
(* nurbs.pyx:1197-1204 __deepcopy__ *)
Definition deepcopy_ (i : nat) (s : st) : st * res out :=
  at_ i s (fun c =>
    match set_weights (length (objs s)) (map pw (c_pts c)) (ccopy c (length (objs s)) s) with
    | (s1, Ok _) => (s1, Ok (Curve (length (objs s))))
    | (s1, Err e) => (s1, Err e)
    end).
(* nurbs.pyx:1249-1262 __setstate__ *)
Definition setstate_ (i : nat) (P : list pt) (k : ksrc) (deg : Z) (per : bool) (iv : Qc * Qc) (s : st) : st * res out :=
  at_ i s (fun _ =>
    match set_weights i (map pw P) (put_per i per (put_deg i deg (assign_knots i k (put_pts i P s)))) with
    | (s1, Ok _) => (put_int i iv s1, Ok Unit)
    | (s1, Err e) => (s1, Err e)
    end).
(* nurbs.pyx:1534-1544 evaluate through functools.lru_cache(maxsize=None) *)
Fixpoint lookup (t : Qc) (l : list (Qc * res p3)) : option (res p3) :=
  match l with [] => None | (x, v) :: r => if qeq x t then Some v else lookup t r end.
(* nurbs.pyx:1534-1544 *)
Definition eval_ (i : nat) (t : Qc) (s : st) : st * res out :=
  match nth_error (objs s) i with
  | None => (s, Err KeyError)
  | Some o => match lookup t (o_cache o) with
              | Some v => (s, Ok (Point v))
              | None => at_ (o_bound o) s (fun c => let v := evaluate c t in (put_cache i ((t, v) :: o_cache o) s, Ok (Point v)))
              end
  end.

(* what a program can do.  WritePts and WriteKnots write through an array the program holds
   (control_pointsw, knots and the like return the arrays themselves); WriteResult writes into the
   array that curve.evaluate(t) returned, which is the one in the cache.  [for exec, nurbs.pyx:1534-1544] *)
Inductive cmd :=
| New (P : list pt) (deg : Z) (k : option ksrc) (per : bool) | SetPoints (i : nat) (P : list pt) | SetKnots (i : nat) (k : ksrc)
| SetWeights (i : nat) (w : list Qc) | SetDegree (i : nat) (d : Z) | Set_ (i : nat) (p : psrc) (k : ksrc)
| Insert (i : nat) (t : Qc) (count : Z) (junk : list pt) | Multiply (i : nat) (t : Qc) (junk : list pt) | Normalize (i : nat)
| MakePeriodic (i : nat) | MakeOpen (i : nat) | Copy (i : nat) | DeepCopy (i : nat)
| SetState (i : nat) (P : list pt) (k : ksrc) (deg : Z) (per : bool) (iv : Qc * Qc) | Eval (i : nat) (t : Qc)
| WritePts (l : nat) (P : list pt) | WriteKnots (l : nat) (K : list Qc) | WriteResult (i : nat) (t : Qc) (v : p3).
(* for exec, nurbs.pyx:1534-1544 *)
Fixpoint rewrite_entry (t : Qc) (v : res p3) (l : list (Qc * res p3)) : list (Qc * res p3) :=
  match l with [] => [] | (x, w) :: r => if qeq x t then (x, v) :: r else (x, w) :: rewrite_entry t v r end.
(* calls of the functions above, one after another *)
Definition exec (c : cmd) (s : st) : st * res out :=
  match c with
  | New P d k b => new P d k b s | SetPoints i P => set_points i P s | SetKnots i k => set_knots i k s
  | SetWeights i w => set_weights i w s | SetDegree i d => set_degree i d s | Set_ i p k => set_ i p k s
  | Insert i t n junk => insert_ i t n junk s | Multiply i t junk => multiply_ i t junk s | Normalize i => normalize_ i s
  | MakePeriodic i => make_periodic_ i s | MakeOpen i => make_open_ i s | Copy i => copy_ i s | DeepCopy i => deepcopy_ i s
  | SetState i P k d b iv => setstate_ i P k d b iv s | Eval i t => eval_ i t s
  | WritePts l P => ({| parr := upd (parr s) l P; karr := karr s; objs := objs s |}, Ok Unit)
  | WriteKnots l K => ({| parr := parr s; karr := upd (karr s) l K; objs := objs s |}, Ok Unit)
  | WriteResult i t v => (match nth_error (objs s) i with Some o => put_cache i (rewrite_entry t (Ok v) (o_cache o)) s | None => s end, Ok Unit)
  end.
(* a program goes on after an error  [before any call] *)
Definition start : st := {| parr := []; karr := []; objs := [] |}.
(* calls of the functions above, one after another *)
Fixpoint run (l : list cmd) (s : st) : st := match l with [] => s | c :: r => run r (fst (exec c s)) end.
