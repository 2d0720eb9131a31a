(* Array routines and the boolean operation on curves: Model of
   /repo/mmcore/numeric/routines/__init__.py, /repo/mmcore/numeric/routines/_routines.pyx and
   /repo/mmcore/geom/curves/curve_bool.py.

   Numbers are exact rationals.  np.sort is SortModel.qsort, np.unique is SurfModel.sorted_set.  The arrays of nd_min and
   nd_max are flat and of the same length (numpy's broadcasting of an array of length one is not modelled).  An array in
   split_dim, add_dim and remove_dim is its list of elements in C order together with its shape.  The intersections, the
   splitting and the evaluation of curves in curve_boolean_operation are function arguments. *)
From Coq Require Import List Arith ZArith Bool QArith Qcanon Qround.
From Verif Require Import Common QcLib ListLib LuModel SortModel SurfModel.
Import ListNotations.
Local Open Scope Qc_scope.

(* an integer as a number; for np.linspace, routines/__init__.py:9 *)
Definition qn (k : nat) : Qc := Q2Qc (inject_Z (Z.of_nat k)).
(* np.linspace(a, b, n), routines/__init__.py:9, _routines.pyx:16-17 *)
Definition linspace (a b : Qc) (n : nat) : list Qc :=
  map (fun i => if (n =? 1)%nat then a else a + qn i * ((b - a) / qn (n - 1))) (seq 0 n).
(* routines/__init__.py:8-14 point_grid_2d; z[i, j] is the element i * count_v + j of the flat array *)
Definition point_grid_2d (cu cv : nat) (bu bv : Qc * Qc) : res (list (Qc * Qc)) :=
  let u := linspace (fst bu) (snd bu) cu in
  let v := linspace (fst bv) (snd bv) cv in
  loop 0 cu (repeat (0, 0) (cu * cv)) (fun i z => loop 0 cv z (fun j z =>
    do a <- getR u i ; do b <- getR v j ; wr z (i * cv + j) (a, b))).
(* _routines.pyx:7-25 uvs; `junk` is the content of np.empty((l, 2)) *)
Definition uvs (junk : list (Qc * Qc)) (cu cv : nat) (bu bv : Qc * Qc) : res (list (Qc * Qc)) :=
  let u := linspace (fst bu) (snd bu) cu in
  let v := linspace (fst bv) (snd bv) cv in
  do (uv, _) <- loop 0 cu (junk, 0%nat) (fun i st => loop 0 cv st (fun j st =>
    let '(uv, k) := st in
    do a <- getR u i ; do b <- getR v j ; do uv' <- wr uv k (a, b) ; Ok (uv', (k + 1)%nat))) ;
  Ok uv.

(* an argument of nd_min and nd_max, routines/__init__.py:17-44 *)
Inductive nval := Num (x : Qc) | Arr (l : list Qc).
(* a[cond] = b[cond] elementwise: cond x y says that y replaces x; for nd_min, routines/__init__.py:20 *)
Fixpoint masked (cond : Qc -> Qc -> bool) (a b : list Qc) : res (list Qc) :=
  match a, b with
  | [], [] => Ok []
  | x :: a', y :: b' => do r <- masked cond a' b' ; Ok ((if cond x y then y else x) :: r)
  | _, _ => Err ValueError
  end.
(* a[cond] = number; for nd_min, routines/__init__.py:23 *)
Definition masked_num (cond : Qc -> Qc -> bool) (a : list Qc) (y : Qc) : list Qc := map (fun x => if cond x y then y else x) a.
(* the body of nd_min and nd_max: the two arguments afterwards and the value; routines/__init__.py:17-44 *)
Definition nd_sel (cond : Qc -> Qc -> bool) (num : Qc -> Qc -> Qc) (a b : nval) : res (nval * nval * nval) :=
  match a, b with
  | Arr x, Arr y => do r <- masked cond x y ; Ok (Arr r, Arr y, Arr r)
  | Arr x, Num y => let r := masked_num cond x y in Ok (Arr r, Num y, Arr r)
  | Num x, Arr y => let r := masked_num cond y x in Ok (Num x, Arr r, Arr r)
  | Num x, Num y => Ok (Num x, Num y, Num (num x y))
  end.
(* routines/__init__.py:17-29 nd_min *)
Definition nd_min : nval -> nval -> res (nval * nval * nval) := nd_sel (fun x y => qlt y x) (fun x y => if qlt y x then y else x).
(* routines/__init__.py:32-44 nd_max *)
Definition nd_max : nval -> nval -> res (nval * nval * nval) := nd_sel (fun x y => qlt x y) (fun x y => if qlt x y then y else x).

(* np.min of a non-empty list; for find_similar, routines/__init__.py:49 *)
Fixpoint list_min (x : Qc) (l : list Qc) : Qc := match l with [] => x | y :: r => list_min (if qlt y x then y else x) r end.
(* np.where(r == m)[0]; for find_similar, routines/__init__.py:49 *)
Definition where_eq (m : Qc) (r : list Qc) : list nat := filter (fun i => qeq (nth i r 0) m) (seq 0 (length r)).
(* routines/__init__.py:47-49 find_similar *)
Definition find_similar (value : Qc) (values : list Qc) : res (list nat) :=
  let r := map (fun x => fabs (x - value)) values in
  match r with [] => Err ValueError | x :: l => Ok (where_eq (list_min x l) r) end.

(* number of elements of a shape; for cartesian_product, routines/__init__.py:55 *)
Definition lens {T} (arrays : list (list T)) : list nat := map (@length T) arrays.
(* product of a list of natural numbers, the number of rows of cartesian_product, routines/__init__.py:55 *)
Definition size (l : list nat) : nat := fold_right Nat.mul 1%nat l.
(* row r of the reshaped array: the element of the k-th array is addressed by the k-th index of r in C order;
   np.ix_ and arr[..., i] = a, routines/__init__.py:56-58 *)
Fixpoint product_row {T} (d : T) (arrays : list (list T)) (r : nat) : list T :=
  match arrays with
  | [] => []
  | a :: rest => nth ((r / size (lens rest)) mod length a) a d :: product_row d rest r
  end.
(* routines/__init__.py:52-58 cartesian_product; np.result_type() without arguments raises ValueError *)
Definition cartesian_product {T} (d : T) (arrays : list (list T)) : res (list (list T)) :=
  match arrays with
  | [] => Err ValueError
  | _ => Ok (map (product_row d arrays) (seq 0 (size (lens arrays))))
  end.

(* Python's l[:i] and l[i:], routines/__init__.py:68 *)
Definition slice_at {T} (l : list T) (i : Z) : nat :=
  if (i <? 0)%Z then Z.to_nat (Z.max 0 (Z.of_nat (length l) + i)) else Nat.min (Z.to_nat i) (length l).
(* Python's l[i], routines/__init__.py:85 *)
Definition py_get {T} (l : list T) (i : Z) : res T :=
  let n := Z.of_nat (length l) in
  if ((- n <=? i) && (i <? n))%Z then getR l (Z.to_nat (if (i <? 0)%Z then n + i else i)) else Err IndexError.
(* routines/__init__.py:67-68 insert_in_tuple *)
Definition insert_in_tuple {T} (tpl : list T) (i : Z) (v : T) : list T := firstn (slice_at tpl i) tpl ++ v :: skipn (slice_at tpl i) tpl.
(* a // b; for insert_after_in_shape, routines/__init__.py:87 *)
Definition zdiv (a b : Z) : res Z := if (b =? 0)%Z then Err ZeroDivision else Ok (a / b)%Z.
(* routines/__init__.py:83-87 insert_after_in_shape *)
Definition insert_after_in_shape (tpl : list Z) (i val : Z) : res (list Z) :=
  let i := if (i <? 0)%Z then (Z.of_nat (length tpl) + i)%Z else i in
  do t <- py_get tpl i ; do q <- zdiv t val ;
  Ok (firstn (slice_at tpl i) tpl ++ [q; val] ++ skipn (slice_at tpl (i + 1)) tpl).
(* routines/__init__.py:90-93 insert_before_in_shape *)
Definition insert_before_in_shape (tpl : list Z) (i val : Z) : res (list Z) :=
  let i := if (i <? 0)%Z then (Z.of_nat (length tpl) + i)%Z else i in
  do t <- py_get tpl i ; do q <- zdiv t val ;
  Ok (firstn (slice_at tpl i) tpl ++ [val; q] ++ skipn (slice_at tpl (i + 1)) tpl).
(* an array: its elements in C order and its shape; for split_dim, routines/__init__.py:99-116 *)
Definition arr (T : Type) := (list T * list Z)%type.
(* number of elements of a shape; for reshape, routines/__init__.py:116 *)
Definition zsize (s : list Z) : Z := fold_right Z.mul 1%Z s.
(* arr.reshape(s), no entry of s negative (a negative entry stands for the missing number of elements in numpy and counts as an
   error here); routines/__init__.py:116 *)
Definition reshape {T} (a : arr T) (s : list Z) : res (arr T) :=
  if forallb (fun d => 0 <=? d)%Z s && (zsize s =? Z.of_nat (length (fst a)))%Z then Ok (fst a, s) else Err ValueError.
(* the argument insert_at of split_dim, routines/__init__.py:96-99 *)
Inductive place := Before | After | Other.
(* routines/__init__.py:99-116 split_dim *)
Definition split_dim {T} (a : arr T) (index val : Z) (insert_at : place) : res (arr T) :=
  match insert_at with
  | Before => do s <- insert_before_in_shape (snd a) index val ; reshape a s
  | After => do s <- insert_after_in_shape (snd a) index val ; reshape a s
  | Other => Err KeyError
  end.
(* one step of add_dim, routines/__init__.py:72-75 *)
Definition add_dim_once {T} (a : arr T) (v : Z) : res (arr T) :=
  match snd a with
  | [] => Err ValueError
  | first :: other => do q <- zdiv first v ; reshape a (q :: v :: other)
  end.
(* routines/__init__.py:71-80 add_dim; `rev_val` is the tuple from its last element to its first *)
Fixpoint add_dim_rev {T} (a : arr T) (rev_val : list Z) : res (arr T) :=
  match rev_val with
  | [] => match snd a with [] => Err ValueError | _ => Err IndexError end
  | [v] => add_dim_once a v
  | v :: rest => do b <- add_dim_once a v ; add_dim_rev b rest
  end.
(* routines/__init__.py:71-80 add_dim with a tuple; an int is the tuple of one element *)
Definition add_dim {T} (a : arr T) (val : list Z) : res (arr T) := add_dim_rev a (rev val).
(* routines/__init__.py:119-120 remove_dim; the product of an empty shape is the float 1.0, which is no dimension *)
Definition remove_dim {T} (a : arr T) (count : nat) : res (arr T) :=
  match snd a with
  | [] => Err TypeError
  | _ => reshape a (zsize (firstn (count + 1) (snd a)) :: skipn (count + 1) (snd a))
  end.

(* np.cumsum(parts), routines/__init__.py:124, 128 *)
Fixpoint cumsum (acc : nat) (parts : list nat) : list nat := match parts with [] => [] | p :: r => (acc + p)%nat :: cumsum (acc + p) r end.
(* arr[lo:hi]; for np.vsplit, routines/__init__.py:128 *)
Definition rows {T} (a : list T) (lo hi : nat) : list T := firstn (hi - lo) (skipn lo a).
(* np.vsplit(arr, ixs), routines/__init__.py:128 *)
Fixpoint vsplit {T} (a : list T) (lo : nat) (ixs : list nat) : list (list T) :=
  match ixs with [] => [rows a lo (length a)] | c :: r => rows a lo c :: vsplit a c r end.
(* routines/__init__.py:123-128 split_by_parts, an array with at least two dimensions as the list of its rows *)
Definition split_by_parts {T} (a : list T) (parts : list nat) : res (list (list T)) :=
  match rev parts with
  | [] => Err IndexError
  | lastp :: _ => Ok (vsplit a 0 (cumsum 0 (if (length a <? lastp)%nat then removelast parts else parts)))
  end.

(* one coordinate of inner, routines/__init__.py:162-166 *)
Definition cubic_coord (p0 c0 c1 p1 t : Qc) : Qc :=
  p0 * ((1 - t) * (1 - t) * (1 - t)) + qn 3 * c0 * t * ((1 - t) * (1 - t)) + qn 3 * c1 * (t * t) * (1 - t) + p1 * (t * t * t).
(* routines/__init__.py:135-168 cubic_spline *)
Definition cubic_spline (p0 c0 c1 p1 : Qc * Qc) (t : Qc) : Qc * Qc :=
  (cubic_coord (fst p0) (fst c0) (fst c1) (fst p1) t, cubic_coord (snd p0) (snd c0) (snd c1) (snd p1) t).

(* np.arange(start, end, step), routines/__init__.py:171 *)
Definition arange (start stop step : Qc) : res (list Qc) :=
  if qeq step 0 then Err ZeroDivision
  else Ok (map (fun i => start + qn i * step) (seq 0 (Z.to_nat (Qceiling (this ((stop - start) / step)))))).
(* routines/__init__.py:170-172 divide_interval *)
Definition divide_interval (start stop step : Qc) : res (list (Qc * Qc)) :=
  do a <- arange start stop step ; Ok (map (fun x => (x, x + step)) a).

(* the second argument of column_concat: a number of Python (not of numpy), a vector, a matrix *)
(* routines/__init__.py:175-179 *)
Inductive cval := Scalar (x : Qc) | Vec (v : list Qc) | Mat (m : list (list Qc)).
(* np.c_[a, b], routines/__init__.py:177, 179 *)
Definition join_rows (a b : list (list Qc)) : list (list Qc) := map (fun '(r, s) => r ++ s) (combine a b).
(* routines/__init__.py:175-179 column_concat *)
Definition column_concat (a : list (list Qc)) (b : cval) : res (list (list Qc)) :=
  match b with
  | Scalar _ => Err AttributeError
  | Vec v => if (length a =? length v)%nat then Ok (join_rows a (map (fun x => [x]) v)) else Ok (join_rows a (repeat v (length a)))
  | Mat m => if (length a =? length m)%nat then Ok (join_rows a m)
             else match m with [r] => Ok (join_rows a (repeat r (length a))) | _ => Err ValueError end
  end.

(* np.mean of a group, curve_bool.py:37, 42 *)
Definition mean (l : list Qc) : Qc := fold_right Qcplus 0 l / qn (length l).
(* curve_bool.py:31-39, the loop of unique_with_tolerance: the list of values, the current group (last value first) *)
Fixpoint unique_tol_loop (tol : Qc) (vals : list Qc) (out : list Qc) (last : Qc) (group : list Qc) : list Qc :=
  match vals with
  | [] => out ++ [mean (last :: group)]
  | v :: r => if qle (fabs (v - last)) tol then unique_tol_loop tol r out v (last :: group)
              else unique_tol_loop tol r (out ++ [mean (last :: group)]) v []
  end.
(* curve_bool.py:23-44 unique_with_tolerance *)
Definition unique_with_tolerance (a : list Qc) (tol : Qc) : res (list Qc) :=
  match SortModel.qsort a with
  | [] => Err IndexError
  | x :: r => Ok (unique_tol_loop tol r [] x [])
  end.

Section Boolean.
(* a piece of a curve; curve_bool.py:47-150 *)
Variable seg : Type.
(* number of crossings of the ray from the middle of a piece: hits are the ray parameters returned by ccx; curve_bool.py:86-94, 121-129 *)
Definition crossings (hits : list Qc) : res nat :=
  match hits with
  | [] => Ok 0%nat
  | _ => do rt <- unique_with_tolerance hits (Q2Qc (1 # 100000)) ; Ok (length rt)
  end.
(* keep1 and keep2 of one piece: `inside` is len(rt) % 2; curve_bool.py:95-114, 130-148; the operation is the int of the enum *)
Definition keep (second : bool) (op : Z) (inside : bool) : res bool :=
  if (op =? 0)%Z then Ok (negb inside)
  else if (op =? 1)%Z then Ok inside
  else if (op =? 2)%Z then Ok (if second then inside else negb inside)
  else Err ValueError.
(* the loop over the pieces of one curve, curve_bool.py:83-114 and 118-148 *)
Fixpoint select (second : bool) (op : Z) (hits : seg -> list Qc) (segs : list seg) : res (list seg) :=
  match segs with
  | [] => Ok []
  | s :: r =>
      do n <- crossings (hits s) ;
      do k <- keep second op (Nat.odd n) ;
      do t <- select second op hits r ;
      Ok (if k then s :: t else t)
  end.
(* curve_bool.py:47-150 curve_boolean_operation: params are the pairs returned by ccx, split1 and split2 the pieces of the curves
   at sorted parameters, hits2 and hits1 the crossings of the ray of a piece with the other curve *)
Definition curve_boolean_operation (params : list (Qc * Qc)) (split1 split2 : list Qc -> list seg) (hits2 hits1 : seg -> list Qc) (op : Z) : res (list seg) :=
  match params with
  | [] => Err ValueError
  | _ =>
      do a <- select false op hits2 (split1 (sorted_set (map fst params))) ;
      do b <- select true op hits1 (split2 (sorted_set (map snd params))) ;
      Ok (a ++ b)
  end.
End Boolean.

