(* Model of mmcore/numeric/interval/_interval.py (class Interval).
   Bounds and scalars are exact rationals (no rounding, NaN or infinities);
   exponents are natural numbers.  __repr__, __array__, ulp, __iter__ are not
   modelled.  The in-place operators (162-180) store the result of the plain
   operator in self and are the plain operators here. *)
From Coq Require Import List ZArith Bool QArith Qcanon.
From Verif Require Import Common QcLib.
Import ListNotations.
Local Open Scope Qc_scope.

(* _interval.py:18-28 *)
Record iv := mk_iv { low : Qc; upp : Qc }.
(* _interval.py:18-28 *)
Definition point_iv (x : Qc) : iv := mk_iv x x.          (* Interval(x) *)

(* the right operand: isinstance(other, Interval) or a number  [_interval.py:18-28] *)
Inductive operand := IvOp (y : iv) | NumOp (c : Qc).

(* for mul, _interval.py:48-52 *)
Definition qmin (a b : Qc) : Qc := if qlt b a then b else a.   (* min(a, b)  [for mul, _interval.py:48-52] *)
Definition qmax (a b : Qc) : Qc := if qlt a b then b else a.   (* max(a, b) *)

(* _interval.py:33-41 __add__, __radd__ *)
Definition add (x : iv) (o : operand) : iv :=
  match o with
  | IvOp y => mk_iv (low x + low y) (upp x + upp y)
  | NumOp c => mk_iv (low x + c) (upp x + c)
  end.

(* _interval.py:43-46 __sub__ *)
Definition sub (x : iv) (o : operand) : iv :=
  match o with
  | IvOp y => mk_iv (low x - low y) (upp x - upp y)
  | NumOp c => mk_iv (low x - c) (upp x - c)
  end.

(* _interval.py:48-52 __mul__ *)
Definition mul (x : iv) (o : operand) : iv :=
  match o with
  | IvOp y =>
      let a := low x * low y in let b := low x * upp y in
      let c := upp x * low y in let d := upp x * upp y in
      mk_iv (qmin (qmin (qmin a b) c) d) (qmax (qmax (qmax a b) c) d)
  | NumOp c => mk_iv (low x * c) (upp x * c)
  end.

(* a / b on numbers  [for div, _interval.py:54-59] *)
Definition qdiv (a b : Qc) : res Qc := if qeq b 0 then Err ZeroDivision else Ok (a / b).

(* _interval.py:54-59 __truediv__ *)
Definition div (x : iv) (o : operand) : res iv :=
  match o with
  | IvOp y =>
      do a <- qdiv 1 (low y) ;
      do b <- qdiv 1 (upp y) ;
      Ok (mul x (IvOp (mk_iv (qmin a b) (qmax a b))))
  | NumOp c =>
      do a <- qdiv (low x) c ;
      do b <- qdiv (upp x) c ;
      Ok (mk_iv a b)
  end.

(* _interval.py:61-64 __contains__ *)
Definition contains (x : iv) (o : operand) : bool :=
  match o with
  | IvOp y => qle (low x) (low y) && qle (upp y) (upp x)
  | NumOp c => qle (low x) c && qle c (upp x)
  end.

(* _interval.py:8-11 Comparison, 66-74 compare *)
Inductive comparison3 := CTrue | CFalse | CMaybe.
(* _interval.py:8-11 *)
Definition compare (x : iv) (o : operand) : comparison3 :=
  match o with
  | IvOp y => if qlt (upp x) (low y) then CTrue else if qlt (upp y) (low x) then CFalse else CMaybe
  | NumOp c => if qlt (upp x) c then CTrue else CFalse
  end.

(* _interval.py:76-90 __lt__, __le__, __gt__, __ge__ *)
Definition lt (x : iv) (o : operand) : bool := match compare x o with CTrue => true | _ => false end.
(* _interval.py:76-90 *)
Definition le (x : iv) (o : operand) : bool := match compare x o with CFalse => false | _ => true end.
(* for max_args, _interval.py:146-152 *)
Definition gt (x : iv) (o : operand) : bool := match compare x o with CFalse => true | _ => false end.
(* _interval.py:76-90 *)
Definition ge (x : iv) (o : operand) : bool := match compare x o with CTrue => false | _ => true end.

(* _interval.py:94-98 *)
Definition lower (x : iv) : iv := mk_iv (low x) (low x).
(* _interval.py:94-98 *)
Definition upper (x : iv) : iv := mk_iv (upp x) (upp x).

(* _interval.py:100-114 _subdivide_step, subdivide *)
Definition half : Qc := Q2Qc (1 # 2).
(* _interval.py:100-114 *)
Definition subdivide_step (x : iv) : list iv :=
  let mid := (low x + upp x) * half in [mk_iv (low x) mid; mk_iv mid (upp x)].
(* _interval.py:100-114 *)
Fixpoint subdivide_from (steps : nat) (pieces : list iv) : list iv :=
  match steps with O => pieces | S n => subdivide_from n (flat_map subdivide_step pieces) end.
(* _interval.py:100-114 *)
Definition subdivide (x : iv) (steps : nat) : list iv := subdivide_from steps [x].

(* _interval.py:116-117 evaluate, 182-183 __float__ *)
Definition evaluate (x : iv) (t : Qc) : Qc := low x + (upp x - low x) * t.
(* _interval.py:182-183 *)
Definition to_float (x : iv) : Qc := (low x + upp x) / Q2Qc (2 # 1).

(* _interval.py:119-127 __and__, __or__; 140-141 merge *)
Definition meet (x : iv) (o : operand) : iv :=
  match o with
  | IvOp y => mk_iv (qmax (low x) (low y)) (qmin (upp x) (upp y))
  | NumOp c => mk_iv (qmax (low x) c) (qmin (upp x) c)
  end.
(* _interval.py:119-127 *)
Definition join (x : iv) (o : operand) : iv :=
  match o with
  | IvOp y => mk_iv (qmin (low x) (low y)) (qmax (upp x) (upp y))
  | NumOp c => mk_iv (qmin (low x) c) (qmax (upp x) c)
  end.
(* _interval.py:140-141 *)
Definition merge (x y : iv) : iv := mk_iv (qmin (low x) (low y)) (qmax (upp x) (upp y)).

(* _interval.py:129-138 __invert__; None stands for Interval(-inf, inf) *)
Definition invert (x : iv) : res (option iv) :=
  if qeq (low x) 0 || qeq (upp x) 0 then Err ZeroDivision
  else if qlt (low x) 0 && qlt 0 (upp x) then Ok None
  else do a <- qdiv 1 (upp x) ; do b <- qdiv 1 (low x) ; Ok (Some (mk_iv a b)).

(* _interval.py:146-152 max, min over the arguments (builtin max/min with __gt__, __lt__) *)
Definition max_args (l : list iv) : res iv :=
  match l with
  | [] => Err ValueError
  | x :: r => Ok (fold_left (fun m y => if gt y (IvOp m) then y else m) r x)
  end.
(* _interval.py:146-152 *)
Definition min_args (l : list iv) : res iv :=
  match l with
  | [] => Err ValueError
  | x :: r => Ok (fold_left (fun m y => if lt y (IvOp m) then y else m) r x)
  end.

(* _interval.py:154-159 pow, 200-204 __pow__ *)
Definition pow (x : iv) (n : nat) : iv :=
  if Nat.even n then mk_iv (qmin (low x ^ n) (upp x ^ n)) (qmax (low x ^ n) (upp x ^ n))
  else mk_iv (low x ^ n) (upp x ^ n).

(* _interval.py:185-192 from_tuple, to_tuple on (nested) tuples of numbers; the call
   cls(a, b) is not reached with two intervals only because a raises first *)
Inductive tup := Num (q : Qc) | Tup (l : list tup).
(* _interval.py:185-192 *)
Fixpoint from_tuple (t : tup) : res unit :=
  match t with
  | Num _ => Err TypeError                   (* 'float' object is not subscriptable *)
  | Tup [] => Err IndexError
  | Tup (a :: r) =>
      do _ <- from_tuple a ;
      match r with [] => Err IndexError | b :: _ => from_tuple b end
  end.
(* _interval.py:185-192 *)
Definition to_tuple (x : iv) : tup := Tup [Num (low x); Num (upp x)].
