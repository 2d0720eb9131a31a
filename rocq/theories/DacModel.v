(* Model of mmcore/numeric/divide_and_conquer.py (the searches; find_all_minima
   and test_all_roots, which call newtons_method and scipy's bisect, are not
   modelled) and of mmcore/numeric/bisection.py (without the scipy wrapper).

   Functions are total maps on exact rationals.  Loops and recursions without a
   bound take fuel; running out of it is OutOfFuel. *)
From Coq Require Import List Arith ZArith Bool QArith Qcanon.
From Verif Require Import Common QcLib SumLib BezModel.
Import ListNotations.
Open Scope Qc_scope.

(* for recursive_min, divide_and_conquer.py:13-55 *)
Definition q2 : Qc := Q2Qc 2.
(* for recursive_min, divide_and_conquer.py:13-55 *)
Definition q4 : Qc := Q2Qc 4.
(* for iterative_min, divide_and_conquer.py:103-136 *)
Definition q_abs (x : Qc) : Qc := if qlt x 0 then - x else x.
(* max(a, b) and min(a, b)  [for window, divide_and_conquer.py:210-216] *)
Definition py_max (a b : Qc) : Qc := if qlt a b then b else a.
(* for window, divide_and_conquer.py:210-216 *)
Definition py_min (a b : Qc) : Qc := if qlt b a then b else a.

(* divide_and_conquer.py:13-55 recursive_divide_and_conquer_min *)
Fixpoint recursive_min (fuel : nat) (f : Qc -> Qc) (low high tol : Qc) : res (Qc * Qc) :=
  match fuel with
  | O => Err OutOfFuel
  | S n =>
      if qlt (high - low) tol then let x := (low + high) / q2 in Ok (x, f x)
      else let m1 := low + (high - low) / q4 in let m2 := high - (high - low) / q4 in
           if qlt (f m1) (f m2) then recursive_min n f low m2 tol else recursive_min n f m1 high tol
  end.
(* divide_and_conquer.py:58-100 recursive_divide_and_conquer_max *)
Fixpoint recursive_max (fuel : nat) (f : Qc -> Qc) (low high tol : Qc) : res (Qc * Qc) :=
  match fuel with
  | O => Err OutOfFuel
  | S n =>
      if qlt (high - low) tol then let x := (low + high) / q2 in Ok (x, f x)
      else let m1 := low + (high - low) / q4 in let m2 := high - (high - low) / q4 in
           if qlt (f m2) (f m1) then recursive_max n f low m2 tol else recursive_max n f m1 high tol
  end.
(* divide_and_conquer.py:103-136 iterative_divide_and_conquer_min *)
Fixpoint iterative_min (fuel : nat) (f : Qc -> Qc) (low high tol : Qc) : res (Qc * Qc) :=
  match fuel with
  | O => Err OutOfFuel
  | S n =>
      if qle tol (q_abs (high - low)) then
        let m1 := low + (high - low) / q4 in let m2 := high - (high - low) / q4 in
        if qlt (f m1) (f m2) then iterative_min n f low m2 tol else iterative_min n f m1 high tol
      else let x := (low + high) / q2 in Ok (x, f x)
  end.
(* divide_and_conquer.py:146-165 recursive_divide_and_conquer_roots *)
Fixpoint recursive_roots (fuel : nat) (f : Qc -> Qc) (low high tol : Qc) : res (list (Qc * Qc)) :=
  match fuel with
  | O => Err OutOfFuel
  | S n =>
      if qlt (q_abs (high - low)) tol then let x := (low + high) / q2 in Ok [(x, f x)]
      else let m1 := low + (high - low) / q2 in let m2 := high - (high - low) / q2 in
           if qlt (q_abs (f m1)) (q_abs (f m2)) then recursive_roots n f low m2 tol else recursive_roots n f m1 high tol
  end.

(* ---- searches in several variables ----  [for window, divide_and_conquer.py:210-216] *)
Definition box := list (Qc * Qc).
(* for search, divide_and_conquer.py:210-216 *)
Definition middle (lh : Qc * Qc) : Qc := (fst lh + snd lh) / q2.
(* min(candidates, key=...): the first of the smallest  [for best_of, divide_and_conquer.py:210-216] *)
Fixpoint first_min (f : list Qc -> Qc) (best : list Qc) (l : list (list Qc)) : list Qc :=
  match l with [] => best | c :: r => first_min f (if qlt (f c) (f best) then c else best) r end.
(* for search, divide_and_conquer.py:210-216 *)
Definition best_of (f : list Qc -> Qc) (l : list (list Qc)) : res (list Qc) :=
  match l with [] => Err ValueError | c :: r => Ok (first_min f c r) end.
(* divide_and_conquer.py:210-216: a window of half the width around the best, clipped to the range *)
Fixpoint window (c : list Qc) (b range : box) : box :=
  match c, b, range with
  | x :: c', (lo, hi) :: b', (r0, r1) :: r' =>
      (py_max (x - (hi - lo) / q4) r0, py_min (x + (hi - lo) / q4) r1) :: window c' b' r'
  | _, _, _ => []
  end.
(* the loop shared by the searches below; cands lists the points looked at  [divide_and_conquer.py:210-216] *)
Fixpoint search (fuel : nat) (cands : box -> list (list Qc)) (f : list Qc -> Qc) (range : box) (tol : Qc) (b : box) : res (list Qc) :=
  match fuel with
  | O => Err OutOfFuel
  | S n =>
      if existsb (fun lh => qlt tol (snd lh - fst lh)) b then
        do c <- best_of f (cands b) ; search n cands f range tol (window c b range)
      else Ok (map middle b)
  end.

(* divide_and_conquer.py:169-217 divide_and_conquer_min_2d: corners, edge middles, centre *)
Definition cands_2d (b : box) : list (list Qc) :=
  match b with
  | [(x0, x1); (y0, y1)] =>
      let xm := middle (x0, x1) in let ym := middle (y0, y1) in
      [[x0; y0]; [x1; y0]; [x0; y1]; [x1; y1]; [xm; y0]; [xm; y1]; [x0; ym]; [x1; ym]; [xm; ym]]
  | _ => []
  end.
(* divide_and_conquer.py:169-217 *)
Definition min_2d (fuel : nat) (f : list Qc -> Qc) (range : box) (tol : Qc) : res (list Qc) := search fuel cands_2d f range tol range.

(* divide_and_conquer.py:282-366 divide_and_conquer_min_3d: 19 of the 27 grid points *)
Definition cands_3d (b : box) : list (list Qc) :=
  match b with
  | [(x0, x1); (y0, y1); (z0, z1)] =>
      let xm := middle (x0, x1) in let ym := middle (y0, y1) in let zm := middle (z0, z1) in
      [[x0; y0; z0]; [x1; y0; z0]; [x0; y1; z0]; [x1; y1; z0]; [x0; y0; z1]; [x1; y0; z1]; [x0; y1; z1]; [x1; y1; z1];
       [xm; y0; z0]; [xm; y1; z0]; [x0; ym; z0]; [x1; ym; z0]; [xm; ym; z0];
       [x0; y0; zm]; [x1; y0; zm]; [x0; y1; zm]; [x1; y1; zm]; [xm; ym; z1]; [xm; ym; zm]]
  | _ => []
  end.
(* divide_and_conquer.py:282-366 *)
Definition min_3d (fuel : nat) (f : list Qc -> Qc) (range : box) (tol : Qc) : res (list Qc) := search fuel cands_3d f range tol range.

(* divide_and_conquer.py:369-424 divide_and_conquer_min_nd *)
Fixpoint corners (n : nat) : list (list bool) :=
  match n with O => [[]] | S m => map (cons false) (corners m) ++ map (cons true) (corners m) end.
(* for cands_nd, divide_and_conquer.py:369-424 *)
Definition at_corner (b : box) (k : list bool) : list Qc :=
  map (fun ik => if (snd ik : bool) then snd (fst ik) else fst (fst ik)) (combine b k).
(* divide_and_conquer.py:369-424 *)
Definition cands_nd (b : box) : list (list Qc) :=
  match b with
  | [(x0, x1); (y0, y1)] =>
      let px := [middle (x0, x1); y0] in let py := [x0; middle (y0, y1)] in [px; px; py; py]
  | [(x0, x1); (y0, y1); (z0, z1)] =>
      map (fun k => match k with [k0; k1] => at_corner b [k0; k1; k0] | _ => [] end) (corners 2)
  | _ => map (at_corner b) (corners (length b))
  end.
(* divide_and_conquer.py:369-424 *)
Definition min_nd (fuel : nat) (f : list Qc -> Qc) (range : box) (tol : Qc) : res (list Qc) := search fuel cands_nd f range tol range.

(* ---- bisection.py ---- *)
(* bisection.py:17-39 bisection1d: state x, sign, roots, minimum (None = inf) *)
Fixpoint scan_1d (fuel : nat) (f : Qc -> Qc) (step stop x : Qc) (sign : bool) (roots : list (Qc * Qc)) (mn : option Qc) : res (list (Qc * Qc) * option Qc) :=
  match fuel with
  | O => Err OutOfFuel
  | S n =>
      if qle x stop then
        let value := f x in
        let mn' := match mn with None => Some value | Some m => if qlt value m then Some value else mn end in
        let roots' := if qeq value 0 then roots ++ [(x, value)]
                      else if negb (Bool.eqb (qlt 0 value) sign) then roots ++ [(x, value)] else roots in
        scan_1d n f step stop (x + step) (qlt 0 value) roots' mn'
      else Ok (roots, mn)
  end.
(* bisection.py:17-39 *)
Definition bisection1d (fuel : nat) (f : Qc -> Qc) (step start stop : Qc) : res (list (Qc * Qc) * option Qc) :=
  scan_1d fuel f step stop start (qlt 0 (f start)) [] None.

(* bisection.py:45-86 bisection_2d; None when both corners have the same sign *)
Fixpoint bisect_loop (fuel : nat) (f : Qc -> Qc -> Qc) (x0 x1 y0 y1 tol : Qc) : res (Qc * Qc) :=
  match fuel with
  | O => Err OutOfFuel
  | S n =>
      if qlt tol ((x1 - x0) / q2) || qlt tol ((y1 - y0) / q2) then
        let xm := (x0 + x1) / q2 in let ym := (y0 + y1) / q2 in
        let fm := f xm ym in
        if qlt (f x0 y0 * fm) 0 then bisect_loop n f x0 xm y0 ym tol
        else if qlt (f x1 y0 * fm) 0 then bisect_loop n f xm x1 y0 ym tol
        else if qlt (f x0 y1 * fm) 0 then bisect_loop n f x0 xm ym y1 tol
        else if qlt (f x1 y1 * fm) 0 then bisect_loop n f xm x1 ym y1 tol
        else
          let (x0', x1') := if qlt (q_abs (f x0 ym)) (q_abs (f x1 ym)) then (x0, xm) else (xm, x1) in
          (* the second test reads x_mid, y_min, y_max, unchanged by the first *)
          let (y0', y1') := if qlt (q_abs (f xm y0)) (q_abs (f xm y1)) then (y0, ym) else (ym, y1) in
          bisect_loop n f x0' x1' y0' y1' tol
      else Ok ((x0 + x1) / q2, (y0 + y1) / q2)
  end.
(* bisection.py:45-86 *)
Definition bisection_2d (fuel : nat) (f : Qc -> Qc -> Qc) (x_range y_range : Qc * Qc) (tol : Qc) : res (option (Qc * Qc)) :=
  let (x0, x1) := x_range in let (y0, y1) := y_range in
  if qlt 0 (f x0 y0 * f x1 y1) then Ok None
  else do p <- bisect_loop fuel f x0 x1 y0 y1 tol ; Ok (Some p).

(* bisection.py:89-104 scalar_min_1d.  np.linspace(start, end, divs); np.isclose(res, m) is
   |res - m| <= 1e-8 + 1e-5 * |m|; t[-1] is the last sample *)
Definition linspace (a b : Qc) (n : nat) : list Qc :=
  tab n (fun i => a + zq (Z.of_nat i) * ((b - a) / zq (Z.of_nat (n - 1)))).
(* for scalar_min_1d, bisection.py:89-104 *)
Definition isclose (x m : Qc) : bool := qle (q_abs (x - m)) (Q2Qc (1 # 100000000) + Q2Qc (1 # 100000) * q_abs m).
(* for scalar_min_1d, bisection.py:89-104 *)
Fixpoint list_min (m : Qc) (l : list Qc) : Qc := match l with [] => m | x :: r => list_min (if qlt x m then x else m) r end.
(* for scalar_min_1d, bisection.py:89-104 *)
Fixpoint first_index {A} (p : A -> bool) (l : list A) (i : nat) : option nat :=
  match l with [] => None | x :: r => if p x then Some i else first_index p r (S i) end.
(* for scalar_min_1d, bisection.py:89-104 *)
Definition last_index (i : nat) (n : nat) : nat := match i with O => (n - 1)%nat | S j => j end.
(* bisection.py:89-104 *)
Fixpoint scalar_min_1d (fuel : nat) (f : Qc -> Qc) (start stop step : Qc) (divs : nat) : res Qc :=
  match fuel with
  | O => Err OutOfFuel
  | S n =>
      let t := linspace start stop divs in
      match map f t with
      | [] => Err ValueError
      | r0 :: rs =>
          let m := list_min r0 rs in
          match first_index (fun x => isclose x m) (r0 :: rs) 0 with
          | None => Err IndexError
          | Some i =>
              do t0 <- getR t 0 ; do t1 <- getR t 1 ;
              if qle (q_abs (t0 - t1)) step then getR t i
              else do a <- getR t (last_index i divs) ; do b <- getR t (i + 1) ; scalar_min_1d n f a b step divs
          end
      end
  end.
