(* Adaptive Runge-Kutta integration: Model of /repo/mmcore/numeric/integrate/rk45.pyx (lines 5-60).

   Numbers are exact rationals and vectors are lists.  The norm and the fourth root are function arguments.  The right-hand side
   f is a function argument and returns a vector of the length of its second argument.  The example at the end of the file
   (lines 63-76, executed on import) is not modelled. *)
From Coq Require Import List Arith ZArith Bool QArith Qcanon.
From Verif Require Import Common QcLib.
Import ListNotations.
Local Open Scope Qc_scope.

(* a fraction of integers, rk45.pyx:8-34 *)
Definition fr (a : Z) (b : positive) : Qc := Q2Qc (a # b).
(* vector operations of numpy, rk45.pyx:7-34 *)
Definition vadd (a b : list Qc) : list Qc := map (fun p => fst p + snd p) (combine a b).
Definition vscale (c : Qc) (a : list Qc) : list Qc := map (Qcmult c) a.
Definition vsub (a b : list Qc) : list Qc := map (fun p => fst p - snd p) (combine a b).

Section Rk.
(* the right-hand side, rk45.pyx:5 *)
Variable f : Qc -> list Qc -> list Qc.

(* rk45.pyx:6-36 rk_step *)
Definition rk_step (t : Qc) (y : list Qc) (h : Qc) : list Qc * list Qc :=
  let k1 := vscale h (f t y) in
  let k2 := vscale h (f (t + fr 1 4 * h) (vadd y (vscale (fr 1 4) k1))) in
  let k3 := vscale h (f (t + fr 3 8 * h) (vadd (vadd y (vscale (fr 3 32) k1)) (vscale (fr 9 32) k2))) in
  let k4 := vscale h (f (t + fr 12 13 * h)
    (vadd (vsub (vadd y (vscale (fr 1932 2197) k1)) (vscale (fr 7200 2197) k2)) (vscale (fr 7296 2197) k3))) in
  let k5 := vscale h (f (t + h)
    (vsub (vadd (vsub (vadd y (vscale (fr 439 216) k1)) (vscale (fr 8 1) k2)) (vscale (fr 3680 513) k3)) (vscale (fr 845 4104) k4))) in
  let k6 := vscale h (f (t + fr 1 2 * h)
    (vsub (vadd (vsub (vadd (vsub y (vscale (fr 8 27) k1)) (vscale (fr 2 1) k2)) (vscale (fr 3544 2565) k3)) (vscale (fr 1859 4104) k4))
      (vscale (fr 11 40) k5))) in
  let y4 := vsub (vadd (vadd (vadd y (vscale (fr 25 216) k1)) (vscale (fr 1408 2565) k3)) (vscale (fr 2197 4104) k4)) (vscale (fr 1 5) k5) in
  let y5 := vadd (vsub (vadd (vadd (vadd y (vscale (fr 16 135) k1)) (vscale (fr 6656 12825) k3)) (vscale (fr 28561 56430) k4))
    (vscale (fr 9 50) k5)) (vscale (fr 2 55) k6) in
  (y4, y5).

(* np.linalg.norm, rk45.pyx:50; (_) ** 0.25 of a number that is not negative, rk45.pyx:58 *)
Variable norm : list Qc -> Qc.
Variable root4 : Qc -> Qc.
(* the arguments t1, tol, hmax, hmin, rk45.pyx:5 *)
Variables t1 tol hmax hmin : Qc.

(* Python's min(a, b) and max(a, b), rk45.pyx:58 *)
Definition pmin (a b : Qc) : Qc := if qlt b a then b else a.
Definition pmax (a b : Qc) : Qc := if qlt a b then b else a.
(* rk45.pyx:58 with numpy's division: tol / 0 is inf (hmax is taken) or, when tol is 0, nan (max keeps hmin); the root of a negative
   number is nan *)
Definition next_h (error h : Qc) : Qc :=
  if qeq error 0 then (if qeq tol 0 then pmin hmax hmin else hmax)
  else if qlt (tol / error) 0 then pmin hmax hmin
  else pmin hmax (pmax hmin (fr 9 10 * h * root4 (tol / error))).
(* rk45.pyx:45-58, the loop *)
Fixpoint rk_loop (fuel : nat) (t : Qc) (y : list Qc) (h : Qc) (vt : list Qc) (vy : list (list Qc)) : res (list Qc * list (list Qc)) :=
  match fuel with
  | O => Err OutOfFuel
  | S fuel' =>
      if qlt t t1 then
        let h := if qlt t1 (t + h) then t1 - t else h in
        let '(y4, y5) := rk_step t y h in
        let error := norm (vsub y5 y4) in
        if qle error tol then rk_loop fuel' (t + h) y5 (next_h error h) (vt ++ [t + h]) (vy ++ [y5])
        else rk_loop fuel' t y (next_h error h) vt vy
      else Ok (vt, vy)
  end.
(* rk45.pyx:5-60 rk45_vector *)
Definition rk45_vector (fuel : nat) (t0 : Qc) (y0 : list Qc) : res (list Qc * list (list Qc)) := rk_loop fuel t0 y0 hmax [] [].
End Rk.
