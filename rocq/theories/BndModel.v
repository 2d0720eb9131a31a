(* Bounded minimisation: Model of /repo/mmcore/numeric/newton/bounded.py (line searches, project_to_bounds,
   bounded_newtons_method).

   Points are lists of exact rationals; the objective f, its gradient grad, the Hessian hess, the norm scalar_norm and the
   matrix inverse np.linalg.inv (None for LinAlgError) are arguments.  Sums of two vectors stop at the shorter one as zip does;
   the theorems about NumPy arrays ask for equal lengths.  The constants 1e-4, 0.9, 1e20 are exact.  Warnings and the
   full_return tuples are not modelled. *)
From Coq Require Import List Arith ZArith Bool QArith Qcanon.
From Verif Require Import Common QcLib.
Import ListNotations.
Local Open Scope Qc_scope.

Definition vec := list Qc.
(* elementwise operation; for project_to_bounds, bounded.py:193-199 *)
Fixpoint map2 (g : Qc -> Qc -> Qc) (a b : vec) : vec :=
  match a, b with x :: a', y :: b' => g x y :: map2 g a' b' | _, _ => [] end.
(* min and max of two numbers; for project_to_bounds, bounded.py:193-199 *)
Definition qmin (a b : Qc) : Qc := if qlt b a then b else a.
Definition qmax (a b : Qc) : Qc := if qlt a b then b else a.
(* sum(di * gi for di, gi in zip(d, g)), np.dot; for line_search, bounded.py:202-255 *)
Definition vdot (a b : vec) : Qc := fold_left Qcplus (map2 Qcmult a b) 0.
(* x + alpha * d; for line_search, bounded.py:202-255 *)
Definition move (x : vec) (alpha : Qc) (d : vec) : vec := map2 (fun xi di => xi + alpha * di) x d.
(* abs, bounded.py:234 *)
Definition qabs (x : Qc) : Qc := if qlt x 0 then - x else x.

(* bounded.py:193-199 project_to_bounds *)
Definition project_to_bounds (x lower upper : vec) : vec := map2 qmin (map2 qmax x lower) upper.

(* defaults, bounded.py:107, 202 *)
Definition c1_default : Qc := Q2Qc (1 # 10 ^ 4).
Definition c2_default : Qc := Q2Qc (9 # 10).
Definition half : Qc := Q2Qc (1 # 2).
Definition alpha_max : Qc := Q2Qc (inject_Z (10 ^ 20)).

Section Search.
Variables (f : vec -> Qc) (grad : vec -> vec).

(* bounded.py:92-104 line_search_backtrack *)
Fixpoint backtrack (k : nat) (x dx : vec) (f0 dd alpha : Qc) : vec * bool :=
  match k with
  | O => (x, false)
  | S k' => let trial := move x alpha dx in
            if qle (f trial) (f0 + c1_default * alpha * dd) then (trial, true) else backtrack k' x dx f0 dd (alpha * half)
  end.
Definition line_search_backtrack (x dx : vec) (alpha_init : Qc) (max_iter : nat) : vec * bool :=
  backtrack max_iter x dx (f x) (vdot (grad x) dx) alpha_init.

(* The two strong Wolfe searches, bounded.py:107-162 and 202-255, and their zooms, 165-187 and 258-279, differ only in the
   trial point: at x + alpha d for the first, projected to the bounds for the second.  `at_` is that point *)
Variable at_ : Qc -> vec.
Variables (d : vec) (f0 dd : Qc) (c1 c2 : Qc).
(* bounded.py:165-187 _line_search_zoom_wolfe, 258-279 _line_search_zoom; k turns are left *)
Fixpoint zoom (k : nat) (lo hi : Qc) : Qc * vec * bool :=
  match k with
  | O => (lo, at_ lo, false)
  | S k' =>
      let aj := half * (lo + hi) in
      let xj := at_ aj in
      let fj := f xj in
      let flo := f (at_ lo) in
      if qlt (f0 + c1 * aj * dd) fj || qle flo fj then zoom k' lo aj
      else let ddj := vdot d (grad xj) in
           if qle (qabs ddj) (- c2 * dd) then (aj, xj, true)
           else zoom k' aj (if qle 0 (ddj * (hi - lo)) then lo else hi)
  end.
(* bounded.py:138-162, 229-255, the loop; k turns are left, first is i = 0 *)
Fixpoint search (k : nat) (first : bool) (a_prev a f_prev : Qc) : Qc * vec * bool :=
  match k with
  | O => (a, at_ a, false)
  | S k' =>
      let xn := at_ a in
      let fn := f xn in
      if qlt (f0 + c1 * a * dd) fn || (negb first && qle f_prev fn) then zoom 20 a_prev a
      else let ddn := vdot d (grad xn) in
           if qle (qabs ddn) (- c2 * dd) then (a, xn, true)
           else if qle 0 ddn then zoom 20 a a_prev
           else search k' false a (qmin (a * Q2Qc (2 # 1)) alpha_max) fn
  end.
End Search.

(* bounded.py:107-162 line_search_strong_wolfe with f0 = g0 = None *)
Definition line_search_strong_wolfe (f : vec -> Qc) (grad : vec -> vec) (x d : vec) (c1 c2 : Qc) (max_iter : nat) : Qc * vec * bool :=
  let f0 := f x in
  let dd := vdot d (grad x) in
  if qle 0 dd then (0, x, false)
  else search f grad (fun a => move x a d) d f0 dd c1 c2 max_iter true 0 1 f0.
(* bounded.py:202-255 line_search *)
Definition line_search (f : vec -> Qc) (grad : vec -> vec) (x d lower upper : vec) (c1 c2 : Qc) (max_iter : nat) : Qc * vec * bool :=
  let f0 := f x in
  let dd := vdot d (grad x) in
  if qle 0 dd then (0, x, false)
  else search f grad (fun a => project_to_bounds (move x a d) lower upper) d f0 dd c1 c2 max_iter true 0 1 f0.

(* H @ g and -v; for bounded_newtons_method, bounded.py:329-375 *)
Definition matvec (m : list vec) (v : vec) : vec := map (fun r => vdot r v) m.
Definition vneg (v : vec) : vec := map Qcopp v.
Definition vsub (a b : vec) : vec := map2 (fun x y => x - y) a b.
(* np.eye(n); for bounded_newtons_method, bounded.py:343, 350 *)
Definition eye (n : nat) : list vec := map (fun i => map (fun j => if (i =? j)%nat then 1 else 0) (seq 0 n)) (seq 0 n).
(* H + np.eye(n) * 1e-12, bounded.py:343 *)
Definition regular (H : list vec) : list vec :=
  map (fun re => map2 (fun h e => h + e * Q2Qc (1 # 10 ^ 12)) (fst re) (snd re)) (combine H (eye (length H))).

Section Newton.
Variables (f : vec -> Qc) (grad : vec -> vec) (hess : vec -> list vec) (norm : vec -> Qc) (inverse : list vec -> option (list vec)).
Variables (lower upper : vec) (tol step_tol gtol : Qc) (min_value : option Qc).
(* bounded.py:338-351 *)
Definition inverse_or (H : list vec) (n : nat) : list vec :=
  match inverse H with
  | Some m => m
  | None => match inverse (regular H) with Some m => m | None => eye n end
  end.
(* bounded.py:329-375, the loop; k turns are left; the value None is the iteration limit *)
Fixpoint newton_loop (k : nat) (point : vec) : option vec :=
  match k with
  | O => None
  | S k' =>
      let g := grad point in
      let H := hess point in
      if qlt (norm g) gtol then Some point
      else
        let direction := vneg (matvec (inverse_or H (length point)) g) in
        let '(_, np, ok) := line_search f grad point direction lower upper c1_default c2_default 20 in
        let next := if ok then Some np
                    else let '(_, np', ok') := line_search f grad point (vneg g) lower upper c1_default c2_default 20 in
                         if ok' then Some np' else None in
        match next with
        | None => Some point
        | Some np =>
            if match min_value with Some m => qlt (f point - m) tol | None => false end then Some np
            else if qlt (norm (vsub np point)) step_tol then Some np
            else newton_loop k' np
        end
  end.
End Newton.
(* bounded.py:282-381 bounded_newtons_method with full_return = False; an empty list of bounds cannot be unpacked *)
Definition bounded_newtons_method (f : vec -> Qc) (initial : vec) (bounds : list (Qc * Qc)) (grad : vec -> vec) (hess : vec -> list vec)
    (norm : vec -> Qc) (inverse : list vec -> option (list vec)) (tol step_tol gtol : Qc) (max_iter : nat) (min_value : option Qc) : res (option vec) :=
  match bounds with
  | [] => Err ValueError
  | _ => let lower := map fst bounds in
         let upper := map snd bounds in
         Ok (newton_loop f grad hess norm inverse lower upper tol step_tol gtol min_value max_iter (project_to_bounds initial lower upper))
  end.
