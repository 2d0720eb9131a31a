(* Newton's method with a constraint, colours, the segments of a spline, the shape of a grid of control points and the implicit form
   of a curve: Model of /repo/mmcore/numeric/newton/__init__.py (lines 10-86), /repo/mmcore/geom/materials/__init__.py (lines 15-122),
   /repo/mmcore/geom/curves/spline.py (lines 16-32), /repo/mmcore/geom/utils.py and /repo/mmcore/geom/curves/implicitly.py.

   Numbers are exact rationals, vectors are lists.  np.linalg.inv is a function argument, None stands for LinAlgError; gradient and
   hessian (mmcore/numeric/fdm.py), the norm, point_inversion_curve and the evaluation of curves are function arguments.  A
   hexadecimal digit is its value; colour components in hexadecimal are not negative.  Warnings and printing are left out, except
   that the text of the last warning reads new_point. *)
From Coq Require Import List Arith ZArith Bool QArith Qcanon Qround.
From Verif Require Import Common QcLib ListLib RtModel.
Import ListNotations.
Local Open Scope Qc_scope.

(* vector operations of numpy, newton/__init__.py:60-65 *)
Definition nadd (a b : list Qc) : list Qc := map (fun p => fst p + snd p) (combine a b).
Definition nsub (a b : list Qc) : list Qc := map (fun p => fst p - snd p) (combine a b).
Definition nscale (c : Qc) (a : list Qc) : list Qc := map (Qcmult c) a.
Definition ndot (a b : list Qc) : Qc := fold_right Qcplus 0 (map (fun p => fst p * snd p) (combine a b)).
Definition mapply (m : list (list Qc)) (v : list Qc) : list Qc := map (fun r => ndot r v) m.
Definition madd (a b : list (list Qc)) : list (list Qc) := map (fun p => nadd (fst p) (snd p)) (combine a b).

Section Newton.
(* np.linalg.inv and scalar_norm, newton/__init__.py:47, 72 *)
Variable inv : list (list Qc) -> option (list (list Qc)).
Variable norm : list Qc -> Qc.
(* gradient and hessian of fdm, newton/__init__.py:3 *)
Variable gradient : (list Qc -> Qc) -> list Qc -> list Qc.
Variable hessian : (list Qc -> Qc) -> list Qc -> list (list Qc).
(* what is returned, newton/__init__.py:70-71, 84-86 *)
Inductive nresult := NPoint (p : list Qc) | NFull (p : option (list Qc)) (gF : list Qc) (hF hi : list (list Qc)) (k : nat).
(* newton/__init__.py:79-86 after the loop; `bound` holds new_point, grad_F and H_F once they are bound, hi holds H_inv_f *)
Definition nfinish (no_warn full : bool) (max_iter : nat) (point : list Qc) (bound : option (list Qc * list Qc * list (list Qc))) (hi : option (list (list Qc))) : res nresult :=
  if negb no_warn && (match bound with None => true | _ => false end) then Err NameError
  else if full then
    match bound, hi with
    | Some (_, gF, hF), Some h => Ok (NFull None gF hF h max_iter)
    | _, _ => Err NameError
    end
  else Ok (NPoint point).
(* newton/__init__.py:40-77 the loop: n iterations are left, k is the loop variable *)
Fixpoint nloop (grad : list Qc -> list Qc) (hess : list Qc -> list (list Qc)) (g : list Qc -> Qc) (tol lam : Qc) (no_warn full : bool) (max_iter : nat)
    (n k : nat) (point : list Qc) (bound : option (list Qc * list Qc * list (list Qc))) (hi : option (list (list Qc))) : res nresult :=
  match n with
  | O => nfinish no_warn full max_iter point bound hi
  | S n' =>
      let grad_f := grad point in
      let grad_g := gradient g point in
      let H_f := hess point in
      let H_g := hessian g point in
      match inv H_f with
      | None => nfinish no_warn full max_iter point bound hi
      | Some H_inv_f =>
          match inv H_g with
          | None => nfinish no_warn full max_iter point bound (Some H_inv_f)
          | Some _ =>
              let grad_F := nsub grad_f (nscale lam grad_g) in
              let H_F := madd H_f (map (nscale lam) H_g) in
              let step := mapply H_inv_f grad_F in
              let new_point := nsub point step in
              if qlt (ndot step step) tol then Ok (if full then NFull (Some new_point) grad_F H_F H_inv_f k else NPoint new_point)
              else if qlt (norm (nsub point new_point)) tol then Ok (if full then NFull (Some new_point) grad_F H_F H_inv_f k else NPoint new_point)
              else nloop grad hess g tol lam no_warn full max_iter n' (k + 1) new_point (Some (new_point, grad_F, H_F)) (Some H_inv_f)
          end
      end
  end.
(* newton/__init__.py:10-86 newtons_method_with_constraints *)
Definition newton_constrained (f g : list Qc -> Qc) (p0 : list Qc) (tol : Qc) (max_iter : nat) (no_warn full : bool) (grad : option (list Qc -> list Qc))
    (hess : option (list Qc -> list (list Qc))) (lam : Qc) : res nresult :=
  nloop (match grad with Some d => d | None => gradient f end) (match hess with Some h => h | None => hessian f end) g tol lam no_warn full max_iter max_iter 0 p0 None None.
End Newton.

(* an argument of ColorRGB, materials/__init__.py:33 *)
Inductive cval := CI (k : Z) | CF (x : Qc).
(* the value in an array of floats, materials/__init__.py:38 *)
Definition cfloat (v : cval) : Qc := match v with CI k => Q2Qc (inject_Z k) | CF x => x end.
(* np.round: to the nearest integer, halves to the even one; materials/__init__.py:39 *)
Definition round_even (x : Qc) : Z :=
  let f := Qfloor (this x) in
  let d := x - Q2Qc (inject_Z f) in
  if qlt d (Q2Qc (1 # 2)) then f else if qlt (Q2Qc (1 # 2)) d then (f + 1)%Z else if Z.even f then f else (f + 1)%Z.
(* a colour: the components of the tuple and r, g, b; materials/__init__.py:34-35 *)
Record color := { c_tuple : list Z; c_r : Z; c_g : Z; c_b : Z }.
(* the values of a list of ints, None as soon as one is a float; materials/__init__.py:33 *)
Fixpoint all_ints (l : list cval) : option (list Z) :=
  match l with
  | [] => Some []
  | CI k :: r => match all_ints r with Some s => Some (k :: s) | None => None end
  | CF _ :: _ => None
  end.
(* materials/__init__.py:29-43 ColorRGB.__new__; `args` are the components (given singly or as one sequence) *)
Definition color_new (args : list cval) : res color :=
  match all_ints args with
  | Some l =>
      match firstn 3 l with
      | [r; g; b] => Ok {| c_tuple := l; c_r := r; c_g := g; c_b := b |}
      | _ => Err ValueError
      end
  | None =>
      let dd := map (fun v => round_even (cfloat v * Q2Qc (inject_Z 255))) args in
      match dd with
      | [r; g; b] => Ok {| c_tuple := dd; c_r := r; c_g := g; c_b := b |}
      | _ => Err ValueError
      end
  end.
(* materials/__init__.py:45-47 rgb_0to1 *)
Definition rgb_0to1 (c : color) : list Qc := map (fun k => Q2Qc (inject_Z k) / Q2Qc (inject_Z 255)) [c_r c; c_g c; c_b c].
(* the hexadecimal digits of a number; materials/__init__.py:67 *)
Fixpoint digits (fuel n : nat) : list nat :=
  match fuel with
  | O => []
  | S fuel' => if (n <? 16)%nat then [n] else digits fuel' (n / 16) ++ [(n mod 16)%nat]
  end.
(* "%02x"; materials/__init__.py:67 *)
Definition hex2 (n : nat) : list nat := let d := digits (S n) n in if (length d <? 2)%nat then 0%nat :: d else d.
(* materials/__init__.py:66-67 hex *)
Definition hex (r g b : nat) : list nat := hex2 r ++ hex2 g ++ hex2 b.
(* int(s, 16); materials/__init__.py:55, 109 *)
Definition from_digits (l : list nat) : res nat := match l with [] => Err ValueError | _ => Ok (fold_left (fun a d => (16 * a + d)%nat) l 0%nat) end.
(* materials/__init__.py:53-55 decimal and 121-122 rgb_to_three_decimal *)
Definition decimal (r g b : nat) : res nat := from_digits (hex r g b).
(* materials/__init__.py:106-109 from_hex, the leading # removed *)
Definition from_hex (h : list nat) : res (nat * nat * nat) :=
  do r <- from_digits (firstn 2 h) ; do g <- from_digits (firstn 2 (skipn 2 h)) ; do b <- from_digits (firstn 2 (skipn 4 h)) ; Ok (r, g, b).

(* spline.py:16-32 spline_curve_bvh up to build_bvh: the segments with their parameter intervals; the count is given or ceil(end - start) * degree *)
Definition spline_segments {P} (curve : Qc -> P) (lo hi : Qc) (degree : Z) (count : option Z) : res (list ((P * P) * (Qc * Qc))) :=
  let n := match count with Some k => k | None => (Qceiling (this (hi - lo)%Qc) * degree)%Z end in
  if (n <? 0)%Z then Err ValueError
  else
    let k := Z.to_nat n in
    let t := linspace lo hi (k + 1) in
    let pts := map curve t in
    Ok (map (fun i => ((nth i pts (curve lo), nth (i + 1) pts (curve lo)), (nth i t lo, nth (i + 1) t lo))) (seq 0 k)).

(* geom/utils.py:4-49 control_points_grid_shape *)
Definition grid_shape (nu nv du dv n : Z) : res (Z * Z) :=
  let u := (nu - du - 1)%Z in
  let v := (nv - dv - 1)%Z in
  if (u * v =? n)%Z then Ok (u, v) else Err ValueError.

(* np.argmin; for ImplicitlyCurve.__call__, implicitly.py:24 *)
Fixpoint argmin_from (best : nat) (bv : Qc) (i : nat) (l : list Qc) : nat :=
  match l with [] => best | x :: r => if qlt x bv then argmin_from i x (i + 1) r else argmin_from best bv (i + 1) r end.
Definition argmin (l : list Qc) : res nat := match l with [] => Err ValueError | x :: r => Ok (argmin_from 0 x 1 r) end.
(* implicitly.py:18-29 ImplicitlyCurve: dist, grad and t *)
Definition implicit_curve (norm : list Qc -> Qc) (inversion : list Qc -> Qc -> Qc) (curve : Qc -> list Qc) (lo hi : Qc) (xyz : list Qc) : res (Qc * list Qc * Qc) :=
  let t := linspace lo hi 100 in
  let drs := map (fun s => nsub xyz (curve s)) t in
  do ix <- argmin (map (fun d => ndot d d) drs) ;
  let t_on := inversion xyz (nth ix t lo) in
  let grad := nsub (curve t_on) xyz in
  Ok (norm grad, grad, t_on).
