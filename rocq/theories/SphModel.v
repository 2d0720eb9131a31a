(* Separation on the sphere and Newton's method for systems and constrained problems: Model of
   /repo/mmcore/numeric/intersection/separability/spherical.py (lines 19-241) and of /repo/mmcore/numeric/newton/constrained.py (lines 9-34, 137-197).

   Numbers are exact rationals.  The angle arctan2, the number 2 pi, norms, np.linalg.solve (None for LinAlgError) and linprog are arguments.
   A vector that is not a number is None.  Printing and warnings are left out. *)
From Coq Require Import List Arith ZArith Bool QArith Qcanon.
From Verif Require Import Common QcLib ListLib SortModel NcsModel MchModel.
Import ListNotations.
Local Open Scope Qc_scope.

(* np.diff, spherical.py:23 *)
Fixpoint diffs (l : list Qc) : list Qc := match l with a :: ((b :: _) as r) => (b - a) :: diffs r | _ => [] end.
(* spherical.py:19-31 find_smallest_wedge, given the angles of the points *)
Definition wedge (two_pi : Qc) (angles : list Qc) : res (Qc * Qc) :=
  match angles with
  | [] => Err IndexError
  | _ =>
      let s := qsort angles in
      let d := diffs s ++ [two_pi - last s 0 + hd 0 s] in
      do g <- argmin (map Qcopp d) ;
      Ok (nth g s 0, nth ((g + 1) mod length s)%nat s 0)
  end.
(* spherical.py:51-53 the wedges are separated *)
Definition wedges_apart (w1 w2 : Qc * Qc) : bool :=
  let '(s1, e1) := w1 in let '(s2, e2) := w2 in (qlt e1 s2 && qlt s1 e2) || (qlt e2 s1 && qlt s2 e1).
(* spherical.py:34-56 spherical_bounding_box_test; the angles of the two sets about the three axes *)
Fixpoint box_test (two_pi : Qc) (axes : list (list Qc * list Qc)) : res bool :=
  match axes with
  | [] => Ok false
  | (a1, a2) :: r => do w1 <- wedge two_pi a1 ; do w2 <- wedge two_pi a2 ; if wedges_apart w1 w2 then Ok true else box_test two_pi r
  end.
(* the constraints A_ub x <= b_ub of spherical.py:67-73 for the points on the sphere; x is a normal and a number *)
Definition circle_constraints (points1 points2 : list p3) (x : p3 * Qc) : bool :=
  forallb (fun p => qle (- dot3 p (fst x) + - snd x) 0) points1 && forallb (fun p => qle (dot3 p (fst x) + - snd x) 0) points2.
(* the default bounds of linprog, spherical.py:77 *)
Definition circle_bounds (x : p3 * Qc) : bool := qle 0 (fst (fst (fst x))) && qle 0 (snd (fst (fst x))) && qle 0 (snd (fst x)) && qle 0 (snd x).
(* spherical.py:59-79 separating_circles_test; `succeeds` tells for bounds, constraints and objective whether linprog succeeds *)
Definition circles_test (succeeds : (p3 * Qc -> bool) -> (p3 * Qc -> Qc) -> bool) (points1 points2 : list p3) : bool :=
  negb (succeeds (fun x => circle_bounds x && circle_constraints points1 points2 x) snd).
(* spherical.py:82-161 spherical_separability, after the removal of the intersection point *)
Definition spherical_separability (two_pi : Qc) (succeeds : (p3 * Qc -> bool) -> (p3 * Qc -> Qc) -> bool) (axes : list (list Qc * list Qc)) (points1 points2 : list p3) : res bool :=
  do b <- box_test two_pi axes ; if b then Ok true else Ok (circles_test succeeds points1 points2).

(* spherical.py:164-186 center_projection_to_xy *)
Definition center_projection (origin point : p3) : Qc * Qc :=
  if qeq (cz origin) (cz point) then (cx point, cy point)
  else let t := - cz origin / (cz point - cz origin) in
       (cx origin + t * (cx point - cx origin), cy origin + t * (cy point - cy origin)).

(* np.dot in the plane, spherical.py:208, 216 *)
Definition dot2 (a b : Qc * Qc) : Qc := fst a * fst b + snd a * snd b.
(* spherical.py:198-208 projection *)
Definition projection2 (a b : Qc * Qc) : option (Qc * Qc) :=
  if qeq (dot2 b b) 0 then None else Some (fst b * dot2 a b / dot2 b b, snd b * dot2 a b / dot2 b b).
(* spherical.py:211-217 projection_param_t; None is not a number *)
Definition projection_param (a b : Qc * Qc) : option Qc := if qeq (dot2 b b) 0 then None else Some (dot2 a b / dot2 b b).
(* spherical.py:193-195 hull_sides *)
Definition sub2 (a b : Qc * Qc) : Qc * Qc := (fst a - fst b, snd a - snd b).
Definition hull_edges (h : list (Qc * Qc)) : list (Qc * Qc) :=
  map (fun i => sub2 (nth i h (0, 0)) (nth ((i + 1) mod length h)%nat h (0, 0))) (seq 0 (length h)).
Definition hull_sides (h : list (Qc * Qc)) : list (Qc * Qc) :=
  let hh := hull_edges h in hh ++ map (fun v => (snd v, - fst v)) hh.
(* mmcore.numeric.vectors.unit, vectors.pyx:183-197, for a row; a zero row is not a number; used at spherical.py:219 *)
Definition unit2 (norm : Qc * Qc -> Qc) (v : Qc * Qc) : option (Qc * Qc) :=
  if qeq (dot2 v v) 0 then None else Some (fst v / norm v, snd v / norm v).
(* spherical.py:188-191 project_poly and the least and the greatest value, spherical.py:226-232 *)
Definition shadow (h : list (Qc * Qc)) (v : Qc * Qc) : Qc * Qc :=
  match map (fun p => dot2 p v / dot2 v v) h with [] => (0, 0) | x :: r => (least_of x r, greatest_of x r) end.
(* one side in the loop, spherical.py:232-240; comparisons with what is not a number fail *)
Definition side_separates (h1 h2 : list (Qc * Qc)) (v : option (Qc * Qc)) : bool :=
  match v with
  | None => true
  | Some u => let '(s1, e1) := shadow h1 u in let '(s2, e2) := shadow h2 u in negb (qlt s1 e2 && qlt s2 e1)
  end.
(* spherical.py:218-242 ch2d_sep; np.min of nothing is an error *)
Definition hulls_separable (norm : Qc * Qc -> Qc) (h1 h2 : list (Qc * Qc)) : res bool :=
  match h1, h2 with
  | _ :: _, _ :: _ => Ok (existsb (side_separates h1 h2) (map (unit2 norm) (hull_sides h1 ++ hull_sides h2)))
  | _, _ => Err ValueError
  end.

(* constrained.py:9-34 newtons_method22 *)
Section Newton.
Variable solve : list (list Qc) -> list Qc -> option (list Qc).
Variable norm : list Qc -> Qc.
Variable F : list Qc -> list Qc.
Variable JF : list Qc -> list (list Qc).
Fixpoint newton22 (max_iter : nat) (tol : Qc) (point : list Qc) : list Qc :=
  match max_iter with
  | O => point
  | S n =>
      match solve (JF point) (nscale (- (1)) (F point)) with
      | None => point
      | Some delta =>
          let new_point := nadd point delta in
          if qlt (norm (nsub new_point point)) tol then new_point else newton22 n tol new_point
      end
  end.
End Newton.

(* A.T with n rows, constrained.py:167 *)
Definition transpose (n : nat) (A : list (list Qc)) : list (list Qc) := map (fun j => map (fun r => nth j r 0) A) (seq 0 n).
(* np.block, constrained.py:166-169 *)
Definition kkt (n : nat) (H A : list (list Qc)) : list (list Qc) :=
  map (fun p => fst p ++ snd p) (combine H (transpose n A)) ++ map (fun r => r ++ repeat 0 (length A)) A.
(* constrained.py:137-197 sqp_method; lam is lambda0 or zeros *)
Section Sqp.
Variable solve : list (list Qc) -> list Qc -> option (list Qc).
Variable norm : list Qc -> Qc.
Variable grad_f constr : list Qc -> list Qc.
Variable hess_l : list Qc -> list Qc -> list (list Qc).
Variable grad_c : list Qc -> list (list Qc).
Fixpoint sqp (max_iter : nat) (tol : Qc) (x lam : list Qc) : list Qc :=
  match max_iter with
  | O => x
  | S n =>
      match solve (kkt (length x) (hess_l x lam) (grad_c x)) (nscale (- (1)) (grad_f x ++ constr x)) with
      | None => x
      | Some sol =>
          let p := firstn (length x) sol in
          let nu := skipn (length x) sol in
          if qlt (norm p) tol && qlt (norm (constr x)) tol then nadd x p else sqp n tol (nadd x p) nu
      end
  end.
End Sqp.
