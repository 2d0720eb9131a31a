(* Model of the Newton iterations for points of implicit curves and surfaces,
   of point inversion and of the small vector helpers of geom/vec:
   mmcore/numeric/algorithms/implicit_point.py, numeric/calgorithms.pxd,
   numeric/algorithms/point_inversion.py, numeric/intersection/ssx/_ssi.pyx,
   numeric/intersection/ssx/surface_surface.py, geom/curves/offset.py,
   geom/vec/__init__.py, numeric/algorithms/tnb.py,
   numeric/algorithms/point_in_curve.py.
   The functions and gradients given by the caller are arbitrary functions;
   arithmetic is exact; sqrt is an argument.  A loop without a bound in the code
   takes a number of passes and gives [Err OutOfFuel] when they are used up. *)
From Coq Require Import List ZArith Bool QArith Qcanon.
From Verif Require Import Common QcLib ArrZ SumLib NurbsModel DerModel PlnModel VecModel.
Import ListNotations.
Local Open Scope Z_scope.
Local Open Scope Qc_scope.

(* ---- from a displacement in space to one in parameters ---- *)

(* ssx/_ssi.pyx:11 matrix *)
Definition blocks (du dv : v3) : list m2 :=
  [mkm (vx du) (vx dv) (vy du) (vy dv); mkm (vx du) (vx dv) (vz du) (vz dv); mkm (vy du) (vy dv) (vz du) (vz dv)].
(* ssx/_ssi.pyx:13 y *)
Definition sides (delta : v3) : list v2 := [mkp (vx delta) (vy delta); mkp (vx delta) (vz delta); mkp (vy delta) (vz delta)].
Definition small9 : Qc := Q2Qc (1 # 10 ^ 9). (* 1e-9, ssx/_ssi.pyx:27 *)

(* ssx/_ssi.pyx:22-26 the loop: index and value of the largest positive minor *)
Definition pick_minor (ms : list m2) : res (Z * Qc) :=
  forZ 0 3 (0%Z, 0) (fun i st =>
    do m <- rdZ ms i ;
    let temp := m00 m * m11 m - m01 m * m10 m in
    if qlt (snd st) temp then Ok (i, temp) else Ok st).

(* ssx/_ssi.pyx:10-36 improve_uv: the contents of result and the returned flag *)
Definition improve_uv (du dv xyz_old xyz_better : v3) (result : v2) : res (v2 * bool) :=
  do (j, dett) <- pick_minor (blocks du dv) ;
  if qlt dett small9 then Ok (result, true)
  else
    do m <- rdZ (blocks du dv) j ;
    do y <- rdZ (sides (vsub xyz_better xyz_old)) j ;
    do a <- divR (p0 y * m11 m - m01 m * p1 y) dett ;
    do b <- divR (m00 m * p1 y - p0 y * m10 m) dett ;
    Ok (mkp a b, false).

(* vectors.pyx:317-328 det of the two rows *)
Definition row_det (m : m2) : Qc := cdet [mkp (m00 m) (m01 m); mkp (m10 m) (m11 m)].
(* max with a key, ssx/surface_surface.py:67: the first of the largest *)
Fixpoint max_key (best : m2 * v2) (l : list (m2 * v2)) : m2 * v2 :=
  match l with
  | [] => best
  | x :: l' => max_key (if qlt (row_det (fst best)) (row_det (fst x)) then x else best) l'
  end.
(* ssx/surface_surface.py:57-70 improve_uv; sectioal_tangent.py:51-62 is given the
   displacement and drops the flag *)
Definition improve_uv_py (du dv xyz_old xyz_better : v3) (result : v2) : res (v2 * bool) :=
  match combine (blocks du dv) (sides (vsub xyz_better xyz_old)) with
  | [] => Err ValueError
  | x :: l => let best := max_key x l in solve2x2 (fst best) (snd best) result
  end.
(* geom/curves/offset.py:12-25 _improve_uv: the flag is ignored *)
Definition offset_improve_uv (du dv xyz_old xyz_better : v3) : res v2 :=
  do (r, _) <- improve_uv_py du dv xyz_old xyz_better (mkp 0 0) ; Ok r.

(* geom/curves/offset.py:41-43 OffsetCurve.offset: the property reads itself *)
Fixpoint offset_property (fuel : nat) (stored : Qc) : res Qc :=
  match fuel with O => Err OutOfFuel | S k => offset_property k stored end.

(* ---- Newton iterations ---- *)
Section Newton.
Variable sqrt : Qc -> Qc.

Section Two.
Variables f1 f2 : v3 -> Qc.
Variables g1 g2 : v3 -> v3.

(* implicit_point.py:97-107 and 122-137 one step from q; ab holds what the last
   solution was: new ab, whether the matrix was regular, delta *)
Definition newton_step (q : v3) (ab : v2) : res (v2 * bool * v3) :=
  let a := g1 q in
  let b := g2 q in
  do (ab', ok) <- solve2x2 (mkm (vdot a a) (vdot b a) (vdot a b) (vdot b b)) (mkp (- f1 q) (- f2 q)) ab ;
  Ok (ab', ok, vadd (vscale (p0 ab') a) (vscale (p1 ab') b)).

(* implicit_point.py:111-141 the loop; n is the number of passes still allowed:
   whether it converged, the last point evaluated and the point reached *)
Fixpoint newton_loop (n : nat) (tol : Qc) (q qn : v3) (ab : v2) (d : Qc) : res (bool * v3 * v3) :=
  if qlt tol d then
    match n with
    | O => Ok (false, q, qn)
    | S k =>
        do (r, delta) <- newton_step qn ab ;
        newton_loop k tol qn (vadd delta qn) (fst r) (scalar_norm sqrt delta)
    end
  else Ok (true, q, qn).

(* what intersection_curve_point returns, implicit_point.py:143-146 *)
Inductive answer : Type :=
  | Point (q : v3)
  | Pair (ok : bool) (q : v3)
  | Five (q : v3) (a b : Qc) (u w : v3)
  | Nested (ok : bool) (q : v3) (a b : Qc) (u w : v3).

(* implicit_point.py:94-141: the passes i = 0 .. max_iter are allowed *)
Definition icp_run (q0 : v3) (tol : Qc) (max_iter : Z) : res (bool * v3 * v3) :=
  do (r, delta) <- newton_step q0 (mkp 0 0) ;
  let qn := vadd delta q0 in
  newton_loop (Z.to_nat (max_iter + 1)) tol q0 qn (fst r) (scalar_norm sqrt (vsub qn q0)).

(* implicit_point.py:52-146 intersection_curve_point *)
Definition intersection_curve_point (q0 : v3) (tol : Qc) (max_iter : Z) (return_grads no_err : bool) : res answer :=
  do (r, qn) <- icp_run q0 tol max_iter ;
  let (ok, q) := r : bool * v3 in
  if negb ok && negb no_err then Err ValueError
  else if return_grads then
    Ok (if no_err then Nested ok qn (f1 q) (f2 q) (g1 q) (g2 q) else Five qn (f1 q) (f2 q) (g1 q) (g2 q))
  else Ok (if no_err then Pair ok qn else Point qn).

(* len() of the returned tuple; a point is an array of three, implicit_point.py:143-146 *)
Definition answer_len (a : answer) : Z :=
  match a with Point _ => 3%Z | Pair _ _ => 2%Z | Five _ _ _ _ _ => 5%Z | Nested _ _ _ _ _ _ => 5%Z end.

(* calgorithms.pxd:65-151 cintersection_curve_point: contents of result and flag;
   success keeps the status of the first system *)
Definition cicp (q0 : v3) (result : v3) (tol : Qc) (max_iter : Z) : res (v3 * bool) :=
  do (r, delta) <- newton_step q0 (mkp 0 0) ;
  let qn := vadd delta q0 in
  do (s, qn') <- newton_loop (Z.to_nat (max_iter + 1)) tol q0 qn (fst r) (scalar_norm sqrt delta) ;
  if fst s then Ok (qn', snd r) else Ok (result, false).
End Two.

Section One.
Variable f : v3 -> Qc.
Variable g : v3 -> v3.

(* implicit_point.py:31-34 and 198-202 the step length *)
Definition step_length (fi cc : Qc) : res Qc := if qlt 0 cc then divR (- fi) cc else Ok 0.

(* implicit_point.py:192-214 surface_point *)
Fixpoint surface_point (fuel : nat) (p : v3) (tol : Qc) : res v3 :=
  match fuel with
  | O => Err OutOfFuel
  | S k =>
      do t <- step_length (f p) (vdot (g p) (g p)) ;
      let p1 := vadd (vscale 1 p) (vscale t (g p)) in
      if qlt (scalar_norm sqrt (vsub p1 p)) tol then Ok p1 else surface_point k p1 tol
  end.

(* implicit_point.py:217-218 surface_plane: the point, an array of three, is
   unpacked into two names *)
Definition surface_plane (fuel : nat) (p : v3) (tol : Qc) : res v3 :=
  do _ <- surface_point fuel p tol ; Err ValueError.
End One.

Section Plane.
Variable f : v2 -> Qc.
Variable g : v2 -> v2.

Definition dot2v (a b : v2) : Qc := p0 a * p0 b + p1 a * p1 b. (* sum(g * g), implicit_point.py:30 *)
Definition add2v (a : v2) (t : Qc) (b : v2) : v2 := mkp (p0 a + t * p0 b) (p1 a + t * p1 b). (* initial_point + f * g, implicit_point.py:36 *)
Definition sub2v (a b : v2) : v2 := mkp (p0 a - p0 b) (p1 a - p1 b). (* initial_point - new_point, implicit_point.py:37 *)

(* implicit_point.py:28-37 one step *)
Definition curve_step (p : v2) : res (v2 * Qc) :=
  do t <- step_length (f p) (dot2v (g p) (g p)) ;
  let p1 := add2v p t (g p) in
  Ok (p1, sqrt (dot2v (sub2v p p1) (sub2v p p1))).

(* implicit_point.py:14-49 curve_point *)
Fixpoint curve_point (fuel : nat) (p : v2) (delta : Qc) : res v2 :=
  match fuel with
  | O => Err OutOfFuel
  | S k => do (p1, d) <- curve_step p ; if qlt delta d then curve_point k p1 delta else Ok p1
  end.

(* implicit_point.py:153-162 _curve_point_newton_step *)
Definition curve_point_newton_step (p : v2) : res v2 :=
  let cc := dot2v (g p) (g p) in
  if qlt 0 cc then do t <- divR (- f p) cc ; Ok (add2v p t (g p)) else Ok p.

(* implicit_point.py:168-174 the loop of _curve_point2 *)
Fixpoint curve_point2_loop (fuel : nat) (p : v2) (delta tol : Qc) : res v2 :=
  if qle tol delta then
    match fuel with
    | O => Err OutOfFuel
    | S k =>
        do q <- curve_point_newton_step p ;
        curve_point2_loop k q (fabs (p0 p - p0 q) + fabs (p1 p - p1 q)) tol
    end
  else Ok p.
(* implicit_point.py:165-174 _curve_point2 *)
Definition curve_point2 (fuel : nat) (p : v2) (tol : Qc) : res v2 := curve_point2_loop fuel p 1 tol.
End Plane.

(* ---- point inversion ---- *)
Section Inversion.
Variables C C1 C2 : Qc -> v3.
Definition close8 : Qc := Q2Qc (1 # 10 ^ 8). (* np.isclose(x, 0): atol 1e-8, point_inversion.py:54 *)

(* point_inversion.py:49-71 the passes; c, c1, c2 are the values at ui; the last
   test divides by a product of lengths *)
Fixpoint inversion_loop (n : nat) (P : v3) (tol1 tol2 : Qc) (ui : Qc) (c c1 c2 : v3) : res Qc :=
  match n with
  | O => Ok ui
  | S k =>
      let fi := vdot c1 (vsub c P) in
      let fpi := vdot c2 (vsub c P) + vdot c1 c1 in
      if qle (fabs fpi) close8 then Ok ui
      else
        do s <- divR fi fpi ;
        let ui1 := ui - s in
        if qle (fabs (ui1 - ui) * scalar_norm sqrt c1) tol1 then Ok ui
        else
          let c' := C ui1 in
          if qle (scalar_norm sqrt (vsub c' P)) tol1 then Ok ui
          else
            let c1' := C1 ui1 in
            do m <- divR (fabs (vdot c1' (vsub c' P))) (scalar_norm sqrt c1' * scalar_norm sqrt (vsub c1' P)) ;
            if qle m tol2 then Ok ui
            else inversion_loop k P tol1 tol2 ui1 c' c1' (C2 ui1)
  end.
(* point_inversion.py:14-73 point_inversion_curve *)
Definition point_inversion_curve (P : v3) (u0 tol1 tol2 : Qc) (max_iter : Z) : res Qc :=
  inversion_loop (Z.to_nat max_iter) P tol1 tol2 u0 (C u0) (C1 u0) (C2 u0).
End Inversion.

Section InversionS.
Variable surf Su Sv : v2 -> v3.
(* point_inversion.py:135-196 the passes; delta keeps the last solution; the
   last test divides NumPy numbers, so a zero divisor gives nan (the dividend is then
   0) and the test fails *)
Fixpoint inversion_surface_loop (n : nat) (P : v3) (tol1 tol2 : Qc) (uv delta : v2) : res v2 :=
  match n with
  | O => Ok uv
  | S k =>
      let du := Su uv in
      let dv := Sv uv in
      let r := vsub (surf uv) P in
      do (dl, ok) <- solve2x2 (mkm (vdot du du) (vdot du dv) (vdot dv du) (vdot dv dv)) (mkp (vdot du r) (vdot dv r)) delta ;
      if negb ok then Err ValueError
      else
        let uv1 := sub2v uv dl in
        if qle (sqrt (dot2v (sub2v uv1 uv) (sub2v uv1 uv)) * (scalar_norm sqrt du + scalar_norm sqrt dv)) tol1 then Ok uv
        else
          let diff := vsub (surf uv1) P in
          if qle (scalar_norm sqrt diff) tol1 then Ok uv
          else
            let du1 := Su uv1 in
            let den := scalar_norm sqrt du1 * scalar_norm sqrt diff in
            if negb (qeq den 0) && qle (fabs (vdot du1 diff) / den) tol2 then Ok uv else inversion_surface_loop k P tol1 tol2 uv1 dl
  end.
(* point_inversion.py:82-198 point_inversion_surface *)
Definition point_inversion_surface (P : v3) (u0 v0 tol1 tol2 : Qc) (max_iter : Z) : res v2 :=
  inversion_surface_loop (Z.to_nat max_iter) P tol1 tol2 (mkp u0 v0) (mkp 0 0).
End InversionS.

(* ---- frames ---- *)

(* geom/vec/__init__.py:154-163 dot: scalar_dot is not a name of the module *)
Definition vec_dot (a b : v3) : res Qc := Err NameError.
(* geom/vec/__init__.py:246-259 gram_schmidt *)
Definition vec_gram_schmidt (a b : v3) : res v3 :=
  do a <- scalar_unit sqrt a ;
  do b <- scalar_unit sqrt b ;
  do k <- vec_dot b a ;
  Ok (vsub b (vscale k a)).
(* geom/vec/__init__.py:136-138 projection_length *)
Definition projection_length (a b : v3) : res Qc :=
  do k <- vec_dot a b ; divR k (scalar_norm sqrt b).

Definition small10 : Qc := Q2Qc (1 # 10 ^ 10). (* 1e-10, geom/vec/__init__.py:307 *)
(* np.linalg.norm(v) > 1e-10 and v /= np.linalg.norm(v), geom/vec/__init__.py:307-310 *)
Definition renormalize (v : v3) : res v3 :=
  if qlt small10 (scalar_norm sqrt v) then vdiv v (scalar_norm sqrt v) else Err ValueError.
(* geom/vec/__init__.py:285-322 orthonormalize: the result and what the caller's
   arrays v and w hold afterwards (None: nan); the operations on v and w are in
   place.  A zero u makes v nan, and the comparison of its length fails *)
Definition orthonormalize (u v w : v3) : res (v3 * v3 * v3) * option v3 * option v3 :=
  match vdiv u (scalar_norm sqrt u) with
  | Err _ => (Err ValueError, None, Some w)
  | Ok u =>
      let v1 := vsub v (vscale (vdot u v) u) in
      match renormalize v1 with
      | Err e => (Err e, Some v1, Some w)
      | Ok v2 =>
          let w1 := vsub w (vscale (vdot u w) u) in
          let w2 := vsub w1 (vscale (vdot v2 w1) v2) in
          match renormalize w2 with
          | Err e => (Err e, Some v2, Some w2)
          | Ok w3 => (Ok (u, v2, w3), Some v2, Some w3)
          end
      end
  end.

(* numeric/algorithms/tnb.py:5-36 frenet_serret_frame, from the values at t *)
Definition frenet (r r1 r2 : v3) : res (v3 * v3 * v3 * v3) :=
  let n := scalar_norm sqrt r1 in
  do T <- vdiv r1 n ;
  do T1 <- vdiv (vsub r2 (vscale (vdot r2 T) T)) n ;
  do N <- vdiv T1 (scalar_norm sqrt T1) ;
  Ok (r, T, N, vcross T N).
End Newton.

(* geom/vec/__init__.py:165-178 perp2d *)
Definition perp2d (v : v2) : v2 := mkp (- p1 v) (p0 v).
(* geom/vec/__init__.py:270-273 clamp *)
Definition clamp2 (self lo hi : v2) : v2 :=
  let mx a b := if qlt a b then b else a in
  let mn a b := if qlt b a then b else a in
  mkp (mx (p0 lo) (mn (p0 hi) (p0 self))) (mx (p1 lo) (mn (p1 hi) (p1 self))).

(* numeric/algorithms/point_in_curve.py:32-39 point_in_implicit_curve; np.isclose(x, 0) is |x| <= 1e-8 *)
Definition point_in_implicit_curve (f : v2 -> Qc) (p : v2) : bool :=
  if qle (f p) 0 then true else qle (fabs (f p)) close8.
