(* Model of mmcore/numeric/monomial.py and of degree_elevation_bez
   (mmcore/geom/curves/knot.py).

   A numpy array of shape (n, m) is the list of its rows; an array of shape
   (n, m, dim) is a patch: its shape and the list of its dim coordinate arrays
   (the last axis is moved to the front).  Sums are accumulated in exact
   rationals, so the order of accumulation does not matter.
   scipy.special.comb is the binomial coefficient.  The print call in
   cross_product_monomial and the lru_cache on bpmat are not modelled. *)
From Coq Require Import List Arith ZArith Bool QArith Qcanon.
From Verif Require Import Common QcLib ArrZ SumLib BinomModel.
Import ListNotations.
Open Scope Qc_scope.

(* for ent, monomial.py:29-63 *)
Definition arr := list (list Qc).
(* [f(i) for i in range(n)]  [for matmul, monomial.py:29-63] *)
Definition tab {A} (n : nat) (f : nat -> A) : list A := map f (seq 0 n).
(* for tabR, monomial.py:11-25 *)
Fixpoint tabR_from {A} (c i : nat) (f : nat -> res A) : res (list A) :=
  match c with O => Ok [] | S c' => do x <- f i ; do r <- tabR_from c' (S i) f ; Ok (x :: r) end.
(* for bpmat, monomial.py:11-25 *)
Definition tabR {A} (n : nat) (f : nat -> res A) : res (list A) := tabR_from n 0 f.
(* for matmul, monomial.py:29-63 *)
Definition ent (A : arr) (i j : nat) : Qc := nth j (nth i A []) 0.
(* for bpmat, monomial.py:11-25 *)
Definition bc (i j : nat) : res Qc := binomial_coefficient (Z.of_nat i) (Z.of_nat j).

(* monomial.py:11-25 bpmat (method="mmcore") *)
Definition bpmat (n : nat) : res arr :=
  tabR (S n) (fun j => tabR (S n) (fun k =>
    if (k <=? j)%nat then do a <- bc n j ; do b <- bc j k ; Ok ((- (1)) ^ (j - k) * a * b) else Ok 0)).

(* A @ B for shapes (n, k) and (k, m), and A.T for shape (n, m)  [for convert, monomial.py:29-63] *)
Definition matmul (n k m : nat) (A B : arr) : arr :=
  tab n (fun i => tab m (fun j => sumn k (fun l => ent A i l * ent B l j))).
(* for convert, monomial.py:29-63 *)
Definition transpose (n m : nat) (A : arr) : arr := tab m (fun j => tab n (fun i => ent A i j)).

(* for bezier_to_monomial, monomial.py:29-63 *)
Record patch := mkPatch { rows : nat; cols : nat; coords : list arr }.

(* Mu @ X @ Mv.T for every coordinate X  [for bezier_to_monomial, monomial.py:29-63] *)
Definition convert (n m : nat) (Mu Mv : arr) (cs : list arr) : list arr :=
  map (fun X => matmul n m m (matmul n n m Mu X) (transpose m m Mv)) cs.

(* monomial.py:29-63 bezier_to_monomial; a zero dimension makes the shapes mismatch *)
Definition bezier_to_monomial (p : patch) : res patch :=
  if (rows p =? 0)%nat || (cols p =? 0)%nat then Err ValueError
  else do Mu <- bpmat (rows p - 1) ; do Mv <- bpmat (cols p - 1) ;
       Ok (mkPatch (rows p) (cols p) (convert (rows p) (cols p) Mu Mv (coords p))).

(* monomial.py:66-97 monomial_to_bezier; inv stands for np.linalg.inv *)
Definition monomial_to_bezier (inv : arr -> arr) (p : patch) : res patch :=
  if (rows p =? 0)%nat || (cols p =? 0)%nat then Err ValueError
  else do Mu <- bpmat (rows p - 1) ; do Mv <- bpmat (cols p - 1) ;
       Ok (mkPatch (rows p) (cols p) (convert (rows p) (cols p) (inv Mu) (inv Mv) (coords p))).

(* monomial.py:101-131 homogeneous_monomial_to_rational_bezier; the weights divide (a zero
   weight gives inf or nan in the code, here a ZeroDivision) *)
Definition divR (a b : Qc) : res Qc := if qeq b 0 then Err ZeroDivision else Ok (a / b).
(* monomial.py:101-131 *)
Definition homogeneous_monomial_to_rational_bezier (inv : arr -> arr) (p : patch) : res patch :=
  do b <- monomial_to_bezier inv p ;
  match coords b with
  | X :: Y :: Z :: W :: _ =>
      let dv (C : arr) := tabR (rows p) (fun i => tabR (cols p) (fun j => divR (ent C i j) (ent W i j))) in
      do x <- dv X ; do y <- dv Y ; do z <- dv Z ;
      Ok (mkPatch (rows p) (cols p) [x; y; z; W])
  | _ => Err IndexError
  end.

(* monomial.py:142-143: comb(n - 1, i) * (u**i) * ((1 - u) ** (n - 1 - i)) *)
Definition bern_factor (n i : nat) (u : Qc) : Qc := bq (n - 1) i * u ^ i * (1 - u) ^ (n - 1 - i).
(* monomial.py:136-145 evaluate_bezier_patch *)
Definition evaluate_bezier_patch (p : patch) (u v : Qc) : list Qc :=
  map (fun X => sumn (rows p) (fun i => sumn (cols p) (fun j =>
     ent X i j * bern_factor (rows p) i u * bern_factor (cols p) j v))) (coords p).
(* monomial.py:147-167 evaluate_rational_bezier_patch *)
Definition evaluate_rational_bezier_patch (p : patch) (w : arr) (u v : Qc) : res (list Qc) :=
  let basis i j := bern_factor (rows p) i u * bern_factor (cols p) j v * ent w i j in
  let den := sumn (rows p) (fun i => sumn (cols p) (fun j => basis i j)) in
  tabR (length (coords p)) (fun d =>
    divR (sumn (rows p) (fun i => sumn (cols p) (fun j => ent (nth d (coords p) []) i j * basis i j))) den).
(* monomial.py:169-177 evaluate_monomial2d *)
Definition evaluate_monomial2d (p : patch) (u v : Qc) : list Qc :=
  map (fun X => sumn (rows p) (fun i => sumn (cols p) (fun j => ent X i j * u ^ i * v ^ j))) (coords p).

(* result[i, j, d] += x  [for cross_coord, monomial.py:179-213] *)
Definition add_at (A : arr) (i j : nat) (x : Qc) : res arr :=
  do row <- getR A i ; do y <- getR row j ; Ok (upd A i (upd row j (y + x))).
(* monomial.py:198: product(range(n1), range(m1), range(n2), range(m2)) *)
Definition quads (n1 m1 n2 m2 : nat) : list (nat * nat * nat * nat) :=
  flat_map (fun i1 => flat_map (fun j1 => flat_map (fun i2 => map (fun j2 => (i1, j1, i2, j2)) (seq 0 m2)) (seq 0 n2)) (seq 0 m1)) (seq 0 n1).
(* for cross_coord, monomial.py:179-213 *)
Fixpoint foldR {S T} (l : list T) (st : S) (f : S -> T -> res S) : res S :=
  match l with [] => Ok st | x :: r => do st' <- f st x ; foldR r st' f end.
(* monomial.py:179-213 cross_product_monomial *)
Definition cross_coord (n1 m1 n2 m2 : nat) (a1 b2 a2 b1 : arr) : res arr :=
  foldR (quads n1 m1 n2 m2) (tab (n1 + n2 - 1) (fun _ => tab (m1 + m2 - 1) (fun _ => 0)))
    (fun st q => let '(i1, j1, i2, j2) := q in
      add_at st (i1 + i2) (j1 + j2) (ent a1 i1 j1 * ent b2 i2 j2 - ent a2 i1 j1 * ent b1 i2 j2)).
(* monomial.py:179-213 *)
Definition cross_product_monomial (a b : patch) : res patch :=
  match coords a, coords b with
  | a0 :: a1 :: a2 :: _, b0 :: b1 :: b2 :: _ =>
      let cc := cross_coord (rows a) (cols a) (rows b) (cols b) in
      do x <- cc a1 b2 a2 b1 ; do y <- cc a2 b0 a0 b2 ; do z <- cc a0 b1 a1 b0 ;
      Ok (mkPatch (rows a + rows b - 1) (cols a + cols b - 1) [x; y; z])
  | _, _ => Err IndexError
  end.

(* monomial.py:217-242 monomial_partial_derivatives *)
Definition monomial_partial_derivatives (p : patch) : patch * patch :=
  let n := rows p in let m := cols p in
  (mkPatch (n - 1) m (map (fun X => tab (n - 1) (fun i => tab m (fun j => zq (Z.of_nat (i + 1)) * ent X (i + 1) j))) (coords p)),
   mkPatch n (m - 1) (map (fun X => tab n (fun i => tab (m - 1) (fun j => zq (Z.of_nat (j + 1)) * ent X i (j + 1)))) (coords p))).
(* monomial.py:245-258 normal_vector_monomial *)
Definition normal_vector_monomial (p : patch) : res patch :=
  let (du, dv) := monomial_partial_derivatives p in cross_product_monomial du dv.

(* monomial.py:294-298 Monomial2D.to_bezier, 302-303 from_bezier: the arrays are handed
   over unchanged (control points of the NURBS surface of degree n-1, m-1) *)
Definition to_bezier (p : patch) : patch := p.
(* monomial.py:302-303 *)
Definition from_bezier (p : patch) : patch := p.

(* knot.py:907-946 degree_elevation_bez; points are rows of equal length *)
Definition vadd (a b : list Qc) : list Qc := map (fun xy => fst xy + snd xy) (combine a b).
(* for elevation_row, knot.py:907-946 *)
Definition vscale (c : Qc) (a : list Qc) : list Qc := map (fun x => c * x) a.
(* knot.py:907-946 *)
Definition elevation_row (points : list (list Qc)) (dim degree num i : nat) : res (list Qc) :=
  let start := (i - num)%nat in
  let stop := Nat.min degree i in
  foldR (seq start (stop + 1 - start)) (repeat 0 dim) (fun acc j =>
    do a <- bc degree j ; do b <- bc num (i - j) ; do c <- bc (degree + num) i ;
    do coeff <- divR (a * b) c ;
    do pt <- getR points j ;
    Ok (vadd acc (vscale coeff pt))).
(* knot.py:907-946 *)
Definition degree_elevation_bez (points : list (list Qc)) (dim degree num : nat) : res (list (list Qc) * nat) :=
  if negb (length points =? degree + 1)%nat then Err ValueError
  else do r <- tabR (degree + 1 + num) (fun i => elevation_row points dim degree num i) ; Ok (r, (degree + num)%nat).
