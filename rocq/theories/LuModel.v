(* Linear systems: Model of /repo/mmcore/numeric/matrix/cmatrix.h (LU_decomposition, LU_solve, invert_matrix), of inv in
   /repo/mmcore/numeric/matrix/__init__.pyx and of class _Matrix in /repo/mmcore/numeric/newton/bounded.py.

   A C matrix is its row-major array with the two counts; every element write is a write to that array.  Numbers are exact
   rationals.  A division by zero, which in C fills the array with non-finite values and goes on, stops the model with
   ZeroDivision.  Accesses outside an array, undefined in C, are IndexError.  Uninitialised arrays (the local arrays P, b,
   x and y) are arguments.  Memory management and print_matrix are not modelled. *)
From Coq Require Import List Arith ZArith Bool QArith Qcanon.
From Verif Require Import Common QcLib.
Import ListNotations.
Local Open Scope Qc_scope.

(* for (i = lo; i < hi; i++); for LU_decomposition, cmatrix.h:81-125 *)
Fixpoint loopN {St} (cnt lo : nat) (st : St) (body : nat -> St -> res St) : res St :=
  match cnt with O => Ok st | S c => do st' <- body lo st ; loopN c (S lo) st' body end.
Definition loop {St} (lo hi : nat) (st : St) (body : nat -> St -> res St) : res St := loopN (hi - lo) lo st body.

(* a[i] = v on a C array; for LU_solve, cmatrix.h:128-166 *)
Definition wr {A} (l : list A) (i : nat) (v : A) : res (list A) :=
  if (i <? length l)%nat then Ok (upd l i v) else Err IndexError.

(* cmatrix.h:7-11 struct matrix *)
Record mtx := mkM { mdata : list Qc; mrows : nat; mcols : nat }.
(* cmatrix.h:14-22 MAT_PTR, get_item, set_item *)
Definition mget (m : mtx) (i j : nat) : res Qc := getR (mdata m) (i * mcols m + j).
Definition mset (m : mtx) (i j : nat) (v : Qc) : res mtx :=
  do d <- wr (mdata m) (i * mcols m + j) v ; Ok (mkM d (mrows m) (mcols m)).

(* fabs, cmatrix.h:93 *)
Definition fabs (x : Qc) : Qc := if qlt x 0 then - x else x.

(* cmatrix.h:88-97, the search for the pivot of column i *)
Definition find_pivot (A : mtx) (i : nat) : res nat :=
  do (_, imax) <- loop i (mrows A) (0, i) (fun k st =>
    do v <- mget A k i ; Ok (if qlt (fst st) (fabs v) then (fabs v, k) else st)) ;
  Ok imax.
(* cmatrix.h:106-111, the exchange of the entries k of rows i and imax *)
Definition swap_entry (i imax k : nat) (A : mtx) : res mtx :=
  do t <- mget A i k ; do u <- mget A imax k ; do A1 <- mset A i k u ; mset A1 imax k t.
(* cmatrix.h:99-112, the exchange of rows *)
Definition pivot_rows (i imax : nat) (A : mtx) (P : list nat) : res (mtx * list nat) :=
  if (imax =? i)%nat then Ok (A, P)
  else do p <- getR P i ; do q <- getR P imax ; do P1 <- wr P i q ; do P2 <- wr P1 imax p ;
       do A' <- loop 0 (mcols A) A (swap_entry i imax) ; Ok (A', P2).
(* cmatrix.h:115-121, the elimination in row j with pivot row i *)
Definition elim_row (i j : nat) (A : mtx) : res mtx :=
  do a <- mget A j i ; do p <- mget A i i ;
  if qeq p 0 then Err ZeroDivision
  else do A1 <- mset A j i (a / p) ;
       loop (i + 1) (mcols A) A1 (fun k A => do v <- mget A j k ; do l <- mget A j i ; do u <- mget A i k ; mset A j k (v - l * u)).
(* cmatrix.h:87-122, the body of the main loop *)
Definition lu_step (i : nat) (st : mtx * list nat) : res (mtx * list nat) :=
  do imax <- find_pivot (fst st) i ;
  do (A1, P1) <- pivot_rows i imax (fst st) (snd st) ;
  do A2 <- loop (i + 1) (mrows A1) A1 (elim_row i) ; Ok (A2, P1).
(* cmatrix.h:81-125 LU_decomposition; it always returns 1 *)
Definition lu_decomposition (A : mtx) (P0 : list nat) : res (mtx * list nat) :=
  do P <- loop 0 (mrows A) P0 (fun i P => wr P i i) ;
  loop 0 (mrows A) (A, P) lu_step.

(* cmatrix.h:143-150, forward substitution *)
Definition forward (A : mtx) (P : list nat) (b y0 : list Qc) : res (list Qc) :=
  loop 0 (mrows A) y0 (fun i y =>
    do p <- getR P i ; do v <- getR b p ; do y1 <- wr y i v ;
    loop 0 i y1 (fun j y => do a <- getR y i ; do l <- mget A i j ; do c <- getR y j ; wr y i (a - l * c))).
(* cmatrix.h:152-161, backward substitution; the turn t treats i = rows - 1 - t *)
Definition backward (A : mtx) (y x0 : list Qc) : res (list Qc) :=
  loop 0 (mrows A) x0 (fun t x =>
    let i := (mrows A - 1 - t)%nat in
    do v <- getR y i ; do x1 <- wr x i v ;
    do x2 <- loop (i + 1) (mcols A) x1 (fun j x => do a <- getR x i ; do u <- mget A i j ; do c <- getR x j ; wr x i (a - u * c)) ;
    do a <- getR x2 i ; do d <- mget A i i ;
    if qeq d 0 then Err ZeroDivision else wr x2 i (a / d)).
(* cmatrix.h:128-166 LU_solve; y0 is the uninitialised local array, x0 the content of x before the call *)
Definition lu_solve (A : mtx) (P : list nat) (b y0 x0 : list Qc) : res (list Qc) :=
  do y <- forward A P b y0 ; backward A y x0.

(* cmatrix.h:169-213 invert_matrix; P0, b0, x0, y0 are the uninitialised arrays.  A and the inverse are both written *)
Definition invert_matrix (A inverse : mtx) (P0 : list nat) (b0 x0 y0 : list Qc) : res (mtx * mtx) :=
  do (LU, P) <- lu_decomposition A P0 ;
  do (R, _, _) <- loop 0 (mcols A) (inverse, b0, x0) (fun i st =>
    let '(R, b, x) := st in
    do b1 <- loop 0 (mrows A) b (fun j b => wr b j (if (i =? j)%nat then 1 else 0)) ;
    do x1 <- lu_solve LU P b1 y0 x ;
    do R1 <- loop 0 (mrows A) R (fun j R => do v <- getR x1 j ; mset R j i v) ;
    Ok (R1, b1, x1)) ;
  Ok (LU, R).

(* matrix/__init__.pyx:17-37 inv with result = None; the array passed is the array factorised.  Copying the array onto
   itself (line 25) changes nothing and is left out.  The values are the array passed, as left by the call, and the result *)
Definition inv (arr : mtx) (P0 : list nat) (b0 x0 y0 : list Qc) : res (mtx * mtx) :=
  invert_matrix arr (mkM (repeat 0 (mrows arr * mcols arr)) (mrows arr) (mcols arr)) P0 b0 x0 y0.

(* bounded.py:14-15, np.finfo(float).resolution = 1e-15 *)
Definition TOO_SMALL : Qc := Q2Qc (1 # 10 ^ 15).
Definition TOO_SMALL_REGULARIZATION : Qc := Q2Qc (1 # 10 ^ 12).

(* self.data of _Matrix, a list of rows; bounded.py:19-22 *)
Definition rowsT := list (list Qc).
(* A[i][j]; for row_reduce, bounded.py:35-68 *)
Definition rget (A : rowsT) (i j : nat) : res Qc := do r <- getR A i ; getR r j.
(* A[i][j] = v; for row_reduce, bounded.py:35-68 *)
Definition rset (A : rowsT) (i j : nat) (v : Qc) : res rowsT := do r <- getR A i ; do r' <- wr r j v ; wr A i r'.

(* [x for ... in ...]; for form_reduced_hessian, bounded.py:24-33 *)
Fixpoint mapE {A B} (f : A -> res B) (l : list A) : res (list B) :=
  match l with [] => Ok [] | a :: t => do b <- f a ; do r <- mapE f t ; Ok (b :: r) end.
(* bounded.py:24-33 form_reduced_hessian: the indices with active_set 0; the counters i_i, j_j write every place of the new matrix *)
Definition free_indices (active : list Z) : list nat :=
  map fst (filter (fun ia => (snd ia =? 0)%Z) (combine (seq 0 (length active)) active)).
Definition form_reduced_hessian (active : list Z) (hess : rowsT) : res rowsT :=
  mapE (fun i => mapE (fun j => rget hess i j) (free_indices active)) (free_indices active).

(* bounded.py:43-48, the pivot row *)
Definition rr_pivot (A : rowsT) (n i : nat) : res nat :=
  do v0 <- rget A i i ;
  do (_, r) <- loop (i + 1) n (fabs v0, i) (fun r st =>
    do v <- rget A r i ; Ok (if qlt (fst st) (fabs v) then (fabs v, r) else st)) ;
  Ok r.
(* bounded.py:41-66, the body of the loop over i *)
Definition rr_step (n i : nat) (A : rowsT) : res rowsT :=
  do p <- rr_pivot A n i ;
  do A1 <- (if (p =? i)%nat then Ok A
            else do ri <- getR A i ; do rp <- getR A p ; do B <- wr A i rp ; wr B p ri) ;
  do d <- rget A1 i i ;
  do A2 <- (if qlt (fabs d) TOO_SMALL then rset A1 i i TOO_SMALL_REGULARIZATION else Ok A1) ;
  loop (i + 1) n A2 (fun r A =>
    do a <- rget A r i ; do d <- rget A i i ;
    if qeq d 0 then Err ZeroDivision
    else loop i n A (fun c A => do x <- rget A r c ; do y <- rget A i c ; rset A r c (x - a / d * y))).
(* bounded.py:35-68 row_reduce *)
Definition row_reduce (n : nat) (A : rowsT) : res rowsT := loop 0 n A (rr_step n).
(* bounded.py:70-88 back_solve; the turn t treats i = n - 1 - t; None is the early return of zeros *)
Definition back_solve (A : rowsT) (b : list Qc) : res (list Qc) :=
  let n := length b in
  do x <- loop 0 n (Some (repeat 0 n)) (fun t st =>
    match st with
    | None => Ok None
    | Some x =>
        let i := (n - 1 - t)%nat in
        do p <- rget A i i ;
        if qlt (fabs p) TOO_SMALL then Ok None
        else do s0 <- getR b i ;
             do s <- loop (i + 1) n s0 (fun j s => do a <- rget A i j ; do xj <- getR x j ; Ok (s - a * xj)) ;
             do x' <- wr x i (s / p) ; Ok (Some x')
    end) ;
  Ok (match x with Some x => x | None => repeat 0 n end).
