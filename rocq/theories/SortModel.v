(* Model of mmcore/numeric/algorithms/{_quicksort.c,_unique.c,quicksort.pyx}.

   Arrays are lists of exact rationals; every read and write is checked against
   the array bounds (the C code performs no check).  Not modelled: overflow of
   int, stack depth, NaN and infinities, allocation failure. *)
From Coq Require Import List ZArith Bool QArith Qcanon.
From Verif Require Import Common QcLib ArrZ.
Import ListNotations.
Open Scope Z_scope.

(* _quicksort.c:4-8 swap, 39-43 swap_int *)
Definition swap {A} (l : list A) (i j : Z) : res (list A) :=
  do t <- rdZ l i ; do b <- rdZ l j ; do l1 <- wrZ l i b ; wrZ l1 j t.

(* The two partition functions differ in how an element is turned into a value
   (val) and in the comparison with the pivot (goes).
   11-24 partition: val = the element, goes = <.
   45-59 partitionArgSort: val = arr[element], goes = <=.  [_quicksort.c:10-25, 45-59] *)
Definition partition_with {A} (val : A -> res Qc) (goes : Qc -> Qc -> bool) (l : list A) (low high : Z)
  : res (list A * Z) :=
  do ph <- rdZ l high ; do pivot <- val ph ;
  do (l1, i) <- forZ low high (l, low - 1) (fun j st =>
      let '(l, i) := st in
      do e <- rdZ l j ; do x <- val e ;
      if goes x pivot then do l' <- swap l (i + 1) j ; Ok (l', i + 1) else Ok (l, i)) ;
  do l2 <- swap l1 (i + 1) high ;
  Ok (l2, i + 1).

(* _quicksort.c:27-37 quickSort and 61-71 argSort; fuel bounds the recursion depth *)
Fixpoint sort_with {A} (val : A -> res Qc) (goes : Qc -> Qc -> bool) (fuel : nat) (l : list A) (low high : Z)
  : res (list A) :=
  match fuel with
  | O => Err OutOfFuel
  | S f =>
      if low <? high then
        do (l1, pi) <- partition_with val goes l low high ;
        do l2 <- sort_with val goes f l1 low (pi - 1) ;
        sort_with val goes f l2 (pi + 1) high
      else Ok l
  end.

(* quicksort.pyx:13-20 quicksort: the array after the call *)
Definition quicksort (arr : list Qc) : res (list Qc) :=
  sort_with (fun x => Ok x) qlt (S (length arr)) arr 0 (lenZ arr - 1).

(* quicksort.pyx:26-33 argsort; arr is not changed *)
Definition argsort (arr : list Qc) : res (list Z) :=
  let indices := map Z.of_nat (seq 0 (length arr)) in
  sort_with (fun i => rdZ arr i) qle (S (length arr)) indices 0 (lenZ arr - 1).

(* libc qsort with compare / compare2 (_unique.c:5-10, 50-55): sorts by value.
   On rationals the sorted array is unique, so any sorting procedure will do. *)
Fixpoint insert_sorted (x : Qc) (l : list Qc) : list Qc :=
  match l with [] => [x] | y :: r => if qle x y then x :: l else y :: insert_sorted x r end.
(* _unique.c:5-10, 50-55 *)
Definition qsort (l : list Qc) : list Qc := fold_right insert_sorted [] l.

(* for far, _unique.c:12-49 *)
Definition qabs (x : Qc) : Qc := (if qlt x 0 then - x else x)%Qc.

(* the common loop: _unique.c:29-37, 76-86, 116-123; arr is sorted, buf the
   output array; result: the buffer cut to the number of values written *)
Definition unique_loop (differs : Qc -> Qc -> bool) (arr buf : list Qc) : res (list Qc) :=
  do a0 <- rdZ arr 0 ; do buf <- wrZ buf 0 a0 ;
  do (buf, j) <- forZ 1 (lenZ arr) (buf, 1) (fun i st =>
      let '(buf, j) := st in
      do x <- rdZ arr i ; do y <- rdZ arr (i - 1) ;
      if differs x y then do buf <- wrZ buf j x ; Ok (buf, j + 1) else Ok (buf, j)) ;
  Ok (firstn (Z.to_nat j) buf).

(* for uniqueSorted, _unique.c:58-93 *)
Definition neq (x y : Qc) : bool := negb (qeq x y).
(* for uniqueSortedEps, _unique.c:12-49 *)
Definition far (eps : Qc) (x y : Qc) : bool := qlt eps (qabs (x - y)%Qc).

(* Each returns the output array and the input array after the call.
   _unique.c:12-49 uniqueSortedEps (malloc'ed memory is shown as zeros) *)
Definition uniqueSortedEps (arr : list Qc) (eps : Qc) : res (list Qc * list Qc) :=
  match arr with
  | [] => Ok ([], arr)
  | _ => let s := qsort arr in do r <- unique_loop (far eps) s (repeat 0%Qc (length arr)) ; Ok (r, s)
  end.
(* _unique.c:58-93 uniqueSorted *)
Definition uniqueSorted (arr : list Qc) : res (list Qc * list Qc) :=
  match arr with
  | [] => Ok ([], arr)
  | [x] => Ok ([x], arr)
  | _ => let s := qsort arr in do r <- unique_loop neq s (repeat 0%Qc (length arr)) ; Ok (r, s)
  end.
(* quicksort.pyx:41-53 unique(arr) with uniqueSortedByRef (_unique.c:95-130);
   the output buffer is a copy of arr, reallocations keep its contents *)
Definition unique (arr : list Qc) : res (list Qc * list Qc) :=
  match arr with
  | [] => Ok ([], arr)
  | [x] => do b <- wrZ arr 0 x ; Ok (firstn 1 b, arr)
  | _ => let s := qsort arr in do r <- unique_loop neq s arr ; Ok (r, s)
  end.
