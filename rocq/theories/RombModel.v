(* Model of mmcore/numeric/integrate/romberg.pyx.
   Doubles are exact rationals, fun is a total function without side effects;
   C integers do not overflow (1 << (i - 1) and 4**j). *)
From Coq Require Import List ZArith Bool QArith Qcanon.
From Verif Require Import Common QcLib ArrZ SumLib NurbsModel.
Import ListNotations.
Local Open Scope Z_scope.
Local Open Scope Qc_scope.

Section Fun.
Variable f : Qc -> Qc.

(* romberg.pyx:48-50 the sum over the new nodes *)
Definition romb_nodes (a h : Qc) (ep : Z) : res Qc :=
  forZ 1 (ep + 1) 0 (fun j c => Ok (c + f (a + zq (2 * j - 1) * h))).

(* romberg.pyx:53-55 the entries 1 .. i of the new row *)
Definition romb_row (i : Z) (Rp Rc : list Qc) : res (list Qc) :=
  forZ 1 (i + 1) Rc (fun j Rc =>
    let nk := zq (4 ^ j) in
    do x <- rdZ Rc (j - 1) ;
    do y <- rdZ Rp (j - 1) ;
    do q <- divR (nk * x - y) (nk - 1) ;
    wrZ Rc j q).

(* romberg.pyx:44-70 the loop, n iterations left; the two rows change places
   at the end of an iteration *)
Fixpoint romb_loop (n : nat) (i : Z) (a h acc : Qc) (Rp Rc : list Qc) (max_steps : Z) : res Qc :=
  match n with
  | O => rdZ Rp (max_steps - 1)
  | S n' =>
      let h' := h / zq 2 in
      do c <- romb_nodes a h' (2 ^ (i - 1)) ;
      do r0 <- rdZ Rp 0 ;
      do Rc1 <- wrZ Rc 0 (h' * c + 1 / zq 2 * r0) ;
      do Rc2 <- romb_row i Rp Rc1 ;
      do p <- rdZ Rp (i - 1) ;
      do q <- rdZ Rc2 i ;
      if (1 <? i)%Z && qlt (if qlt (p - q) 0 then - (p - q) else p - q) acc then Ok q
      else romb_loop n' (i + 1) a h' acc Rc2 Rp max_steps
  end.

(* romberg.pyx:9-70 romberg1d *)
Definition romberg1d (a b : Qc) (max_steps : Z) (acc : Qc) : res Qc :=
  let R1 := repeat (0 : Qc) (Z.to_nat max_steps) in
  let R2 := repeat (0 : Qc) (Z.to_nat max_steps) in
  let h := b - a in
  do Rp <- wrZ R1 0 (1 / zq 2 * h * (f a + f b)) ;
  romb_loop (Z.to_nat (max_steps - 1)) 1 a h acc Rp R2 max_steps.
End Fun.
