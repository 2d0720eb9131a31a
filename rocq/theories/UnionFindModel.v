(* Model of /repo/mmcore/ds/union_find.py *)
From Coq Require Import List Arith ZArith.
From Verif Require Import Common.
Import ListNotations.

(* union_find.py:1-4  class UnionFind: the two instance lists *)
Record uf := mkUF { parent : list nat; rank : list nat }.

(* union_find.py:2-4  __init__ *)
Definition uf_init (n : nat) : uf := mkUF (seq 0 n) (repeat 0 n).

(* for find, union_find.py:6-9 *)
Definition set_parent (u : uf) (x p : nat) : uf := mkUF (upd (parent u) x p) (rank u).
(* for uf_union, union_find.py:11-22 *)
Definition set_rank (u : uf) (x r : nat) : uf := mkUF (parent u) (upd (rank u) x r).

(* union_find.py:6-9  find.  The Python recursion is unbounded; the fuel counts
   nested calls.  Indices are non-negative (Python's negative indices are not
   modelled); an index >= n raises IndexError. *)
Fixpoint find (fuel : nat) (u : uf) (x : nat) : res (uf * nat) :=
  match fuel with
  | O => Err OutOfFuel
  | S f =>
      do p <- getR (parent u) x;
      if p =? x then Ok (u, p)
      else do (u', r) <- find f u p;
           let u'' := set_parent u' x r in
           do r' <- getR (parent u'') x;
           Ok (u'', r')
  end.

(* for uf_find, union_find.py:6-9 *)
Definition uf_fuel (u : uf) : nat := S (length (parent u)).

(* union_find.py:6-9 with a recursion bound that is proved to be sufficient *)
Definition uf_find (u : uf) (x : nat) : res (uf * nat) := find (uf_fuel u) u x.

(* union_find.py:11-22  union *)
Definition uf_union (u : uf) (x y : nat) : res uf :=
  do (u1, rx) <- uf_find u x;
  do (u2, ry) <- uf_find u1 y;
  if rx =? ry then Ok u2
  else
    do kx <- getR (rank u2) rx;
    do ky <- getR (rank u2) ry;
    if kx <? ky then Ok (set_parent u2 rx ry)
    else if ky <? kx then Ok (set_parent u2 ry rx)
    else Ok (set_rank (set_parent u2 ry rx) rx (S kx)).

(* histories of calls  [for uf_step, union_find.py:11-22] *)
Inductive uf_op := OpUnion (x y : nat) | OpFind (x : nat).

(* calls of the functions above, one after another *)
Definition uf_step (u : uf) (o : uf_op) : res uf :=
  match o with
  | OpUnion x y => uf_union u x y
  | OpFind x => do (u', _) <- uf_find u x; Ok u'
  end.

(* calls of the functions above, one after another *)
Fixpoint uf_run (u : uf) (ops : list uf_op) : res uf :=
  match ops with
  | [] => Ok u
  | o :: t => do u' <- uf_step u o; uf_run u' t
  end.

(* Python dict with list values, in insertion order (keys compared by ==).
   union_find.py:39-42 and 55-58: "append to the list at key, creating it" *)
Fixpoint dict_append {K V} (eqb : K -> K -> bool) (d : list (K * list V)) (k : K) (v : V)
  : list (K * list V) :=
  match d with
  | [] => [(k, [v])]
  | (k', vs) :: t => if eqb k' k then (k', vs ++ [v]) :: t else (k', vs) :: dict_append eqb t k v
  end.

(* union_find.py:38-42  step 1 of group_tuples, starting at index i *)
Fixpoint build_digits (i : nat) (ts : list (list Z)) (d : list (Z * list nat)) : list (Z * list nat) :=
  match ts with
  | [] => d
  | t :: rest =>
      build_digits (S i) rest (fold_left (fun d num => dict_append Z.eqb d num i) t d)
  end.

(* union_find.py:45-49  step 2: union the first index with each other index *)
Fixpoint union_all (u : uf) (first : nat) (others : list nat) : res uf :=
  match others with
  | [] => Ok u
  | o :: t => do u' <- uf_union u first o; union_all u' first t
  end.

(* union_find.py:45-49 *)
Fixpoint union_digits (u : uf) (d : list (Z * list nat)) : res uf :=
  match d with
  | [] => Ok u
  | (_, indices) :: t =>
      match indices with
      | [] => Err IndexError                       (* indices[0] *)
      | first :: others => do u' <- union_all u first others; union_digits u' t
      end
  end.

(* union_find.py:55-58  step 3 *)
Fixpoint gather (u : uf) (i : nat) (ts : list (list Z)) (g : list (nat * list (list Z)))
  : res (list (nat * list (list Z))) :=
  match ts with
  | [] => Ok g
  | t :: rest =>
      do (u', root) <- uf_find u i;
      gather u' (S i) rest (dict_append Nat.eqb g root t)
  end.

(* union_find.py:25-61  group_tuples (tuples as lists of integers) *)
Definition group_tuples (ts : list (list Z)) : res (list (list (list Z))) :=
  let n := length ts in
  let u := uf_init n in
  do u' <- union_digits u (build_digits 0 ts []);
  do g <- gather u' 0 ts [];
  Ok (map snd g).
