(* Specification vocabulary for the R*-tree. *)
From Coq Require Import List Arith ZArith Bool Permutation.
From Verif Require Import Common RtreeModel.
Import ListNotations.

Section S.
Context {R : Type}.
(* everything stored *)
Fixpoint entries (t : rtree R) : list R :=
  match t with Leaf _ es => es | Inner _ cs => flat_map entries cs end.
(* the depth of every leaf, the root being at depth 0 *)
Fixpoint depths (t : rtree R) : list nat :=
  match t with Leaf _ _ => [0] | Inner _ cs => map S (flat_map depths cs) end.
Definition leaf_count (t : rtree R) : nat := length (depths t).
Definition children (t : rtree R) : list (rtree R) := match t with Leaf _ _ => [] | Inner _ cs => cs end.
Definition is_inner (t : rtree R) : Prop := match t with Leaf _ _ => False | Inner _ _ => True end.
(* number of children of a node *)
Definition size (t : rtree R) : nat := match t with Leaf _ es => length es | Inner _ cs => length cs end.
(* t and all nodes below it have between mn and mx children *)
Inductive occupied (mn mx : nat) : rtree R -> Prop :=
| Occ_leaf m es : mn <= length es <= mx -> occupied mn mx (Leaf m es)
| Occ_inner m cs : mn <= length cs <= mx -> Forall (occupied mn mx) cs -> occupied mn mx (Inner m cs).
(* the root may have fewer, but at least two if it is not a leaf *)
Definition occupied_root (mn mx : nat) (t : rtree R) : Prop :=
  match t with Leaf _ es => length es <= mx | Inner _ cs => 2 <= length cs <= mx /\ Forall (occupied mn mx) cs end.
End S.

(* a rectangle that meets q still does after being merged with another *)
Definition lawful (sh : shape) : Prop :=
  forall a b q, meets sh a q = true \/ meets sh b q = true -> meets sh (union sh a b) q = true.
