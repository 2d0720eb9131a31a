(* Specification vocabulary for C01, C02, C52 (no model code here beyond the
   call constructors). *)
From Coq Require Import List Arith ZArith Relations.
From Verif Require Import UnionFindModel.
Import ListNotations.

(* the pairs a history passed to union *)
Fixpoint pairs (ops : list uf_op) : list (nat * nat) :=
  match ops with
  | [] => []
  | OpUnion x y :: t => (x, y) :: pairs t
  | OpFind _ :: t => pairs t
  end.

(* least equivalence relation containing the pairs *)
Definition linked (ps : list (nat * nat)) : nat -> nat -> Prop :=
  clos_refl_sym_trans nat (fun a b => In (a, b) ps).

(* arguments in range *)
Definition op_ok (n : nat) (o : uf_op) : Prop :=
  match o with OpUnion x y => x < n /\ y < n | OpFind x => x < n end.

(* tuples number i and j have a common element *)
Definition share (ts : list (list Z)) (i j : nat) : Prop :=
  i < length ts /\ j < length ts /\ exists k, In k (nth i ts []) /\ In k (nth j ts []).
