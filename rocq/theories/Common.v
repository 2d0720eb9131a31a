(* Shared vocabulary: Python-style results and list update. *)
From Coq Require Import List Arith Lia ZArith Bool.
Import ListNotations.

(* Exceptions the modelled code can raise.  OutOfFuel is not a Python
   exception: it marks that the model's recursion bound was too small, and
   every theorem about a fuelled function excludes it. *)
Inductive err : Type :=
| IndexError | KeyError | ValueError | TypeError | AttributeError
| ZeroDivision | StopIteration | OutOfFuel | NameError.

Inductive res (A : Type) : Type :=
| Ok (a : A)
| Err (e : err).
Arguments Ok {A} a.
Arguments Err {A} e.

Definition bind {A B} (r : res A) (k : A -> res B) : res B :=
  match r with Ok a => k a | Err e => Err e end.

Notation "'do' x <- r ; k" := (bind r (fun x => k))
  (at level 200, x pattern, r at level 100, k at level 200, right associativity).

(* l[i] = v on a list, i in range (no change otherwise; callers check range) *)
Fixpoint upd {A} (l : list A) (i : nat) (v : A) : list A :=
  match l, i with
  | [], _ => []
  | _ :: t, O => v :: t
  | h :: t, S j => h :: upd t j v
  end.

(* l[i] for a natural index, IndexError when out of range *)
Definition getR {A} (l : list A) (i : nat) : res A :=
  match nth_error l i with Some a => Ok a | None => Err IndexError end.
