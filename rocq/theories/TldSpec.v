(* The files of the triangulation program: how they are written. *)
From Coq Require Import List Arith ZArith Bool QArith Qcanon.
Import ListNotations.
Local Open Scope Qc_scope.

(* an integer as a token *)
Definition tok (z : Z) : Qc := Q2Qc (inject_Z z).
Definition ntok (n : nat) : Qc := tok (Z.of_nat n).
(* all rows have w entries *)
Definition width {A} (w : nat) (l : list (list A)) : Prop := Forall (fun r => length r = w) l.
(* rows with their numbers in front, counted from base *)
Fixpoint numbered (base : Z) (l : list (list Qc)) : list (list Qc) := match l with [] => [] | r :: t => (tok base :: r) :: numbered (base + 1) t end.
(* rows side by side *)
Definition beside {A} (a b : list (list A)) : list (list A) := map (fun p => fst p ++ snd p) (combine a b).
(* a section of a file: its header and its numbered rows *)
Definition section (header : list Qc) (base : Z) (l : list (list Qc)) : list Qc := header ++ concat (numbered base l).
Definition toks (l : list (list Z)) : list (list Qc) := map (map tok) l.
(* indices counted from base *)
Definition based (base : Z) (l : list (list Z)) : list (list Z) := map (map (fun z => z + base)%Z) l.
(* an optional column block: None when it has no columns *)
Definition unless_empty {A} (w : nat) (l : A) : option A := match w with O => None | _ => Some l end.
