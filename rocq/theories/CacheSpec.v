(* Programs that treat curves as separate objects. *)
From Coq Require Import List ZArith Bool QArith Qcanon.
From Verif Require Import Common QcLib ArrZ NurbsModel NurbsEditModel CacheModel.
Import ListNotations.
Local Open Scope Qc_scope.

(* every array is given to one curve only, knots are not empty *)
Definition own (k : ksrc) : Prop := match k with KFresh K => K <> [] | KShared _ => False end.
Definition clean (c : cmd) : Prop :=
  match c with
  | New _ _ (Some k) _ | SetKnots _ k | SetState _ _ k _ _ _ => own k
  | Set_ _ (PFresh _) k => own k
  | Set_ _ (PShared _) _ | SetDegree _ _ | Copy _ | WritePts _ _ | WriteKnots _ _ | WriteResult _ _ _ => False
  | _ => True
  end.
(* the curve a command is about *)
Definition target (c : cmd) (s : st) : nat :=
  match c with
  | New _ _ _ _ | Copy _ | DeepCopy _ | WritePts _ _ | WriteKnots _ _ => length (objs s)
  | SetPoints i _ | SetKnots i _ | SetWeights i _ | SetDegree i _ | Set_ i _ _ | Insert i _ _ _ | Multiply i _ _ | Normalize i
  | MakePeriodic i | MakeOpen i | SetState i _ _ _ _ _ | Eval i _ | WriteResult i _ _ => i
  end.
