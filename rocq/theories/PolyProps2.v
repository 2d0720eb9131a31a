(* C125: boolean operations on polygons in general position. *)
From Coq Require Import List Arith ZArith Bool QArith Qcanon Lia.
From Verif Require Import Common QcLib AabbModel ImplModel PolyModel PolySpec PolyProofs6 PolyProofs13 PolyProofs14 PolyProps.
Import ListNotations.
Local Open Scope Qc_scope.

(* the outlines cross, and nothing lies on a line of the other polygon *)
Definition overlapping (s c : list p2) : Prop :=
  s <> [] /\ c <> [] /\ general s c /\ general c s /\ exists e f, In e (outline s) /\ In f (outline c) /\ crosses (e, f).
(* closed polygons along the parts of the outline of s that are inside (or outside) c and the
   other way round, through every crossing of the outlines *)
Definition follows (s c : list p2) (s_inside c_inside : bool) (ps : list (list p2)) : Prop :=
  Forall (fun l => (2 <= length l)%nat /\ (forall d, hd d l = last l d) /\ Forall (fun ab => along s c s_inside ab \/ along c s c_inside ab) (successive l)) ps /\
  forall e f p t t', In e (outline s) -> In f (outline c) -> crosses (e, f) -> p = lerp t (fst e) (snd e) -> p = lerp t' (fst f) (snd f) -> exists l, In l ps /\ In p l.

Lemma clip_follows s c se ce : overlapping s c -> exists n, forall fuel, (n < fuel)%nat -> exists ps, poly_clip fuel s c se ce = Ok ps /\ follows s c se ce ps.
Proof.
  intros [S [C [G1 [G2 X]]]]. destruct (clip_total s c se ce S C) as [n H]. exists n. intros fuel L. destruct (H fuel L) as [ps [E [_ [_ T]]]]. exists ps. split; [exact E|].
  destruct (clip_close s c se ce S C G1 G2 X fuel ps E) as [A B]. pose proof (clip_along s c se ce S C G1 G2 X fuel ps E) as D. specialize (T X). split; [|exact B].
  rewrite Forall_forall in A, D, T |- *. intros l I. split; [exact (T l I)|]. split; [exact (A l I)|exact (D l I)].
Qed.
(* ---- C125 ---- *)
Theorem C125_intersection : forall s c, overlapping s c -> exists n, forall fuel, (n < fuel)%nat -> exists ps, poly_intersection fuel s c = Ok ps /\ follows s c true true ps.
Proof. intros s c. exact (clip_follows s c true true). Qed.
Print Assumptions C125_intersection.
Theorem C125_union : forall s c, overlapping s c -> exists n, forall fuel, (n < fuel)%nat -> exists ps, poly_union fuel s c = Ok ps /\ follows s c false false ps.
Proof. intros s c. exact (clip_follows s c false false). Qed.
Print Assumptions C125_union.
Theorem C125_difference : forall s c, overlapping s c -> exists n, forall fuel, (n < fuel)%nat -> exists ps, poly_difference fuel s c = Ok ps /\ follows s c false true ps.
Proof. intros s c. exact (clip_follows s c false true). Qed.
Print Assumptions C125_difference.

Definition sq3 : list p2 := [pt 2 1; pt 6 1; pt 6 5; pt 2 5].
Ltac qne := let H := fresh in intros H; apply (f_equal this) in H; vm_compute in H; discriminate H.
Ltac qdiff := first [left; reflexivity | right; qne].
Ltac each := repeat match goal with H : In _ (outline _) |- _ => cbn [outline sq1 sq3 combine app] in H | H : In _ sq1 |- _ => unfold sq1 in H | H : In _ sq3 |- _ => unfold sq3 in H | H : In _ [] |- _ => destruct H | H : In _ (_ :: _) |- _ => destruct H as [<-|H] | H : False |- _ => destruct H end.
Lemma sq13_general : general sq1 sq3 /\ general sq3 sq1.
Proof.
  split; (split; [|split]).
  - intros e w I J; each; qne.
  - intros v I; each; (split; unfold generic; [cbn [triangles fan sq3]|cbn [outline sq3 combine app]]; repeat (apply Forall_cons; [cbn [fst snd]; unfold off_line; repeat split; qdiff|]); apply Forall_nil).
  - intros v w E J. cbn in E. injection E as <-. each; (split; [qne|]; split; apply qlt_true; vm_compute; reflexivity).
  - intros e w I J; each; qne.
  - intros v I; each; (split; unfold generic; [cbn [triangles fan sq1]|cbn [outline sq1 combine app]]; repeat (apply Forall_cons; [cbn [fst snd]; unfold off_line; repeat split; qdiff|]); apply Forall_nil).
  - intros v w E J. cbn in E. injection E as <-. each; (split; [qne|]; split; apply qlt_true; vm_compute; reflexivity).
Qed.
Example C125_case : overlapping sq1 sq3 /\ shown_polys (poly_intersection 20 sq1 sq3) = Some [[(4, 1); (4, 4); (2, 4); (2, 1); (4, 1)]]%Q /\
  shown_polys (poly_union 20 sq1 sq3) = Some [[(4, 1); (4, 0); (0, 0); (0, 4); (2, 4); (2, 5); (6, 5); (6, 1); (4, 1)]]%Q.
Proof.
  split; [|split; vm_compute; reflexivity]. split; [discriminate|]. split; [discriminate|]. split; [apply sq13_general|]. split; [apply sq13_general|].
  exists (pt 4 0, pt 4 4), (pt 2 1, pt 6 1). split; [right; left; reflexivity|]. split; [left; reflexivity|]. split; [left|right]; split; apply qlt_true; vm_compute; reflexivity.
Qed.
