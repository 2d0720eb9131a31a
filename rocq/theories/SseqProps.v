(* Sorted sequences: theorems and concrete cases. *)
From Coq Require Import List Arith ZArith Bool Sorted Lia.
From Verif Require Import Common SkipModel SkipSpec SseqModel SseqSpec SseqProofs1 SseqProofs2 SseqProofs3.
Import ListNotations.

(* C364: all calls act like on a plain list *)
Theorem C364_sequence : forall V (os : list (sop V)) xs n l, does_all (2, []) os xs (n, l) -> exists s, seq_run skip_new os = Ok (xs, s) /\ shows s l.
Proof. exact @sequence_refines. Qed.
Print Assumptions C364_sequence.
Definition demo : list (sop Z) :=
  [SIns 5%Z (Some 50%Z) 2; SIns 1%Z (Some 10%Z) 0; SIns 3%Z None 1; SInsAt 4 2%Z (Some 20%Z); SInsAt 2 9%Z None; SInf 6 (Some 90%Z); SRev 3 2; SDel 4].
Example C364_case : does_all (2, []) demo [Some 2; Some 3; Some 4; Some 5; Some 6; None; None; None]
    (7, [(2, (5%Z, Some 50%Z)); (5, (2%Z, Some 20%Z)); (3, (1%Z, Some 10%Z)); (6, (9%Z, Some 90%Z))]) /\
  (do (xs, s) <- seq_run skip_new demo ; do l <- iteritems s ; do p <- seq_pred s 5 ; Ok (xs, l, len s, p)) =
    Ok ([Some 2; Some 3; Some 4; Some 5; Some 6; None; None; None], entries [(5%Z, Some 50%Z); (2%Z, Some 20%Z); (1%Z, Some 10%Z); (9%Z, Some 90%Z)], 4%Z, Some 2).
Proof.
  split; [|vm_compute; reflexivity].
  eapply da_cons; [apply (d_ins_new 2 [] [] 5%Z (Some 50%Z) 2); [constructor|split; constructor]|].
  eapply da_cons; [apply (d_ins_new 3 [] [(2, (5%Z, Some 50%Z))] 1%Z (Some 10%Z) 0); [repeat constructor|split; repeat constructor]|].
  eapply da_cons; [apply (d_ins_new 4 [(3, (1%Z, Some 10%Z))] [(2, (5%Z, Some 50%Z))] 3%Z None 1); [repeat constructor|split; repeat constructor]|].
  eapply da_cons; [apply (d_at_before 5 [(3, (1%Z, Some 10%Z))] [(2, (5%Z, Some 50%Z))] 4 2%Z 3%Z None (Some 20%Z)); lia|].
  eapply da_cons; [apply (d_at_after 6 [(3, (1%Z, Some 10%Z)); (5, (2%Z, Some 20%Z)); (4, (3%Z, None))] [] 2 9%Z 5%Z (Some 50%Z) None); lia|].
  eapply da_cons; [apply (d_inf 7 [(3, (1%Z, Some 10%Z)); (5, (2%Z, Some 20%Z)); (4, (3%Z, None)); (2, (5%Z, Some 50%Z))] [] 6 9%Z None (Some 90%Z))|].
  eapply da_cons; [apply (d_rev 7 [] [(3, (1%Z, Some 10%Z)); (5, (2%Z, Some 20%Z)); (4, (3%Z, None)); (2, (5%Z, Some 50%Z))] [(6, (9%Z, Some 90%Z))] 3 2); reflexivity|].
  eapply da_cons; [apply (d_del 7 [(2, (5%Z, Some 50%Z))] [(5, (2%Z, Some 20%Z)); (3, (1%Z, Some 10%Z)); (6, (9%Z, Some 90%Z))] 4 (3%Z, None))|].
  apply da_nil.
Qed.

(* C365: locate *)
Theorem C365_locate_refuted : forall V (s : skip V) l k, reached s l -> sorted_items l ->
  (forall f X a w Y, l = f :: X ++ (a, (k, w)) :: Y -> locate s k = Ok (fst f) /\ first_not_below k l = Some a /\ fst f <> a) /\
  (Forall (fun i => (fst (snd i) < k)%Z) l -> locate s k = Ok TAIL /\ first_not_below k l = None).
Proof.
  intros V s l k [os [xs [n [D E]]]] St. pose proof (locate_run _ _ _ _ _ D E) as I. split.
  - intros f X a w Y ->. change (f :: X ++ (a, (k, w)) :: Y) with ((f :: X) ++ (a, (k, w)) :: Y) in *. split; [rewrite (locate_present s n (f :: X) Y a k w I St); reflexivity|]. split.
    + unfold first_not_below. unfold sorted_items in St. rewrite map_app in St. destruct (SkipProofs2.strict_app _ _ St) as [_ [_ C]].
      replace (find (fun i => (k <=? fst (snd i))%Z) ((f :: X) ++ (a, (k, w)) :: Y)) with (Some (a, (k, w))); [reflexivity|].
      assert (Q : forall i, In i (f :: X) -> (fst (snd i) < k)%Z). { intros i J. apply (C (snd i) (k, w)); [now apply in_map|left; auto]. } clear - Q.
      induction (f :: X) as [|i r IH]; cbn; [now rewrite Z.leb_refl|]. destruct (Z.leb_spec k (fst (snd i))); [specialize (Q i (or_introl eq_refl)); lia|]. apply IH. intros j J. apply Q. right. auto.
    + destruct I as [H [G _]]. pose proof (nodup_items _ _ _ G) as ND. cbn [snd] in ND. rewrite map_app in ND. cbn [map] in ND. intro EQ.
      change ((fst f :: map fst X) ++ a :: map fst Y) with (fst f :: (map fst X ++ a :: map fst Y)) in ND. inversion ND as [|? ? N1 _]; subst. apply N1. apply in_or_app. right. left. auto.
  - intro F. split.
    + rewrite <- (app_nil_r l) in I, St. rewrite (locate_absent s n l [] k I St); [reflexivity|]. split; auto.
    + unfold first_not_below. clear - F. induction F as [|i r L _ IH]; cbn; auto. destruct (Z.leb_spec k (fst (snd i))); [lia|]. exact IH.
Qed.
Print Assumptions C365_locate_refuted.
Theorem C365_locate_partial : forall V (s : skip V) l k, reached s l -> sorted_items l -> (forall w, ~ In (k, w) (map snd l)) -> forall a, first_not_below k l = Some a -> locate s k = Ok a.
Proof.
  intros V s l k [os [xs [n [D E]]]] St NI a FA. pose proof (locate_run _ _ _ _ _ D E) as I.
  assert (SP : exists X i Y, l = X ++ i :: Y /\ fst i = a /\ around k X (i :: Y)).
  { clear - St NI FA. unfold first_not_below in FA. unfold sorted_items in St. induction l as [|i l IH]; cbn [find] in FA; [discriminate|]. cbn [map] in St. inversion St as [|? ? S1 S2]; subst.
    destruct (Z.leb_spec k (fst (snd i))) as [L|L].
    - injection FA as FA. exists [], i, l. split; [reflexivity|]. split; [exact FA|]. split; [constructor|]. assert (fst (snd i) <> k). { intro Q. apply (NI (snd (snd i))). left. rewrite <- Q. now destruct (snd i). }
      constructor; [lia|]. apply Forall_forall. intros j J. rewrite Forall_forall in S2. specialize (S2 (fst (snd j))). cut (fst (snd i) < fst (snd j))%Z; [lia|]. apply S2. apply in_map. now apply in_map.
    - destruct IH as [X [j [Y [-> [F [A B]]]]]]; auto. { intros w J. apply (NI w). right. auto. } exists (i :: X), j, Y. split; auto. split; auto. split; auto. }
  destruct SP as [X [i [Y [-> [F AR]]]]]. rewrite (locate_absent s n X (i :: Y) k I St AR). cbn. now rewrite F.
Qed.
Print Assumptions C365_locate_partial.
Definition three : list (sop Z) := [SIns 5%Z None 2; SIns 1%Z None 0; SIns 3%Z None 1].
Definition three_l : list (@item Z) := [(3, (1%Z, None)); (4, (3%Z, None)); (2, (5%Z, None))].
Example C365_case : does_all (2, []) three [Some 2; Some 3; Some 4] (5, three_l) /\ sorted_items three_l /\
  (do (xs, s) <- seq_run skip_new three ; do a <- locate s 5 ; do b <- locate s 4 ; do c <- locate s 6 ; Ok (a, b, c)) = Ok (3, 2, TAIL).
Proof.
  split; [|split; [repeat constructor|vm_compute; reflexivity]].
  eapply da_cons; [apply (d_ins_new 2 [] [] 5%Z None 2); [constructor|split; constructor]|].
  eapply da_cons; [apply (d_ins_new 3 [] [(2, (5%Z, None))] 1%Z None 0); [repeat constructor|split; repeat constructor]|].
  eapply da_cons; [apply (d_ins_new 4 [(3, (1%Z, None))] [(2, (5%Z, None))] 3%Z None 1); [repeat constructor|split; repeat constructor]|].
  apply da_nil.
Qed.
