(* The parallel loop. *)
From Coq Require Import List ZArith Lia Bool QArith Qcanon Permutation.
From Verif Require Import Common ListLib QcLib ArrZ AabbModel AabbSpec AabbProofs AabbProofs2 BvhModel BvhSpec MolModel MolSpec MolProofs1 MolProofs2 MolProofs3.
Import ListNotations.
Local Open Scope Z_scope.

Lemma map_upd_ {A B} (f : A -> B) : forall l i v, map f (upd l i v) = upd (map f l) i (f v).
Proof. induction l as [|a l IH]; intros [|i] v; cbn; auto. now rewrite IH. Qed.
Lemma concat_upd {A} : forall (cs : list (list A)) n i rest, nth_error cs n = Some (i :: rest) -> Permutation (concat cs) (i :: concat (upd cs n rest)).
Proof.
  induction cs as [|c cs IH]; intros [|n] i rest H; cbn in *; try discriminate.
  - injection H as ->. reflexivity.
  - rewrite (IH _ _ _ H). symmetry. apply Permutation_middle.
Qed.
Lemma rd_nth {A} (l : list A) i a : rdZ l i = Ok a -> nth_error l (Z.to_nat i) = Some a.
Proof. unfold rdZ, getR. destruct (i <? 0); [discriminate|]. destruct (nth_error l (Z.to_nat i)); [congruence|discriminate]. Qed.
Lemma nth_rd {A} (l : list A) n a : nth_error l n = Some a -> rdZ l (Z.of_nat n) = Ok a.
Proof. intro H. unfold rdZ, getR. destruct (Z.of_nat n <? 0) eqn:E; [apply Z.ltb_lt in E; lia|]. now rewrite Nat2Z.id, H. Qed.
Lemma rd_map {A B} (f : A -> B) l i a : rdZ l i = Ok a -> rdZ (map f l) i = Ok (f a).
Proof. unfold rdZ, getR. destruct (i <? 0); [discriminate|]. rewrite nth_error_map. destruct (nth_error l (Z.to_nat i)); cbn; [congruence|discriminate]. Qed.

Section S.
Variables (s e : v3) (ts : list tri).
Notation thr := (fun c => mkthread c (Loading 0)).

Lemma whole_ok cs sched : whole s e ts cs sched -> forall m D outs flags, rows_done s e ts D outs flags (souts m) (sflags m) -> NoDup (concat cs) ->
  (forall i, In i (concat cs) -> ~ D i /\ exists t oi, rdZ ts i = Ok t /\ rdZ outs i = Ok oi /\ 0 <= i < lenZ flags) ->
  exists m' hs', run_threads s e ts sched m (start_threads cs) = Ok (m', hs') /\ Forall (fun h => todo h = []) hs' /\
    rows_done s e ts (fun i => D i \/ In i (concat cs)) outs flags (souts m') (sflags m').
Proof.
  induction 1 as [cs E|cs h i rest cs' sched R W H IH]; intros m D outs flags RD ND B.
  - exists m, (start_threads cs). split; [reflexivity|]. split.
    + unfold start_threads. apply Forall_map. revert E. apply Forall_impl. now intros c ->.
    + apply (rows_ext s e ts D); [|exact RD]. intros i _. assert (concat cs = []) as ->; [|cbn; tauto].
      clear - E. induction E as [|c cs -> _ IH]; auto.
  - pose proof (rd_len _ _ _ R) as Lh. rewrite wrZ_ok in W by exact Lh. injection W as <-.
    pose proof (concat_upd _ _ _ _ (rd_nth _ _ _ R)) as P.
    destruct (B i) as [Ni [t [oi [T [O F]]]]]; [eapply Permutation_in; [symmetry; exact P|now left]|].
    assert (Os : rdZ (souts m) i = Ok oi). { destruct RD as [_ [_ Q]]. destruct (Q i (proj1 F)) as [_ Q2]. destruct (Q2 Ni). congruence. }
    assert (Fs : 0 <= i < lenZ (sflags m)). { destruct RD as [_ [Q _]]. unfold lenZ in *. lia. }
    destruct (iteration s e ts i rest t oi m T Os Fs) as [p Ep].
    rewrite run_app, (solo s e ts h _ m (start_threads cs) (mkthread (i :: rest) (Loading 0))) by (apply (rd_map thr _ _ _ R)).
    rewrite Ep. cbn [bind]. unfold start_threads at 1. rewrite <- (map_upd_ thr cs (Z.to_nat h) rest).
    apply (Permutation_NoDup P) in ND. apply NoDup_cons_iff in ND. destruct ND as [NI ND].
    pose proof (rows_step s e ts D outs flags _ _ i t oi RD Ni T O F) as RD'.
    match goal with |- context [run_threads s e ts sched ?m' _] => destruct (IH m' (fun j => D j \/ j = i) outs flags) as [m2 [hs2 [E2 [F2 R2]]]] end.
    + exact RD'.
    + exact ND.
    + intros j J. destruct (B j) as [Nj Bj]; [eapply Permutation_in; [symmetry; exact P|now right]|]. split; [|exact Bj].
      intros [Q|Q]; [tauto|]. subst. contradiction.
    + exists m2, hs2. split; [exact E2|]. split; [exact F2|]. eapply rows_ext; [|exact R2]. intros j _. cbv beta.
      split; intro Q.
      * destruct Q as [[Q|Q]|Q]; [now left| |]; right; (eapply Permutation_in; [symmetry; exact P|]); [subst; now left|now right].
      * destruct Q as [Q|Q]; [tauto|]. apply (Permutation_in _ P) in Q. cbn [In] in Q. intuition congruence.
Qed.

(* ---- what every schedule keeps ---- *)
Definition owned (hs : list thread) (i : Z) : Prop := exists h, In h hs /\ In i (todo h).
Lemma kept_flag D outs o flags f i k : kept D outs o flags f -> D i -> 0 <= i < lenZ f -> 0 <= k <= 3 -> kept D outs o flags (upd f (Z.to_nat i) k).
Proof.
  intros [L1 [L2 H]] Di B K. split; [exact L1|]. split; [now rewrite upd_length|]. intros j J. destruct (H j J) as [H1 H2].
  destruct (Z.eq_dec j i) as [->|N].
  - split; [tauto|]. intros _. right. exists k. split; [now apply rd_upd_eq|exact K].
  - rewrite rd_upd_neq by lia. auto.
Qed.
Lemma kept_out D outs o flags f i v : kept D outs o flags f -> D i -> 0 <= i < lenZ o -> kept D outs (upd o (Z.to_nat i) v) flags f.
Proof.
  intros [L1 [L2 H]] Di B. split; [now rewrite upd_length|]. split; [exact L2|]. intros j J. destruct (H j J) as [H1 H2].
  split; [|exact H2]. intro Q. destruct (Z.eq_dec j i) as [->|N]; [tauto|]. rewrite rd_upd_neq by lia. auto.
Qed.
Lemma classify_03 p t : 0 <= classify p t <= 3.
Proof. destruct (classify_range t p) as [H|[H|H]]; rewrite H; lia. Qed.
Lemma step_kept D outs flags m h : kept D outs (souts m) flags (sflags m) -> (forall i, In i (todo h) -> D i /\ 0 <= i < lenZ ts /\ i < lenZ outs /\ i < lenZ flags) ->
  exists m' h', thread_step s e ts m h = Ok (m', h') /\ kept D outs (souts m') flags (sflags m') /\ incl (todo h') (todo h).
Proof.
  intros K B. unfold thread_step. destruct h as [td w]. cbn [todo at_] in *. destruct td as [|i rest].
  - exists m, (mkthread [] w). split; [reflexivity|]. split; [exact K|apply incl_refl].
  - destruct (B i (or_introl eq_refl)) as [Di [Bt [Bo Bf]]].
    assert (Lo : 0 <= i < lenZ (souts m)) by (destruct K as [L _]; unfold lenZ in *; lia).
    assert (Lf : 0 <= i < lenZ (sflags m)) by (destruct K as [_ [L _]]; unfold lenZ in *; lia).
    assert (IR : incl rest (i :: rest)) by (intros x X; now right).
    destruct w as [k| | | |k].
    + destruct (rdZ ts i) as [t|er] eqn:T; [|rewrite (@rdZ_ok tri (0, 0, 0, (0, 0, 0), (0, 0, 0))%Qc) in T by lia; discriminate].
      cbn [bind]. do 2 eexists. split; [reflexivity|]. split; [exact K|apply incl_refl].
    + destruct (tri_segment (buf m) s e); do 2 eexists; (split; [reflexivity|]); (split; [exact K|apply incl_refl]).
    + rewrite wrZ_ok by exact Lf. cbn [bind]. do 2 eexists. split; [reflexivity|]. split; [|apply incl_refl]. apply kept_flag; auto. apply classify_03.
    + rewrite wrZ_ok by exact Lf. cbn [bind]. do 2 eexists. split; [reflexivity|]. split; [|exact IR]. apply kept_flag; auto. lia.
    + rewrite (@rdZ_ok v3 (0, 0, 0)%Qc) by exact Lo. cbn [bind]. rewrite wrZ_ok by exact Lo. cbn [bind]. do 2 eexists. split; [reflexivity|].
      split; [now apply kept_out|]. destruct (Nat.ltb k 2); [apply incl_refl|exact IR].
Qed.
Lemma In_upd {A} : forall (l : list A) n v x, In x (upd l n v) -> x = v \/ In x l.
Proof. induction l as [|a l IH]; intros [|n] v x H; cbn in *; try tauto; [destruct H as [H|H]; auto|]. destruct H as [H|H]; [auto|]. destruct (IH _ _ _ H); auto. Qed.
Lemma rd_In {A} (l : list A) i a : rdZ l i = Ok a -> In a l.
Proof. intro H. apply rd_nth in H. now apply nth_error_In in H. Qed.
Lemma all_kept D outs flags : forall sched m hs, Forall (fun h => 0 <= h < lenZ hs) sched -> kept D outs (souts m) flags (sflags m) ->
  (forall h i, In h hs -> In i (todo h) -> D i /\ 0 <= i < lenZ ts /\ i < lenZ outs /\ i < lenZ flags) ->
  exists m' hs', run_threads s e ts sched m hs = Ok (m', hs') /\ kept D outs (souts m') flags (sflags m').
Proof.
  induction sched as [|h sched IH]; intros m hs F K B; cbn [run_threads].
  - exists m, hs. auto.
  - inversion F as [|? ? Fh Fs]; subst. rewrite (rdZ_ok (mkthread [] Testing)) by exact Fh. cbn [bind]. set (th := atZ _ hs h).
    assert (T : rdZ hs h = Ok th) by (now apply rdZ_ok).
    destruct (step_kept D outs flags m th K) as [m' [h' [E [K' I']]]]; [intros i Hi; apply (B th i (rd_In _ _ _ T) Hi)|].
    rewrite E. cbn [bind]. rewrite wrZ_ok by exact Fh. cbn [bind]. apply IH.
    + revert Fs. apply Forall_impl. intros a Q. now rewrite lenZ_upd.
    + exact K'.
    + intros h2 i H2 I2. apply In_upd in H2. destruct H2 as [->|H2]; [apply (B th i (rd_In _ _ _ T)); auto|eauto].
Qed.
End S.

(* ---- two threads that disturb each other ---- *)
Ltac go := repeat (progress (cbn - [tri_segment classify out_one]; try change (Pos.to_nat 1) with 1%nat)).
Lemma race s e t0 t1 p m f0 f1 o0 o1 : tri_segment t0 s e = Some p -> tri_segment t1 s e = None ->
  souts m = [o0; o1] -> sflags m = [f0; f1] ->
  (exists sched m' hs', run_threads s e [t0; t1] sched m (start_threads [[0]; [1]]) = Ok (m', hs') /\ Forall (fun h => todo h = []) hs' /\ sflags m' = [0; 0]) /\
  (exists sched m' hs', run_threads s e [t0; t1] sched m (start_threads [[0]; [1]]) = Ok (m', hs') /\ Forall (fun h => todo h = []) hs' /\
     sflags m' = [classify p t0; classify p t0] /\ souts m' = [p; p]).
Proof.
  intros H0 H1 Eo Ef. destruct m as [b q o f]. cbn [souts sflags] in Eo, Ef. subst o f.
  assert (T0 : rdZ [t0; t1] 0 = Ok t0) by reflexivity. assert (T1 : rdZ [t0; t1] 1 = Ok t1) by reflexivity.
  split.
  - exists (repeat 0 9 ++ repeat 1 9 ++ repeat 0 2 ++ repeat 1 2).
    rewrite run_app, (solo s e [t0; t1] 0 9 _ _ (mkthread [0] (Loading 0))) by reflexivity.
    change 9%nat with (9 + 0)%nat at 1. rewrite (load9 s e [t0; t1] 0 0 [] t0 _ T0). cbn [thread_run bind pnt souts sflags].
    rewrite run_app, (solo s e [t0; t1] 1 9 _ _ (mkthread [1] (Loading 0))) by reflexivity.
    change 9%nat with (9 + 0)%nat at 1. rewrite (load9 s e [t0; t1] 0 1 [] t1 _ T1). cbn [thread_run bind pnt souts sflags].
    go. rewrite H1. go. rewrite H1. go. do 2 eexists. split; [reflexivity|]. split; [repeat constructor|reflexivity].
  - exists (repeat 1 9 ++ repeat 0 9 ++ repeat 1 5 ++ repeat 0 5).
    rewrite run_app, (solo s e [t0; t1] 1 9 _ _ (mkthread [1] (Loading 0))) by reflexivity.
    change 9%nat with (9 + 0)%nat at 1. rewrite (load9 s e [t0; t1] 0 1 [] t1 _ T1). cbn [thread_run bind pnt souts sflags].
    rewrite run_app, (solo s e [t0; t1] 0 9 _ _ (mkthread [0] (Loading 0))) by reflexivity.
    change 9%nat with (9 + 0)%nat at 1. rewrite (load9 s e [t0; t1] 0 0 [] t0 _ T0). cbn [thread_run bind pnt souts sflags].
    go. rewrite H0. go. rewrite H0. go. do 2 eexists. split; [reflexivity|]. split; [repeat constructor|].
    cbn [sflags souts]. split; [reflexivity|]. now rewrite !out3.
Qed.
