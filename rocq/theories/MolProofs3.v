(* Many triangles: one after the other and in parallel. *)
From Coq Require Import List ZArith Lia Bool QArith Qcanon Permutation.
From Verif Require Import Common ListLib QcLib ArrZ AabbModel AabbSpec AabbProofs AabbProofs2 BvhModel BvhSpec MolModel MolSpec MolProofs1 MolProofs2.
Import ListNotations.
Local Open Scope Z_scope.

Lemma rd_upd_eq {A} (l : list A) i v : 0 <= i < lenZ l -> rdZ (upd l (Z.to_nat i) v) i = Ok v.
Proof. intro H. rewrite (rdZ_ok v) by (now rewrite lenZ_upd). f_equal. now apply atZ_upd_eq. Qed.
Lemma rd_upd_neq {A} (l : list A) i j v : 0 <= i -> 0 <= j -> i <> j -> rdZ (upd l (Z.to_nat i) v) j = rdZ l j.
Proof.
  intros I J N. unfold rdZ, getR. destruct (j <? 0); [reflexivity|].
  rewrite nth_error_upd_neq by lia. reflexivity.
Qed.
Lemma rd_len {A} (l : list A) i a : rdZ l i = Ok a -> 0 <= i < lenZ l.
Proof. intro H. now apply (rdZ_inv a) in H. Qed.
Lemma rd_upd_same {A} (l : list A) i a : rdZ l i = Ok a -> upd l (Z.to_nat i) a = l.
Proof.
  intro H. apply upd_same. unfold rdZ, getR in H. destruct (i <? 0); [discriminate|].
  destruct (nth_error l (Z.to_nat i)); [congruence|discriminate].
Qed.

Section S.
Variables (s e : v3) (ts : list tri).

(* one more row *)
Lemma rows_step D outs flags o f i t oi : rows_done s e ts D outs flags o f -> ~ D i -> rdZ ts i = Ok t -> rdZ outs i = Ok oi ->
  (0 <= i < lenZ flags)%Z ->
  rows_done s e ts (fun j => D j \/ j = i) outs flags (upd o (Z.to_nat i) (row_out t s e oi)) (upd f (Z.to_nat i) (row_flag t s e)).
Proof.
  intros [L1 [L2 H]] N T O F. pose proof (rd_len _ _ _ O) as B. unfold rows_done. rewrite !upd_length. split; [exact L1|]. split; [exact L2|].
  intros j J. destruct (Z.eq_dec j i) as [->|Ne].
  - split; [|intro Q; exfalso; apply Q; now right]. intros _ t' o' Ht Ho. rewrite T in Ht. injection Ht as <-. rewrite O in Ho. injection Ho as <-.
    split; (rewrite rd_upd_eq; [reflexivity|unfold lenZ in *; lia]).
  - rewrite !rd_upd_neq by lia. destruct (H j J) as [H1 H2]. split; intro Q.
    + apply H1. destruct Q as [Q|Q]; [exact Q|congruence].
    + apply H2. intro. apply Q. now left.
Qed.
Lemma rows_start outs flags : rows_done s e ts (fun _ => False) outs flags outs flags.
Proof. split; [reflexivity|]. split; [reflexivity|]. intros i I. split; [intros []|auto]. Qed.
Lemma rows_ext D D' outs flags o f : (forall i, 0 <= i -> (D i <-> D' i)) -> rows_done s e ts D outs flags o f -> rows_done s e ts D' outs flags o f.
Proof.
  intros E [L1 [L2 H]]. split; [exact L1|]. split; [exact L2|]. intros i I. destruct (H i I) as [H1 H2]. specialize (E i I). split; intro Q; [apply H1|apply H2]; tauto.
Qed.
Lemma rd_ext {A} (l1 l2 : list A) : length l1 = length l2 -> (forall i, 0 <= i -> rdZ l1 i = rdZ l2 i) -> l1 = l2.
Proof.
  intros L H. destruct l1 as [|d l1]; [destruct l2; [reflexivity|discriminate]|].
  apply (list_ext_atZ d); [unfold lenZ; lia|]. intros i I. specialize (H i (proj1 I)).
  rewrite (rdZ_ok d), (rdZ_ok d) in H by (unfold lenZ in *; lia). now injection H.
Qed.
Lemma rows_unique D outs flags o f o' f' : (forall i, 0 <= i -> D i \/ ~ D i) ->
  (forall i, 0 <= i -> D i -> exists t oi, rdZ ts i = Ok t /\ rdZ outs i = Ok oi) ->
  rows_done s e ts D outs flags o f -> rows_done s e ts D outs flags o' f' -> o = o' /\ f = f'.
Proof.
  intros DD DT [L1 [L2 H]] [L1' [L2' H']]. split; apply rd_ext; try congruence; intros i I; destruct (DD i I) as [Q|Q].
  - destruct (DT i I Q) as [t [oi [T O]]]. destruct (H i I) as [A _]. destruct (H' i I) as [A' _]. destruct (A Q t oi T O). destruct (A' Q t oi T O). congruence.
  - destruct (H i I) as [_ A]. destruct (H' i I) as [_ A']. destruct (A Q), (A' Q). congruence.
  - destruct (DT i I Q) as [t [oi [T O]]]. destruct (H i I) as [A _]. destruct (H' i I) as [A' _]. destruct (A Q t oi T O). destruct (A' Q t oi T O). congruence.
  - destruct (H i I) as [_ A]. destruct (H' i I) as [_ A']. destruct (A Q), (A' Q). congruence.
Qed.

Lemma out_none t o : tri_segment t s e = None -> row_out t s e o = o. Proof. unfold row_out. now intros ->. Qed.
Lemma out_some t o p : tri_segment t s e = Some p -> row_out t s e o = p. Proof. unfold row_out. now intros ->. Qed.

Lemma batch_ok outs flags : lenZ ts <= lenZ outs -> lenZ ts <= lenZ flags ->
  exists o f, intersect_triangles_segment ts s e outs flags = Ok (o, f) /\ rows_done s e ts (fun i => i < lenZ ts) outs flags o f.
Proof.
  intros LO LF. unfold intersect_triangles_segment.
  destruct (forZ_inv (fun k st => rows_done s e ts (fun i => i < k) outs flags (fst st) (snd st)) (batch_body s e ts) 0 (lenZ ts) (outs, flags)) as [[o f] [E H]].
  - apply lenZ_nonneg.
  - cbn [fst snd]. eapply rows_ext; [|apply rows_start]. intros i I. cbv beta. split; [intros []|lia].
  - intros i [o f] I R. cbn [fst snd] in R. unfold batch_body. set (t0 := (0, 0, 0, (0, 0, 0), (0, 0, 0))%Qc : tri).
    rewrite (rdZ_ok t0) by lia. cbn [bind fst snd]. set (t := atZ t0 ts i). assert (T : rdZ ts i = Ok t) by (apply rdZ_ok; lia).
    pose proof R as [L1 [L2 RR]]. assert (Bo : 0 <= i < lenZ o) by (unfold lenZ in *; lia). assert (Bf : 0 <= i < lenZ f) by (unfold lenZ in *; lia).
    destruct (rdZ outs i) as [oi|er] eqn:O; [|rewrite (@rdZ_ok v3 (0, 0, 0)%Qc) in O by (unfold lenZ in *; lia); discriminate].
    pose proof (rows_step _ _ _ _ _ i t oi R (Z.lt_irrefl i) T O) as ST. assert (FF : 0 <= i < lenZ flags) by lia. specialize (ST FF).
    apply (rows_ext _ (fun j => j < i + 1)) in ST; [|intros j J; cbv beta; lia].
    unfold row_flag, row_out in ST. destruct (tri_segment t s e) as [p|] eqn:E.
    + rewrite !wrZ_ok by auto. cbn [bind]. eexists; split; [reflexivity|]. exact ST.
    + rewrite !wrZ_ok by auto. cbn [bind]. eexists; split; [reflexivity|]. cbn [fst snd].
      rewrite (rd_upd_same o i oi) in ST; [exact ST|]. destruct (RR i (proj1 I)) as [_ Q]. destruct (Q (Z.lt_irrefl i)). congruence.
  - exists o, f. auto.
Qed.

(* ---- threads ---- *)
Fixpoint thread_run (n : nat) (m : shared) (h : thread) : res (shared * thread) :=
  match n with O => Ok (m, h) | S n => do (m', h') <- thread_step s e ts m h ; thread_run n m' h' end.
Lemma solo h : forall n m hs th, rdZ hs h = Ok th -> run_threads s e ts (repeat h n) m hs = do (m', th') <- thread_run n m th ; Ok (m', upd hs (Z.to_nat h) th').
Proof.
  induction n as [|n IH]; intros m hs th H; cbn [repeat run_threads thread_run].
  - cbn [bind]. now rewrite (rd_upd_same _ _ _ H).
  - rewrite H. cbn [bind]. destruct (thread_step s e ts m th) as [[m' th']|er]; [|reflexivity]. cbn [bind].
    pose proof (rd_len _ _ _ H) as B. rewrite wrZ_ok by exact B. cbn [bind]. rewrite (IH _ _ th') by (now apply rd_upd_eq).
    destruct (thread_run n m' th') as [[m2 t2]|er]; [|reflexivity]. cbn [bind]. now rewrite upd_upd_eq.
Qed.
Lemma run_app : forall a b m hs, run_threads s e ts (a ++ b) m hs = do (m', hs') <- run_threads s e ts a m hs ; run_threads s e ts b m' hs'.
Proof.
  induction a as [|i a IH]; intros b m hs; cbn [app run_threads]; [reflexivity|].
  destruct (rdZ hs i) as [th|er]; [|reflexivity]. cbn [bind]. destruct (thread_step s e ts m th) as [[m' th']|er]; [|reflexivity]. cbn [bind].
  destruct (wrZ hs i th') as [hs'|er]; [|reflexivity]. cbn [bind]. apply IH.
Qed.
Lemma step_load i rest t k m : rdZ ts i = Ok t -> thread_step s e ts m (mkthread (i :: rest) (Loading k)) =
  Ok (mkshared (copy_one k t (buf m)) (pnt m) (souts m) (sflags m), mkthread (i :: rest) (if Nat.ltb k 8 then Loading (S k) else Testing)).
Proof. intro T. unfold thread_step. cbn [todo at_]. now rewrite T. Qed.
Lemma copy9 (t b : tri) : copy_one 8 t (copy_one 7 t (copy_one 6 t (copy_one 5 t (copy_one 4 t (copy_one 3 t (copy_one 2 t (copy_one 1 t (copy_one 0 t b)))))))) = t.
Proof. destruct t as [[[[? ?] ?] [[? ?] ?]] [[? ?] ?]], b as [[[[? ?] ?] [[? ?] ?]] [[? ?] ?]]. reflexivity. Qed.
Lemma load9 n i rest t m : rdZ ts i = Ok t -> thread_run (9 + n) m (mkthread (i :: rest) (Loading 0)) =
  thread_run n (mkshared t (pnt m) (souts m) (sflags m)) (mkthread (i :: rest) Testing).
Proof.
  intro T. destruct m as [b p o f]. cbn [plus thread_run].
  rewrite (step_load i rest t _ _ T). cbn [bind Nat.ltb Nat.leb buf pnt souts sflags].
  rewrite (step_load i rest t _ _ T). cbn [bind Nat.ltb Nat.leb buf pnt souts sflags].
  rewrite (step_load i rest t _ _ T). cbn [bind Nat.ltb Nat.leb buf pnt souts sflags].
  rewrite (step_load i rest t _ _ T). cbn [bind Nat.ltb Nat.leb buf pnt souts sflags].
  rewrite (step_load i rest t _ _ T). cbn [bind Nat.ltb Nat.leb buf pnt souts sflags].
  rewrite (step_load i rest t _ _ T). cbn [bind Nat.ltb Nat.leb buf pnt souts sflags].
  rewrite (step_load i rest t _ _ T). cbn [bind Nat.ltb Nat.leb buf pnt souts sflags].
  rewrite (step_load i rest t _ _ T). cbn [bind Nat.ltb Nat.leb buf pnt souts sflags].
  rewrite (step_load i rest t _ _ T). cbn [bind Nat.ltb Nat.leb buf pnt souts sflags].
  now rewrite copy9.
Qed.
Lemma out3 (p o : v3) : out_one 2 p (out_one 1 p (out_one 0 p o)) = p.
Proof. destruct p as [[? ?] ?], o as [[? ?] ?]. reflexivity. Qed.
Lemma iteration i rest t oi m : rdZ ts i = Ok t -> rdZ (souts m) i = Ok oi -> 0 <= i < lenZ (sflags m) ->
  exists p, thread_run (steps_of s e ts i) m (mkthread (i :: rest) (Loading 0)) =
    Ok (mkshared t p (upd (souts m) (Z.to_nat i) (row_out t s e oi)) (upd (sflags m) (Z.to_nat i) (row_flag t s e)), mkthread rest (Loading 0)).
Proof.
  intros T O F. pose proof (rd_len _ _ _ O) as B. unfold steps_of. rewrite T. unfold row_out, row_flag. destruct (tri_segment t s e) as [p|] eqn:E.
  - exists p. change 14%nat with (9 + 5)%nat. rewrite (load9 5 i rest t m T). cbn [thread_run]. unfold thread_step at 1. cbn [todo at_ buf pnt souts sflags]. rewrite E. cbn [bind].
    unfold thread_step at 1. cbn [todo at_ buf pnt souts sflags]. rewrite wrZ_ok by exact F. cbn [bind].
    unfold thread_step at 1. cbn [todo at_ buf pnt souts sflags]. rewrite O. cbn [bind]. rewrite wrZ_ok by exact B. cbn [bind Nat.ltb Nat.leb].
    unfold thread_step at 1. cbn [todo at_ buf pnt souts sflags]. rewrite rd_upd_eq by exact B. cbn [bind]. rewrite wrZ_ok by (now rewrite lenZ_upd). cbn [bind Nat.ltb Nat.leb].
    unfold thread_step at 1. cbn [todo at_ buf pnt souts sflags]. rewrite upd_upd_eq, rd_upd_eq by exact B. cbn [bind]. rewrite wrZ_ok by (now rewrite lenZ_upd). cbn [bind Nat.ltb Nat.leb].
    rewrite upd_upd_eq, out3. reflexivity.
  - exists (pnt m). change 11%nat with (9 + 2)%nat. rewrite (load9 2 i rest t m T). cbn [thread_run]. unfold thread_step at 1. cbn [todo at_ buf pnt souts sflags]. rewrite E. cbn [bind].
    unfold thread_step at 1. cbn [todo at_ buf pnt souts sflags]. rewrite wrZ_ok by exact F. cbn [bind]. now rewrite (rd_upd_same _ _ _ O).
Qed.
End S.
