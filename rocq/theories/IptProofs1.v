(* Displacements in parameters. *)
From Coq Require Import List ZArith Lia Bool QArith Qcanon.
From Verif Require Import Common ListLib QcLib ArrZ SumLib NurbsModel DerModel PlnModel PlnSpec PlnProofs2 PlnProofs4 PlnProofs5 VecModel VecSpec VecProofs3 IptModel IptSpec.
Import ListNotations.
Local Open Scope Z_scope.
Local Open Scope Qc_scope.

Lemma small9_pos : 0 < small9.
Proof. apply qlt_true. vm_compute. reflexivity. Qed.

Definition sel (i : Z) (m : Qc) (st : Z * Qc) : Z * Qc := if qlt (snd st) m then (i, m) else st.
Lemma pick_body ms i m st : rdZ ms i = Ok m ->
  (do m <- rdZ ms i ; let temp := m00 m * m11 m - m01 m * m10 m in if qlt (snd st) temp then Ok (i, temp) else Ok st)
  = Ok (sel i (m00 m * m11 m - m01 m * m10 m) st).
Proof. intros ->. cbn [bind]. unfold sel. now destruct (qlt _ _). Qed.
Lemma pick_eq du dv : pick_minor (blocks du dv) = Ok (sel 2 (myz du dv) (sel 1 (mxz du dv) (sel 0 (mxy du dv) (0%Z, 0)))).
Proof.
  unfold pick_minor.
  erewrite forZ_step; [|lia|apply pick_body; reflexivity].
  erewrite forZ_step; [|lia|apply pick_body; reflexivity].
  erewrite forZ_step; [|lia|apply pick_body; reflexivity].
  reflexivity.
Qed.

Lemma pick_spec du dv : exists j d, pick_minor (blocks du dv) = Ok (j, d) /\
  mxy du dv <= d /\ mxz du dv <= d /\ myz du dv <= d /\ 0 <= d /\
  (d = 0 \/ (j = 0%Z /\ d = mxy du dv) \/ (j = 1%Z /\ d = mxz du dv) \/ (j = 2%Z /\ d = myz du dv)).
Proof.
  rewrite pick_eq. unfold sel. cbn [snd].
  destruct (qlt 0 (mxy du dv)) eqn:A; cbn [snd];
    match goal with |- context [qlt ?x (mxz du dv)] => destruct (qlt x (mxz du dv)) eqn:B end; cbn [snd];
    match goal with |- context [qlt ?x (myz du dv)] => destruct (qlt x (myz du dv)) eqn:C end;
    rewrite ?qlt_true, ?qlt_false in *; eexists _, _; (split; [reflexivity|]);
    (split; [qlra|]); (split; [qlra|]); (split; [qlra|]); (split; [qlra|]); auto.
Qed.

Lemma improve_ok du dv p q old : exists r b, improve_uv du dv p q old = Ok (r, b) /\
  (b = true <-> (mxy du dv < small9 /\ mxz du dv < small9 /\ myz du dv < small9)) /\
  (b = true -> r = old) /\
  (b = false -> forall x y, minus3 q p = comb3 x du y dv -> r = mkp x y).
Proof.
  unfold improve_uv. destruct (pick_spec du dv) as [j [d [E [H1 [H2 [H3 [H0 H]]]]]]]. rewrite E. cbn [bind].
  pose proof small9_pos as SP. destruct (qlt d small9) eqn:Q.
  - apply qlt_true in Q. exists old, true. split; [reflexivity|]. split; [split; auto; intros _; split; [qlra|split; qlra]|].
    split; [auto|discriminate].
  - apply qlt_false in Q. assert (Nd : d <> 0) by (intro K; rewrite K in Q; qlra).
    change vsub with minus3. set (dl := minus3 q p).
    destruct H as [->|[[-> ->]|[[-> ->]|[-> ->]]]]; [congruence| | |]; unfold rdZ; cbn [blocks sides Z.ltb Z.compare];
      [change (Z.to_nat 0) with 0%nat|change (Z.to_nat 1) with 1%nat|change (Z.to_nat 2) with 2%nat]; unfold getR, blocks, sides; cbn [nth_error bind m00 m01 m10 m11 p0 p1];
      rewrite !divR_ok_ by auto; cbn [bind]; eexists _, false; (split; [reflexivity|]);
      (split; [split; [discriminate|intros [K1 [K2 K3]]; exfalso; qlra]|]); (split; [discriminate|]);
      intros _ x y K; apply v3_inv in K; unfold comb3 in K; cbn [vx vy vz] in K; destruct K as [Kx [Ky Kz]]; rewrite ?Kx, ?Ky, ?Kz;
      apply v2_ext; cbn [p0 p1]; unfold mxy, mxz, myz in *; field; auto.
Qed.

Lemma improve_swap du dv p q p' q' old old' r : 0 <= mxy du dv -> 0 <= mxz du dv -> 0 <= myz du dv ->
  improve_uv du dv p q old = Ok (r, false) -> improve_uv dv du p' q' old' = Ok (old', true).
Proof.
  intros A B C _. destruct (improve_ok dv du p' q' old') as [r' [b [E [[_ Hb] [Hr _]]]]].
  assert (X : b = true).
  { apply Hb. pose proof small9_pos. unfold mxy, mxz, myz in *. split; [qlra|split; qlra]. }
  subst b. rewrite E, Hr; auto.
Qed.

(* the Python version *)
Lemma max_key_in best l : In (max_key best l) (best :: l).
Proof.
  revert best. induction l as [|x l IH]; intro best; cbn [max_key]; [left; auto|].
  destruct (qlt _ _); destruct (IH x) as [H|H]; destruct (IH best) as [K|K]; cbn; auto.
Qed.
Lemma improve_py_ok du dv p q old : exists r b, improve_uv_py du dv p q old = Ok (r, b) /\
  (b = false -> r = old) /\
  (b = true -> forall x y, minus3 q p = comb3 x du y dv -> r = mkp x y).
Proof.
  unfold improve_uv_py. change vsub with minus3. set (dl := minus3 q p). cbn [combine blocks sides].
  match goal with |- context [max_key ?x ?l] => pose proof (max_key_in x l) as M; set (best := max_key x l) in * end.
  destruct (solve2x2_ok (fst best) (snd best) old) as [r [b [E [_ [S1 S2]]]]]. exists r, b. split; auto. split; auto.
  intros Hb x y K. symmetry. apply (S1 Hb). clear S1 S2 E Hb.
  apply v3_inv in K; unfold comb3 in K; cbn [vx vy vz] in K; destruct K as [Kx [Ky Kz]].
  destruct M as [<-|[<-|[<-|[]]]]; unfold app2; cbn [fst snd m00 m01 m10 m11 p0 p1]; apply v2_ext; cbn [p0 p1]; rewrite ?Kx, ?Ky, ?Kz; ring.
Qed.
Lemma improve_py_axes a d p q old : 0 < a * d ->
  improve_uv_py (mkv a 0 0) (mkv 0 d 0) p q old = Ok (old, false).
Proof.
  intro H. unfold improve_uv_py. cbn [combine blocks sides vx vy vz max_key fst].
  assert (X : qlt (row_det (mkm a 0 0 d)) (row_det (mkm a 0 0 0)) = true).
  { apply qlt_true. unfold row_det. cbn. qnra. }
  rewrite X. cbn [fst snd].
  assert (Y : qlt (row_det (mkm a 0 0 0)) (row_det (mkm 0 d 0 0)) = false).
  { apply qlt_false. unfold row_det. cbn. qnra. }
  rewrite Y. cbn [fst snd]. unfold solve2x2. cbn [m00 m01 m10 m11].
  replace (a * 0 - 0 * 0) with 0 by ring. assert (Z0 : qeq 0 0 = true) by (apply qeq_true; auto). now rewrite Z0.
Qed.
