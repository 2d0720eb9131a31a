(* Marching and separation: lemmas. *)
From Coq Require Import List Arith ZArith Bool QArith Qcanon Lia Lra.
From Verif Require Import Common QcLib ListLib RtModel RtProofs1 NcsModel MchModel MchSpec.
Import ListNotations.
Local Open Scope Qc_scope.

Lemma chain_snoc {A} (R : A -> A -> Prop) l (x y : A) : chain R (l ++ [x]) -> R x y -> chain R ((l ++ [x]) ++ [y]).
Proof.
  intros H HR pre a b post E.
  destruct post as [|z post] using rev_ind.
  - change (pre ++ [a; b]) with (pre ++ [a] ++ [b]) in E. rewrite app_assoc in E. apply app_inj_tail in E as [E ->].
    apply app_inj_tail in E as [_ ->]. exact HR.
  - clear IHpost. replace (pre ++ a :: b :: post ++ [z]) with ((pre ++ a :: b :: post) ++ [z]) in E by now rewrite <- app_assoc.
    apply app_inj_tail in E as [E _]. exact (H pre a b post E).
Qed.

Lemma mi_loop_ok norm cpoint tangent step m e :
  forall fuel p d pts r, mi_loop norm cpoint tangent step fuel m e p d pts = Ok r ->
  (exists l0, pts = l0 ++ [p]) -> chain (fun x y => y = mstep cpoint tangent step x) pts ->
  exists l1, r = pts ++ l1 ++ [e] /\ chain (fun x y => y = mstep cpoint tangent step x) (pts ++ l1) /\
    (length (pts ++ l1) <= Nat.max m (length pts))%nat /\
    (l1 <> [] -> norm (nsub (last l1 []) e) <= half step \/ length (pts ++ l1) = m) /\
    (l1 = [] -> d <= half step \/ (m <= length pts)%nat) /\
    (l1 <> [] -> half step < d) /\
    Forall (fun x => half step < norm (nsub x e)) (removelast l1).
Proof.
  assert (Hend : forall d pts r (l0 : list (list Qc)) p, pts = l0 ++ [p] -> chain (fun x y => y = mstep cpoint tangent step x) pts ->
    (qlt (half step) d && (length pts <? m)%nat)%bool = false -> Ok (pts ++ [e]) = Ok r ->
    exists l1, r = pts ++ l1 ++ [e] /\ chain (fun x y => y = mstep cpoint tangent step x) (pts ++ l1) /\
    (length (pts ++ l1) <= Nat.max m (length pts))%nat /\
    (l1 <> [] -> norm (nsub (last l1 []) e) <= half step \/ length (pts ++ l1) = m) /\
    (l1 = [] -> d <= half step \/ (m <= length pts)%nat) /\
    (l1 <> [] -> half step < d) /\
    Forall (fun x => half step < norm (nsub x e)) (removelast l1)).
  { intros d pts r l0 p _ Hc B E. injection E as <-. exists []. rewrite !app_nil_r.
    split; [reflexivity|]. split; [exact Hc|]. split; [lia|]. split; [easy|]. split; [|split; [easy|constructor]].
    intros _. apply andb_false_iff in B as [B|B]; [left; apply qlt_false in B; qlra|right; apply Nat.ltb_ge in B; exact B]. }
  induction fuel as [|n IH]; intros p d pts r E [l0 Hp] Hc.
  - cbn [mi_loop] in E. destruct (qlt (half step) d && _)%bool eqn:B; [discriminate|]. exact (Hend _ _ _ _ _ Hp Hc B E).
  - cbn [mi_loop] in E. destruct (qlt (half step) d && _)%bool eqn:B; [|exact (Hend _ _ _ _ _ Hp Hc B E)].
    subst pts. apply andb_true_iff in B as [B0 B]. apply qlt_true in B0. apply Nat.ltb_lt in B.
    apply IH in E; [|now exists (l0 ++ [p])|now apply chain_snoc].
    destruct E as (l1 & -> & C1 & C2 & C3 & C4 & C6 & C5).
    set (p' := mstep cpoint tangent step p) in *.
    exists (p' :: l1). replace ((l0 ++ [p]) ++ p' :: l1) with (((l0 ++ [p]) ++ [p']) ++ l1) by now rewrite <- !app_assoc.
    split; [now rewrite <- !app_assoc|]. split; [exact C1|]. split; [rewrite !app_length in *; cbn [length] in *; lia|].
    split; [|split; [discriminate|split; [intros _; exact B0|]]].
    + intros _. destruct l1 as [|a l1].
      * destruct (C4 eq_refl) as [D|D]; [left; exact D|right]. rewrite app_nil_r in *. rewrite !app_length in *. cbn [length] in *. lia.
      * destruct (C3 ltac:(discriminate)) as [D|D]; [left|right; exact D]. exact D.
    + destruct l1 as [|a l1]; [constructor|]. cbn [removelast]. constructor; [|exact C5]. exact (C6 ltac:(discriminate)).
Qed.

Lemma chain_two {A} (R : A -> A -> Prop) (x y : A) : R x y -> chain R [x; y].
Proof.
  intros H pre a b post E. destruct pre as [|c [|c' pre]]; cbn in E.
  - injection E as <- <- _. exact H.
  - injection E as _ _ E. destruct post; discriminate.
  - injection E as _ _ E. destruct pre; discriminate.
Qed.

Lemma mi_loop_total norm cpoint tangent step m e :
  forall fuel p d pts, (m <= length pts + fuel)%nat -> exists r, mi_loop norm cpoint tangent step fuel m e p d pts = Ok r.
Proof.
  induction fuel as [|n IH]; intros p d pts H; cbn [mi_loop].
  - replace (length pts <? m)%nat with false by (symmetry; apply Nat.ltb_ge; lia). rewrite andb_false_r. eauto.
  - destruct (_ && _)%bool; [|eauto]. apply IH. rewrite app_length. cbn [length]. lia.
Qed.

Lemma march_implicit_ok norm cpoint tangent step fuel v0 v1 m r :
  march_implicit norm cpoint tangent step fuel v0 v1 m = Ok r ->
  exists l1, let l := cpoint v0 :: mstep cpoint tangent step (cpoint v0) :: l1 in
    r = l ++ [cpoint (match v1 with Some v => v | None => v0 end)] /\
    chain (fun x y => y = mstep cpoint tangent step x) l /\ (length l <= Nat.max m 2)%nat /\
    (0 < step -> (length l < m)%nat -> norm (nsub (last l []) (cpoint (match v1 with Some v => v | None => v0 end))) <= half step) /\
    Forall (fun x => half step < norm (nsub x (cpoint (match v1 with Some v => v | None => v0 end)))) (removelast l1).
Proof.
  unfold march_implicit. intros E. apply mi_loop_ok in E; [|now exists [cpoint v0]|now apply chain_two].
  destruct E as (l1 & -> & C1 & C2 & C3 & C4 & C5 & C6). exists l1. cbn zeta.
  split; [reflexivity|]. split; [exact C1|]. split; [exact C2|]. split; [|exact C6].
  intros Hs Hl. destruct l1 as [|a l1].
  - destruct (C4 eq_refl) as [D|D]; [|cbn [length app] in *; lia].
    exfalso. unfold half in D. assert (step / Q2Qc (2 # 1) = step * Q2Qc (1 # 2)) as Eh by (change (Q2Qc (1 # 2)) with (/ Q2Qc (2 # 1)); reflexivity). rewrite Eh in D. qlra.
  - destruct (C3 ltac:(discriminate)) as [D|D]; [exact D|cbn [app length] in *; lia].
Qed.

Lemma mx_loop_total norm cross ipoint step outside m e :
  forall fuel p g1 g2 pts, (m <= length pts + fuel)%nat -> exists r, mx_loop norm cross ipoint step outside fuel m e p g1 g2 pts = Ok r.
Proof.
  induction fuel as [|n IH]; intros p g1 g2 pts H; cbn [mx_loop].
  - replace (length pts <? m)%nat with false by (symmetry; apply Nat.ltb_ge; lia). eauto.
  - destruct (_ <? _)%nat; [|eauto]. destruct (outside p); [eauto|]. destruct (qeq _ _); [eauto|].
    destruct (next_point _ _ _ _ _ _ _ _) as [[p1 h1] h2]. destruct (qlt _ _); [eauto|]. apply IH. rewrite app_length. cbn [length]. lia.
Qed.

Lemma nsub_move s : forall p u, nsub p (nscale s u) = nadd p (nscale (- s) u).
Proof.
  unfold nsub, nadd, nscale. induction p as [|a p IH]; intros [|b u]; cbn; try reflexivity. f_equal; [ring|apply IH].
Qed.

Lemma next_point_from norm cross ipoint step pts p g1 g2 :
  exists s, (s = step \/ s = - step) /\
    next_point norm cross ipoint step pts p g1 g2 = ipoint (nadd p (nscale s (nscale (/ norm (cross g1 g2)) (cross g1 g2)))).
Proof.
  unfold next_point. destruct (_ && _)%bool; [exists (- step)|exists step]; (split; [auto|]); [now rewrite nsub_move|reflexivity].
Qed.

Lemma removelast_snoc {A} (l : list A) x : removelast (l ++ [x]) = l.
Proof. apply removelast_last. Qed.

Lemma mx_loop_ok norm cross ipoint step outside m e :
  let R := marched ipoint (fun g1 g2 => nscale (/ norm (cross g1 g2)) (cross g1 g2)) (fun s u x => nadd x (nscale s u)) step in
  forall fuel p g1 g2 pts r, mx_loop norm cross ipoint step outside fuel m e p g1 g2 pts = Ok r ->
  (exists l0, pts = l0 ++ [p]) -> (exists q0, ipoint q0 = (p, g1, g2)) -> Forall (fun x => outside x = false) (removelast pts) -> chain R pts ->
  exists l1, r = pts ++ l1 /\ (length r <= Nat.max m (length pts))%nat /\ chain R r /\
    Forall (fun x => half step <= norm (nsub x e)) l1 /\
    Forall (fun x => outside x = false) (removelast r).
Proof.
  intros R. induction fuel as [|n IH]; intros p g1 g2 pts r E Hp Hq Ho Hc.
  - cbn [mx_loop] in E. destruct (_ <? _)%nat; [discriminate|]. injection E as <-. exists []. rewrite app_nil_r.
    split; [reflexivity|]. split; [lia|]. auto.
  - cbn [mx_loop] in E.
    assert (Hend : Ok pts = Ok r -> exists l1, r = pts ++ l1 /\ (length r <= Nat.max m (length pts))%nat /\ chain R r /\
      Forall (fun x => half step <= norm (nsub x e)) l1 /\
      Forall (fun x => outside x = false) (removelast r)).
    { intros E'. injection E' as <-. exists []. rewrite app_nil_r. split; [reflexivity|]. split; [lia|]. auto. }
    destruct (_ <? _)%nat eqn:B; [|auto]. apply Nat.ltb_lt in B. destruct (outside p) eqn:Op; [auto|]. destruct (qeq _ _); [auto|].
    destruct (next_point _ _ _ _ _ _ _ _) as [[p1 h1] h2] eqn:N. destruct (qlt _ _) eqn:D; [auto|]. apply qlt_false in D.
    destruct (next_point_from norm cross ipoint step pts p g1 g2) as (s & Hs & Q). rewrite N in Q.
    destruct Hp as [l0 ->]. destruct Hq as [q0 Hq].
    apply IH in E; [|now exists (l0 ++ [p])|eexists; symmetry; exact Q| |].
    + destruct E as (l1 & -> & C1 & C2 & C3 & C4). exists (p1 :: l1). split; [now rewrite <- !app_assoc|].
      split; [rewrite !app_length in *; cbn [length] in *; lia|]. split; [exact C2|]. split; [constructor; [qlra|exact C3]|exact C4].
    + rewrite removelast_snoc in *. apply Forall_app. split; [exact Ho|]. constructor; [exact Op|constructor].
    + apply chain_snoc; [exact Hc|]. exists q0. rewrite Hq. split; [reflexivity|]. exists s. split; [exact Hs|]. cbn [fst snd]. now rewrite <- Q.
Qed.

(* --- the raster --- *)
Lemma grid_in xs ys p : In p (grid xs ys) <-> In (fst p) xs /\ In (snd p) ys.
Proof.
  unfold grid. rewrite in_flat_map. split.
  - intros (x & Hx & H). apply in_map_iff in H as (y & <- & Hy). auto.
  - intros [Hx Hy]. exists (fst p). split; [exact Hx|]. apply in_map_iff. exists (snd p). split; [now destruct p|exact Hy].
Qed.

Lemma raster_loop_ok f norm cpoint grad gamma d :
  forall l acc r, raster_loop f norm cpoint grad true gamma d l acc = Ok r ->
  exists l1, r = acc ++ l1 /\ (forall q, In q l1 <-> exists p v g, In p l /\ cpoint p = q /\ f [fst p; snd p] = Ok v /\ grad p = Ok g /\
    norm g <> 0 /\ (if qlt v 0 then - v else v) / norm g < gamma * d).
Proof.
  induction l as [|p l IH]; intros acc r E; cbn [raster_loop] in E.
  - injection E as <-. exists []. rewrite app_nil_r. split; [reflexivity|]. intros q. split; [easy|]. intros (p & v & g & [] & _).
  - destruct (f [fst p; snd p]) as [v|] eqn:Ev; [|discriminate]. destruct (grad p) as [g|] eqn:Eg; [|discriminate]. cbn [bind] in E.
    destruct (negb _ && _)%bool eqn:B.
    + apply IH in E as (l1 & -> & C). exists (cpoint p :: l1). split; [now rewrite <- app_assoc|]. intros q.
      apply andb_true_iff in B as [B1 B2]. apply negb_true_iff, qeq_false in B1. apply qlt_true in B2. split.
      * intros [<-|H]; [exists p, v, g; cbn [In]; auto 10|]. apply C in H as (a & w & k & H & H'). exists a, w, k. cbn [In]. auto.
      * intros (a & w & k & [<-|H] & H'); [left; tauto|right; apply C; eauto 10].
    + apply IH in E as (l1 & -> & C). exists l1. split; [reflexivity|]. intros q. rewrite C. split.
      * intros (a & w & k & H & H'). exists a, w, k. cbn [In]. auto.
      * intros (a & w & k & [<-|H] & H'); [|eauto 10]. exfalso. destruct H' as (_ & F1 & F2 & F3 & F4).
        rewrite Ev in F1. injection F1 as <-. rewrite Eg in F2. injection F2 as <-.
        apply andb_false_iff in B as [B|B]; [apply negb_false_iff, qeq_true in B; auto|]. apply qlt_false in B. revert B F4.
        generalize ((if qlt v 0 then - v else v) / norm g) (gamma * d). intros a b H1 H2. qlra.
Qed.

Lemma raster_loop_total f norm cpoint grad gamma d :
  forall l acc, (forall p, In p l -> (exists v, f [fst p; snd p] = Ok v) /\ exists g, grad p = Ok g) ->
  exists r, raster_loop f norm cpoint grad true gamma d l acc = Ok r.
Proof.
  induction l as [|p l IH]; intros acc H; cbn [raster_loop]; [eauto|].
  destruct (H p (or_introl eq_refl)) as [[v ->] [g ->]]. cbn [bind]. destruct (_ && _)%bool; apply IH; intros; apply H; now right.
Qed.

Lemma raster_loop_plain f norm cpoint grad gamma d :
  forall l acc r, raster_loop f norm cpoint grad false gamma d l acc = Ok r -> r = acc.
Proof.
  induction l as [|p l IH]; intros acc r E; cbn [raster_loop] in E; [now injection E as <-|].
  destruct (f _) as [v|]; [|discriminate]. destruct (grad p) as [g|]; [|discriminate]. cbn [bind] in E. destruct (_ && _)%bool; [discriminate|]. eauto.
Qed.
