(* Boxes of the object API. *)
From Coq Require Import List ZArith Lia Bool QArith Qcanon.
From Verif Require Import Common QcLib ArrZ SumLib NurbsModel DerModel PlnModel ApiModel ApiSpec.
From Verif Require AabbModel AabbSpec AabbProofs.
Import ListNotations.
Local Open Scope Z_scope.
Local Open Scope Qc_scope.

Lemma pmin_le a b : pmin a b <= a /\ pmin a b <= b /\ (pmin a b = a \/ pmin a b = b).
Proof. unfold pmin. destruct (qlt b a) eqn:E; [apply qlt_true in E|apply qlt_false in E]; (split; [qlra|split; [qlra|auto]]). Qed.
Lemma pmax_le a b : a <= pmax a b /\ b <= pmax a b /\ (pmax a b = a \/ pmax a b = b).
Proof. unfold pmax. destruct (qlt a b) eqn:E; [apply qlt_true in E|apply qlt_false in E]; (split; [qlra|split; [qlra|auto]]). Qed.
Ltac mm a b := let H := fresh in destruct (pmin_le a b) as (? & ? & [H|H]); destruct (pmax_le a b) as (? & ? & [H|H]).

Lemma api_aabb_len K pts l h : rows_of K pts -> api_aabb pts = Ok (l, h) -> length l = 3%nat /\ length h = 3%nat.
Proof.
  intros Sh E. destruct pts as [|r rest]; [discriminate|]. cbn [api_aabb] in E.
  assert (Lr : lenZ r = Z.of_nat K) by (unfold lenZ; f_equal; inversion Sh; assumption).
  rewrite Lr in E.
  destruct (le_lt_dec K 3) as [LK|LK].
  - destruct (AabbProofs.aabb_tight K (r :: rest) (AabbModel.zeros 3, AabbModel.zeros 3) (AabbModel.zeros 3) (AabbModel.zeros 3)) as (lo & hi & F & _ & _ & L1 & L2 & _);
      [exact Sh|discriminate|reflexivity|cbn; lia|cbn; lia|].
    unfold AabbModel.aabb in E, F. rewrite E in F. injection F as <- <-. rewrite L1, L2. split; reflexivity.
  - rewrite (AabbProofs.aabb_wide K) in E; [discriminate|exact Sh|discriminate|exact LK].
Qed.

Lemma from_array_2d K pts : rows_of K pts -> exists e, bb2_from_array pts = Err e.
Proof.
  intros Sh. unfold bb2_from_array. destruct (api_aabb pts) as [[l h]|e] eqn:E; [|exists e; reflexivity].
  destruct (api_aabb_len K pts l h Sh E) as (L1 & _). cbn [bind fst snd].
  destruct l as [|a [|b [|c [|]]]]; try discriminate. exists ValueError. reflexivity.
Qed.
Lemma union_2d a b : exists e, bb2_union a b = Err e.
Proof. apply (from_array_2d 2). repeat constructor. Qed.
Lemma intersection_2d a b va vb : exists e, bb2_intersection a b va vb = Err e.
Proof. apply (from_array_2d 2). unfold rows_of. rewrite Forall_forall. intros x I. apply in_map_iff in I. destruct I as (y & <- & _). reflexivity. Qed.

Lemma len3 (l : list Qc) : length l = 3%nat -> exists a b c, l = [a; b; c].
Proof. destruct l as [|a [|b [|c [|]]]]; try discriminate. intros _. exists a, b, c. reflexivity. Qed.
Lemma in_box_3 p lo hi : AabbSpec.in_box (lst p) (lst lo) (lst hi) <-> in3 p (mkb3 lo hi).
Proof.
  unfold lst, in3. cbn [mn3 mx3]. split.
  - intros H. inversion H as [|? ? ? ? ? ? A1 A2 R]; subst. inversion R as [|? ? ? ? ? ? B1 B2 S']; subst. inversion S' as [|? ? ? ? ? ? C1 C2 _]; subst.
    repeat split; assumption.
  - intros ((A1 & A2) & (B1 & B2) & C1 & C2). repeat (constructor; [assumption|assumption|]). constructor.
Qed.
Lemma from_array_3d pts : pts <> [] -> exists b, bb3_from_array (map lst pts) = Ok b /\ proper3 b /\ least3 (fun p => In p pts) b.
Proof.
  intros NE. assert (Sh : rows_of 3 (map lst pts)) by (unfold rows_of; rewrite Forall_forall; intros x I; apply in_map_iff in I; destruct I as (y & <- & _); reflexivity).
  destruct (AabbProofs.aabb_tight 3 (map lst pts) (AabbModel.zeros 3, AabbModel.zeros 3) (AabbModel.zeros 3) (AabbModel.zeros 3))
    as (lo & hi & F & C & T & L1 & L2 & _); [exact Sh|destruct pts; [congruence|discriminate]|reflexivity|cbn; lia|cbn; lia|].
  cbn [AabbModel.zeros repeat length] in L1, L2.
  destruct (len3 _ L1) as (a1 & a2 & a3 & ->). destruct (len3 _ L2) as (b1 & b2 & b3 & ->).
  cbn [firstn] in C, T.
  assert (E : api_aabb (map lst pts) = Ok ([a1; a2; a3], [b1; b2; b3])).
  { destruct pts as [|p ps]; [congruence|]. exact F. }
  exists (mkb3 (mkv a1 a2 a3) (mkv b1 b2 b3)).
  assert (IN : forall p, In p pts -> in3 p (mkb3 (mkv a1 a2 a3) (mkv b1 b2 b3))).
  { intros p I. apply in_box_3. cbn [lst vx vy vz]. apply C, in_map, I. }
  split; [|split; [|split]].
  - unfold bb3_from_array. rewrite E. reflexivity.
  - destruct pts as [|p ps]; [congruence|]. destruct (IN p (or_introl eq_refl)) as ((A & B) & (A' & B') & A'' & B'').
    cbn in A, B, A', B', A'', B''. unfold proper3. cbn. split; [qlra|split; qlra].
  - exact IN.
  - intros [lo hi] H q Q. apply in_box_3. apply T; [|apply in_box_3 in Q; exact Q].
    intros p I. apply in_map_iff in I. destruct I as (y & <- & I). apply in_box_3, H, I.
Qed.

Lemma array_3 b : bb3_array b = map lst [mx3 b; mn3 b].
Proof. reflexivity. Qed.
Lemma in3_corners b : proper3 b -> in3 (mn3 b) b /\ in3 (mx3 b) b.
Proof.
  intros (A & B & C). unfold in3.
  split; (split; [split; (assumption || apply Qcle_refl)|split; [split; (assumption || apply Qcle_refl)|split; (assumption || apply Qcle_refl)]]).
Qed.
Lemma in3_between b c p : in3 (mn3 b) c -> in3 (mx3 b) c -> in3 p b -> in3 p c.
Proof.
  intros ((A1 & A2) & (A3 & A4) & A5 & A6) ((B1 & B2) & (B3 & B4) & B5 & B6) ((C1 & C2) & (C3 & C4) & C5 & C6). unfold in3.
  split; [split; qlra|split; split; qlra].
Qed.
Lemma union_3d a b : proper3 a -> proper3 b -> exists c, bb3_union a b = Ok c /\ proper3 c /\ least3 (fun p => in3 p a \/ in3 p b) c.
Proof.
  intros PA PB. destruct (from_array_3d [mx3 a; mn3 a; mx3 b; mn3 b]) as (c & E & Pc & L1 & L2); [discriminate|].
  exists c. split; [exact E|]. split; [exact Pc|].
  destruct (in3_corners a PA) as (A1 & A2). destruct (in3_corners b PB) as (B1 & B2).
  split.
  - intros p [H|H]; [apply (in3_between a)|apply (in3_between b)]; try assumption; apply L1; cbn; tauto.
  - intros d H. apply L2. intros p I. apply H. cbn in I. destruct I as [<-|[<-|[<-|[<-|[]]]]]; tauto.
Qed.

Lemma expand_3d b p : proper3 b -> snd (bb3_expand b p) = true /\ proper3 (fst (bb3_expand b p)) /\ least3 (fun q => in3 q b \/ q = p) (fst (bb3_expand b p)).
Proof.
  intros (P1 & P2 & P3). split; [reflexivity|]. cbn [bb3_expand fst].
  destruct (pmin_le (vx (mn3 b)) (vx p)) as (X1 & X2 & X3). destruct (pmin_le (vy (mn3 b)) (vy p)) as (Y1 & Y2 & Y3). destruct (pmin_le (vz (mn3 b)) (vz p)) as (Z1 & Z2 & Z3).
  destruct (pmax_le (vx (mx3 b)) (vx p)) as (X4 & X5 & X6). destruct (pmax_le (vy (mx3 b)) (vy p)) as (Y4 & Y5 & Y6). destruct (pmax_le (vz (mx3 b)) (vz p)) as (Z4 & Z5 & Z6).
  split; [|split].
  - unfold proper3. cbn [mn3 mx3 vx vy vz]. split; [qlra|split; qlra].
  - intros q [((A1 & A2) & (A3 & A4) & A5 & A6)| ->]; unfold in3; cbn [mn3 mx3 vx vy vz]; (split; [split; qlra|split; split; qlra]).
  - intros c H q ((A1 & A2) & (A3 & A4) & A5 & A6). cbn [mn3 mx3 vx vy vz] in *.
    destruct (H p (or_intror eq_refl)) as ((B1 & B2) & (B3 & B4) & B5 & B6).
    destruct (in3_corners b (conj P1 (conj P2 P3))) as (C1 & C2).
    destruct (H _ (or_introl C1)) as ((D1 & D2) & (D3 & D4) & D5 & D6).
    destruct (H _ (or_introl C2)) as ((E1 & E2) & (E3 & E4) & E5 & E6).
    unfold in3.
    assert (vx (mn3 c) <= vx q) by (destruct X3 as [X|X]; rewrite X in *; qlra).
    assert (vy (mn3 c) <= vy q) by (destruct Y3 as [X|X]; rewrite X in *; qlra).
    assert (vz (mn3 c) <= vz q) by (destruct Z3 as [X|X]; rewrite X in *; qlra).
    assert (vx q <= vx (mx3 c)) by (destruct X6 as [X|X]; rewrite X in *; qlra).
    assert (vy q <= vy (mx3 c)) by (destruct Y6 as [X|X]; rewrite X in *; qlra).
    assert (vz q <= vz (mx3 c)) by (destruct Z6 as [X|X]; rewrite X in *; qlra).
    repeat split; assumption.
Qed.
Lemma combine_3d a b : proper3 a -> proper3 b -> snd (bb3_combine a b) = true /\ proper3 (fst (bb3_combine a b)) /\ least3 (fun q => in3 q a \/ in3 q b) (fst (bb3_combine a b)).
Proof.
  intros (P1 & P2 & P3) (Q1 & Q2 & Q3). split; [reflexivity|]. cbn [bb3_combine fst].
  destruct (pmin_le (vx (mn3 a)) (vx (mn3 b))) as (X1 & X2 & X3). destruct (pmin_le (vy (mn3 a)) (vy (mn3 b))) as (Y1 & Y2 & Y3). destruct (pmin_le (vz (mn3 a)) (vz (mn3 b))) as (Z1 & Z2 & Z3).
  destruct (pmax_le (vx (mx3 a)) (vx (mx3 b))) as (X4 & X5 & X6). destruct (pmax_le (vy (mx3 a)) (vy (mx3 b))) as (Y4 & Y5 & Y6). destruct (pmax_le (vz (mx3 a)) (vz (mx3 b))) as (Z4 & Z5 & Z6).
  split; [|split].
  - unfold proper3. cbn [mn3 mx3 vx vy vz]. split; [qlra|split; qlra].
  - intros q [((A1 & A2) & (A3 & A4) & A5 & A6)|((A1 & A2) & (A3 & A4) & A5 & A6)]; unfold in3; cbn [mn3 mx3 vx vy vz]; (split; [split; qlra|split; split; qlra]).
  - intros c H q ((A1 & A2) & (A3 & A4) & A5 & A6). cbn [mn3 mx3 vx vy vz] in *.
    destruct (in3_corners a (conj P1 (conj P2 P3))) as (C1 & C2).
    destruct (in3_corners b (conj Q1 (conj Q2 Q3))) as (C3 & C4).
    destruct (H _ (or_introl C1)) as ((D1 & D2) & (D3 & D4) & D5 & D6).
    destruct (H _ (or_introl C2)) as ((E1 & E2) & (E3 & E4) & E5 & E6).
    destruct (H _ (or_intror C3)) as ((F1 & F2) & (F3 & F4) & F5 & F6).
    destruct (H _ (or_intror C4)) as ((G1 & G2) & (G3 & G4) & G5 & G6).
    unfold in3.
    assert (vx (mn3 c) <= vx q) by (destruct X3 as [X|X]; rewrite X in *; qlra).
    assert (vy (mn3 c) <= vy q) by (destruct Y3 as [X|X]; rewrite X in *; qlra).
    assert (vz (mn3 c) <= vz q) by (destruct Z3 as [X|X]; rewrite X in *; qlra).
    assert (vx q <= vx (mx3 c)) by (destruct X6 as [X|X]; rewrite X in *; qlra).
    assert (vy q <= vy (mx3 c)) by (destruct Y6 as [X|X]; rewrite X in *; qlra).
    assert (vz q <= vz (mx3 c)) by (destruct Z6 as [X|X]; rewrite X in *; qlra).
    repeat split; assumption.
Qed.
Lemma in2_corners b : proper2 b -> in2 (mn2 b) b /\ in2 (mx2 b) b.
Proof.
  intros (A & B). unfold in2.
  split; (split; split; (assumption || apply Qcle_refl)).
Qed.
Lemma expand_2d b p : proper2 b -> snd (bb2_expand b p) = true /\ proper2 (fst (bb2_expand b p)) /\ least2 (fun q => in2 q b \/ q = p) (fst (bb2_expand b p)).
Proof.
  intros (P1 & P2). split; [reflexivity|]. cbn [bb2_expand fst].
  destruct (pmin_le (fst (mn2 b)) (fst p)) as (X1 & X2 & X3). destruct (pmin_le (snd (mn2 b)) (snd p)) as (Y1 & Y2 & Y3).
  destruct (pmax_le (fst (mx2 b)) (fst p)) as (X4 & X5 & X6). destruct (pmax_le (snd (mx2 b)) (snd p)) as (Y4 & Y5 & Y6).
  split; [|split].
  - unfold proper2. cbn [mn2 mx2 fst snd]. split; qlra.
  - intros q [((A1 & A2) & A3 & A4)| ->]; unfold in2; cbn [mn2 mx2 fst snd]; (split; split; qlra).
  - intros c H q ((A1 & A2) & A3 & A4). cbn [mn2 mx2 fst snd] in *.
    destruct (H p (or_intror eq_refl)) as ((B1 & B2) & B3 & B4).
    destruct (in2_corners b (conj P1 P2)) as (C1 & C2).
    destruct (H _ (or_introl C1)) as ((D1 & D2) & D3 & D4).
    destruct (H _ (or_introl C2)) as ((E1 & E2) & E3 & E4).
    unfold in2.
    assert (fst (mn2 c) <= fst q) by (destruct X3 as [X|X]; rewrite X in *; qlra).
    assert (snd (mn2 c) <= snd q) by (destruct Y3 as [X|X]; rewrite X in *; qlra).
    assert (fst q <= fst (mx2 c)) by (destruct X6 as [X|X]; rewrite X in *; qlra).
    assert (snd q <= snd (mx2 c)) by (destruct Y6 as [X|X]; rewrite X in *; qlra).
    repeat split; assumption.
Qed.
Lemma combine_2d a b : proper2 a -> proper2 b -> snd (bb2_combine a b) = true /\ proper2 (fst (bb2_combine a b)) /\ least2 (fun q => in2 q a \/ in2 q b) (fst (bb2_combine a b)).
Proof.
  intros (P1 & P2) (Q1 & Q2). split; [reflexivity|]. cbn [bb2_combine fst].
  destruct (pmin_le (fst (mn2 a)) (fst (mn2 b))) as (X1 & X2 & X3). destruct (pmin_le (snd (mn2 a)) (snd (mn2 b))) as (Y1 & Y2 & Y3).
  destruct (pmax_le (fst (mx2 a)) (fst (mx2 b))) as (X4 & X5 & X6). destruct (pmax_le (snd (mx2 a)) (snd (mx2 b))) as (Y4 & Y5 & Y6).
  split; [|split].
  - unfold proper2. cbn [mn2 mx2 fst snd]. split; qlra.
  - intros q [((A1 & A2) & A3 & A4)|((A1 & A2) & A3 & A4)]; unfold in2; cbn [mn2 mx2 fst snd]; (split; split; qlra).
  - intros c H q ((A1 & A2) & A3 & A4). cbn [mn2 mx2 fst snd] in *.
    destruct (in2_corners a (conj P1 P2)) as (C1 & C2).
    destruct (in2_corners b (conj Q1 Q2)) as (C3 & C4).
    destruct (H _ (or_introl C1)) as ((D1 & D2) & D3 & D4).
    destruct (H _ (or_introl C2)) as ((E1 & E2) & E3 & E4).
    destruct (H _ (or_intror C3)) as ((F1 & F2) & F3 & F4).
    destruct (H _ (or_intror C4)) as ((G1 & G2) & G3 & G4).
    unfold in2.
    assert (fst (mn2 c) <= fst q) by (destruct X3 as [X|X]; rewrite X in *; qlra).
    assert (snd (mn2 c) <= snd q) by (destruct Y3 as [X|X]; rewrite X in *; qlra).
    assert (fst q <= fst (mx2 c)) by (destruct X6 as [X|X]; rewrite X in *; qlra).
    assert (snd q <= snd (mx2 c)) by (destruct Y6 as [X|X]; rewrite X in *; qlra).
    repeat split; assumption.
Qed.

(* ---- common points ---- *)

Lemma intersects_3d a b : bb3_intersects a b = true <->
  (vx (mn3 b) <= vx (mx3 a) /\ vx (mn3 a) <= vx (mx3 b)) /\ (vy (mn3 b) <= vy (mx3 a) /\ vy (mn3 a) <= vy (mx3 b)) /\
  (vz (mn3 b) <= vz (mx3 a) /\ vz (mn3 a) <= vz (mx3 b)).
Proof. unfold bb3_intersects. rewrite negb_true_iff, !orb_false_iff, !qlt_false. tauto. Qed.
Lemma overlap_3d a b : bb3_overlap a b = bb3_intersects a b.
Proof.
  apply eq_iff_eq_true. rewrite intersects_3d. unfold bb3_overlap.
  destruct (qlt 0 (vx (mn3 b) - vx (mx3 a)) || qlt 0 (vy (mn3 b) - vy (mx3 a)) || qlt 0 (vz (mn3 b) - vz (mx3 a))) eqn:E.
  - split; [discriminate|]. intros ((A & _) & (B & _) & C & _).
    rewrite !orb_true_iff, !qlt_true in E. destruct E as [[E|E]|E]; exfalso; qlra.
  - rewrite !orb_false_iff, !qlt_false in E. destruct E as ((E1 & E2) & E3).
    destruct (qlt 0 (vx (mn3 a) - vx (mx3 b)) || qlt 0 (vy (mn3 a) - vy (mx3 b)) || qlt 0 (vz (mn3 a) - vz (mx3 b))) eqn:F.
    + split; [discriminate|]. intros ((_ & A) & (_ & B) & _ & C).
      rewrite !orb_true_iff, !qlt_true in F. destruct F as [[F|F]|F]; exfalso; qlra.
    + rewrite !orb_false_iff, !qlt_false in F. destruct F as ((F1 & F2) & F3).
      split; [intros _|reflexivity]. split; [split; qlra|split; split; qlra].
Qed.
Lemma meet_3d a b : proper3 a -> proper3 b -> (bb3_intersects a b = true <-> exists p, in3 p a /\ in3 p b).
Proof.
  intros (P1 & P2 & P3) (Q1 & Q2 & Q3). rewrite intersects_3d. split.
  - intros ((A1 & A2) & (A3 & A4) & A5 & A6).
    exists (mkv (pmax (vx (mn3 a)) (vx (mn3 b))) (pmax (vy (mn3 a)) (vy (mn3 b))) (pmax (vz (mn3 a)) (vz (mn3 b)))).
    destruct (pmax_le (vx (mn3 a)) (vx (mn3 b))) as (X4 & X5 & [X6|X6]); destruct (pmax_le (vy (mn3 a)) (vy (mn3 b))) as (Y4 & Y5 & [Y6|Y6]);
      destruct (pmax_le (vz (mn3 a)) (vz (mn3 b))) as (Z4 & Z5 & [Z6|Z6]); rewrite X6, Y6, Z6 in *; unfold in3; cbn [vx vy vz];
      (split; (split; [split; qlra|split; split; qlra])).
  - intros (p & ((A1 & A2) & (A3 & A4) & A5 & A6) & (B1 & B2) & (B3 & B4) & B5 & B6). split; [split; qlra|split; split; qlra].
Qed.
Lemma intersects_2d a b : bb2_intersects a b = true <->
  (fst (mn2 b) <= fst (mx2 a) /\ fst (mn2 a) <= fst (mx2 b)) /\ (snd (mn2 b) <= snd (mx2 a) /\ snd (mn2 a) <= snd (mx2 b)).
Proof. unfold bb2_intersects. rewrite negb_true_iff, !orb_false_iff, !qlt_false. tauto. Qed.
Lemma overlap_2d a b : bb2_overlap a b = bb2_intersects a b.
Proof.
  apply eq_iff_eq_true. rewrite intersects_2d. unfold bb2_overlap.
  destruct (qlt 0 (fst (mn2 b) - fst (mx2 a)) || qlt 0 (snd (mn2 b) - snd (mx2 a))) eqn:E.
  - split; [discriminate|]. intros ((A & _) & B & _).
    rewrite !orb_true_iff, !qlt_true in E. destruct E as [E|E]; exfalso; qlra.
  - rewrite !orb_false_iff, !qlt_false in E. destruct E as (E1 & E2).
    destruct (qlt 0 (fst (mn2 a) - fst (mx2 b)) || qlt 0 (snd (mn2 a) - snd (mx2 b))) eqn:F.
    + split; [discriminate|]. intros ((_ & A) & _ & B).
      rewrite !orb_true_iff, !qlt_true in F. destruct F as [F|F]; exfalso; qlra.
    + rewrite !orb_false_iff, !qlt_false in F. destruct F as (F1 & F2).
      split; [intros _|reflexivity]. split; split; qlra.
Qed.
Lemma meet_2d a b : proper2 a -> proper2 b -> (bb2_intersects a b = true <-> exists p, in2 p a /\ in2 p b).
Proof.
  intros (P1 & P2) (Q1 & Q2). rewrite intersects_2d. split.
  - intros ((A1 & A2) & A3 & A4).
    exists (pmax (fst (mn2 a)) (fst (mn2 b)), pmax (snd (mn2 a)) (snd (mn2 b))).
    destruct (pmax_le (fst (mn2 a)) (fst (mn2 b))) as (X4 & X5 & [X6|X6]); destruct (pmax_le (snd (mn2 a)) (snd (mn2 b))) as (Y4 & Y5 & [Y6|Y6]);
      rewrite X6, Y6 in *; unfold in2; cbn [fst snd]; (split; split; split; qlra).
  - intros (p & ((A1 & A2) & A3 & A4) & (B1 & B2) & B3 & B4). split; split; qlra.
Qed.
Lemma intersection_3d a b : proper3 a -> proper3 b ->
  match bb3_intersection a b with
  | None => forall p, in3 p a -> ~ in3 p b
  | Some c => proper3 c /\ forall p, in3 p c <-> in3 p a /\ in3 p b
  end.
Proof.
  intros PA PB. pose proof (meet_3d a b PA PB) as M. unfold bb3_intersection.
  destruct (bb3_intersects a b) eqn:E; cbn [negb].
  - destruct PA as (P1 & P2 & P3), PB as (Q1 & Q2 & Q3). apply intersects_3d in E. destruct E as ((A1 & A2) & (A3 & A4) & A5 & A6).
    destruct (pmax_le (vx (mn3 a)) (vx (mn3 b))) as (X1 & X2 & X3); destruct (pmax_le (vy (mn3 a)) (vy (mn3 b))) as (Y1 & Y2 & Y3); destruct (pmax_le (vz (mn3 a)) (vz (mn3 b))) as (Z1 & Z2 & Z3).
    destruct (pmin_le (vx (mx3 a)) (vx (mx3 b))) as (X4 & X5 & X6); destruct (pmin_le (vy (mx3 a)) (vy (mx3 b))) as (Y4 & Y5 & Y6); destruct (pmin_le (vz (mx3 a)) (vz (mx3 b))) as (Z4 & Z5 & Z6).
    split.
    + unfold proper3. cbn [mn3 mx3 vx vy vz].
      split; [destruct X3 as [X3|X3], X6 as [X6|X6]; rewrite X3, X6; assumption|].
      split; [destruct Y3 as [X3'|X3'], Y6 as [X6'|X6']; rewrite X3', X6'; assumption|destruct Z3 as [X3'|X3'], Z6 as [X6'|X6']; rewrite X3', X6'; assumption].
    + intros p. unfold in3. cbn [mn3 mx3 vx vy vz]. split.
      * intros ((B1 & B2) & (B3 & B4) & B5 & B6). split; (split; [split; qlra|split; split; qlra]).
      * intros (((B1 & B2) & (B3 & B4) & B5 & B6) & (C1 & C2) & (C3 & C4) & C5 & C6).
        split; [split; [destruct X3 as [X3|X3]; rewrite X3; assumption|destruct X6 as [X6|X6]; rewrite X6; assumption]|].
        split; [split; [destruct Y3 as [Y3|Y3]; rewrite Y3; assumption|destruct Y6 as [Y6|Y6]; rewrite Y6; assumption]|].
        split; [destruct Z3 as [Z3|Z3]; rewrite Z3; assumption|destruct Z6 as [Z6|Z6]; rewrite Z6; assumption].
  - intros p A B. destruct M as (_ & M). discriminate M. exists p. tauto.
Qed.
Lemma contains_2d b p : bb2_contains b p = true <-> in2 p b.
Proof. unfold bb2_contains, in2. rewrite !andb_true_iff, !qle_true. tauto. Qed.
Lemma contains_3d_flat b p q : vx p = vx q -> vy p = vy q -> bb3_contains b p = bb3_contains b q.
Proof. intros X Y. unfold bb3_contains. rewrite X, Y. reflexivity. Qed.
Lemma contains_3d b p : vz (mn3 b) <= vz p -> vz p <= vz (mx3 b) -> (bb3_contains b p = true <-> in3 p b).
Proof. intros A B. unfold bb3_contains, in3. rewrite !andb_true_iff, !qle_true. tauto. Qed.
Lemma contains_3d_outside b p : in3 p b -> forall z, bb3_contains b (mkv (vx p) (vy p) z) = true.
Proof. intros ((A1 & A2) & (A3 & A4) & A5 & A6) z. unfold bb3_contains. cbn [vx vy]. rewrite !andb_true_iff, !qle_true. tauto. Qed.

Lemma copy_3d b : mn3 (bb3_copy b) = mx3 b /\ mx3 (bb3_copy b) = mn3 b.
Proof. split; reflexivity. Qed.
Lemma copy_3d_same b : bb3_copy b = b <-> mn3 b = mx3 b.
Proof. destruct b as [a c]. cbn. split; [intros E; injection E as E _; symmetry; exact E|intros ->; reflexivity]. Qed.
Lemma copy_2d_same b : bb2_copy b = b <-> mn2 b = mx2 b.
Proof. destruct b as [a c]. cbn. split; [intros E; apply (f_equal mn2) in E; cbn in E; symmetry; exact E|intros ->; reflexivity]. Qed.
Lemma qc_le_antisym a b : a <= b -> b <= a -> a = b.
Proof. intros. qlra. Qed.
Lemma copy_3d_empty b : proper3 b -> mn3 b <> mx3 b -> forall p, ~ in3 p (bb3_copy b).
Proof.
  intros (P1 & P2 & P3) NE p ((A1 & A2) & (A3 & A4) & A5 & A6). cbn [bb3_copy bb3_create_min_max mn3 mx3] in *.
  apply NE. destruct b as [[a1 a2 a3] [b1 b2 b3]]. cbn in *. f_equal; qlra.
Qed.
Lemma copy_2d_empty b : proper2 b -> mn2 b <> mx2 b -> forall p, ~ in2 p (bb2_copy b).
Proof.
  intros (P1 & P2) NE p ((A1 & A2) & A3 & A4). cbn [bb2_copy bb2_create_min_max mn2 mx2] in *.
  apply NE. destruct b as [[a1 a2] [b1 b2]]. cbn in *. f_equal; qlra.
Qed.
Lemma half2 x : x / (1 + 1) + x / (1 + 1) = x.
Proof. field. discriminate. Qed.
Lemma centroid_3d b p : proper3 b -> in3 (bb3_centroid b) b /\ (in3 p b -> in3 (vsub (vadd (bb3_centroid b) (bb3_centroid b)) p) b).
Proof.
  intros (P1 & P2 & P3). unfold bb3_centroid, in3. cbn [vx vy vz vadd vsub].
  pose proof (half2 (vx (mn3 b) + vx (mx3 b))) as X. pose proof (half2 (vy (mn3 b) + vy (mx3 b))) as Y. pose proof (half2 (vz (mn3 b) + vz (mx3 b))) as Z.
  set (hx := (vx (mn3 b) + vx (mx3 b)) / (1 + 1)) in *. set (hy := (vy (mn3 b) + vy (mx3 b)) / (1 + 1)) in *. set (hz := (vz (mn3 b) + vz (mx3 b)) / (1 + 1)) in *.
  clearbody hx hy hz. split.
  - split; [split; qlra|split; split; qlra].
  - intros ((A1 & A2) & (A3 & A4) & A5 & A6). split; [split; qlra|split; split; qlra].
Qed.
