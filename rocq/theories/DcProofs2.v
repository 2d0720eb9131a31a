(* Dual contouring: proofs about quadtrees. *)
From Coq Require Import List Arith ZArith Bool QArith Qcanon Lia.
From Verif Require Import Common QcLib AabbModel ImplModel DcModel DcSpec DcProofs1.
Import ListNotations.
Local Open Scope Qc_scope.

Lemma mid_two a b : (a + b) / two = mid a b.
Proof. reflexivity. Qed.
Lemma mid_lt a b : a < b -> a < mid a b /\ mid a b < b.
Proof. intro H. assert (K := half_twice (a + b)). rewrite mid_two in K. set (m := mid a b) in *. clearbody m. split; qlra. Qed.

(* folding *)
Lemma fold_additive (mu : box2 -> Qc) t : (forall q, let '(qa, qb, qc, qd) := quarters q in mu q = mu qa + mu qb + mu qc + mu qd) ->
  forall q, foldTree t q (fun _ => 0) mu mu mu = mu q.
Proof.
  intro M. induction t as [d|n IH|n IH|a IHa b IHb c IHc d IHd]; intro q; cbn [foldTree]; auto. destruct q as ((u, v), (w, z)). rewrite IHa, IHb, IHc, IHd.
  specialize (M ((u, v), (w, z))). unfold quarters, x0, x1, y0, y1 in M. cbn [fst snd] in M. rewrite Qcplus_0_l. symmetry. exact M.
Qed.

(* traversal *)
Lemma trav_all t : map snd (trav_default t) = map Leaf2 (below t).
Proof.
  assert (V : forall p ch, map snd (trav_default ch) = map Leaf2 (below ch) -> map snd (if leaf_filter p ch then [(p, ch)] else trav_default ch) = map Leaf2 (all_leaves ch)).
  { intros p [d|n|n|a b c d] H; cbn [leaf_filter]; auto. }
  induction t as [d|n IH|n IH|a IHa b IHb c IHc d IHd]; auto.
  - exact (V (Empty2 n) n IH).
  - exact (V (Full2 n) n IH).
  - cbn [trav_default below all_leaves]. rewrite !map_app. f_equal; [apply (V (Root2 a b c d)); auto|]. f_equal; [apply (V (Root2 a b c d)); auto|]. f_equal; apply (V (Root2 a b c d)); auto.
Qed.
Lemma trav_leaves t : map snd (trav t leaf_filter) = map Leaf2 (below t).
Proof.
  rewrite <- trav_all. f_equal. destruct t as [d|n|n|a b c d]; cbn [trav flat_map children trav_default]; auto; unfold trav; cbn [children flat_map]; now rewrite ?app_nil_r.
Qed.
Lemma trav_other t fltr : (forall ch, In ch (children t) -> fltr t ch = false) -> map snd (trav t fltr) = map Leaf2 (flat_map below (children t)).
Proof.
  unfold trav. intro H. induction (children t) as [|ch l IH]; auto. cbn [flat_map]. rewrite (H ch (or_introl eq_refl)), !map_app, trav_all. f_equal. apply IH. intros; apply H; now right.
Qed.
Lemma collapse_all s t : all_leaves (collapse2d s t) = all_leaves t.
Proof.
  induction t as [d|n IH|n IH|a IHa b IHb c IHc d IHd]; cbn [collapse2d]; auto.
  - unfold collapse_leaf2. destruct d as ((u, v), (w, z)). destruct (forallb _ _); auto. destruct (forallb _ _); auto.
  - destruct (is_empty2 _ && _ && _ && _); auto. destruct (is_full2 _ && _ && _ && _); auto. cbn [all_leaves]. now rewrite IHa, IHb, IHc, IHd.
Qed.

(* cells of a tiled tree *)
Definition contained (c q : box2) : Prop := (x0 q <= x0 c /\ x1 c <= x1 q) /\ (y0 q <= y0 c /\ y1 c <= y1 q).
Lemma quarters_proper q : proper q -> let '(qa, qb, qc, qd) := quarters q in proper qa /\ proper qb /\ proper qc /\ proper qd.
Proof.
  intros (X & Y). destruct q as ((u, v), (w, z)). unfold proper, quarters, x0, x1, y0, y1 in *. cbn [fst snd] in *. destruct (mid_lt _ _ X) as (X1 & X2). destruct (mid_lt _ _ Y) as (Y1 & Y2). auto 10.
Qed.
Lemma leaves_in t : forall q c, tiled t q -> proper q -> In c (leaves t) -> proper c /\ contained c q.
Proof.
  induction t as [d|n IH|n IH|a IHa b IHb c IHc d IHd]; intros q cell T P K; cbn [leaves tiled] in *; try contradiction.
  - destruct K as [<-|[]]. subst d. split; auto. unfold contained. repeat split; apply Qcle_refl.
  - assert (PQ := quarters_proper q P). unfold quarters in *. destruct T as (Ta & Tb & Tc & Td). destruct PQ as (Pa & Pb & Pc & Pd). destruct P as (X & Y).
    destruct q as ((u, v), (w, z)). unfold x0, x1, y0, y1 in *. cbn [fst snd] in *. destruct (mid_lt _ _ X) as (X1 & X2). destruct (mid_lt _ _ Y) as (Y1 & Y2).
    set (xm := mid u w) in *. set (ym := mid v z) in *. clearbody xm ym.
    rewrite !in_app_iff in K. destruct K as [K|[K|[K|K]]]; [destruct (IHa _ _ Ta Pa K) as (PP & CC)|destruct (IHb _ _ Tb Pb K) as (PP & CC)|destruct (IHc _ _ Tc Pc K) as (PP & CC)|destruct (IHd _ _ Td Pd K) as (PP & CC)];
    (split; [exact PP|]; unfold contained, x0, x1, y0, y1 in *; cbn [fst snd] in *; destruct CC as ((C1 & C2) & C3 & C4); repeat split; qlra).
Qed.

(* the dual edges as pairs of cells *)
Notation cellsH := (edgeProcH (fun c : box2 => c)).
Notation cellsV := (edgeProcV (fun c : box2 => c)).
Definition both {A} (f : box2 -> A) (p : box2 * box2) : A * A := (f (fst p), f (snd p)).
Lemma procH_cells {A} (f : box2 -> A) t1 : forall t2, edgeProcH f t1 t2 = map (both f) (cellsH t1 t2).
Proof.
  induction t1 as [d1|n1 _|n1 _|a1 _ b1 IHb c1 _ d1 IHd]; induction t2 as [d2|n2 _|n2 _|a2 IHa2 b2 _ c2 IHc2 d2 _]; try reflexivity.
  - cbn [edgeProcH]. rewrite map_app. f_equal; [exact IHa2|exact IHc2].
  - cbn [edgeProcH]. rewrite map_app. f_equal; [apply IHb|apply IHd].
  - cbn [edgeProcH]. rewrite map_app. f_equal; [apply IHb|apply IHd].
Qed.
Lemma procV_cells {A} (f : box2 -> A) t1 : forall t2, edgeProcV f t1 t2 = map (both f) (cellsV t1 t2).
Proof.
  induction t1 as [d1|n1 _|n1 _|a1 IHa b1 IHb c1 _ d1 _]; induction t2 as [d2|n2 _|n2 _|a2 _ b2 _ c2 IHc2 d2 IHd2]; try reflexivity.
  - cbn [edgeProcV]. rewrite map_app. f_equal; [exact IHc2|exact IHd2].
  - cbn [edgeProcV]. rewrite map_app. f_equal; [apply IHa|apply IHb].
  - cbn [edgeProcV]. rewrite map_app. f_equal; [apply IHa|apply IHb].
Qed.

Ltac quads := unfold beside, proper, contained, x0, x1, y0, y1 in *; cbn [fst snd] in *.
Lemma leafH q1 t2 : forall q2 c1 c2, tiled t2 q2 -> proper q2 -> x1 q1 = x0 q2 ->
  (In (c1, c2) (cellsH (Leaf2 q1) t2) <-> c1 = q1 /\ In c2 (leaves t2) /\ x0 c2 = x0 q2).
Proof.
  induction t2 as [d|n _|n _|a IHa b _ c IHc d _]; intros q2 c1 c2 T P X; cbn [edgeProcH leaves].
  - cbn [tiled] in T. subst d. cbn [In]. split; [intros [K|[]]; injection K as <- <-; auto|intros (-> & [<-|[]] & _); auto].
  - cbn [In]. tauto.
  - cbn [In]. tauto.
  - assert (PQ := quarters_proper q2 P). cbn [tiled] in T. unfold quarters in *. destruct T as (Ta & Tb & Tc & Td). destruct PQ as (Pa & Pb & Pc & Pd).
    assert (Lb := fun cell => leaves_in b _ cell Tb Pb). assert (Ld := fun cell => leaves_in d _ cell Td Pd). destruct P as (Px & Py). destruct (mid_lt _ _ Px) as (X1 & X2).
    rewrite !in_app_iff. change (In (c1, c2) (cellsH (Leaf2 q1) a) \/ In (c1, c2) (cellsH (Leaf2 q1) c) <-> c1 = q1 /\ (In c2 (leaves a) \/ In c2 (leaves b) \/ In c2 (leaves c) \/ In c2 (leaves d)) /\ x0 c2 = x0 q2).
    rewrite (IHa _ c1 c2 Ta Pa X), (IHc _ c1 c2 Tc Pc X). clear IHa IHc. change (x0 (x0 q2, y0 q2, (mid (x0 q2) (x1 q2), mid (y0 q2) (y1 q2)))) with (x0 q2). change (x0 (x0 q2, mid (y0 q2) (y1 q2), (mid (x0 q2) (x1 q2), y1 q2))) with (x0 q2).
    split; [tauto|]. intros (-> & [K|[K|[K|K]]] & E); auto; exfalso.
    + destruct (Lb _ K) as (_ & ((C & _) & _)). change (mid (x0 q2) (x1 q2) <= x0 c2) in C. rewrite E in C. set (m := mid (x0 q2) (x1 q2)) in *. clearbody m. qlra.
    + destruct (Ld _ K) as (_ & ((C & _) & _)). change (mid (x0 q2) (x1 q2) <= x0 c2) in C. rewrite E in C. set (m := mid (x0 q2) (x1 q2)) in *. clearbody m. qlra.
Qed.
Lemma rootH q2 t1 : forall q1 c1 c2, tiled t1 q1 -> proper q1 -> x1 q1 = x0 q2 ->
  (In (c1, c2) (cellsH t1 (Leaf2 q2)) <-> In c1 (leaves t1) /\ c2 = q2 /\ x1 c1 = x1 q1).
Proof.
  induction t1 as [d|n _|n _|a _ b IHb c _ d IHd]; intros q1 c1 c2 T P X; cbn [edgeProcH leaves].
  - cbn [tiled] in T. subst d. cbn [In]. split; [intros [K|[]]; injection K as <- <-; auto|intros ([<-|[]] & -> & _); auto].
  - cbn [In]. tauto.
  - cbn [In]. tauto.
  - assert (PQ := quarters_proper q1 P). cbn [tiled] in T. unfold quarters in *. destruct T as (Ta & Tb & Tc & Td). destruct PQ as (Pa & Pb & Pc & Pd).
    assert (La := fun cell => leaves_in a _ cell Ta Pa). assert (Lc := fun cell => leaves_in c _ cell Tc Pc). destruct P as (Px & Py). destruct (mid_lt _ _ Px) as (X1 & X2).
    rewrite !in_app_iff. rewrite (IHb _ c1 c2 Tb Pb X), (IHd _ c1 c2 Td Pd X). clear IHb IHd.
    change (x1 (mid (x0 q1) (x1 q1), y0 q1, (x1 q1, mid (y0 q1) (y1 q1)))) with (x1 q1). change (x1 (mid (x0 q1) (x1 q1), mid (y0 q1) (y1 q1), (x1 q1, y1 q1))) with (x1 q1).
    split; [tauto|]. intros ([K|[K|[K|K]]] & -> & E); auto; exfalso.
    + destruct (La _ K) as (_ & ((_ & C) & _)). change (x1 c1 <= mid (x0 q1) (x1 q1)) in C. rewrite E in C. set (m := mid (x0 q1) (x1 q1)) in *. clearbody m. qlra.
    + destruct (Lc _ K) as (_ & ((_ & C) & _)). change (x1 c1 <= mid (x0 q1) (x1 q1)) in C. rewrite E in C. set (m := mid (x0 q1) (x1 q1)) in *. clearbody m. qlra.
Qed.
Lemma procH_ok t1 : forall t2 q1 q2 c1 c2, tiled t1 q1 -> tiled t2 q2 -> proper q1 -> proper q2 -> x1 q1 = x0 q2 -> y0 q1 = y0 q2 -> y1 q1 = y1 q2 ->
  (In (c1, c2) (cellsH t1 t2) <-> In c1 (leaves t1) /\ In c2 (leaves t2) /\ beside c1 c2).
Proof.
  induction t1 as [d1|n1 _|n1 _|a1 _ b1 IHb k1 _ d1 IHd]; intros t2 q1 q2 c1 c2 T1 T2 P1 P2 X Y0 Y1.
  - cbn [tiled] in T1. subst d1. rewrite (leafH q1 t2 q2) by auto. cbn [leaves In]. split.
    + intros (-> & K & E). split; auto. split; auto. destruct (leaves_in t2 q2 c2 T2 P2 K) as (PC & ((C1 & C2) & C3 & C4)). unfold beside. rewrite X. split; auto. unfold proper in *. rewrite Y0, Y1. split; destruct P1, P2, PC; qlra.
    + intros ([<-|[]] & K & B1 & _). split; auto. split; auto. congruence.
  - destruct t2; cbn [edgeProcH leaves In]; tauto.
  - destruct t2; cbn [edgeProcH leaves In]; tauto.
  - destruct t2 as [d2|n2|n2|a2 b2 k2 d2].
    + cbn [tiled] in T2. subst d2. rewrite (rootH q2 _ q1) by auto. change (leaves (Leaf2 q2)) with [q2]. split.
      * intros (K & -> & E). split; auto. split; [now left|]. destruct (leaves_in _ q1 c1 T1 P1 K) as (PC & ((C1 & C2) & C3 & C4)). unfold beside. rewrite E. split; auto. unfold proper in *. rewrite <- Y0, <- Y1. destruct P1, P2, PC. split; qlra.
      * intros (K & [<-|[]] & B1 & _). split; auto. split; auto. congruence.
    + cbn [edgeProcH leaves In]. tauto.
    + cbn [edgeProcH leaves In]. tauto.
    + assert (PQ1 := quarters_proper q1 P1). assert (PQ2 := quarters_proper q2 P2). cbn [tiled] in T1, T2. unfold quarters in *.
      destruct T1 as (Ta & Tb & Tc & Td). destruct PQ1 as (Pa & Pb & Pc & Pd). destruct T2 as (Ta2 & Tb2 & Tc2 & Td2). destruct PQ2 as (Pa2 & Pb2 & Pc2 & Pd2).
      assert (La := fun cell => leaves_in a1 _ cell Ta Pa). assert (Lb := fun cell => leaves_in b1 _ cell Tb Pb). assert (Lc := fun cell => leaves_in k1 _ cell Tc Pc). assert (Ld := fun cell => leaves_in d1 _ cell Td Pd).
      assert (La2 := fun cell => leaves_in a2 _ cell Ta2 Pa2). assert (Lb2 := fun cell => leaves_in b2 _ cell Tb2 Pb2). assert (Lc2 := fun cell => leaves_in k2 _ cell Tc2 Pc2). assert (Ld2 := fun cell => leaves_in d2 _ cell Td2 Pd2).
      destruct P1 as (Px1 & Py1). destruct P2 as (Px2 & Py2). destruct (mid_lt _ _ Px1) as (X1 & X2). destruct (mid_lt _ _ Px2) as (X3 & X4).
      cbn [edgeProcH leaves]. rewrite !in_app_iff.
      rewrite (IHb a2 _ _ c1 c2 Tb Ta2 Pb Pa2) by (unfold x0, x1, y0, y1 in *; cbn [fst snd]; congruence).
      rewrite (IHd k2 _ _ c1 c2 Td Tc2 Pd Pc2) by (unfold x0, x1, y0, y1 in *; cbn [fst snd]; congruence). clear IHb IHd.
      split; [tauto|]. intros (K1 & K2 & B). destruct q1 as ((u1, v1), (w1, z1)). destruct q2 as ((u2, v2), (w2, z2)). quads. subst u2 v2 z2.
      set (xm1 := mid u1 w1) in *. set (xm2 := mid w1 w2) in *. set (ym := mid v1 z1) in *. clearbody xm1 xm2 ym. destruct B as (B1 & B2 & B3).
      destruct K1 as [K1|[K1|[K1|K1]]].
      * exfalso. destruct (La _ K1) as (_ & (_ & C) & _). destruct K2 as [K2|[K2|[K2|K2]]]; [destruct (La2 _ K2) as (_ & (D & _) & _)|destruct (Lb2 _ K2) as (_ & (D & _) & _)|destruct (Lc2 _ K2) as (_ & (D & _) & _)|destruct (Ld2 _ K2) as (_ & (D & _) & _)]; qlra.
      * destruct (Lb _ K1) as (_ & (_ & C) & _ & C'). destruct K2 as [K2|[K2|[K2|K2]]]; [left; auto|exfalso; destruct (Lb2 _ K2) as (_ & (D & _) & _); qlra|exfalso; destruct (Lc2 _ K2) as (_ & _ & (D & _)); qlra|exfalso; destruct (Ld2 _ K2) as (_ & (D & _) & _); qlra].
      * exfalso. destruct (Lc _ K1) as (_ & (_ & C) & _). destruct K2 as [K2|[K2|[K2|K2]]]; [destruct (La2 _ K2) as (_ & (D & _) & _)|destruct (Lb2 _ K2) as (_ & (D & _) & _)|destruct (Lc2 _ K2) as (_ & (D & _) & _)|destruct (Ld2 _ K2) as (_ & (D & _) & _)]; qlra.
      * destruct (Ld _ K1) as (_ & (_ & C) & C' & _). destruct K2 as [K2|[K2|[K2|K2]]]; [exfalso; destruct (La2 _ K2) as (_ & _ & (_ & D)); qlra|exfalso; destruct (Lb2 _ K2) as (_ & (D & _) & _); qlra|right; auto|exfalso; destruct (Ld2 _ K2) as (_ & (D & _) & _); qlra].
Qed.
Lemma procH_feature {A} (f : box2 -> A) t1 t2 q1 q2 p : tiled t1 q1 -> tiled t2 q2 -> proper q1 -> proper q2 -> x1 q1 = x0 q2 -> y0 q1 = y0 q2 -> y1 q1 = y1 q2 ->
  (In p (edgeProcH f t1 t2) <-> exists c1 c2, In c1 (leaves t1) /\ In c2 (leaves t2) /\ beside c1 c2 /\ p = (f c1, f c2)).
Proof.
  intros. rewrite procH_cells, in_map_iff. split.
  - intros ((c1, c2) & <- & K). exists c1, c2. apply (procH_ok t1 t2 q1 q2) in K; auto. tauto.
  - intros (c1 & c2 & K1 & K2 & B & ->). exists (c1, c2). split; auto. apply (procH_ok t1 t2 q1 q2); auto.
Qed.

(* vertical neighbours: the wrong halves *)
Lemma procV_leaves t1 : forall t2 c1 c2, In (c1, c2) (cellsV t1 t2) -> In c1 (leaves t1) /\ In c2 (leaves t2).
Proof.
  induction t1 as [d1|n1 _|n1 _|a1 IHa b1 IHb k1 _ d1 _]; induction t2 as [d2|n2 _|n2 _|a2 _ b2 _ k2 IHc2 d2 IHd2]; intros c1 c2 K; try contradiction K.
  - destruct K as [K|[]]. injection K as <- <-. cbn. auto.
  - change (In (c1, c2) (cellsV (Leaf2 d1) k2 ++ cellsV (Leaf2 d1) d2)) in K. cbn [leaves]. rewrite !in_app_iff in *. destruct K as [K|K]; [apply IHc2 in K|apply IHd2 in K]; tauto.
  - cbn [edgeProcV] in K. rewrite in_app_iff in K. cbn [leaves]. rewrite !in_app_iff. destruct K as [K|K]; [apply IHa in K|apply IHb in K]; cbn [leaves] in K; tauto.
  - cbn [edgeProcV] in K. rewrite in_app_iff in K. cbn [leaves]. rewrite !in_app_iff. destruct K as [K|K]; [apply IHa in K|apply IHb in K]; tauto.
Qed.
Lemma lower_half a b c d q cell : tiled (Root2 a b c d) q -> proper q -> In cell (leaves a) \/ In cell (leaves b) -> y1 cell < y1 q.
Proof.
  intros T P K. assert (PQ := quarters_proper q P). cbn [tiled] in T. unfold quarters in *. destruct T as (Ta & Tb & _). destruct PQ as (Pa & Pb & _). destruct P as (_ & Py). destruct (mid_lt _ _ Py) as (Y1 & Y2).
  destruct K as [K|K]; [destruct (leaves_in a _ _ Ta Pa K) as (_ & _ & _ & C)|destruct (leaves_in b _ _ Tb Pb K) as (_ & _ & _ & C)];
  change (y1 cell <= mid (y0 q) (y1 q)) in C; eapply Qcle_lt_trans; eauto.
Qed.
Lemma upper_half a b c d q cell : tiled (Root2 a b c d) q -> proper q -> In cell (leaves c) \/ In cell (leaves d) -> y0 q < y0 cell.
Proof.
  intros T P K. assert (PQ := quarters_proper q P). cbn [tiled] in T. unfold quarters in *. destruct T as (_ & _ & Tc & Td). destruct PQ as (_ & _ & Pc & Pd). destruct P as (_ & Py). destruct (mid_lt _ _ Py) as (Y1 & Y2).
  destruct K as [K|K]; [destruct (leaves_in c _ _ Tc Pc K) as (_ & _ & C & _)|destruct (leaves_in d _ _ Td Pd K) as (_ & _ & C & _)];
  change (mid (y0 q) (y1 q) <= y0 cell) in C; eapply Qclt_le_trans; eauto.
Qed.
Lemma procV_gap {A} (f : box2 -> A) t1 t2 q1 q2 p : tiled t1 q1 -> tiled t2 q2 -> proper q1 -> proper q2 -> y1 q1 = y0 q2 -> (is_root t1 \/ is_root t2) ->
  In p (edgeProcV f t1 t2) -> exists c1 c2, In c1 (leaves t1) /\ In c2 (leaves t2) /\ p = (f c1, f c2) /\ y1 c1 < y0 c2.
Proof.
  intros T1 T2 P1 P2 Y R K. rewrite procV_cells, in_map_iff in K. destruct K as ((c1, c2) & <- & K). exists c1, c2. destruct (procV_leaves _ _ _ _ K) as (L1 & L2). split; auto. split; auto. split; auto.
  destruct (leaves_in t1 q1 c1 T1 P1 L1) as (_ & _ & _ & C1). destruct (leaves_in t2 q2 c2 T2 P2 L2) as (_ & _ & C2 & _).
  destruct t1 as [d1|n1|n1|a1 b1 k1 d1]; destruct t2 as [d2|n2|n2|a2 b2 k2 d2]; cbn [is_root] in R; try tauto; try contradiction K.
  - change (In (c1, c2) (cellsV (Leaf2 d1) k2 ++ cellsV (Leaf2 d1) d2)) in K. rewrite in_app_iff in K. assert (U : y0 q2 < y0 c2).
    { apply (upper_half a2 b2 k2 d2); auto. destruct K as [K|K]; apply procV_leaves in K; tauto. } rewrite <- Y in U. qlra.
  - cbn [edgeProcV] in K. rewrite in_app_iff in K. assert (U : y1 c1 < y1 q1).
    { apply (lower_half a1 b1 k1 d1); auto. destruct K as [K|K]; apply procV_leaves in K; tauto. } rewrite Y in U. qlra.
  - cbn [edgeProcV] in K. rewrite in_app_iff in K. assert (U : y1 c1 < y1 q1).
    { apply (lower_half a1 b1 k1 d1); auto. destruct K as [K|K]; apply procV_leaves in K; tauto. } rewrite Y in U. qlra.
Qed.
