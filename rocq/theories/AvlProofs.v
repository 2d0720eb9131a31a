From Coq Require Import List ZArith Bool Lia Sorted.
From Verif Require Import Common AvlModel AvlSpec.
Import ListNotations.
Local Open Scope Z_scope.

Arguments Z.add : simpl never.
Arguments Z.sub : simpl never.
Arguments Z.max : simpl never.

Section P.
Context {V : Type}.
Notation avl := (avl V).

Fixpoint exact (t : avl) : Prop :=
  match t with
  | Emp h b => h = -1 /\ b = 0
  | Nd h b l _ _ r => h = 1 + Z.max (depth l) (depth r) /\ b = depth l - depth r /\ exact l /\ exact r
  end.

Fixpoint shaped (t : avl) : Prop :=
  match t with
  | Emp _ _ => True
  | Nd _ _ l _ _ r => -1 <= depth l - depth r <= 1 /\ shaped l /\ shaped r
  end.

Lemma exact_height t : exact t -> height t = depth t.
Proof. destruct t; simpl; intuition. Qed.

Lemma depth_ge (t : avl) : -1 <= depth t.
Proof. induction t; simpl; lia. Qed.

Lemma depth_nd_ge h b l k v r : 0 <= depth (Nd h b l k v r : avl).
Proof. simpl. pose proof (depth_ge l). lia. Qed.

Lemma uh_depth t : depth (update_heights true t : avl) = depth t.
Proof. induction t; simpl; congruence. Qed.
Lemma ub_depth t : depth (update_balances true t : avl) = depth t.
Proof. induction t; simpl; congruence. Qed.
Lemma uh_height t : height (update_heights true t : avl) = depth t.
Proof. induction t; simpl; auto. congruence. Qed.
Lemma ub_height t : height (update_balances true t : avl) = height t.
Proof. destruct t; reflexivity. Qed.
Lemma uh_inorder t : inorder (update_heights true t : avl) = inorder t.
Proof. induction t; simpl; congruence. Qed.
Lemma ub_inorder t : inorder (update_balances true t : avl) = inorder t.
Proof. induction t; simpl; congruence. Qed.
Lemma uh_shaped t : shaped (update_heights true t : avl) <-> shaped t.
Proof. induction t; simpl; [tauto|]. rewrite !uh_depth. tauto. Qed.
Lemma ub_shaped t : shaped (update_balances true t : avl) <-> shaped t.
Proof. induction t; simpl; [tauto|]. rewrite !ub_depth. tauto. Qed.

Fixpoint hexact (t : avl) : Prop :=
  match t with
  | Emp h b => h = -1
  | Nd h b l _ _ r => h = 1 + Z.max (depth l) (depth r) /\ hexact l /\ hexact r
  end.
Lemma uh_hexact t : hexact (update_heights true t).
Proof. induction t; simpl; auto. rewrite !uh_height, !uh_depth. auto. Qed.
Lemma hexact_height t : hexact t -> height t = depth t.
Proof. destruct t; simpl; tauto. Qed.
Lemma ub_exact t : hexact t -> exact (update_balances true t).
Proof.
  induction t; simpl; auto. intros (A & B & C).
  rewrite !ub_height, !ub_depth. repeat split; auto.
  rewrite !hexact_height; auto.
Qed.

Lemma ua_exact t : exact (update_all t).
Proof. apply ub_exact, uh_hexact. Qed.
Lemma ua_depth t : depth (update_all t : avl) = depth t.
Proof. unfold update_all. now rewrite ub_depth, uh_depth. Qed.
Lemma ua_inorder t : inorder (update_all t : avl) = inorder t.
Proof. unfold update_all. now rewrite ub_inorder, uh_inorder. Qed.
Lemma ua_shaped t : shaped (update_all t : avl) <-> shaped t.
Proof. unfold update_all. now rewrite ub_shaped, uh_shaped. Qed.

Lemma ua_nd h b l k v r : update_all (Nd h b l k v r : avl) =
  Nd (1 + Z.max (depth l) (depth r)) (depth l - depth r) (update_all l) k v (update_all r).
Proof. unfold update_all. simpl. now rewrite !ub_height, !uh_height. Qed.

Lemma exact_ua t : exact t -> update_all t = t.
Proof.
  induction t; intro H.
  - destruct H; subst; reflexivity.
  - rewrite ua_nd. destruct H as (-> & -> & A & B). rewrite IHt1, IHt2; auto.
Qed.

Definition good t := exact t /\ shaped t.

Lemma loop_S f (t : avl) : rebalance_loop (S f) t =
  if (balance t <? -1) || (1 <? balance t) then
    do t1 <- fix_left t; do t2 <- fix_right t1; rebalance_loop f t2
  else Ok t.
Proof. reflexivity. Qed.

Lemma loop_stop f t : -1 <= balance t <= 1 -> rebalance_loop (S f) (t : avl) = Ok t.
Proof.
  intro H. simpl. destruct (Z.ltb_spec (balance t) (-1)); [lia|].
  destruct (Z.ltb_spec 1 (balance t)); [lia|]. reflexivity.
Qed.

Lemma set_node_depth h b t : depth (set_node h b t : avl) = depth t.
Proof. now destruct t. Qed.
Lemma set_node_inorder h b t : inorder (set_node h b t : avl) = inorder t.
Proof. now destruct t. Qed.
Lemma set_node_shaped h b t : shaped (set_node h b t : avl) <-> shaped t.
Proof. now destruct t. Qed.

Lemma good_bal t : good t -> -1 <= balance t <= 1.
Proof. destruct t; unfold good; simpl; intuition lia. Qed.

Lemma good_ua T : shaped T -> good (update_all T).
Proof. split; [apply ua_exact|now apply ua_shaped]. Qed.

Lemma finish_l T : shaped T ->
  (do t2 <- fix_right (update_all T); rebalance_loop 1 t2) = Ok (update_all T).
Proof.
  intro H. pose proof (good_bal _ (good_ua _ H)) as B. unfold fix_right.
  destruct (Z.ltb_spec (balance (update_all T)) (-1)); [lia|]. cbn [bind]. now apply loop_stop.
Qed.

Lemma finish_r T : shaped T -> rebalance_loop 1 (update_all T) = Ok (update_all T).
Proof. intro H. apply loop_stop. apply good_bal, good_ua, H. Qed.

Lemma rebalance_nd h b l k v r :
  good l -> good r -> -2 <= depth l - depth r <= 2 ->
  exists t', rebalance (Nd h b l k v r) = Ok t' /\ good t' /\
    inorder t' = inorder l ++ (k, v) :: inorder r /\
    Z.max (depth l) (depth r) <= depth t' <= 1 + Z.max (depth l) (depth r) /\
    (-1 <= depth l - depth r <= 1 -> depth t' = 1 + Z.max (depth l) (depth r)).
Proof.
  intros [El Sl] [Er Sr] Hd. unfold rebalance.
  cbn [update_heights update_balances height].
  rewrite (exact_height l), (exact_height r) by auto.
  set (H := 1 + Z.max (depth l) (depth r)).
  destruct (Z_le_dec (-1) (depth l - depth r)); [destruct (Z_le_dec (depth l - depth r) 1)|].
  - rewrite loop_stop by (simpl; lia). eexists; split; [reflexivity|].
    split; [split; simpl; auto|]. simpl. split; auto. subst H. lia.
  - (* left heavy *)
    assert (Hl : depth l = depth r + 2) by lia.
    destruct l as [h1 b1|h1 b1 ll k1 v1 lr]; [simpl in Hl; pose proof (depth_ge r); lia|].
    simpl in El, Sl, Hl. destruct El as (Eh1 & Eb1 & Ell & Elr), Sl as (Sb1 & Sll & Slr).
    rewrite loop_S. cbn [balance].
    replace (depth (Nd h1 b1 ll k1 v1 lr : avl) - depth r) with 2 by (simpl; lia).
    change ((2 <? -1) || (1 <? 2)) with true. cbv iota.
    unfold fix_left. cbn [balance left_of bind]. change (1 <? 2) with true. cbv iota.
    destruct (Z.ltb_spec b1 0) as [Hneg|Hpos].
    + (* left-right *)
      destruct lr as [h2 b2|h2 b2 a k2 v2 c]; [simpl in *; pose proof (depth_ge ll); lia|].
      assert (Hlr : depth (Nd h2 b2 a k2 v2 c : avl) = depth r + 1) by (simpl in *; lia).
      assert (Hll : depth ll = depth r) by (simpl in *; lia).
      simpl in Elr, Slr, Hlr. destruct Elr as (_ & _ & Ea & Ec), Slr as (Sb2 & Sa & Sc).
      cbn [rotate_left bind set_left]. rewrite !ua_nd. cbn [rotate_right bind].
      rewrite (exact_ua c), (exact_ua r) by auto.
      match goal with |- context [fix_right (update_all ?T)] => set (T2 := T) end.
      assert (ST : shaped T2).
      { subst T2. simpl. rewrite ?ua_depth, ?set_node_depth, ?ua_shaped, ?set_node_shaped. repeat split; auto; lia. }
      rewrite finish_l by auto. exists (update_all T2). split; auto. split; [now apply good_ua|].
      rewrite ua_inorder, ua_depth. subst T2. simpl.
      rewrite ?ua_depth, ?ua_inorder, ?set_node_depth, ?set_node_inorder.
      split; [rewrite <- !app_assoc; simpl; rewrite <- ?app_assoc; reflexivity|lia].
    + cbn [bind rotate_right].
      match goal with |- context [fix_right (update_all ?T)] => set (T2 := T) end.
      assert (ST : shaped T2).
      { subst T2. simpl. rewrite ?set_node_depth, ?set_node_shaped. repeat split; auto; lia. }
      rewrite finish_l by auto. exists (update_all T2). split; auto. split; [now apply good_ua|].
      rewrite ua_inorder, ua_depth. subst T2. simpl.
      rewrite ?set_node_depth, ?set_node_inorder.
      split; [rewrite <- !app_assoc; simpl; rewrite <- ?app_assoc; reflexivity|lia].
  - (* right heavy *)
    assert (Hr : depth r = depth l + 2) by lia.
    destruct r as [h1 b1|h1 b1 rl k1 v1 rr]; [simpl in Hr; pose proof (depth_ge l); lia|].
    simpl in Er, Sr, Hr. destruct Er as (Eh1 & Eb1 & Erl & Err), Sr as (Sb1 & Srl & Srr).
    rewrite loop_S. cbn [balance].
    replace (depth l - depth (Nd h1 b1 rl k1 v1 rr : avl)) with (-2) by (simpl; lia).
    change ((-2 <? -1) || (1 <? -2)) with true. cbv iota.
    unfold fix_left. cbn [balance]. change (1 <? -2) with false. cbv iota. cbn [bind].
    unfold fix_right. cbn [balance right_of bind]. change (-2 <? -1) with true. cbv iota.
    destruct (Z.ltb_spec 0 b1) as [Hpos|Hneg].
    + destruct rl as [h2 b2|h2 b2 a k2 v2 c]; [simpl in *; pose proof (depth_ge rr); lia|].
      assert (Hlr : depth (Nd h2 b2 a k2 v2 c : avl) = depth l + 1) by (simpl in *; lia).
      assert (Hll : depth rr = depth l) by (simpl in *; lia).
      simpl in Erl, Srl, Hlr. destruct Erl as (_ & _ & Ea & Ec), Srl as (Sb2 & Sa & Sc).
      cbn [rotate_right bind set_right]. rewrite !ua_nd. cbn [rotate_left bind].
      rewrite (exact_ua a), (exact_ua l) by auto.
      match goal with |- context [rebalance_loop 1 (update_all ?T)] => set (T2 := T) end.
      assert (ST : shaped T2).
      { subst T2. simpl. rewrite ?ua_depth, ?set_node_depth, ?ua_shaped, ?set_node_shaped. repeat split; auto; lia. }
      rewrite finish_r by auto. exists (update_all T2). split; auto. split; [now apply good_ua|].
      rewrite ua_inorder, ua_depth. subst T2. simpl.
      rewrite ?ua_depth, ?ua_inorder, ?set_node_depth, ?set_node_inorder.
      split; [rewrite <- !app_assoc; simpl; rewrite <- ?app_assoc; reflexivity|lia].
    + cbn [bind rotate_left].
      match goal with |- context [rebalance_loop 1 (update_all ?T)] => set (T2 := T) end.
      assert (ST : shaped T2).
      { subst T2. simpl. rewrite ?set_node_depth, ?set_node_shaped. repeat split; auto; lia. }
      rewrite finish_r by auto. exists (update_all T2). split; auto. split; [now apply good_ua|].
      rewrite ua_inorder, ua_depth. subst T2. simpl.
      rewrite ?set_node_depth, ?set_node_inorder.
      split; [rewrite <- !app_assoc; simpl; rewrite <- ?app_assoc; reflexivity|lia].
Qed.

Lemma rebalance_emp h b : rebalance (Emp h b : avl) = Ok (Emp (-1) 0).
Proof. reflexivity. Qed.

(* ---- sorted association lists ---- *)
Definition ksorted (l : list (Z * option V)) := StronglySorted (fun a b => fst a < fst b) l.

Fixpoint lins (k : Z) (v : option V) (l : list (Z * option V)) :=
  match l with
  | [] => [(k, v)]
  | (k', v') :: t => if k <? k' then (k, v) :: l else if k' <? k then (k', v') :: lins k v t else l
  end.

Lemma ss_app {A} (R : A -> A -> Prop) a b :
  StronglySorted R (a ++ b) <-> StronglySorted R a /\ StronglySorted R b /\ (forall x y, In x a -> In y b -> R x y).
Proof.
  induction a as [|h t IH]; simpl.
  - split; [intro H; repeat split; auto; [constructor|tauto]|tauto].
  - split.
    + intro H. inversion H as [|? ? H1 H2]; subst. apply IH in H1. destruct H1 as (A1 & A2 & A3).
      rewrite Forall_app in H2. destruct H2 as [F1 F2]. split; [constructor; auto|]. split; auto.
      rewrite Forall_forall in F2. intros x y [->|Hx] Hy; auto.
    + intros (H1 & H2 & H3). inversion H1; subst. constructor.
      * apply IH. auto.
      * rewrite Forall_app. split; auto. rewrite Forall_forall. auto.
Qed.

Lemma ksorted_mid l k v r : ksorted (l ++ (k, v) :: r) <->
  ksorted l /\ ksorted r /\ (forall x, In x l -> fst x < k) /\ (forall y, In y r -> k < fst y).
Proof.
  unfold ksorted. rewrite ss_app. split.
  - intros (A & B & C). inversion B; subst. rewrite Forall_forall in H2. repeat split; auto.
    intros x Hx. apply (C x (k, v)); simpl; auto.
  - intros (A & B & C & D). repeat split; auto.
    + constructor; auto. apply Forall_forall. auto.
    + intros x y Hx [<-|Hy]; simpl; auto. specialize (C x Hx). specialize (D y Hy). lia.
Qed.

Lemma lins_app_l k v l k' v' r : k < k' -> (forall y, In y l -> fst y < k') ->
  lins k v (l ++ (k', v') :: r) = lins k v l ++ (k', v') :: r.
Proof.
  intros H Hl. induction l as [|[a b] l IH]; simpl.
  - destruct (Z.ltb_spec k k'); [reflexivity|lia].
  - destruct (Z.ltb_spec k a); auto. destruct (Z.ltb_spec a k); auto.
    simpl. rewrite IH; auto. intros; apply Hl; right; auto.
Qed.

Lemma lins_app_r k v l k' v' r : k' < k -> (forall y, In y l -> fst y < k') ->
  lins k v (l ++ (k', v') :: r) = l ++ (k', v') :: lins k v r.
Proof.
  intros H Hl. induction l as [|[a b] l IH]; simpl.
  - destruct (Z.ltb_spec k k'); [lia|]. destruct (Z.ltb_spec k' k); [reflexivity|lia].
  - assert (a < k') by (apply (Hl (a, b)); left; auto).
    destruct (Z.ltb_spec k a); [lia|]. destruct (Z.ltb_spec a k); [|lia].
    rewrite IH; auto. intros; apply Hl; right; auto.
Qed.

Lemma lins_app_eq k v l v' r : (forall y, In y l -> fst y < k) ->
  lins k v (l ++ (k, v') :: r) = l ++ (k, v') :: r.
Proof.
  intros Hl. induction l as [|[a b] l IH]; simpl.
  - rewrite Z.ltb_irrefl. reflexivity.
  - assert (a < k) by (apply (Hl (a, b)); left; auto).
    destruct (Z.ltb_spec k a); [lia|]. destruct (Z.ltb_spec a k); [|lia].
    rewrite IH; auto. intros; apply Hl; right; auto.
Qed.

Lemma insert_spec t k v : good t -> ksorted (inorder t) ->
  exists t', insert t k v = Ok t' /\ good t' /\ inorder t' = lins k v (inorder t) /\
    depth t <= depth t' <= depth t + 1.
Proof.
  induction t as [h b|h b l IHl k0 v0 r IHr]; intros G B.
  - cbn [insert].
    destruct (rebalance_nd h b avl_new k v avl_new) as (t' & E & G' & I & D1 & D2);
      [split; simpl; auto|split; simpl; auto|simpl; lia|].
    exists t'. split; [auto|]. split; [auto|]. split; [auto|]. simpl in *. lia.
  - destruct G as [(Eh & Eb & El & Er) (Sb & Sl & Sr)].
    simpl in B. apply ksorted_mid in B. destruct B as (Bl & Br & Cl & Cr).
    cbn [insert]. destruct (Z.ltb_spec k k0); [|destruct (Z.ltb_spec k0 k)].
    + destruct IHl as (l' & E & G' & I & D); [split; auto|auto|]. rewrite E. cbn [bind].
      destruct (rebalance_nd h b l' k0 v0 r G') as (t' & E' & G'' & I' & D1 & D2).
      { split; auto. } { lia. }
      exists t'. split; [auto|]. split; [auto|]. split.
      * rewrite I', I. simpl. now rewrite lins_app_l.
      * cbn [depth]. lia.
    + destruct IHr as (r' & E & G' & I & D); [split; auto|auto|]. rewrite E. cbn [bind].
      destruct (rebalance_nd h b l k0 v0 r') as (t' & E' & G'' & I' & D1 & D2); auto.
      { split; auto. } { lia. }
      exists t'. split; [auto|]. split; [auto|]. split.
      * rewrite I', I. simpl. now rewrite lins_app_r.
      * cbn [depth]. lia.
    + assert (k = k0) by lia. subst k0.
      destruct (rebalance_nd h b l k v0 r) as (t' & E' & G'' & I' & D1 & D2).
      { split; auto. } { split; auto. } { lia. }
      exists t'. split; [auto|]. split; [auto|]. split.
      * rewrite I'. simpl. now rewrite lins_app_eq.
      * cbn [depth]. lia.
Qed.

Lemma leftmost_spec (t : avl) : forall h b l k v r, t = Nd h b l k v r ->
  exists vs rest, inorder t = (leftmost l k, vs) :: rest.
Proof.
  induction t as [|h b l IHl k v r IHr]; intros ? ? ? ? ? ? E; [discriminate|].
  inversion E; subst. destruct l0 as [|h1 b1 ll k1 v1 lr].
  - simpl. eauto.
  - destruct (IHl _ _ _ _ _ _ eq_refl) as (vs & rest & H). cbn [leftmost]. 
    cbn [inorder] in *. rewrite H. simpl. eauto.
Qed.

(* deletion on sorted lists: the key disappears; with two children the value of the
   removed key stays with the successor key *)
Definition lkeys (l : list (Z * option V)) := map fst l.
Definition lremove (k : Z) (l : list Z) := filter (fun x => negb (x =? k)) l.

Lemma lremove_notin k l : ~ In k l -> lremove k l = l.
Proof.
  induction l as [|a l IH]; simpl; auto. intro H.
  destruct (Z.eqb_spec a k); [exfalso; auto|]. simpl. rewrite IH; auto.
Qed.

Lemma lremove_app k a b : lremove k (a ++ b) = lremove k a ++ lremove k b.
Proof. unfold lremove. induction a; simpl; auto. destruct (negb _); simpl; congruence. Qed.

Lemma keys_lt l k : (forall x : Z * option V, In x l -> fst x < k) -> forall j, k <= j -> ~ In j (lkeys l).
Proof. intros H j Hj Hin. apply in_map_iff in Hin. destruct Hin as (x & <- & Hx). specialize (H x Hx). lia. Qed.
Lemma keys_gt l k : (forall x : Z * option V, In x l -> k < fst x) -> forall j, j <= k -> ~ In j (lkeys l).
Proof. intros H j Hj Hin. apply in_map_iff in Hin. destruct Hin as (x & <- & Hx). specialize (H x Hx). lia. Qed.

Lemma ksorted_keys l : ksorted l <-> StronglySorted Z.lt (lkeys l).
Proof.
  unfold ksorted. induction l as [|a l IH]; simpl; split; intro H; try constructor; inversion H; subst.
  - now apply IH.
  - rewrite Forall_forall in *. intros x Hx. apply in_map_iff in Hx. destruct Hx as (y & <- & Hy). auto.
  - now apply IH.
  - rewrite Forall_forall in *. intros x Hx. apply H3. now apply in_map.
Qed.

Lemma delete_spec t : forall k, good t -> ksorted (inorder t) ->
  exists t', delete t k = Ok t' /\ good t' /\ lkeys (inorder t') = lremove k (lkeys (inorder t)) /\
    depth t - 1 <= depth t' <= depth t.
Proof.
  induction t as [h b|h b l IHl k0 v0 r IHr]; intros k G B.
  - exists (Emp h b). simpl. split; [auto|]. split; [auto|]. split; [auto|]. lia.
  - destruct G as [(Eh & Eb & El & Er) (Sb & Sl & Sr)].
    simpl in B. apply ksorted_mid in B. destruct B as (Bl & Br & Cl & Cr).
    cbn [delete]. cbn [inorder]. unfold lkeys at 2. rewrite map_app. cbn [map fst]. rewrite lremove_app.
    fold (lkeys (inorder l)) (lkeys (inorder r)).
    change (lremove k (k0 :: lkeys (inorder r))) with
       (if negb (k0 =? k) then k0 :: lremove k (lkeys (inorder r)) else lremove k (lkeys (inorder r))).
    destruct (Z.eqb_spec k0 k) as [->|Hne]; cbn [negb].
    + rewrite (lremove_notin k (lkeys (inorder l))) by (apply (keys_lt _ k); auto; lia).
      rewrite (lremove_notin k (lkeys (inorder r))) by (apply (keys_gt _ k); auto; lia).
      destruct l as [h1 b1|h1 b1 ll k1 v1 lr]; destruct r as [h2 b2|h2 b2 rl k2 v2 rr].
      * rewrite rebalance_emp. eexists; split; [reflexivity|]. split; [split; simpl; auto|]. split; [auto|]. simpl. lia.
      * cbn [set_node]. simpl in Er, Sr. destruct Er as (A1 & A2 & A3 & A4), Sr as (B1 & B2 & B3).
        destruct (rebalance_nd h b rl k2 v2 rr) as (t' & E' & G'' & I' & D1 & D2).
        { split; auto. } { split; auto. } { lia. }
        exists t'. split; [auto|]. split; [auto|]. split; [rewrite I'; reflexivity|].
        rewrite D2 by lia. cbn [depth] in *. pose proof (depth_ge rl). lia.
      * cbn [set_node]. simpl in El, Sl. destruct El as (A1 & A2 & A3 & A4), Sl as (B1 & B2 & B3).
        destruct (rebalance_nd h b ll k1 v1 lr) as (t' & E' & G'' & I' & D1 & D2).
        { split; auto. } { split; auto. } { lia. }
        exists t'. split; [auto|]. split; [auto|]. split; [rewrite I'; simpl; now rewrite app_nil_r|].
        rewrite D2 by lia. cbn [depth] in *. pose proof (depth_ge ll). lia.
      * set (s := leftmost rl k2).
        destruct (leftmost_spec (Nd h2 b2 rl k2 v2 rr) _ _ _ _ _ _ eq_refl) as (vs & rest & HI). fold s in HI.
        destruct (IHr s) as (r' & E & G' & I & D); [split; auto|auto|].
        rewrite E. cbn [bind].
        destruct (rebalance_nd h b (Nd h1 b1 ll k1 v1 lr) s v0 r') as (t' & E' & G'' & I' & D1 & D2).
        { split; auto. } { auto. } { lia. }
        exists t'. split; [auto|]. split; [auto|]. split.
        -- rewrite I'. unfold lkeys at 1. rewrite map_app. cbn [map fst].
           fold (lkeys (inorder r')). fold (lkeys (inorder (Nd h1 b1 ll k1 v1 lr))).
           rewrite I, HI. f_equal.
           assert (X : lremove s (lkeys ((s, vs) :: rest)) = lkeys rest); [|rewrite X; reflexivity].
           change (lremove s (lkeys ((s, vs) :: rest))) with
             (if negb (s =? s) then s :: lremove s (lkeys rest) else lremove s (lkeys rest)).
           rewrite Z.eqb_refl. apply lremove_notin.
           rewrite HI in Br. inversion Br; subst. rewrite Forall_forall in H2.
           intro Hin. apply in_map_iff in Hin. destruct Hin as (x & Ex & Hx). specialize (H2 x Hx). simpl in H2. lia.
        -- set (L := depth (Nd h1 b1 ll k1 v1 lr : avl)) in *. set (R := depth (Nd h2 b2 rl k2 v2 rr : avl)) in *.
           change (depth (Nd h b (Nd h1 b1 ll k1 v1 lr) k v0 (Nd h2 b2 rl k2 v2 rr) : avl)) with (1 + Z.max L R). lia.
    + destruct (Z.ltb_spec k k0); [|destruct (Z.ltb_spec k0 k)]; [| |lia].
      * destruct (IHl k) as (l' & E & G' & I & D); [split; auto|auto|]. rewrite E. cbn [bind].
        destruct (rebalance_nd h b l' k0 v0 r G') as (t' & E' & G'' & I' & D1 & D2).
        { split; auto. } { lia. }
        exists t'. split; [auto|]. split; [auto|]. split.
        -- rewrite I'. unfold lkeys at 1. rewrite map_app. fold (lkeys (inorder l')). rewrite I. cbn [map fst].
           rewrite (lremove_notin k (lkeys (inorder r))); auto. apply (keys_gt _ k0); auto; lia.
        -- cbn [depth]. lia.
      * destruct (IHr k) as (r' & E & G' & I & D); [split; auto|auto|]. rewrite E. cbn [bind].
        destruct (rebalance_nd h b l k0 v0 r') as (t' & E' & G'' & I' & D1 & D2); auto.
        { split; auto. } { lia. }
        exists t'. split; [auto|]. split; [auto|]. split.
        -- rewrite I'. unfold lkeys at 1. rewrite map_app. cbn [map fst]. fold (lkeys (inorder r')). rewrite I.
           rewrite (lremove_notin k (lkeys (inorder l))); auto. apply (keys_lt _ k0); auto; lia.
        -- cbn [depth]. lia.
Qed.

(* ---- histories ---- *)
Lemma lins_keys k v l j : In j (lkeys (lins k v l)) <-> j = k \/ In j (lkeys l).
Proof.
  induction l as [|[a b] l IH]; simpl; [intuition|].
  destruct (Z.ltb_spec k a); simpl; [intuition|].
  destruct (Z.ltb_spec a k); simpl; [rewrite IH; intuition|].
  assert (k = a) by lia. subst. intuition.
Qed.

Lemma lins_sorted k v l : ksorted l -> ksorted (lins k v l).
Proof.
  unfold ksorted. induction l as [|[a b] l IH]; simpl; intro H.
  - repeat constructor.
  - inversion H as [|? ? H1 H2]; subst. destruct (Z.ltb_spec k a).
    + constructor; auto. constructor; auto. rewrite Forall_forall in *. intros x Hx. specialize (H2 x Hx). simpl in *. lia.
    + destruct (Z.ltb_spec a k); auto. constructor; auto. rewrite Forall_forall in *.
      intros [x1 x2] Hx. apply (in_map fst) in Hx. fold (lkeys (lins k v l)) in Hx. apply lins_keys in Hx. simpl in Hx.
      destruct Hx as [->|Hx]; auto. apply in_map_iff in Hx. destruct Hx as ([y1 y2] & Ey & Hy). simpl in Ey. subst.
      apply (H2 _ Hy).
Qed.

Lemma lremove_in k l j : In j (lremove k l) <-> j <> k /\ In j l.
Proof.
  unfold lremove. rewrite filter_In. destruct (Z.eqb_spec j k); simpl; intuition discriminate.
Qed.

Lemma lremove_sorted k l : StronglySorted Z.lt l -> StronglySorted Z.lt (lremove k l).
Proof.
  induction 1 as [|a l Hs IH Hf]; simpl; [constructor|].
  destruct (negb (a =? k)); auto. constructor; auto. rewrite Forall_forall in *.
  intros x Hx. apply lremove_in in Hx. apply Hf. tauto.
Qed.

Lemma present_ext (ops : list (avl_op V)) k : forall P Q, (P <-> Q) -> (present ops k P <-> present ops k Q).
Proof.
  induction ops as [|[k' v|k'] ops IH]; simpl; intros P Q H; auto; apply IH; tauto.
Qed.

Definition inv t := good t /\ ksorted (inorder t).

Lemma step_spec o t : inv t ->
  exists t', avl_step t o = Ok t' /\ inv t' /\
    forall k, In k (lkeys (inorder t')) <-> present [o] k (In k (lkeys (inorder t))).
Proof.
  intros [G S]. destruct o as [k v|k]; simpl.
  - destruct (insert_spec t k v G S) as (t' & E & G' & I & _). exists t'. split; [auto|].
    split; [split; auto; rewrite I; now apply lins_sorted|]. intro j. rewrite I. apply lins_keys.
  - destruct (delete_spec t k G S) as (t' & E & G' & I & _). exists t'. split; [auto|].
    split; [split; auto; apply ksorted_keys; rewrite I; apply lremove_sorted; now apply ksorted_keys|].
    intro j. rewrite I. apply lremove_in.
Qed.

Lemma run_spec ops : forall t, inv t ->
  exists t', avl_run t ops = Ok t' /\ inv t' /\
    forall k, In k (lkeys (inorder t')) <-> present ops k (In k (lkeys (inorder t))).
Proof.
  induction ops as [|o ops IH]; intros t I.
  - exists t. split; [reflexivity|]. split; auto. intro k. reflexivity.
  - destruct (step_spec o t I) as (t1 & E1 & I1 & P1). destruct (IH t1 I1) as (t2 & E2 & I2 & P2).
    exists t2. split; [cbn [avl_run]; rewrite E1; exact E2|]. split; auto.
    intro k. rewrite P2. rewrite (present_ext ops k _ _ (P1 k)). destruct o; reflexivity.
Qed.

Lemma inv_new : inv avl_new.
Proof. split; [split; simpl; auto|constructor]. Qed.

Fixpoint lget (k : Z) (l : list (Z * option V)) : option (Z * option V) :=
  match l with
  | [] => None
  | (k', v) :: t => if k' =? k then Some (k', v) else lget k t
  end.

Lemma lget_app k l r : lget k (l ++ r) = match lget k l with Some x => Some x | None => lget k r end.
Proof. induction l as [|[a b] l IH]; simpl; auto. destruct (a =? k); auto. Qed.

Lemma lget_none k l : ~ In k (lkeys l) -> lget k l = None.
Proof. induction l as [|[a b] l IH]; simpl; auto. intro H. destruct (Z.eqb_spec a k); [exfalso; auto|auto]. Qed.

Lemma lget_some k l : ksorted l -> forall v, lget k l = Some (k, v) <-> In (k, v) l.
Proof.
  unfold ksorted. induction 1 as [|[a b] l Hs IH Hf]; intro v; simpl; [split; [discriminate|tauto]|].
  destruct (Z.eqb_spec a k) as [->|Hne].
  - split; [intro E; inversion E; auto|]. intros [E|Hin]; [congruence|].
    rewrite Forall_forall in Hf. specialize (Hf _ Hin). simpl in Hf. lia.
  - rewrite IH. split; auto. intros [E|Hin]; [congruence|auto].
Qed.

Lemma lget_key k l k' v : lget k l = Some (k', v) -> k' = k.
Proof.
  induction l as [|[a b] l IH]; simpl; [discriminate|].
  destruct (Z.eqb_spec a k); auto. intro E; inversion E; congruence.
Qed.

Lemma search_spec t k : ksorted (inorder t) -> search t k = lget k (inorder t).
Proof.
  induction t as [h b|h b l IHl k0 v0 r IHr]; intro S; auto.
  simpl in S. apply ksorted_mid in S. destruct S as (Bl & Br & Cl & Cr). cbn [search inorder].
  rewrite lget_app. simpl. destruct (Z.ltb_spec k k0); [|destruct (Z.ltb_spec k0 k)].
  - rewrite IHl by auto. destruct (Z.eqb_spec k0 k); [lia|].
    rewrite (lget_none k (inorder r)); [|apply (keys_gt _ k0); auto; lia]. destruct (lget k (inorder l)); auto.
  - rewrite (lget_none k (inorder l)); [|apply (keys_lt _ k0); auto; lia].
    rewrite IHr by auto. destruct (Z.eqb_spec k0 k); [lia|auto].
  - assert (k = k0) by lia. subst. rewrite (lget_none k0 (inorder l)); [|apply (keys_lt _ k0); auto; lia].
    now rewrite Z.eqb_refl.
Qed.

Lemma lget_in k l : In k (lkeys l) -> exists v, lget k l = Some (k, v).
Proof.
  induction l as [|[a b] l IH]; simpl; [tauto|]. intros [->|H].
  - rewrite Z.eqb_refl. eauto.
  - destruct (Z.eqb_spec a k); [subst; eauto|auto].
Qed.

Lemma C03_lemma (ops : list (avl_op V)) :
  exists t, avl_run avl_new ops = Ok t /\
    StronglySorted Z.lt (map fst (inorder t)) /\
    forall k, (In k (map fst (inorder t)) <-> present ops k False) /\
              ((exists v, search t k = Some (k, v)) <-> present ops k False) /\
              (search t k = None <-> ~ present ops k False).
Proof.
  destruct (run_spec ops avl_new inv_new) as (t & E & (G & S) & P).
  exists t. split; auto. split; [now apply ksorted_keys|]. intro k. specialize (P k). simpl in P.
  split; [exact P|]. rewrite search_spec by auto. rewrite <- P. split; split.
  - intros (v & H). apply lget_some in H; auto. now apply (in_map fst) in H.
  - apply lget_in.
  - intros H Hin. apply lget_in in Hin. destruct Hin as (v & Hv). congruence.
  - apply lget_none.
Qed.

Lemma good_everywhere t : good t -> everywhere stored_ok t.
Proof.
  induction t as [h b|h b l IHl k v r IHr]; intros [E S]; simpl in *.
  - destruct E; subst. unfold stored_ok; simpl. repeat split; lia.
  - destruct E as (E1 & E2 & E3 & E4), S as (S1 & S2 & S3). split.
    + unfold stored_ok; simpl. subst. repeat split; lia.
    + split; [apply IHl|apply IHr]; split; auto.
Qed.

Lemma fib_SS n : fib (S (S n)) = fib (S n) + fib n.
Proof. reflexivity. Qed.

Lemma fib_mono n : 0 <= fib n <= fib (S n).
Proof.
  assert (0 <= fib n /\ fib n <= fib (S n) /\ 0 <= fib (S n)); [|lia].
  induction n as [|n IH]; [simpl; lia|]. rewrite fib_SS. lia.
Qed.

Lemma fib_le a b : (a <= b)%nat -> fib a <= fib b.
Proof. induction 1; [lia|]. pose proof (fib_mono m). lia. Qed.

Lemma size_fib t : shaped t -> fib (Z.to_nat (depth t + 3)) - 1 <= size t.
Proof.
  induction t as [h b|h b l IHl k v r IHr]; intro S.
  - simpl. lia.
  - destruct S as (D & Sl & Sr). specialize (IHl Sl). specialize (IHr Sr). cbn [depth size].
    pose proof (depth_ge l). pose proof (depth_ge r).
    set (m := Z.max (depth l) (depth r)) in *.
    replace (1 + m + 3) with (Z.of_nat (S (S (Z.to_nat (m + 2))))) by lia.
    rewrite Nat2Z.id. rewrite fib_SS.
    replace (S (Z.to_nat (m + 2))) with (Z.to_nat (m + 3)) by lia.
    assert (A1 : depth l = m \/ depth r = m) by lia.
    pose proof (fib_le (Z.to_nat (m + 2)) (Z.to_nat (depth l + 3)) ltac:(lia)).
    pose proof (fib_le (Z.to_nat (m + 2)) (Z.to_nat (depth r + 3)) ltac:(lia)).
    destruct A1 as [A1|A1]; rewrite A1 in *; lia.
Qed.

Lemma visited_depth t k : visited (t : avl) k <= depth t + 1.
Proof.
  induction t as [h b|h b l IHl k0 v0 r IHr]; simpl; [lia|].
  pose proof (depth_ge l). destruct (k <? k0); [lia|]. destruct (k0 <? k); lia.
Qed.

Lemma C04_lemma (ops : list (avl_op V)) :
  exists t, avl_run avl_new ops = Ok t /\ everywhere stored_ok t /\
    size t = Z.of_nat (length (inorder t)) /\
    fib (Z.to_nat (height t + 3)) - 1 <= size t /\
    forall k, visited t k <= height t + 1.
Proof.
  destruct (run_spec ops avl_new inv_new) as (t & E & (G & S) & P).
  exists t. split; auto. split; [now apply good_everywhere|]. split.
  - clear. induction t; simpl; auto. rewrite app_length. simpl. lia.
  - destruct G as [Ex Sh]. rewrite (exact_height t Ex). split; [now apply size_fib|]. intro. apply visited_depth.
Qed.

(* ---- C05 ---- *)
Lemma delete_min t : forall s vs rest, good t -> ksorted (inorder t) -> inorder t = (s, vs) :: rest ->
  exists t', delete t s = Ok t' /\ inorder t' = rest.
Proof.
  induction t as [h b|h b l IHl k0 v0 r IHr]; intros s vs rest G B HI; [discriminate|].
  pose proof G as G0. pose proof B as B0.
  destruct G as [(Eh & Eb & El & Er) (Sb & Sl & Sr)].
  simpl in B. apply ksorted_mid in B. destruct B as (Bl & Br & Cl & Cr).
  destruct l as [h1 b1|h1 b1 ll k1 v1 lr].
  - simpl in HI. inversion HI; subst s vs rest. cbn [delete]. rewrite Z.eqb_refl.
    destruct r as [h2 b2|h2 b2 rl k2 v2 rr].
    + rewrite rebalance_emp. eexists; split; [reflexivity|]. reflexivity.
    + cbn [set_node]. simpl in Er, Sr. destruct Er as (A1 & A2 & A3 & A4), Sr as (B1 & B2 & B3).
      destruct (rebalance_nd h b rl k2 v2 rr) as (t' & E' & G'' & I' & D1 & D2).
      { split; auto. } { split; auto. } { lia. }
      exists t'. split; auto.
  - destruct (leftmost_spec (Nd h1 b1 ll k1 v1 lr) _ _ _ _ _ _ eq_refl) as (vs1 & rest1 & H1).
    set (L := Nd h1 b1 ll k1 v1 lr) in *. change (inorder L ++ (k0, v0) :: inorder r = (s, vs) :: rest) in HI. rewrite H1 in HI. simpl in HI. inversion HI; subst s vs rest.
    destruct (IHl _ _ _ (conj El Sl) Bl H1) as (l' & E & I).
    destruct (delete_spec L (leftmost ll k1) (conj El Sl) Bl) as (l'' & E2 & G' & _ & D).
    rewrite E in E2. inversion E2; subst l''.
    assert (leftmost ll k1 < k0). { apply (Cl (leftmost ll k1, vs1)). rewrite H1. left; auto. }
    cbn [delete]. destruct (Z.eqb_spec k0 (leftmost ll k1)); [lia|].
    destruct (Z.ltb_spec (leftmost ll k1) k0); [|lia]. rewrite E. cbn [bind].
    destruct (rebalance_nd h b l' k0 v0 r G') as (t' & E' & G'' & I' & D1 & D2).
    { split; auto. } { lia. }
    exists t'. split; auto. rewrite I', I. reflexivity.
Qed.

Lemma delete_vals t : forall k t', good t -> ksorted (inorder t) -> delete t k = Ok t' ->
  forall j v, In (j, v) (inorder t') ->
    In (j, v) (inorder t) \/ (In (k, v) (inorder t) /\ successor k j (inorder t)).
Proof.
  induction t as [h b|h b l IHl k0 v0 r IHr]; intros k t' G B Hdel j v Hin.
  - simpl in Hdel. inversion Hdel; subst. auto.
  - destruct G as [(Eh & Eb & El & Er) (Sb & Sl & Sr)].
    simpl in B. apply ksorted_mid in B. destruct B as (Bl & Br & Cl & Cr).
    cbn [delete] in Hdel. cbn [inorder].
    destruct (Z.eqb_spec k0 k) as [->|Hne].
    + destruct l as [h1 b1|h1 b1 ll k1 v1 lr]; destruct r as [h2 b2|h2 b2 rl k2 v2 rr].
      * rewrite rebalance_emp in Hdel. inversion Hdel; subst. destruct Hin.
      * cbn [set_node] in Hdel. simpl in Er, Sr. destruct Er as (A1 & A2 & A3 & A4), Sr as (B1 & B2 & B3).
        destruct (rebalance_nd h b rl k2 v2 rr) as (t0 & E' & G'' & I' & D1 & D2).
        { split; auto. } { split; auto. } { lia. }
        rewrite E' in Hdel. inversion Hdel; subst. rewrite I' in Hin. left. simpl. auto.
      * cbn [set_node] in Hdel. simpl in El, Sl. destruct El as (A1 & A2 & A3 & A4), Sl as (B1 & B2 & B3).
        destruct (rebalance_nd h b ll k1 v1 lr) as (t0 & E' & G'' & I' & D1 & D2).
        { split; auto. } { split; auto. } { lia. }
        rewrite E' in Hdel. inversion Hdel; subst. rewrite I' in Hin. left. apply in_app_iff. auto.
      * set (s := leftmost rl k2) in *.
        destruct (leftmost_spec (Nd h2 b2 rl k2 v2 rr) _ _ _ _ _ _ eq_refl) as (vs & rest & HI). fold s in HI.
        destruct (delete_min _ _ _ _ (conj Er Sr) Br HI) as (r' & E & Ir).
        destruct (delete_spec (Nd h2 b2 rl k2 v2 rr) s (conj Er Sr) Br) as (r'' & E2 & G' & I & D).
        rewrite E in E2, Hdel. inversion E2; subst r''. cbn [bind] in Hdel.
        destruct (rebalance_nd h b (Nd h1 b1 ll k1 v1 lr) s v0 r') as (t0 & E' & G'' & I' & D1 & D2).
        { split; auto. } { auto. } { lia. }
        rewrite E' in Hdel. inversion Hdel; subst t0. rewrite I' in Hin.
        apply in_app_iff in Hin. destruct Hin as [Hin|[Heq|Hin]].
        -- left. apply in_app_iff. auto.
        -- inversion Heq; subst j v. right. split; [apply in_app_iff; right; left; auto|].
           unfold successor. fold (lkeys (inorder (Nd h1 b1 ll k1 v1 lr) ++ (k, v0) :: inorder (Nd h2 b2 rl k2 v2 rr))). unfold lkeys. rewrite map_app. cbn [map fst].
           fold (lkeys (inorder (Nd h1 b1 ll k1 v1 lr))) (lkeys (inorder (Nd h2 b2 rl k2 v2 rr))).
           rewrite HI. split; [apply in_app_iff; right; right; left; auto|]. split.
           { apply (Cr (s, vs)). rewrite HI. left; auto. }
           intros j Hj Hlt. apply in_app_iff in Hj. destruct Hj as [Hj|[<-|Hj]]; [|lia|].
           { exfalso. revert Hj. apply (keys_lt _ k); auto. lia. }
           destruct Hj as [<-|Hj]; [simpl; lia|].
           rewrite HI in Br. inversion Br; subst. rewrite Forall_forall in H2.
           apply in_map_iff in Hj. destruct Hj as (x & <- & Hx). specialize (H2 x Hx). simpl in H2. lia.
        -- left. apply in_app_iff. right; right. rewrite HI. right. now rewrite <- Ir.
    + destruct (Z.ltb_spec k k0); [|destruct (Z.ltb_spec k0 k)]; [| |lia].
      * destruct (delete_spec l k (conj El Sl) Bl) as (l' & E & G' & I & D). rewrite E in Hdel. cbn [bind] in Hdel.
        destruct (rebalance_nd h b l' k0 v0 r G') as (t0 & E' & G'' & I' & D1 & D2).
        { split; auto. } { lia. }
        rewrite E' in Hdel. inversion Hdel; subst t0. rewrite I' in Hin.
        apply in_app_iff in Hin. destruct Hin as [Hin|Hin]; [|left; apply in_app_iff; auto].
        destruct (IHl k l' (conj El Sl) Bl E j v Hin) as [H0|[H0 (S1 & S2 & S3)]]; [left; apply in_app_iff; auto|].
        right. split; [apply in_app_iff; auto|]. unfold successor, lkeys in *. rewrite map_app. cbn [map fst].
        split; [apply in_app_iff; auto|]. split; auto. intros j' Hj' Hlt. apply in_app_iff in Hj'.
        apply in_map_iff in S1. destruct S1 as (x & Ex & Hx). specialize (Cl x Hx).
        destruct Hj' as [Hj'|[<-|Hj']]; auto; [lia|].
        apply in_map_iff in Hj'. destruct Hj' as (y & Ey & Hy). specialize (Cr y Hy). lia.
      * destruct (delete_spec r k (conj Er Sr) Br) as (r' & E & G' & I & D). rewrite E in Hdel. cbn [bind] in Hdel.
        destruct (rebalance_nd h b l k0 v0 r') as (t0 & E' & G'' & I' & D1 & D2); auto.
        { split; auto. } { lia. }
        rewrite E' in Hdel. inversion Hdel; subst t0. rewrite I' in Hin.
        apply in_app_iff in Hin. destruct Hin as [Hin|[Hin|Hin]]; [left; apply in_app_iff; auto|left; apply in_app_iff; right; left; auto|].
        destruct (IHr k r' (conj Er Sr) Br E j v Hin) as [H1|[H1 (S1 & S2 & S3)]];
          [left; apply in_app_iff; right; right; auto|].
        right. split; [apply in_app_iff; right; right; auto|]. unfold successor, lkeys in *. rewrite map_app. cbn [map fst].
        split; [apply in_app_iff; right; right; auto|]. split; auto. intros j' Hj' Hlt. apply in_app_iff in Hj'.
        destruct Hj' as [Hj'|[<-|Hj']]; auto; [|lia].
        apply in_map_iff in Hj'. destruct Hj' as (y & Ey & Hy). specialize (Cl y Hy). lia.
Qed.

Lemma lins_get k v l j : ksorted l ->
  lget j (lins k v l) = if j =? k then match lget k l with Some x => Some x | None => Some (k, v) end else lget j l.
Proof.
  unfold ksorted. induction 1 as [|[a b] l Hs IH Hf]; simpl.
  - rewrite (Z.eqb_sym k j). destruct (j =? k) eqn:E; auto.
  - destruct (Z.ltb_spec k a); simpl.
    + destruct (Z.eqb_spec j k) as [->|Hne].
      * rewrite Z.eqb_refl. destruct (Z.eqb_spec a k); [lia|].
        rewrite lget_none; auto. rewrite Forall_forall in Hf. intro Hin. apply in_map_iff in Hin.
        destruct Hin as (x & Ex & Hx). specialize (Hf x Hx). simpl in Hf. lia.
      * destruct (Z.eqb_spec k j); [lia|auto].
    + destruct (Z.ltb_spec a k); simpl.
      * rewrite IH. destruct (Z.eqb_spec j k) as [->|Hne].
        -- destruct (Z.eqb_spec a k); [lia|auto].
        -- auto.
      * assert (a = k) by lia. subst. rewrite Z.eqb_refl. rewrite (Z.eqb_sym k j). destruct (j =? k) eqn:E; auto.
Qed.

(* the value assigned first *)
Fixpoint earliest (ops : list (avl_op V)) (k : Z) : option (option V) :=
  match ops with
  | [] => None
  | Insert k' v :: t => if k =? k' then Some v else earliest t k
  | Delete _ :: t => earliest t k
  end.

Lemma run_first (ops : list (avl_op V)) : only_inserts ops -> forall t, inv t ->
  exists t', avl_run t ops = Ok t' /\ inv t' /\
   forall k, search t' k = match search t k with Some x => Some x | None => option_map (pair k) (earliest ops k) end.
Proof.
  induction ops as [|o ops IH]; intros HO t I.
  - exists t. split; [reflexivity|]. split; auto. intro k. destruct (search t k); auto.
  - destruct o as [k0 v0|k0]; [|exfalso; apply (HO k0); left; auto].
    destruct I as [G S]. destruct (insert_spec t k0 v0 G S) as (t1 & E & G' & I1 & _).
    assert (Inv1 : inv t1) by (split; auto; rewrite I1; now apply lins_sorted).
    destruct (IH (fun k H => HO k (or_intror H)) t1 Inv1) as (t2 & E2 & I2 & H2).
    exists t2. split; [cbn [avl_run avl_step]; rewrite E; exact E2|]. split; auto.
    intro k. rewrite H2. rewrite (search_spec t1) by apply Inv1. rewrite (search_spec t) by auto.
    rewrite I1, lins_get by auto. cbn [earliest]. destruct (Z.eqb_spec k k0) as [->|Hne]; auto.
    destruct (lget k0 (inorder t)); auto.
Qed.

Lemma latest_notin ops : forall k now, only_inserts ops ->
  ~ In k (map (fun o : avl_op V => match o with Insert k _ => k | Delete k => k end) ops) -> latest ops k now = now.
Proof.
  induction ops as [|[k0 v0|k0] ops IH]; intros k now HO H; simpl in *; auto.
  - destruct (Z.eqb_spec k k0); [exfalso; auto|]. apply IH; auto. intros k' H'. apply (HO k'). right; auto.
  - exfalso. apply (HO k0). left; auto.
Qed.

Lemma latest_earliest (ops : list (avl_op V)) k : only_inserts ops -> NoDup (map op_key ops) -> latest ops k None = earliest ops k.
Proof.
  induction ops as [|[k0 v0|k0] ops IH]; intros HO ND; simpl in *; auto.
  - inversion ND; subst. destruct (Z.eqb_spec k k0) as [->|Hne].
    + apply latest_notin; auto. intros k' H'. apply (HO k'). right; auto.
    + apply IH; auto. intros k' H'. apply (HO k'). right; auto.
  - exfalso. apply (HO k0). left; auto.
Qed.

Lemma C05_insert_lemma (ops : list (avl_op V)) : only_inserts ops -> NoDup (map op_key ops) ->
  exists t, avl_run avl_new ops = Ok t /\
  forall k, getitem t k = match latest ops k None with Some v => Ok v | None => Err AttributeError end.
Proof.
  intros HO ND. destruct (run_first ops HO avl_new inv_new) as (t & E & I & H).
  exists t. split; auto. intro k. unfold getitem. rewrite H. simpl. rewrite latest_earliest by auto.
  destruct (earliest ops k); auto.
Qed.

Lemma C05_delete_lemma (ops : list (avl_op V)) k t t' : avl_run avl_new ops = Ok t -> delete t k = Ok t' ->
  forall j, j <> k -> (forall s, successor k s (inorder t) -> j <> s) -> search t' j = search t j.
Proof.
  intros E D j Hjk Hj. destruct (run_spec ops avl_new inv_new) as (t0 & E0 & (G & S) & _).
  rewrite E in E0. inversion E0; subst t0.
  destruct (step_spec (Delete k) t (conj G S)) as (t1 & E1 & (G1 & S1) & P1). simpl in E1. rewrite D in E1.
  inversion E1; subst t1. rewrite !search_spec by auto.
  destruct (in_dec Z.eq_dec j (lkeys (inorder t'))) as [Hin|Hn].
  - destruct (lget_in _ _ Hin) as (v & Hv). rewrite Hv. symmetry. apply lget_some; auto.
    apply lget_some in Hv; auto.
    destruct (delete_vals t k t' G S D j v Hv) as [|[_ Hs]]; auto. exfalso. now apply (Hj j Hs).
  - rewrite (lget_none j (inorder t')) by auto. rewrite (lget_none j (inorder t)); auto.
    intro Hin. apply Hn. apply P1. simpl. auto.
Qed.
End P.

Lemma append_fix {V} (v1 v2 v3 : option V) vs :
  append_all (Nd 1 0 (Nd 0 0 avl_new 0 v1 avl_new) 1 v2 (Nd 0 0 avl_new 2 v3 avl_new)) vs =
  Ok (Nd 1 0 (Nd 0 0 avl_new 0 v1 avl_new) 1 v2 (Nd 0 0 avl_new 2 v3 avl_new)).
Proof. induction vs as [|v vs IH]; [reflexivity|]. cbn [append_all]. cbn. exact IH. Qed.

Lemma append_three {V} (v1 v2 v3 : option V) vs :
  exists t, append_all avl_new (v1 :: v2 :: v3 :: vs) = Ok t /\ inorder t = [(0, v1); (1, v2); (2, v3)].
Proof.
  exists (Nd 1 0 (Nd 0 0 avl_new 0 v1 avl_new) 1 v2 (Nd 0 0 avl_new 2 v3 avl_new)).
  split; [|reflexivity]. etransitivity; [|apply (append_fix v1 v2 v3 vs)]. reflexivity.
Qed.

Lemma append_firstn {V} (vs : list (option V)) :
  exists t, append_all avl_new vs = Ok t /\ map snd (inorder t) = firstn 3 vs.
Proof.
  destruct vs as [|v1 [|v2 [|v3 vs]]].
  - eexists; split; reflexivity.
  - eexists; split; reflexivity.
  - eexists; split; reflexivity.
  - destruct (append_three v1 v2 v3 vs) as (t & E & I). exists t. split; auto. now rewrite I.
Qed.
