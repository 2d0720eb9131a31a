(* Lemmas for BvhProps.v: pair, nearest and segment queries. *)
From Coq Require Import List Arith ZArith Bool QArith Qcanon Lia Permutation.
From Verif Require Import Common QcLib ArrZ AabbModel AabbSpec AabbProofs AabbProofs2 BvhModel BvhSpec BvhProofs.
Import ListNotations.
Local Open Scope Qc_scope.

Section S.
Context {A : Type}.
Notation tree := (bvh A).
Fixpoint size (t : tree) : nat := match t with BLeaf _ _ => 1 | BNode _ l r => 1 + size l + size r end.
Lemma size_pos t : (1 <= size t)%nat. Proof. destruct t; cbn; lia. Qed.
Definition weight (s : list (tree * tree)) : nat := fold_right (fun p n => size (fst p) * size (snd p) + n)%nat 0%nat s.
Definition wf (t : tree) : Prop := bounded t /\ leaf_boxes t.
Lemma wf_node b (x y : tree) : wf (BNode b x y) -> wf x /\ wf y.
Proof. intros [B [Lx Ly]]. destruct (bounded_node _ _ _ B) as [Bx [By _]]. split; split; assumption. Qed.
Lemma leaf_nodes_covered t : wf t -> Forall (fun n => made (node_box n) /\ covers (node_box t) (node_box n)) (leaf_nodes t).
Proof.
  induction t as [b o|b x IHx y IHy]; intros W.
  - constructor; [|constructor]. split; [exact (bounded_made _ (proj1 W))|apply covers_refl].
  - destruct (wf_node _ _ _ W) as [Wx Wy]. destruct (bounded_node _ _ _ (proj1 W)) as [Bx [By [Cx Cy]]]. cbn [leaf_nodes node_box]. apply Forall_app. split.
    + eapply Forall_impl; [|exact (IHx Wx)]. intros p [M C]. split; [exact M|exact (covers_trans _ _ _ Cx C)].
    + eapply Forall_impl; [|exact (IHy Wy)]. intros p [M C]. split; [exact M|exact (covers_trans _ _ _ Cy C)].
Qed.
Definition meet2 (p : tree * tree) : bool := intersect (node_box (fst p)) (node_box (snd p)).
Definition hits (p : tree * tree) : list (tree * tree) := filter meet2 (list_prod (leaf_nodes (fst p)) (leaf_nodes (snd p))).
Lemma prod_app_l {X Y} (a b : list X) (c : list Y) : list_prod (a ++ b) c = list_prod a c ++ list_prod b c.
Proof. induction a as [|x a IH]; cbn; [reflexivity|]. rewrite IH, app_assoc. reflexivity. Qed.
Lemma perm_swap4 {X} (a b c d : list X) : Permutation ((a ++ b) ++ c ++ d) ((a ++ c) ++ b ++ d).
Proof. rewrite <- !app_assoc. apply Permutation_app_head. rewrite !app_assoc. apply Permutation_app_tail. apply Permutation_app_comm. Qed.
Lemma prod_app_r {X Y} (a : list X) (b c : list Y) : Permutation (list_prod a (b ++ c)) (list_prod a b ++ list_prod a c).
Proof.
  induction a as [|x a IH]; cbn; [constructor|]. rewrite map_app.
  etransitivity; [apply Permutation_app_head; exact IH|]. apply perm_swap4.
Qed.
Lemma hits_l b (x y : tree) z : hits (BNode b x y, z) = hits (x, z) ++ hits (y, z).
Proof. unfold hits; cbn [fst snd leaf_nodes]. rewrite prod_app_l, filter_app. reflexivity. Qed.
Lemma perm_filter2 {X} (f : X -> bool) l l' : Permutation l l' -> Permutation (filter f l) (filter f l').
Proof. induction 1; cbn; repeat destruct (f _); try constructor; try assumption; try reflexivity; try apply perm_swap. etransitivity; eassumption. Qed.
Lemma hits_r b z (x y : tree) : Permutation (hits (z, BNode b x y)) (hits (z, x) ++ hits (z, y)).
Proof. unfold hits; cbn [fst snd leaf_nodes]. rewrite <- filter_app. apply perm_filter2. apply prod_app_r. Qed.
Lemma hits_none x y : wf x -> wf y -> intersect (node_box x) (node_box y) = false -> hits (x, y) = [].
Proof.
  intros Wx Wy E. apply filter_none. apply Forall_forall. intros [u v] H. apply in_prod_iff in H. destruct H as [Hu Hv]. cbn [fst snd] in *.
  pose proof (leaf_nodes_covered x Wx) as Cx. pose proof (leaf_nodes_covered y Wy) as Cy. rewrite Forall_forall in Cx, Cy.
  destruct (Cx u Hu) as [Mu Cu]. destruct (Cy v Hv) as [Mv Cv]. unfold meet2; cbn [fst snd]. apply not_true_is_false. intros I.
  apply intersect_meets in I; [|assumption|assumption].
  assert (intersect (node_box x) (node_box y) = true); [|congruence].
  apply intersect_meets; [exact (bounded_made _ (proj1 Wx))|exact (bounded_made _ (proj1 Wy))|].
  eapply meets_covers; [exact Cu|]. apply meets_sym. eapply meets_covers; [exact Cv|]. apply meets_sym. exact I.
Qed.
Lemma pairs_ok : forall fuel stack out, (weight stack < fuel)%nat -> Forall (fun p => wf (fst p) /\ wf (snd p)) stack ->
  exists r, pairs_loop fuel stack out = Ok r /\ Permutation r (out ++ flat_map hits stack).
Proof.
  induction fuel as [|fuel IH]; intros stack out F W; [lia|]. destruct stack as [|[n1 n2] stack].
  { exists out. split; [reflexivity|]. cbn. rewrite app_nil_r. reflexivity. }
  cbn [pairs_loop]. cbn [flat_map]. inversion W as [|? ? [W1 W2] Ws]; subst. cbn [fst snd] in *.
  assert (Fs : (size n1 * size n2 + weight stack < S fuel)%nat) by exact F. pose proof (size_pos n1) as S1. pose proof (size_pos n2) as S2.
  assert (S12 : (1 <= size n1 * size n2)%nat) by nia.
  destruct (intersect (node_box n1) (node_box n2)) eqn:E; cbn [negb].
  2:{ rewrite (hits_none n1 n2 W1 W2 E). cbn [app]. apply IH; [lia|exact Ws]. }
  destruct n1 as [b1 o1|b1 l1 r1], n2 as [b2 o2|b2 l2 r2].
  - destruct (IH stack (out ++ [(BLeaf b1 o1, BLeaf b2 o2)])) as [r [Er P]]; [lia|exact Ws|]. exists r. split; [exact Er|].
    assert (hits (BLeaf b1 o1, BLeaf b2 o2) = [(BLeaf b1 o1, BLeaf b2 o2)]) as ->.
    { unfold hits; cbn. unfold meet2; cbn [fst snd]. rewrite E. reflexivity. }
    rewrite <- app_assoc in P. exact P.
  - destruct (wf_node _ _ _ W2) as [Wl Wr].
    destruct (IH ((BLeaf b1 o1, r2) :: (BLeaf b1 o1, l2) :: stack) out) as [r [Er P]]; [cbn in *; lia|repeat (constructor; [split; assumption|]); exact Ws|].
    exists r. split; [exact Er|]. etransitivity; [exact P|]. apply Permutation_app_head. cbn [flat_map]. rewrite app_assoc. apply Permutation_app_tail.
    etransitivity; [apply Permutation_app_comm|]. symmetry. apply hits_r.
  - destruct (wf_node _ _ _ W1) as [Wl Wr].
    destruct (IH ((r1, BLeaf b2 o2) :: (l1, BLeaf b2 o2) :: stack) out) as [r [Er P]]; [cbn in *; lia|repeat (constructor; [split; assumption|]); exact Ws|].
    exists r. split; [exact Er|]. etransitivity; [exact P|]. apply Permutation_app_head. cbn [flat_map]. rewrite app_assoc. apply Permutation_app_tail.
    rewrite hits_l. apply Permutation_app_comm.
  - destruct (wf_node _ _ _ W1) as [Wl1 Wr1]. destruct (wf_node _ _ _ W2) as [Wl2 Wr2].
    destruct (IH ((r1, r2) :: (r1, l2) :: (l1, r2) :: (l1, l2) :: stack) out) as [r [Er P]].
    + cbn [weight fold_right fst snd size] in *. fold (weight stack) in *. nia.
    + repeat (constructor; [split; assumption|]). exact Ws.
    + exists r. split; [exact Er|]. etransitivity; [exact P|]. apply Permutation_app_head. cbn [flat_map]. rewrite hits_l.
      rewrite !app_assoc. apply Permutation_app_tail. rewrite <- !app_assoc.
      etransitivity; [|apply Permutation_app; symmetry; apply hits_r].
      rewrite (app_assoc (hits (r1, r2))). etransitivity; [apply Permutation_app_comm|].
      apply Permutation_app; apply Permutation_app_comm.
Qed.

Definition single (o : obj A) : tree := BLeaf (obox o) (One o).
Lemma singles n t : n = 1%Z -> Forall (leaf_ok n) (leaves t) -> leaf_boxes t -> leaf_nodes t = map single (below t).
Proof.
  intros Hn. induction t as [b o|b x IHx y IHy]; intros L K.
  - cbn in K. subst b. inversion L as [|? ? [_ H] _]; subst. destruct (H eq_refl) as [o' ->]. reflexivity.
  - cbn [leaves] in L. apply Forall_app in L. destruct L, K. rewrite below_node, map_app. cbn. now rewrite IHx, IHy.
Qed.
Lemma prod_map {X Y X' Y'} (f : X -> X') (g : Y -> Y') a b : list_prod (map f a) (map g b) = map (fun p => (f (fst p), g (snd p))) (list_prod a b).
Proof. induction a as [|x a IH]; cbn; [reflexivity|]. rewrite map_app, IH. f_equal. rewrite !map_map. reflexivity. Qed.
Lemma prod_perm {X Y} (a a' : list X) (b b' : list Y) : Permutation a a' -> Permutation b b' -> Permutation (list_prod a b) (list_prod a' b').
Proof.
  intros P Q. transitivity (list_prod a b').
  - clear P. induction a as [|x a IH]; cbn; [constructor|]. apply Permutation_app; [now apply Permutation_map|exact IH].
  - clear Q. induction P; cbn.
    + constructor.
    + now apply Permutation_app_head.
    + rewrite !app_assoc. apply Permutation_app_tail. apply Permutation_app_comm.
    + etransitivity; eassumption.
Qed.
Definition singles2 (p : obj A * obj A) : tree * tree := (single (fst p), single (snd p)).
Lemma built_wf t l n : built t l n -> wf t. Proof. intros H. destruct (built_spec _ _ _ H) as [_ [B [_ K]]]. split; assumption. Qed.
Lemma pair_query la lb ta tb : built ta la 1 -> built tb lb 1 -> exists n, forall fuel, (n < fuel)%nat ->
  exists found missed, intersect_bvh_objects fuel ta tb = Ok (map singles2 found) /\ Permutation (found ++ missed) (list_prod la lb) /\
    Forall (fun p => meets (obox (fst p)) (obox (snd p))) found /\ Forall (fun p => ~ meets (obox (fst p)) (obox (snd p))) missed.
Proof.
  intros Ha Hb. exists (weight [(ta, tb)]). intros fuel F.
  destruct (pairs_ok fuel [(ta, tb)] [] F) as [r [E P]].
  { constructor; [|constructor]. split; cbn; eapply built_wf; eassumption. }
  cbn [flat_map app] in P. rewrite app_nil_r in P. unfold hits in P. cbn [fst snd] in P.
  destruct (built_spec _ _ _ Ha) as [Pa [Ba [La Ka]]]. destruct (built_spec _ _ _ Hb) as [Pb [Bb [Lb Kb]]].
  rewrite (singles 1 ta eq_refl La Ka), (singles 1 tb eq_refl Lb Kb), prod_map, filter_map in P.
  set (f := fun p : obj A * obj A => intersect (obox (fst p)) (obox (snd p))).
  change (Permutation r (map singles2 (filter f (list_prod (below ta) (below tb))))) in P.
  destruct (Permutation_map_inv _ _ P) as [found [-> Pf]]. 
  exists found, (filter (fun x => negb (f x)) (list_prod (below ta) (below tb))).
  assert (Mm : forall p, In p (list_prod (below ta) (below tb)) -> made (obox (fst p)) /\ made (obox (snd p))).
  { intros [u v] H. apply in_prod_iff in H. destruct H as [Hu Hv]. destruct Ha as [_ [_ [Ma _]]], Hb as [_ [_ [Mb _]]]. rewrite Forall_forall in Ma, Mb.
    split; cbn; [apply Ma; eapply Permutation_in; [exact Pa|exact Hu]|apply Mb; eapply Permutation_in; [exact Pb|exact Hv]]. }
  split; [exact E|]. split; [|split].
  - etransitivity; [|apply prod_perm; [exact Pa|exact Pb]]. etransitivity; [|apply (filter_part f)]. apply Permutation_app_tail. symmetry; exact Pf.
  - apply Forall_forall. intros p Hp. apply (Permutation_in _ (Permutation_sym Pf)) in Hp. apply filter_In in Hp. destruct Hp as [Hp I]. destruct (Mm p Hp). apply intersect_meets; assumption.
  - apply Forall_forall. intros p Hp I. apply filter_In in Hp. destruct Hp as [Hp J]. destruct (Mm p Hp). apply intersect_meets in I; [|assumption|assumption]. unfold f in J. rewrite I in J. discriminate.
Qed.

(* any leaf size *)
Lemma pair_query_leaves (la lb : list (obj A)) (ta tb : tree) m k : built ta la m -> built tb lb k -> exists n, forall fuel, (n < fuel)%nat ->
  exists (found missed : list (tree * tree)), intersect_bvh_objects fuel ta tb = Ok found /\ Permutation (found ++ missed) (list_prod (leaf_nodes ta) (leaf_nodes tb)) /\
    Forall (fun p => meets (node_box (fst p)) (node_box (snd p))) found /\ Forall (fun p => forall a b, In a (below (fst p)) -> In b (below (snd p)) -> ~ meets (obox a) (obox b)) missed.
Proof.
  intros Ha Hb. exists (weight [(ta, tb)]). intros fuel F. pose proof (built_wf _ _ _ Ha) as Wa. pose proof (built_wf _ _ _ Hb) as Wb.
  destruct (pairs_ok fuel [(ta, tb)] [] F) as [r [E P]].
  { constructor; [|constructor]. split; assumption. }
  cbn [flat_map app] in P. rewrite app_nil_r in P. unfold hits in P. cbn [fst snd] in P.
  exists r, (filter (fun x => negb (meet2 x)) (list_prod (leaf_nodes ta) (leaf_nodes tb))).
  assert (Mm : forall p, In p (list_prod (leaf_nodes ta) (leaf_nodes tb)) -> made (node_box (fst p)) /\ made (node_box (snd p))).
  { intros [u v] H. apply in_prod_iff in H. destruct H as [Hu Hv]. pose proof (leaf_nodes_covered _ Wa) as Ma. pose proof (leaf_nodes_covered _ Wb) as Mb. rewrite Forall_forall in Ma, Mb.
    split; cbn; [apply Ma|apply Mb]; assumption. }
  assert (Cv : forall t u : tree, bounded t -> In u (leaf_nodes t) -> Forall (fun o => covers (node_box u) (obox o)) (below u)).
  { clear. induction t as [b o|b x IHx y IHy]; intros u B Hu; cbn in Hu.
    - destruct Hu as [<-|[]]. apply (bounded_root _ B).
    - destruct (bounded_node _ _ _ B) as [Bx [By _]]. apply in_app_or in Hu. destruct Hu; auto. }
  split; [exact E|]. split; [|split].
  - etransitivity; [|apply (filter_part meet2)]. apply Permutation_app_tail. exact P.
  - apply Forall_forall. intros p Hp. apply (Permutation_in _ P) in Hp. apply filter_In in Hp. destruct Hp as [Hp I]. destruct (Mm p Hp). apply intersect_meets; assumption.
  - apply Forall_forall. intros [u v] Hp a b Ia Ib I. apply filter_In in Hp. destruct Hp as [Hp J]. destruct (Mm _ Hp) as [Mu Mv]. cbn [fst snd] in *. apply in_prod_iff in Hp. destruct Hp as [Hu Hv].
    pose proof (Cv _ _ (proj1 Wa) Hu) as Cu. pose proof (Cv _ _ (proj1 Wb) Hv) as Cw. rewrite Forall_forall in Cu, Cw.
    assert (meets (node_box u) (node_box v)) as K.
    { eapply meets_covers; [exact (Cu _ Ia)|]. apply meets_sym. eapply meets_covers; [exact (Cw _ Ib)|]. apply meets_sym. exact I. }
    apply intersect_meets in K; [|assumption|assumption]. unfold meet2 in J. cbn [fst snd] in J. rewrite K in J. discriminate.
Qed.

(* 82-93, 469-489 *)
Lemma intersection_ok a b : match intersection a b with
  | Some c => made c /\ forall p, in_box3 p (corners c) <-> in_box3 p (corners a) /\ in_box3 p (corners b)
  | None => ~ meets a b end.
Proof.
  unfold intersection. pose proof (intersection_exact (bmin a, bmax a) (bmin b, bmax b)) as H. destruct (aabb_intersection _ _) as [[lo hi]|].
  - destruct H as [P H]. split; [apply made_mk; exact P|exact H].
  - intros [p [I J]]. apply (H p). split; assumption.
Qed.
Lemma overlap_boxes (la lb : list (obj A)) (ta tb : tree) : built ta la 1 -> built tb lb 1 -> exists n, forall fuel, (n < fuel)%nat -> exists boxes, intersect_bvh fuel ta tb = Ok (map Some boxes) /\
  Forall made boxes /\ forall p, (exists c, In c boxes /\ in_box3 p (corners c)) <-> (exists a : obj A, In a la /\ in_box3 p (corners (obox a))) /\ (exists b : obj A, In b lb /\ in_box3 p (corners (obox b))).
Proof.
  intros Ha Hb. destruct (pair_query la lb ta tb Ha Hb) as [n H]. exists n. intros fuel F. destruct (H fuel F) as [found [missed [E [P [Yes No]]]]].
  unfold intersect_bvh. rewrite E. cbn [bind]. rewrite map_map. cbn [singles2 single fst snd node_box].
  assert (G : forall l : list (obj A * obj A), Forall (fun p => meets (obox (fst p)) (obox (snd p))) l -> exists boxes, map (fun x : obj A * obj A => intersection (obox (fst x)) (obox (snd x))) l = map Some boxes /\ Forall made boxes /\
     forall p, (exists c, In c boxes /\ in_box3 p (corners c)) <-> (exists x, In x l /\ in_box3 p (corners (obox (fst x))) /\ in_box3 p (corners (obox (snd x))))).
  { clear. intros l Hl. induction Hl as [|x l Hx _ [bs [IE [IM IP]]]].
    - exists []. split; [reflexivity|]. split; [constructor|]. intros p; split; intros [c [[] _]].
    - pose proof (intersection_ok (obox (fst x)) (obox (snd x))) as K. destruct (intersection (obox (fst x)) (obox (snd x))) as [c|] eqn:Ec; [|contradiction]. destruct K as [Mc Kc].
      exists (c :: bs). cbn. rewrite Ec, IE. split; [reflexivity|]. split; [constructor; assumption|]. intros p. split.
      + intros [d [[<-|Hd] I]]; [exists x; split; [left; reflexivity|now apply Kc]|]. destruct (proj1 (IP p)) as [y [Hy Iy]]; [exists d; auto|]. exists y; auto.
      + intros [y [[<-|Hy] I]]; [exists c; split; [left; reflexivity|now apply Kc]|]. destruct (proj2 (IP p)) as [d [Hd Id]]; [exists y; auto|]. exists d; auto. }
  destruct (G found Yes) as [boxes [Eb [Mb Kb]]]. exists boxes. split; [f_equal; exact Eb|]. split; [exact Mb|]. intros p. rewrite Kb. split.
  - intros [[u v] [Hx [I J]]]. cbn in *. assert (Hp : In (u, v) (list_prod la lb)) by (eapply Permutation_in; [exact P|apply in_or_app; left; exact Hx]).
    apply in_prod_iff in Hp. destruct Hp. split; [exists u; auto|exists v; auto].
  - intros [[u [Hu I]] [v [Hv J]]]. assert (Hp : In (u, v) (found ++ missed)) by (eapply Permutation_in; [apply Permutation_sym; exact P|apply in_prod_iff; auto]).
    apply in_app_or in Hp. destruct Hp as [Hp|Hp]; [exists (u, v); cbn; auto|]. rewrite Forall_forall in No. exfalso. apply (No _ Hp). exists p. cbn; auto.
Qed.

(* 491-547 *)
Lemma vicinity_ok p (t : tree) : wf t -> in_box3 p (corners (node_box t)) -> match find_closest_vicinity t p with
  | None => Forall (fun q => ~ in_box3 p (corners (payload_box q))) (leaves t)
  | Some (os, d) => os <> [] /\ exists missed, Permutation (os ++ missed) (leaves t) /\ Forall (fun q => in_box3 p (corners (payload_box q)) /\ distance q p = d) os /\
      Forall (fun q => in_box3 p (corners (payload_box q)) -> d < distance q p) missed
  end.
Proof.
  assert (Out : forall t : tree, wf t -> contains (node_box t) p = false -> Forall (fun q => ~ in_box3 p (corners (payload_box q))) (leaves t)).
  { intros u [Bu Ku] E. eapply Forall_impl; [|exact (leaves_covered _ Bu Ku)]. intros q [M C] I. apply C in I. apply contains_in in I. congruence. }
  induction t as [b o|b x IHx y IHy]; intros W I; cbn [find_closest_vicinity leaves].
  - split; [discriminate|]. exists []. split; [reflexivity|]. split; [|constructor]. constructor; [|constructor]. destruct W as [B K]. cbn in K. subst b.
    split; [exact I|]. unfold distance. pose proof (made_arr _ (bounded_made _ B)) as Ea. cbn [node_box] in Ea. rewrite Ea. reflexivity.
  - cbn [node_box] in I. rewrite (proj2 (contains_in b p) I). cbn [negb]. destruct (wf_node _ _ _ W) as [Wx Wy]. specialize (IHx Wx). specialize (IHy Wy).
    destruct (contains (node_box x) p) eqn:Ex, (contains (node_box y) p) eqn:Ey.
    + apply contains_in in Ex. apply contains_in in Ey. specialize (IHx Ex). specialize (IHy Ey).
      destruct (find_closest_vicinity x p) as [[ox dx]|], (find_closest_vicinity y p) as [[oy dy]|].
      * destruct IHx as [Nx [mx [Px [Fx Gx]]]]. destruct IHy as [Ny [my [Py [Fy Gy]]]].
        assert (PP : Permutation ((ox ++ oy) ++ mx ++ my) (leaves x ++ leaves y)) by (etransitivity; [apply perm_swap4|apply Permutation_app; assumption]).
        destruct (qlt dx dy) eqn:E1; [|destruct (qlt dy dx) eqn:E2].
        -- apply qlt_true in E1. split; [exact Nx|]. exists (oy ++ mx ++ my). split; [rewrite app_assoc; exact PP|]. split; [exact Fx|].
           apply Forall_app. split; [eapply Forall_impl; [|exact Fy]; intros q [_ Eq] _; rewrite Eq; exact E1|]. apply Forall_app. split; [exact Gx|].
           eapply Forall_impl; [|exact Gy]. intros q H J. specialize (H J). qlra.
        -- apply qlt_true in E2. split; [exact Ny|]. exists (ox ++ mx ++ my). split; [etransitivity; [rewrite app_assoc; apply Permutation_app_tail, Permutation_app_comm|exact PP]|]. split; [exact Fy|].
           apply Forall_app. split; [eapply Forall_impl; [|exact Fx]; intros q [_ Eq] _; rewrite Eq; exact E2|]. apply Forall_app. split; [|exact Gy].
           eapply Forall_impl; [|exact Gx]. intros q H J. specialize (H J). qlra.
        -- apply qlt_false in E1. apply qlt_false in E2. assert (dx = dy) by (apply Qcle_antisym; assumption). subst dy.
           split; [intros Ea; apply app_eq_nil in Ea; destruct Ea; congruence|]. exists (mx ++ my). split; [exact PP|]. split; apply Forall_app; split; assumption.
      * destruct IHx as [Nx [mx [Px [Fx Gx]]]]. split; [exact Nx|]. exists (mx ++ leaves y). split; [rewrite app_assoc; apply Permutation_app_tail; exact Px|]. split; [exact Fx|].
        apply Forall_app. split; [exact Gx|]. eapply Forall_impl; [|exact IHy]. intros q N J. contradiction.
      * destruct IHy as [Ny [my [Py [Fy Gy]]]]. split; [exact Ny|]. exists (leaves x ++ my). split; [|split; [exact Fy|]].
        -- rewrite app_assoc. etransitivity; [apply Permutation_app_tail, Permutation_app_comm|]. rewrite <- app_assoc. apply Permutation_app_head. exact Py.
        -- apply Forall_app. split; [|exact Gy]. eapply Forall_impl; [|exact IHx]. intros q N J. contradiction.
      * apply Forall_app. split; assumption.
    + apply contains_in in Ex. specialize (IHx Ex). pose proof (Out y Wy Ey) as Oy. destruct (find_closest_vicinity x p) as [[ox dx]|]; [|apply Forall_app; split; assumption].
      destruct IHx as [Nx [mx [Px [Fx Gx]]]]. split; [exact Nx|]. exists (mx ++ leaves y). split; [rewrite app_assoc; apply Permutation_app_tail; exact Px|]. split; [exact Fx|].
      apply Forall_app. split; [exact Gx|]. eapply Forall_impl; [|exact Oy]. intros q N J. contradiction.
    + apply contains_in in Ey. specialize (IHy Ey). pose proof (Out x Wx Ex) as Ox. destruct (find_closest_vicinity y p) as [[oy dy]|]; [|apply Forall_app; split; assumption].
      destruct IHy as [Ny [my [Py [Fy Gy]]]]. split; [exact Ny|]. exists (leaves x ++ my). split; [|split; [exact Fy|]].
      * rewrite app_assoc. etransitivity; [apply Permutation_app_tail, Permutation_app_comm|]. rewrite <- app_assoc. apply Permutation_app_head. exact Py.
      * apply Forall_app. split; [|exact Gy]. eapply Forall_impl; [|exact Ox]. intros q N J. contradiction.
    + apply Forall_app. split; apply Out; assumption.
Qed.
Lemma vicinity_outside p b (x y : tree) : ~ in_box3 p (corners b) -> find_closest_vicinity (BNode b x y) p = None.
Proof. intros N. cbn. destruct (contains b p) eqn:E; [apply contains_in in E; contradiction|reflexivity]. Qed.
Lemma vicinity_built p (l : list (obj A)) (t : tree) n : built t l n -> is_node t -> match find_closest_vicinity t p with
  | None => Forall (fun q => ~ in_box3 p (corners (payload_box q))) (leaves t)
  | Some (os, d) => os <> [] /\ exists missed, Permutation (os ++ missed) (leaves t) /\ Forall (fun q => in_box3 p (corners (payload_box q)) /\ distance q p = d) os /\
      Forall (fun q => in_box3 p (corners (payload_box q)) -> d < distance q p) missed
  end.
Proof.
  intros H N. pose proof (built_wf _ _ _ H) as W. destruct (contains (node_box t) p) eqn:E.
  - apply vicinity_ok; [exact W|now apply contains_in].
  - destruct t as [|b x y]; [contradiction|]. rewrite vicinity_outside; [|intros I; apply contains_in in I; cbn in E; congruence].
    eapply Forall_impl; [|exact (leaves_covered _ (proj1 W) (proj2 W))]. intros q [M C] I. apply C in I. apply contains_in in I. congruence.
Qed.
(* 549-585 *)
Lemma breadth_ok p (t : tree) : wf t -> let '(os, d) := find_closest_breadth t p in os <> [] /\ exists missed, Permutation (os ++ missed) (leaves t) /\ Forall (fun q => distance q p = d) os.
Proof.
  induction t as [b o|b x IHx y IHy]; intros W; cbn [find_closest_breadth leaves].
  - split; [discriminate|]. exists []. split; [reflexivity|]. constructor; [|constructor]. destruct W as [B K]. cbn in K. subst b. unfold distance. pose proof (made_arr _ (bounded_made _ B)) as Ea. cbn [node_box] in Ea. rewrite Ea. reflexivity.
  - destruct (wf_node _ _ _ W) as [Wx Wy]. specialize (IHx Wx). specialize (IHy Wy).
    destruct (find_closest_breadth x p) as [ox dx], (find_closest_breadth y p) as [oy dy]. destruct IHx as [Nx [mx [Px Fx]]]. destruct IHy as [Ny [my [Py Fy]]].
    assert (Rx : ox <> [] /\ exists missed, Permutation (ox ++ missed) (leaves x ++ leaves y) /\ Forall (fun q => distance q p = dx) ox).
    { split; [exact Nx|]. exists (mx ++ leaves y). split; [rewrite app_assoc; apply Permutation_app_tail; exact Px|exact Fx]. }
    assert (Ry : oy <> [] /\ exists missed, Permutation (oy ++ missed) (leaves x ++ leaves y) /\ Forall (fun q => distance q p = dy) oy).
    { split; [exact Ny|]. exists (leaves x ++ my). split; [|exact Fy]. rewrite app_assoc. etransitivity; [apply Permutation_app_tail, Permutation_app_comm|]. rewrite <- app_assoc. apply Permutation_app_head. exact Py. }
    destruct (qlt (sd_aabb _ _) (sd_aabb _ _)); [exact Rx|]. destruct (qlt (sd_aabb (barr (node_box y)) p) _); [exact Ry|].
    destruct (qlt dx dy) eqn:E1; [exact Rx|]. destruct (qlt dy dx) eqn:E2; [exact Ry|]. apply qlt_false in E1. apply qlt_false in E2. assert (dx = dy) by (apply Qcle_antisym; assumption). subst dy.
    split; [intros Ea; apply app_eq_nil in Ea; destruct Ea; congruence|]. exists (mx ++ my). split; [|apply Forall_app; split; assumption].
    etransitivity; [apply perm_swap4|apply Permutation_app; assumption].
Qed.

(* 726-756 *)
Definition passes (s : v3 * v3) (b : bbox) : bool := aabb_intersect_3d (barr b) (aabb_segm3d (fst s) (snd s)) && match segment_aabb_clip (barr b) s with Some _ => true | None => false end.
Lemma seg_in_box s t : 0 <= t -> t <= 1 -> in_box3 (seg_at s t) (aabb_segm3d (fst s) (snd s)).
Proof.
  intros H K. destruct (segm3d_tight (fst s) (snd s)) as [_ [[[? ?] [[? ?] [? ?]]] [[[? ?] [[? ?] [? ?]]] _]]].
  unfold in_box3, seg_at in *. set (bb := aabb_segm3d (fst s) (snd s)) in *. clearbody bb. destruct s as [[[a b] c] [[d e] f]]. destruct bb as [[[l m] n] [[u v] w]]. unfold vx, vy, vz in *; cbn [fst snd] in *.
  repeat split; qnra.
Qed.
Lemma passes_iff s b : made b -> plain3 (vsub (snd s) (fst s)) -> (passes s b = true <-> crosses s b).
Proof.
  intros M Pl. unfold passes, crosses. rewrite (made_arr _ M). unfold segment_aabb_clip.
  pose proof (segment_hit (corners b) s (made_proper _ M) Pl) as H.
  destruct (segment_aabb_intersect (corners b) s) as [[t0 t1]|] eqn:E.
  - rewrite andb_true_r. destruct (proj1 H) as [t [T0 [T1 I]]]; [discriminate|]. split.
    + intros _. exists t. auto.
    + intros _. apply intersect_3d_exact; [apply made_proper, M|apply segm3d_tight|]. exists (seg_at s t). split; [exact I|now apply seg_in_box].
  - rewrite andb_false_r. split; [discriminate|]. intros X. apply H in X. congruence.
Qed.
Lemma crosses_covers s a b : covers a b -> crosses s b -> crosses s a.
Proof. intros C [t [H [K I]]]. exists t. auto. Qed.
Definition tsize (s : list tree) : nat := fold_right (fun t n => size t + n)%nat 0%nat s.
Lemma segment_ok s : plain3 (vsub (snd s) (fst s)) -> forall fuel stack out, (tsize stack < fuel)%nat -> Forall wf stack ->
  exists r, segment_loop fuel s stack out = Ok r /\ Permutation r (out ++ map (fun o => (o, s)) (filter (fun q => passes s (payload_box q)) (flat_map leaves stack))).
Proof.
  intros Pl. induction fuel as [|fuel IH]; intros stack out F W; [lia|]. destruct stack as [|t stack].
  { exists out. split; [reflexivity|]. cbn. rewrite app_nil_r. reflexivity. }
  inversion W as [|? ? Wt Ws]; subst. cbn [segment_loop flat_map]. cbn [tsize fold_right] in F. fold (tsize stack) in F. pose proof (size_pos t) as St.
  assert (N : passes s (node_box t) = false -> exists r, segment_loop fuel s stack out = Ok r /\ Permutation r (out ++ map (fun o => (o, s)) (filter (fun q => passes s (payload_box q)) (leaves t ++ flat_map leaves stack)))).
  { intros E. rewrite filter_app. rewrite (filter_none _ (leaves t)).
    - apply IH; [lia|exact Ws].
    - eapply Forall_impl; [|exact (leaves_covered _ (proj1 Wt) (proj2 Wt))]. intros q [M C]. cbn. apply not_true_is_false. intros X. apply passes_iff in X; [|assumption|assumption].
      eapply crosses_covers in X; [|exact C]. apply passes_iff in X; [congruence|exact (bounded_made _ (proj1 Wt))|assumption]. }
  unfold passes in N. destruct (aabb_intersect_3d (barr (node_box t)) (aabb_segm3d (fst s) (snd s))) eqn:E1; cbn [negb]; [|apply N; reflexivity].
  destruct (segment_aabb_clip (barr (node_box t)) s) as [c|] eqn:E2; [|apply N; reflexivity]. clear N.
  destruct t as [b o|b x y].
  - destruct (IH stack (out ++ [(o, s)])) as [r [Er P]]; [cbn in F; lia|exact Ws|]. exists r. split; [exact Er|]. cbn [leaves app filter]. destruct Wt as [B K]. cbn in K. subst b.
    cbn [node_box] in *. unfold passes at 1. rewrite E1, E2. cbn [andb map]. rewrite <- app_assoc in P. exact P.
  - destruct (wf_node _ _ _ Wt) as [Wx Wy]. destruct (IH (y :: x :: stack) out) as [r [Er P]]; [cbn [tsize fold_right size] in *; fold (tsize stack); lia|repeat (constructor; [assumption|]); exact Ws|].
    exists r. split; [exact Er|]. etransitivity; [exact P|]. apply Permutation_app_head, Permutation_map. apply perm_filter2. cbn [flat_map leaves]. rewrite !app_assoc. apply Permutation_app_tail, Permutation_app_comm.
Qed.
Lemma segment_query (l : list (obj A)) (t : tree) s : built t l 1 -> plain3 (vsub (snd s) (fst s)) -> exists n, forall fuel, (n < fuel)%nat ->
  exists found missed, bvh_segment_intersection fuel t s = Ok (map (fun o => (One o, s)) found) /\ Permutation (found ++ missed) l /\
    Forall (fun o => crosses s (obox o)) found /\ Forall (fun o => ~ crosses s (obox o)) missed.
Proof.
  intros Hb Pl. exists (tsize [t]). intros fuel F. pose proof (built_wf _ _ _ Hb) as W. destruct (segment_ok s Pl fuel [t] [] F) as [r [E P]]; [constructor; [exact W|constructor]|].
  cbn [flat_map app] in P. rewrite app_nil_r in P. destruct (built_spec _ _ _ Hb) as [Pb [B [L K]]].
  rewrite (ones 1 _ eq_refl L), filter_map, map_map in P. fold (below t) in P. cbn [payload_box] in P. set (f := fun x : obj A => passes s (obox x)) in P.
  destruct (Permutation_map_inv _ _ P) as [found [-> Pf]].
  exists found, (filter (fun x => negb (f x)) (below t)). split; [exact E|].
  assert (M : forall o, In o (below t) -> made (obox o)).
  { intros o Ho. destruct Hb as [_ [_ [M _]]]. rewrite Forall_forall in M. apply M. eapply Permutation_in; eassumption. }
  split; [|split].
  - etransitivity; [|exact Pb]. etransitivity; [|apply (filter_part f)]. apply Permutation_app_tail. symmetry; exact Pf.
  - apply Forall_forall. intros o Ho. apply (Permutation_in _ (Permutation_sym Pf)) in Ho. apply filter_In in Ho. destruct Ho as [Ho X]. apply passes_iff; auto.
  - apply Forall_forall. intros o Ho X. apply filter_In in Ho. destruct Ho as [Ho Y]. apply passes_iff in X; auto. unfold f in Y. rewrite X in Y. discriminate.
Qed.
End S.

Section G.
Context {A : Type}.
Lemma breadth_sub p (t : bvh A) : incl (fst (find_closest_breadth t p)) (leaves t).
Proof.
  induction t as [b o|b x IHx y IHy]; cbn [find_closest_breadth leaves]; [intros q H; exact H|].
  destruct (find_closest_breadth x p) as [ox dx], (find_closest_breadth y p) as [oy dy]. cbn [fst] in *.
  destruct (qlt (sd_aabb (barr (node_box x)) p) _); [now apply incl_appl|]. destruct (qlt (sd_aabb (barr (node_box y)) p) _); [now apply incl_appr|].
  destruct (qlt dx dy); [now apply incl_appl|]. destruct (qlt dy dx); [now apply incl_appr|]. cbn [fst].
  apply incl_app; [now apply incl_appl|now apply incl_appr].
Qed.
Lemma greedy p l n b (x y : bvh A) : built (BNode b x y) l n -> sd_aabb (corners (node_box x)) p < sd_aabb (corners (node_box y)) p ->
  (exists near, In near (leaves y) /\ Forall (fun q => distance near p < distance q p) (leaves x)) ->
  exists near, In near (leaves (BNode b x y)) /\ Forall (fun q => distance near p < distance q p) (fst (find_closest_breadth (BNode b x y) p)).
Proof.
  intros H S [near [Hn F]]. destruct (wf_node _ _ _ (built_wf _ _ _ H)) as [Wx Wy]. exists near. split; [cbn; apply in_or_app; right; exact Hn|].
  cbn [find_closest_breadth]. rewrite (made_arr _ (bounded_made _ (proj1 Wx))), (made_arr _ (bounded_made _ (proj1 Wy))). rewrite (proj2 (qlt_true _ _) S).
  rewrite Forall_forall in *. intros q Hq. apply F. apply (breadth_sub p x). exact Hq.
Qed.
Lemma breadth_built p (l : list (obj A)) (t : bvh A) n : built t l n -> let '(os, d) := find_closest_breadth t p in os <> [] /\ exists missed, Permutation (os ++ missed) (leaves t) /\ Forall (fun q => distance q p = d) os.
Proof. intros H. apply breadth_ok. exact (built_wf _ _ _ H). Qed.
Lemma second_never l n (t : bvh A) q : built t l n -> made q -> 
  (forall b o, t = BLeaf b o -> intersect b q = true -> traverse_bvh2 t q [] = [Some o; Some o]) /\
  (is_node t -> intersect (node_box t) q = true -> traverse_bvh t q [] = [] -> traverse_bvh2 t q [] = [None]).
Proof.
  intros _ _. split; [intros b o -> H; now apply second_query_leaf|]. intros N H E. destruct t as [|b x y]; [contradiction|]. now apply second_query_none.
Qed.
Lemma point_node_built (l : list (obj A)) n (t : bvh A) p : built t l n -> match traverse_bvh_point t p with
  | None => ~ in_box3 p (corners (node_box t))
  | Some m => In m (nodes t) /\ in_box3 p (corners (node_box m)) /\ exists a b, below t = a ++ below m ++ b /\ Forall (fun o => ~ in_box3 p (corners (obox o))) (a ++ b)
  end.
Proof. intros H. apply point_node. apply (built_wf _ _ _ H). Qed.
Lemma build_all (l : list (obj A)) n : (1 <= n)%Z -> l <> [] -> Forall (fun o => made (obox o)) l -> exists k, forall fuel, (k < fuel)%nat ->
  exists t after, build_bvh fuel l n = Ok (t, after) /\ Permutation (below t) l /\ bounded t /\
    Forall (fun p => (1 <= Z.of_nat (length (held p)) <= n)%Z) (leaves t).
Proof.
  intros Hn N M. exists (length l). intros fuel F. destruct (build_ok n Hn fuel l N M F) as [t [s [E [P [_ [B [L _]]]]]]]. exists t, s. split; [exact E|]. split; [exact P|]. split; [exact B|].
  eapply Forall_impl; [|exact L]. intros p [H _]. exact H.
Qed.
Lemma build_invalid (l : list (obj A)) n : l = [] \/ (n <= 0)%Z -> exists k, forall fuel, (k < fuel)%nat -> build_bvh fuel l n = Err ValueError.
Proof. intros H. exists (length l). intros fuel F. now apply build_fails. Qed.
Lemma listing (t : bvh A) : traverse_leafs t [] = leaves t /\ traverse_all_bbox t [] = map (fun n => corners (node_box n)) (nodes t).
Proof. split; [exact (leafs_all t [])|exact (boxes_all t [])]. Qed.
End G.
