(* Lemmas for BvhProps.v: boxes, building, queries. *)
From Coq Require Import List Arith ZArith Bool QArith Qcanon Lia Permutation.
From Verif Require Import Common QcLib ArrZ AabbModel AabbSpec AabbProofs AabbProofs2 BvhModel BvhSpec.
From Verif Require RtreeModel RtreeProofs.
Import ListNotations.
Local Open Scope Qc_scope.

Lemma covers_refl b : covers b b. Proof. intros p H; exact H. Qed.
Lemma covers_trans a b c : covers a b -> covers b c -> covers a c. Proof. intros H K p P. auto. Qed.
Lemma made_arr b : made b -> barr b = corners b.
Proof. intros [_ E]. rewrite E at 1. reflexivity. Qed.
Lemma made_proper b : made b -> proper3 (corners b). Proof. intros [H _]; exact H. Qed.
Lemma made_mk lo hi : proper3 (lo, hi) -> made (mkbox lo hi). Proof. split; [exact H|reflexivity]. Qed.
Lemma corner_in b : proper3 (corners b) -> in_box3 (bmin b) (corners b) /\ in_box3 (bmax b) (corners b).
Proof. intros [H [K L]]. unfold in_box3, corners in *; cbn [fst snd] in *. repeat split; auto; apply Qcle_refl. Qed.
Lemma covers_iff a b : proper3 (corners b) -> (covers a b <-> in_box3 (bmin b) (corners a) /\ in_box3 (bmax b) (corners a)).
Proof.
  intros P. split.
  - intros C. destruct (corner_in b P). split; apply C; assumption.
  - intros [[[? ?] [[? ?] [? ?]]] [[? ?] [[? ?] [? ?]]]] p [[? ?] [[? ?] [? ?]]]. unfold in_box3, corners in *; cbn [fst snd] in *. repeat split; qlra.
Qed.
Lemma meets_covers a b c : covers a b -> meets b c -> meets a c.
Proof. intros C [p [H K]]. exists p. auto. Qed.
Lemma meets_sym a b : meets a b -> meets b a. Proof. intros [p [H K]]. exists p; auto. Qed.
Lemma intersect_meets a b : made a -> made b -> (intersect a b = true <-> meets a b).
Proof. intros H K. unfold intersect, meets. rewrite (made_arr a H), (made_arr b K). apply intersect_3d_exact; apply made_proper; assumption. Qed.
Lemma contains_in b p : contains b p = true <-> in_box3 p (corners b).
Proof.
  unfold contains, in_box3, corners; cbn [fst snd]. rewrite !andb_true_iff, !qle_true. tauto.
Qed.

Lemma merge_spec a b : made a -> made b -> made (merge a b) /\ covers (merge a b) a /\ covers (merge a b) b /\ (forall c, covers c a -> covers c b -> covers c (merge a b)).
Proof.
  intros Ma Mb. pose proof (made_proper a Ma) as Pa. pose proof (made_proper b Mb) as Pb.
  assert (Pm : proper3 (corners (merge a b))).
  { destruct Pa as [A1 [A2 A3]], Pb as [B1 [B2 B3]]. unfold proper3, corners, merge in *; cbn in *.
    pose proof (fmin_spec (vx (bmin a)) (vx (bmin b))); pose proof (fmin_spec (vy (bmin a)) (vy (bmin b))); pose proof (fmin_spec (vz (bmin a)) (vz (bmin b))).
    pose proof (fmax_spec (vx (bmax a)) (vx (bmax b))); pose proof (fmax_spec (vy (bmax a)) (vy (bmax b))); pose proof (fmax_spec (vz (bmax a)) (vz (bmax b))).
    unfold vmin, vmax, vx, vy, vz in *; cbn [fst snd] in *.
    repeat match goal with H : _ /\ _ |- _ => destruct H end. repeat split; qlra. }
  split. { apply made_mk. exact Pm. }
  assert (W : forall x y : v3, vx (vmin x y) = fmin (vx x) (vx y) /\ vy (vmin x y) = fmin (vy x) (vy y) /\ vz (vmin x y) = fmin (vz x) (vz y)) by (intros; repeat split).
  assert (X : forall x y : v3, vx (vmax x y) = fmax (vx x) (vx y) /\ vy (vmax x y) = fmax (vy x) (vy y) /\ vz (vmax x y) = fmax (vz x) (vz y)) by (intros; repeat split).
  destruct (W (bmin a) (bmin b)) as [W1 [W2 W3]]. destruct (X (bmax a) (bmax b)) as [X1 [X2 X3]].
  destruct (fmin_spec (vx (bmin a)) (vx (bmin b))) as [? [? ?]]. destruct (fmin_spec (vy (bmin a)) (vy (bmin b))) as [? [? ?]]. destruct (fmin_spec (vz (bmin a)) (vz (bmin b))) as [? [? ?]].
  destruct (fmax_spec (vx (bmax a)) (vx (bmax b))) as [? [? ?]]. destruct (fmax_spec (vy (bmax a)) (vy (bmax b))) as [? [? ?]]. destruct (fmax_spec (vz (bmax a)) (vz (bmax b))) as [? [? ?]].
  destruct Pa as [A1 [A2 A3]], Pb as [B1 [B2 B3]].
  split; [|split].
  - intros p [[? ?] [[? ?] [? ?]]]. unfold corners, merge, in_box3 in *; cbn [fst snd mkbox bmin bmax] in *. rewrite ?W1, ?W2, ?W3, ?X1, ?X2, ?X3. repeat split; qlra.
  - intros p [[? ?] [[? ?] [? ?]]]. unfold corners, merge, in_box3 in *; cbn [fst snd mkbox bmin bmax] in *. rewrite ?W1, ?W2, ?W3, ?X1, ?X2, ?X3. repeat split; qlra.
  - intros c Ca Cb. apply covers_iff; [exact Pm|]. apply covers_iff in Ca; [|exact (made_proper a Ma)]. apply covers_iff in Cb; [|exact (made_proper b Mb)].
    destruct Ca as [[[? ?] [[? ?] [? ?]]] [[? ?] [[? ?] [? ?]]]]. destruct Cb as [[[? ?] [[? ?] [? ?]]] [[? ?] [[? ?] [? ?]]]].
    unfold corners, merge, in_box3 in *; cbn [fst snd mkbox bmin bmax] in *. rewrite ?W1, ?W2, ?W3, ?X1, ?X2, ?X3.
    repeat match goal with H : _ \/ _ |- _ => destruct H as [H|H]; rewrite H end; repeat split; assumption.
Qed.

Section S.
Context {A : Type}.
Implicit Types (o : obj A) (os l : list (obj A)) (t : bvh A).

Lemma below_node b (x y : bvh A) : below (BNode b x y) = below x ++ below y.
Proof. unfold below; cbn. apply flat_map_app. Qed.

(* splitting *)
Lemma split_spec l : l <> [] -> exists s lo ro, split_objects l = Ok (s, (lo, ro)) /\ s = lo ++ ro /\ Permutation s l /\ length lo = (length l / 2)%nat.
Proof.
  destruct l as [|o l]; [congruence|]. intros _. unfold split_objects.
  set (s := RtreeModel.sort_by _ _). assert (P : Permutation s (o :: l)) by apply RtreeProofs.sort_perm.
  eexists _, _, _. split; [reflexivity|]. rewrite firstn_skipn. split; [reflexivity|]. split; [exact P|].
  rewrite firstn_length. rewrite (Permutation_length P). assert (length (o :: l) / 2 <= length (o :: l))%nat by (apply Nat.div_le_upper_bound; lia). lia.
Qed.

(* the compound of some objects *)
Lemma in_rows (p : list Qc) os : In p (flat_map (fun o => rows (obox o)) os) -> exists o, In o os /\ (p = [vx (fst (barr (obox o))); vy (fst (barr (obox o))); vz (fst (barr (obox o)))] \/ p = [vx (snd (barr (obox o))); vy (snd (barr (obox o))); vz (snd (barr (obox o)))]).
Proof. intros H. apply in_flat_map in H. destruct H as [o [H K]]. exists o. split; [exact H|]. cbn in K. intuition. Qed.
Lemma rows_shape os : shape 3 (flat_map (fun o => rows (obox o)) os).
Proof. induction os as [|o os IH]; cbn; [constructor|]. constructor; [reflexivity|]. constructor; [reflexivity|exact IH]. Qed.
Lemma in_box_mk (v : v3) (a b : v3) : in_box [vx v; vy v; vz v] [vx a; vy a; vz a] [vx b; vy b; vz b] <-> in_box3 v (a, b).
Proof. destruct v as [[? ?] ?], a as [[? ?] ?], b as [[? ?] ?]. apply in_box_3. Qed.
Lemma compound_ok os : os <> [] -> Forall (fun o => made (obox o)) os -> exists b, compound os = Ok (Many b os) /\ least_box b os.
Proof.
  intros N M. unfold compound. destruct os as [|o0 os0] eqn:Eos; [congruence|]. rewrite <- Eos in *. clear N.
  destruct (aabb_tight 3 (flat_map (fun o => rows (obox o)) os) (zeros 3, zeros 3) (zeros 3) (zeros 3) (rows_shape os)) as [lo [hi [E [I [T [L1 [L2 _]]]]]]]; [rewrite Eos; discriminate|reflexivity|cbn; lia|cbn; lia|].
  change (length (zeros 3)) with 3%nat in L1, L2. rewrite !firstn_all2 in I by lia. rewrite !firstn_all2 in T by lia.
  destruct lo as [|x0 [|y0 [|z0 [|]]]]; try discriminate. destruct hi as [|x1 [|y1 [|z1 [|]]]]; try discriminate.
  change (aabb (Z.of_nat 3)) with (aabb 3) in E. unfold aabb at 1 in E. unfold aabb. rewrite E. cbn [bind row3 getR nth_error].
  eexists. split; [rewrite Eos; reflexivity|]. rewrite Forall_forall in M.
  assert (In0 : In o0 os) by (rewrite Eos; left; reflexivity).
  assert (C : forall o, In o os -> in_box3 (bmin (obox o)) ((x0, y0, z0), (x1, y1, z1)) /\ in_box3 (bmax (obox o)) ((x0, y0, z0), (x1, y1, z1))).
  { intros o Ho. pose proof (made_arr _ (M o Ho)) as Ea. split.
    - apply in_box_mk. apply I. apply in_flat_map. exists o. split; [exact Ho|]. unfold rows. rewrite Ea. left. reflexivity.
    - apply in_box_mk. apply I. apply in_flat_map. exists o. split; [exact Ho|]. unfold rows. rewrite Ea. right; left. reflexivity. }
  assert (P : proper3 ((x0, y0, z0), (x1, y1, z1))).
  { destruct (C o0 In0) as [[[? ?] [[? ?] [? ?]]] _]. cbn in *. repeat split; cbn; qlra. }
  split; [apply made_mk; exact P|]. split.
  - apply Forall_forall. intros o Ho. apply covers_iff; [apply made_proper, M, Ho|]. exact (C o Ho).
  - intros c Hc. rewrite Forall_forall in Hc.
    apply covers_iff; [exact P|].
    assert (K : forall q : v3, in_box [vx q; vy q; vz q] [x0; y0; z0] [x1; y1; z1] -> in_box3 q (corners c)).
    { intros q Hq. apply in_box_mk. eapply T; [|exact Hq]. intros p Hp. apply in_rows in Hp. destruct Hp as [o [Ho Hp]].
      rewrite (made_arr _ (M o Ho)) in Hp. destruct (corner_in _ (made_proper _ (M o Ho))).
      destruct Hp as [-> | ->]; apply in_box_mk; apply (Hc o Ho); assumption. }
    destruct (corner_in (mkbox (x0, y0, z0) (x1, y1, z1)) P) as [C0 C1]. split; apply K; [apply (in_box_mk (x0, y0, z0) (x0, y0, z0) (x1, y1, z1)); exact C0|apply (in_box_mk (x1, y1, z1) (x0, y0, z0) (x1, y1, z1)); exact C1].
Qed.

Lemma nodes_bounded b (x y : bvh A) : bounded x -> bounded y -> b = merge (node_box x) (node_box y) -> bounded (BNode b x y).
Proof.
  intros Hx Hy ->. unfold bounded. cbn [nodes]. constructor; [|apply Forall_app; split; assumption].
  assert (forall t, bounded t -> least_box (node_box t) (below t)) as L by (intros t H; destruct t; apply Forall_inv in H; exact H).
  destruct (L x Hx) as [Mx [Cx Tx]]. destruct (L y Hy) as [My [Cy Ty]].
  cbn [node_box]. rewrite below_node. destruct (merge_spec _ _ Mx My) as [M [C1 [C2 T]]].
  split; [exact M|]. split.
  - apply Forall_app. split; [eapply Forall_impl; [|exact Cx]; intros o Ho; exact (covers_trans _ _ _ C1 Ho)|eapply Forall_impl; [|exact Cy]; intros o Ho; exact (covers_trans _ _ _ C2 Ho)].
  - intros c Hc. apply Forall_app in Hc. destruct Hc. apply T; auto.
Qed.
Lemma least_one (o : obj A) : made (obox o) -> least_box (obox o) [o].
Proof. intros M. split; [exact M|]. split; [constructor; [apply covers_refl|constructor]|]. intros c H. inversion H; assumption. Qed.

Definition leaf_ok (n : Z) (p : payload A) : Prop := (1 <= Z.of_nat (length (held p)) <= n)%Z /\ (n = 1%Z -> exists o, p = One o).
Fixpoint leaf_boxes (t : bvh A) : Prop := match t with BLeaf b o => b = payload_box o | BNode _ l r => leaf_boxes l /\ leaf_boxes r end.

Lemma build_ok n : (1 <= n)%Z -> forall fuel l, l <> [] -> Forall (fun o => made (obox o)) l -> (length l < fuel)%nat ->
  exists t s, build_bvh fuel l n = Ok (t, s) /\ Permutation (below t) l /\ Permutation s l /\ bounded t /\ Forall (leaf_ok n) (leaves t) /\ leaf_boxes t /\ (l = [] \/ (Z.of_nat (length l) <= n)%Z \/ exists lo ro, split_objects l = Ok (s, (lo, ro))).
Proof.
  intros Hn. induction fuel as [|fuel IH]; intros l N M F; [lia|].
  assert (G : forall s : list (obj A), (Z.of_nat (length l) <= n)%Z -> (forall o, l = [o] -> n <> 1%Z) -> exists t, (do co <- compound l ; Ok (BLeaf (payload_box co) co, s)) = Ok (t, s) /\ Permutation (below t) l /\ bounded t /\ Forall (leaf_ok n) (leaves t) /\ leaf_boxes t).
  { intros s Hl Ho. destruct (compound_ok l N M) as [b [E B]]. rewrite E. cbn [bind payload_box]. exists (BLeaf b (Many b l)). split; [reflexivity|].
    assert (below (BLeaf b (Many b l)) = l) as Eb by (unfold below; cbn; apply app_nil_r). rewrite Eb. split; [reflexivity|].
    split; [|split; [|reflexivity]].
    - constructor; [|constructor]. rewrite Eb. exact B.
    - constructor; [|constructor]. split; cbn.
      + destruct l; [congruence|cbn [length] in *; lia].
      + intros ->. exfalso. destruct l as [|o [|o' l']]; [congruence| |cbn [length] in Hl; lia]. apply (Ho o eq_refl eq_refl). }
  assert (H : (exists o, l = [o] /\ n = 1%Z) \/ ((forall o, l = [o] -> n <> 1%Z) /\ build_bvh (S fuel) l n =
     (if (Z.of_nat (length l) <=? n)%Z then do co <- compound l ; Ok (BLeaf (payload_box co) co, l)
      else do (sorted, (lo, ro)) <- split_objects l ;
            do (x, _) <- build_bvh fuel lo n ; do (y, _) <- build_bvh fuel ro n ;
            Ok (BNode (merge (node_box x) (node_box y)) x y, sorted)))).
  { cbn [build_bvh]. destruct l as [|o [|o' l']]; [congruence| |].
    - destruct (n =? 1)%Z eqn:En.
      + left. exists o. split; [reflexivity|]. apply Z.eqb_eq; exact En.
      + right. split; [intros _ _; apply Z.eqb_neq; exact En|reflexivity].
    - right. split; [discriminate|]. destruct (n =? 1)%Z; reflexivity. }
  destruct H as [[o [-> ->]]|[Ho ->]].
  - cbn. eexists _, _. split; [reflexivity|]. inversion M; subst. split; [reflexivity|]. split; [reflexivity|]. split; [|split; [|split; [reflexivity|right; left; cbn; lia]]].
    + constructor; [|constructor]. apply least_one; assumption.
    + constructor; [|constructor]. split; [cbn; lia|]. intros _. exists o; reflexivity.
  - destruct (Z.of_nat (length l) <=? n)%Z eqn:El.
    + apply Z.leb_le in El. destruct (G l El Ho) as [t [E R]]. exists t, l. split; [exact E|]. destruct R as [R1 [R2 [R3 R4]]]. repeat split; auto.
    + apply Z.leb_gt in El. assert (2 <= length l)%nat by (destruct l as [|? [|]]; [congruence|cbn [length] in El; lia|cbn; lia]).
      destruct (split_spec l N) as [s [lo [ro [E [Es [P L]]]]]]. rewrite E. cbn [bind].
      assert (Ms : Forall (fun o => made (obox o)) s) by (eapply Permutation_Forall; [apply Permutation_sym; exact P|exact M]).
      rewrite Es in Ms. apply Forall_app in Ms. destruct Ms as [M1 M2].
      assert (Ls : (length lo + length ro = length l)%nat) by (rewrite <- app_length, <- Es; apply Permutation_length; exact P).
      assert (1 <= length l / 2)%nat by (apply Nat.div_le_lower_bound; lia). assert (length l / 2 < length l)%nat by (apply Nat.div_lt; lia).
      destruct (IH lo) as [x [sx [Ex [Px [_ [Bx [Lx [Kx _]]]]]]]]; [intros ->; cbn [length] in L; lia|exact M1|lia|].
      destruct (IH ro) as [y [sy [Ey [Py [_ [By [Ly [Ky _]]]]]]]]; [intros ->; cbn [length] in Ls; lia|exact M2|lia|].
      rewrite Ex, Ey. cbn [bind]. eexists _, s. split; [reflexivity|].
      split; [rewrite below_node; etransitivity; [apply Permutation_app; eassumption|rewrite <- Es; exact P]|].
      split; [exact P|]. split; [apply nodes_bounded; auto|]. split; [cbn; apply Forall_app; split; assumption|]. split; [split; assumption|].
      right; right. exists lo, ro. reflexivity.
Qed.

Lemma fuel_mono : forall fuel fuel' n l x, build_bvh fuel l n = Ok x -> (fuel <= fuel')%nat -> build_bvh (A := A) fuel' l n = Ok x.
Proof.
  induction fuel as [|fuel IH]; intros fuel' n l x E F; [discriminate|]. destruct fuel' as [|fuel']; [lia|].
  cbn [build_bvh] in *.
  assert (K : forall T, T = (if (Z.of_nat (length l) <=? n)%Z then do co <- compound l ; Ok (BLeaf (payload_box co) co, l)
      else do (sorted, (lo, ro)) <- split_objects l ;
            do (x, _) <- build_bvh fuel lo n ; do (y, _) <- build_bvh fuel ro n ;
            Ok (BNode (merge (node_box x) (node_box y)) x y, sorted)) -> T = Ok x -> (if (Z.of_nat (length l) <=? n)%Z then do co <- compound l ; Ok (BLeaf (payload_box co) co, l)
      else do (sorted, (lo, ro)) <- split_objects l ;
            do (x, _) <- build_bvh fuel' lo n ; do (y, _) <- build_bvh fuel' ro n ;
            Ok (BNode (merge (node_box x) (node_box y)) x y, sorted)) = Ok x).
  { intros T -> R. destruct (Z.of_nat (length l) <=? n)%Z; [exact R|]. destruct (split_objects l) as [[s [lo ro]]|]; [|discriminate]. cbn [bind] in *.
    destruct (build_bvh fuel lo n) as [[u ?]|] eqn:Eu; [|discriminate]. rewrite (IH fuel' _ _ _ Eu) by lia. cbn [bind] in *.
    destruct (build_bvh fuel ro n) as [[v ?]|] eqn:Ev; [|discriminate]. rewrite (IH fuel' _ _ _ Ev) by lia. exact R. }
  destruct l as [|o [|o' l']]; [exact (K _ eq_refl E)| |destruct (n =? 1)%Z; exact (K _ eq_refl E)].
  destruct (n =? 1)%Z; [exact E|exact (K _ eq_refl E)].
Qed.

Lemma built_spec t l n : built t l n -> Permutation (below t) l /\ bounded t /\ Forall (leaf_ok n) (leaves t) /\ leaf_boxes t.
Proof.
  intros [Hn [N [M [fuel [s E]]]]]. destruct (build_ok n Hn (S (length l + fuel)) l N M) as [t' [s' [E' R]]]; [lia|].
  rewrite (fuel_mono _ (S (length l + fuel)) _ _ _ E) in E' by lia. injection E' as <- <-. tauto.
Qed.

Lemma build_fails fuel l n : l = [] \/ (n <= 0)%Z -> (length l < fuel)%nat -> build_bvh (A := A) fuel l n = Err ValueError.
Proof.
  revert l. induction fuel as [|fuel IH]; intros l H F; [lia|]. cbn [build_bvh].
  assert (K : (if (Z.of_nat (length l) <=? n)%Z then do co <- compound l ; Ok (BLeaf (payload_box co) co, l)
      else do (sorted, (lo, ro)) <- split_objects l ;
            do (x, _) <- build_bvh fuel lo n ; do (y, _) <- build_bvh fuel ro n ;
            Ok (BNode (merge (node_box x) (node_box y)) x y, sorted)) = Err ValueError).
  { destruct l as [|o l].
    - cbn. destruct (0 <=? n)%Z; reflexivity.
    - destruct H as [H|H]; [discriminate|]. rewrite (proj2 (Z.leb_gt _ _)) by (cbn [length]; lia).
      destruct (split_spec (o :: l)) as [s [lo [ro [E [Es [P L]]]]]]; [discriminate|]. rewrite E. cbn [bind].
      rewrite (IH lo); [reflexivity|right; exact H|]. rewrite L. assert (length (o :: l) / 2 < length (o :: l))%nat by (apply Nat.div_lt; cbn; lia). lia. }
  destruct l as [|o [|o' l']]; [exact K| |destruct (n =? 1)%Z; exact K].
  destruct (n =? 1)%Z eqn:En; [|exact K]. apply Z.eqb_eq in En. destruct H; [discriminate|lia].
Qed.

(* nodes of a bounded tree *)
Lemma bounded_root t : bounded t -> least_box (node_box t) (below t).
Proof. intros H; destruct t; apply Forall_inv in H; exact H. Qed.
Lemma bounded_node b (x y : bvh A) : bounded (BNode b x y) -> bounded x /\ bounded y /\ covers b (node_box x) /\ covers b (node_box y).
Proof.
  intros H. pose proof (bounded_root _ H) as [M [C T]]. cbn [node_box] in *. pose proof (Forall_inv_tail H) as K. cbn [nodes tl] in K. apply Forall_app in K. destruct K as [Bx By].
  split; [exact Bx|]. split; [exact By|]. rewrite below_node in C. apply Forall_app in C. destruct C as [C1 C2].
  split; [apply (bounded_root x Bx)|apply (bounded_root y By)]; assumption.
Qed.
Lemma bounded_made t : bounded t -> made (node_box t). Proof. intros H. apply (bounded_root t H). Qed.
Lemma leaves_covered t : bounded t -> leaf_boxes t -> Forall (fun p => made (payload_box p) /\ covers (node_box t) (payload_box p)) (leaves t).
Proof.
  induction t as [b o|b x IHx y IHy]; intros B L.
  - cbn in L. subst b. constructor; [|constructor]. split; [exact (bounded_made _ B)|apply covers_refl].
  - destruct (bounded_node _ _ _ B) as [Bx [By [Cx Cy]]]. destruct L as [Lx Ly]. cbn [leaves node_box]. apply Forall_app. split.
    + eapply Forall_impl; [|exact (IHx Bx Lx)]. intros p [M C]. split; [exact M|exact (covers_trans _ _ _ Cx C)].
    + eapply Forall_impl; [|exact (IHy By Ly)]. intros p [M C]. split; [exact M|exact (covers_trans _ _ _ Cy C)].
Qed.

(* 593-604 *)
Lemma filter_none {B} (f : B -> bool) (l : list B) : Forall (fun x => f x = false) l -> filter f l = [].
Proof. induction 1 as [|x l H _ IH]; cbn; [reflexivity|]. rewrite H. exact IH. Qed.
Lemma traverse_leaves q t : made q -> bounded t -> leaf_boxes t -> forall acc, traverse_bvh t q acc = acc ++ filter (fun p => intersect (payload_box p) q) (leaves t).
Proof.
  intros Mq. induction t as [b o|b x IHx y IHy]; intros B L acc; cbn [traverse_bvh node_box leaves].
  - cbn in L. subst b. cbn. destruct (intersect (payload_box o) q); cbn; [reflexivity|now rewrite app_nil_r].
  - destruct (bounded_node _ _ _ B) as [Bx [By [Cx Cy]]]. pose proof (leaves_covered _ B L) as Cov. destruct L as [Lx Ly].
    destruct (intersect b q) eqn:E; cbn [negb].
    + rewrite (IHx Bx Lx), (IHy By Ly), filter_app, app_assoc. reflexivity.
    + change (leaves x ++ leaves y) with (leaves (BNode b x y)). rewrite filter_none, app_nil_r; [reflexivity|].
      eapply Forall_impl; [|exact Cov]. intros p [M C]. cbn in C. apply not_true_is_false. intros I. apply intersect_meets in I; [|assumption|assumption].
      assert (intersect b q = true) by (apply intersect_meets; [exact (bounded_made _ B)|assumption|eapply meets_covers; eassumption]). congruence.
Qed.

Lemma ones n (ps : list (payload A)) : n = 1%Z -> Forall (leaf_ok n) ps -> ps = map One (flat_map held ps).
Proof. intros Hn H. induction H as [|p ps [_ H] _ IH]; [reflexivity|]. destruct (H Hn) as [o ->]. cbn. f_equal. exact IH. Qed.
Lemma filter_part {B} (f : B -> bool) (l : list B) : Permutation (filter f l ++ filter (fun x => negb (f x)) l) l.
Proof. induction l as [|x l IH]; cbn; [constructor|]. destruct (f x); cbn; [now constructor|]. rewrite <- Permutation_middle. now constructor. Qed.
Lemma filter_map {B C} (g : B -> C) (f : C -> bool) (l : list B) : filter f (map g l) = map g (filter (fun x => f (g x)) l).
Proof. induction l as [|x l IH]; cbn; [reflexivity|]. destruct (f (g x)); cbn; now rewrite IH. Qed.

Lemma box_query l t q : built t l 1 -> made q ->
  exists found missed, traverse_bvh t q [] = map One found /\ Permutation (found ++ missed) l /\ Forall (fun o => meets (obox o) q) found /\ Forall (fun o => ~ meets (obox o) q) missed.
Proof.
  intros Hb Mq. destruct (built_spec _ _ _ Hb) as [P [B [L K]]]. destruct Hb as [_ [_ [M _]]].
  rewrite (traverse_leaves q t Mq B K). cbn [app]. rewrite (ones 1 _ eq_refl L). fold (below t). rewrite filter_map. cbn [payload_box].
  set (f := fun x : obj A => intersect (obox x) q). exists (filter f (below t)), (filter (fun x => negb (f x)) (below t)).
  assert (Mb : forall o, In o (below t) -> made (obox o)) by (intros o Ho; rewrite Forall_forall in M; apply M; eapply Permutation_in; eassumption).
  split; [reflexivity|]. split; [etransitivity; [apply filter_part|exact P]|]. split; apply Forall_forall; intros o Ho; apply filter_In in Ho; destruct Ho as [Ho E]; unfold f in E.
  - apply intersect_meets; auto.
  - intros I. apply intersect_meets in I; auto. rewrite I in E. discriminate.
Qed.
Lemma point_box p q : in_box3 p (corners (mkbox q q)) <-> p = q.
Proof.
  unfold corners; cbn. destruct p as [[a b] c], q as [[d e] f]. unfold in_box3, vx, vy, vz; cbn. split.
  - intros [[? ?] [[? ?] [? ?]]]. f_equal; [f_equal|]; apply Qcle_antisym; assumption.
  - intros E. injection E as -> -> ->. repeat split; apply Qcle_refl.
Qed.
Lemma made_point q : made (mkbox q q). Proof. apply made_mk. repeat split; cbn; apply Qcle_refl. Qed.
Lemma meets_point b q : meets b (mkbox q q) <-> in_box3 q (corners b).
Proof. split; [intros [p [H K]]; apply point_box in K; subst; exact H|intros H; exists q; split; [exact H|now apply point_box]]. Qed.
Lemma point_query l t q : built t l 1 ->
  exists found missed, contains_point t q = map One found /\ Permutation (found ++ missed) l /\ Forall (fun o => in_box3 q (corners (obox o))) found /\ Forall (fun o => ~ in_box3 q (corners (obox o))) missed.
Proof.
  intros H. destruct (box_query l t (mkbox q q) H (made_point q)) as [f [m [E [P [F M]]]]]. exists f, m. split; [exact E|]. split; [exact P|].
  split; eapply Forall_impl; [|exact F| |exact M]; intros o; cbn; rewrite meets_point; auto.
Qed.
(* any leaf size: the leaves reported are those whose box meets q, and they hold every object that does *)
Lemma box_query_leaves l t n q : built t l n -> made q ->
  exists found missed, traverse_bvh t q [] = found /\ Permutation (flat_map held found ++ flat_map held missed) l /\ Forall (fun p => (1 <= Z.of_nat (length (held p)) <= n)%Z /\ meets (payload_box p) q) found /\ Forall (fun o => ~ meets (obox o) q) (flat_map held missed).
Proof.
  intros Hb Mq. destruct (built_spec _ _ _ Hb) as [P [B [L K]]]. pose proof (leaves_covered t B K) as LC.
  rewrite (traverse_leaves q t Mq B K). cbn [app].
  set (f := fun x : payload A => intersect (payload_box x) q). exists (filter f (leaves t)), (filter (fun x => negb (f x)) (leaves t)).
  split; [reflexivity|]. rewrite Forall_forall in LC, L.
  split; [rewrite <- flat_map_app; etransitivity; [|exact P]; unfold below; apply Permutation_flat_map; apply filter_part|].
  split.
  - apply Forall_forall; intros p Hp. apply filter_In in Hp. destruct Hp as [Hp E]. split; [apply (L p Hp)|]. apply intersect_meets; [apply (LC p Hp)|exact Mq|exact E].
  - apply Forall_forall. intros o Ho. apply in_flat_map in Ho. destruct Ho as [p [Hp Ho]]. apply filter_In in Hp. destruct Hp as [Hp E]. unfold f in E.
    intros I. assert (meets (payload_box p) q).
    { eapply meets_covers; [|exact I].
      assert (W : forall t, bounded t -> leaf_boxes t -> forall p, In p (leaves t) -> Forall (fun o => covers (payload_box p) (obox o)) (held p)).
      { clear. induction t as [b o|b x IHx y IHy]; intros B K p Hp; cbn in Hp.
        - destruct Hp as [<-|[]]. cbn in K. subst b. pose proof (bounded_root _ B) as [_ [C _]]. unfold below in C; cbn in C. rewrite app_nil_r in C. exact C.
        - destruct (bounded_node _ _ _ B) as [Bx [By _]]. destruct K as [Kx Ky]. apply in_app_or in Hp. destruct Hp; eauto. }
      pose proof (W t B K p Hp) as F. rewrite Forall_forall in F. apply F. exact Ho. }
    apply intersect_meets in H; [|apply (LC p Hp)|exact Mq]. rewrite H in E. discriminate.
Qed.

(* 606-633 *)
Lemma second_query_leaf b (o : payload A) q : intersect b q = true -> traverse_bvh2 (BLeaf b o) q [] = [Some o; Some o].
Proof. intros H. unfold traverse_bvh2. cbn [node_box]. rewrite H. cbn. reflexivity. Qed.
Lemma second_query_none b (x y : bvh A) q : intersect b q = true -> traverse_bvh (BNode b x y) q [] = [] -> traverse_bvh2 (BNode b x y) q [] = [None].
Proof. intros H E. unfold traverse_bvh2. cbn [node_box]. rewrite H. cbn [negb]. cbn [traverse_bvh node_box] in E. rewrite H in E. cbn [negb] in E. rewrite E. reflexivity. Qed.
Lemma second_query_some b (x y : bvh A) q : traverse_bvh (BNode b x y) q [] <> [] -> traverse_bvh2 (BNode b x y) q [] = map Some (traverse_bvh (BNode b x y) q []).
Proof.
  intros H. unfold traverse_bvh2. cbn [node_box]. cbn [traverse_bvh node_box] in *. destruct (intersect b q); cbn [negb] in *; [|congruence].
  cbn [app]. rewrite map_length. destruct (traverse_bvh y q (traverse_bvh x q [])) eqn:E; [congruence|]. reflexivity.
Qed.

(* 635-661 *)
Lemma point_node t p : bounded t -> match traverse_bvh_point t p with
  | None => ~ in_box3 p (corners (node_box t))
  | Some n => In n (nodes t) /\ in_box3 p (corners (node_box n)) /\ exists a b, below t = a ++ below n ++ b /\ Forall (fun o => ~ in_box3 p (corners (obox o))) (a ++ b)
  end.
Proof.
  assert (Out : forall t, bounded t -> ~ in_box3 p (corners (node_box t)) -> Forall (fun o => ~ in_box3 p (corners (obox o))) (below t)).
  { intros u Bu N. pose proof (bounded_root _ Bu) as [_ [C _]]. eapply Forall_impl; [|exact C]. intros o Co I. apply N, Co, I. }
  induction t as [b o|b x IHx y IHy]; intros B; cbn [traverse_bvh_point node_box].
  - destruct (contains b p) eqn:E; cbn [negb].
    + split; [left; reflexivity|]. split; [apply contains_in; exact E|]. exists [], []. split; [now rewrite app_nil_r|constructor].
    + intros I. apply contains_in in I. congruence.
  - destruct (contains b p) eqn:E; cbn [negb]; [|intros I; apply contains_in in I; congruence].
    apply contains_in in E. destruct (bounded_node _ _ _ B) as [Bx [By [Cx Cy]]]. specialize (IHx Bx). specialize (IHy By).
    assert (Self : In (BNode b x y) (nodes (BNode b x y)) /\ in_box3 p (corners (node_box (BNode b x y))) /\ exists a c, below (BNode b x y) = a ++ below (BNode b x y) ++ c /\ Forall (fun o => ~ in_box3 p (corners (obox o))) (a ++ c)).
    { split; [left; reflexivity|]. split; [exact E|]. exists [], []. split; [now rewrite app_nil_r|constructor]. }
    destruct (traverse_bvh_point x p) as [n|], (traverse_bvh_point y p) as [m|]; try exact Self.
    + destruct IHx as [I [C [a [c [Eb F]]]]]. split; [right; apply in_or_app; left; exact I|]. split; [exact C|]. exists a, (c ++ below y).
      split; [rewrite below_node, Eb, <- !app_assoc; reflexivity|]. rewrite app_assoc. apply Forall_app. split; [exact F|apply Out; assumption].
    + destruct IHy as [I [C [a [c [Eb F]]]]]. split; [right; apply in_or_app; right; exact I|]. split; [exact C|]. exists (below x ++ a), c.
      split; [rewrite below_node, Eb, <- !app_assoc; reflexivity|]. rewrite <- app_assoc. apply Forall_app. split; [apply Out; assumption|exact F].
Qed.
Lemma leafs_all t : forall acc, traverse_leafs t acc = acc ++ leaves t.
Proof. induction t as [b o|b x IHx y IHy]; intros acc; cbn; [reflexivity|]. rewrite IHx, IHy, app_assoc. reflexivity. Qed.
Lemma boxes_all t : forall acc, traverse_all_bbox t acc = acc ++ map (fun n => corners (node_box n)) (nodes t).
Proof. induction t as [b o|b x IHx y IHy]; intros acc; cbn; [reflexivity|]. rewrite IHx, IHy, map_app, <- !app_assoc. reflexivity. Qed.
End S.
