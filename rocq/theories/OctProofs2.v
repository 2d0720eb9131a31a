(* Lemmas for OctProps.v: trees. *)
From Coq Require Import List Arith ZArith Bool QArith Qround Qcanon Lia.
From Verif Require Import Common QcLib SumLib AabbModel OctModel OctSpec DacProofs OctProofs.
Import ListNotations.
Local Open Scope Qc_scope.

(* ---- tilings of tilings ---- *)
Lemma inside_within b p : inside b p -> within b p.
Proof. unfold inside, within. intros [A [B [C [D [E F]]]]]. repeat split; apply Qclt_le_weak; assumption. Qed.
Lemma inside_mono a b p : (forall q, within a q -> within b q) -> inside a p -> inside b p.
Proof.
  intros S H. assert (L : within b (fst a)) by (apply S; unfold within, inside in *; destruct H as [A [B [C [D [E F]]]]]; repeat split; try apply Qcle_refl; qlra). assert (U : within b (snd a)) by (apply S; unfold within, inside in *; destruct H as [A [B [C [D [E F]]]]]; repeat split; try apply Qcle_refl; qlra).
  unfold within, inside in *. destruct H as [A [B [C [D [E F]]]]]. destruct L as [L1 [_ [L3 [_ [L5 _]]]]]. destruct U as [_ [U2 [_ [U4 [_ U6]]]]]. repeat split; qlra.
Qed.
Lemma apart_mono a b a' b' : (forall q, within a' q -> within a q) -> (forall q, within b' q -> within b q) -> apart a b -> apart a' b'.
Proof. intros A B H p. destruct (H p) as [H1 H2]. split; intros [K1 K2]; [apply H1|apply H2]; split; auto; eapply inside_mono; eauto. Qed.
Lemma pairs_app l m : ForallOrdPairs apart l -> ForallOrdPairs apart m -> (forall a b, In a l -> In b m -> apart a b) -> ForallOrdPairs apart (l ++ m).
Proof.
  induction 1 as [|a l F P IH]; intros M C; [exact M|]. cbn. constructor; [apply Forall_app; split; [exact F|apply Forall_forall; intros b B; apply C; [left; reflexivity|exact B]]|]. apply IH; [exact M|]. intros x y X Y. apply C; [right; exact X|exact Y].
Qed.
Lemma tile_sub b l x p : tile b l -> In x l -> within x p -> within b p.
Proof. intros [T _] X W. apply T. eauto. Qed.
Lemma tile_flat {A} (f : A -> box3) (g : A -> list box3) b l : tile b (map f l) -> (forall a, In a l -> tile (f a) (g a)) -> tile b (flat_map g l).
Proof.
  intros [T P] H. split.
  - intros p. rewrite T. split.
    + intros [x [X W]]. apply in_map_iff in X. destruct X as [a [<- I]]. apply (proj1 (H a I)) in W. destruct W as [y [Y W]]. exists y. split; [apply in_flat_map; eauto|exact W].
    + intros [y [Y W]]. apply in_flat_map in Y. destruct Y as [a [I Y]]. exists (f a). split; [apply in_map; exact I|]. apply (proj1 (H a I)). eauto.
  - clear T. induction l as [|a l IH]; cbn; [constructor|]. cbn in P. inversion P as [|? ? F P']; subst. apply pairs_app; [apply H; left; reflexivity|apply IH; [exact P'|intros x X; apply H; right; exact X]|].
    intros x y X Y. apply in_flat_map in Y. destruct Y as [c [I Y]]. rewrite Forall_forall in F. specialize (F (f c) (in_map f l c I)). eapply apart_mono; [| |exact F]; intros q Q; eapply tile_sub; try exact Q; eauto. apply H. left. reflexivity. apply H. right. exact I.
Qed.
Lemma tile_one b : tile b [b].
Proof. split; [|constructor; constructor]. intros p. split; [intros H; exists b; split; [left; reflexivity|exact H]|intros [x [[<-|[]] W]]; exact W]. Qed.

(* ---- trees ---- *)
Lemma node_rec2 (P : node -> Prop) : (forall b ks l, Forall P ks -> P (Node b ks l)) -> forall n, P n.
Proof. intros H. fix F 1. intros [b ks l]. apply H. induction ks as [|k ks IH]; constructor; [apply F|exact IH]. Qed.
Inductive good : node -> Prop :=
| good_leaf b c : proper b -> good (Node b [] (Some c))
| good_split b ks : proper b -> division b (map box_of ks) -> Forall good ks -> good (Node b ks None).
Lemma leaves_split b k ks l : leaves (Node b (k :: ks) l) = flat_map leaves (k :: ks).
Proof. reflexivity. Qed.
Lemma good_tile : forall n, good n -> tile (box_of n) (leaves n).
Proof.
  apply (node_rec2 (fun n => good n -> tile (box_of n) (leaves n))). intros b ks l IH G. inversion G as [? ? P|? ? P [N [T F]] K]; subst; [apply tile_one|]. destruct ks as [|k ks]; [contradiction|]. rewrite leaves_split. apply (tile_flat box_of leaves); [exact T|]. intros a A. rewrite Forall_forall in IH, K. exact (IH a A (K a A)).
Qed.
Lemma good_leaves : forall n, good n -> Forall proper (leaves n).
Proof.
  apply (node_rec2 (fun n => good n -> Forall proper (leaves n))). intros b ks l IH G. inversion G as [? ? P|? ? P [N _] K]; subst; [constructor; [exact P|constructor]|]. destruct ks as [|k ks]; [contradiction|]. rewrite leaves_split. apply Forall_flat_map. rewrite Forall_forall in *. intros a A. apply IH; auto.
Qed.
Definition meets (target : v3) (b : box3) : Prop := vx (dims b) <= vx target /\ vy (dims b) <= vy target /\ vz (dims b) <= vz target.
Lemma all_of_ok f l ns : all_of f l = Ok ns -> Forall2 (fun b n => f b = Ok n) l ns.
Proof. revert ns. induction l as [|b l IH]; intros ns H; cbn in H; [injection H as <-; constructor|]. destruct (f b) as [n|] eqn:E; [|discriminate]. cbn in H. destruct (all_of f l) as [ms|] eqn:E2; [|discriminate]. cbn in H. injection H as <-. constructor; [exact E|apply IH; reflexivity]. Qed.
Lemma create_ok : forall fuel b target t, proper b -> create_octree fuel b target = Ok t -> good t /\ box_of t = b /\ Forall (meets target) (leaves t).
Proof.
  induction fuel as [|fuel IH]; intros b target t P H; [discriminate|]. cbn [create_octree] in H. destruct (qle _ _ && qle _ _ && qle _ _) eqn:E.
  - injection H as <-. apply andb_true_iff in E. destruct E as [E E3]. apply andb_true_iff in E. destruct E as [E1 E2]. apply qle_true in E1, E2, E3. split; [constructor; exact P|]. split; [reflexivity|]. cbn. constructor; [split; [exact E1|split; [exact E2|exact E3]]|constructor].
  - destruct (find_division_option _ _ _ _ _) as [arr|] eqn:D; [|discriminate]. destruct (all_of _ arr) as [ns|] eqn:A; [|discriminate]. cbn in H. injection H as <-. apply (option_division b target arr P) in D. apply all_of_ok in A. destruct D as [N [T F]].
    assert (Q : map box_of ns = arr /\ Forall good ns /\ Forall (meets target) (flat_map leaves ns)). { clear N T. induction A as [|x n l ns Hx A IHA]; [repeat constructor|]. inversion F; subst. destruct (IH _ _ _ H1 Hx) as [G [B M]]. destruct IHA as [B' [G' M']]; [assumption|]. cbn. rewrite B, B'. split; [reflexivity|]. split; [constructor; assumption|]. apply Forall_app. auto. }
    destruct Q as [B [G M]]. split; [constructor; [exact P|rewrite B; split; [exact N|split; [exact T|exact F]]|exact G]|]. split; [reflexivity|]. destruct ns as [|n ns]; [cbn in B; congruence|]. exact M.
Qed.
(* ---- the division ends ---- *)
(* at most k + 1 half units long *)
Definition size (k : nat) (e : Qc) : Prop := e <= zq (Z.of_nat (S k)) * u4.
Lemma size_mono j k e : (j <= k)%nat -> size j e -> size k e.
Proof. unfold size. intros L H. destruct u4_val as [_ [P _]]. assert (zq (Z.of_nat (S j)) <= zq (Z.of_nat (S k))) by (apply zq_le; lia). qnra. Qed.
Lemma size_ex e : exists k, size k e.
Proof.
  destruct u4_val as [_ [P _]]. destruct (archimedes (e / u4)) as [n H]. exists n. unfold size. assert (zq (Z.of_nat n) <= zq (Z.of_nat (S n))) by (apply zq_le; lia). assert (E : e = (e / u4) * u4) by (field; intros K; rewrite K in P; exact (Qclt_not_eq _ _ P eq_refl)). rewrite E. qnra.
Qed.
Lemma split_size k lo hi t : lo <= hi -> 0 <= t -> size k (hi - lo) -> t < round4 (hi - lo) ->
  exists j, k = S j /\ size j (lo + round4 (hi - lo) * half - lo) /\ size j (hi - (lo + round4 (hi - lo) * half)).
Proof.
  intros L T S R. destruct (round4_spec (hi - lo)) as [z [Z [E [A [B C]]]]]; [qlra|]. destruct u4_val as [_ [P _]]. set (d := round4 (hi - lo)) in *. assert (H2 : d * half + d * half = d) by apply half_two.
  assert (Z1 : (1 <= z)%Z). { destruct (Z.eq_dec z 0) as [->|]; [|lia]. change (zq 0) with 0 in E. qlra. }
  assert (Dz : d * half = zq z * u4) by (assert (X : zq z * (u4 + u4) = zq z * u4 + zq z * u4) by ring; qlra).
  assert (U : u4 < hi - lo) by (destruct (qle (hi - lo) u4) eqn:D; [apply qle_true in D; specialize (C D); lia|apply qle_false, D]).
  unfold size in S. destruct k as [|j]; [change (zq (Z.of_nat 1)) with 1 in S; qlra|]. exists j. split; [reflexivity|]. unfold size. rewrite Nat2Z.inj_succ in S. replace (Z.succ (Z.of_nat (Datatypes.S j)))%Z with (Z.of_nat (Datatypes.S j) + 1)%Z in S by lia. rewrite zq_add in S. change (zq 1) with 1 in S. set (w := zq (Z.of_nat (Datatypes.S j))) in *. assert (S' : hi - lo <= w * u4 + u4) by (replace (w * u4 + u4) with ((w + 1) * u4) by ring; exact S).
  assert (Zq : 1 <= zq z) by (apply (zq_le 1 z), Z1). split.
  - replace (lo + d * half - lo) with (d * half) by ring. rewrite Dz. destruct (Z.eq_dec z 1) as [->|]; [change (zq 1) with 1; assert (1 <= w) by (apply (zq_le 1); lia); qnra|]. assert (Zq2 : zq 2 <= zq z) by (apply zq_le; lia). assert (E2 : zq 2 = 1 + 1) by (apply Qc_is_canon; reflexivity). rewrite E2 in Zq2.
    (* z <= w: 2 z u <= w u + 2 u and 2 <= z *)
    assert (Bz : zq z * u4 + zq z * u4 <= w * u4 + u4 + u4) by (rewrite <- Dz; qlra). qnra.
  - replace (hi - (lo + d * half)) with (hi - lo - d * half) by ring. rewrite Dz. qnra.
Qed.
Lemma find_shape b target l : proper b -> 0 <= vx target -> 0 <= vy target -> 0 <= vz target -> find_division_option (fst b) (snd b) (center b) (dims b) target = Some l ->
  forall i j k, size i (vx (snd b) - vx (fst b)) -> size j (vy (snd b) - vy (fst b)) -> size k (vz (snd b) - vz (fst b)) ->
  Forall (fun x => exists i' j' k', (i' + j' + k' < i + j + k)%nat /\ size i' (vx (snd x) - vx (fst x)) /\ size j' (vy (snd x) - vy (fst x)) /\ size k' (vz (snd x) - vz (fst x))) l.
Proof.
  intros [P1 [P2 P3]] T1 T2 T3 H i j k Si Sj Sk. unfold find_division_option in H.
  assert (X1 : qlt (vx target) (vx (dims b)) = true -> exists i', i = S i' /\ size i' (vx (center b) - vx (fst b)) /\ size i' (vx (snd b) - vx (center b))) by (intros Q; apply qlt_true in Q; exact (split_size i _ _ _ P1 T1 Si Q)).
  assert (X2 : qlt (vy target) (vy (dims b)) = true -> exists i', j = S i' /\ size i' (vy (center b) - vy (fst b)) /\ size i' (vy (snd b) - vy (center b))) by (intros Q; apply qlt_true in Q; exact (split_size j _ _ _ P2 T2 Sj Q)).
  assert (X3 : qlt (vz target) (vz (dims b)) = true -> exists i', k = S i' /\ size i' (vz (center b) - vz (fst b)) /\ size i' (vz (snd b) - vz (center b))) by (intros Q; apply qlt_true in Q; exact (split_size k _ _ _ P3 T3 Sk Q)).
  generalize dependent (center b). intros c H X1 X2 X3. destruct b as [lo hi]. cbn [fst snd] in *.
  destruct (qlt (vx target) _), (qlt (vy target) _), (qlt (vz target) _); try discriminate; injection H as <-;
  repeat match goal with X : true = true -> _ |- _ => destruct (X eq_refl) as [? [-> [? ?]]]; clear X | X : false = true -> _ |- _ => clear X end.
  all: unfold divide, divide_two, divide_xyz.
  all: repeat (apply Forall_cons; [cbn [fst snd]; do 3 eexists; split; [|split; [|split]]; cycle 1; [cbn [vx vy vz fst snd]; eassumption|cbn [vx vy vz fst snd]; eassumption|cbn [vx vy vz fst snd]; eassumption|lia]|]); apply Forall_nil.
Qed.
Lemma create_ends target : 0 <= vx target -> 0 <= vy target -> 0 <= vz target -> forall n b i j k, proper b -> size i (vx (snd b) - vx (fst b)) -> size j (vy (snd b) - vy (fst b)) -> size k (vz (snd b) - vz (fst b)) -> (i + j + k <= n)%nat ->
  exists t, forall fuel, (n < fuel)%nat -> create_octree fuel b target = Ok t.
Proof.
  intros T1 T2 T3. induction n as [n IH] using lt_wf_ind. intros b i j k P Si Sj Sk L.
  destruct (qle (vx (dims b)) (vx target) && qle (vy (dims b)) (vy target) && qle (vz (dims b)) (vz target)) eqn:E.
  - exists (Node b [] (Some (center b))). intros [|fuel] F; [lia|]. cbn [create_octree]. rewrite E. reflexivity.
  - destruct (find_division_option (fst b) (snd b) (center b) (dims b) target) as [l|] eqn:D.
    + pose proof (find_shape b target l P T1 T2 T3 D i j k Si Sj Sk) as Sh. destruct (option_division b target l P D) as [_ [_ Pr]].
      assert (A : exists ns, forall fuel, (n < S fuel)%nat -> all_of (fun x => create_octree fuel x target) l = Ok ns).
      { clear D E. induction l as [|x l IHl]; [exists []; reflexivity|]. inversion Sh as [|? ? [i' [j' [k' [Lt [A [B C]]]]]] Sh']; subst. inversion Pr; subst. destruct (IHl Sh') as [ns Hns]; [assumption|]. destruct (IH (n - 1)%nat ltac:(lia) x i' j' k' ltac:(assumption) A B C ltac:(lia)) as [t Ht]. exists (t :: ns). intros fuel F. cbn [all_of]. rewrite Ht by lia. cbn [bind]. rewrite Hns by lia. reflexivity. }
      destruct A as [ns Hns]. exists (Node b ns None). intros [|fuel] F; [lia|]. cbn [create_octree]. rewrite E, D, Hns by lia. reflexivity.
    + exfalso. unfold find_division_option in D. destruct (qlt (vx target) (vx (dims b))) eqn:E1, (qlt (vy target) (vy (dims b))) eqn:E2, (qlt (vz target) (vz (dims b))) eqn:E3; try discriminate. apply qlt_false in E1, E2, E3. apply qle_true in E1, E2, E3. rewrite E1, E2, E3 in E. discriminate.
Qed.
Lemma octree_ends b target : proper b -> 0 <= vx target -> 0 <= vy target -> 0 <= vz target -> exists t n, forall fuel, (n < fuel)%nat -> create_octree fuel b target = Ok t.
Proof.
  intros P T1 T2 T3. destruct (size_ex (vx (snd b) - vx (fst b))) as [i Si]. destruct (size_ex (vy (snd b) - vy (fst b))) as [j Sj]. destruct (size_ex (vz (snd b) - vz (fst b))) as [k Sk]. destruct (create_ends target T1 T2 T3 (i + j + k) b i j k P Si Sj Sk (le_n _)) as [t H]. exists t, (i + j + k)%nat. exact H.
Qed.
(* a negative target is never met *)
Lemma round4_nn lo hi : lo <= hi -> 0 <= round4 (hi - lo).
Proof. intros H. destruct (round4_spec (hi - lo)) as [z [Z [R _]]]; [qlra|]. destruct u4_val as [_ [P _]]. rewrite R. assert (0 <= zq z) by (apply (zq_le 0 z); exact Z). qnra. Qed.
Lemma octree_diverges target : vx target < 0 \/ vy target < 0 \/ vz target < 0 -> forall fuel b, proper b -> create_octree fuel b target = Err OutOfFuel.
Proof.
  intros T. induction fuel as [|fuel IH]; intros b P; [reflexivity|]. cbn [create_octree]. pose proof P as [P1 [P2 P3]]. apply round4_nn in P1, P2, P3.
  assert (E : qle (vx (dims b)) (vx target) && qle (vy (dims b)) (vy target) && qle (vz (dims b)) (vz target) = false).
  { destruct T as [T|[T|T]]; [assert (qle (vx (dims b)) (vx target) = false) as -> by (apply qle_false; unfold dims; cbn [vx fst snd]; unfold vx in *; qlra); reflexivity|assert (qle (vy (dims b)) (vy target) = false) as -> by (apply qle_false; unfold dims; cbn [vy fst snd]; unfold vy in *; cbn [fst snd]; qlra); rewrite andb_false_r; reflexivity|assert (qle (vz (dims b)) (vz target) = false) as -> by (apply qle_false; unfold dims; cbn [vz fst snd]; unfold vz in *; cbn [fst snd]; qlra); rewrite andb_false_r; reflexivity]. }
  rewrite E. destruct (find_division_option _ _ _ _ _) as [l|] eqn:D.
  - destruct (option_division b target l P D) as [N [_ F]]. destruct l as [|x l]; [congruence|]. inversion F; subst. cbn [all_of]. rewrite IH by assumption. reflexivity.
  - exfalso. unfold find_division_option in D. destruct (qlt (vx target) (vx (dims b))) eqn:E1, (qlt (vy target) (vy (dims b))) eqn:E2, (qlt (vz target) (vz (dims b))) eqn:E3; try discriminate. apply qlt_false in E1, E2, E3. apply qle_true in E1, E2, E3. rewrite E1, E2, E3 in E. discriminate.
Qed.

(* ---- queries ---- *)
Lemma contains_iff n p : contains_point n p = true <-> within (box_of n) p.
Proof. unfold contains_point, within. rewrite !andb_true_iff, !qle_true. tauto. Qed.
Definition first_of (p : v3) := fix first (ks : list node) : option node := match ks with [] => None | k :: r => match closest_node k p with Some x => Some x | None => first r end end.
Lemma closest_split b k ks l p : closest_node (Node b (k :: ks) l) p = if contains_point (Node b (k :: ks) l) p then first_of p (k :: ks) else None.
Proof. reflexivity. Qed.
Lemma closest_ok : forall n, good n -> forall p, (within (box_of n) p -> exists m, closest_node n p = Some m /\ In (box_of m) (leaves n) /\ within (box_of m) p /\ leaves m = [box_of m]) /\ (~ within (box_of n) p -> closest_node n p = None).
Proof.
  apply (node_rec2 (fun n => good n -> forall p, (within (box_of n) p -> exists m, closest_node n p = Some m /\ In (box_of m) (leaves n) /\ within (box_of m) p /\ leaves m = [box_of m]) /\ (~ within (box_of n) p -> closest_node n p = None))).
  intros b ks l IH G p. split.
  - intros W. pose proof (proj2 (contains_iff (Node b ks l) p) W) as CW. inversion G as [? ? P|? ? P [N [[T _] F]] K]; subst.
    + exists (Node b [] (Some c)). split; [cbn [closest_node]; rewrite CW; reflexivity|]. split; [left; reflexivity|]. split; [exact W|reflexivity].
    + destruct ks as [|k0 ks0]; [contradiction|]. assert (Ex : Exists (fun k => within (box_of k) p) (k0 :: ks0)). { apply Exists_exists. cbn [box_of] in W. apply T in W. destruct W as [x [X W]]. apply in_map_iff in X. destruct X as [k [<- I]]. eauto. }
      rewrite leaves_split, closest_split, CW. clear T N F G W CW. revert Ex. generalize (k0 :: ks0) IH K. clear. intros ks IH K Ex. induction ks as [|k ks IHk]; [inversion Ex|]. inversion IH as [|? ? H IH']; subst. inversion K as [|? ? G K']; subst. destruct (H G p) as [H1 H2].
      destruct (contains_point k p) eqn:C.
      * apply contains_iff in C. destruct (H1 C) as [m [E [I [W L]]]]. exists m. split; [cbn [first_of]; rewrite E; reflexivity|]. split; [cbn; apply in_or_app; left; exact I|]. auto.
      * assert (NW : ~ within (box_of k) p) by (intros W; apply contains_iff in W; congruence). specialize (H2 NW). inversion Ex as [? ? W|? ? Ex']; subst; [contradiction|]. destruct (IHk IH' K' Ex') as [m [E [I [W L]]]]. exists m. split; [cbn [first_of]; rewrite H2; exact E|]. split; [cbn; apply in_or_app; right; exact I|]. auto.
  - intros NW. cbn [closest_node]. destruct (contains_point (Node b ks l) p) eqn:C; [apply contains_iff in C; contradiction|reflexivity].
Qed.
Lemma box_traverse n : box_of (traverse n) = box_of n.
Proof. destruct n as [b ks [c|]]; reflexivity. Qed.
Lemma traverse_ok : forall n, good n -> good (traverse n) /\ leaves (traverse n) = flat_map (fun b => divide_xyz (fst b) (snd b) (center b)) (leaves n).
Proof.
  apply (node_rec2 (fun n => good n -> good (traverse n) /\ leaves (traverse n) = flat_map (fun b => divide_xyz (fst b) (snd b) (center b)) (leaves n))).
  intros b ks l IH G. inversion G as [? ? P|? ? P [N [T F]] K]; subst.
  - cbn [traverse create_children]. split; [|cbn; reflexivity]. assert (D : division b (divide_xyz (fst b) (snd b) (center b))) by (apply (division_ok b (center b) P (center_within b P)); cbn [In]; tauto). constructor; [exact P|cbn [app]; rewrite map_map; cbn [leaf box_of]; rewrite map_id; exact D|]. cbn [app]. destruct D as [_ [_ Pr]]. rewrite Forall_map. eapply Forall_impl; [|exact Pr]. intros x X. constructor. exact X.
  - cbn [traverse]. assert (A : Forall good (map traverse ks)) by (rewrite Forall_map; rewrite Forall_forall in *; intros k I; apply IH; auto). split; [constructor; [exact P| |exact A]; rewrite map_map; rewrite (map_ext _ _ box_traverse); split; [exact N|split; [exact T|exact F]]|].
    destruct ks as [|k ks]; [contradiction|]. cbn [map]. rewrite !leaves_split. change (traverse k :: map traverse ks) with (map traverse (k :: ks)). revert IH K. generalize (k :: ks). clear. induction l as [|k l IHl]; intros IH K; [reflexivity|]. inversion IH as [|? ? H IH']; subst. inversion K; subst. cbn [map flat_map]. rewrite flat_map_app, IHl by assumption. destruct (H ltac:(assumption)) as [_ ->]. reflexivity.
Qed.
Lemma overlap_exact n m : proper (box_of n) -> proper m -> (overlap n m = true <-> exists p, within (box_of n) p /\ within m p).
Proof.
  destruct n as [[[[a0 a1] a2] [[b0 b1] b2]] ks l], m as [[[c0 c1] c2] [[d0 d1] d2]]. unfold proper, overlap, within. cbn [box_of fst snd vx vy vz]. unfold vx, vy, vz. cbn [fst snd]. intros [P1 [P2 P3]] [Q1 [Q2 Q3]]. split.
  - intros H. destruct (qlt 0 (c0 - b0) || qlt 0 (c1 - b1) || qlt 0 (c2 - b2)) eqn:E; [discriminate|]. destruct (qlt 0 (a0 - d0) || qlt 0 (a1 - d1) || qlt 0 (a2 - d2)) eqn:D; [discriminate|]. repeat rewrite orb_false_iff in E, D. destruct E as [[E1 E2] E3], D as [[D1 D2] D3]. apply qlt_false in E1, E2, E3, D1, D2, D3.
    assert (M : forall a b c d, a <= b -> c <= d -> c - b <= 0 -> a - d <= 0 -> exists x, a <= x /\ x <= b /\ c <= x /\ x <= d). { intros a b c d A B C D. destruct (qle a c) eqn:E; [apply qle_true in E; exists c|apply qle_false in E; exists a]; repeat split; qlra. }
    destruct (M _ _ _ _ P1 Q1 E1 D1) as [x [X1 [X2 [X3 X4]]]]. destruct (M _ _ _ _ P2 Q2 E2 D2) as [y [Y1 [Y2 [Y3 Y4]]]]. destruct (M _ _ _ _ P3 Q3 E3 D3) as [z [Z1 [Z2 [Z3 Z4]]]]. exists (x, y, z). cbn [fst snd]. tauto.
  - intros [[[x y] z] [[A1 [A2 [A3 [A4 [A5 A6]]]]] [B1 [B2 [B3 [B4 [B5 B6]]]]]]]. cbn [fst snd] in *. assert (F : forall s t, s <= t -> qlt 0 (s - t) = false) by (intros s t L; apply qlt_false; qlra). rewrite !F by qlra. reflexivity.
Qed.
Lemma le3_spec a b : le3 a b = true <-> vx a <= vx b /\ vy a <= vy b /\ vz a <= vz b.
Proof. unfold le3. rewrite !andb_true_iff, !qle_true. tauto. Qed.
Lemma subset_box a b : proper a -> ((forall p, within a p -> within b p) <-> le3 (fst b) (fst a) && le3 (snd a) (snd b) = true).
Proof.
  intros [P1 [P2 P3]]. rewrite andb_true_iff, !le3_spec. split.
  - intros H. assert (L : within b (fst a)) by (apply H; unfold within; repeat split; try apply Qcle_refl; assumption). assert (U : within b (snd a)) by (apply H; unfold within; repeat split; try apply Qcle_refl; assumption). unfold within in *. tauto.
  - intros [[A [B C]] [D [E F]]] p [W1 [W2 [W3 [W4 [W5 W6]]]]]. unfold within. repeat split; eapply Qcle_trans; eassumption.
Qed.
Lemma contains_exact n m : proper m -> (contains_bbox n m = true <-> forall p, within m p -> within (box_of n) p).
Proof. intros P. unfold contains_bbox. symmetry. apply subset_box, P. Qed.
Lemma in_bbox_exact n m : proper (box_of n) -> (in_bbox n m = true <-> forall p, within (box_of n) p -> within m p).
Proof. intros P. unfold in_bbox. symmetry. apply subset_box, P. Qed.

(* ---- powers of two ---- *)
Lemma power_of_two_ok x : (1 <= x)%Z -> exists k, (0 <= k)%Z /\ power_of_two x = (2 ^ k)%Z /\ (x <= 2 ^ k)%Z /\ forall j, (0 <= j)%Z -> (x <= 2 ^ j)%Z -> (2 ^ k <= 2 ^ j)%Z.
Proof.
  intros H. unfold power_of_two. exists (bit_length (x - 1)). unfold bit_length. destruct (Z.abs (x - 1)) as [|p|p] eqn:E.
  - split; [lia|]. split; [reflexivity|]. split; [change (2 ^ 0)%Z with 1%Z; lia|]. intros j J _. apply Z.pow_le_mono_r; lia.
  - assert (P : x = (Zpos p + 1)%Z) by lia. pose proof (Z.log2_spec (Zpos p) ltac:(lia)) as [A B]. pose proof (Z.log2_nonneg (Zpos p)) as N. split; [lia|]. split; [reflexivity|]. replace (Z.succ (Z.log2 (Z.pos p))) with (Z.log2 (Z.pos p) + 1)%Z in B by lia. split; [lia|]. intros j J L. apply Z.pow_le_mono_r; [lia|]. destruct (Z.le_gt_cases (Z.log2 (Z.pos p) + 1) j) as [K|K]; [exact K|]. exfalso. assert (2 ^ j <= 2 ^ Z.log2 (Z.pos p))%Z by (apply Z.pow_le_mono_r; lia). lia.
  - pose proof (Z.abs_nonneg (x - 1)). lia.
Qed.
Lemma power_of_two_low x : (x <= 0)%Z -> (2 <= power_of_two x)%Z.
Proof.
  intros H. unfold power_of_two, bit_length. destruct (Z.abs (x - 1)) as [|p|p] eqn:E; [lia| |pose proof (Z.abs_nonneg (x - 1)); lia]. pose proof (Z.log2_nonneg (Zpos p)). change 2%Z with (2 ^ 1)%Z at 1. apply Z.pow_le_mono_r; lia.
Qed.
(* ---- the plane ---- *)
Lemma division_2d lo hi c d target l : fst lo <= fst hi -> snd lo <= snd hi -> within2 (lo, hi) c -> find_division_option_2d lo hi c d target = Ok l ->
  (forall p, within2 (lo, hi) p <-> exists x, In x l /\ within2 x p) /\ ForallOrdPairs apart2 l.
Proof.
  destruct lo as [x0 y0], hi as [x1 y1], c as [cx cy]. unfold within2, find_division_option_2d. cbn [fst snd]. intros P1 P2 [C1 [C2 [C3 C4]]] H.
  assert (T : forall a b, a <= b \/ b <= a) by (intros a b; destruct (qle a b) eqn:E; [left; apply qle_true, E|right; apply qle_false in E; qlra]).
  assert (Tw : forall l : list (q2 * q2), (forall x, In x l -> forall p, within2 x p -> within2 (x0, y0, (x1, y1)) p) -> (forall p, within2 (x0, y0, (x1, y1)) p -> Exists (fun x => within2 x p) l) -> forall p, within2 (x0, y0, (x1, y1)) p <-> exists x, In x l /\ within2 x p) by (intros m A B p; split; [intros W; apply Exists_exists, B, W|intros [x [X W]]; exact (A x X p W)]).
  destruct (qlt (fst target) (fst d)), (qlt (snd target) (snd d)); try discriminate; injection H as <-; (split; [apply Tw|]).
  all: try (intros x I [px py]; repeat (destruct I as [<-|I]; [unfold within2; cbn [fst snd]; intros [H1 [H2 [H3 H4]]]; repeat split; qlra|]); destruct I).
  all: try (intros [px py]; unfold within2; cbn [fst snd]; intros [W1 [W2 [W3 W4]]]; destruct (T px cx) as [Tx|Tx], (T py cy) as [Ty|Ty]; let rec e := first [left; unfold within2; cbn [fst snd]; tauto|right; e] in e).
  all: repeat (apply FOP_cons; [repeat (apply Forall_cons; [intros [px py]; unfold within2, inside2; cbn [fst snd]; split; intros [[H1 [H2 [H3 H4]]] [K1 [K2 [K3 K4]]]]; qlra|]); apply Forall_nil|]); apply FOP_nil.
Qed.
