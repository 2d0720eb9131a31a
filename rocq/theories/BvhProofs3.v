(* Lemmas for BvhProps.v: splitting, corners, order of the caller's list. *)
From Coq Require Import List Arith ZArith Bool QArith Qcanon Lia Permutation Sorted.
From Verif Require Import Common QcLib ArrZ AabbModel AabbSpec AabbProofs BvhModel BvhSpec BvhProofs.
From Verif Require RtreeModel RtreeProofs.
Import ListNotations.
Local Open Scope Qc_scope.

Lemma axis_lt a i : axis_of a = Ok i -> (i < 3)%nat.
Proof.
  unfold axis_of. destruct ((0 <=? a) && (a <? 3))%Z eqn:E; [|destruct ((-3 <=? a) && (a <? 0))%Z eqn:E2; [|discriminate]]; intros H; injection H as <-;
  [apply andb_true_iff in E; destruct E as [E F]; apply Z.leb_le in E; apply Z.ltb_lt in F|apply andb_true_iff in E2; destruct E2 as [E' F]; apply Z.leb_le in E'; apply Z.ltb_lt in F]; lia.
Qed.
Lemma comp_in p b : in_box3 p b <-> forall i, (i < 3)%nat -> comp (fst b) i <= comp p i /\ comp p i <= comp (snd b) i.
Proof.
  split.
  - intros [H [K L]] i Hi. destruct i as [|[|[|]]]; cbn; auto; lia.
  - intros H. repeat split; first [apply (H 0%nat); lia | apply (H 1%nat); lia | apply (H 2%nat); lia].
Qed.
Lemma comp_inside p b : inside p b <-> forall i, (i < 3)%nat -> comp (fst b) i < comp p i /\ comp p i < comp (snd b) i.
Proof.
  split.
  - intros [H [K L]] i Hi. destruct i as [|[|[|]]]; cbn; auto; lia.
  - intros H. repeat split; first [apply (H 0%nat); lia | apply (H 1%nat); lia | apply (H 2%nat); lia].
Qed.
Lemma comp_with v i c j : (i < 3)%nat -> (j < 3)%nat -> comp (with_comp v i c) j = if Nat.eqb i j then c else comp v j.
Proof. intros Hi Hj. destruct i as [|[|[|]]], j as [|[|[|]]]; try lia; reflexivity. Qed.
Lemma half_2 x y : x + y = (x + y) * half + (x + y) * half.
Proof. assert (E : half + half = 1) by (apply Qc_is_canon; reflexivity). transitivity ((x + y) * (half + half)); [rewrite E|]; ring. Qed.
Lemma half_eq x : x * half + x * half = x.
Proof. assert (E : half + half = 1) by (apply Qc_is_canon; reflexivity). transitivity (x * (half + half)); [|rewrite E]; ring. Qed.

Lemma inside_covers c d p : covers c d -> inside p (corners d) -> inside p (corners c).
Proof.
  intros C I. assert (P : proper3 (corners d)) by (destruct I as [[? ?] [[? ?] [? ?]]]; repeat split; qlra).
  apply covers_iff in C; [|exact P]. destruct C as [[[? ?] [[? ?] [? ?]]] [[? ?] [[? ?] [? ?]]]]. destruct I as [[? ?] [[? ?] [? ?]]]. unfold inside, corners in *; cbn [fst snd] in *. repeat split; qlra.
Qed.
(* cutting at a point between the ends *)
Lemma cut_tiles b a i p l r : axis_of a = Ok i -> split b a p = Ok (l, r) ->
  comp (bmin b) i <= (comp (bmin b) i + comp (bmax b) i) * p -> (comp (bmin b) i + comp (bmax b) i) * p <= comp (bmax b) i -> tiles b [l; r].
Proof.
  intros Ha E H K. pose proof (axis_lt a i Ha) as Hi. unfold split in E. rewrite Ha in E. cbn [bind] in E. set (cut := _ * p) in *. injection E as <- <-.
  split.
  - intros q. rewrite comp_in. unfold corners; cbn [fst snd]. split.
    + intros Q. destruct (Qclt_le_dec (comp q i) cut) as [D|D].
      * eexists. split; [left; reflexivity|]. apply comp_in. cbn. intros j Hj. rewrite comp_with by assumption. destruct (Nat.eqb_spec i j); [subst j; split; [apply Q; assumption|qlra]|apply Q; assumption].
      * eexists. split; [right; left; reflexivity|]. apply comp_in. cbn. intros j Hj. rewrite comp_with by assumption. destruct (Nat.eqb_spec i j); [subst j; split; [qlra|apply Q; assumption]|apply Q; assumption].
    + intros [c [[<-|[<-|[]]] Q]] j Hj; rewrite comp_in in Q; specialize (Q j Hj); cbn in Q; rewrite comp_with in Q by assumption; destruct (Nat.eqb_spec i j); subst; destruct Q; split; qlra.
  - constructor; [|constructor; constructor]. constructor; [|constructor]. intros q Q R. rewrite comp_inside in Q, R. specialize (Q i Hi). specialize (R i Hi). cbn in Q, R.
    rewrite comp_with in Q, R by assumption. rewrite Nat.eqb_refl in Q, R. destruct Q, R. qlra.
Qed.
Lemma half_between a b : a <= b -> a <= (a + b) * half /\ (a + b) * half <= b.
Proof. intros H. pose proof (half_eq (a + b)). set (h := (a + b) * half) in *. split; qlra. Qed.
Lemma proper_comp b i : (i < 3)%nat -> proper3 (corners b) -> comp (bmin b) i <= comp (bmax b) i.
Proof. intros Hi [H [K L]]. destruct i as [|[|[|]]]; cbn; auto; lia. Qed.
Lemma split_half_tiles b a : proper3 (corners b) -> (-3 <= a < 3)%Z -> exists l r, split b a half = Ok (l, r) /\ tiles b [l; r] /\ proper3 (corners l) /\ proper3 (corners r).
Proof.
  intros P Ha. assert (exists i, axis_of a = Ok i) as [i Ei].
  { unfold axis_of. destruct ((0 <=? a) && (a <? 3))%Z eqn:E; [eauto|]. rewrite (proj2 (Z.leb_le (-3) a)) by lia. rewrite (proj2 (Z.ltb_lt a 0)); [cbn [andb]; eexists; reflexivity|].
    apply andb_false_iff in E. destruct E as [E|E]; [apply Z.leb_gt in E; lia|apply Z.ltb_ge in E; lia]. }
  pose proof (axis_lt a i Ei) as Hi. destruct (half_between (comp (bmin b) i) (comp (bmax b) i)) as [H K]; [apply proper_comp; assumption|].
  assert (exists l r, split b a half = Ok (l, r)) as [l [r E]] by (unfold split; rewrite Ei; cbn; eauto).
  exists l, r. split; [exact E|]. split; [eapply cut_tiles; eassumption|].
  unfold split in E. rewrite Ei in E. cbn [bind] in E. set (cut := _ * half) in *. injection E as <- <-. unfold corners; cbn. destruct P as [P1 [P2 P3]]. unfold proper3; cbn [fst snd].
  destruct i as [|[|[|]]]; try lia; cbn in *; repeat split; assumption.
Qed.
Lemma split_zero_tiles b a i p : axis_of a = Ok i -> proper3 (corners b) -> comp (bmin b) i = 0 -> 0 <= p -> p <= 1 -> exists l r, split b a p = Ok (l, r) /\ tiles b [l; r].
Proof.
  intros Ei P Z H K. pose proof (axis_lt a i Ei) as Hi. pose proof (proper_comp b i Hi P) as C.
  assert (exists l r, split b a p = Ok (l, r)) as [l [r E]] by (unfold split; rewrite Ei; cbn; eauto).
  exists l, r. split; [exact E|]. eapply cut_tiles; [exact Ei|exact E| |]; rewrite Z in *; set (m := comp (bmax b) i) in *; qnra.
Qed.

(* replacing tiles by tiles of them *)
Lemma tiles_refl b : tiles b [b].
Proof. split; [|repeat constructor]. intros p. split; [intros H; exists b; cbn; auto|intros [c [[<-|[]] H]]; exact H]. Qed.
Lemma tiles_covers b bs c : tiles b bs -> In c bs -> covers b c.
Proof. intros [T _] I p H. apply T. exists c; auto. Qed.
Lemma fop_app {X} (R : X -> X -> Prop) l1 l2 : ForallOrdPairs R l1 -> ForallOrdPairs R l2 -> (forall x y, In x l1 -> In y l2 -> R x y) -> ForallOrdPairs R (l1 ++ l2).
Proof.
  induction 1 as [|x l1 H F IH]; intros G C; cbn; [exact G|]. constructor.
  - apply Forall_app. split; [exact H|]. apply Forall_forall. intros y Hy. apply C; [left; reflexivity|exact Hy].
  - apply IH; [exact G|]. intros u v Hu Hv. apply C; [right; exact Hu|exact Hv].
Qed.
Lemma tiles_cons b c cs ds : tiles b (c :: cs) -> tiles c ds -> tiles b (ds ++ cs).
Proof.
  intros [T D] Tc. pose proof Tc as [Tc' Dc]. split.
  - intros p. rewrite T. split.
    + intros [x [[<-|Hx] I]]; [|exists x; split; [apply in_or_app; right; exact Hx|exact I]]. apply Tc' in I. destruct I as [d [Hd I]]. exists d. split; [apply in_or_app; left; exact Hd|exact I].
    + intros [x [Hx I]]. apply in_app_or in Hx. destruct Hx as [Hx|Hx]; [|exists x; split; [right; exact Hx|exact I]]. exists c. split; [left; reflexivity|]. apply Tc'. exists x; auto.
  - inversion D as [|? ? H F]; subst. apply fop_app; [exact Dc|exact F|]. intros x y Hx Hy p I J. rewrite Forall_forall in H. apply (H y Hy p); [|exact J]. eapply inside_covers; [|exact I]. eapply tiles_covers; eassumption.
Qed.
Lemma fop_perm {X} (R : X -> X -> Prop) l l' : (forall x y, R x y -> R y x) -> Permutation l l' -> ForallOrdPairs R l -> ForallOrdPairs R l'.
Proof.
  intros S. induction 1 as [| x l l' P IH | x y l | l m n P1 IH1 P2 IH2]; intros F.
  - constructor.
  - inversion F; subst. constructor; [eapply Permutation_Forall; eassumption|auto].
  - inversion F as [|? ? H G]; subst. inversion G as [|? ? H' G']; subst. inversion H; subst. constructor; [constructor; [apply S; assumption|assumption]|constructor; assumption].
  - auto.
Qed.
Lemma tiles_perm b l l' : Permutation l l' -> tiles b l -> tiles b l'.
Proof.
  intros P [T D]. split.
  - intros p. rewrite T. split; intros [c [H I]]; exists c; split; auto; [eapply Permutation_in; eassumption|eapply Permutation_in; [apply Permutation_sym; eassumption|exact H]].
  - eapply fop_perm; [|exact P|exact D]. intros x y H p I J. exact (H p J I).
Qed.
Lemma split_all_tiles b a cs : (-3 <= a < 3)%Z -> forall rest, Forall (fun c => proper3 (corners c)) cs -> tiles b (cs ++ rest) ->
  exists ds, split_all cs a half = Ok ds /\ tiles b (ds ++ rest) /\ Forall (fun c => proper3 (corners c)) ds /\ length ds = (2 * length cs)%nat.
Proof.
  intros Ha. induction cs as [|c cs IH]; intros rest P T; cbn [split_all].
  - exists []. cbn in *. auto.
  - inversion P; subst. destruct (split_half_tiles c a) as [l [r [E [Tc [Pl Pr]]]]]; [assumption|exact Ha|]. rewrite E. cbn [bind].
    pose proof (tiles_cons _ _ _ _ T Tc) as T'. cbn [app] in T'.
    destruct (IH (l :: r :: rest)) as [ds [Ed [Td [Pd Ld]]]]; [assumption|eapply tiles_perm; [|exact T']|].
    + rewrite <- (Permutation_middle cs). apply perm_skip. rewrite <- (Permutation_middle cs). reflexivity.
    + rewrite Ed. cbn [bind]. eexists. split; [reflexivity|]. split; [|split; [repeat (constructor; [assumption|]); exact Pd|cbn; lia]].
      eapply tiles_perm; [|exact Td]. cbn. rewrite <- (Permutation_middle ds). apply perm_skip. rewrite <- (Permutation_middle ds). reflexivity.
Qed.
Lemma split8_tiles b a1 a2 a3 : proper3 (corners b) -> (-3 <= a1 < 3)%Z -> (-3 <= a2 < 3)%Z -> (-3 <= a3 < 3)%Z ->
  (exists bs, split4 b a1 a2 half half = Ok bs /\ length bs = 4%nat /\ tiles b bs) /\
  exists bs, split8 b a1 a2 a3 half half half = Ok bs /\ length bs = 8%nat /\ tiles b bs.
Proof.
  intros P H1 H2 H3.
  assert (Four : forall x y, (-3 <= x < 3)%Z -> (-3 <= y < 3)%Z -> exists bs, split4 b x y half half = Ok bs /\ length bs = 4%nat /\ tiles b bs /\ Forall (fun c => proper3 (corners c)) bs).
  { intros x y Hx Hy. unfold split4. destruct (split_half_tiles b y P Hy) as [l [r [E [T [Pl Pr]]]]]. rewrite E. cbn [bind].
    destruct (split_half_tiles l x Pl Hx) as [ll [lr [El [Tl [Pll Plr]]]]]. rewrite El. cbn [bind].
    destruct (split_half_tiles r x Pr Hx) as [rl [rr [Er [Tr [Prl Prr]]]]]. rewrite Er. cbn [bind].
    eexists. split; [reflexivity|]. split; [reflexivity|]. split; [|repeat (constructor; [assumption|]); constructor].
    pose proof (tiles_cons _ _ _ _ T Tl) as T1. cbn [app] in T1.
    assert (T2 : tiles b (r :: [ll; lr])) by (eapply tiles_perm; [|exact T1]; rewrite <- (Permutation_middle [ll; lr] [] r); reflexivity).
    pose proof (tiles_cons _ _ _ _ T2 Tr) as T3. eapply tiles_perm; [|exact T3]. apply (Permutation_app_comm [rl; rr] [ll; lr]). }
  split; [destruct (Four a1 a2 H1 H2) as [bs [E [L [T _]]]]; eauto|].
  unfold split8. destruct (Four a2 a3 H2 H3) as [bs [E [L [T F]]]]. rewrite E. cbn [bind].
  destruct (split_all_tiles b a1 bs H1 [] F) as [ds [Ed [Td [_ Ld]]]]; [rewrite app_nil_r; exact T|]. exists ds. rewrite app_nil_r in Td. rewrite L in Ld. auto.
Qed.

(* what is wrong with split *)
Lemma split_off b a i p l r : axis_of a = Ok i -> split b a p = Ok (l, r) -> comp (bmin b) i <> 0 -> p <> half ->
  comp (bmax l) i <> comp (bmin b) i + (comp (bmax b) i - comp (bmin b) i) * p /\ comp (bmin r) i = comp (bmax l) i.
Proof.
  intros Ei E N Np. pose proof (axis_lt a i Ei) as Hi. unfold split in E. rewrite Ei in E. cbn [bind] in E. set (cut := _ * p) in *. injection E as <- <-. cbn.
  rewrite !comp_with, Nat.eqb_refl by assumption. split; [|reflexivity]. unfold cut. set (x := comp (bmin b) i) in *. set (y := comp (bmax b) i) in *. intros E.
  assert (x * (p + p - 1) = 0) as Z by (transitivity ((x + y) * p - (x + (y - x) * p)); [ring|rewrite E; ring]).
  apply Qcmult_integral in Z. destruct Z as [Z|Z]; [contradiction|]. apply Np. 
  assert (p + p = 1) by (transitivity (p + p - 1 + 1); [ring|rewrite Z; ring]).
  transitivity ((p + p) * half); [rewrite Qcmult_plus_distr_l; symmetry; apply half_eq|rewrite H; ring].
Qed.
Lemma split_stale b a p l r : made b -> split b a p = Ok (l, r) -> (forall c, intersect l c = intersect b c /\ intersect r c = intersect b c) /\ volume l = volume b /\ volume r = volume b /\ bcenter l = bcenter b /\ bcenter r = bcenter b.
Proof.
  intros [_ M] E. assert (barr b = (bmin b, bmax b) /\ bdims b = vsub (bmax b) (bmin b) /\ bcenter b = vscale (vadd (bmin b) (bmax b)) half) as [M1 [M2 M3]].
  { rewrite M. repeat split. }
  unfold split in E. destruct (axis_of a) as [i|]; [|discriminate]. cbn [bind] in E. injection E as <- <-. unfold intersect, volume; cbn [barr bdims bcenter set_min set_max mkbox]. rewrite M1, M2, M3. repeat split.
Qed.
Lemma expand_ok a b : made a -> made b -> covers (expand a b) a /\ covers (expand a b) b /\ (forall c, covers c a -> covers c b -> covers c (expand a b)) /\ (forall c, intersect (expand a b) c = intersect a c) /\ volume (expand a b) = volume a.
Proof.
  intros Ma Mb. destruct (merge_spec a b Ma Mb) as [_ [C1 [C2 T]]]. split; [exact C1|]. split; [exact C2|]. split; [exact T|]. split; reflexivity.
Qed.
Lemma evaluate_off b i u : (i < 3)%nat -> comp (bmin b) i <> 0 -> comp u i <> half -> comp (evaluate b u) i <> comp (bmin b) i + (comp (bmax b) i - comp (bmin b) i) * comp u i.
Proof.
  intros Hi N Nu E. assert (comp (evaluate b u) i = (comp (bmin b) i + comp (bmax b) i) * comp u i) as Ee by (destruct i as [|[|[|]]]; try lia; reflexivity).
  rewrite Ee in E. set (x := comp (bmin b) i) in *. set (y := comp (bmax b) i) in *. set (p := comp u i) in *.
  assert (x * (p + p - 1) = 0) as Z by (transitivity ((x + y) * p - (x + (y - x) * p)); [ring|rewrite E; ring]).
  apply Qcmult_integral in Z. destruct Z as [Z|Z]; [contradiction|]. apply Nu. 
  assert (p + p = 1) by (transitivity (p + p - 1 + 1); [ring|rewrite Z; ring]).
  transitivity ((p + p) * half); [rewrite Qcmult_plus_distr_l; symmetry; apply half_eq|rewrite H; ring].
Qed.
Lemma evaluate_half b : evaluate b (half, half, half) = centroid b.
Proof. reflexivity. Qed.

(* corners, edges, faces *)
Lemma comp_ext p q : (forall i, (i < 3)%nat -> comp p i = comp q i) -> p = q.
Proof. intros H. destruct p as [[a b] c], q as [[d e] f]. f_equal; [f_equal|]; [apply (H 0%nat)|apply (H 1%nat)|apply (H 2%nat)]; lia. Qed.
Lemma fmin_le a b : a <= b -> fmin a b = a. Proof. intros H. unfold fmin. destruct (qlt b a) eqn:E; [apply qlt_true in E; qlra|reflexivity]. Qed.
Lemma fmax_le a b : a <= b -> fmax a b = b. Proof. intros H. unfold fmax. destruct (qlt a b) eqn:E; [reflexivity|]. apply qlt_false in E. apply Qcle_antisym; assumption. Qed.
Lemma corners_eq b : proper3 (corners b) -> get_corners b = map (fun c : bool * bool * bool => let '(x, y, z) := c in (if x then vx (bmax b) else vx (bmin b), if y then vy (bmax b) else vy (bmin b), if z then vz (bmax b) else vz (bmin b))) bit_combinations.
Proof.
  intros [H [K L]]. unfold corners in *; cbn [fst snd] in *. unfold get_corners, vmin, vmax.
  rewrite (fmin_le _ _ H), (fmin_le _ _ K), (fmin_le _ _ L), (fmax_le _ _ H), (fmax_le _ _ K), (fmax_le _ _ L). reflexivity.
Qed.
Lemma corners_ok b : proper3 (corners b) -> length (get_corners b) = 8%nat /\ forall p, In p (get_corners b) <-> vertex b p.
Proof.
  intros P. split; [reflexivity|]. rewrite (corners_eq b P). intros p. rewrite in_map_iff. split.
  - intros [[[x y] z] [<- _]] i Hi. destruct i as [|[|[|]]]; try lia; cbn; [destruct x|destruct y|destruct z]; auto.
  - intros V. pose proof (V 0%nat ltac:(lia)) as V0. pose proof (V 1%nat ltac:(lia)) as V1. pose proof (V 2%nat ltac:(lia)) as V2. destruct p as [[a c] d]. cbn in V0, V1, V2. unfold vx, vy, vz in V0, V1, V2; cbn [fst snd] in *.
    assert (exists x : bool, a = if x then vx (bmax b) else vx (bmin b)) as [x ->] by (destruct V0; [exists false|exists true]; assumption).
    assert (exists x : bool, c = if x then vy (bmax b) else vy (bmin b)) as [y ->] by (destruct V1; [exists false|exists true]; assumption).
    assert (exists x : bool, d = if x then vz (bmax b) else vz (bmin b)) as [z ->] by (destruct V2; [exists false|exists true]; assumption).
    exists (x, y, z). split; [reflexivity|]. destruct x, y, z; cbn; tauto.
Qed.
Lemma edges_eq b : proper3 (corners b) -> exists es, get_edges b = Ok es /\ length es = 12%nat /\ Forall (fun e => edge b (fst e) (snd e)) es /\ forall p q, edge b p q -> In (p, q) es.
Proof.
  intros P. unfold get_edges. rewrite (corners_eq b P). cbn [map bit_combinations edges_of edge_indices getR nth_error bind].
  destruct b as [[[x0 y0] z0] [[x1 y1] z1] bc bd ba]. unfold vx, vy, vz; cbn [fst snd bmin bmax].
  eexists. split; [reflexivity|]. split; [reflexivity|].
  assert (V : forall x y z, (x = x0 \/ x = x1) -> (y = y0 \/ y = y1) -> (z = z0 \/ z = z1) -> vertex {| bmin := (x0, y0, z0); bmax := (x1, y1, z1); bcenter := bc; bdims := bd; barr := ba |} (x, y, z)).
  { intros x y z Hx Hy Hz i Hi. destruct i as [|[|[|]]]; try lia; cbn; assumption. }
  split.
  - repeat (apply Forall_cons; [cbn [fst snd]; split; [apply V; tauto|]; split; [apply V; tauto|];
    first [exists 0%nat; split; [lia|]; split; [reflexivity|]; split; [reflexivity|]; intros j Hj Nj; destruct j as [|[|[|]]]; try lia; reflexivity
          |exists 1%nat; split; [lia|]; split; [reflexivity|]; split; [reflexivity|]; intros j Hj Nj; destruct j as [|[|[|]]]; try lia; reflexivity
          |exists 2%nat; split; [lia|]; split; [reflexivity|]; split; [reflexivity|]; intros j Hj Nj; destruct j as [|[|[|]]]; try lia; reflexivity]|]). apply Forall_nil.
  - intros [[px py] pz] [[qx qy] qz] [Vp [_ [i [Hi [Ep [Eq Ej]]]]]].
    pose proof (Vp 0%nat ltac:(lia)) as V0. pose proof (Vp 1%nat ltac:(lia)) as V1. pose proof (Vp 2%nat ltac:(lia)) as V2. cbn in V0, V1, V2. unfold vx, vy, vz in V0, V1, V2; cbn [fst snd] in *.
    pose proof (Ej 0%nat ltac:(lia)) as E0. pose proof (Ej 1%nat ltac:(lia)) as E1. pose proof (Ej 2%nat ltac:(lia)) as E2. unfold comp, vx, vy, vz in *; cbn [fst snd] in *.
    destruct i as [|[|[|]]]; try lia.
    + rewrite <- E1, <- E2 by lia. clear E0 E1 E2 Ej V0. subst px qx. destruct V1 as [-> | ->], V2 as [-> | ->]; cbn; tauto.
    + rewrite <- E0, <- E2 by lia. clear E0 E1 E2 Ej V1. subst py qy. destruct V0 as [-> | ->], V2 as [-> | ->]; cbn; tauto.
    + rewrite <- E0, <- E1 by lia. clear E0 E1 E2 Ej V2. subst pz qz. destruct V0 as [-> | ->], V1 as [-> | ->]; cbn; tauto.
Qed.
Lemma faces_eq b : proper3 (corners b) -> exists fs, get_faces b = Ok fs /\ length fs = 6%nat /\
  Forall (fun f => exists i side, (i < 3)%nat /\ (side = comp (bmin b) i \/ side = comp (bmax b) i) /\ face b f i side) fs /\
  forall i, (i < 3)%nat -> (exists f, In f fs /\ face b f i (comp (bmin b) i)) /\ (exists f, In f fs /\ face b f i (comp (bmax b) i)).
Proof.
  intros P. unfold get_faces. rewrite (corners_eq b P). cbn [map bit_combinations faces_of face_indices getR nth_error bind].
  destruct b as [[[x0 y0] z0] [[x1 y1] z1] bc bd ba]. unfold vx, vy, vz; cbn [fst snd bmin bmax].
  eexists. split; [reflexivity|]. split; [reflexivity|]. set (b := {| bmin := (x0, y0, z0); bmax := (x1, y1, z1); bcenter := bc; bdims := bd; barr := ba |}).
  assert (V : forall x y z, (x = x0 \/ x = x1) -> (y = y0 \/ y = y1) -> (z = z0 \/ z = z1) -> vertex b (x, y, z)).
  { intros x y z Hx Hy Hz i Hi. destruct i as [|[|[|]]]; try lia; cbn; assumption. }
  assert (Ex : forall y z, (y = y0 \/ y = y1) -> (z = z0 \/ z = z1) -> edge b (x0, y, z) (x1, y, z)).
  { intros. split; [apply V; tauto|]. split; [apply V; tauto|]. exists 0%nat. split; [lia|]. split; [reflexivity|]. split; [reflexivity|]. intros j Hj Nj; destruct j as [|[|[|]]]; try lia; reflexivity. }
  assert (Ey : forall x z, (x = x0 \/ x = x1) -> (z = z0 \/ z = z1) -> edge b (x, y0, z) (x, y1, z)).
  { intros. split; [apply V; tauto|]. split; [apply V; tauto|]. exists 1%nat. split; [lia|]. split; [reflexivity|]. split; [reflexivity|]. intros j Hj Nj; destruct j as [|[|[|]]]; try lia; reflexivity. }
  assert (Ez : forall x y, (x = x0 \/ x = x1) -> (y = y0 \/ y = y1) -> edge b (x, y, z0) (x, y, z1)).
  { intros. split; [apply V; tauto|]. split; [apply V; tauto|]. exists 2%nat. split; [lia|]. split; [reflexivity|]. split; [reflexivity|]. intros j Hj Nj; destruct j as [|[|[|]]]; try lia; reflexivity. }
  assert (F : face b [(x0, y0, z0); (x0, y0, z1); (x0, y1, z1); (x0, y1, z0)] 0 x0 /\ face b [(x1, y0, z0); (x1, y0, z1); (x1, y1, z1); (x1, y1, z0)] 0 x1 /\
    face b [(x0, y0, z0); (x0, y0, z1); (x1, y0, z1); (x1, y0, z0)] 1 y0 /\ face b [(x0, y1, z0); (x0, y1, z1); (x1, y1, z1); (x1, y1, z0)] 1 y1 /\
    face b [(x0, y0, z0); (x0, y1, z0); (x1, y1, z0); (x1, y0, z0)] 2 z0 /\ face b [(x0, y0, z1); (x0, y1, z1); (x1, y1, z1); (x1, y0, z1)] 2 z1).
  { unfold face. repeat split; first [reflexivity | left; first [apply Ex|apply Ey|apply Ez]; tauto | right; first [apply Ex|apply Ey|apply Ez]; tauto]. }
  destruct F as [F0 [F1 [F2 [F3 [F4 F5]]]]]. split.
  - constructor; [exists 0%nat, x0; split; [lia|]; split; [left; reflexivity|exact F0]|].
    constructor; [exists 0%nat, x1; split; [lia|]; split; [right; reflexivity|exact F1]|].
    constructor; [exists 1%nat, y0; split; [lia|]; split; [left; reflexivity|exact F2]|].
    constructor; [exists 1%nat, y1; split; [lia|]; split; [right; reflexivity|exact F3]|].
    constructor; [exists 2%nat, z0; split; [lia|]; split; [left; reflexivity|exact F4]|].
    constructor; [exists 2%nat, z1; split; [lia|]; split; [right; reflexivity|exact F5]|]. constructor.
  - intros i Hi. destruct i as [|[|[|]]]; try lia; (split; eexists; (split; [|first [exact F0|exact F1|exact F2|exact F3|exact F4|exact F5]]); cbn; tauto).
Qed.

(* 72-80 *)
Lemma between a b c d : a < b -> c < d -> a < d -> c < b -> exists x, (a < x /\ x < b) /\ (c < x /\ x < d).
Proof.
  intros. pose proof (fmax_spec a c) as [? [? L]]. pose proof (fmin_spec b d) as [? [? R]]. set (l := fmax a c) in *. set (h := fmin b d) in *. clearbody l h.
  exists ((l + h) * half). pose proof (half_eq (l + h)). set (m := (l + h) * half) in *. clearbody m. assert (l < h) by (destruct L, R; subst; assumption). repeat split; qlra.
Qed.
Lemma disjoint_exact a b : solid a -> solid b -> (intersect_disjoint a b = true <-> exists p, inside p (corners a) /\ inside p (corners b)).
Proof.
  intros [p [[? ?] [[? ?] [? ?]]]] [q [[? ?] [[? ?] [? ?]]]]. unfold corners in *; cbn [fst snd] in *. unfold intersect_disjoint. rewrite !andb_true_iff, !qlt_true. split.
  - intros [[[[[? ?] ?] ?] ?] ?].
    destruct (between (vx (bmin a)) (vx (bmax a)) (vx (bmin b)) (vx (bmax b))) as [x [? ?]]; try qlra.
    destruct (between (vy (bmin a)) (vy (bmax a)) (vy (bmin b)) (vy (bmax b))) as [y [? ?]]; try qlra.
    destruct (between (vz (bmin a)) (vz (bmax a)) (vz (bmin b)) (vz (bmax b))) as [z [? ?]]; try qlra.
    exists (x, y, z). unfold inside, vx, vy, vz in *; cbn [fst snd] in *. tauto.
  - intros [r [[[? ?] [[? ?] [? ?]]] [[? ?] [[? ?] [? ?]]]]]. cbn [fst snd] in *. repeat split; qlra.
Qed.

Section S.
Context {A : Type}.
Lemma put_sorted (k : obj A -> Qc) x l : StronglySorted (fun a b => k a <= k b) l -> StronglySorted (fun a b => k a <= k b) (RtreeModel.put k x l).
Proof.
  induction 1 as [|y l S IH F]; cbn [RtreeModel.put]; [repeat constructor|]. destruct (qlt (k y) (k x)) eqn:E.
  - apply qlt_true in E. constructor; [exact IH|]. apply Forall_forall. intros z Hz. apply (Permutation_in _ (RtreeProofs.put_perm k x l)) in Hz. destruct Hz as [<-|Hz]; [qlra|]. rewrite Forall_forall in F. auto.
  - apply qlt_false in E. constructor; [constructor; assumption|]. constructor; [exact E|]. eapply Forall_impl; [|exact F]. intros z Hz. cbn in Hz. qlra.
Qed.
Lemma sort_sorted (k : obj A -> Qc) l : StronglySorted (fun a b => k a <= k b) (RtreeModel.sort_by k l).
Proof. induction l as [|x l IH]; cbn; [constructor|]. now apply put_sorted. Qed.
Lemma list_sorted (l : list (obj A)) n fuel t s : (1 <= n)%Z -> (n < Z.of_nat (length l))%Z -> Forall (fun o => made (obox o)) l -> build_bvh fuel l n = Ok (t, s) -> exists i, (i < 3)%nat /\ in_order i s.
Proof.
  intros Hn Hl M E. assert (N : l <> []) by (intros ->; cbn in Hl; lia).
  destruct (build_ok n Hn (S (length l + fuel)) l N M) as [t' [s' [E' [_ [_ [_ [_ [_ R]]]]]]]]; [lia|].
  rewrite (fuel_mono _ (S (length l + fuel)) _ _ _ E) in E' by lia. injection E' as <- <-. destruct R as [R|[R|[lo [ro R]]]]; [contradiction|lia|].
  destruct l as [|o l]; [congruence|]. unfold split_objects in R. injection R as <- _ _. exists (split_axis o l). split.
  - unfold split_axis. destruct (qlt _ _); destruct (qlt _ _); lia.
  - exact (sort_sorted (key (split_axis o l)) (o :: l)).
Qed.
Lemma list_reordered (l : list (obj A)) n fuel t s : (1 <= n)%Z -> (n < Z.of_nat (length l))%Z -> Forall (fun o => made (obox o)) l -> (forall i, (i < 3)%nat -> ~ in_order i l) -> build_bvh fuel l n = Ok (t, s) -> s <> l.
Proof. intros Hn Hl M N E ->. destruct (list_sorted l n fuel t l Hn Hl M E) as [i [Hi O]]. exact (N i Hi O). Qed.
End S.
