(* Trees of triangles. *)
From Coq Require Import List ZArith Lia Bool QArith Qcanon Permutation Sorted.
From Verif Require Import Common ListLib QcLib ArrZ RtreeModel RtreeProofs AabbModel AabbSpec AabbProofs AabbProofs2 BvhModel BvhSpec BvhProofs BvhProofs2 MolModel MolSpec MolProofs1 MolProofs2.
Import ListNotations.
Local Open Scope Z_scope.
Local Open Scope Qc_scope.

Notation tree := (bvh tri).

(* ---- the box of a triangle ---- *)
Definition tri_box (o : obj tri) : Prop :=
  made (obox o) /\ (forall p, in_tri (value o) p -> in_box3 p (corners (obox o))) /\
  (forall i, flat_along i (value o) -> comp (bmin (obox o)) i = comp (bmax (obox o)) i).

Lemma in_box_conv (b : box3) (a c d : v3) u w : in_box3 a b -> in_box3 c b -> in_box3 d b -> 0 <= u -> 0 <= w -> u + w <= 1 -> in_box3 (tri_at (a, c, d) u w) b.
Proof.
  intros [A1 [A2 A3]] [C1 [C2 C3]] [D1 [D2 D3]] U W S.
  assert (G : forall x y z lo hi : Qc, lo <= x /\ x <= hi -> lo <= y /\ y <= hi -> lo <= z /\ z <= hi -> lo <= x + u * (y - x) + w * (z - x) /\ x + u * (y - x) + w * (z - x) <= hi).
  { intros x y z lo hi [X1 X2] [Y1 Y2] [Z1 Z2].
    assert (0 <= (1 - u - w) * (x - lo)) by (apply qc_mul_nonneg; qlra). assert (0 <= u * (y - lo)) by (apply qc_mul_nonneg; qlra). assert (0 <= w * (z - lo)) by (apply qc_mul_nonneg; qlra).
    assert (0 <= (1 - u - w) * (hi - x)) by (apply qc_mul_nonneg; qlra). assert (0 <= u * (hi - y)) by (apply qc_mul_nonneg; qlra). assert (0 <= w * (hi - z)) by (apply qc_mul_nonneg; qlra).
    split; qnra. }
  unfold in_box3, tri_at. cbn [vx vy vz fst snd]. exact (conj (G _ _ _ _ _ A1 C1 D1) (conj (G _ _ _ _ _ A2 C2 D2) (G _ _ _ _ _ A3 C3 D3))).
Qed.

Lemma triangle_ok t : exists o, triangle t = Ok o /\ value o = t /\ tri_box o.
Proof.
  destruct t as [[a b] c]. unfold triangle.
  destruct (aabb_tight 3 [[vx a; vy a; vz a]; [vx b; vy b; vz b]; [vx c; vy c; vz c]] (zeros 3, zeros 3) (zeros 3) (zeros 3)) as [lo [hi [E [I [T [L1 [L2 _]]]]]]]; [repeat constructor|discriminate|reflexivity|cbn; lia|cbn; lia|].
  change (length (zeros 3)) with 3%nat in L1, L2. rewrite !firstn_all2 in I by lia. rewrite !firstn_all2 in T by lia.
  destruct lo as [|x0 [|y0 [|z0 [|]]]]; try discriminate. destruct hi as [|x1 [|y1 [|z1 [|]]]]; try discriminate.
  change (aabb (Z.of_nat 3)) with (aabb 3) in E. unfold aabb at 1 in E. unfold aabb. rewrite E. cbn [bind row3 getR nth_error].
  eexists. split; [reflexivity|]. split; [reflexivity|].
  assert (K : forall v : v3, v = a \/ v = b \/ v = c -> in_box3 v ((x0, y0, z0), (x1, y1, z1))).
  { intros v Hv. apply (in_box_mk v (x0, y0, z0) (x1, y1, z1)). apply I. destruct Hv as [-> | [-> | ->]]; cbn; auto. }
  pose proof (K a (or_introl eq_refl)) as Ka. pose proof (K b (or_intror (or_introl eq_refl))) as Kb. pose proof (K c (or_intror (or_intror eq_refl))) as Kc.
  assert (P : proper3 ((x0, y0, z0), (x1, y1, z1))).
  { destruct Ka as [[? ?] [[? ?] [? ?]]]. cbn in *. repeat split; cbn; qlra. }
  split; [apply made_mk; exact P|]. split.
  - intros p [u [w [U [W [S ->]]]]]. cbn [obox value]. apply in_box_conv; assumption.
  - intros i F. cbn [obox value bmin bmax mkbox] in *.
    destruct F as [F1 F2]. set (lo' := with_comp (x0, y0, z0) i (comp a i)). set (hi' := with_comp (x1, y1, z1) i (comp a i)).
    assert (Sub : forall v : v3, v = a \/ v = b \/ v = c -> in_box3 v (lo', hi')).
    { intros v Hv. assert (Ci : comp v i = comp a i) by (destruct Hv as [-> | [-> | ->]]; congruence). pose proof (K v Hv) as [[? ?] [[? ?] [? ?]]].
      unfold lo', hi', in_box3. destruct i as [|[|i]]; cbn [with_comp comp vx vy vz fst snd] in *; repeat split; try assumption; rewrite Ci; apply Qcle_refl. }
    assert (G : forall q : v3, in_box3 q ((x0, y0, z0), (x1, y1, z1)) -> in_box3 q (lo', hi')).
    { intros q Hq. apply in_box_mk. apply (T _ _) with (q := [vx q; vy q; vz q]); [|apply (in_box_mk q (x0, y0, z0) (x1, y1, z1)); exact Hq].
      intros p [<- | [<- | [<- | []]]]; apply in_box_mk; apply Sub; auto. }
    destruct (corner_in (mkbox (x0, y0, z0) (x1, y1, z1)) P) as [C0 C1]. apply G in C0, C1. cbn [bmin bmax mkbox] in C0, C1.
    destruct C0 as [[? ?] [[? ?] [? ?]]], C1 as [[? ?] [[? ?] [? ?]]]. unfold lo', hi' in *. destruct i as [|[|i]]; cbn [with_comp comp vx vy vz fst snd] in *; qlra.
Qed.
Lemma triangles_ok : forall ts, exists os, triangles ts = Ok os /\ map value os = ts /\ Forall tri_box os.
Proof.
  induction ts as [|t ts [os [E [M F]]]]; [exists []; auto|]. destruct (triangle_ok t) as [o [Eo [V B]]].
  exists (o :: os). cbn [triangles]. rewrite Eo, E. cbn. rewrite V, M. auto.
Qed.

(* ---- the search for one triangle ---- *)
(* a stack entry: every point of the segment in the box of the node lies in the box of the piece *)
Definition keeps (seg : v3 * v3) (x : tree * (v3 * v3)) : Prop :=
  wf (fst x) /\ forall r, 0 <= r -> r <= 1 -> in_box3 (seg_at seg r) (corners (node_box (fst x))) -> in_box3 (seg_at seg r) (aabb_segm3d (fst (snd x)) (snd (snd x))).
Definition ssize (st : list (tree * (v3 * v3))) : nat := fold_right (fun x n => size (fst x) + n)%nat 0%nat st.
(* what is tested at a leaf *)
Definition at_leaf (compound : bool) (seg : v3 * v3) (o : payload tri) : res (option v3) :=
  match segment_aabb_clip (corners (payload_box o)) seg with None => Ok None | Some cut => leaf_test compound o (fst cut) (snd cut) end.

Lemma clip_none_sub b c seg : made b -> made c -> plain3 (vsub (snd seg) (fst seg)) -> covers b c -> ~ crosses seg b -> segment_aabb_clip (corners c) seg = None.
Proof.
  intros Mb Mc Pl C N. pose proof (clip_exact (corners c) seg (made_proper _ Mc) Pl) as E. destruct (segment_aabb_clip (corners c) seg) as [cut|]; [|reflexivity].
  exfalso. apply N. destruct (proj2 (E (seg_at cut 0))) as [r [R0 [R1 [Er I]]]]; [exists 0; repeat split; qlra|]. exists r. rewrite <- Er. auto.
Qed.

Lemma one_loop_ok compound seg : plain3 (vsub (snd seg) (fst seg)) -> forall fuel st, (ssize st < fuel)%nat -> Forall (keeps seg) st ->
  Forall (fun o => exists r, at_leaf compound seg o = Ok r) (flat_map (fun x => leaves (fst x)) st) ->
  match one_loop fuel compound seg st with
  | Ok (Some (p, o)) => In o (flat_map (fun x => leaves (fst x)) st) /\ at_leaf compound seg o = Ok (Some p)
  | Ok None => Forall (fun o => at_leaf compound seg o = Ok None) (flat_map (fun x => leaves (fst x)) st)
  | Err _ => False
  end.
Proof.
  intros Pl. induction fuel as [|fuel IH]; intros st F W L; [lia|]. destruct st as [|[t cur] st]; [constructor|].
  inversion W as [|? ? [Wt Kt] Ws]; subst. cbn [fst snd] in *. cbn [one_loop flat_map fst]. cbn [flat_map fst] in L. cbn [ssize fold_right fst] in F. fold (ssize st) in F. pose proof (size_pos t) as St.
  pose proof (bounded_made _ (proj1 Wt)) as Mt.
  assert (N : ~ crosses seg (node_box t) -> match one_loop fuel compound seg st with
     | Ok (Some (p, o)) => In o (leaves t ++ flat_map (fun x => leaves (fst x)) st) /\ at_leaf compound seg o = Ok (Some p)
     | Ok None => Forall (fun o => at_leaf compound seg o = Ok None) (leaves t ++ flat_map (fun x => leaves (fst x)) st)
     | Err _ => False end).
  { intros X. apply Forall_app in L. specialize (IH st ltac:(lia) Ws (proj2 L)). destruct (one_loop fuel compound seg st) as [[[p o]|]|]; [|apply Forall_app; split; [|exact IH]|exact IH].
    - split; [apply in_or_app; right; apply IH|apply IH].
    - eapply Forall_impl; [|exact (leaves_covered _ (proj1 Wt) (proj2 Wt))]. intros q [Mq C]. unfold at_leaf. rewrite (clip_none_sub (node_box t)); auto. }
  rewrite (made_arr _ Mt). pose proof (clip_exact (corners (node_box t)) seg (made_proper _ Mt) Pl) as CE.
  destruct (aabb_intersect_3d (corners (node_box t)) (aabb_segm3d (fst cur) (snd cur))) eqn:E1; cbn [negb].
  2:{ apply N. intros [r [R0 [R1 I]]]. assert (X : aabb_intersect_3d (corners (node_box t)) (aabb_segm3d (fst cur) (snd cur)) = true); [|congruence].
      apply intersect_3d_exact; [apply made_proper, Mt|apply segm3d_tight|]. exists (seg_at seg r). split; [exact I|apply Kt; assumption]. }
  destruct (segment_aabb_clip (corners (node_box t)) seg) as [cut|] eqn:E2.
  2:{ apply N. intros [r [R0 [R1 I]]]. exact (CE r R0 R1 I). }
  clear N. destruct t as [b o|b x y].
  - cbn [leaves app] in *. inversion L as [|? ? [r Er] Ls]; subst. destruct Wt as [B K]. cbn in K. subst b. cbn [node_box] in *.
    assert (Al : at_leaf compound seg o = leaf_test compound o (fst cut) (snd cut)) by (unfold at_leaf; rewrite E2; reflexivity).
    rewrite <- Al, Er. cbn [bind]. destruct r as [p|].
    + split; [left; reflexivity|exact Er].
    + specialize (IH st ltac:(cbn in F; lia) Ws Ls). destruct (one_loop fuel compound seg st) as [[[p o']|]|]; [|constructor; assumption|exact IH].
      split; [right; apply IH|apply IH].
  - destruct (wf_node _ _ _ Wt) as [Wx Wy]. destruct (bounded_node _ _ _ (proj1 Wt)) as [_ [_ [Cx Cy]]]. cbn [node_box] in *.
    assert (Kc : forall r, 0 <= r -> r <= 1 -> in_box3 (seg_at seg r) (corners b) -> in_box3 (seg_at seg r) (aabb_segm3d (fst cut) (snd cut))).
    { intros r R0 R1 I. destruct (proj1 (CE (seg_at seg r))) as [u [U0 [U1 ->]]]; [exists r; auto|]. apply seg_in_box; assumption. }
    specialize (IH ((y, cut) :: (x, cut) :: st)). cbn [flat_map fst leaves] in IH, L |- *.
    assert (Pm : forall o, In o (leaves y ++ leaves x ++ flat_map (fun x0 => leaves (fst x0)) st) <-> In o ((leaves x ++ leaves y) ++ flat_map (fun x0 => leaves (fst x0)) st)) by (intros o; rewrite !in_app_iff; tauto).
    assert (G : match one_loop fuel compound seg ((y, cut) :: (x, cut) :: st) with
      | Ok (Some (p, o)) => In o (leaves y ++ leaves x ++ flat_map (fun x0 => leaves (fst x0)) st) /\ at_leaf compound seg o = Ok (Some p)
      | Ok None => Forall (fun o => at_leaf compound seg o = Ok None) (leaves y ++ leaves x ++ flat_map (fun x0 => leaves (fst x0)) st)
      | Err _ => False end).
    { apply IH.
      - cbn [ssize fold_right fst]. fold (ssize st). cbn [size] in F. lia.
      - constructor; [split; [exact Wy|]|constructor; [split; [exact Wx|]|exact Ws]]; cbn [fst snd]; intros r R0 R1 I; apply Kc; auto.
      - rewrite Forall_forall in *. intros o Ho. apply L, Pm, Ho. }
    destruct (one_loop fuel compound seg ((y, cut) :: (x, cut) :: st)) as [[[p o]|]|]; [|rewrite Forall_forall in *; intros o Ho; apply G, Pm, Ho|exact G].
    split; [apply Pm|]; apply G.
Qed.

(* leaves hold one object exactly when one is asked for *)
Lemma build_many {A} : forall fuel (l : list (obj A)) n t s, build_bvh fuel l n = Ok (t, s) -> n <> 1%Z -> Forall (fun p => exists b os, p = Many b os) (leaves t).
Proof.
  induction fuel as [|fuel IH]; intros l n t s E N; [discriminate|]. cbn [build_bvh] in E. replace (n =? 1)%Z with false in E by (symmetry; apply Z.eqb_neq; exact N).
  assert (E' : (if (Z.of_nat (length l) <=? n)%Z then do co <- compound l; Ok (BLeaf (payload_box co) co, l)
     else do (sorted, (lo, ro)) <- split_objects l; do (x, _) <- build_bvh fuel lo n; do (y, _) <- build_bvh fuel ro n; Ok (BNode (merge (node_box x) (node_box y)) x y, sorted)) = Ok (t, s)) by (destruct l as [|o [|? ?]]; exact E).
  clear E. destruct (Z.of_nat (length l) <=? n)%Z.
  - unfold compound in E'. destruct l as [|o l]; [discriminate|]. destruct (aabb 3 _ None) as [[lo hi]|]; [|discriminate]. cbn [bind] in E'.
    destruct (row3 lo); [|discriminate]. cbn [bind] in E'. destruct (row3 hi); [|discriminate]. cbn [bind] in E'. inversion E'; subst. cbn [leaves]. constructor; [eauto|constructor].
  - destruct (split_objects l) as [[so [lo ro]]|]; [|discriminate]. cbn [bind] in E'. destruct (build_bvh fuel lo n) as [[x sx]|] eqn:Ex; [|discriminate]. cbn [bind] in E'.
    destruct (build_bvh fuel ro n) as [[y sy]|] eqn:Ey; [|discriminate]. cbn [bind] in E'. inversion E'; subst. cbn [leaves]. apply Forall_app. split; eauto.
Qed.
Lemma leaf_kind {A} (t : bvh A) l n : built t l n -> Forall (fun p => if (1 <? n)%Z then exists b os, p = Many b os else exists o, p = One o) (leaves t).
Proof.
  intros H. destruct (1 <? n)%Z eqn:E.
  - destruct H as [_ [_ [_ [fuel [s B]]]]]. eapply build_many; [exact B|]. apply Z.ltb_lt in E. lia.
  - destruct (built_spec _ _ _ H) as [_ [_ [L _]]]. apply Z.ltb_ge in E. destruct H as [Hn _]. eapply Forall_impl; [|exact L]. intros p [_ K]. apply K. lia.
Qed.
Lemma kind_test t l n seg : built t l n -> Forall (fun o => exists r, at_leaf (1 <? n)%Z seg o = Ok r) (leaves t).
Proof.
  intros H. eapply Forall_impl; [|exact (leaf_kind _ _ _ H)]. intros p K. unfold at_leaf. destruct (segment_aabb_clip (corners (payload_box p)) seg) as [cut|]; [|eauto].
  cbv beta in K. destruct (1 <? n)%Z; [destruct K as [b [os ->]]|destruct K as [o ->]]; cbn [leaf_test]; eauto.
Qed.
Lemma mesh_one_ok t l n seg : built t l n -> plain3 (vsub (snd seg) (fst seg)) -> exists k, forall fuel, (k < fuel)%nat ->
  match mesh_segment_one fuel t n seg with
  | Ok (Some (p, o)) => In o (leaves t) /\ at_leaf (1 <? n)%Z seg o = Ok (Some p)
  | Ok None => Forall (fun o => at_leaf (1 <? n)%Z seg o = Ok None) (leaves t)
  | Err _ => False end.
Proof.
  intros H Pl. exists (size t). intros fuel F. unfold mesh_segment_one.
  pose proof (one_loop_ok (1 <? n)%Z seg Pl fuel [(t, seg)]) as G. cbn [flat_map fst ssize fold_right] in G. rewrite app_nil_r, Nat.add_0_r in G. apply G; [exact F| |exact (kind_test _ _ _ _ H)].
  constructor; [split; [exact (built_wf _ _ _ H)|]|constructor]. cbn [fst snd]. intros r R0 R1 _. apply seg_in_box; assumption.
Qed.

Lemma clip_form b s c : proper3 b -> plain3 (vsub (snd s) (fst s)) -> segment_aabb_clip b s = Some c ->
  exists t0 t1, 0 <= t0 /\ t0 <= t1 /\ t1 <= 1 /\ c = (seg_at s t0, seg_at s t1) /\ forall t, (t0 <= t /\ t <= t1) <-> (0 <= t /\ t <= 1) /\ in_box3 (seg_at s t) b.
Proof.
  intros P Pl E. unfold segment_aabb_clip in E. pose proof (segment_exact b s P Pl) as X. destruct (segment_aabb_intersect b s) as [[t0 t1]|]; [|discriminate].
  destruct X as [A [B [C D]]]. exists t0, t1. injection E as <-. rewrite !at_param_seg. auto.
Qed.
Lemma span_sub t s t0 t1 : span6 t (seg_at s t0) (seg_at s t1) = (t1 - t0) * span6 t (fst s) (snd s).
Proof. destruct t as [[[[a b] c] [[d e] f]] [[g h] i]], s as [[[x y] z] [[x' y'] z']]. unfold span6, seg_at, vsub, vx, vy, vz. cbn [fst snd]. ring. Qed.
Lemma big_more x k m : 0 <= k -> k <= m -> big (k * x) -> big (m * x).
Proof.
  unfold big. pose proof eps8_pos as E0. intros K M [B|B]; [left|right].
  - destruct (Qclt_le_dec 0 x) as [H|H]; [assert (0 <= (m - k) * x) by (apply qc_mul_nonneg; qlra); qnra|].
    assert (0 <= k * (- x)) by (apply qc_mul_nonneg; qlra). exfalso. qnra.
  - destruct (Qclt_le_dec x 0) as [H|H]; [assert (0 <= (m - k) * (- x)) by (apply qc_mul_nonneg; qlra); qnra|].
    assert (0 <= k * x) by (apply qc_mul_nonneg; qlra). exfalso. qnra.
Qed.
Lemma big_clip b s c t : made b -> plain3 (vsub (snd s) (fst s)) -> segment_aabb_clip (corners b) s = Some c -> big_in b t s -> big (span6 t (fst c) (snd c)).
Proof.
  intros M Pl E [u0 [u1 [U0 [U1 [U2 [I0 [I1 B]]]]]]]. destruct (clip_form _ _ _ (made_proper _ M) Pl E) as [t0 [t1 [T0 [T1 [T2 [-> D]]]]]]. cbn [fst snd].
  rewrite span_sub in *. destruct (proj2 (D u0)) as [X0 X1]; [split; [split; qlra|exact I0]|]. destruct (proj2 (D u1)) as [Y0 Y1]; [split; [split; qlra|exact I1]|].
  apply (big_more _ (u1 - u0)); [qlra|qlra|exact B].
Qed.
Lemma big_in_covers a b t s : covers a b -> big_in b t s -> big_in a t s.
Proof. intros C [u0 [u1 [U0 [U1 [U2 [I0 [I1 B]]]]]]]. exists u0, u1. auto 10. Qed.

(* an answer, seen from the whole segment *)
Lemma hit_sound b s c t p : made b -> plain3 (vsub (snd s) (fst s)) -> segment_aabb_clip (corners b) s = Some c -> tri_segment t (fst c) (snd c) = Some p ->
  near_tri eps8 t p /\ exists r, - eps8 <= r /\ r <= 1 + eps8 /\ p = seg_at s r.
Proof.
  intros M Pl E H. destruct (clip_form _ _ _ (made_proper _ M) Pl E) as [t0 [t1 [T0 [T1 [T2 [-> _]]]]]]. cbn [fst snd] in H.
  apply tri_sound in H. destruct H as [[r [R0 [R1 ->]]] [N _]]. split; [exact N|]. exists ((1 - r) * t0 + r * t1). rewrite seg_sub. pose proof eps8_pos as E0.
  assert (0 <= (r + eps8) * (t1 - t0)) by (apply qc_mul_nonneg; qlra). assert (0 <= (1 + eps8 - r) * (t1 - t0)) by (apply qc_mul_nonneg; qlra).
  assert (0 <= eps8 * (1 - (t1 - t0))) by (apply qc_mul_nonneg; qlra). repeat split; qnra.
Qed.
Lemma hit_found b s c t r : made b -> plain3 (vsub (snd s) (fst s)) -> segment_aabb_clip (corners b) s = Some c -> big_in b t s ->
  0 <= r -> r <= 1 -> in_tri t (seg_at s r) -> in_box3 (seg_at s r) (corners b) -> tri_segment t (fst c) (snd c) = Some (seg_at s r).
Proof.
  intros M Pl E B R0 R1 [u [w [U [W [S Eq]]]]] I. pose proof (big_clip _ _ _ _ M Pl E B) as Bc. pose proof (clip_exact (corners b) s (made_proper _ M) Pl) as X. rewrite E in X.
  destruct (proj1 (X (seg_at s r))) as [v [V0 [V1 Ev]]]; [exists r; auto|]. rewrite Ev. rewrite Ev in Eq. pose proof eps8_pos as E0. destruct c as [c0 c1]. cbn [fst snd] in *.
  apply (tri_found t c0 c1 v u w); try assumption; qlra.
Qed.
Lemma clip_some b s r : made b -> plain3 (vsub (snd s) (fst s)) -> 0 <= r -> r <= 1 -> in_box3 (seg_at s r) (corners b) -> exists c, segment_aabb_clip (corners b) s = Some c.
Proof.
  intros M Pl R0 R1 I. pose proof (clip_exact (corners b) s (made_proper _ M) Pl) as X. destruct (segment_aabb_clip (corners b) s) as [c|]; [eauto|]. exfalso. exact (X r R0 R1 I).
Qed.

Lemma in_leaf_of {A} (t : bvh A) l n x : built t l n -> In x l -> exists o, In o (leaves t) /\ In x (held o) /\ made (payload_box o) /\ covers (payload_box o) (obox x) /\ covers (node_box t) (payload_box o).
Proof.
  intros H I. destruct (built_spec _ _ _ H) as [P [B [_ K]]]. apply (Permutation_in _ (Permutation_sym P)) in I. unfold below in I. apply in_flat_map in I. destruct I as [o [Io Ix]].
  pose proof (leaves_covered _ B K) as C. rewrite Forall_forall in C. destruct (C o Io) as [M Cv]. exists o. split; [exact Io|]. split; [exact Ix|]. split; [exact M|]. split; [|exact Cv].
  (* the leaf node of o is bounded *)
  clear - B K Io Ix. induction t as [b p|b x' IHx y IHy].
  - cbn in Io. destruct Io as [<- | []]. cbn in K. subst b. pose proof (bounded_root _ B) as [_ [F _]]. cbn [node_box] in F. unfold below in F. cbn [leaves flat_map] in F. rewrite app_nil_r, Forall_forall in F. auto.
  - destruct (bounded_node _ _ _ B) as [Bx [By _]]. cbn in K, Io. apply in_app_or in Io. destruct Io; [apply IHx|apply IHy]; tauto.
Qed.

(* every answer is a point of the segment and of a triangle, up to 1e-8 *)
Lemma mesh_one_sound t l n seg : built t l n -> plain3 (vsub (snd seg) (fst seg)) -> exists k, forall fuel, (k < fuel)%nat ->
  exists a, mesh_segment_one fuel t n seg = Ok a /\ forall p o, a = Some (p, o) ->
    exists x, In x (held o) /\ In x l /\ near_tri eps8 (value x) p /\ exists r, - eps8 <= r /\ r <= 1 + eps8 /\ p = seg_at seg r.
Proof.
  intros H Pl. destruct (mesh_one_ok _ _ _ _ H Pl) as [k G]. exists k. intros fuel F. specialize (G fuel F). destruct (mesh_segment_one fuel t n seg) as [a|]; [|contradiction].
  exists a. split; [reflexivity|]. intros p o ->. destruct G as [Io A]. destruct (built_spec _ _ _ H) as [P [B [_ K]]].
  pose proof (leaves_covered _ B K) as C. rewrite Forall_forall in C. destruct (C o Io) as [M _]. unfold at_leaf in A. destruct (segment_aabb_clip (corners (payload_box o)) seg) as [c|] eqn:E; [|discriminate].
  assert (Q : exists x, In x (held o) /\ tri_segment (value x) (fst c) (snd c) = Some p).
  { destruct o as [x|b os], (1 <? n)%Z; cbn [leaf_test] in A; try discriminate; injection A as A.
    - exists x. split; [left; reflexivity|exact A].
    - pose proof (one_ok (fst c) (snd c) (map value os)) as X. destruct (intersect_triangles_segment_one (map value os) (fst c) (snd c)) as [[q|] f]; cbn [fst] in A; [|discriminate]. injection A as ->.
      destruct X as [_ [l1 [y [l2 [Em [_ Ey]]]]]]. assert (Iy : In y (map value os)) by (rewrite Em; apply in_or_app; right; left; reflexivity).
      apply in_map_iff in Iy. destruct Iy as [x [<- Ix]]. exists x. auto. }
  destruct Q as [x [Ix Ex]]. exists x. split; [exact Ix|]. split; [apply (Permutation_in _ P); unfold below; apply in_flat_map; eauto|]. exact (hit_sound _ _ _ _ _ M Pl E Ex).
Qed.
(* a triangle that is met is not overlooked *)
Lemma mesh_one_complete ts t l n seg : triangles ts = Ok l -> built t l n -> plain3 (vsub (snd seg) (fst seg)) -> exists k, forall fuel, (k < fuel)%nat ->
  (exists x r, In x l /\ 0 <= r /\ r <= 1 /\ in_tri (value x) (seg_at seg r) /\ big_in (obox x) (value x) seg) ->
  exists p o, mesh_segment_one fuel t n seg = Ok (Some (p, o)).
Proof.
  intros Ht H Pl. destruct (mesh_one_ok _ _ _ _ H Pl) as [k G]. exists k. intros fuel F [x [r [Ix [R0 [R1 [T B]]]]]]. specialize (G fuel F).
  destruct (mesh_segment_one fuel t n seg) as [[[p o]|]|]; [eauto| |contradiction]. exfalso.
  destruct (in_leaf_of _ _ _ _ H Ix) as [o [Io [Ho [M [C _]]]]]. rewrite Forall_forall in G. specialize (G o Io). unfold at_leaf in G.
  destruct (triangles_ok ts) as [l' [Et [_ Bx]]]. rewrite Ht in Et. injection Et as <-. rewrite Forall_forall in Bx. destruct (Bx x Ix) as [_ [Cx _]].
  pose proof (C _ (Cx _ T)) as I. destruct (clip_some _ _ _ M Pl R0 R1 I) as [c E]. rewrite E in G.
  pose proof (hit_found _ _ _ _ _ M Pl E (big_in_covers _ _ _ _ C B) R0 R1 T I) as X.
  destruct o as [y|b os], (1 <? n)%Z; cbn [leaf_test] in G; try discriminate; injection G as G.
  - destruct Ho as [-> | []]. congruence.
  - pose proof (one_ok (fst c) (snd c) (map value os)) as Y. destruct (intersect_triangles_segment_one (map value os) (fst c) (snd c)) as [[q|] f]; cbn [fst] in G; [discriminate|].
    destruct Y as [_ Y]. rewrite Forall_forall in Y. rewrite Y in X; [discriminate|]. apply in_map. exact Ho.
Qed.
(* clipping to a flat box leaves no room *)
Lemma span_flat i t s e : (i < 3)%nat -> flat_along i t -> comp s i = comp e i -> span6 t s e = 0.
Proof.
  destruct t as [[[[a b] c] [[d f] g]] [[h j] k]], s as [[x y] z], e as [[x' y'] z']. intros Hi [F1 F2] E. unfold span6, vsub, vx, vy, vz. cbn [fst snd].
  destruct i as [|[|[|]]]; try lia; cbn [comp vx vy vz fst snd] in *; unfold vx, vy, vz in *; cbn [fst snd] in *; subst; ring.
Qed.
Lemma flat_none b seg c t i : made b -> plain3 (vsub (snd seg) (fst seg)) -> (i < 3)%nat -> comp (bmin b) i = comp (bmax b) i -> flat_along i t ->
  segment_aabb_clip (corners b) seg = Some c -> tri_segment t (fst c) (snd c) = None.
Proof.
  intros M Pl Hi Fb Ft E. pose proof (clip_exact (corners b) seg (made_proper _ M) Pl) as X. rewrite E in X.
  assert (Q : forall u, 0 <= u -> u <= 1 -> comp (seg_at c u) i = comp (bmin b) i).
  { intros u U0 U1. destruct (proj2 (X (seg_at c u))) as [r [_ [_ [_ I]]]]; [exists u; auto|]. destruct I as [[? ?] [[? ?] [? ?]]]. unfold corners in *. cbn [fst snd] in *. destruct i as [|[|]]; cbn [comp] in *; qlra. }
  assert (S0 : seg_at c 0 = fst c) by (destruct c as [[[x y] z] [[x' y'] z']]; unfold seg_at, vx, vy, vz; cbn [fst snd]; apply p3_eq; ring).
  assert (S1 : seg_at c 1 = snd c) by (destruct c as [[[x y] z] [[x' y'] z']]; unfold seg_at, vx, vy, vz; cbn [fst snd]; apply p3_eq; ring).
  assert (Z0 : span6 t (fst c) (snd c) = 0). { apply (span_flat i); auto. rewrite <- S0, <- S1. rewrite !Q by qlra. reflexivity. }
  pose proof eps8_pos as E0. apply tri_small; rewrite Z0; qlra.
Qed.
Lemma mesh_one_flat ts t l seg : triangles ts = Ok l -> Forall axis_flat ts -> built t l 1 -> plain3 (vsub (snd seg) (fst seg)) -> exists k, forall fuel, (k < fuel)%nat ->
  mesh_segment_one fuel t 1 seg = Ok None.
Proof.
  intros Ht Fl H Pl. destruct (mesh_one_ok _ _ _ _ H Pl) as [k G]. exists k. intros fuel F. specialize (G fuel F).
  destruct (mesh_segment_one fuel t 1 seg) as [[[p o]|]|]; [|reflexivity|contradiction]. exfalso. destruct G as [Io A].
  destruct (built_spec _ _ _ H) as [P [_ [L _]]]. rewrite Forall_forall in L. destruct (L o Io) as [_ K]. destruct (K eq_refl) as [x ->].
  assert (Ix : In x l) by (apply (Permutation_in _ P); unfold below; apply in_flat_map; exists (One x); split; [exact Io|left; reflexivity]).
  destruct (triangles_ok ts) as [l' [Et [Ev Bx]]]. rewrite Ht in Et. injection Et as <-. rewrite Forall_forall in Bx, Fl. destruct (Bx x Ix) as [M [_ Fx]].
  destruct (Fl (value x)) as [i [Hi Fi]]; [rewrite <- Ev; now apply in_map|]. unfold at_leaf in A. cbn [payload_box] in A. destruct (segment_aabb_clip (corners (obox x)) seg) as [c|] eqn:E; [|discriminate].
  cbn [leaf_test Z.ltb Z.compare Pos.compare Pos.compare_cont] in A. rewrite (flat_none _ _ _ _ i M Pl Hi (Fx i Fi) Fi E) in A. discriminate.
Qed.
