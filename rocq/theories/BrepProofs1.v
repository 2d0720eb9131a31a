(* Proofs for the containers of the boundary representation. *)
From Coq Require Import List ZArith Bool QArith Qround Qcanon Lia Lqa Permutation.
From Verif Require Import Common QcLib ArrZ NurbsModel NurbsSpec SurfModel SurfSpec BrepModel BrepSpec.
Import ListNotations.
Local Open Scope Z_scope.
Local Open Scope Qc_scope.

Lemma rep_eq_code h a b : rep_eq h a b = true <-> code h a = code h b.
Proof. unfold rep_eq, code. apply Z.eqb_eq. Qed.
Lemma first_eq_some h r l x : first_eq h r l = Some x -> In x l /\ code h x = code h r.
Proof. unfold first_eq. intro F. apply find_some in F. destruct F as [A B]. split; auto. now apply rep_eq_code. Qed.
Lemma first_eq_none h r l : first_eq h r l = None -> forall x, In x l -> code h x <> code h r.
Proof. unfold first_eq. intros F x I E. pose proof (find_none _ _ F x I) as N. apply rep_eq_code in E. simpl in N. congruence. Qed.

Lemma add_to_spec h l g c : let '(m, r) := add_to h l g c in
  (exists t, m = l ++ t) /\ In r m /\ code h r = code h (mkrep 0 g) /\
  (m = l ++ [mkrep (lenZ l) g] /\ r = mkrep (lenZ l) g \/ m = l /\ c = true) /\
  (c = true -> NoDup (map (code h) l) -> NoDup (map (code h) m)) /\
  (c = false -> r = mkrep (lenZ l) g).
Proof.
  unfold add_to. destruct c.
  - destruct (first_eq h (mkrep (lenZ l) g) l) as [x|] eqn:F.
    + destruct (first_eq_some _ _ _ _ F) as [A B]. split; [exists []; now rewrite app_nil_r|]. split; auto. split; [exact B|].
      split; auto. split; [auto|discriminate].
    + split; [eauto|]. split; [apply in_or_app; simpl; auto|]. split; [reflexivity|]. split; [auto|]. split; [|discriminate].
      intros _ N. rewrite map_app. cbn [map]. apply (Permutation_NoDup (Permutation_cons_append _ _)). constructor; auto.
      intro I. apply in_map_iff in I. destruct I as [x [E I]]. exact (first_eq_none _ _ _ F x I E).
  - split; [eauto|]. split; [apply in_or_app; simpl; auto|]. split; [reflexivity|]. split; [auto|]. split; [discriminate|auto].
Qed.

Lemma add_spec h s g c : let '(s', r) := add h s g c in
  (forall k, exists t, bucket s' k = bucket s k ++ t) /\ In r (bucket s' (kind_of g)) /\ code h r = code h (mkrep 0 g) /\
  (forall k, bucket s' k = bucket s k \/ k = kind_of g /\ bucket s' k = bucket s k ++ [mkrep (lenZ (bucket s k)) g]) /\
  (c = true -> forall k, NoDup (map (code h) (bucket s k)) -> NoDup (map (code h) (bucket s' k))) /\
  (c = false -> r = mkrep (lenZ (bucket s (kind_of g))) g).
Proof.
  destruct g as [p|cv|sf]; cbn [add kind_of];
  [pose proof (add_to_spec h (st_points s) (GPoint p) c) as A; destruct (add_to h (st_points s) (GPoint p) c) as [m r]
  |pose proof (add_to_spec h (st_curves s) (GCurve cv) c) as A; destruct (add_to h (st_curves s) (GCurve cv) c) as [m r]
  |pose proof (add_to_spec h (st_surfs s) (GSurf sf) c) as A; destruct (add_to h (st_surfs s) (GSurf sf) c) as [m r]];
  destruct A as [A1 [A2 [A3 [A4 [A5 A6]]]]]; (split; [|split; [|split; [|split; [|split]]]]);
  try (intros [| |]; cbn [bucket st_points st_curves st_surfs]; auto; exists []; now rewrite app_nil_r);
  cbn [bucket st_points st_curves st_surfs]; auto;
  try (intros [| |]; cbn [bucket st_points st_curves st_surfs]; auto; destruct A4 as [[A4 _]|[A4 _]]; auto);
  try (intros E [| |] N; cbn [bucket st_points st_curves st_surfs] in *; auto).
Qed.

Lemma add_positions h s g c : positions_right s -> positions_right (fst (add h s g c)).
Proof.
  intro P. pose proof (add_spec h s g c) as A. destruct (add h s g c) as [s' r]. destruct A as [_ [_ [_ [A _]]]]. cbn [fst].
  intros k i x E. destruct (A k) as [B|[K B]]; rewrite B in E; [now apply P|].
  destruct (Nat.lt_ge_cases i (length (bucket s k))) as [L|L].
  - rewrite nth_error_app1 in E by auto. now apply P.
  - rewrite nth_error_app2 in E by auto. destruct (i - length (bucket s k))%nat as [|j] eqn:J.
    + injection E as E. subst x. cbn [r_index r_value]. split; [unfold lenZ; lia|auto].
    + cbn in E. destruct j; discriminate.
Qed.

Lemma adds_cons h s g c r : adds h s ((g, c) :: r) =
  (fst (adds h (fst (add h s g c)) r), snd (add h s g c) :: snd (adds h (fst (add h s g c)) r)).
Proof. cbn [adds]. destruct (add h s g c) as [s1 x]. cbn [fst snd]. destruct (adds h s1 r). reflexivity. Qed.

Lemma adds_positions h ops : forall s, positions_right s -> positions_right (fst (adds h s ops)).
Proof. induction ops as [|[g c] r IH]; intros s P; auto. rewrite adds_cons. cbn [fst]. apply IH. now apply add_positions. Qed.
Lemma empty_positions : positions_right empty_store.
Proof. intros [| |] [|i] r; discriminate. Qed.
Lemma adds_grow h ops : forall s k, exists t, bucket (fst (adds h s ops)) k = bucket s k ++ t.
Proof.
  induction ops as [|[g c] r IH]; intros s k. { exists []. now rewrite app_nil_r. }
  rewrite adds_cons. cbn [fst]. pose proof (add_spec h s g c) as A. destruct (add h s g c) as [s1 x]. cbn [fst]. destruct A as [A _].
  destruct (A k) as [t E]. destruct (IH s1 k) as [t' E']. exists (t ++ t'). now rewrite E', E, app_assoc.
Qed.
Lemma adds_length h ops : forall s, length (snd (adds h s ops)) = length ops.
Proof. induction ops as [|[g c] r IH]; intro s; auto. rewrite adds_cons. cbn. now rewrite IH. Qed.

Lemma adds_results h ops : forall s, positions_right s -> forall n g c r,
  nth_error ops n = Some (g, c) -> nth_error (snd (adds h s ops)) n = Some r ->
  nth_error (bucket (fst (adds h s ops)) (kind_of g)) (Z.to_nat (r_index r)) = Some r /\ (0 <= r_index r)%Z /\
  code h r = code h (mkrep 0 g) /\ (c = false -> r_value r = g).
Proof.
  induction ops as [|[g0 c0] rest IH]; intros s P n g c r E1 E2; [destruct n; discriminate|].
  rewrite adds_cons in E2 |- *. cbn [fst snd] in *.
  pose proof (add_positions h s g0 c0 P) as P1. destruct n as [|n].
  - cbn in E1, E2. injection E1 as -> ->. injection E2 as E2. subst r.
    pose proof (adds_grow h rest (fst (add h s g c)) (kind_of g)) as [t G].
    pose proof (add_spec h s g c) as A. destruct (add h s g c) as [s1 x]. cbn [fst snd] in *. destruct A as [_ [A2 [A3 [_ [_ A6]]]]].
    apply In_nth_error in A2. destruct A2 as [i A2]. destruct (P1 _ _ _ A2) as [X _].
    rewrite G. rewrite X, Nat2Z.id. split. { rewrite nth_error_app1; auto. apply nth_error_Some. congruence. }
    split; [lia|]. split; auto. intro F. rewrite (A6 F). reflexivity.
  - cbn in E1, E2. exact (IH _ P1 n g c r E1 E2).
Qed.

Lemma store_positions h ops : let '(s, rs) := adds h empty_store ops in
  positions_right s /\ length rs = length ops /\
  forall n g c r, nth_error ops n = Some (g, c) -> nth_error rs n = Some r ->
    nth_error (bucket s (kind_of g)) (Z.to_nat (r_index r)) = Some r /\ (0 <= r_index r)%Z /\
    code h r = code h (mkrep 0 g) /\ (c = false -> r_value r = g).
Proof.
  pose proof (adds_positions h ops _ empty_positions) as A. pose proof (adds_length h ops empty_store) as B.
  pose proof (adds_results h ops _ empty_positions) as C. destruct (adds h empty_store ops) as [s rs]. auto.
Qed.

Lemma adds_nodup h ops : (forall g c, In (g, c) ops -> c = true) -> forall s k,
  NoDup (map (code h) (bucket s k)) -> NoDup (map (code h) (bucket (fst (adds h s ops)) k)).
Proof.
  induction ops as [|[g c] r IH]; intros C s k N; auto. rewrite adds_cons. cbn [fst]. apply IH. { intros; eapply C; right; eauto. }
  pose proof (add_spec h s g c) as A. destruct (add h s g c) as [s1 x]. destruct A as [_ [_ [_ [_ [A _]]]]]. apply A; auto.
  apply (C g c). now left.
Qed.
(* with checks: entries with equal contents are one entry *)
Lemma store_merged h ops s rs : adds h empty_store ops = (s, rs) -> (forall g c, In (g, c) ops -> c = true) ->
  forall k i j a b, nth_error (bucket s k) i = Some a -> nth_error (bucket s k) j = Some b -> code h a = code h b -> i = j.
Proof.
  intros E C k i j a b A B K. pose proof (adds_nodup h ops C empty_store k) as N. rewrite E in N. cbn [fst] in N.
  assert (N1 : NoDup (map (code h) (bucket s k))) by (apply N; destruct k; constructor).
  rewrite NoDup_nth_error in N1. apply N1.
  - rewrite map_length. apply nth_error_Some. congruence.
  - rewrite !nth_error_map, A, B. cbn. now rewrite K.
Qed.

(* ---- rounding ---- *)
Lemma rint_near x : Q2Qc (inject_Z (rint x)) - 1 / (1 + 1) <= x <= Q2Qc (inject_Z (rint x)) + 1 / (1 + 1).
Proof.
  assert (F : Q2Qc (inject_Z (Qfloor (this x))) <= x /\ x < Q2Qc (inject_Z (Qfloor (this x))) + 1).
  { split.
    - unfold Qcle. eapply Qle_trans; [|apply Qfloor_le]. apply Qle_lteq. right. apply Qred_correct.
    - unfold Qclt. eapply Qlt_le_trans; [apply Qlt_floor|]. apply Qle_lteq. right. symmetry. eapply Qeq_trans; [apply Qred_correct|].
      rewrite inject_Z_plus. apply Qplus_comp; [apply Qred_correct|reflexivity]. }
  assert (S1 : Q2Qc (inject_Z (Qfloor (this x) + 1)) = Q2Qc (inject_Z (Qfloor (this x))) + 1).
  { apply Qc_is_canon. eapply Qeq_trans; [apply Qred_correct|]. symmetry. eapply Qeq_trans; [apply Qred_correct|].
    rewrite inject_Z_plus. apply Qplus_comp; [apply Qred_correct|reflexivity]. }
  assert (H2 : (1 / (1 + 1) : Qc) + 1 / (1 + 1) = 1) by (apply Qc_is_canon; reflexivity).
  destruct F as [F1 F2]. unfold rint. set (half := (1 / (1 + 1) : Qc)) in *. destruct (qlt (x - _) half) eqn:A; [apply qlt_true in A|apply qlt_false in A].
  - split; qlra.
  - destruct (qlt half _) eqn:B; [apply qlt_true in B|apply qlt_false in B].
    + rewrite S1. split; qlra.
    + destruct (Z.even _); [|rewrite S1]; split; qlra.
Qed.
Lemma ten8_pos : 0 < ten8. Proof. reflexivity. Qed.
Lemma grid8_eq : grid8 * ten8 = 1. Proof. apply Qc_is_canon; reflexivity. Qed.

Lemma round_near x y : fst (round8 x) = fst (round8 y) -> gap x y <= grid8.
Proof.
  unfold round8. cbn [fst]. intro E. pose proof (rint_near (x * ten8)) as [A1 A2]. pose proof (rint_near (y * ten8)) as [B1 B2].
  rewrite E in A1, A2. assert (H2 : (1 / (1 + 1) : Qc) + 1 / (1 + 1) = 1) by (apply Qc_is_canon; reflexivity).
  set (half := (1 / (1 + 1) : Qc)) in *. pose proof ten8_pos as T. pose proof grid8_eq as G.
  assert (L : gap x y * ten8 <= grid8 * ten8).
  { rewrite G. unfold gap. destruct (qlt x y); qlra. }
  destruct (qle (gap x y) grid8) eqn:X; [now apply qle_true|]. apply qle_false in X.
  exfalso. apply (Qclt_not_le (grid8 * ten8) (gap x y * ten8)); auto. apply Qcmult_lt_compat_r; auto.
Qed.
Lemma merged_near p q : map round8 p = map round8 q -> near grid8 p q.
Proof.
  revert q. induction p as [|x p IH]; intros [|y q] E; try discriminate; [constructor|].
  cbn [map] in E. assert (E1 : round8 x = round8 y) by congruence. assert (E2 : map round8 p = map round8 q) by congruence.
  constructor; [apply round_near; congruence|now apply IH].
Qed.

(* two points added one after the other, with checks, share an entry exactly when their rounded coordinates agree *)
Lemma merge_iff h p q : no_clash h (GPoint p) (GPoint q) ->
  (exists r, snd (adds h empty_store [(GPoint p, true); (GPoint q, true)]) = [r; r]) <-> map round8 p = map round8 q.
Proof.
  intro J. unfold adds. cbn [add st_points empty_store]. unfold add_to at 1. cbn [first_eq find app].
  cbn [add st_points st_curves st_surfs]. unfold add_to. unfold first_eq. cbn [find]. unfold rep_eq. cbn [r_value key_of].
  destruct (Z.eqb _ _) eqn:E.
  - apply Z.eqb_eq in E. apply J in E. injection E as E. cbn. split; eauto.
  - apply Z.eqb_neq in E. cbn. split.
    + intros [r R]. injection R as R1 R2. rewrite <- R1 in R2. discriminate (f_equal r_index R2).
    + intro X. exfalso. apply E. now rewrite X.
Qed.

Lemma rint_zero x : - (1 / (1 + 1)) < x -> x <= 0 -> rint x = 0%Z.
Proof.
  intros A B. pose proof (rint_near x) as [L U].
  assert (Z1 : Q2Qc (inject_Z (rint x)) < 1). { assert (H2 : (1 / (1 + 1) : Qc) < 1) by reflexivity. set (half := (1 / (1 + 1) : Qc)) in *. qlra. }
  assert (Z0 : - (1) < Q2Qc (inject_Z (rint x))).
  { assert (H2 : (1 / (1 + 1) : Qc) + 1 / (1 + 1) = 1) by (apply Qc_is_canon; reflexivity). set (half := (1 / (1 + 1) : Qc)) in *. qlra. }
  assert (Y1 : (inject_Z (rint x) < 1)%Q) by (eapply Qle_lt_trans; [|exact Z1]; apply Qle_lteq; right; symmetry; apply Qred_correct).
  assert (Y0 : (inject_Z (-1) < inject_Z (rint x))%Q) by (eapply Qlt_le_trans; [exact Z0|]; apply Qle_lteq; right; apply Qred_correct).
  unfold Qlt in Y0, Y1. cbn in Y0, Y1. lia.
Qed.
(* a point just below zero and the point zero are never one vertex *)
Lemma negative_zero h x : no_clash h (GPoint [x; x; x]) (GPoint [0; 0; 0]) -> - (grid8 / (1 + 1)) < x -> x < 0 ->
  ~ exists r, snd (adds h empty_store [(GPoint [x; x; x], true); (GPoint [0; 0; 0], true)]) = [r; r].
Proof.
  intros J A B E. apply (merge_iff h _ _ J) in E. cbn [map] in E. assert (E1 : round8 x = round8 0) by congruence.
  unfold round8 in E1. assert (R : rint (x * ten8) = 0%Z).
  { apply rint_zero. 2:{ pose proof ten8_pos. qnra. }
    assert (G : - (1 / (1 + 1)) = - (grid8 / (1 + 1)) * ten8) by (apply Qc_is_canon; reflexivity). rewrite G.
    apply Qcmult_lt_compat_r; [apply ten8_pos|auto]. }
  rewrite R in E1. cbn [Z.eqb andb] in E1. assert (Q : qlt x 0 = true) by now apply qlt_true. rewrite Q in E1.
  assert (R0 : rint (0 * ten8) = 0%Z) by reflexivity. rewrite R0 in E1. discriminate E1.
Qed.
Lemma close_not_merged eps : 0 < eps -> exists x, 0 < - x /\ - x < eps /\
  forall h, no_clash h (GPoint [x; x; x]) (GPoint [0; 0; 0]) ->
  ~ exists r, snd (adds h empty_store [(GPoint [x; x; x], true); (GPoint [0; 0; 0], true)]) = [r; r].
Proof.
  intro E. set (m := if qlt eps grid8 then eps else grid8).
  assert (M : 0 < m /\ m <= eps /\ m <= grid8).
  { unfold m. destruct (qlt eps grid8) eqn:X; [apply qlt_true in X|apply qlt_false in X]; repeat split; try qlra; try reflexivity. }
  destruct M as [M0 [M1 M2]]. exists (- (m / (1 + 1 + 1))).
  assert (T : m / (1 + 1 + 1) * (1 + 1 + 1) = m) by (field; intro X; discriminate X).
  assert (T2 : grid8 / (1 + 1) * (1 + 1) = grid8) by (field; intro X; discriminate X).
  set (t := m / (1 + 1 + 1)) in *. set (g := grid8 / (1 + 1)) in *.
  split; [qlra|]. split; [qlra|]. intros h J. apply negative_zero; auto; fold g; qlra.
Qed.

(* ---- vertices ---- *)
Lemma add_vertex_spec h vs r c : let '(vs', v) := add_vertex h vs r c in
  (exists t, vs' = vs ++ t) /\ In v vs' /\ code h (v_rep v) = code h r /\
  (c = true -> NoDup (map (fun v => code h (v_rep v)) vs) -> NoDup (map (fun v => code h (v_rep v)) vs')) /\
  (c = false -> v_rep v = r /\ vs' = vs ++ [v]).
Proof.
  unfold add_vertex. destruct c.
  - destruct (find _ vs) as [v|] eqn:F.
    + apply find_some in F. destruct F as [A B]. apply rep_eq_code in B. split; [exists []; now rewrite app_nil_r|]. split; auto. split; auto. split; [auto|discriminate].
    + split; [eauto|]. split; [apply in_or_app; simpl; auto|]. split; auto. split; [|discriminate]. intros _ N.
      rewrite map_app. cbn [map]. apply (Permutation_NoDup (Permutation_cons_append _ _)). constructor; auto.
      intro I. apply in_map_iff in I. destruct I as [x [E I]]. pose proof (find_none _ _ F x I) as X. cbn in X.
      change (code h (v_rep x) = code h r) in E. apply rep_eq_code in E. congruence.
  - split; [eauto|]. split; [apply in_or_app; simpl; auto|]. split; auto. split; [discriminate|auto].
Qed.
Lemma add_vertices_spec h rs : forall vs, NoDup (map (fun v => code h (v_rep v)) vs) ->
  let '(vs', xs) := add_vertices h vs rs in
  NoDup (map (fun v => code h (v_rep v)) vs') /\ (exists t, vs' = vs ++ t) /\ (forall v, In v xs -> In v vs') /\
  Forall2 (fun r v => code h (v_rep v) = code h r) rs xs.
Proof.
  induction rs as [|r rs IH]; intros vs N; cbn [add_vertices].
  - split; auto. split; [exists []; now rewrite app_nil_r|]. split; [contradiction|constructor].
  - pose proof (add_vertex_spec h vs r true) as A. destruct (add_vertex h vs r true) as [v1 x]. destruct A as [[t A1] [A2 [A3 [A4 _]]]].
    specialize (IH v1 (A4 eq_refl N)). destruct (add_vertices h v1 rs) as [v2 xs]. destruct IH as [B1 [[t' B2] [B3 B4]]].
    split; auto. split; [exists (t ++ t'); now rewrite B2, A1, app_assoc|]. split; [|constructor; auto].
    intros v [<-|I]; auto. rewrite B2. apply in_or_app. auto.
Qed.

(* ---- edges ---- *)
Lemma code_rep_false h a b : rep_eq h a b = false <-> code h a <> code h b.
Proof. unfold rep_eq, code. apply Z.eqb_neq. Qed.
Lemma add_edge_degenerate h es r a b : code h (v_rep a) <> code h (v_rep b) -> In (mke r a b) es ->
  exists e, add_edge h es r a a true = (es, e) /\ code h (e_rep e) = code h r /\
    (code h (v_rep (e_start e)) = code h (v_rep a) \/ code h (v_rep (e_end e)) = code h (v_rep a)).
Proof.
  intros N I. unfold add_edge. destruct (find _ es) as [e|] eqn:F.
  - apply find_some in F. destruct F as [_ M]. exists e. split; auto. unfold edge_matches in M. apply andb_prop in M. destruct M as [M _].
    apply andb_prop in M. destruct M as [M1 M2]. apply rep_eq_code in M1. split; auto. apply orb_prop in M2.
    destruct M2 as [M2|M2]; apply rep_eq_code in M2; auto.
  - pose proof (find_none _ _ F _ I) as X. unfold edge_matches in X. cbn in X.
    assert (T : forall x, rep_eq h x x = true) by (intro; now apply rep_eq_code). rewrite !T in X. discriminate.
Qed.
Lemma add_edge_refuted h r a b : code h (v_rep a) <> code h (v_rep b) ->
  add_edge h [mke r a b] r a a true = ([mke r a b], mke r a b).
Proof.
  intro N. unfold add_edge, edge_matches. cbn [find e_rep e_start e_end].
  assert (T : forall x, rep_eq h x x = true) by (intro; now apply rep_eq_code). now rewrite !T.
Qed.
Lemma add_edge_distinct h es r a b c : code h (v_rep a) <> code h (v_rep b) -> let '(es', e) := add_edge h es r a b c in
  In e es' /\ code h (e_rep e) = code h r /\
  (code h (v_rep (e_start e)) = code h (v_rep a) /\ code h (v_rep (e_end e)) = code h (v_rep b) \/
   code h (v_rep (e_start e)) = code h (v_rep b) /\ code h (v_rep (e_end e)) = code h (v_rep a)) /\
  (es' = es \/ es' = es ++ [e] /\ (c = true -> forall x, In x es -> code h (e_rep x) = code h r ->
     ~ (code h (v_rep (e_start x)) = code h (v_rep a) /\ code h (v_rep (e_end x)) = code h (v_rep b)) /\
     ~ (code h (v_rep (e_start x)) = code h (v_rep b) /\ code h (v_rep (e_end x)) = code h (v_rep a)))).
Proof.
  intro N. unfold add_edge. destruct (if c then _ else None) as [e|] eqn:F.
  - destruct c; [|discriminate]. apply find_some in F. destruct F as [I M]. split; auto. unfold edge_matches in M. apply andb_prop in M. destruct M as [M M3].
    apply andb_prop in M. destruct M as [M1 M2]. apply rep_eq_code in M1. split; auto. split; [|auto].
    apply orb_prop in M2. apply orb_prop in M3. rewrite !rep_eq_code in M2, M3.
    destruct M2 as [M2|M2], M3 as [M3|M3]; auto; congruence.
  - split; [apply in_or_app; simpl; auto|]. split; auto. split; auto. right. split; auto. intros -> x I E.
    pose proof (find_none _ _ F x I) as X. unfold edge_matches in X. cbn in X.
    apply rep_eq_code in E. rewrite E in X. cbn [andb] in X.
    split; intros [A B]; apply rep_eq_code in A; apply rep_eq_code in B; rewrite A, B in X; rewrite ?orb_true_r in X; discriminate.
Qed.

(* ---- hashes and faces ---- *)
Lemma vertex_hash h hc v : pyhash h hc (py_vertex v) = Ok (hc [code h (v_rep v)]).
Proof. reflexivity. Qed.
Lemma no_hash h hc : (forall e, pyhash h hc (py_edge e) = Err TypeError) /\ (forall l, pyhash h hc (py_loop l) = Err TypeError) /\
  (forall f, pyhash h hc (py_face f) = Err TypeError).
Proof. repeat split. Qed.
Lemma ends_raise h hc search c a b : ends_parameters h hc search c a b = Err TypeError.
Proof. reflexivity. Qed.

Lemma face_holes_dropped h hc f r l : code h (f_rep f) = code h r -> hd_error (f_loops f) = Some l ->
  forall fs, add_face h hc (f :: fs) r [l] true = Ok (f :: fs, f).
Proof.
  intros C E fs. unfold add_face. cbn [face_scan]. unfold code in C. rewrite C, Z.eqb_refl.
  destruct (f_loops f) as [|k ls]; [discriminate|]. injection E as ->. rewrite Nat.eqb_refl. cbn [hashes bind].
  destruct (list_eq_dec Z.eq_dec [] []) as [_|N]; [reflexivity|now destruct N].
Qed.
Lemma face_holes_raise h hc f r l hole holes : code h (f_rep f) = code h r -> hd_error (f_loops f) = Some l ->
  forall fs, add_face h hc (f :: fs) r (l :: hole :: holes) true = Err TypeError.
Proof.
  intros C E fs. unfold add_face. cbn [face_scan]. unfold code in C. rewrite C, Z.eqb_refl.
  destruct (f_loops f) as [|k ls]; [discriminate|]. injection E as ->. rewrite Nat.eqb_refl. reflexivity.
Qed.
Lemma face_new h hc fs r ls : (forall f l k, In f fs -> code h (f_rep f) = code h r -> hd_error ls = Some l -> hd_error (f_loops f) = Some k -> l_id l <> l_id k) ->
  (ls <> [] /\ forall f, In f fs -> f_loops f <> []) -> forall c, add_face h hc fs r ls c = Ok (fs ++ [mkf r ls], mkf r ls).
Proof.
  intros D [N1 N2] [|]; [|reflexivity]. unfold add_face.
  assert (F : face_scan h hc fs r ls = Ok None).
  { induction fs as [|f fs IH]; auto. cbn [face_scan]. destruct (Z.eqb _ _) eqn:E.
    - apply Z.eqb_eq in E. destruct ls as [|l ls]; [now destruct N1|]. destruct (f_loops f) as [|k ks] eqn:K; [now destruct (N2 f (or_introl eq_refl))|].
      assert (X : l_id l <> l_id k). { apply (D f); auto; [now left|now rewrite K]. }
      apply Nat.eqb_neq in X. rewrite X. apply IH. { intros; eapply D; eauto. now right. } intros; apply N2; now right.
    - apply IH. { intros; eapply D; eauto. now right. } intros; apply N2; now right. }
  rewrite F. reflexivity.
Qed.
(* a single loop: the first face of the same surface with that outer loop, else a new one *)
Lemma face_single h hc fs r l : (forall f, In f fs -> f_loops f <> []) ->
  exists f fs', add_face h hc fs r [l] true = Ok (fs', f) /\ In f fs' /\ code h (f_rep f) = code h r /\
    (exists k, hd_error (f_loops f) = Some k /\ l_id k = l_id l) /\
    (fs' = fs \/ fs' = fs ++ [f] /\ f = mkf r [l]).
Proof.
  intro N. unfold add_face.
  assert (F : face_scan h hc fs r [l] = Ok None \/ exists f, face_scan h hc fs r [l] = Ok (Some f) /\ In f fs /\ code h (f_rep f) = code h r /\
    exists k, hd_error (f_loops f) = Some k /\ l_id k = l_id l).
  { induction fs as [|f fs IH]; auto. cbn [face_scan].
    assert (IH' := IH (fun f I => N f (or_intror I))). clear IH.
    assert (G : face_scan h hc fs r [l] = Ok None \/ exists g, face_scan h hc fs r [l] = Ok (Some g) /\ In g (f :: fs) /\ code h (f_rep g) = code h r /\
      exists k, hd_error (f_loops g) = Some k /\ l_id k = l_id l).
    { destruct IH' as [A|[g [A [B C]]]]; auto. right. exists g. repeat split; try (now right); tauto. }
    destruct (Z.eqb _ _) eqn:E; auto. apply Z.eqb_eq in E. destruct (f_loops f) as [|k ks] eqn:K; [now destruct (N f (or_introl eq_refl))|].
    destruct (Nat.eqb (l_id l) (l_id k)) eqn:I; auto. apply Nat.eqb_eq in I. cbn [hashes bind].
    destruct (list_eq_dec Z.eq_dec [] []) as [_|X]; [|now destruct X]. right. exists f. split; auto. split; [now left|]. split; auto.
    exists k. rewrite K. auto. }
  destruct F as [F|[f [F [A [B C]]]]]; rewrite F; cbn [bind].
  - exists (mkf r [l]), (fs ++ [mkf r [l]]). split; auto. split; [apply in_or_app; simpl; auto|]. split; auto. split; [exists l; auto|]. right. auto.
  - exists f, fs. split; [auto|]. split; [auto|]. split; [auto|]. split; auto.
Qed.
