(* Lemmas for PolyProps.v: point_in_polygon. *)
From Coq Require Import List Arith ZArith Bool QArith Qcanon Lia Permutation.
From Verif Require Import Common QcLib ListLib ArrZ AabbModel AabbSpec AabbProofs AabbProofs2 ImplModel RtreeModel RtreeProofs PolyModel PolySpec PolyProofs PolyProofs2 PolyProofs3 PolyProofs4 PolyProofs5 PolyProofs7.
From Verif Require BvhProofs4.
Import ListNotations.
Local Open Scope Qc_scope.

Lemma rows_box x y w a b c d e f : in_box [x; y; w] [a; b; c] [d; e; f] <-> (a <= x /\ x <= d) /\ (b <= y /\ y <= e) /\ (c <= w /\ w <= f).
Proof.
  split.
  - intros A. inversion A as [|? ? ? ? ? ? B1 B2 B3]; subst. inversion B3 as [|? ? ? ? ? ? C1 C2 C3]; subst. inversion C3 as [|? ? ? ? ? ? D1 D2 D3]; subst. auto.
  - intros [[A1 A2] [[A3 A4] [A5 A6]]]. repeat (apply AabbSpec.in_cons; [assumption|assumption|]). apply AabbSpec.in_nil.
Qed.
(* the box of a planar polygon *)
Lemma box_tight z vs lo hi : vs <> [] -> bounding vs lo hi -> aabb 3 (map (row3 z) vs) None = Ok ([fst lo; snd lo; z], [fst hi; snd hi; z]).
Proof.
  intros N [B [[v1 [I1 E1]] [[v2 [I2 E2]] [[v3 [I3 E3]] [v4 [I4 E4]]]]]].
  assert (N' : map (row3 z) vs <> []) by (destruct vs; [congruence|discriminate]).
  destruct (aabb_tight 3 (map (row3 z) vs) (zeros 3, zeros 3) (zeros 3) (zeros 3) (rows3 z vs) N' eq_refl) as [l [h [E [A [T [L1 [L2 _]]]]]]]; [cbn; lia|cbn; lia|].
  change (Z.of_nat 3) with 3%Z in E. unfold aabb in *. cbn [zeros repeat length] in L1, L2. destruct l as [|l0 [|l1 [|l2 [|? ?]]]]; try discriminate. destruct h as [|h0 [|h1 [|h2 [|? ?]]]]; try discriminate. cbn [firstn] in A, T.
  rewrite E. clear E. assert (A' : forall v, In v vs -> (l0 <= fst v /\ fst v <= h0) /\ (l1 <= snd v /\ snd v <= h1) /\ (l2 <= z /\ z <= h2)).
  { intros v I. specialize (A (row3 z v) (in_map _ _ _ I)). unfold row3 in A. rewrite rows_box in A. exact A. }
  assert (T' : forall x y w, in_box [x; y; w] [l0; l1; l2] [h0; h1; h2] -> (fst lo <= x /\ x <= fst hi) /\ (snd lo <= y /\ y <= snd hi) /\ (z <= w /\ w <= z)).
  { intros x y w H. specialize (T [fst lo; snd lo; z] [fst hi; snd hi; z]). rewrite <- rows_box. apply T; [|exact H]. intros p I. apply in_map_iff in I. destruct I as [v [<- I]]. unfold row3. rewrite rows_box. destruct (B v I) as [P1 [P2 [P3 P4]]]. repeat split; try assumption; apply Qcle_refl. }
  pose proof (A' _ I1) as [[a1 a2] [[a3 a4] [a5 a6]]]. pose proof (A' _ I2) as [[b1 b2] [[b3 b4] _]]. pose proof (A' _ I3) as [_ [[c3 c4] _]]. pose proof (A' _ I4) as [_ [[d3 d4] _]].
  pose proof (T' l0 l1 l2) as T1. pose proof (T' h0 h1 h2) as T2. rewrite rows_box in T1, T2.
  destruct T1 as [[t1 t2] [[t3 t4] [t5 t6]]]; [repeat split; qlra|]. destruct T2 as [[u1 u2] [[u3 u4] [u5 u6]]]; [repeat split; qlra|].
  rewrite E1 in *. rewrite E2 in *. rewrite E3 in *. rewrite E4 in *.
  f_equal. assert (l0 = fst lo) as -> by qlra. assert (l1 = snd lo) as -> by qlra. assert (l2 = z) as -> by qlra. assert (h0 = fst hi) as -> by qlra. assert (h1 = snd hi) as -> by qlra. assert (h2 = z) as -> by qlra. reflexivity.
Qed.

Lemma rdZ_nth {A} (l : list A) (i : nat) d : (i < length l)%nat -> rdZ l (Z.of_nat i) = Ok (nth i l d).
Proof.
  intros H. unfold rdZ. destruct (Z.ltb_spec (Z.of_nat i) 0); [lia|]. rewrite Nat2Z.id. unfold getR. rewrite (nth_error_nth' l d H). reflexivity.
Qed.
(* the loop's index pairs are the outline *)
Lemma loop_outline (vs : list p2) d : vs <> [] ->
  map (fun ij => (nth (Z.to_nat (fst ij)) vs d, nth (Z.to_nat (snd ij)) vs d)) (segments_by_loop (lenZ vs) 0) = outline vs.
Proof.
  intros N. unfold segments_by_loop, lenZ. rewrite Nat2Z.id, map_map. destruct vs as [|o r]; [congruence|]. unfold outline.
  assert (LL : length (o :: r) = length (r ++ [o])) by (rewrite app_length; cbn [length]; lia).
  apply nth_ext with (d := (d, d)) (d' := (d, d)); [rewrite map_length, seq_length, combine_length, <- LL, Nat.min_id; reflexivity|].
  intros i L. rewrite map_length, seq_length in L. rewrite combine_nth by exact LL.
  set (g := fun x : nat => _) at 1. rewrite (nth_indep _ (d, d) (g 0%nat)) by (rewrite map_length, seq_length; exact L). rewrite map_nth, seq_nth by exact L. unfold g. cbn [fst snd]. rewrite !Z.add_0_r.
  f_equal; [f_equal; lia|]. cbn [length] in *. destruct (Nat.eq_dec (S i) (S (length r))) as [E|E].
  - replace (Z.to_nat ((Z.of_nat (0 + i) + 1) mod Z.of_nat (S (length r)))) with 0%nat; [|replace (Z.of_nat (0 + i) + 1)%Z with (Z.of_nat (S (length r))) by lia; rewrite Z.mod_same by lia; reflexivity].
    injection E as ->. rewrite app_nth2 by lia. rewrite Nat.sub_diag. reflexivity.
  - rewrite Z.mod_small by lia. replace (Z.to_nat (Z.of_nat (0 + i) + 1)) with (S i) by lia. cbn [nth]. rewrite app_nth1 by lia. reflexivity.
Qed.
Lemma count_ok K points segment bb (f : p2 * p2 -> bool) g segs : forall cnt,
  Forall (fun ij => exists a b, rdZ points (fst ij) = Ok a /\ rdZ points (snd ij) = Ok b /\ intersects_segments K (a, b) segment None (Some bb) = Ok (f (g ij))) segs ->
  count_crossings K points segs segment bb cnt = Ok (cnt + length (filter f (map g segs)))%nat.
Proof.
  induction segs as [|[i j] r IH]; intros cnt F; [cbn; rewrite Nat.add_0_r; reflexivity|].
  inversion_clear F as [|? ? [a [b [E1 [E2 E3]]]] F']. cbn [fst snd] in E1, E2. cbn [count_crossings]. rewrite E1, E2. cbn [bind]. rewrite E3. cbn [bind]. rewrite IH by exact F'. cbn [map filter]. destruct (f (g (i, j))); cbn [length]; f_equal; lia.
Qed.

(* one side of the polygon *)
Lemma side_hit z q lo hi a b bb : boxed_in lo hi q -> boxed_in lo hi a -> boxed_in lo hi b -> height q lo hi a <> 0 -> height q lo hi b <> 0 -> off_line q a b ->
  let e := moved (fst hi - fst lo, snd hi - snd lo) q in
  aabb 3 [row3 z q; row3 z e] None = Ok bb ->
  intersects_segments 3 (row3 z a, row3 z b) (row3 z q, row3 z e) None (Some bb) = Ok (ray_hit q lo hi (a, b)).
Proof.
  intros Bq Ba Bb Na Nb O e E.
  destruct (box_rows [row3 z q; row3 z e]) as [m0 [m1 [m2 [k0 [k1 [k2 [E2 _]]]]]]]; [repeat (apply Forall_cons; [reflexivity|]); constructor|congruence|]. rewrite E in E2. injection E2 as ->.
  destruct (segments_value (row3 z a) (row3 z b) (row3 z q) (row3 z e) (fst a) (snd a) z (fst b) (snd b) z (fst q) (snd q) z (fst e) (snd e) z eq_refl eq_refl eq_refl eq_refl (Some ([m0; m1; m2], [k0; k1; k2]))) as [o [V H]].
  { right. exists m0, m1, m2, k0, k1, k2. split; [reflexivity|exact E]. }
  rewrite V. f_equal. rewrite <- !surjective_pairing. unfold e. rewrite seg_ray by assumption. destruct (ray_hit q lo hi (a, b)) eqn:R; [|apply andb_false_r]. rewrite andb_true_r. apply H. clear V H.
  (* the crossing point is in both boxes *)
  apply ray_iff in R.
  assert (G : forall a b, boxed_in lo hi a -> boxed_in lo hi b -> height q lo hi a < 0 -> 0 < height q lo hi b -> 0 <= orient a b q -> exists t s, 0 <= t /\ t <= 1 /\ 0 <= s /\ s <= 1 /\ fst q + t * (fst e - fst q) = fst a + s * (fst b - fst a) /\ snd q + t * (snd e - snd q) = snd a + s * (snd b - snd a)).
  { clear a b Ba Bb Na Nb O R. intros a b Ba Bb Ha Hb O. pose proof (reach q lo hi a b Bq Ba Bb Ha Hb) as R. set (n := height q lo hi b - height q lo hi a) in *. assert (Np : 0 < n) by (unfold n; qlra). assert (Nn : n <> 0) by (intros K; rewrite K in Np; qlra).
    exists (orient a b q / n), (- height q lo hi a / n). repeat split.
    - apply qc_div_nonneg; [exact O|exact Np].
    - apply qc_div_le; [exact Np|qlra].
    - apply qc_div_nonneg; [qlra|exact Np].
    - apply qc_div_le; [exact Np|unfold n; qlra].
    - transitivity ((n * fst q + orient a b q * (fst e - fst q)) / n); [field; exact Nn|]. transitivity ((n * fst a + - height q lo hi a * (fst b - fst a)) / n); [f_equal|field; exact Nn]. unfold n. rewrite !height_eq. unfold orient, e, moved. cbn [fst snd]. ring.
    - transitivity ((n * snd q + orient a b q * (snd e - snd q)) / n); [field; exact Nn|]. transitivity ((n * snd a + - height q lo hi a * (snd b - snd a)) / n); [f_equal|field; exact Nn]. unfold n. rewrite !height_eq. unfold orient, e, moved. cbn [fst snd]. ring. }
  assert (Zz : (z <= z /\ z <= z) \/ (z <= z /\ z <= z)) by (left; split; apply Qcle_refl).
  assert (W : forall x y u v t s, 0 <= t -> t <= 1 -> 0 <= s -> s <= 1 -> x + t * (y - x) = u + s * (v - u) -> ((x <= x + t * (y - x) /\ x + t * (y - x) <= y) \/ (y <= x + t * (y - x) /\ x + t * (y - x) <= x)) /\ ((u <= x + t * (y - x) /\ x + t * (y - x) <= v) \/ (v <= x + t * (y - x) /\ x + t * (y - x) <= u))).
  { intros x y u v t s T0 T1 S0 S1 Q. split; [apply between_lerp; assumption|]. rewrite Q. apply between_lerp; assumption. }
  destruct R as [[R1 [R2 R3]]|[R1 [R2 R3]]].
  - destruct (G a b Ba Bb R1) as [t [s [T0 [T1 [S0 [S1 [X Y]]]]]]]; [qlra|exact R3|]. exists (fst q + t * (fst e - fst q)), (snd q + t * (snd e - snd q)), z.
    destruct (W _ _ _ _ _ _ T0 T1 S0 S1 X) as [X1 X2]. destruct (W _ _ _ _ _ _ T0 T1 S0 S1 Y) as [Y1 Y2]. repeat (split; [assumption|]). exact Zz.
  - destruct (G b a Bb Ba R1) as [t [s [T0 [T1 [S0 [S1 [X Y]]]]]]]; [destruct (sgn3 (height q lo hi a)) as [K|[K|K]]; [qlra|contradiction|exact K]|assert (orient b a q = - orient a b q) as -> by (unfold orient; ring); qlra|]. exists (fst q + t * (fst e - fst q)), (snd q + t * (snd e - snd q)), z.
    destruct (W _ _ _ _ _ _ T0 T1 S0 S1 X) as [X1 X2]. destruct (W _ _ _ _ _ _ T0 T1 S0 S1 Y) as [Y1 Y2]. assert (SW : forall A B : Prop, A \/ B -> B \/ A) by tauto. repeat (split; [first [assumption|apply SW; assumption]|]). exact Zz.
Qed.

(* triangles, for the diagonal ray *)
Lemma tri_ray q lo hi t : fst lo <> fst hi \/ snd lo <> snd hi -> off_line q (fst (fst t)) (snd (fst t)) -> off_line q (snd (fst t)) (snd t) -> off_line q (snd t) (fst (fst t)) ->
  (tri_hit (ray_hit q lo hi) t = true <-> in_triangle q (fst (fst t)) (snd (fst t)) (snd t)).
Proof.
  intros Dp. destruct t as [[o a] b]. cbn [fst snd]. unfold tri_hit. cbn [fst snd].
  assert (D : forall u v, ~ in_triangle q u u v /\ ~ in_triangle q u v u /\ ~ in_triangle q v u u).
  { intros u v. unfold in_triangle. assert (orient u u q = 0) as -> by (unfold orient; ring). repeat split; intros [[? [? ?]]|[? [? ?]]]; qlra. }
  intros [->|N1] H2 H3.
  { rewrite ray_none, (ray_sym q lo hi b a). unfold three. rewrite xorb_nilpotent. split; [discriminate|]. intros H. exfalso. exact (proj1 (D a b) H). }
  destruct H2 as [->|N2].
  { rewrite ray_none, (ray_sym q lo hi b o). unfold three. rewrite xorb_false_l, xorb_nilpotent. split; [discriminate|]. intros H. exfalso. exact (proj2 (proj2 (D b o)) H). }
  destruct H3 as [->|N3].
  { rewrite ray_none, (ray_sym q lo hi a o). unfold three. rewrite xorb_false_r, xorb_nilpotent. split; [discriminate|]. intros H. exfalso. exact (proj1 (proj2 (D o a)) H). }
  unfold in_triangle. set (dx := fst hi - fst lo). set (dy := snd hi - snd lo). set (n := dx * dx + dy * dy).
  assert (Sq : forall x, x <> 0 -> 0 < x * x). { intros x H. destruct (sgn3 x) as [K|[K|K]]; [assert (0 < (- x) * (- x)) by (apply qc_mul_pos; qlra); qlra|contradiction|apply qc_mul_pos; exact K]. }
  assert (Np : 0 < n). { unfold n. destruct Dp as [Dp|Dp]; [assert (0 < dx * dx) by (apply Sq; unfold dx; intros K; apply Dp; qlra); assert (0 <= dy * dy) by apply BvhProofs4.sq_nn; qlra|assert (0 < dy * dy) by (apply Sq; unfold dy; intros K; apply Dp; qlra); assert (0 <= dx * dx) by apply BvhProofs4.sq_nn; qlra]. }
  assert (Nn : n <> 0) by (intros K; rewrite K in Np; qlra).
  set (X := fun v : p2 => (dx * (fst v - fst q) + dy * (snd v - snd q)) / n).
  assert (C : forall u v, orient u v q = X u * height q lo hi v - X v * height q lo hi u).
  { intros u v. unfold X. rewrite !height_eq. cbn [fst snd]. fold dx dy.
    transitivity (n * orient u v q / n); [field; exact Nn|]. transitivity (((dx * (fst u - fst q) + dy * (snd u - snd q)) * (dx * (snd v - snd q) - dy * (fst v - fst q)) - (dx * (fst v - fst q) + dy * (snd v - snd q)) * (dx * (snd u - snd q) - dy * (fst u - fst q))) / n); [f_equal; unfold n, orient; ring|field; exact Nn]. }
  apply (tri_pos (X o) (X a) (X b) (height q lo hi o) (height q lo hi a) (height q lo hi b)); try assumption; try apply C; apply ray_iff.
Qed.

(* outside the box, outside every triangle *)
Lemma tri_boxed lo hi q a b c : boxed_in lo hi a -> boxed_in lo hi b -> boxed_in lo hi c -> in_triangle q a b c -> boxed_in lo hi q.
Proof.
  intros [A1 [A2 [A3 A4]]] [B1 [B2 [B3 B4]]] [C1 [C2 [C3 C4]]] H.
  unfold in_triangle in H. set (u := orient b c q) in *. set (v := orient c a q) in *. set (w := orient a b q) in *.
  assert (IX : (u + v + w) * fst q = u * fst a + v * fst b + w * fst c) by (unfold u, v, w, orient; ring).
  assert (IY : (u + v + w) * snd q = u * snd a + v * snd b + w * snd c) by (unfold u, v, w, orient; ring).
  assert (G : forall u v w x xa xb xc l h, 0 < u -> 0 < v -> 0 < w -> (u + v + w) * x = u * xa + v * xb + w * xc -> l <= xa -> l <= xb -> l <= xc -> xa <= h -> xb <= h -> xc <= h -> l <= x /\ x <= h).
  { clear. intros u v w x xa xb xc l h U V W E. intros.
    assert (P : 0 < u + v + w) by qlra.
    assert (0 <= u * (xa - l)) by (apply qc_mul_nonneg; qlra). assert (0 <= v * (xb - l)) by (apply qc_mul_nonneg; qlra). assert (0 <= w * (xc - l)) by (apply qc_mul_nonneg; qlra).
    assert (0 <= u * (h - xa)) by (apply qc_mul_nonneg; qlra). assert (0 <= v * (h - xb)) by (apply qc_mul_nonneg; qlra). assert (0 <= w * (h - xc)) by (apply qc_mul_nonneg; qlra).
    split.
    - destruct (Qclt_le_dec x l) as [K|K]; [|exact K]. exfalso. assert (0 < (u + v + w) * (l - x)) by (apply qc_mul_pos; qlra). qlra.
    - destruct (Qclt_le_dec h x) as [K|K]; [|exact K]. exfalso. assert (0 < (u + v + w) * (x - h)) by (apply qc_mul_pos; qlra). qlra. }
  destruct H as [[H1 [H2 H3]]|[H1 [H2 H3]]].
  - destruct (G u v w (fst q) (fst a) (fst b) (fst c) (fst lo) (fst hi)) as [? ?]; try assumption. destruct (G u v w (snd q) (snd a) (snd b) (snd c) (snd lo) (snd hi)) as [? ?]; try assumption. unfold boxed_in. tauto.
  - destruct (G (- u) (- v) (- w) (fst q) (fst a) (fst b) (fst c) (fst lo) (fst hi)) as [? ?]; try assumption; try qlra. destruct (G (- u) (- v) (- w) (snd q) (snd a) (snd b) (snd c) (snd lo) (snd hi)) as [? ?]; try assumption; try qlra. unfold boxed_in. tauto.
Qed.
Lemma fan_in o l t : In t (fan o l) -> fst (fst t) = o /\ In (snd (fst t)) l /\ In (snd t) l.
Proof.
  induction l as [|a [|b l] IH]; [intros []|intros []|]. intros [<-|I]; [cbn; auto|]. destruct (IH I) as [H1 [H2 H3]]. split; [exact H1|split; right; assumption].
Qed.
Lemma triangles_in vs t : In t (triangles vs) -> In (fst (fst t)) vs /\ In (snd (fst t)) vs /\ In (snd t) vs.
Proof. destruct vs as [|o r]; [intros []|]. cbn [triangles]. intros I. destruct (fan_in _ _ _ I) as [-> [H2 H3]]. repeat split; [left; reflexivity|right; exact H2|right; exact H3]. Qed.
Lemma outside_box vs lo hi q : (forall v, In v vs -> boxed_in lo hi v) -> even_odd_inside q vs -> boxed_in lo hi q.
Proof.
  intros B [n [C O]]. destruct n as [|n]; [discriminate|]. clear O.
  assert (H : exists t, In t (triangles vs) /\ in_triangle q (fst (fst t)) (snd (fst t)) (snd t)).
  { remember (S n) as m. revert Heqm. induction C as [|t l k Ht C IH|t l k Ht C IH]; intros E; [discriminate|exists t; split; [left; reflexivity|exact Ht]|]. destruct (IH E) as [t' [I T]]. exists t'. split; [right; exact I|exact T]. }
  destruct H as [t [I T]]. destruct (triangles_in _ _ I) as [H1 [H2 H3]]. eapply tri_boxed; [apply B, H1|apply B, H2|apply B, H3|exact T].
Qed.

(* the count is over an outline with the polygon's edges; us is the polygon rotated *)
Lemma pip_count z q lo hi us bb : us <> [] -> boxed_in lo hi q -> (forall v, In v us -> boxed_in lo hi v) -> (forall v, In v us -> height q lo hi v <> 0) -> Forall (fun ab => off_line q (fst ab) (snd ab)) (outline us) ->
  let e := moved (fst hi - fst lo, snd hi - snd lo) q in
  aabb 3 [row3 z q; row3 z e] None = Ok bb ->
  count_crossings 3 (map (row3 z) us) (segments_by_loop (lenZ (map (row3 z) us)) 0) (row3 z q, row3 z e) bb 0 = Ok (length (filter (ray_hit q lo hi) (outline us))).
Proof.
  intros N Bq B H F e E. assert (LL : lenZ (map (row3 z) us) = lenZ us) by (unfold lenZ; rewrite map_length; reflexivity). rewrite LL. clear LL.
  set (g := fun ij : Z * Z => (nth (Z.to_nat (fst ij)) us q, nth (Z.to_nat (snd ij)) us q)). pose proof (loop_outline us q N) as G. fold g in G. rewrite <- G.
  rewrite (count_ok 3 (map (row3 z) us) (row3 z q, row3 z e) bb (ray_hit q lo hi) g); [reflexivity|].
  apply Forall_forall. intros [i j] I. assert (IO : In (g (i, j)) (outline us)) by (rewrite <- G; apply in_map, I).
  unfold segments_by_loop in I. apply in_map_iff in I. destruct I as [k [K I]]. apply in_seq in I. unfold lenZ in K, I. rewrite Nat2Z.id in I. injection K as K1 K2. assert (i = Z.of_nat k) as -> by lia.
  assert (J : (0 <= j < Z.of_nat (length us))%Z) by (rewrite <- K2, Z.add_0_r; apply Z.mod_pos_bound; lia).
  exists (row3 z (fst (g (Z.of_nat k, j)))), (row3 z (snd (g (Z.of_nat k, j)))). unfold g at 1 2. cbn [fst snd]. rewrite Nat2Z.id.
  split; [rewrite (rdZ_nth _ k (row3 z q)) by (rewrite map_length; lia); rewrite map_nth; reflexivity|].
  split; [rewrite <- (Z2Nat.id j) at 1 by lia; rewrite (rdZ_nth _ (Z.to_nat j) (row3 z q)) by (rewrite map_length; lia); rewrite map_nth; reflexivity|].
  destruct (outline_in _ _ IO) as [I1 I2]. rewrite Forall_forall in F. specialize (F _ IO). rewrite (side_hit z q lo hi); [rewrite <- surjective_pairing; reflexivity|exact Bq|apply B, I1|apply B, I2|apply H, I1|apply H, I2|exact F|exact E].
Qed.

(* the body once the closing vertex has been dealt with *)
Lemma pip_core z q lo hi pts vs us : vs <> [] -> bounding vs lo hi -> (forall v, In v pts <-> In v vs) ->
  (forall p0 pn, rdZ (map (row3 z) pts) 0 = Ok p0 -> rdZ (map (row3 z) pts) (lenZ (map (row3 z) pts) - 1) = Ok pn -> (if allclose p0 pn then tl (map (row3 z) pts) else map (row3 z) pts) = map (row3 z) us) ->
  Permutation (outline us) (outline vs) -> (forall v, In v us -> In v vs) -> us <> [] ->
  generic q vs -> Forall (fun ab => off_line q (fst ab) (snd ab)) (outline vs) -> (forall v, In v vs -> height q lo hi v <> 0) ->
  exists r, point_in_polygon 3 (map (row3 z) pts) (row3 z q) = Ok r /\ (r = true <-> even_odd_inside q vs).
Proof.
  intros N B I CL P U NU G F H. assert (Np : pts <> []). { destruct vs as [|v vs]; [congruence|]. intros ->. apply (proj2 (I v)). left. reflexivity. }
  assert (B' : bounding pts lo hi). { destruct B as [B0 [[v1 [I1 E1]] [[v2 [I2 E2]] [[v3 [I3 E3]] [v4 [I4 E4]]]]]]. split; [intros v J; apply B0, I, J|]. repeat split; [exists v1|exists v2|exists v3|exists v4]; split; try assumption; apply I; assumption. }
  assert (BV : forall v, In v vs -> boxed_in lo hi v) by (exact (proj1 B)).
  unfold point_in_polygon. rewrite (box_tight z pts lo hi Np B'). cbn [bind].
  destruct (point_in_3 ([fst lo; snd lo; z], [fst hi; snd hi; z]) (row3 z q) eq_refl eq_refl eq_refl) as [r [Er Hr]]. rewrite Er. cbn [bind]. cbn [fst snd] in Hr. unfold row3 in Hr. rewrite rows_box in Hr.
  assert (Hr' : r = true <-> boxed_in lo hi q). { rewrite Hr. unfold boxed_in. split; [intros [[? ?] [[? ?] _]]; auto|intros [? [? [? ?]]]; repeat split; auto; apply Qcle_refl]. } clear Hr.
  destruct r; cbn [negb].
  2: { exists false. split; [reflexivity|]. split; [discriminate|]. intros E. apply Hr'. exact (outside_box vs lo hi q BV E). }
  assert (Bq : boxed_in lo hi q) by (apply Hr'; reflexivity). clear Hr' Er.
  destruct (rdZ (map (row3 z) pts) 0) as [p0|e0] eqn:E0.
  2: { exfalso. rewrite (rdZ_ok (row3 z q)) in E0; [discriminate|]. unfold lenZ. rewrite map_length. destruct pts; [congruence|cbn [length]; lia]. }
  destruct (rdZ (map (row3 z) pts) (lenZ (map (row3 z) pts) - 1)) as [pn|e0] eqn:En.
  2: { exfalso. rewrite (rdZ_ok (row3 z q)) in En; [discriminate|]. unfold lenZ. rewrite map_length. destruct pts; [congruence|cbn [length]; lia]. }
  cbn [bind]. rewrite (CL _ _ eq_refl eq_refl). unfold rowop at 1. cbn [row3 length Nat.eqb combine map fst snd bind]. unfold rowop. cbn [length Nat.eqb combine map fst snd bind].
  set (e := moved (fst hi - fst lo, snd hi - snd lo) q).
  assert ([fst q + fst hi - fst lo; snd q + snd hi - snd lo; z + z - z] = row3 z e) as ->. { unfold row3, e, moved. cbn [fst snd]. f_equal; [ring|f_equal; [ring|f_equal; ring]]. }
  change [fst q; snd q; z] with (row3 z q).
  destruct (box_rows [row3 z q; row3 z e]) as [m0 [m1 [m2 [k0 [k1 [k2 [E2 _]]]]]]]; [repeat (apply Forall_cons; [reflexivity|]); constructor|congruence|]. rewrite E2. cbn [bind].
  unfold e. rewrite (pip_count z q lo hi us); [|exact NU|exact Bq|intros v J; apply BV, U, J|intros v J; apply H, U, J|eapply Permutation_Forall; [apply Permutation_sym, P|exact F]|exact E2].
  cbn [bind]. eexists. split; [reflexivity|]. rewrite xsum_odd, (xsum_perm _ _ _ P), <- outline_edges.
  apply parity_even_odd; [intros; apply ray_sym|intros; apply ray_none|]. rewrite Forall_forall. intros t J. unfold generic in G. rewrite Forall_forall in G. destruct (G t J) as [G1 [G2 G3]]. apply tri_ray; try assumption.
  destruct vs as [|v vs]; [congruence|]. specialize (H v (or_introl eq_refl)). rewrite height_eq in H. cbn [fst snd] in H. destruct (BV v (or_introl eq_refl)) as [V1 [V2 [V3 V4]]].
  destruct (Qclt_le_dec (fst lo) (fst hi)) as [K|K]; [left; intros K2; qlra|]. destruct (Qclt_le_dec (snd lo) (snd hi)) as [K'|K']; [right; intros K2; qlra|]. exfalso. apply H. assert (fst hi - fst lo = 0) as -> by qlra. assert (snd hi - snd lo = 0) as -> by qlra. ring.
Qed.

Lemma pip_open z q lo hi v0 r vn : (* vertices v0 ... vn *)
  let vs := v0 :: r ++ [vn] in apart v0 vn -> bounding vs lo hi -> generic q vs -> Forall (fun ab => off_line q (fst ab) (snd ab)) (outline vs) ->
  (forall v, In v vs -> orient q (moved (fst hi - fst lo, snd hi - snd lo) q) v <> 0) ->
  exists b, point_in_polygon 3 (map (row3 z) vs) (row3 z q) = Ok b /\ (b = true <-> even_odd_inside q vs).
Proof.
  intros vs A B G F H. unfold apart in A. fold atol8 rtol in A. apply (pip_core z q lo hi vs vs vs); try assumption; try reflexivity; try (intros ? K; exact K); try (unfold vs; congruence).
  intros p0 pn E0 En. assert (p0 = row3 z v0) as -> by (cbn in E0; congruence). assert (pn = row3 z vn) as ->.
  { unfold lenZ in En. rewrite map_length in En. assert (L : length vs = S (S (length r))) by (unfold vs; cbn [length]; rewrite app_length; cbn; lia). rewrite L in En. replace (Z.of_nat (S (S (length r))) - 1)%Z with (Z.of_nat (S (length r))) in En by lia.
    rewrite (rdZ_nth _ _ (row3 z v0)) in En by (rewrite map_length, L; lia). rewrite map_nth in En. injection En as <-. f_equal. unfold vs. cbn [nth]. rewrite app_nth2 by lia. rewrite Nat.sub_diag. reflexivity. }
  assert (allclose (row3 z v0) (row3 z vn) = false) as ->; [|reflexivity]. apply not_true_iff_false. unfold allclose. rewrite forallb_forall. intros K. unfold row3 in K. cbn [combine] in K.
  destruct A as [A|A]; [specialize (K _ (or_introl eq_refl))|specialize (K _ (or_intror (or_introl eq_refl)))]; cbn [fst snd] in K; apply qle_true in K; qlra.
Qed.
Lemma fabs0 : fabs 0 = 0.
Proof. apply Qc_is_canon. vm_compute. reflexivity. Qed.
Lemma allclose_self a : allclose a a = true.
Proof.
  unfold allclose. rewrite forallb_forall. intros [x y] I. assert (x = y) as ->. { revert I. induction a as [|u a IH]; [intros []|]. cbn [combine In]. intros [E|I]; [injection E as <- <-; reflexivity|apply IH, I]. }
  cbn [fst snd]. apply qle_true. assert (y - y = 0) as -> by ring. rewrite fabs0. assert (0 <= fabs y) by (unfold fabs; destruct (qlt y 0) eqn:Q; [apply qlt_true in Q|apply qlt_false in Q]; qlra). assert (0 <= rtol * fabs y) by (apply qc_mul_nonneg; [apply qle_true; vm_compute; reflexivity|assumption]). assert (0 <= atol8) by (apply qle_true; vm_compute; reflexivity). qlra.
Qed.
(* the first vertex repeated at the end *)
Lemma pip_closed z q lo hi v0 r : let vs := v0 :: r in bounding vs lo hi -> generic q vs -> Forall (fun ab => off_line q (fst ab) (snd ab)) (outline vs) ->
  (forall v, In v vs -> orient q (moved (fst hi - fst lo, snd hi - snd lo) q) v <> 0) ->
  exists b, point_in_polygon 3 (map (row3 z) (vs ++ [v0])) (row3 z q) = Ok b /\ (b = true <-> even_odd_inside q vs).
Proof.
  intros vs B G F H. apply (pip_core z q lo hi (vs ++ [v0]) vs (r ++ [v0])); try assumption; try (unfold vs; congruence).
  - intros v. rewrite in_app_iff. unfold vs. cbn [In]. intuition.
  - intros p0 pn E0 En. assert (p0 = row3 z v0) as -> by (cbn in E0; congruence). assert (pn = row3 z v0) as ->.
    { unfold lenZ in En. rewrite map_length, app_length in En. cbn [length] in En. replace (Z.of_nat (length vs + 1) - 1)%Z with (Z.of_nat (length vs)) in En by lia. rewrite (rdZ_nth _ _ (row3 z v0)) in En by (rewrite map_length, app_length; cbn; lia). rewrite map_nth in En. injection En as <-. f_equal. rewrite app_nth2 by lia. rewrite Nat.sub_diag. reflexivity. }
    rewrite allclose_self. reflexivity.
  - rewrite <- !outline_edges. unfold vs. apply (edges_rotate r [v0]).
  - intros v. rewrite in_app_iff. unfold vs. cbn [In]. intuition.
  - intros K. apply app_eq_nil in K. destruct K. discriminate.
Qed.

(* two columns: the box keeps its third column of zeros, which the point lacks *)
Lemma pip_flat vs q : vs <> [] ->
  (point_in_polygon 2 (map row2 vs) (row2 q) = Ok false \/ point_in_polygon 2 (map row2 vs) (row2 q) = Err IndexError) /\
  (even_odd_inside q vs -> point_in_polygon 2 (map row2 vs) (row2 q) = Err IndexError).
Proof.
  intros N. assert (N' : map row2 vs <> []) by (destruct vs; [congruence|discriminate]).
  assert (R : AabbSpec.shape 2 (map row2 vs)) by (apply Forall_forall; intros r H; apply in_map_iff in H; destruct H as [p [<- _]]; reflexivity).
  destruct (aabb_tight 2 (map row2 vs) (zeros 3, zeros 3) (zeros 3) (zeros 3) R N' eq_refl) as [l [h [E [A [_ [L1 [L2 _]]]]]]]; [cbn; lia|cbn; lia|].
  change (Z.of_nat 2) with 2%Z in E. cbn [zeros repeat length] in L1, L2. destruct l as [|l0 [|l1 [|l2 [|? ?]]]]; try discriminate. destruct h as [|h0 [|h1 [|h2 [|? ?]]]]; try discriminate. cbn [firstn] in A.
  assert (B : forall v, In v vs -> boxed_in (l0, l1) (h0, h1) v).
  { intros v I. specialize (A (row2 v) (in_map _ _ _ I)). unfold row2 in A. inversion A as [|? ? ? ? ? ? B1 B2 B3]; subst. inversion B3 as [|? ? ? ? ? ? C1 C2 C3]; subst. unfold boxed_in. cbn [fst snd]. auto. }
  unfold point_in_polygon. unfold aabb in *. rewrite E. cbn [bind]. unfold point_in_aabb. cbn [fst snd]. unfold row2. rewrite !rd3_0, !rd3_1, !rd3_2. change (rdZ [fst q; snd q] 0) with (Ok (fst q)). change (rdZ [fst q; snd q] 1) with (Ok (snd q)). change (rdZ [fst q; snd q] 2) with (@Err Qc IndexError). cbn [bind].
  destruct (qle l0 (fst q) && qle (fst q) h0) eqn:E1; cbn [negb bind].
  2: { split; [left; reflexivity|]. intros H. destruct (outside_box _ _ _ _ B H) as [b1 [b2 _]]. cbn [fst snd] in b1, b2. apply qle_true in b1. apply qle_true in b2. rewrite b1, b2 in E1. discriminate. }
  destruct (qle l1 (snd q) && qle (snd q) h1) eqn:E2; cbn [negb bind].
  2: { split; [left; reflexivity|]. intros H. destruct (outside_box _ _ _ _ B H) as [_ [_ [b1 b2]]]. cbn [fst snd] in b1, b2. apply qle_true in b1. apply qle_true in b2. rewrite b1, b2 in E2. discriminate. }
  cbn [length Nat.eqb bind]. split; [right|intros _]; reflexivity.
Qed.
