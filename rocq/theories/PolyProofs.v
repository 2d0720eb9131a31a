(* Lemmas for PolyProps.v: point in polygon. *)
From Coq Require Import List Arith ZArith Bool QArith Qcanon Lia Permutation.
From Verif Require Import Common QcLib ListLib ArrZ AabbModel AabbSpec AabbProofs ImplModel RtreeModel RtreeProofs PolyModel PolySpec.
Import ListNotations.
Local Open Scope Qc_scope.

Ltac bsplit := repeat match goal with
  | H : qlt ?a ?b = true |- _ => apply qlt_true in H
  | H : qlt ?a ?b = false |- _ => apply qlt_false in H
  | H : qle ?a ?b = true |- _ => apply qle_true in H
  | H : qle ?a ?b = false |- _ => apply qle_false in H
  | H : qeq ?a ?b = true |- _ => apply qeq_true in H
  | H : qeq ?a ?b = false |- _ => apply qeq_false in H
  end.

(* the crossing of an edge with the rightward half-line, without division *)
Definition crossing (h1 h2 o : Qc) : Prop := (h1 < 0 /\ 0 <= h2 /\ 0 <= o) \/ (h2 < 0 /\ 0 <= h1 /\ o <= 0).

Lemma mul_le_pos a b c : 0 < c -> a * c <= b * c -> a <= b.
Proof. intros H K. destruct (Qclt_le_dec b a) as [D|D]; [|exact D]. exfalso. assert (0 < (a - b) * c) by (apply qc_mul_pos; qlra). qlra. Qed.

Lemma xint a b q : py a <> py b -> ((py q - py a) * (px b - px a) / (py b - py a) + px a - px q) * (py b - py a) = orient a b q.
Proof. intros H. unfold orient, px, py in *. field. intro K. apply H. qlra. Qed.

Lemma hit_iff q a b : leaf_hit q (a, b) = true <-> crossing (py a - py q) (py b - py q) (orient a b q).
Proof.
  unfold leaf_hit, crossing. destruct (fmin_spec (py a) (py b)) as [A1 [A2 A3]]. destruct (fmax_spec (py a) (py b)) as [B1 [B2 B3]]. destruct (fmax_spec (px a) (px b)) as [C1 [C2 C3]].
  set (mn := fmin (py a) (py b)) in *. set (mx := fmax (py a) (py b)) in *. set (mX := fmax (px a) (px b)) in *. clearbody mn mx mX.
  destruct (qeq (py a) (py b)) eqn:E; [apply qeq_true in E|apply qeq_false in E].
  { cbn [negb]. destruct (qlt mn (py q) && qle (py q) mx && qle (px q) mX); split; intros H; try discriminate; destruct H as [[H [K L]]|[H [K L]]]; qlra. }
  cbn [negb]. pose proof (xint a b q E) as X. set (v := (py q - py a) * (px b - px a) / (py b - py a) + px a) in *. clearbody v.
  split.
  - destruct (qlt mn (py q)) eqn:D1; [|discriminate]. destruct (qle (py q) mx) eqn:D2; [|discriminate]. destruct (qle (px q) mX) eqn:D3; [|discriminate]. cbn [andb]. intros D4. bsplit.
    destruct (Qclt_le_dec (py a) (py q)) as [F|F]; [left|right].
    + assert (py q <= py b) by (destruct B3 as [B3|B3]; rewrite B3 in *; qlra). repeat split; try qlra. rewrite <- X. apply qc_mul_nonneg; qlra.
    + assert (py b < py q) by (destruct A3 as [A3|A3]; rewrite A3 in *; qlra). repeat split; try qlra. assert (0 <= (v - px q) * (py a - py b)) by (apply qc_mul_nonneg; qlra). qlra.
  - intros H.
    assert (D1 : mn < py q) by (destruct H as [[H [K L]]|[H [K L]]]; qlra). assert (D2 : py q <= mx) by (destruct H as [[H [K L]]|[H [K L]]]; qlra).
    assert (D4 : px q <= v).
    { destruct H as [[H [K L]]|[H [K L]]].
      - apply (mul_le_pos _ _ (py b - py a)); qlra.
      - apply (mul_le_pos _ _ (py a - py b)); qlra. }
    assert (D3 : px q <= mX).
    { destruct (Qclt_le_dec mX (px q)) as [F|F]; [|exact F]. exfalso. unfold orient, px, py in *. destruct H as [[H [K L]]|[H [K L]]].
      - assert (0 < (snd q - snd a) * (fst q - fst b)) by (apply qc_mul_pos; qlra). assert (0 <= (snd b - snd q) * (fst q - fst a)) by (apply qc_mul_nonneg; qlra). qlra.
      - assert (0 < (snd q - snd b) * (fst q - fst a)) by (apply qc_mul_pos; qlra). assert (0 <= (snd a - snd q) * (fst q - fst b)) by (apply qc_mul_nonneg; qlra). qlra. }
    rewrite (proj2 (qlt_true mn (py q)) D1), (proj2 (qle_true (py q) mx) D2), (proj2 (qle_true (px q) mX) D3). cbn [andb]. apply qle_true. exact D4.
Qed.

(* parity of the members satisfying f *)
Definition xsum {A} (f : A -> bool) (l : list A) : bool := fold_right (fun a b => xorb (f a) b) false l.
Lemma xsum_app {A} (f : A -> bool) l m : xsum f (l ++ m) = xorb (xsum f l) (xsum f m).
Proof. induction l as [|a l IH]; [symmetry; apply xorb_false_l|]. cbn [app xsum fold_right]. fold (xsum f (l ++ m)) (xsum f l). rewrite IH, xorb_assoc. reflexivity. Qed.
Lemma xsum_perm {A} (f : A -> bool) l m : Permutation l m -> xsum f l = xsum f m.
Proof. unfold xsum. induction 1; cbn [fold_right]; [reflexivity|rewrite IHPermutation; reflexivity| |congruence]. rewrite <- !xorb_assoc, (xorb_comm (f y)). reflexivity. Qed.
Lemma xsum_map {A B} (f : B -> bool) (g : A -> B) l : xsum f (map g l) = xsum (fun a => f (g a)) l.
Proof. unfold xsum. induction l; cbn [map fold_right]; congruence. Qed.
Lemma xsum_ext {A} (f g : A -> bool) l : (forall a, In a l -> f a = g a) -> xsum f l = xsum g l.
Proof. unfold xsum. induction l as [|a l IH]; cbn [fold_right In]; [reflexivity|]. intros H. rewrite (H a) by auto. rewrite IH by auto. reflexivity. Qed.
Lemma xsum_odd {A} (f : A -> bool) l : Nat.odd (length (filter f l)) = xsum f l.
Proof. induction l as [|a l IH]; [reflexivity|]. cbn [filter xsum fold_right]. fold (xsum f l). destruct (f a); [|rewrite IH; symmetry; apply xorb_false_l]. cbn [length]. rewrite Nat.odd_succ, <- Nat.negb_odd, IH. reflexivity. Qed.

(* consecutive pairs of a list *)
Fixpoint steps (l : list p2) : list (p2 * p2) := match l with a :: (b :: _) as r => (a, b) :: steps r | _ => [] end.
Lemma pairs_steps a l : pairs_from a l = match l with [] => [] | _ => steps (l ++ [a]) end.
Proof.
  induction l as [|b l IH]; [reflexivity|]. destruct l as [|c l]; [reflexivity|]. change (pairs_from a (b :: c :: l)) with ((b, c) :: pairs_from a (c :: l)). rewrite IH. reflexivity.
Qed.
Lemma edges_steps a l : edges_of (a :: l) = steps (a :: l ++ [a]).
Proof. unfold edges_of. rewrite pairs_steps. reflexivity. Qed.

Lemma no_hit_same q a : leaf_hit q (a, a) = false.
Proof. destruct (leaf_hit q (a, a)) eqn:E; [|reflexivity]. apply hit_iff in E. destruct E as [[H [K L]]|[H [K L]]]; qlra. Qed.
Lemma hit_sym q a b : leaf_hit q (a, b) = leaf_hit q (b, a).
Proof.
  apply eq_true_iff_eq. rewrite !hit_iff. unfold crossing. assert (orient b a q = - orient a b q) as -> by (unfold orient; ring).
  split; (intros [[H [K L]]|[H [K L]]]; [right|left]); repeat split; qlra.
Qed.

Lemma turn_ok q a b xi ins : exists xi', scan_turn q a b (xi, ins) = Ok (xi', xorb ins (leaf_hit q (a, b))).
Proof.
  unfold scan_turn, leaf_hit. destruct (fmin_spec (py a) (py b)) as [A1 [A2 A3]]. destruct (fmax_spec (py a) (py b)) as [B1 [B2 B3]]. destruct (fmax_spec (px a) (px b)) as [C1 [C2 C3]].
  destruct (qlt (fmin (py a) (py b)) (py q)) eqn:D1; cbn [andb]; [|rewrite xorb_false_r; eauto].
  destruct (qle (py q) (fmax (py a) (py b))) eqn:D2; cbn [andb]; [|rewrite xorb_false_r; eauto].
  destruct (qle (px q) (fmax (px a) (px b))) eqn:D3; cbn [andb]; [|rewrite xorb_false_r; eauto].
  destruct (qeq (py a) (py b)) eqn:E.
  { exfalso. bsplit. destruct A3 as [A3|A3], B3 as [B3|B3]; rewrite A3, B3 in *; qlra. }
  cbn [negb]. destruct (qeq (px a) (px b)) eqn:F.
  - apply qeq_true in F. eexists. f_equal. f_equal. replace ((py q - py a) * (px b - px a) / (py b - py a) + px a) with (px a) by (rewrite F; unfold Qcdiv; ring).
    bsplit. rewrite (proj2 (qle_true (px q) (px a))); [rewrite xorb_true_r; reflexivity|]. destruct C3 as [C3|C3]; rewrite C3 in *; qlra.
  - eexists. apply f_equal, f_equal2; [reflexivity|]. destruct (qle (px q) _), ins; reflexivity.
Qed.
Lemma scan_ok q a l xi ins : exists xi', scan q a l (xi, ins) = Ok (xi', xorb ins (xsum (leaf_hit q) (steps (a :: l)))).
Proof.
  revert a xi ins. induction l as [|b l IH]; intros a xi ins; [cbn; rewrite xorb_false_r; eauto|].
  cbn [scan]. destruct (turn_ok q a b xi ins) as [xi1 E]. rewrite E. cbn [bind]. destruct (IH b xi1 (xorb ins (leaf_hit q (a, b)))) as [xi2 F]. rewrite F.
  eexists. f_equal. f_equal. change (steps (a :: b :: l)) with ((a, b) :: steps (b :: l)). cbn [xsum fold_right]. rewrite xorb_assoc. reflexivity.
Qed.
Lemma scan_is_parity q poly : poly <> [] -> is_point_in_polygon q poly = Ok (xsum (leaf_hit q) (edges_of poly)).
Proof.
  destruct poly as [|p r]; [congruence|]. intros _. unfold is_point_in_polygon. destruct (scan_ok q p ((p :: r) ++ [p]) None false) as [xi E]. rewrite E. cbn [bind]. f_equal.
  rewrite edges_steps. change (steps (p :: (p :: r) ++ [p])) with ((p, p) :: steps (p :: r ++ [p])). cbn [xsum fold_right]. rewrite no_hit_same, !xorb_false_l. reflexivity.
Qed.

(* ---- bounding volume hierarchy ---- *)
Fixpoint tips (t : bvh) : list (p2 * p2) := match t with Leaf _ e => [e] | Inner _ l r => tips l ++ tips r end.
Definition inside_box (b c : bbox) : Prop := x_max b <= x_max c /\ y_min c <= y_min b /\ y_max b <= y_max c.
Fixpoint boxed (t : bvh) : Prop :=
  match t with Leaf b e => b = edge_box e | Inner b l r => inside_box (bb_of l) b /\ inside_box (bb_of r) b /\ boxed l /\ boxed r end.
Lemma inside_box_trans a b c : inside_box a b -> inside_box b c -> inside_box a c.
Proof. intros [A [B C]] [D [E F]]. repeat split; qlra. Qed.
Lemma boxed_tips t : boxed t -> forall e, In e (tips t) -> inside_box (edge_box e) (bb_of t).
Proof.
  induction t as [b e|b l IHl r IHr]; cbn.
  - intros -> e' [<-|[]]. repeat split; apply Qcle_refl.
  - intros [A [B [C D]]] e H. apply in_app_or in H. destruct H as [H|H]; eapply inside_box_trans; eauto.
Qed.
Lemma union_in a b : inside_box a (bunion a b) /\ inside_box b (bunion a b).
Proof.
  unfold inside_box, bunion; cbn. destruct (fmax_spec (x_max a) (x_max b)) as [A [B _]]. destruct (fmax_spec (y_max a) (y_max b)) as [C [D _]]. destruct (fmin_spec (y_min a) (y_min b)) as [E [F _]]. repeat split; assumption.
Qed.
Lemma build_ok fuel os : os <> [] -> (length os <= fuel)%nat -> Forall (fun o => fst o = edge_box (snd o)) os ->
  exists t, build_recursive fuel os = Ok t /\ boxed t /\ Permutation (tips t) (map snd os).
Proof.
  revert os. induction fuel as [|fuel IH]; intros os H L F; [destruct os; [congruence|cbn in L; lia]|].
  cbn [build_recursive]. destruct os as [|o1 [|o2 os]]; [congruence| |].
  { exists (Leaf (fst o1) (snd o1)). inversion F; subst. split; [reflexivity|]. split; [assumption|]. reflexivity. }
  remember (o1 :: o2 :: os) as all eqn:EA. set (key := fun o : bbox * (p2 * p2) => _). set (s := sort_by key all). pose proof (sort_perm key all) as P. fold s in P.
  assert (N : (2 <= length s)%nat) by (rewrite (Permutation_length P), EA; cbn; lia).
  assert (Fs : Forall (fun o => fst o = edge_box (snd o)) s) by (eapply Permutation_Forall; [symmetry; exact P|exact F]).
  pose proof (Nat.div2_odd (length s)) as O. assert (M : (1 <= Nat.div2 (length s) /\ Nat.div2 (length s) < length s)%nat) by (destruct (Nat.odd (length s)); cbn in O; lia).
  assert (LL : (length s <= S fuel)%nat) by (rewrite (Permutation_length P); exact L).
  set (mid := Nat.div2 (length s)) in *.
  destruct (IH (firstn mid s)) as [l [El [Bl Pl]]].
  { intro Z. apply (f_equal (@length _)) in Z. rewrite firstn_length in Z. cbn [length] in Z. lia. }
  { rewrite firstn_length. lia. }
  { rewrite <- (firstn_skipn mid s) in Fs. apply Forall_app in Fs. tauto. }
  destruct (IH (skipn mid s)) as [r [Er [Br Pr]]].
  { intro Z. apply (f_equal (@length _)) in Z. rewrite skipn_length in Z. cbn [length] in Z. lia. }
  { rewrite skipn_length. lia. }
  { rewrite <- (firstn_skipn mid s) in Fs. apply Forall_app in Fs. tauto. }
  rewrite El. cbn [bind]. rewrite Er. cbn [bind]. eexists. split; [reflexivity|]. destruct (union_in (bb_of l) (bb_of r)). split; [cbn; auto|].
  cbn [tips]. rewrite Pl, Pr, <- map_app, firstn_skipn. apply Permutation_map. exact P.
Qed.
Lemma hit_in_box q e b : leaf_hit q e = true -> inside_box (edge_box e) b -> intersects_ray b (px q) (py q) = true.
Proof.
  destruct e as [a c]. intros H [A [B C]]. unfold leaf_hit in H. cbn [edge_box x_max y_min y_max fst snd] in *. unfold intersects_ray.
  destruct (qlt (fmin (py a) (py c)) (py q)) eqn:D1; [|discriminate]. destruct (qle (py q) (fmax (py a) (py c))) eqn:D2; [|discriminate]. destruct (qle (px q) (fmax (px a) (px c))) eqn:D3; [|discriminate]. bsplit.
  rewrite (proj2 (qle_true (y_min b) (py q))) by qlra. rewrite (proj2 (qle_true (py q) (y_max b))) by qlra. apply qle_true. qlra.
Qed.
Lemma filter_nothing {A} (f : A -> bool) l : (forall a, In a l -> f a = false) -> filter f l = [].
Proof. induction l as [|a l IH]; cbn; [reflexivity|]. intros H. rewrite (H a) by auto. auto. Qed.
Lemma ray_hits_count q t : boxed t -> ray_hits q t = length (filter (leaf_hit q) (tips t)).
Proof.
  intros B. pose proof (boxed_tips t B) as I. destruct (intersects_ray (bb_of t) (px q) (py q)) eqn:E.
  2: { rewrite filter_nothing. destruct t; cbn [ray_hits]; rewrite E; reflexivity. intros e H. destruct (leaf_hit q e) eqn:F; [|reflexivity]. rewrite (hit_in_box q e _ F (I e H)) in E. discriminate. }
  clear I. induction t as [b e|b l IHl r IHr]; cbn [ray_hits]; rewrite E; cbn [negb tips filter].
  - destruct (leaf_hit q e); reflexivity.
  - destruct B as [_ [_ [Bl Br]]]. rewrite filter_app, app_length.
    assert (G : forall t, boxed t -> (intersects_ray (bb_of t) (px q) (py q) = true -> ray_hits q t = length (filter (leaf_hit q) (tips t))) -> ray_hits q t = length (filter (leaf_hit q) (tips t))).
    { intros t Bt K. destruct (intersects_ray (bb_of t) (px q) (py q)) eqn:F; [apply K; reflexivity|]. rewrite filter_nothing. destruct t; cbn [ray_hits]; rewrite F; reflexivity.
      intros e H. destruct (leaf_hit q e) eqn:G; [|reflexivity]. rewrite (hit_in_box q e _ G (boxed_tips t Bt e H)) in F. discriminate. }
    rewrite (G l Bl) by (intros; apply IHl; assumption). rewrite (G r Br) by (intros; apply IHr; assumption). reflexivity.
Qed.
Lemma edges_nonempty poly : poly <> [] -> edges_of poly <> [].
Proof. destruct poly as [|a [|b l]]; cbn; congruence. Qed.
Lemma bvh_agrees poly q : poly <> [] -> exists n, forall fuel, (n < fuel)%nat -> is_point_in_polygon_bvh fuel poly q = is_point_in_polygon q poly.
Proof.
  intros H. exists (length (edges_of poly)). intros fuel L. unfold is_point_in_polygon_bvh, polygon_build_bvh.
  destruct (build_ok fuel (map (fun e => (edge_box e, e)) (edges_of poly))) as [t [E [B P]]].
  { intro Z. apply map_eq_nil in Z. apply (edges_nonempty _ H Z). }
  { rewrite map_length. lia. }
  { apply Forall_forall. intros o I. apply in_map_iff in I. destruct I as [e [<- _]]. reflexivity. }
  rewrite E. cbn [bind]. rewrite ray_hits_count, xsum_odd by assumption. rewrite scan_is_parity by assumption. f_equal.
  rewrite (xsum_perm _ _ _ P), map_map, map_id. reflexivity.
Qed.
Lemma bvh_empty fuel q : is_point_in_polygon_bvh fuel [] q = Err OutOfFuel.
Proof. unfold is_point_in_polygon_bvh, polygon_build_bvh. cbn [edges_of map]. induction fuel as [|fuel IH]; [reflexivity|]. cbn [build_recursive]. cbn. destruct (build_recursive fuel []) eqn:E; cbn in *; [discriminate|]. congruence. Qed.

(* ---- starting vertex and direction ---- *)
Lemma steps_app l a m : steps (l ++ a :: m) = steps (l ++ [a]) ++ steps (a :: m).
Proof.
  induction l as [|b l IH]; [reflexivity|]. destruct l as [|c l]; [reflexivity|]. cbn [app] in *. change (steps (b :: c :: l ++ a :: m)) with ((b, c) :: steps (c :: l ++ a :: m)). rewrite IH. reflexivity.
Qed.
Lemma edges_rotate l m : Permutation (edges_of (l ++ m)) (edges_of (m ++ l)).
Proof.
  destruct l as [|a l]; [rewrite app_nil_r; reflexivity|]. destruct m as [|b m]; [rewrite app_nil_r; reflexivity|].
  cbn [app]. rewrite !edges_steps, <- !app_assoc. cbn [app].
  change (a :: l ++ b :: m ++ [a]) with ((a :: l) ++ b :: (m ++ [a])). change (b :: m ++ a :: l ++ [b]) with ((b :: m) ++ a :: (l ++ [b])).
  rewrite (steps_app (a :: l)), (steps_app (b :: m)). cbn [app]. apply Permutation_app_comm.
Qed.
Lemma steps_rev l : steps (rev l) = rev (map (fun e => (snd e, fst e)) (steps l)).
Proof.
  induction l as [|a l IH]; [reflexivity|]. destruct l as [|b l]; [reflexivity|]. change (steps (a :: b :: l)) with ((a, b) :: steps (b :: l)). cbn [map rev fst snd]. rewrite <- IH. cbn [rev]. rewrite <- app_assoc. cbn [app].
  rewrite steps_app. reflexivity.
Qed.
Lemma rotate_same q l m : is_point_in_polygon q (l ++ m) = is_point_in_polygon q (m ++ l).
Proof.
  destruct (l ++ m) as [|p r] eqn:E; [apply app_eq_nil in E; destruct E; subst; reflexivity|].
  rewrite (scan_is_parity q (p :: r)) by congruence. rewrite scan_is_parity by (intro K; apply app_eq_nil in K; destruct K; subst; discriminate). f_equal. rewrite <- E. apply xsum_perm, edges_rotate.
Qed.
Lemma reverse_same q l : is_point_in_polygon q (rev l) = is_point_in_polygon q l.
Proof.
  destruct l as [|a l]; [reflexivity|]. cbn [rev]. rewrite (rotate_same q (rev l) [a]). cbn [app]. rewrite !scan_is_parity by congruence. f_equal. rewrite !edges_steps.
  replace (a :: rev l ++ [a]) with (rev (a :: l ++ [a])) by (cbn [rev]; rewrite rev_app_distr; reflexivity). rewrite steps_rev.
  rewrite (xsum_perm _ _ _ (Permutation_sym (Permutation_rev _))), xsum_map. apply xsum_ext. intros [u v] _. apply hit_sym.
Qed.
(* a further vertex on an edge *)
Lemma hit_split q a b t : 0 <= t -> t <= 1 -> leaf_hit q (a, b) = xorb (leaf_hit q (a, lerp t a b)) (leaf_hit q (lerp t a b, b)).
Proof.
  intros T0 T1. set (m := lerp t a b).
  assert (O1 : orient a m q = t * orient a b q) by (unfold m, lerp, orient; cbn [fst snd]; ring).
  assert (O2 : orient m b q = (1 - t) * orient a b q) by (unfold m, lerp, orient; cbn [fst snd]; ring).
  assert (H : py m - py q = (1 - t) * (py a - py q) + t * (py b - py q)) by (unfold m, lerp, py; cbn [fst snd]; ring).
  pose proof (hit_iff q a b) as A. pose proof (hit_iff q a m) as B. pose proof (hit_iff q m b) as C. rewrite O1 in B. rewrite O2 in C. rewrite H in B, C. unfold crossing in *.
  set (o := orient a b q) in *. set (ha := py a - py q) in *. set (hb := py b - py q) in *. clearbody o ha hb. clear O1 O2 H. subst m.
  assert (T : t = 0 \/ t = 1 \/ (0 < t /\ t < 1)) by (destruct (Qclt_le_dec 0 t); [destruct (Qclt_le_dec t 1); [auto|right; left; qlra]|left; qlra]).
  destruct T as [->|[->|[P Q]]].
  - replace (leaf_hit q (a, lerp 0 a b)) with false in *. 2: { symmetry. apply not_true_iff_false. rewrite B. intros [[E [F G]]|[E [F G]]]; qlra. }
    rewrite xorb_false_l. apply eq_true_iff_eq. rewrite A, C. replace ((1 - 0) * ha + 0 * hb) with ha by ring. replace ((1 - 0) * o) with o by ring. reflexivity.
  - replace (leaf_hit q (lerp 1 a b, b)) with false in *. 2: { symmetry. apply not_true_iff_false. rewrite C. intros [[E [F G]]|[E [F G]]]; qlra. }
    rewrite xorb_false_r. apply eq_true_iff_eq. rewrite A, B. replace ((1 - 1) * ha + 1 * hb) with hb by ring. replace (1 * o) with o by ring. reflexivity.
  - assert (S1 : forall x, 0 <= t * x <-> 0 <= x) by (intros x; split; intros; [destruct (Qclt_le_dec x 0) as [D|D]; [exfalso; assert (0 < t * (- x)) by (apply qc_mul_pos; qlra); qlra|exact D]|apply qc_mul_nonneg; assumption]).
    assert (S2 : forall x, t * x <= 0 <-> x <= 0) by (intros x; split; intros; [destruct (Qclt_le_dec 0 x) as [D|D]; [exfalso; assert (0 < t * x) by (apply qc_mul_pos; qlra); qlra|exact D]|assert (0 <= t * (- x)) by (apply qc_mul_nonneg; qlra); qlra]).
    assert (P' : 0 < 1 - t) by qlra.
    assert (S3 : forall x, 0 <= (1 - t) * x <-> 0 <= x) by (intros x; split; intros; [destruct (Qclt_le_dec x 0) as [D|D]; [exfalso; assert (0 < (1 - t) * (- x)) by (apply qc_mul_pos; qlra); qlra|exact D]|apply qc_mul_nonneg; qlra]).
    assert (S4 : forall x, (1 - t) * x <= 0 <-> x <= 0) by (intros x; split; intros; [destruct (Qclt_le_dec 0 x) as [D|D]; [exfalso; assert (0 < (1 - t) * x) by (apply qc_mul_pos; qlra); qlra|exact D]|assert (0 <= (1 - t) * (- x)) by (apply qc_mul_nonneg; qlra); qlra]).
    rewrite S1, S2 in B. rewrite S3, S4 in C.
    assert (M1 : ha < 0 -> hb < 0 -> (1 - t) * ha + t * hb < 0) by (intros; assert (0 < (1 - t) * (- ha)) by (apply qc_mul_pos; qlra); assert (0 < t * (- hb)) by (apply qc_mul_pos; qlra); qlra).
    assert (M2 : 0 <= ha -> 0 <= hb -> 0 <= (1 - t) * ha + t * hb) by (intros; assert (0 <= (1 - t) * ha) by (apply qc_mul_nonneg; qlra); assert (0 <= t * hb) by (apply qc_mul_nonneg; qlra); qlra).
    set (hm := (1 - t) * ha + t * hb) in *. clearbody hm.
    destruct (leaf_hit q (a, b)), (leaf_hit q (a, lerp t a b)), (leaf_hit q (lerp t a b, b)); cbn; try reflexivity; exfalso;
      repeat match goal with H : ?b = ?b <-> _ |- _ => let K := fresh in pose proof (proj1 H eq_refl) as K; clear H | H : false = true <-> ?P |- _ => let K := fresh in assert (K : ~ P) by (intro K; apply H in K; discriminate); clear H end;
      destruct (Qclt_le_dec ha 0), (Qclt_le_dec hb 0), (Qclt_le_dec hm 0); try (specialize (M1 ltac:(assumption) ltac:(assumption)); qlra); try (specialize (M2 ltac:(assumption) ltac:(assumption)); qlra);
      destruct (Qclt_le_dec o 0); destruct (Qclt_le_dec 0 o);
      repeat match goal with H : _ \/ _ |- _ => destruct H | H : _ /\ _ |- _ => destruct H end; try qlra;
      match goal with H : ~ _ |- _ => apply H; ((left; repeat split; solve [assumption|qlra]) || (right; repeat split; solve [assumption|qlra])) end.
Qed.
