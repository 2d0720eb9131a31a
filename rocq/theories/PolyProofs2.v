(* Lemmas for PolyProps.v: the even-odd rule. *)
From Coq Require Import List Arith ZArith Bool QArith Qcanon Lia Permutation.
From Verif Require Import Common QcLib ListLib ArrZ AabbModel AabbSpec AabbProofs ImplModel RtreeModel RtreeProofs PolyModel PolySpec PolyProofs.
Import ListNotations.
Local Open Scope Qc_scope.

(* ---- a triangle ---- *)
Lemma sgn3 a : a < 0 \/ a = 0 \/ 0 < a.
Proof. destruct (Qclt_le_dec a 0) as [H|H]; [auto|]. destruct (Qclt_le_dec 0 a) as [K|K]; [auto|]. right; left. qlra. Qed.
Lemma pos_neg a b : 0 < a -> b < 0 -> a * b < 0.
Proof. intros. assert (0 < a * (- b)) by (apply qc_mul_pos; qlra). qlra. Qed.

(* o, a, b as seen from the point: heights h and cross products *)
Lemma all_above x0 x1 x2 h0 h1 h2 c01 c12 c20 : c01 = x0 * h1 - x1 * h0 -> c12 = x1 * h2 - x2 * h1 -> c20 = x2 * h0 - x0 * h2 ->
  0 <= h0 -> 0 <= h1 -> 0 <= h2 -> 0 < c01 -> 0 < c12 -> 0 < c20 -> False.
Proof.
  intros E1 E2 E3 A B C D E F. assert (I : h0 * c12 + h1 * c20 + h2 * c01 = 0) by (subst; ring).
  assert (0 <= h0 * c12) by (apply qc_mul_nonneg; qlra). assert (0 <= h1 * c20) by (apply qc_mul_nonneg; qlra). assert (0 <= h2 * c01) by (apply qc_mul_nonneg; qlra).
  assert (Z : forall h c, 0 <= h -> 0 < c -> h * c <= 0 -> h = 0).
  { intros h c G1 G2 G3. destruct (Qclt_le_dec 0 h) as [K|K]; [assert (0 < h * c) by (apply qc_mul_pos; assumption); qlra|qlra]. }
  assert (h0 = 0) by (apply (Z h0 c12); try assumption; qlra). assert (h1 = 0) by (apply (Z h1 c20); try assumption; qlra). subst. qlra.
Qed.
Lemma all_below x0 x1 x2 h0 h1 h2 c01 c12 c20 : c01 = x0 * h1 - x1 * h0 -> c12 = x1 * h2 - x2 * h1 -> c20 = x2 * h0 - x0 * h2 ->
  h0 <= 0 -> h1 <= 0 -> h2 <= 0 -> 0 < c01 -> 0 < c12 -> 0 < c20 -> False.
Proof. intros. apply (all_above (- x0) (- x1) (- x2) (- h0) (- h1) (- h2) c01 c12 c20); subst; try ring; qlra. Qed.

Definition three (b0 b1 b2 : bool) : bool := xorb b0 (xorb b1 b2).
Lemma three_rot a b c : three a b c = three b c a.
Proof. destruct a, b, c; reflexivity. Qed.
Definition same_sign (a b c : Qc) : Prop := (0 < a /\ 0 < b /\ 0 < c) \/ (a < 0 /\ b < 0 /\ c < 0).
Lemma same_sign_rot a b c : same_sign a b c <-> same_sign b c a.
Proof. unfold same_sign. tauto. Qed.
Definition reads (b : bool) (P : Prop) : Prop := b = true <-> P.
Lemma reads_true b (P : Prop) : reads b P -> P -> b = true.
Proof. intros H. apply H. Qed.
Lemma reads_false b (P : Prop) : reads b P -> ~ P -> b = false.
Proof. intros H K. apply not_true_iff_false. intro E. apply K, H, E. Qed.

(* one vertex below, two not *)
Lemma tri_low h0 h1 h2 c01 c12 c20 : h0 * c12 + h1 * c20 + h2 * c01 = 0 ->
  forall h01 h12 h20, reads h01 (crossing h0 h1 c01) -> reads h12 (crossing h1 h2 c12) -> reads h20 (crossing h2 h0 c20) ->
  c01 <> 0 -> c12 <> 0 -> c20 <> 0 -> h0 < 0 -> 0 <= h1 -> 0 <= h2 -> (three h01 h12 h20 = true <-> same_sign c01 c12 c20).
Proof.
  intros I h01 h12 h20 R1 R2 R3 N1 N2 N3 A B C. unfold crossing in *.
  assert (h12 = false) as -> by (eapply reads_false; [exact R2|]; intros [[? [? ?]]|[? [? ?]]]; qlra).
  destruct (sgn3 c01) as [S1|[S1|S1]]; [|contradiction|]; (destruct (sgn3 c20) as [S3|[S3|S3]]; [|contradiction|]).
  - assert (h01 = false) as -> by (eapply reads_false; [exact R1|]; intros [[? [? ?]]|[? [? ?]]]; qlra). assert (h20 = true) as -> by (eapply reads_true; [exact R3|]; right; repeat split; qlra).
    split; [intros _|reflexivity]. right. split; [assumption|]. split; [|assumption]. destruct (sgn3 c12) as [S2|[S2|S2]]; [assumption|contradiction|]. exfalso.
    assert (0 <= h1 * (- c20)) by (apply qc_mul_nonneg; qlra). assert (0 <= h2 * (- c01)) by (apply qc_mul_nonneg; qlra). assert (0 < (- h0) * c12) by (apply qc_mul_pos; qlra). qlra.
  - assert (h01 = false) as -> by (eapply reads_false; [exact R1|]; intros [[? [? ?]]|[? [? ?]]]; qlra). assert (h20 = false) as -> by (eapply reads_false; [exact R3|]; intros [[? [? ?]]|[? [? ?]]]; qlra).
    split; [discriminate|]. intros [[? [? ?]]|[? [? ?]]]; qlra.
  - assert (h01 = true) as -> by (eapply reads_true; [exact R1|]; left; repeat split; qlra). assert (h20 = true) as -> by (eapply reads_true; [exact R3|]; right; repeat split; qlra).
    split; [discriminate|]. intros [[? [? ?]]|[? [? ?]]]; qlra.
  - assert (h01 = true) as -> by (eapply reads_true; [exact R1|]; left; repeat split; qlra). assert (h20 = false) as -> by (eapply reads_false; [exact R3|]; intros [[? [? ?]]|[? [? ?]]]; qlra).
    split; [intros _|reflexivity]. left. split; [assumption|]. split; [|assumption]. destruct (sgn3 c12) as [S2|[S2|S2]]; [|contradiction|assumption]. exfalso.
    assert (0 <= h1 * c20) by (apply qc_mul_nonneg; qlra). assert (0 <= h2 * c01) by (apply qc_mul_nonneg; qlra). assert (0 < (- h0) * (- c12)) by (apply qc_mul_pos; qlra). qlra.
Qed.
(* one vertex not below, two below *)
Lemma tri_high h0 h1 h2 c01 c12 c20 : h0 * c12 + h1 * c20 + h2 * c01 = 0 ->
  forall h01 h12 h20, reads h01 (crossing h0 h1 c01) -> reads h12 (crossing h1 h2 c12) -> reads h20 (crossing h2 h0 c20) ->
  c01 <> 0 -> c12 <> 0 -> c20 <> 0 -> 0 <= h0 -> h1 < 0 -> h2 < 0 -> (three h01 h12 h20 = true <-> same_sign c01 c12 c20).
Proof.
  intros I h01 h12 h20 R1 R2 R3 N1 N2 N3 A B C. unfold crossing in *.
  assert (h12 = false) as -> by (eapply reads_false; [exact R2|]; intros [[? [? ?]]|[? [? ?]]]; qlra).
  destruct (sgn3 c01) as [S1|[S1|S1]]; [|contradiction|]; (destruct (sgn3 c20) as [S3|[S3|S3]]; [|contradiction|]).
  - assert (h01 = true) as -> by (eapply reads_true; [exact R1|]; right; repeat split; qlra). assert (h20 = false) as -> by (eapply reads_false; [exact R3|]; intros [[? [? ?]]|[? [? ?]]]; qlra).
    split; [intros _|reflexivity]. right. split; [assumption|]. split; [|assumption]. destruct (sgn3 c12) as [S2|[S2|S2]]; [assumption|contradiction|]. exfalso.
    assert (0 < (- h1) * (- c20)) by (apply qc_mul_pos; qlra). assert (0 < (- h2) * (- c01)) by (apply qc_mul_pos; qlra). assert (0 <= h0 * c12) by (apply qc_mul_nonneg; qlra). qlra.
  - assert (h01 = true) as -> by (eapply reads_true; [exact R1|]; right; repeat split; qlra). assert (h20 = true) as -> by (eapply reads_true; [exact R3|]; left; repeat split; qlra).
    split; [discriminate|]. intros [[? [? ?]]|[? [? ?]]]; qlra.
  - assert (h01 = false) as -> by (eapply reads_false; [exact R1|]; intros [[? [? ?]]|[? [? ?]]]; qlra). assert (h20 = false) as -> by (eapply reads_false; [exact R3|]; intros [[? [? ?]]|[? [? ?]]]; qlra).
    split; [discriminate|]. intros [[? [? ?]]|[? [? ?]]]; qlra.
  - assert (h01 = false) as -> by (eapply reads_false; [exact R1|]; intros [[? [? ?]]|[? [? ?]]]; qlra). assert (h20 = true) as -> by (eapply reads_true; [exact R3|]; left; repeat split; qlra).
    split; [intros _|reflexivity]. left. split; [assumption|]. split; [|assumption]. destruct (sgn3 c12) as [S2|[S2|S2]]; [|contradiction|assumption]. exfalso.
    assert (0 < (- h1) * c20) by (apply qc_mul_pos; qlra). assert (0 < (- h2) * c01) by (apply qc_mul_pos; qlra). assert (0 <= h0 * (- c12)) by (apply qc_mul_nonneg; qlra). qlra.
Qed.
Lemma tri_pos x0 x1 x2 h0 h1 h2 c01 c12 c20 : c01 = x0 * h1 - x1 * h0 -> c12 = x1 * h2 - x2 * h1 -> c20 = x2 * h0 - x0 * h2 ->
  forall h01 h12 h20, reads h01 (crossing h0 h1 c01) -> reads h12 (crossing h1 h2 c12) -> reads h20 (crossing h2 h0 c20) ->
  c01 <> 0 -> c12 <> 0 -> c20 <> 0 -> (three h01 h12 h20 = true <-> same_sign c01 c12 c20).
Proof.
  intros E1 E2 E3 h01 h12 h20 R1 R2 R3 N1 N2 N3. assert (I : h0 * c12 + h1 * c20 + h2 * c01 = 0) by (subst; ring).
  assert (I' : h1 * c20 + h2 * c01 + h0 * c12 = 0) by qlra. assert (I'' : h2 * c01 + h0 * c12 + h1 * c20 = 0) by qlra.
  destruct (Qclt_le_dec h0 0) as [H0|H0]; destruct (Qclt_le_dec h1 0) as [H1|H1]; destruct (Qclt_le_dec h2 0) as [H2|H2].
  - assert (h01 = false) as -> by (eapply reads_false; [exact R1|]; intros [[? [? ?]]|[? [? ?]]]; qlra). assert (h12 = false) as -> by (eapply reads_false; [exact R2|]; intros [[? [? ?]]|[? [? ?]]]; qlra). assert (h20 = false) as -> by (eapply reads_false; [exact R3|]; intros [[? [? ?]]|[? [? ?]]]; qlra).
    split; [discriminate|]. intros [[P [Q R]]|[P [Q R]]]; exfalso; [apply (all_below x0 x1 x2 h0 h1 h2 c01 c12 c20 E1 E2 E3); qlra|apply (all_above x0 x1 x2 (- h0) (- h1) (- h2) (- c01) (- c12) (- c20)); subst; try ring; qlra].
  - rewrite three_rot, three_rot, same_sign_rot, same_sign_rot. apply (tri_high h2 h0 h1 c20 c01 c12); assumption.
  - rewrite three_rot, same_sign_rot. apply (tri_high h1 h2 h0 c12 c20 c01); assumption.
  - apply (tri_low h0 h1 h2 c01 c12 c20); assumption.
  - apply (tri_high h0 h1 h2 c01 c12 c20); assumption.
  - rewrite three_rot, same_sign_rot. apply (tri_low h1 h2 h0 c12 c20 c01); assumption.
  - rewrite three_rot, three_rot, same_sign_rot, same_sign_rot. apply (tri_low h2 h0 h1 c20 c01 c12); assumption.
  - assert (h01 = false) as -> by (eapply reads_false; [exact R1|]; intros [[? [? ?]]|[? [? ?]]]; qlra). assert (h12 = false) as -> by (eapply reads_false; [exact R2|]; intros [[? [? ?]]|[? [? ?]]]; qlra). assert (h20 = false) as -> by (eapply reads_false; [exact R3|]; intros [[? [? ?]]|[? [? ?]]]; qlra).
    split; [discriminate|]. intros [[P [Q R]]|[P [Q R]]]; exfalso; [apply (all_above x0 x1 x2 h0 h1 h2 c01 c12 c20 E1 E2 E3); qlra|apply (all_below x0 x1 x2 (- h0) (- h1) (- h2) (- c01) (- c12) (- c20)); subst; try ring; qlra].
Qed.

(* ---- a polygon is the sum of its fan of triangles ---- *)
Section Fan.
Context (hit : p2 * p2 -> bool) (sym : forall a b, hit (a, b) = hit (b, a)) (none : forall a, hit (a, a) = false).
Definition tri_hit (t : p2 * p2 * p2) : bool := three (hit (fst (fst t), snd (fst t))) (hit (snd (fst t), snd t)) (hit (snd t, fst (fst t))).
Lemma fan_sum o a l : xorb (hit (o, a)) (xsum hit (steps (a :: l ++ [o]))) = xsum tri_hit (fan o (a :: l)).
Proof.
  revert a. induction l as [|b l IH]; intros a.
  - cbn [app steps fan xsum fold_right]. rewrite (sym a o), xorb_false_r, xorb_nilpotent. reflexivity.
  - cbn [app]. change (steps (a :: b :: l ++ [o])) with ((a, b) :: steps (b :: l ++ [o])). change (fan o (a :: b :: l)) with ((o, a, b) :: fan o (b :: l)). cbn [xsum fold_right].
    fold (xsum hit (steps (b :: l ++ [o]))). fold (xsum tri_hit (fan o (b :: l))). rewrite <- IH. unfold tri_hit, three. cbn [fst snd]. rewrite (sym b o).
    destruct (hit (o, a)), (hit (a, b)), (hit (o, b)), (xsum hit (steps (b :: l ++ [o]))); reflexivity.
Qed.
Lemma edges_fan poly : xsum hit (edges_of poly) = xsum tri_hit (triangles poly).
Proof.
  destruct poly as [|o [|a l]]; [reflexivity|cbn; rewrite none; reflexivity|]. rewrite edges_steps. cbn [app]. change (steps (o :: a :: l ++ [o])) with ((o, a) :: steps (a :: l ++ [o])). cbn [triangles]. rewrite <- fan_sum. reflexivity.
Qed.
End Fan.
Lemma xsum_counted {A} (f : A -> bool) (P : A -> Prop) l : Forall (fun a => f a = true <-> P a) l -> counted P l (length (filter f l)).
Proof.
  induction l as [|a l IH]; intros F; [constructor|]. inversion F as [|? ? H K]; subst. cbn [filter]. destruct (f a) eqn:E; [apply counted_yes; [apply H; reflexivity|auto]|]. apply counted_no; [|auto]. intros N. apply H in N. discriminate.
Qed.
Lemma counted_fun {A} (P : A -> Prop) l n m : counted P l n -> counted P l m -> n = m.
Proof. intros H. revert m. induction H; intros m K; inversion K; subst; try contradiction; auto. Qed.
Lemma parity_even_odd hit (sym : forall a b, hit (a, b) = hit (b, a)) (none : forall a, hit (a, a) = false) q poly :
  Forall (fun t => tri_hit hit t = true <-> in_triangle q (fst (fst t)) (snd (fst t)) (snd t)) (triangles poly) ->
  (xsum hit (edges_of poly) = true <-> even_odd_inside q poly).
Proof.
  intros F. rewrite (edges_fan hit sym none). rewrite <- xsum_odd. pose proof (xsum_counted _ _ _ F) as C. split.
  - intros O. eexists. split; [exact C|exact O].
  - intros [n [N O]]. rewrite (counted_fun _ _ _ _ C N). exact O.
Qed.

Lemma tri_hits q t : off_line q (fst (fst t)) (snd (fst t)) -> off_line q (snd (fst t)) (snd t) -> off_line q (snd t) (fst (fst t)) ->
  (tri_hit (leaf_hit q) t = true <-> in_triangle q (fst (fst t)) (snd (fst t)) (snd t)).
Proof.
  destruct t as [[o a] b]. cbn [fst snd]. unfold tri_hit. cbn [fst snd].
  assert (D : forall u v, ~ in_triangle q u u v /\ ~ in_triangle q u v u /\ ~ in_triangle q v u u).
  { intros u v. unfold in_triangle. assert (orient u u q = 0) as -> by (unfold orient; ring). repeat split; intros [[? [? ?]]|[? [? ?]]]; qlra. }
  intros [->|N1] H2 H3.
  { rewrite no_hit_same, (hit_sym q b a). unfold three. rewrite xorb_nilpotent. split; [discriminate|]. intros H. exfalso. exact (proj1 (D a b) H). }
  destruct H2 as [->|N2].
  { rewrite no_hit_same, (hit_sym q b o). unfold three. rewrite xorb_false_l, xorb_nilpotent. split; [discriminate|]. intros H. exfalso. exact (proj2 (proj2 (D b o)) H). }
  destruct H3 as [->|N3].
  { rewrite no_hit_same, (hit_sym q a o). unfold three. rewrite xorb_false_r, xorb_nilpotent. split; [discriminate|]. intros H. exfalso. exact (proj1 (proj2 (D o a)) H). }
  unfold in_triangle. apply (tri_pos (px o - px q) (px a - px q) (px b - px q) (py o - py q) (py a - py q) (py b - py q)); try assumption; try (unfold orient, px, py; ring); apply hit_iff.
Qed.
Lemma scan_even_odd q poly : poly <> [] -> generic q poly -> exists b, is_point_in_polygon q poly = Ok b /\ (b = true <-> even_odd_inside q poly).
Proof.
  intros N G. eexists. split; [apply scan_is_parity, N|]. apply parity_even_odd; [apply hit_sym|apply no_hit_same|]. eapply Forall_impl; [|exact G]. intros t [A [B C]]. apply tri_hits; assumption.
Qed.

(* ---- an extra vertex on an edge ---- *)
Lemma insert_same q u a b v t : 0 <= t -> t <= 1 -> is_point_in_polygon q (u ++ a :: lerp t a b :: b :: v) = is_point_in_polygon q (u ++ a :: b :: v).
Proof.
  intros T0 T1. rewrite (rotate_same q u (a :: lerp t a b :: b :: v)), (rotate_same q u (a :: b :: v)). cbn [app]. rewrite !scan_is_parity by congruence. f_equal. rewrite !edges_steps. cbn [app].
  change (steps (a :: lerp t a b :: b :: (v ++ u) ++ [a])) with ((a, lerp t a b) :: (lerp t a b, b) :: steps (b :: (v ++ u) ++ [a])). change (steps (a :: b :: (v ++ u) ++ [a])) with ((a, b) :: steps (b :: (v ++ u) ++ [a])).
  unfold xsum. cbn [fold_right]. rewrite (hit_split q a b t T0 T1), xorb_assoc. reflexivity.
Qed.
