(* Lemmas for PolyProps.v: Polygon.clip follows the right parts of the outlines. *)
From Coq Require Import List Arith ZArith Bool QArith Qcanon Lia Permutation Sorting.Sorted.
From Verif Require Import Common QcLib ListLib ArrZ AabbModel AabbSpec AabbProofs ImplModel RtreeModel RtreeProofs PolyModel PolySpec PolyProofs PolyProofs2 PolyProofs3 PolyProofs4 PolyProofs5 PolyProofs6 PolyProofs7 PolyProofs8.
Import ListNotations.
Local Open Scope Qc_scope.

(* ---- crossing an outline changes sides ---- *)
Definition crossb (p q : p2) (e : p2 * p2) : bool := match intersect p q (fst e) (snd e) with Some _ => true | None => false end.
Lemma crossb_iff p q e : crossb p q e = true <-> cross_properly p q (fst e) (snd e).
Proof.
  unfold crossb. destruct (intersect p q (fst e) (snd e)) as [[[x us] uc]|] eqn:E.
  - split; [intros _|reflexivity]. apply (intersect_some _ _ _ _ _ _ _ E).
  - split; [discriminate|]. intros H. destruct (intersect_proper _ _ _ _ H) as [r R]. congruence.
Qed.
(* even_odd_inside as a boolean *)
Lemma even_odd_bool q poly lo hi : fst lo <> fst hi \/ snd lo <> snd hi -> generic q poly -> xsum (ray_hit q lo hi) (outline poly) = true <-> even_odd_inside q poly.
Proof.
  intros D G. rewrite <- outline_edges. apply parity_even_odd; [intros; apply ray_sym|intros; apply ray_none|]. rewrite Forall_forall. intros t J. unfold generic in G. rewrite Forall_forall in G. destruct (G t J) as [G1 [G2 G3]]. apply tri_ray; assumption.
Qed.
Lemma xsum_xor {A} (f g : A -> bool) l : xsum (fun a => xorb (f a) (g a)) l = xorb (xsum f l) (xsum g l).
Proof. unfold xsum. induction l as [|a l IH]; [reflexivity|]. cbn [fold_right]. rewrite IH. destruct (f a), (g a), (fold_right (fun a b => xorb (f a) b) false l), (fold_right (fun a b => xorb (g a) b) false l); reflexivity. Qed.
Lemma edge_xor p q a b : orient p q a <> 0 -> orient p q b <> 0 -> off_line p a b -> off_line q a b -> crossb p q (a, b) = xorb (ray_hit p p q (a, b)) (ray_hit q p q (a, b)).
Proof.
  intros Na Nb Op Oq. assert (H1 : forall v, height p p q v = orient p q v) by (intros v; unfold height, orient, moved; cbn [fst snd]; ring). assert (H2 : forall v, height q p q v = orient p q v) by (intros v; unfold height, orient, moved; cbn [fst snd]; ring).
  assert (C : crossb p q (a, b) = true <-> cross_properly p q a b) by apply crossb_iff. assert (R1 := ray_iff p p q a b). assert (R2 := ray_iff q p q a b). rewrite !H1 in R1. rewrite !H2 in R2.
  destruct Op as [->|Op]; [rewrite !ray_none; cbn; apply not_true_iff_false; rewrite C; unfold cross_properly, opposite; intros [_ [[? ?]|[? ?]]]; qlra|]. destruct Oq as [->|Oq]; [rewrite !ray_none; cbn; apply not_true_iff_false; rewrite C; unfold cross_properly, opposite; intros [_ [[? ?]|[? ?]]]; qlra|].
  unfold cross_properly, opposite in C. unfold crossing in R1, R2.
  set (ha := orient p q a) in *. set (hb := orient p q b) in *. set (x := orient a b p) in *. set (y := orient a b q) in *. clearbody ha hb x y.
  apply eq_true_iff_eq. rewrite C.
  assert (F : forall (u : bool) P, (u = true <-> P) -> ~ P -> u = false) by (intros u P U N; apply not_true_iff_false; rewrite U; exact N).
  assert (T : forall (u : bool) (P : Prop), (u = true <-> P) -> P -> u = true) by (intros u P U N; apply U; exact N).
  destruct (sgn3 ha) as [A|[A|A]]; [|contradiction|]; (destruct (sgn3 hb) as [B|[B|B]]; [|contradiction|]).
  - rewrite (F _ _ R1), (F _ _ R2) by (intros [[? [? ?]]|[? [? ?]]]; qlra). split; [|discriminate]. intros [_ [[? ?]|[? ?]]]; qlra.
  - destruct (sgn3 x) as [X|[X|X]]; [|contradiction|]; (destruct (sgn3 y) as [Y|[Y|Y]]; [|contradiction|]).
    + rewrite (F _ _ R1), (F _ _ R2) by (intros [[? [? ?]]|[? [? ?]]]; qlra). split; [|discriminate]. intros [[[? ?]|[? ?]] _]; qlra.
    + rewrite (F _ _ R1) by (intros [[? [? ?]]|[? [? ?]]]; qlra). rewrite (T _ _ R2) by (left; repeat split; qlra). split; [reflexivity|]. intros _. split; left; split; assumption.
    + rewrite (F _ _ R2) by (intros [[? [? ?]]|[? [? ?]]]; qlra). rewrite (T _ _ R1) by (left; repeat split; qlra). split; [reflexivity|]. intros _. split; [right|left]; split; assumption.
    + rewrite (T _ _ R1), (T _ _ R2) by (left; repeat split; qlra). split; [|discriminate]. intros [[[? ?]|[? ?]] _]; qlra.
  - destruct (sgn3 x) as [X|[X|X]]; [|contradiction|]; (destruct (sgn3 y) as [Y|[Y|Y]]; [|contradiction|]).
    + rewrite (T _ _ R1), (T _ _ R2) by (right; repeat split; qlra). split; [|discriminate]. intros [[[? ?]|[? ?]] _]; qlra.
    + rewrite (F _ _ R2) by (intros [[? [? ?]]|[? [? ?]]]; qlra). rewrite (T _ _ R1) by (right; repeat split; qlra). split; [reflexivity|]. intros _. split; [left|right]; split; assumption.
    + rewrite (F _ _ R1) by (intros [[? [? ?]]|[? [? ?]]]; qlra). rewrite (T _ _ R2) by (right; repeat split; qlra). split; [reflexivity|]. intros _. split; right; split; assumption.
    + rewrite (F _ _ R1), (F _ _ R2) by (intros [[? [? ?]]|[? [? ?]]]; qlra). split; [|discriminate]. intros [[[? ?]|[? ?]] _]; qlra.
  - rewrite (F _ _ R1), (F _ _ R2) by (intros [[? [? ?]]|[? [? ?]]]; qlra). split; [|discriminate]. intros [_ [[? ?]|[? ?]]]; qlra.
Qed.
Definition inb (poly : list p2) (x : p2) (b : bool) : Prop := b = true <-> even_odd_inside x poly.
Lemma inb_fun poly x b b' : inb poly x b -> inb poly x b' -> b = b'.
Proof. unfold inb. intros H K. apply eq_true_iff_eq. rewrite H, K. reflexivity. Qed.
Lemma toggle p q poly b : clear_of p poly -> clear_of q poly -> (forall v, In v poly -> orient p q v <> 0) -> inb poly p b -> inb poly q (xorb b (xsum (crossb p q) (outline poly))).
Proof.
  intros [Gp Fp] [Gq Fq] N B. destruct poly as [|o r]; [assert (b = false) as ->; [destruct b; [|reflexivity]; destruct (proj1 B eq_refl) as [n [C O]]; inversion C; subst; discriminate|]; cbn; unfold inb; split; [discriminate|]; intros [n [C O]]; inversion C; subst; discriminate|].
  assert (D : fst p <> fst q \/ snd p <> snd q). { destruct (Qc_eq_dec (fst p) (fst q)) as [E|E]; [|left; exact E]. destruct (Qc_eq_dec (snd p) (snd q)) as [E'|E']; [|right; exact E']. exfalso. apply (N o (or_introl eq_refl)). unfold orient. rewrite E, E'. ring. }
  pose proof (even_odd_bool p (o :: r) p q D Gp) as Ep. pose proof (even_odd_bool q (o :: r) p q D Gq) as Eq.
  assert (X : xsum (crossb p q) (outline (o :: r)) = xorb (xsum (ray_hit p p q) (outline (o :: r))) (xsum (ray_hit q p q) (outline (o :: r)))).
  { rewrite <- xsum_xor. apply xsum_ext. intros [u v] I. rewrite Forall_forall in Fp, Fq. destruct (outline_in _ _ I) as [I1 I2]. cbn [fst snd] in *. apply edge_xor; [apply N, I1|apply N, I2|apply (Fp (u, v)), I|apply (Fq (u, v)), I]. }
  rewrite X. assert (b = xsum (ray_hit p p q) (outline (o :: r))) as -> by (apply (inb_fun (o :: r) p); [exact B|exact Ep]). rewrite <- xorb_assoc, xorb_nilpotent, xorb_false_l. exact Eq.
Qed.
(* the flag of the head *)
Lemma is_inside_ok p poly : clear_of p poly -> (forall w, In w poly -> snd w <> snd p /\ fst w < Q2Qc 1000000 /\ fst p < Q2Qc 1000000) -> inb poly p (is_inside p poly).
Proof.
  intros [G F] H. unfold is_inside. rewrite outline_edges, xsum_odd. destruct poly as [|o r]; [cbn; unfold inb; split; [discriminate|]; intros [n [C O]]; inversion C; subst; discriminate|].
  change (Q2Qc 1000000) with far in H. unfold inb. set (q := (far, py p)). assert (D : fst p <> fst q \/ snd p <> snd q) by (left; cbn; intros K; destruct (H o (or_introl eq_refl)) as [_ [_ K2]]; rewrite K in K2; qlra).
  rewrite <- (even_odd_bool p (o :: r) p q D G). rewrite (xsum_ext _ (ray_hit p p q)); [reflexivity|]. intros [a b] I. fold (crossb p q (a, b)). rewrite Forall_forall in F. specialize (F _ I). destruct (outline_in _ _ I) as [I1 I2]. cbn [fst snd] in *. destruct (H a I1) as [Ha [Xa Xp]]. destruct (H b I2) as [Hb [Xb _]]. clear H I I1 I2 G D.
  assert (HT : forall v, height p p q v = (far - fst p) * (snd v - snd p)) by (intros v; unfold height, orient, moved, q, py; cbn [fst snd]; ring). assert (Dp : 0 < far - fst p) by qlra.
  assert (C : crossb p q (a, b) = true <-> cross_properly p q a b) by apply crossb_iff. assert (R := ray_iff p p q a b). rewrite !HT in R.
  destruct F as [->|F]; [rewrite ray_none; apply not_true_iff_false; rewrite C; unfold cross_properly, opposite; intros [_ [[? ?]|[? ?]]]; qlra|].
  apply eq_true_iff_eq. rewrite C, R. unfold cross_properly, opposite, crossing.
  assert (E1 : orient p q a = (far - fst p) * (snd a - snd p)) by (unfold orient, q, py; cbn [fst snd]; ring). assert (E2 : orient p q b = (far - fst p) * (snd b - snd p)) by (unfold orient, q, py; cbn [fst snd]; ring). rewrite E1, E2.
  set (da := snd a - snd p) in *. set (db := snd b - snd p) in *. assert (Na : da <> 0) by (unfold da; intros K; apply Ha; qlra). assert (Nb : db <> 0) by (unfold db; intros K; apply Hb; qlra).
  assert (O2 : orient a b q = orient a b p - (far - fst p) * (db - da)) by (unfold orient, q, py, da, db; cbn [fst snd]; ring). rewrite O2.
  (* the crossing is left of the far point *)
  assert (I : (far - fst p) * (db - da) - orient a b p = (far - fst a) * db - (far - fst b) * da) by (unfold orient, da, db; ring).
  set (x := orient a b p) in *. set (A := far - fst a) in *. set (B := far - fst b) in *. assert (Ap : 0 < A) by (unfold A; qlra). assert (Bp : 0 < B) by (unfold B; qlra). set (m := far - fst p) in *. clearbody x A B m da db.
  destruct (sgn3 da) as [K|[K|K]]; [|contradiction|]; (destruct (sgn3 db) as [L|[L|L]]; [|contradiction|]).
  - assert (m * da < 0) by (apply pos_neg; assumption). assert (m * db < 0) by (apply pos_neg; assumption). split; [intros [_ [[? ?]|[? ?]]]|intros [[? [? ?]]|[? [? ?]]]]; qlra.
  - assert (m * da < 0) by (apply pos_neg; assumption). assert (0 < m * db) by (apply qc_mul_pos; assumption). assert (0 < A * db) by (apply qc_mul_pos; assumption). assert (B * da < 0) by (apply pos_neg; assumption). split.
    + intros [[[? ?]|[? ?]] _]; [qlra|]. left. repeat split; qlra.
    + intros [[? [? ?]]|[? [? ?]]]; [|qlra]. destruct (sgn3 x) as [X|[X|X]]; [qlra|contradiction|]. split; [right|left]; split; qlra.
  - assert (m * db < 0) by (apply pos_neg; assumption). assert (0 < m * da) by (apply qc_mul_pos; assumption). assert (0 < B * da) by (apply qc_mul_pos; assumption). assert (A * db < 0) by (apply pos_neg; assumption). split.
    + intros [[[? ?]|[? ?]] _]; [|qlra]. right. repeat split; qlra.
    + intros [[? [? ?]]|[? [? ?]]]; [qlra|]. destruct (sgn3 x) as [X|[X|X]]; [|contradiction|qlra]. split; [left|right]; split; qlra.
  - assert (0 < m * da) by (apply qc_mul_pos; assumption). assert (0 < m * db) by (apply qc_mul_pos; assumption). split; [intros [_ [[? ?]|[? ?]]]|intros [[? [? ?]]|[? [? ?]]]]; qlra.
Qed.

(* ---- part of an edge ---- *)
Definition along_param (u v : p2) (f : p2 * p2) : list Qc := match intersect u v (fst f) (snd f) with Some (_, us, _) => [us] | None => [] end.
Lemma sub_cross u v a b t : 0 < t -> t <= 1 -> crossb u (lerp t u v) (a, b) = xsum (fun us => qlt us t) (along_param u v (a, b)).
Proof.
  intros T T1. unfold along_param. cbn [fst snd].
  assert (O1 : orient u (lerp t u v) a = t * orient u v a) by (unfold orient, lerp; cbn [fst snd]; ring). assert (O2 : orient u (lerp t u v) b = t * orient u v b) by (unfold orient, lerp; cbn [fst snd]; ring).
  assert (O3 : orient a b (lerp t u v) = orient a b u + t * (orient a b v - orient a b u)) by (unfold orient, lerp; cbn [fst snd]; ring).
  assert (Sg : forall x, (t * x < 0 <-> x < 0) /\ (0 < t * x <-> 0 < x)).
  { intros x. destruct (sgn3 x) as [X|[X|X]]; [assert (t * x < 0) by (apply pos_neg; assumption)|rewrite X in *; assert (t * 0 = 0) by ring|assert (0 < t * x) by (apply qc_mul_pos; assumption)]; split; split; intros; try assumption; qlra. }
  destruct (intersect u v a b) as [[[x us] uc]|] eqn:E.
  - unfold xsum. cbn [fold_right]. rewrite xorb_false_r. destruct (intersect_some _ _ _ _ _ _ _ E) as [K [[U0 U1] [_ [E1 E2]]]].
    assert (Z : orient a b u + us * (orient a b v - orient a b u) = 0). { assert (orient a b x = orient a b u + us * (orient a b v - orient a b u)) as <- by (rewrite E1; unfold orient, lerp; cbn [fst snd]; ring). rewrite E2. unfold orient, lerp. cbn [fst snd]. ring. }
    apply eq_true_iff_eq. rewrite crossb_iff, qlt_true. cbn [fst snd]. unfold cross_properly, opposite in *. rewrite O1, O2, O3. destruct K as [K1 K2]. rewrite !(proj1 (Sg _)), !(proj2 (Sg _)).
    set (A := orient a b u) in *. set (B := orient a b v) in *. clearbody A B. assert (EA : A = - (us * (B - A))) by qlra.
    assert (M : A + t * (B - A) = (t - us) * (B - A)) by qlra. rewrite M.
    destruct K1 as [[H1 H2]|[H1 H2]].
    + split; [intros [[[? P]|[? ?]] _]; [|qlra]|intros L; split; [left; split; [exact H1|apply qc_mul_pos; qlra]|exact K2]]. destruct (Qclt_le_dec us t) as [L|L]; [exact L|]. exfalso. assert (0 <= (us - t) * (B - A)) by (apply qc_mul_nonneg; qlra). qlra.
    + split; [intros [[[? ?]|[P ?]] _]; [qlra|]|intros L; split; [right; split; [assert (0 < (t - us) * (A - B)) by (apply qc_mul_pos; qlra); qlra|exact H2]|exact K2]]. destruct (Qclt_le_dec us t) as [L|L]; [exact L|]. exfalso. assert (0 <= (us - t) * (A - B)) by (apply qc_mul_nonneg; qlra). qlra.
  - unfold xsum. cbn [fold_right]. apply not_true_iff_false. rewrite crossb_iff. cbn [fst snd]. intros [K1 K2].
    unfold cross_properly, opposite in K1, K2. rewrite O1, O2 in K2. rewrite O3 in K1. rewrite !(proj1 (Sg _)), !(proj2 (Sg _)) in K2.
    destruct (intersect_proper u v a b) as [r R]; [|congruence]. split; [|exact K2]. unfold opposite.
    set (A := orient a b u) in *. set (B := orient a b v) in *. clearbody A B. destruct K1 as [[H1 H2]|[H1 H2]].
    + left. split; [exact H1|]. destruct (Qclt_le_dec A B) as [L|L]; [assert (0 <= (1 - t) * (B - A)) by (apply qc_mul_nonneg; qlra); qlra|]. assert (0 <= t * (A - B)) by (apply qc_mul_nonneg; qlra). qlra.
    + right. split; [|exact H2]. destruct (Qclt_le_dec B A) as [L|L]; [assert (0 <= (1 - t) * (A - B)) by (apply qc_mul_nonneg; qlra); qlra|]. assert (0 <= t * (B - A)) by (apply qc_mul_nonneg; qlra). qlra.
Qed.

(* intersect with the segments exchanged *)
Lemma intersect_swap u v a b : along_param a b (u, v) = match intersect u v a b with Some (_, _, uc) => [uc] | None => [] end.
Proof.
  unfold along_param. cbn [fst snd]. destruct (intersect u v a b) as [[[x us] uc]|] eqn:E; destruct (intersect a b u v) as [[[y ut] ud]|] eqn:F; [| | |reflexivity].
  - destruct (intersect_some _ _ _ _ _ _ _ E) as [K [_ [_ [E1 E2]]]]. destruct (intersect_some _ _ _ _ _ _ _ F) as [_ [_ [_ [F1 F2]]]]. f_equal.
    assert (Z1 : orient u v a + uc * (orient u v b - orient u v a) = 0). { assert (orient u v x = orient u v a + uc * (orient u v b - orient u v a)) as <- by (rewrite E2; unfold orient, lerp; cbn [fst snd]; ring). rewrite E1. unfold orient, lerp. cbn [fst snd]. ring. }
    assert (Z2 : orient u v a + ut * (orient u v b - orient u v a) = 0). { assert (orient u v y = orient u v a + ut * (orient u v b - orient u v a)) as <- by (rewrite F1; unfold orient, lerp; cbn [fst snd]; ring). rewrite F2. unfold orient, lerp. cbn [fst snd]. ring. }
    destruct K as [_ K]. set (A := orient u v a) in *. set (B := orient u v b) in *. assert (Z : (uc - ut) * (B - A) = 0) by qlra. destruct (Qcmult_integral _ _ Z) as [Y|Y]; [qlra|]. exfalso. destruct K as [[? ?]|[? ?]]; qlra.
  - exfalso. destruct (intersect_some _ _ _ _ _ _ _ E) as [[K1 K2] _]. destruct (intersect_proper a b u v) as [r R]; [split; assumption|congruence].
  - exfalso. destruct (intersect_some _ _ _ _ _ _ _ F) as [[K1 K2] _]. destruct (intersect_proper u v a b) as [r R]; [split; assumption|congruence].
Qed.

(* ---- every crossing is inserted once on its side ---- *)
Definition al (a : sides) (i : nat) : list Qc := match nth_error a i with Some sd => map cut_alpha (snd sd) | None => [] end.
Lemma insert_at_len i c a : length (insert_at i c a) = length a.
Proof. revert i. induction a as [|[p l] a IH]; intros [|i]; cbn; auto. Qed.
Lemma al_same i c a : (i < length a)%nat -> Permutation (al (insert_at i c a) i) (al a i ++ [cut_alpha c]).
Proof.
  revert i. induction a as [|[p l] a IH]; intros [|i] H; cbn [length] in H; try lia.
  - unfold al. cbn. rewrite <- Permutation_cons_append. change (cut_alpha c :: map cut_alpha l) with (map cut_alpha (c :: l)). apply Permutation_map, insert_cut_perm.
  - unfold al in *. cbn. apply IH. lia.
Qed.
Lemma al_other i k c a : i <> k -> al (insert_at i c a) k = al a k.
Proof. revert i k. induction a as [|[p l] a IH]; intros [|i] [|k] H; try reflexivity; [congruence|]. unfold al in *. cbn. apply IH. congruence. Qed.
Definition pa (e f : p2 * p2) : list Qc := along_param (fst e) (snd e) f.
Lemma inner_al i e cs : forall j (st : sides * sides * nat), (i < length (fst (fst st)))%nat -> (j + length cs <= length (snd (fst st)))%nat ->
  let st' := phase1_inner i e j cs st in
  length (fst (fst st')) = length (fst (fst st)) /\ length (snd (fst st')) = length (snd (fst st)) /\
  Permutation (al (fst (fst st')) i) (al (fst (fst st)) i ++ flat_map (pa e) cs) /\ (forall k, k <> i -> al (fst (fst st')) k = al (fst (fst st)) k) /\
  (forall m f, nth_error cs m = Some f -> Permutation (al (snd (fst st')) (j + m)) (al (snd (fst st)) (j + m) ++ pa f e)) /\ (forall k, (k < j)%nat -> al (snd (fst st')) k = al (snd (fst st)) k).
Proof.
  induction cs as [|f cs IH]; intros j st Hi Hj; cbn zeta.
  { cbn. rewrite app_nil_r. repeat split; auto. intros [|m] f H; discriminate. }
  cbn [phase1_inner]. destruct st as [[a b] k]. cbn [fst snd] in *. cbn [length] in Hj.
  set (st1 := match intersect (fst e) (snd e) (fst f) (snd f) with Some (p, alphaS, alphaC) => _ | None => _ end).
  assert (P1 : length (fst (fst st1)) = length a /\ length (snd (fst st1)) = length b /\ Permutation (al (fst (fst st1)) i) (al a i ++ pa e f) /\ (forall k', k' <> i -> al (fst (fst st1)) k' = al a k') /\
    Permutation (al (snd (fst st1)) j) (al b j ++ pa f e) /\ (forall k', k' <> j -> al (snd (fst st1)) k' = al b k')).
  { unfold st1. assert (Sw := intersect_swap (fst e) (snd e) (fst f) (snd f)). unfold pa. destruct f as [f1 f2], e as [e1 e2]. cbn [fst snd] in *. rewrite Sw. unfold along_param. cbn [fst snd]. destruct (intersect e1 e2 f1 f2) as [[[p us] uc]|]; cbn [fst snd].
    - rewrite !insert_at_len. split; [reflexivity|]. split; [reflexivity|]. split; [apply (al_same i {| cut_at := p; cut_alpha := us; cut_id := k |}); exact Hi|]. split; [intros; apply al_other; congruence|]. split; [apply (al_same j {| cut_at := p; cut_alpha := uc; cut_id := k |}); lia|]. intros; apply al_other; congruence.
    - rewrite !app_nil_r. repeat split; auto. }
  destruct P1 as [L1 [L2 [Q1 [Q2 [Q3 Q4]]]]]. clearbody st1. destruct (IH (S j) st1) as [M1 [M2 [R1 [R2 [R3 R4]]]]]; [lia|lia|]. split; [congruence|]. split; [congruence|]. split; [|split; [|split]].
  - rewrite R1. cbn [flat_map]. rewrite app_assoc. apply Permutation_app_tail. exact Q1.
  - intros k' H. rewrite R2, Q2 by exact H. reflexivity.
  - intros [|m] g H; cbn [nth_error] in H.
    + injection H as <-. rewrite Nat.add_0_r, R4 by lia. exact Q3.
    + specialize (R3 m g H). replace (S j + m)%nat with (j + S m)%nat in R3 by lia. rewrite R3, Q4 by lia. reflexivity.
  - intros k' H. rewrite R4, Q4 by lia. reflexivity.
Qed.
Lemma outer_al cs es : forall i (st : sides * sides * nat), (i + length es <= length (fst (fst st)))%nat -> (length cs <= length (snd (fst st)))%nat ->
  let st' := phase1_outer i es cs st in
  (forall m e, nth_error es m = Some e -> Permutation (al (fst (fst st')) (i + m)) (al (fst (fst st)) (i + m) ++ flat_map (pa e) cs)) /\ (forall k, (k < i)%nat -> al (fst (fst st')) k = al (fst (fst st)) k) /\
  (forall m f, nth_error cs m = Some f -> Permutation (al (snd (fst st')) m) (al (snd (fst st)) m ++ flat_map (pa f) es)).
Proof.
  induction es as [|e es IH]; intros i st Hi Hj; cbn zeta.
  { cbn. split; [intros [|m] e H; discriminate|]. split; [auto|]. intros m f H. rewrite app_nil_r. reflexivity. }
  cbn [phase1_outer]. cbn [length] in Hi. destruct (inner_al i e cs 0 st) as [M1 [M2 [R1 [R2 [R3 R4]]]]]; [lia|lia|]. set (st1 := phase1_inner i e 0 cs st) in *. clearbody st1. destruct (IH (S i) st1) as [S1 [S2 S3]]; [lia|lia|]. split; [|split].
  - intros [|m] g H; cbn [nth_error] in H.
    + injection H as <-. rewrite Nat.add_0_r, S2 by lia. exact R1.
    + specialize (S1 m g H). replace (S i + m)%nat with (i + S m)%nat in S1 by lia. rewrite S1, R2 by lia. reflexivity.
  - intros k H. rewrite S2, R2 by lia. reflexivity.
  - intros m f H. rewrite (S3 m f H). cbn [flat_map]. rewrite app_assoc. apply Permutation_app_tail. apply (R3 m f H).
Qed.
Definition full (es cs : list (p2 * p2)) (a : sides) : Prop := Forall2 (fun e sd => Permutation (map cut_alpha (snd sd)) (flat_map (pa e) cs)) es a.
Lemma full_of es cs a : length es = length a -> (forall m e, nth_error es m = Some e -> Permutation (al a m) (flat_map (pa e) cs)) -> full es cs a.
Proof.
  revert a. induction es as [|e es IH]; intros [|sd a] L H; cbn in L; try discriminate; [constructor|]. constructor; [apply (H 0%nat e eq_refl)|]. apply IH; [lia|]. intros m g G. apply (H (S m) g G).
Qed.
Lemma al_of_points l i : al (of_points l) i = [].
Proof. unfold al, of_points. rewrite nth_error_map. destruct (nth_error l i); reflexivity. Qed.
Lemma phase1_full s c : full (outline s) (outline c) (fst (fst (phase1 s c))) /\ full (outline c) (outline s) (snd (fst (phase1 s c))).
Proof.
  destruct (phase1_ok s c) as [X [P _]]. pose proof (sides_len _ _ (p_a _ _ _ _ P)) as La. pose proof (sides_len _ _ (p_b _ _ _ _ P)) as Lb.
  unfold phase1 in *. rewrite !outline_edges in *. destruct (outer_al (outline c) (outline s) 0 (of_points s, of_points c, 0%nat)) as [A [_ B]]; [cbn [fst snd]; unfold of_points; rewrite map_length, outline_len; lia|cbn [fst snd]; unfold of_points; rewrite map_length, outline_len; lia|]. cbn [fst snd] in A, B.
  split; apply full_of; [lia| |lia|].
  - intros m e H. specialize (A m e H). cbn [Nat.add] in A. rewrite al_of_points in A. exact A.
  - intros m e H. specialize (B m e H). rewrite al_of_points in B. exact B.
Qed.

(* ---- inside and outside along one edge ---- *)
Lemma xsum_app {A} (f : A -> bool) l m : xsum f (l ++ m) = xorb (xsum f l) (xsum f m).
Proof. unfold xsum. induction l as [|a l IH]; cbn [app fold_right]; [rewrite xorb_false_l; reflexivity|]. rewrite IH, xorb_assoc. reflexivity. Qed.
Lemma xsum_perm {A} (f : A -> bool) l m : Permutation l m -> xsum f l = xsum f m.
Proof. unfold xsum. induction 1; cbn [fold_right]; [reflexivity|congruence| |congruence]. rewrite <- !xorb_assoc, (xorb_comm (f y)). reflexivity. Qed.
Lemma xsum_flat {A B} (f : B -> bool) (g : A -> list B) l : xsum f (flat_map g l) = xsum (fun a => xsum f (g a)) l.
Proof. induction l as [|a l IH]; [reflexivity|]. cbn [flat_map]. rewrite xsum_app, IH. reflexivity. Qed.
Lemma status u v poly b l t : clear_of u poly -> (forall w, In w poly -> orient u v w <> 0) -> inb poly u b -> Permutation l (flat_map (pa (u, v)) (outline poly)) -> 0 < t -> t <= 1 -> clear_of (lerp t u v) poly ->
  inb poly (lerp t u v) (xorb b (xsum (fun x => qlt x t) l)).
Proof.
  intros Cu N B P T T1 Cx. rewrite (xsum_perm _ _ _ P), xsum_flat. rewrite (xsum_ext _ (crossb u (lerp t u v))).
  - apply toggle; [exact Cu|exact Cx| |exact B]. intros w W. assert (orient u (lerp t u v) w = t * orient u v w) as -> by (unfold orient, lerp; cbn [fst snd]; ring). intros K. destruct (Qcmult_integral _ _ K) as [Z|Z]; [rewrite Z in T; qlra|]. exact (N w W Z).
  - intros [a c'] _. symmetry. apply sub_cross; assumption.
Qed.
