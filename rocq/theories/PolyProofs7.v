(* Lemmas for PolyProps.v: point_in_polygon and intersects_segments. *)
From Coq Require Import List Arith ZArith Bool QArith Qcanon Lia Permutation.
From Verif Require Import Common QcLib ListLib ArrZ AabbModel AabbSpec AabbProofs ImplModel RtreeModel RtreeProofs PolyModel PolySpec PolyProofs PolyProofs2 PolyProofs3 PolyProofs4 PolyProofs5.
Import ListNotations.
Local Open Scope Qc_scope.


Lemma ccw_iff a b c : ccw a b c = true <-> 0 < orient a b c.
Proof. unfold ccw. rewrite qlt_true. unfold orient, px, py. split; intros; qlra. Qed.
Lemma ccw_not a b c : ccw a b c = false <-> orient a b c <= 0.
Proof. unfold ccw. rewrite qlt_false. unfold orient, px, py. split; intros; qlra. Qed.
Lemma orient_cycle a b c : orient a b c = orient b c a.
Proof. unfold orient. ring. Qed.

(* three columns *)
Lemma box_rows rows : AabbSpec.shape 3 rows -> rows <> [] -> exists l0 l1 l2 h0 h1 h2, aabb 3 rows None = Ok ([l0; l1; l2], [h0; h1; h2]) /\
  forall x y z, In [x; y; z] rows -> (l0 <= x /\ x <= h0) /\ (l1 <= y /\ y <= h1) /\ (l2 <= z /\ z <= h2).
Proof.
  intros S N. destruct (aabb_tight 3 rows (zeros 3, zeros 3) (zeros 3) (zeros 3) S N eq_refl) as [lo [hi [E [A [_ [L1 [L2 _]]]]]]]; [cbn; lia|cbn; lia|].
  change (Z.of_nat 3) with 3%Z in E. unfold aabb in *. cbn [zeros repeat length] in L1, L2. destruct lo as [|l0 [|l1 [|l2 [|? ?]]]]; try discriminate. destruct hi as [|h0 [|h1 [|h2 [|? ?]]]]; try discriminate.
  exists l0, l1, l2, h0, h1, h2. split; [exact E|]. intros x y z I. specialize (A _ I). cbn [firstn] in A. inversion A as [|? ? ? ? ? ? B1 B2 B3]; subst. inversion B3 as [|? ? ? ? ? ? C1 C2 C3]; subst. inversion C3 as [|? ? ? ? ? ? D1 D2 D3]; subst. auto.
Qed.
Lemma rows3 z vs : AabbSpec.shape 3 (map (row3 z) vs).
Proof. apply Forall_forall. intros r H. apply in_map_iff in H. destruct H as [p [<- _]]. reflexivity. Qed.

Lemma rd3_0 {A} (a b c : A) : rdZ [a; b; c] 0 = Ok a. Proof. reflexivity. Qed.
Lemma rd3_1 {A} (a b c : A) : rdZ [a; b; c] 1 = Ok b. Proof. reflexivity. Qed.
Lemma rd3_2 {A} (a b c : A) : rdZ [a; b; c] 2 = Ok c. Proof. reflexivity. Qed.
(* columns of the overlap test *)
Lemma overlap_rows l0 l1 l2 h0 h1 h2 m0 m1 m2 k0 k1 k2 :
  aabb_overlap ([l0; l1; l2], [h0; h1; h2]) ([m0; m1; m2], [k0; k1; k2]) = Ok (qle l0 k0 && qle m0 h0 && (qle l1 k1 && qle m1 h1) && (qle l2 k2 && qle m2 h2)).
Proof.
  unfold aabb_overlap. cbn [fst snd]. rewrite !rd3_0, !rd3_1, !rd3_2. cbn [bind length Nat.eqb].
  destruct (qle l0 k0); cbn [negb andb]; [|reflexivity]. destruct (qle m0 h0); cbn [negb andb]; [|reflexivity]. destruct (qle l1 k1); cbn [negb andb]; [|reflexivity]. destruct (qle m1 h1); cbn [negb andb]; [|reflexivity]. destruct (qle l2 k2); cbn [negb andb]; reflexivity.
Qed.
Definition seg_hit (c d a b : p2) : bool := xorb (ccw a c d) (ccw b c d) && xorb (ccw a b c) (ccw a b d).
(* the four sign tests, guarded by the boxes *)
Lemma segments_value r1 r2 r3 r4 x1 y1 z1 x2 y2 z2 x3 y3 z3 x4 y4 z4 : r1 = [x1; y1; z1] -> r2 = [x2; y2; z2] -> r3 = [x3; y3; z3] -> r4 = [x4; y4; z4] ->
  forall cdb, cdb = None \/ (exists l0 l1 l2 h0 h1 h2, cdb = Some ([l0; l1; l2], [h0; h1; h2]) /\ aabb 3 [r3; r4] None = Ok ([l0; l1; l2], [h0; h1; h2])) ->
  exists b, intersects_segments 3 (r1, r2) (r3, r4) None cdb = Ok (b && seg_hit (x3, y3) (x4, y4) (x1, y1) (x2, y2)) /\
  ((exists x y z, ((x1 <= x /\ x <= x2) \/ (x2 <= x /\ x <= x1)) /\ ((y1 <= y /\ y <= y2) \/ (y2 <= y /\ y <= y1)) /\ ((z1 <= z /\ z <= z2) \/ (z2 <= z /\ z <= z1)) /\
     ((x3 <= x /\ x <= x4) \/ (x4 <= x /\ x <= x3)) /\ ((y3 <= y /\ y <= y4) \/ (y4 <= y /\ y <= y3)) /\ ((z3 <= z /\ z <= z4) \/ (z4 <= z /\ z <= z3))) -> b = true).
Proof.
  intros -> -> -> -> cdb H.
  destruct (box_rows [[x1; y1; z1]; [x2; y2; z2]]) as [l0 [l1 [l2 [h0 [h1 [h2 [E1 B1]]]]]]]; [repeat (apply Forall_cons; [reflexivity|]); constructor|congruence|].
  destruct (box_rows [[x3; y3; z3]; [x4; y4; z4]]) as [m0 [m1 [m2 [k0 [k1 [k2 [E2 B2]]]]]]]; [repeat (apply Forall_cons; [reflexivity|]); constructor|congruence|].
  exists (qle l0 k0 && qle m0 h0 && (qle l1 k1 && qle m1 h1) && (qle l2 k2 && qle m2 h2)). split.
  - unfold intersects_segments. cbn [fst snd]. rewrite E1. cbn [bind].
    destruct H as [->|[a0 [a1 [a2 [c0 [c1 [c2 [-> H]]]]]]]]; [rewrite E2|rewrite E2 in H; injection H as <- <- <- <- <- <-];
    cbn [bind]; rewrite overlap_rows; cbn [bind]; destruct (qle l0 k0 && qle m0 h0 && (qle l1 k1 && qle m1 h1) && (qle l2 k2 && qle m2 h2)); reflexivity.
  - intros [x [y [z [X1 [Y1 [Z1 [X2 [Y2 Z2]]]]]]]]. pose proof (B1 _ _ _ (or_introl eq_refl)) as [[P1 P2] [[P3 P4] [P5 P6]]]. pose proof (B1 _ _ _ (or_intror (or_introl eq_refl))) as [[Q1 Q2] [[Q3 Q4] [Q5 Q6]]].
    pose proof (B2 _ _ _ (or_introl eq_refl)) as [[R1 R2] [[R3 R4] [R5 R6]]]. pose proof (B2 _ _ _ (or_intror (or_introl eq_refl))) as [[S1 S2] [[S3 S4] [S5 S6]]].
    assert (G : forall l k a b c d v h m, ((a <= v /\ v <= b) \/ (b <= v /\ v <= a)) -> ((c <= v /\ v <= d) \/ (d <= v /\ v <= c)) -> l <= a -> a <= h -> l <= b -> b <= h -> m <= c -> c <= k -> m <= d -> d <= k -> qle l k = true /\ qle m h = true).
    { intros l k a b c d v h m U V. intros. split; apply qle_true; destruct U as [[U1 U2]|[U1 U2]], V as [[V1 V2]|[V1 V2]]; qlra. }
    destruct (G l0 k0 x1 x2 x3 x4 x h0 m0) as [-> ->]; try assumption. destruct (G l1 k1 y1 y2 y3 y4 y h1 m1) as [-> ->]; try assumption. destruct (G l2 k2 z1 z2 z3 z4 z h2 m2) as [-> ->]; try assumption. reflexivity.
Qed.
Lemma between_lerp t a b : 0 <= t -> t <= 1 -> (a <= a + t * (b - a) /\ a + t * (b - a) <= b) \/ (b <= a + t * (b - a) /\ a + t * (b - a) <= a).
Proof.
  intros T0 T1. destruct (Qclt_le_dec a b) as [H|H]; [left|right].
  - assert (0 <= t * (b - a)) by (apply qc_mul_nonneg; qlra). assert (0 <= (1 - t) * (b - a)) by (apply qc_mul_nonneg; qlra). split; qlra.
  - assert (0 <= t * (a - b)) by (apply qc_mul_nonneg; qlra). assert (0 <= (1 - t) * (a - b)) by (apply qc_mul_nonneg; qlra). split; qlra.
Qed.
(* segments in one horizontal plane, no end point on the line of the other *)
Lemma segments_exact z a b c d : orient a b c <> 0 -> orient a b d <> 0 -> orient c d a <> 0 -> orient c d b <> 0 ->
  exists r, intersects_segments 3 (row3 z a, row3 z b) (row3 z c, row3 z d) None None = Ok r /\ (r = true <-> cross_properly a b c d).
Proof.
  intros N1 N2 N3 N4. destruct a as [ax ay], b as [bx by'], c as [cx cy], d as [dx dy].
  destruct (segments_value (row3 z (ax, ay)) (row3 z (bx, by')) (row3 z (cx, cy)) (row3 z (dx, dy)) ax ay z bx by' z cx cy z dx dy z eq_refl eq_refl eq_refl eq_refl None (or_introl eq_refl)) as [o [E O]].
  eexists. split; [exact E|]. set (a := (ax, ay)) in *. set (b := (bx, by')) in *. set (c := (cx, cy)) in *. set (d := (dx, dy)) in *.
  assert (T : seg_hit c d a b = true <-> cross_properly a b c d).
  { unfold seg_hit, cross_properly, opposite. rewrite andb_true_iff. pose proof (ccw_iff a c d) as A1. pose proof (ccw_iff b c d) as A2. pose proof (ccw_iff a b c) as A3. pose proof (ccw_iff a b d) as A4. rewrite orient_cycle in A1. rewrite orient_cycle in A2.
    assert (G : forall (u v : bool) (x y : Qc), (u = true <-> 0 < x) -> (v = true <-> 0 < y) -> x <> 0 -> y <> 0 -> (xorb u v = true <-> (x < 0 /\ 0 < y) \/ (y < 0 /\ 0 < x))).
    { intros u v x y U V X Y. destruct (sgn3 x) as [X1|[X1|X1]]; [|contradiction|]; (destruct (sgn3 y) as [Y1|[Y1|Y1]]; [|contradiction|]).
      - assert (u = false) as -> by (apply not_true_iff_false; rewrite U; qlra). assert (v = false) as -> by (apply not_true_iff_false; rewrite V; qlra). split; [discriminate|intros [[? ?]|[? ?]]; qlra].
      - assert (u = false) as -> by (apply not_true_iff_false; rewrite U; qlra). assert (v = true) as -> by (apply V; exact Y1). split; [auto|reflexivity].
      - assert (u = true) as -> by (apply U; exact X1). assert (v = false) as -> by (apply not_true_iff_false; rewrite V; qlra). split; [auto|reflexivity].
      - assert (u = true) as -> by (apply U; exact X1). assert (v = true) as -> by (apply V; exact Y1). split; [discriminate|intros [[? ?]|[? ?]]; qlra]. }
    rewrite (G _ _ _ _ A1 A2 N3 N4), (G _ _ _ _ A3 A4 N1 N2). reflexivity. }
  rewrite andb_true_iff, T. split; [tauto|]. intros K. split; [|exact K]. apply O. destruct (intersect_proper a b c d K) as [[[p us] uc] I]. apply intersect_some in I. destruct I as [_ [[U0 U1] [[V0 V1] [I1 I2]]]].
  exists (fst p), (snd p), z. assert (Z : z <= z /\ z <= z) by (split; apply Qcle_refl). repeat split; auto.
  - rewrite I1. cbn [lerp fst a b]. apply between_lerp; qlra.
  - rewrite I1. cbn [lerp snd a b]. apply between_lerp; qlra.
  - rewrite I2. cbn [lerp fst c d]. apply between_lerp; qlra.
  - rewrite I2. cbn [lerp snd c d]. apply between_lerp; qlra.
Qed.

(* ---- the diagonal test segment ---- *)
Section Diagonal.
Context (q lo hi : p2).
Let d : p2 := (fst hi - fst lo, snd hi - snd lo).
Let e : p2 := moved d q.
Definition boxed_in (v : p2) : Prop := fst lo <= fst v /\ fst v <= fst hi /\ snd lo <= snd v /\ snd v <= snd hi.
Definition height (v : p2) : Qc := orient q (moved (fst hi - fst lo, snd hi - snd lo) q) v.
Lemma height_eq v : height v = fst d * (snd v - snd q) - snd d * (fst v - fst q).
Proof. unfold height, orient, moved, d. cbn [fst snd]. ring. Qed.
Lemma orient_e a b : orient a b e = orient a b q - (height b - height a).
Proof. rewrite !height_eq. unfold orient, e, moved. cbn [fst snd]. ring. Qed.
(* the crossing lies within the segment *)
Lemma reach a b : boxed_in q -> boxed_in a -> boxed_in b -> height a < 0 -> 0 < height b -> orient a b q < height b - height a.
Proof.
  intros [Q1 [Q2 [Q3 Q4]]] [A1 [A2 [A3 A4]]] [B1 [B2 [B3 B4]]] Ha Hb. destruct (Qclt_le_dec (orient a b q) (height b - height a)) as [D|D]; [exact D|]. exfalso.
  set (n := height b - height a) in *. assert (Np : 0 < n) by (unfold n; qlra).
  (* n times the crossing point *)
  assert (X : n * fst q + orient a b q * fst d = height b * fst a - height a * fst b) by (unfold n; rewrite !height_eq; unfold orient; ring).
  assert (Y : n * snd q + orient a b q * snd d = height b * snd a - height a * snd b) by (unfold n; rewrite !height_eq; unfold orient; ring).
  assert (D1 : 0 <= fst d) by (unfold d; cbn; qlra). assert (D2 : 0 <= snd d) by (unfold d; cbn; qlra).
  assert (F1 : 0 <= (orient a b q - n) * fst d) by (apply qc_mul_nonneg; qlra). assert (F2 : 0 <= (orient a b q - n) * snd d) by (apply qc_mul_nonneg; qlra).
  assert (E1 : n * fst hi <= n * (fst q + fst d)). { assert (0 <= n * (fst q - fst lo)) by (apply qc_mul_nonneg; qlra). unfold d. cbn [fst]. qlra. }
  assert (E2 : n * snd hi <= n * (snd q + snd d)). { assert (0 <= n * (snd q - snd lo)) by (apply qc_mul_nonneg; qlra). unfold d. cbn [snd]. qlra. }
  assert (P1 : 0 <= height b * (fst hi - fst a)) by (apply qc_mul_nonneg; qlra). assert (P2 : 0 <= (- height a) * (fst hi - fst b)) by (apply qc_mul_nonneg; qlra).
  assert (P3 : 0 <= height b * (snd hi - snd a)) by (apply qc_mul_nonneg; qlra). assert (P4 : 0 <= (- height a) * (snd hi - snd b)) by (apply qc_mul_nonneg; qlra).
  assert (I1 : n * fst hi - (height b * fst a - height a * fst b) = height b * (fst hi - fst a) + (- height a) * (fst hi - fst b)) by (unfold n; ring).
  assert (I2 : n * snd hi - (height b * snd a - height a * snd b) = height b * (snd hi - snd a) + (- height a) * (snd hi - snd b)) by (unfold n; ring).
  assert (Z : forall x y, 0 < x -> 0 <= y -> x * y <= 0 -> y = 0). { intros x y Hx Hy L. destruct (Qclt_le_dec 0 y) as [K|K]; [|qlra]. pose proof (qc_mul_pos x y Hx K). qlra. }
  assert (U1 : fst hi - fst a = 0) by (apply (Z (height b)); qlra). assert (U2 : fst hi - fst b = 0) by (apply (Z (- height a)); qlra).
  assert (U3 : snd hi - snd a = 0) by (apply (Z (height b)); qlra). assert (U4 : snd hi - snd b = 0) by (apply (Z (- height a)); qlra).
  rewrite height_eq in Ha, Hb. assert (fst a = fst b) as Ea by qlra. assert (snd a = snd b) as Eb by qlra. rewrite Ea, Eb in Ha. qlra.
Qed.
Definition ray_hit (ab : p2 * p2) : bool :=
  let ha := height (fst ab) in let hb := height (snd ab) in let o := orient (fst ab) (snd ab) q in
  (qlt ha 0 && qle 0 hb && qle 0 o) || (qlt hb 0 && qle 0 ha && qle o 0).
Lemma ray_iff a b : ray_hit (a, b) = true <-> crossing (height a) (height b) (orient a b q).
Proof. unfold ray_hit, crossing. cbn [fst snd]. rewrite orb_true_iff, !andb_true_iff, !qlt_true, !qle_true. tauto. Qed.
Lemma ray_sym a b : ray_hit (a, b) = ray_hit (b, a).
Proof.
  apply eq_true_iff_eq. rewrite !ray_iff. unfold crossing. assert (orient b a q = - orient a b q) as -> by (unfold orient; ring).
  split; (intros [[H [K L]]|[H [K L]]]; [right|left]); repeat split; qlra.
Qed.
Lemma ray_none a : ray_hit (a, a) = false.
Proof. apply not_true_iff_false. rewrite ray_iff. unfold crossing. intros [[H [K L]]|[H [K L]]]; qlra. Qed.
Lemma seg_ray a b : boxed_in q -> boxed_in a -> boxed_in b -> height a <> 0 -> height b <> 0 -> off_line q a b -> seg_hit q e a b = ray_hit (a, b).
Proof.
  intros Bq Ba Bb Na Nb [->|No].
  { rewrite ray_none. unfold seg_hit. rewrite xorb_nilpotent. reflexivity. }
  apply eq_true_iff_eq. rewrite ray_iff. unfold seg_hit, crossing. rewrite andb_true_iff.
  assert (A1 : ccw a q e = true <-> 0 < height a) by (rewrite ccw_iff, orient_cycle; reflexivity). assert (A2 : ccw b q e = true <-> 0 < height b) by (rewrite ccw_iff, orient_cycle; reflexivity).
  assert (A3 : ccw a b q = true <-> 0 < orient a b q) by apply ccw_iff. assert (A4 : ccw a b e = true <-> 0 < orient a b q - (height b - height a)) by (rewrite ccw_iff, orient_e; reflexivity).
  pose proof (reach a b Bq Ba Bb) as R1. pose proof (reach b a Bq Bb Ba) as R2. assert (O' : orient b a q = - orient a b q) by (unfold orient; ring). rewrite O' in R2. set (o := orient a b q) in *. clearbody o. set (ha := height a) in *. set (hb := height b) in *. clearbody ha hb.
  assert (F : forall (u : bool) x, (u = true <-> 0 < x) -> x <= 0 -> u = false) by (intros u x U X; apply not_true_iff_false; rewrite U; qlra).
  destruct (sgn3 ha) as [Ha|[Ha|Ha]]; [|contradiction|]; (destruct (sgn3 hb) as [Hb|[Hb|Hb]]; [|contradiction|]).
  - rewrite (F _ _ A1), (F _ _ A2) by qlra. split; [intros [K _]; discriminate|]. intros [[? [? ?]]|[? [? ?]]]; qlra.
  - rewrite (F _ _ A1) by qlra. assert (ccw b q e = true) as -> by (apply A2; exact Hb). destruct (sgn3 o) as [S|[S|S]]; [|contradiction|].
    + rewrite (F _ _ A3), (F _ _ A4) by qlra. split; [intros [_ K]; discriminate|]. intros [[? [? ?]]|[? [? ?]]]; qlra.
    + assert (ccw a b q = true) as -> by (apply A3; exact S). rewrite (F _ _ A4) by (specialize (R1 Ha Hb); qlra). split; [intros _; left; repeat split; qlra|intros _; split; reflexivity].
  - rewrite (F _ _ A2) by qlra. assert (ccw a q e = true) as -> by (apply A1; exact Ha). destruct (sgn3 o) as [S|[S|S]]; [|contradiction|].
    + rewrite (F _ _ A3) by qlra. specialize (R2 Hb Ha). assert (ccw a b e = true) as -> by (apply A4; qlra). split; [intros _; right; repeat split; qlra|intros _; split; reflexivity].
    + assert (ccw a b q = true) as -> by (apply A3; exact S). assert (ccw a b e = true) as -> by (apply A4; qlra). split; [intros [_ K]; discriminate|]. intros [[? [? ?]]|[? [? ?]]]; qlra.
  - assert (ccw a q e = true) as -> by (apply A1; exact Ha). assert (ccw b q e = true) as -> by (apply A2; exact Hb). split; [intros [K _]; discriminate|]. intros [[? [? ?]]|[? [? ?]]]; qlra.
Qed.
End Diagonal.
