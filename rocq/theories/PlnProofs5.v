(* The line of two planes is the whole intersection. *)
From Coq Require Import List ZArith Lia Bool QArith Qcanon.
From Verif Require Import Common ListLib QcLib ArrZ SumLib NurbsModel DerModel DerProofs2 KnotProofs2 PlnModel PlnSpec PlnProofs1 PlnProofs2 PlnProofs3 PlnProofs4.
Import ListNotations.
Local Open Scope Z_scope.
Local Open Scope Qc_scope.

Lemma dependent n1 n2 : cross3 n1 n2 = zero3 -> exists a b, ~ (a = 0 /\ b = 0) /\
  a * vx n1 + b * vx n2 = 0 /\ a * vy n1 + b * vy n2 = 0 /\ a * vz n1 + b * vz n2 = 0.
Proof.
  intro C. apply v3_inv in C. unfold cross3, zero3 in C. cbn [vx vy vz] in C. destruct C as [C1 [C2 C3]].
  destruct (Qc_eq_dec (vx n1) 0) as [X|X].
  - destruct (Qc_eq_dec (vy n1) 0) as [Y|Y].
    + destruct (Qc_eq_dec (vz n1) 0) as [Z|Z].
      * exists 1, 0. split; [intros [K _]; discriminate K|]. rewrite X, Y, Z. split; [ring|split; ring].
      * exists (vz n2), (- vz n1). split; [intros [_ K]; apply Z; qlra|]. split; [|split]; qlra.
    + exists (vy n2), (- vy n1). split; [intros [_ K]; apply Y; qlra|]. split; [|split]; qlra.
  - exists (vx n2), (- vx n1). split; [intros [_ K]; apply X; qlra|]. split; [ring|]. split; qlra.
Qed.

Lemma pp_full junk o1 n1 o2 n2 l : lenZ junk = 5%Z -> pp_normal_intersect junk o1 n1 o2 n2 = Ok l ->
  cross3 n1 n2 <> zero3 /\
  (exists a b, vx o1 = (1 + 1) * vx (ln_p l) + a * vx n1 + b * vx n2 /\
               vy o1 = (1 + 1) * vy (ln_p l) + a * vy n1 + b * vy n2 /\
               vz o1 = (1 + 1) * vz (ln_p l) + a * vz n1 + b * vz n2).
Proof.
  intros Lj E. unfold pp_normal_intersect in E. apply bindX in E. destruct E as [x [E1 E]].
  destruct (solve_ok 5 eq_refl _ (lst o1 ++ [vdot o1 n1; vdot o2 n2]) junk _ (shape5 n1 n2) eq_refl Lj E1) as [L [S1 S2]].
  unfold first3 in E. rewrite !(rdZ_ok 0) in E by lia. cbn [bind] in E. injection E as <-. cbn [ln_p ln_d vx vy vz].
  assert (Rows : forall f : Z -> Qc,
    lin 5 (pp_matrix n1 n2) 0 f = (1 + 1) * f 0%Z + f 3%Z * vx n1 + f 4%Z * vx n2 /\
    lin 5 (pp_matrix n1 n2) 1 f = (1 + 1) * f 1%Z + f 3%Z * vy n1 + f 4%Z * vy n2 /\
    lin 5 (pp_matrix n1 n2) 2 f = (1 + 1) * f 2%Z + f 3%Z * vz n1 + f 4%Z * vz n2 /\
    lin 5 (pp_matrix n1 n2) 3 f = vx n1 * f 0%Z + vy n1 * f 1%Z + vz n1 * f 2%Z /\
    lin 5 (pp_matrix n1 n2) 4 f = vx n2 * f 0%Z + vy n2 * f 1%Z + vz n2 * f 2%Z).
  { intro f. clear. repeat split; crunch; cbn [vx vy vz]; ring. }
  split.
  - intro C. destruct (dependent n1 n2 C) as [a [b [N [A1 [A2 A3]]]]].
    set (f := atZ 0 x) in *.
    pose (g := fun c : Z => if (c =? 3)%Z then f 3%Z + a else if (c =? 4)%Z then f 4%Z + b else f c).
    destruct (Rows f) as [F0 [F1 [F2 [F3 F4]]]]. destruct (Rows g) as [G0 [G1 [G2 [G3 G4]]]].
    change (g 0%Z) with (f 0%Z) in *. change (g 1%Z) with (f 1%Z) in *. change (g 2%Z) with (f 2%Z) in *.
    change (g 3%Z) with (f 3%Z + a) in *. change (g 4%Z) with (f 4%Z + b) in *.
    assert (Sg : sol 5 (pp_matrix n1 n2) (lst o1 ++ [vdot o1 n1; vdot o2 n2]) g).
    { intros r Hr. rewrite <- (S1 r Hr).
      assert (K : (r = 0 \/ r = 1 \/ r = 2 \/ r = 3 \/ r = 4)%Z) by lia.
      destruct K as [->|[->|[->|[->| ->]]]].
      - rewrite F0, G0. transitivity ((1 + 1) * f 0%Z + f 3%Z * vx n1 + f 4%Z * vx n2 + (a * vx n1 + b * vx n2)); [ring|rewrite A1; ring].
      - rewrite F1, G1. transitivity ((1 + 1) * f 1%Z + f 3%Z * vy n1 + f 4%Z * vy n2 + (a * vy n1 + b * vy n2)); [ring|rewrite A2; ring].
      - rewrite F2, G2. transitivity ((1 + 1) * f 2%Z + f 3%Z * vz n1 + f 4%Z * vz n2 + (a * vz n1 + b * vz n2)); [ring|rewrite A3; ring].
      - rewrite F3, G3. reflexivity.
      - rewrite F4, G4. reflexivity. }
    pose proof (S2 g Sg 3%Z ltac:(lia)) as K3. pose proof (S2 g Sg 4%Z ltac:(lia)) as K4.
    change (f 3%Z + a = f 3%Z) in K3. change (f 4%Z + b = f 4%Z) in K4. apply N. split; qlra.
  - exists (atZ 0 x 3), (atZ 0 x 4). destruct (Rows (atZ 0 x)) as [F0 [F1 [F2 _]]].
    pose proof (S1 0%Z ltac:(lia)) as H0. pose proof (S1 1%Z ltac:(lia)) as H1. pose proof (S1 2%Z ltac:(lia)) as H2.
    rewrite F0 in H0. rewrite F1 in H1. rewrite F2 in H2. split; [|split]; symmetry; assumption.
Qed.

Lemma parallel_cross d c : c <> zero3 -> cross3 d c = zero3 -> exists s, d = along zero3 s c.
Proof.
  intros Nc H. assert (NN : dot3 c c <> 0) by (intro K; apply Nc, dot_self_zero; auto).
  exists (dot3 d c / dot3 c c). apply v3_inv in H. unfold cross3, zero3 in H. cbn [vx vy vz] in H. destruct H as [H1 [H2 H3]].
  assert (K : forall e, e * dot3 c c = 0 -> e = 0) by (intros e He; apply Qcmult_integral in He; tauto).
  assert (Sub : forall a b : Qc, a - b = 0 -> a = b) by (intros; qlra).
  apply v3_ext; unfold along, zero3; cbn [vx vy vz]; apply Sub, K.
  - transitivity ((vx d * vy c - vy d * vx c) * vy c - (vz d * vx c - vx d * vz c) * vz c); [|rewrite H2, H3; ring].
    v3d. field. auto.
  - transitivity ((vy d * vz c - vz d * vy c) * vz c - (vx d * vy c - vy d * vx c) * vx c); [|rewrite H1, H3; ring].
    v3d. field. auto.
  - transitivity ((vz d * vx c - vx d * vz c) * vx c - (vy d * vz c - vz d * vy c) * vy c); [|rewrite H1, H2; ring].
    v3d. field. auto.
Qed.

Lemma pp_line junk a b l : lenZ junk = 5%Z -> plane_plane_intersect junk a b = Ok l ->
  ln_d l = cross3 (pl_n a) (pl_n b) /\ ln_d l <> zero3 /\
  (forall q, (on_plane (pl_o a) (pl_n a) q /\ on_plane (pl_o b) (pl_n b) q) <-> exists s, q = along (ln_p l) s (ln_d l)) /\
  (forall q, on_plane (pl_o a) (pl_n a) q -> on_plane (pl_o b) (pl_n b) q ->
     dist2 (along zero3 (Q2Qc (1 # 2)) (pl_o a)) (ln_p l) <= dist2 (along zero3 (Q2Qc (1 # 2)) (pl_o a)) q).
Proof.
  intros Lj E. unfold plane_plane_intersect in E.
  destruct (pp_sound _ _ _ _ _ _ Lj E) as [P1 [P2 P3]]. destruct (pp_full _ _ _ _ _ _ Lj E) as [Nc [al [be [B1 [B2 B3]]]]].
  set (o1 := pl_o a) in *. set (n1 := pl_n a) in *. set (o2 := pl_o b) in *. set (n2 := pl_n b) in *. set (p := ln_p l) in *.
  rewrite P3. split; auto. split; auto. unfold on_plane in *. split.
  - intro q. split.
    + intros [Q1 Q2]. destruct (parallel_cross (minus3 q p) (cross3 n1 n2) Nc) as [s Hs].
      * assert (D1 : dot3 n1 (minus3 q p) = 0) by (transitivity (dot3 n1 (minus3 q o1) - dot3 n1 (minus3 p o1)); [v3d; ring|rewrite Q1, P1; ring]).
        assert (D2 : dot3 n2 (minus3 q p) = 0) by (transitivity (dot3 n2 (minus3 q o2) - dot3 n2 (minus3 p o2)); [v3d; ring|rewrite Q2, P2; ring]).
        apply v3_ext.
        -- transitivity (vx n1 * dot3 n2 (minus3 q p) - vx n2 * dot3 n1 (minus3 q p)); [v3d; ring|rewrite D1, D2; v3d; ring].
        -- transitivity (vy n1 * dot3 n2 (minus3 q p) - vy n2 * dot3 n1 (minus3 q p)); [v3d; ring|rewrite D1, D2; v3d; ring].
        -- transitivity (vz n1 * dot3 n2 (minus3 q p) - vz n2 * dot3 n1 (minus3 q p)); [v3d; ring|rewrite D1, D2; v3d; ring].
      * exists s. apply v3_inv in Hs. unfold minus3, along, zero3 in Hs. cbn [vx vy vz] in Hs. destruct Hs as [A1 [A2 A3]].
        apply v3_ext; unfold along; cbn [vx vy vz]; [clear A2 A3|clear A1 A3|clear A1 A2];
          match goal with H : ?a - ?b = _ |- ?a = ?b + ?c => transitivity (b + (a - b)); [ring|rewrite H; ring] end.
    + intros [s ->]. split.
      * transitivity (dot3 n1 (minus3 p o1)); [v3d; ring|auto].
      * transitivity (dot3 n2 (minus3 p o2)); [v3d; ring|auto].
  - intros q Q1 Q2. set (h := Q2Qc (1 # 2)). assert (Hh : (1 + 1) * h = 1) by (apply Qc_is_canon; reflexivity).
    set (m := along zero3 h o1). unfold dist2.
    assert (D : dot3 (minus3 m p) (minus3 p q) = 0).
    { assert (Em : minus3 m p = along (along zero3 (h * al) n1) (h * be) n2).
      { unfold m. apply v3_ext; unfold minus3, along, zero3; cbn [vx vy vz]; [rewrite B1|rewrite B2|rewrite B3].
        - transitivity ((1 + 1) * h * vx p - vx p + h * al * vx n1 + h * be * vx n2); [ring|rewrite Hh; ring].
        - transitivity ((1 + 1) * h * vy p - vy p + h * al * vy n1 + h * be * vy n2); [ring|rewrite Hh; ring].
        - transitivity ((1 + 1) * h * vz p - vz p + h * al * vz n1 + h * be * vz n2); [ring|rewrite Hh; ring]. }
      rewrite Em. transitivity (h * al * (dot3 n1 (minus3 p o1) - dot3 n1 (minus3 q o1)) + h * be * (dot3 n2 (minus3 p o2) - dot3 n2 (minus3 q o2))); [v3d; ring|].
      rewrite P1, P2, Q1, Q2. ring. }
    assert (Eq : dot3 (minus3 m q) (minus3 m q) = dot3 (minus3 m p) (minus3 m p) + dot3 (minus3 p q) (minus3 p q) + (1 + 1) * dot3 (minus3 m p) (minus3 p q)) by (v3d; ring).
    rewrite Eq, D. pose proof (dot_self_nonneg (minus3 p q)). qlra.
Qed.

(* the pairs as a list *)
Lemma loop_same junk ps qs : length ps = length qs ->
  planes_planes_loop junk ps qs = map (fun pq => plane_plane_intersect junk (fst pq) (snd pq)) (combine ps qs).
Proof.
  revert qs. induction ps as [|p ps IH]; intros [|q qs] H; cbn in *; try discriminate; auto. f_equal. apply IH. lia.
Qed.

Lemma dispatch_ok junk :
  (forall p q, plane_plane_intersection junk (One p) (One q) = OneL (plane_plane_intersect junk p q)) /\
  (forall ps q, plane_plane_intersection junk (Many ps) (One q) = ManyL (map (fun p => plane_plane_intersect junk p q) ps)) /\
  (forall ps qs, length ps = length qs -> plane_plane_intersection junk (Many ps) (Many qs) =
     ManyL (map (fun pq => plane_plane_intersect junk (fst pq) (snd pq)) (combine ps qs))).
Proof. split; [reflexivity|]. split; [reflexivity|]. intros ps qs H. cbn. f_equal. apply loop_same. auto. Qed.

Lemma dispatch_swapped junk p qs : lenZ junk = 5%Z -> exists ls,
  plane_plane_intersection junk (One p) (Many qs) = ManyL ls /\ length ls = length qs /\
  forall i q l, nth_error qs i = Some q -> nth_error ls i = Some (Ok l) ->
    ln_d l = neg3 (cross3 (pl_n p) (pl_n q)) /\
    forall l', plane_plane_intersect junk p q = Ok l' -> ln_d l <> ln_d l'.
Proof.
  intro Lj. eexists. split; [reflexivity|]. split; [apply map_length|]. intros i q l Hq Hl.
  unfold planes_plane_loop in Hl. rewrite nth_error_map, Hq in Hl. cbn in Hl. injection Hl as Hl.
  destruct (pp_line _ _ _ _ Lj Hl) as [D [N _]].
  assert (D' : ln_d l = neg3 (cross3 (pl_n p) (pl_n q))) by (rewrite D; apply v3_ext; v3d; ring).
  split; auto. intros l' Hl'. destruct (pp_line _ _ _ _ Lj Hl') as [E [N' _]]. intro K. apply N'.
  rewrite K, E in D'. set (c := cross3 (pl_n p) (pl_n q)) in *. rewrite E. apply v3_inv in D'. unfold neg3 in D'. cbn [vx vy vz] in D'.
  destruct D' as [D1 [D2 D3]]. apply v3_ext; unfold zero3; cbn [vx vy vz]; qlra.
Qed.

Lemma ppi_none junk ps qs ls : planes_planes_intersect junk ps qs <> Ok ls.
Proof. unfold planes_planes_intersect. destruct (Nat.eqb _ _); discriminate. Qed.
