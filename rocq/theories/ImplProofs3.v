(* Lemmas for ImplProps.v: operators, bounds, gradient. *)
From Coq Require Import List Arith ZArith Bool QArith Qcanon Lia Permutation.
From Verif Require Import Common QcLib SumLib ListLib AabbModel AabbSpec AabbProofs ImplModel ImplSpec Dyadic ImplProofs ImplProofs2.
Import ListNotations.
Local Open Scope Qc_scope.

Lemma union_lt a b : op_union a b < 0 <-> a < 0 \/ b < 0.
Proof. unfold op_union. destruct (fmin_spec a b) as [A [B [C|C]]]; rewrite C in *; split; try (intros [H|H]); try intros H; try qlra; auto. Qed.
Lemma union_gt a b : 0 < op_union a b <-> 0 < a /\ 0 < b.
Proof. unfold op_union. destruct (fmin_spec a b) as [A [B [C|C]]]; rewrite C in *; split; try (intros [H K]); try intros H; try split; try qlra; auto. Qed.
Lemma inter_lt a b : op_intersection a b < 0 <-> a < 0 /\ b < 0.
Proof. unfold op_intersection. destruct (fmax_spec a b) as [A [B [C|C]]]; rewrite C in *; split; try (intros [H K]); try intros H; try split; try qlra; auto. Qed.
Lemma inter_gt a b : 0 < op_intersection a b <-> 0 < a \/ 0 < b.
Proof. unfold op_intersection. destruct (fmax_spec a b) as [A [B [C|C]]]; rewrite C in *; split; try (intros [H|H]); try intros H; try qlra; auto. Qed.
Lemma sub_lt a b : op_subtraction a b < 0 <-> 0 < a /\ b < 0.
Proof. unfold op_subtraction. destruct (fmax_spec (- a) b) as [A [B [C|C]]]; rewrite C in *; split; try (intros [H K]); try intros H; try split; try qlra; auto. Qed.
Lemma sub_gt a b : 0 < op_subtraction a b <-> a < 0 \/ 0 < b.
Proof.
  unfold op_subtraction. destruct (fmax_spec (- a) b) as [A [B [C|C]]]; rewrite C in *; split; try (intros [H|H]); try intros H; try qlra; auto. left; qlra.
Qed.
Lemma xor_lt a b : op_xor a b < 0 <-> (a < 0 /\ 0 < b) \/ (b < 0 /\ 0 < a).
Proof.
  unfold op_xor. destruct (fmin_spec a b) as [A [B C]], (fmax_spec a b) as [D [E F]]. destruct (fmax_spec (fmin a b) (- fmax a b)) as [G [H K]].
  split.
  - intros L. assert (M : fmin a b < 0) by qlra. assert (N : 0 < fmax a b) by qlra. destruct C as [C|C], F as [F|F]; rewrite C, F in *; try qlra; [left|right]; split; assumption.
  - intros L. assert (M : fmin a b < 0) by (destruct L as [[L1 L2]|[L1 L2]]; qlra). assert (N : 0 < fmax a b) by (destruct L as [[L1 L2]|[L1 L2]]; qlra). destruct K as [K|K]; rewrite K; qlra.
Qed.
Lemma inv_lt a : op_inv a < 0 <-> 0 < a.
Proof. unfold op_inv. split; intros; qlra. Qed.

Lemma ops a b : (op_union a b < 0 <-> a < 0 \/ b < 0) /\ (op_intersection a b < 0 <-> a < 0 /\ b < 0) /\
  (op_subtraction b a < 0 <-> a < 0 /\ 0 < b) /\ (op_xor a b < 0 <-> (a < 0 /\ 0 < b) \/ (b < 0 /\ 0 < a)) /\ (op_inv a < 0 <-> 0 < a).
Proof. split; [apply union_lt|]. split; [apply inter_lt|]. split; [rewrite sub_lt; tauto|]. split; [apply xor_lt|apply inv_lt]. Qed.

Lemma bind_inv {A B} (r : res A) (k : A -> res B) y : bind r k = Ok y -> exists x, r = Ok x /\ k x = Ok y.
Proof. destruct r; cbn; [eauto|discriminate]. Qed.

(* any expression means its reading with the operands of every - swapped *)
Lemma eval2_means e s : eval2 e = Ok s -> forall p, (impl2 s p < 0 <-> within impl2 (swapped e) p) /\ (0 < impl2 s p <-> without impl2 (swapped e) p).
Proof.
  revert s. induction e as [t|a IHa b IHb|a IHa b IHb|a IHa b IHb|a IHa b IHb]; intros s E p; cbn [eval2] in E.
  - injection E as <-. split; reflexivity.
  - apply bind_inv in E. destruct E as [x [Ea E]]. apply bind_inv in E. destruct E as [y [Eb E]]. discriminate.
  - apply bind_inv in E. destruct E as [x [Ea E]]. apply bind_inv in E. destruct E as [y [Eb E]]. injection E as <-. destruct (IHa x Ea p) as [A1 A2], (IHb y Eb p) as [B1 B2].
    cbn [impl2 swapped within without]. rewrite sub_lt, sub_gt. tauto.
  - apply bind_inv in E. destruct E as [x [Ea E]]. apply bind_inv in E. destruct E as [y [Eb E]]. destruct (IHa x Ea p) as [A1 A2], (IHb y Eb p) as [B1 B2].
    unfold union2d in E. destruct (bounds2 x) as [[? ?] [? ?]], (bounds2 y) as [[? ?] [? ?]]. injection E as <-. cbn [impl2 swapped within without]. rewrite union_lt, union_gt. tauto.
  - apply bind_inv in E. destruct E as [x [Ea E]]. apply bind_inv in E. destruct E as [y [Eb E]]. destruct (IHa x Ea p) as [A1 A2], (IHb y Eb p) as [B1 B2].
    unfold union2d in E. destruct (bounds2 x) as [[? ?] [? ?]], (bounds2 y) as [[? ?] [? ?]]. injection E as <-. cbn [impl2 swapped within without]. rewrite union_lt, union_gt. tauto.
Qed.
Lemma eval3_means e s : eval3 e = Ok s -> forall p, (impl3 s p < 0 <-> within impl3 (swapped e) p) /\ (0 < impl3 s p <-> without impl3 (swapped e) p).
Proof.
  revert s. induction e as [t|a IHa b IHb|a IHa b IHb|a IHa b IHb|a IHa b IHb]; intros s E p; cbn [eval3] in E.
  - injection E as <-. split; reflexivity.
  - apply bind_inv in E. destruct E as [x [Ea E]]. apply bind_inv in E. destruct E as [y [Eb E]]. destruct (IHa x Ea p) as [A1 A2], (IHb y Eb p) as [B1 B2].
    unfold intersection3d in E. destruct (bounds3 x) as [[[? ?] ?] [[? ?] ?]], (bounds3 y) as [[[? ?] ?] [[? ?] ?]]. injection E as <-. cbn [impl3 swapped within without]. rewrite inter_lt, inter_gt. tauto.
  - apply bind_inv in E. destruct E as [x [Ea E]]. apply bind_inv in E. destruct E as [y [Eb E]]. injection E as <-. destruct (IHa x Ea p) as [A1 A2], (IHb y Eb p) as [B1 B2].
    cbn [impl3 swapped within without]. rewrite sub_lt, sub_gt. tauto.
  - apply bind_inv in E. destruct E as [x [Ea E]]. apply bind_inv in E. destruct E as [y [Eb E]]. destruct (IHa x Ea p) as [A1 A2], (IHb y Eb p) as [B1 B2].
    unfold union3d in E. destruct (bounds3 x) as [[[? ?] ?] [[? ?] ?]], (bounds3 y) as [[[? ?] ?] [[? ?] ?]]. injection E as <-. cbn [impl3 swapped within without]. rewrite union_lt, union_gt. tauto.
  - apply bind_inv in E. destruct E as [x [Ea E]]. apply bind_inv in E. destruct E as [y [Eb E]]. destruct (IHa x Ea p) as [A1 A2], (IHb y Eb p) as [B1 B2].
    unfold union3d in E. destruct (bounds3 x) as [[[? ?] ?] [[? ?] ?]], (bounds3 y) as [[[? ?] ?] [[? ?] ?]]. injection E as <-. cbn [impl3 swapped within without]. rewrite union_lt, union_gt. tauto.
Qed.
Lemma swapped_same {S} (e : expr S) : no_minus e -> swapped e = e.
Proof. induction e; cbn; intros H; try reflexivity; try contradiction; destruct H; rewrite IHe1, IHe2 by assumption; reflexivity. Qed.
Lemma eval2_ok e : no_and e -> exists s, eval2 e = Ok s.
Proof.
  induction e as [t|a IHa b IHb|a IHa b IHb|a IHa b IHb|a IHa b IHb]; cbn; intros H; try contradiction; [eauto|..]; destruct H as [Ha Hb]; destruct (IHa Ha) as [x ->], (IHb Hb) as [y ->]; cbn; [unfold sub2d; eauto|..];
  unfold union2d; destruct (bounds2 x) as [[? ?] [? ?]], (bounds2 y) as [[? ?] [? ?]]; eauto.
Qed.
Lemma eval3_ok e : exists s, eval3 e = Ok s.
Proof.
  induction e as [t|a [x Ea] b [y Eb]|a [x Ea] b [y Eb]|a [x Ea] b [y Eb]|a [x Ea] b [y Eb]]; cbn; [eauto|..]; rewrite Ea, Eb; cbn; unfold intersection3d, union3d, sub3d;
  destruct (bounds3 x) as [[[? ?] ?] [[? ?] ?]], (bounds3 y) as [[[? ?] ?] [[? ?] ?]]; eauto.
Qed.
Lemma eval2_and e : ~ no_and e -> eval2 e = Err TypeError.
Proof.
  assert (G : forall e s, eval2 e = Ok s -> no_and e).
  { clear. induction e as [t|a IHa b IHb|a IHa b IHb|a IHa b IHb|a IHa b IHb]; cbn; intros s E; [exact I| | | |]; apply bind_inv in E; destruct E as [x [Ea E]]; apply bind_inv in E; destruct E as [y [Eb E]]; try discriminate; split; eauto. }
  assert (F : forall e x, eval2 e = Err x -> x = TypeError).
  { clear. induction e as [t|a IHa b IHb|a IHa b IHb|a IHa b IHb|a IHa b IHb]; cbn; intros z E; [discriminate| | | |]; (destruct (eval2 a) as [x|x] eqn:Ea; cbn in E; [|injection E as <-; eauto]; destruct (eval2 b) as [y|y] eqn:Eb; cbn in E; [|injection E as <-; eauto]).
    - injection E as <-. reflexivity.
    - discriminate.
    - unfold union2d in E. destruct (bounds2 x) as [[? ?] [? ?]], (bounds2 y) as [[? ?] [? ?]]. discriminate.
    - unfold union2d in E. destruct (bounds2 x) as [[? ?] [? ?]], (bounds2 y) as [[? ?] [? ?]]. discriminate. }
  intros N. destruct (eval2 e) as [s|x] eqn:E; [exfalso; apply N; eapply G; eassumption|]. f_equal. eapply F; eassumption.
Qed.
Lemma le_union a b : op_union a b <= 0 -> a <= 0 \/ b <= 0.
Proof. unfold op_union. destruct (fmin_spec a b) as [A [B [C|C]]]; rewrite C; auto. Qed.
Lemma le_inter a b : op_intersection a b <= 0 -> a <= 0 /\ b <= 0.
Proof. unfold op_intersection. destruct (fmax_spec a b) as [A [B _]]. intros H. split; qlra. Qed.
Lemma fmin_le a b : fmin a b <= a /\ fmin a b <= b.
Proof. destruct (fmin_spec a b) as [A [B _]]. auto. Qed.
Lemma fmax_ge a b : a <= fmax a b /\ b <= fmax a b.
Proof. destruct (fmax_spec a b) as [A [B _]]. auto. Qed.
Lemma union2d_bounded x y s : bounded2 x -> bounded2 y -> union2d x y = Ok s -> bounded2 s.
Proof.
  intros Bx By E p Hp. unfold union2d in E. specialize (Bx p). specialize (By p). destruct (bounds2 x) as [[a1 a2] [a3 a4]], (bounds2 y) as [[b1 b2] [b3 b4]]. injection E as <-. cbn [impl2 bounds2] in *.
  unfold in2 in *; cbn [fst snd] in *. pose proof (fmin_le a1 b1) as [? ?]. pose proof (fmin_le a2 b2) as [? ?]. pose proof (fmax_ge a3 b3) as [? ?]. pose proof (fmax_ge a4 b4) as [? ?].
  apply le_union in Hp. destruct Hp as [Hp|Hp]; [destruct (Bx Hp) as [[? ?] [? ?]]|destruct (By Hp) as [[? ?] [? ?]]]; repeat split; qlra.
Qed.
Lemma union3d_bounded x y s : bounded3 x -> bounded3 y -> union3d x y = Ok s -> bounded3 s.
Proof.
  intros Bx By E p Hp. unfold union3d in E. specialize (Bx p). specialize (By p). destruct (bounds3 x) as [[[a1 a2] a3] [[a4 a5] a6]], (bounds3 y) as [[[b1 b2] b3] [[b4 b5] b6]]. injection E as <-. cbn [impl3 bounds3] in *.
  unfold in_box3, vx, vy, vz in *; cbn [fst snd] in *. pose proof (fmin_le a1 b1) as [? ?]. pose proof (fmin_le a2 b2) as [? ?]. pose proof (fmin_le a3 b3) as [? ?]. pose proof (fmax_ge a4 b4) as [? ?]. pose proof (fmax_ge a5 b5) as [? ?]. pose proof (fmax_ge a6 b6) as [? ?].
  apply le_union in Hp. destruct Hp as [Hp|Hp]; [destruct (Bx Hp) as [[? ?] [[? ?] [? ?]]]|destruct (By Hp) as [[? ?] [[? ?] [? ?]]]]; repeat split; qlra.
Qed.
Lemma inter3d_bounded x y s : bounded3 x -> bounded3 y -> intersection3d x y = Ok s -> bounded3 s.
Proof.
  intros Bx By E p Hp. unfold intersection3d in E. specialize (Bx p). specialize (By p). destruct (bounds3 x) as [[[a1 a2] a3] [[a4 a5] a6]], (bounds3 y) as [[[b1 b2] b3] [[b4 b5] b6]]. injection E as <-. cbn [impl3 bounds3] in *.
  unfold in_box3, vx, vy, vz in *; cbn [fst snd] in *. apply le_inter in Hp. destruct Hp as [H1 H2]. destruct (Bx H1) as [[? ?] [[? ?] [? ?]]], (By H2) as [[? ?] [[? ?] [? ?]]].
  destruct (fmax_spec a1 b1) as [_ [_ [->| ->]]], (fmax_spec a2 b2) as [_ [_ [->| ->]]], (fmax_spec a3 b3) as [_ [_ [->| ->]]], (fmin_spec a4 b4) as [_ [_ [->| ->]]], (fmin_spec a5 b5) as [_ [_ [->| ->]]], (fmin_spec a6 b6) as [_ [_ [->| ->]]]; repeat split; assumption.
Qed.
Lemma eval2_bounded e s : no_minus e -> Forall bounded2 (prims e) -> eval2 e = Ok s -> bounded2 s.
Proof.
  revert s. induction e as [t|a IHa b IHb|a IHa b IHb|a IHa b IHb|a IHa b IHb]; cbn [no_minus prims eval2]; intros s N F E; try contradiction.
  - injection E as <-. inversion F; assumption.
  - apply bind_inv in E. destruct E as [x [Ea E]]. apply bind_inv in E. destruct E as [y [Eb E]]. discriminate.
  - destruct N as [N1 N2]. apply Forall_app in F. destruct F as [F1 F2]. apply bind_inv in E. destruct E as [x [Ea E]]. apply bind_inv in E. destruct E as [y [Eb E]]. eapply union2d_bounded; [| |exact E]; eauto.
  - destruct N as [N1 N2]. apply Forall_app in F. destruct F as [F1 F2]. apply bind_inv in E. destruct E as [x [Ea E]]. apply bind_inv in E. destruct E as [y [Eb E]]. eapply union2d_bounded; [| |exact E]; eauto.
Qed.
Lemma eval3_bounded e s : no_minus e -> Forall bounded3 (prims e) -> eval3 e = Ok s -> bounded3 s.
Proof.
  revert s. induction e as [t|a IHa b IHb|a IHa b IHb|a IHa b IHb|a IHa b IHb]; cbn [no_minus prims eval3]; intros s N F E; try contradiction.
  - injection E as <-. inversion F; assumption.
  - destruct N as [N1 N2]. apply Forall_app in F. destruct F as [F1 F2]. apply bind_inv in E. destruct E as [x [Ea E]]. apply bind_inv in E. destruct E as [y [Eb E]]. eapply inter3d_bounded; [| |exact E]; eauto.
  - destruct N as [N1 N2]. apply Forall_app in F. destruct F as [F1 F2]. apply bind_inv in E. destruct E as [x [Ea E]]. apply bind_inv in E. destruct E as [y [Eb E]]. eapply union3d_bounded; [| |exact E]; eauto.
  - destruct N as [N1 N2]. apply Forall_app in F. destruct F as [F1 F2]. apply bind_inv in E. destruct E as [x [Ea E]]. apply bind_inv in E. destruct E as [y [Eb E]]. eapply union3d_bounded; [| |exact E]; eauto.
Qed.
(* the operators of the library, 3D: everything but - *)
Lemma solids3 (e : expr shape3) : no_minus e -> exists s, eval3 e = Ok s /\
  (forall p, (impl3 s p < 0 <-> within impl3 e p) /\ (0 < impl3 s p <-> without impl3 e p)) /\ (Forall bounded3 (prims e) -> bounded3 s).
Proof.
  intros N. destruct (eval3_ok e) as [s E]. exists s. split; [exact E|]. split; [intros p; pose proof (eval3_means e s E p) as M; rewrite (swapped_same e N) in M; exact M|intros F; eapply eval3_bounded; eassumption].
Qed.
Lemma solids2 (e : expr shape2) : no_minus e -> no_and e -> exists s, eval2 e = Ok s /\
  (forall p, (impl2 s p < 0 <-> within impl2 e p) /\ (0 < impl2 s p <-> without impl2 e p)) /\ (Forall bounded2 (prims e) -> bounded2 s).
Proof.
  intros N A. destruct (eval2_ok e A) as [s E]. exists s. split; [exact E|]. split; [intros p; pose proof (eval2_means e s E p) as M; rewrite (swapped_same e N) in M; exact M|intros F; eapply eval2_bounded; eassumption].
Qed.
(* a - b is b without a *)
Lemma minus_is a b s p : eval3 (Minus (Prim a) (Prim b)) = Ok s -> (impl3 s p < 0 <-> impl3 b p < 0 /\ 0 < impl3 a p).
Proof. cbn. intros E. injection E as <-. cbn [impl3]. rewrite sub_lt. tauto. Qed.
Lemma minus_wrong a b : exists s, eval3 (Minus (Prim a) (Prim b)) = Ok s /\ bounds3 s = bounds3 a /\
  (forall p, impl3 s p < 0 -> ~ within impl3 (Minus (Prim a) (Prim b)) p) /\ (forall p, within impl3 (Minus (Prim a) (Prim b)) p -> 0 < impl3 s p).
Proof.
  eexists. split; [reflexivity|]. split; [reflexivity|]. cbn [impl3 within without]. split.
  - intros p H [K L]. apply sub_lt in H. destruct H as [H1 H2]. qlra.
  - intros p [K L]. apply sub_gt. auto.
Qed.
Lemma minus_wrong2 a b : exists s, eval2 (Minus (Prim a) (Prim b)) = Ok s /\ bounds2 s = bounds2 a /\
  (forall p, impl2 s p < 0 -> ~ within impl2 (Minus (Prim a) (Prim b)) p) /\ (forall p, within impl2 (Minus (Prim a) (Prim b)) p -> 0 < impl2 s p).
Proof.
  eexists. split; [reflexivity|]. split; [reflexivity|]. cbn [impl2 within without]. split.
  - intros p H [K L]. apply sub_lt in H. destruct H as [H1 H2]. qlra.
  - intros p [K L]. apply sub_gt. auto.
Qed.
Lemma minus_bounds a b p : impl2 b p < 0 -> 0 < impl2 a p -> ~ in2 p (bounds2 a) -> exists s, eval2 (Minus (Prim a) (Prim b)) = Ok s /\ impl2 s p < 0 /\ ~ in2 p (bounds2 s).
Proof. intros H K L. eexists. split; [reflexivity|]. cbn [impl2 bounds2]. split; [apply sub_lt; auto|exact L]. Qed.

(* ---- 2D trees ---- *)
Lemma build2_own s d0 d : let b := bounds2 s in exists t, build2 (new_tree2 (Shape2 s) d0 None) (Some d) = Ok t /\
  (forall sg x, In x (reported sg (it_cells t)) <-> exists j K L, (j <= d /\ K < 2 ^ j /\ L < 2 ^ j)%nat /\ x = grid2 b j K L /\ all2 (impl2 s) b d sg j K L /\ ((0 < j)%nat -> ~ all2 (impl2 s) b d sg (j - 1) (K / 2) (L / 2))) /\
  (forall x, In x (border (it_cells t)) <-> exists K L, (K < 2 ^ d /\ L < 2 ^ d)%nat /\ x = grid2 b d K L /\ ~ all2 (impl2 s) b d Neg d K L /\ ~ all2 (impl2 s) b d Nonneg d K L) /\
  (proper2 b -> tiles2 b (every (it_cells t))).
Proof.
  cbv zeta. eexists. split; [reflexivity|]. cbn [it_cells it_bounds new_tree2]. destruct (bounds2 s) as [[x0 y0] [x1 y1]] eqn:B. 
  change (build_node2 _ _ _) with (cells2 (impl2 s) x0 y0 x1 y1 d). split; [intros; apply reported2|]. split; [intros; apply border2|]. intros P. apply tiles2_cells. exact P.
Qed.
Lemma build3_all f b d :
  (forall sg x, In x (reported sg (build3 f b d)) <-> exists j K L M, (j <= d /\ K < 2 ^ j /\ L < 2 ^ j /\ M < 2 ^ j)%nat /\ x = grid3 b j K L M /\ all3 f b d sg j K L M /\ ((0 < j)%nat -> ~ all3 f b d sg (j - 1) (K / 2) (L / 2) (M / 2))) /\
  (forall x, In x (border (build3 f b d)) <-> exists K L M, (K < 2 ^ d /\ L < 2 ^ d /\ M < 2 ^ d)%nat /\ x = grid3 b d K L M /\ ~ all3 f b d Neg d K L M /\ ~ all3 f b d Nonneg d K L M) /\
  (proper3 b -> tiles3 b (every (build3 f b d))).
Proof.
  destruct b as [[[x0 y0] z0] [[x1 y1] z1]]. split; [intros; apply reported3|]. split; [intros; apply border3|]. apply tiles3_cells.
Qed.

(* with explicit bounds the samples are taken there and the cells are reported elsewhere *)
Lemma nodes_in t : forall q, proper2 q -> Forall (fun c => forall p, in2 p c -> in2 p q) (every (build_node2 t q no_cells)) .
Proof.
  assert (G : forall t q s (P : box2 -> Prop), proper2 q -> (forall c, (forall p, in2 p c -> in2 p q) -> P c) -> Forall P (every s) -> Forall P (every (build_node2 t q s))).
  { induction t0 as [data|n _|n _|a IHa b IHb c IHc d IHd]; intros q s P Q H F; unfold every in *; rewrite !Forall_app in *.
    - destruct F as [F1 [F2 F3]]. cbn [build_node2 full empty border]. rewrite Forall_app. repeat split; auto; try (constructor; [apply H; auto|constructor]).
    - destruct F as [F1 [F2 F3]]. cbn [build_node2 full empty border]. rewrite Forall_app. repeat split; auto; try (constructor; [apply H; auto|constructor]).
    - destruct F as [F1 [F2 F3]]. cbn [build_node2 full empty border]. rewrite Forall_app. repeat split; auto; try (constructor; [apply H; auto|constructor]).
    - rewrite <- !Forall_app in *. destruct q as [[x0 y0] [x1 y1]]. cbn [build_node2]. destruct Q as [Q1 Q2]; cbn [fst snd] in *. destruct (mid_le _ _ Q1) as [M1 M2], (mid_le _ _ Q2) as [M3 M4].
      set (xm := (x0 + x1) / two) in *. set (ym := (y0 + y1) / two) in *.
      apply IHd; [split; cbn [fst snd]; assumption|intros c' Hc; apply H; intros p Hp; apply Hc in Hp; destruct Hp as [[? ?] [? ?]]; cbn [fst snd] in *; repeat split; cbn [fst snd]; qlra|].
      apply IHc; [split; cbn [fst snd]; assumption|intros c' Hc; apply H; intros p Hp; apply Hc in Hp; destruct Hp as [[? ?] [? ?]]; cbn [fst snd] in *; repeat split; cbn [fst snd]; qlra|].
      apply IHb; [split; cbn [fst snd]; assumption|intros c' Hc; apply H; intros p Hp; apply Hc in Hp; destruct Hp as [[? ?] [? ?]]; cbn [fst snd] in *; repeat split; cbn [fst snd]; qlra|].
      apply IHa; [split; cbn [fst snd]; assumption|intros c' Hc; apply H; intros p Hp; apply Hc in Hp; destruct Hp as [[? ?] [? ?]]; cbn [fst snd] in *; repeat split; cbn [fst snd]; qlra|]. exact F. }
  intros q Q. apply G; [exact Q|auto|constructor].
Qed.
Lemma build2_elsewhere s bounds d0 d : proper2 (bounds2 s) -> exists t, build2 (new_tree2 (Shape2 s) d0 (Some bounds)) (Some d) = Ok t /\
  forall p, ~ in2 p (bounds2 s) -> Forall (fun c => ~ in2 p c) (every (it_cells t)).
Proof.
  intros P. eexists. split; [reflexivity|]. cbn [it_cells it_bounds new_tree2]. intros p N.
  eapply Forall_impl; [|apply (nodes_in _ (bounds2 s) P)]. intros c H C. apply N, H, C.
Qed.
Lemma shape_tree_unbuilt s depth : every (it_cells (shape2_tree s depth)) = [] /\ forall d, build2 (shape2_tree s depth) d = Err AttributeError.
Proof. split; reflexivity. Qed.
Lemma rebuild2 t d t' : build2 t d = Ok t' -> build2 t' None = Ok t' /\ forall d2 t1 t2, build2 t' d2 = Ok t1 -> build2 t (Some (it_depth t1)) = Ok t2 -> t1 = t2.
Proof.
  unfold build2. destruct (it_shape t) as [s|f] eqn:S; [|discriminate]. intros E. injection E as <-. cbn [it_shape it_bounds it_depth it_cells]. split; [reflexivity|].
  intros d2 t1 t2 E1 E2. injection E1 as <-. injection E2 as <-. cbn [it_depth]. reflexivity.
Qed.

(* ---- points and gradients ---- *)
Lemma inside_iff s p : point_inside s p = true <-> impl2 s p <= atol.
Proof.
  assert (A : 0 < atol) by (apply qlt_true; vm_compute; reflexivity). unfold point_inside, fabs. destruct (qlt (impl2 s p) 0) eqn:E; [apply qlt_true in E; split; [intros _; qlra|reflexivity]|]. apply qlt_false in E.
  destruct (qle (impl2 s p) atol) eqn:F; [apply qle_true in F|apply qle_false in F]; split; intros; try reflexivity; try assumption; try discriminate. exfalso; qlra.
Qed.
Lemma gradient_quadratic a b c d e g s x y : (forall p, impl2 s p = quadratic a b c d e g p) ->
  gradient2d s (x, y) = (two * a * x + b * y + d, b * x + two * c * y + e).
Proof.
  intros H. unfold gradient2d. rewrite !H. unfold quadratic. pose proof two_nz. assert (G : gstep <> 0) by (intros E; apply (f_equal this) in E; discriminate).
  assert (T : two = 1 + 1) by (apply Qc_is_canon; reflexivity). set (h := gstep) in *. clearbody h. rewrite T in *. f_equal; field; split; assumption.
Qed.
Lemma tangent_perp s v : fst (tangent2d (gradient2d s v)) * fst (gradient2d s v) + snd (tangent2d (gradient2d s v)) * snd (gradient2d s v) = 0.
Proof. unfold tangent2d. cbn [fst snd]. ring. Qed.
Lemma on_curve_affine d e g s v : (forall p, impl2 s p = quadratic 0 0 0 d e g p) -> impl2 s (point_on_curve s v) = impl2 s v * (1 - (d * d + e * e)).
Proof.
  intros H. unfold point_on_curve. destruct v as [x y]. rewrite (gradient_quadratic 0 0 0 d e g s x y H). rewrite !H. cbn [fst snd]. unfold quadratic. ring.
Qed.
Lemma on_curve_iff d e g s v : (forall p, impl2 s p = quadratic 0 0 0 d e g p) -> impl2 s v <> 0 -> (impl2 s (point_on_curve s v) = 0 <-> d * d + e * e = 1).
Proof.
  intros H N. rewrite (on_curve_affine d e g s v H). split.
  - intros E. apply Qcmult_integral in E. destruct E as [E|E]; [contradiction|]. qlra.
  - intros ->. ring.
Qed.
