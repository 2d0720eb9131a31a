(* Lemmas for ImplProps.v: octrees. *)
From Coq Require Import List Arith ZArith Bool QArith Qcanon Lia Permutation.
From Verif Require Import Common QcLib SumLib ListLib AabbModel AabbSpec AabbProofs ImplModel ImplSpec Dyadic BvhProofs3 ImplProofs.
Import ListNotations.
Local Open Scope Qc_scope.

Section D3.
Context (f : v3 -> Qc) (x0 y0 z0 x1 y1 z1 : Qc).
Notation b := ((x0, y0, z0), (x1, y1, z1)).
Notation bl := [(x0, x1); (y0, y1); (z0, z1)].
Definition verdict3 (t : tree3) : option sign := match t with Full3 _ => Some Neg | Empty3 _ => Some Nonneg | _ => None end.
Definition g3 (j : nat) (a : addr) : box3 := match a with [k; l; m] => grid3 b j k l m | _ => b end.
Definition mark3 (D : nat) (a : addr) : option sign := verdict3 (collapse_leaf3 f (g3 D a)).

Lemma grid3_eq j k l m : grid3 b j k l m = ((tick x0 x1 j k, tick y0 y1 j l, tick z0 z1 j m), (tick x0 x1 j (S k), tick y0 y1 j (S l), tick z0 z1 j (S m))).
Proof. reflexivity. Qed.
Lemma leaf_cases3 data : match collapse_leaf3 f data with Root3 _ _ _ _ _ _ _ _ => False | _ => True end.
Proof. destruct data as [[[? ?] ?] [[? ?] ?]]. unfold collapse_leaf3. destruct (forallb _ _); [exact I|]. destruct (forallb _ _); exact I. Qed.
Lemma empty_same3 t : is_empty3 t = same Nonneg (verdict3 t).
Proof. destruct t; reflexivity. Qed.
Lemma full_same3 t : is_full3 t = same Neg (verdict3 t).
Proof. destruct t; reflexivity. Qed.

Lemma bridge3 D : forall d j k l m, (j + d = D)%nat ->
  let t := collapse3d f (build_tree3d (fst (grid3 b j k l m)) (snd (grid3 b j k l m)) d) in
  verdict3 t = verdict (mark3 D) d [k; l; m] /\ forall c, build_node3 t (grid3 b j k l m) c = collect g3 (rep (mark3 D) d j [k; l; m]) c.
Proof.
  induction d as [|d IH]; intros j k l m E; cbv zeta.
  - cbn [verdict rep]. cbn [build_tree3d collapse3d fst snd]. assert (j = D) by lia. subst j. unfold mark3; cbn [g3].
    assert (Q : (fst (grid3 b D k l m), snd (grid3 b D k l m)) = grid3 b D k l m) by reflexivity. rewrite Q. split; [reflexivity|]. intros c.
    pose proof (leaf_cases3 (grid3 b D k l m)) as L. destruct (collapse_leaf3 f (grid3 b D k l m)); cbn [verdict3]; try contradiction; reflexivity.
  - pose proof (IH (S j) (2 * k)%nat (2 * l)%nat (2 * m)%nat ltac:(lia)) as [Va Na].
    pose proof (IH (S j) (S (2 * k)) (2 * l)%nat (2 * m)%nat ltac:(lia)) as [Vb Nb].
    pose proof (IH (S j) (2 * k)%nat (S (2 * l)) (2 * m)%nat ltac:(lia)) as [Vc Nc].
    pose proof (IH (S j) (S (2 * k)) (S (2 * l)) (2 * m)%nat ltac:(lia)) as [Vd Nd].
    pose proof (IH (S j) (2 * k)%nat (2 * l)%nat (S (2 * m)) ltac:(lia)) as [Ve Ne].
    pose proof (IH (S j) (S (2 * k)) (2 * l)%nat (S (2 * m)) ltac:(lia)) as [Vf Nf].
    pose proof (IH (S j) (2 * k)%nat (S (2 * l)) (S (2 * m)) ltac:(lia)) as [Vg Ng].
    pose proof (IH (S j) (S (2 * k)) (S (2 * l)) (S (2 * m)) ltac:(lia)) as [Vh Nh].
    clear IH. rewrite !grid3_eq in *. rewrite !tick_double', !tick_double, !tick_mid in *. cbn [fst snd] in *. cbn [build_tree3d].
    set (xm := (tick x0 x1 j k + tick x0 x1 j (S k)) / two) in *. set (ym := (tick y0 y1 j l + tick y0 y1 j (S l)) / two) in *. set (zm := (tick z0 z1 j m + tick z0 z1 j (S m)) / two) in *.
    set (xa := tick x0 x1 j k) in *. set (xb := tick x0 x1 j (S k)) in *. set (ya := tick y0 y1 j l) in *. set (yb := tick y0 y1 j (S l)) in *. set (za := tick z0 z1 j m) in *. set (zb := tick z0 z1 j (S m)) in *.
    set (ta := build_tree3d (xa, ya, za) (xm, ym, zm) d) in *.
    set (tb := build_tree3d (xm, ya, za) (xb, ym, zm) d) in *.
    set (tc := build_tree3d (xa, ym, za) (xm, yb, zm) d) in *.
    set (td := build_tree3d (xm, ym, za) (xb, yb, zm) d) in *.
    set (te := build_tree3d (xa, ya, zm) (xm, ym, zb) d) in *.
    set (tf := build_tree3d (xm, ya, zm) (xb, ym, zb) d) in *.
    set (tg := build_tree3d (xa, ym, zm) (xm, yb, zb) d) in *.
    set (th := build_tree3d (xm, ym, zm) (xb, yb, zb) d) in *.
    cbn [collapse3d]. rewrite !empty_same3, !full_same3. rewrite Va, Vb, Vc, Vd, Ve, Vf, Vg, Vh.
    assert (K : kids [k; l; m] = [[(2 * k)%nat; (2 * l)%nat; (2 * m)%nat]; [S (2 * k); (2 * l)%nat; (2 * m)%nat]; [(2 * k)%nat; S (2 * l); (2 * m)%nat]; [S (2 * k); S (2 * l); (2 * m)%nat];
      [(2 * k)%nat; (2 * l)%nat; S (2 * m)]; [S (2 * k); (2 * l)%nat; S (2 * m)]; [(2 * k)%nat; S (2 * l); S (2 * m)]; [S (2 * k); S (2 * l); S (2 * m)]]) by reflexivity.
    cbn [verdict rep]. rewrite K. clear K. cbn [forallb flat_map]. rewrite !andb_true_r, !andb_assoc.
    destruct (same Nonneg _ && _ && _ && _ && _ && _ && _ && _) eqn:E1; [split; [reflexivity|intros c; reflexivity]|].
    destruct (same Neg _ && _ && _ && _ && _ && _ && _ && _) eqn:E2; [split; [reflexivity|intros c; reflexivity]|]. split; [reflexivity|].
    intros c. rewrite app_nil_r, !collect_app. rewrite <- Na, <- Nb, <- Nc, <- Nd, <- Ne, <- Nf, <- Ng, <- Nh. reflexivity.
Qed.

Lemma vertices3 c p : vertex3 c p <-> let '((xa, ya, za), (xb, yb, zb)) := c in
  In p [(xa, ya, za); (xa, ya, zb); (xa, yb, za); (xa, yb, zb); (xb, ya, za); (xb, ya, zb); (xb, yb, za); (xb, yb, zb)].
Proof.
  destruct c as [[[xa ya] za] [[xb yb] zb]], p as [[px py] pz]. unfold vertex3, vx, vy, vz; cbn [fst snd In]. split.
  - intros [[->| ->] [[->| ->] [->| ->]]]; auto 10.
  - intros H. repeat match goal with H : _ \/ _ |- _ => destruct H as [H|H] end; try contradiction; injection H as <- <- <-; auto.
Qed.
Lemma mark3_spec D a s : mark3 D a = Some s <-> forall p, vertex3 (g3 D a) p -> has s (f p).
Proof.
  unfold mark3. set (c := g3 D a). clearbody c. assert (V : forall P : Qc -> Prop, (forall p, vertex3 c p -> P (f p)) <->
    Forall P (let '((xa, ya, za), (xb, yb, zb)) := c in flat_map (fun x => flat_map (fun y => map (fun z => f (x, y, z)) [za; zb]) [ya; yb]) [xa; xb])).
  { intros P. destruct c as [[[xa ya] za] [[xb yb] zb]]. cbn [flat_map map app]. split.
    - intros H. repeat (apply Forall_cons; [apply H, vertices3; cbn; auto 10|]). constructor.
    - intros H p Hp. apply vertices3 in Hp. rewrite Forall_forall in H. cbn [In] in Hp. repeat (destruct Hp as [<-|Hp]; [apply H; cbn; auto 10|]). contradiction. }
  destruct c as [[[xa ya] za] [[xb yb] zb]]. unfold collapse_leaf3. set (vs := flat_map _ _) in *.
  assert (NE : exists v, In v vs) by (eexists; left; reflexivity). clearbody vs.
  assert (F1 : forallb (fun v => qlt v 0) vs = true <-> Forall (has Neg) vs) by (rewrite forallb_forall, Forall_forall; split; intros H v Hv; apply qlt_true, H, Hv).
  assert (F2 : forallb (fun v => qle 0 v) vs = true <-> Forall (has Nonneg) vs) by (rewrite forallb_forall, Forall_forall; split; intros H v Hv; apply qle_true, H, Hv).
  rewrite V. destruct (forallb (fun v => qlt v 0) vs) eqn:E1; [|destruct (forallb (fun v => qle 0 v) vs) eqn:E2]; cbn [verdict3].
  - destruct s; split; try discriminate; try reflexivity; [intros _; apply F1; reflexivity|]. intros H. exfalso. destruct NE as [v Hv]. rewrite Forall_forall in H. specialize (H v Hv).
    assert (H1 : Forall (has Neg) vs) by (apply F1; reflexivity). rewrite Forall_forall in H1. specialize (H1 v Hv). cbn [has] in *. qlra.
  - destruct s; split; try discriminate; try reflexivity; [|intros _; apply F2; reflexivity]. intros H. apply F1 in H. discriminate.
  - split; [discriminate|]. destruct s; intros H; [apply F1 in H|apply F2 in H]; discriminate.
Qed.
Lemma under_3 e K L M k l m : under e [K; L; M] [k; l; m] <-> part_of (2 ^ e) K k /\ part_of (2 ^ e) L l /\ part_of (2 ^ e) M m.
Proof.
  unfold under. split.
  - intros H. inversion H as [|? ? ? ? H1 F]; subst. inversion F as [|? ? ? ? H2 F2]; subst. inversion F2; subst. auto.
  - intros [H1 [H2 H3]]. constructor; [exact H1|constructor; [exact H2|constructor; [exact H3|constructor]]].
Qed.
Lemma under_3' e K L M a : under e [K; L; M] a -> exists k l m, a = [k; l; m] /\ part_of (2 ^ e) K k /\ part_of (2 ^ e) L l /\ part_of (2 ^ e) M m.
Proof.
  unfold under. intros H. inversion H as [|? k ? ? H1 F]; subst. inversion F as [|? l ? ? H2 F2]; subst. inversion F2 as [|? m ? ? H3 F3]; subst. inversion F3; subst. exists k, l, m. auto.
Qed.
Lemma all3_verdict d s j K L M : all3 f b d s j K L M <-> verdict (mark3 d) (d - j) [K; L; M] = Some s.
Proof.
  rewrite verdict_spec. split.
  - intros H a U. apply under_3' in U. destruct U as [k [l [m [-> [H1 [H2 H3]]]]]]. apply mark3_spec. intros p Hp. apply (H k l m p H1 H2 H3 Hp).
  - intros H k l m p H1 H2 H3 Hp. specialize (H [k; l; m]). assert (U : under (d - j) [K; L; M] [k; l; m]) by (apply under_3; auto). specialize (H U). rewrite mark3_spec in H. apply H. exact Hp.
Qed.
Lemma grid3_0 : grid3 b 0 0 0 0 = b.
Proof. rewrite grid3_eq. rewrite !(proj1 (tick_0 _ _)), !(proj2 (tick_0 _ _)). reflexivity. Qed.
Lemma cells3_eq d : build3 f b d = collect g3 (rep (mark3 d) d 0 [0; 0; 0]%nat) no_cells.
Proof. unfold build3. destruct (bridge3 d d 0 0 0 0 ltac:(lia)) as [_ N]. cbv zeta in N. rewrite grid3_0 in N. apply N. Qed.

Theorem reported3 d s x : In x (reported s (build3 f b d)) <->
  exists j K L M, (j <= d /\ K < 2 ^ j /\ L < 2 ^ j /\ M < 2 ^ j)%nat /\ x = grid3 b j K L M /\ all3 f b d s j K L M /\ ((0 < j)%nat -> ~ all3 f b d s (j - 1) (K / 2) (L / 2) (M / 2)).
Proof.
  rewrite cells3_eq, collect_reported. split.
  - intros [H|[j [a [H ->]]]]; [destruct s; destruct H|]. apply rep_sound in H. destruct H as [e [He [-> [U [V [_ N]]]]]]. cbn [Nat.add] in *.
    apply under_3' in U. destruct U as [K [L [M [-> [P1 [P2 P3]]]]]]. apply part_0 in P1, P2, P3. exists e, K, L, M. split; [auto|]. split; [reflexivity|]. split; [apply all3_verdict; exact V|].
    intros Z A. apply all3_verdict in A. specialize (N Z). unfold up in N; cbn [map] in N. replace (d - (e - 1))%nat with (S (d - e)) in A by lia. congruence.
  - intros [j [K [L [M [[Hj [HK [HL HM]]] [-> [A N]]]]]]]. right. exists j, [K; L; M]. split; [|reflexivity]. apply (rep_some (mark3 d) d 0 [0; 0; 0]%nat j [K; L; M] s Hj).
    + apply under_3. split; [|split]; apply part_0; assumption.
    + apply all3_verdict. exact A.
    + destruct j as [|j]; [left; reflexivity|right]. intros V. apply N; [lia|]. apply all3_verdict. replace (d - (S j - 1))%nat with (S (d - S j)) by lia. exact V.
Qed.
Theorem border3 d x : In x (border (build3 f b d)) <->
  exists K L M, (K < 2 ^ d /\ L < 2 ^ d /\ M < 2 ^ d)%nat /\ x = grid3 b d K L M /\ ~ all3 f b d Neg d K L M /\ ~ all3 f b d Nonneg d K L M.
Proof.
  rewrite cells3_eq, collect_border. split.
  - intros [H|[j [a [H ->]]]]; [destruct H|]. apply rep_sound in H. destruct H as [e [He [-> [U [V [N _]]]]]]. cbn [Nat.add] in *. specialize (N eq_refl). subst e.
    apply under_3' in U. destruct U as [K [L [M [-> [P1 [P2 P3]]]]]]. apply part_0 in P1, P2, P3. exists K, L, M. split; [auto|]. split; [reflexivity|]. rewrite !all3_verdict. split; congruence.
  - intros [K [L [M [[HK [HL HM]] [-> [A1 A2]]]]]]. right. exists d, [K; L; M]. split; [|reflexivity]. apply (rep_none (mark3 d) d 0 [0; 0; 0]%nat).
    + apply under_3. split; [|split]; apply part_0; assumption.
    + rewrite all3_verdict, Nat.sub_diag in A1, A2. cbn [verdict] in A1, A2. destruct (mark3 d [K; L; M]) as [[]|]; congruence.
Qed.
Lemma in_cellb3 p j k l m : in_box3 p (grid3 b j k l m) <-> inb [vx p; vy p; vz p] (cellb bl j [k; l; m]).
Proof.
  unfold in_box3, inb. cbn [cellb span grid3 fst snd vx vy vz]. split.
  - intros [H1 [H2 H3]]. repeat (constructor; [assumption|]). constructor.
  - intros H. inversion H as [|? ? ? ? H1 F]; subst. inversion F as [|? ? ? ? H2 F2]; subst. inversion F2; subst. auto.
Qed.
Lemma inside_cellb3 p j k l m : inside3 p (grid3 b j k l m) <-> insideb [vx p; vy p; vz p] (cellb bl j [k; l; m]).
Proof.
  unfold inside3, insideb. cbn [cellb span grid3 fst snd vx vy vz]. split.
  - intros [H1 [H2 H3]]. repeat (constructor; [assumption|]). constructor.
  - intros H. inversion H as [|? ? ? ? H1 F]; subst. inversion F as [|? ? ? ? H2 F2]; subst. inversion F2; subst. auto.
Qed.
Lemma rep_dim3 mk d j a x : In x (rep mk d j a) -> length a = 3%nat -> exists k l m, snd x = [k; l; m].
Proof.
  destruct x as [[o j'] a']. intros H L. apply rep_sound in H. destruct H as [e [_ [_ [U _]]]]. apply Forall2_length in U. cbn [snd].
  destruct a' as [|k [|l [|m [|]]]]; cbn in U; try lia. eauto.
Qed.
Theorem tiles3_cells d : proper3 b -> tiles3 b (every (build3 f b d)).
Proof.
  intros [Px [Py Pz]]. unfold vx, vy, vz in *; cbn [fst snd] in Px, Py, Pz. assert (P : properb bl) by (repeat (apply Forall_cons; [assumption|]); constructor).
  rewrite cells3_eq. pose proof (collect_every g3 (rep (mark3 d) d 0 [0; 0; 0]%nat) no_cells) as E. unfold no_cells in E at 2. unfold every in E at 2. cbn [full empty border app] in E.
  set (l := rep (mark3 d) d 0 [0; 0; 0]%nat) in *. set (c := collect g3 l no_cells) in *. split.
  - intros p. transitivity (exists x, In x l /\ inb [vx p; vy p; vz p] (place bl x)).
    + rewrite <- grid3_0. rewrite in_cellb3. split.
      * apply rep_cover. reflexivity.
      * intros [x [Hx H]]. eapply (rep_in (mark3 d) bl inb); [intros; eapply kid_inside; eassumption|exact Hx|exact H].
    + split.
      * intros [x [Hx H]]. exists (g3 (snd (fst x)) (snd x)). split; [eapply Permutation_in; [symmetry; exact E|]; apply in_map_iff; exists x; auto|].
        destruct (rep_dim3 _ _ _ _ _ Hx eq_refl) as [k [m [n Em]]]. destruct x as [[o j] a]; cbn [fst snd] in *. subst a. cbn [g3]. apply in_cellb3. exact H.
      * intros [q [Hq H]]. apply (Permutation_in _ E) in Hq. apply in_map_iff in Hq. destruct Hq as [x [<- Hx]]. exists x. split; [exact Hx|].
        destruct (rep_dim3 _ _ _ _ _ Hx eq_refl) as [k [m [n Em]]]. destruct x as [[o j] a]; cbn [fst snd] in *. subst a. cbn [g3] in H. apply in_cellb3 in H. exact H.
  - eapply fop_perm; [|symmetry; exact E|]; [intros x y H p H1 H2; apply (H p); assumption|].
    apply (fop_map (fun c0 d0 => forall p, inside3 p c0 -> ~ inside3 p d0)). eapply fop_impl; [|apply (rep_apart (mark3 d) bl d 0 [0; 0; 0]%nat P eq_refl)].
    intros x y Hx Hy H p H1 H2. destruct (rep_dim3 _ _ _ _ _ Hx eq_refl) as [k [m [n Em]]]. destruct (rep_dim3 _ _ _ _ _ Hy eq_refl) as [k' [m' [n' Em']]].
    destruct x as [[o j] a], y as [[o' j'] a']; cbn [fst snd] in *. subst a a'. cbn [g3] in H1, H2. apply inside_cellb3 in H1, H2. apply (H [vx p; vy p; vz p] H1 H2).
Qed.
End D3.
