(* Lemmas for ImplProps.v: cell trees. *)
From Coq Require Import List Arith ZArith Bool QArith Qcanon Lia Permutation.
From Verif Require Import Common QcLib SumLib ListLib AabbModel AabbSpec AabbProofs ImplModel ImplSpec Dyadic BvhProofs3.
Import ListNotations.
Local Open Scope Qc_scope.

(* ---- collecting the reported cells ---- *)
Section C.
Context {B : Type} (g : nat -> addr -> B).
Definition put_cell (c : cells B) (x : option sign * nat * addr) : cells B :=
  let q := g (snd (fst x)) (snd x) in
  match fst (fst x) with
  | Some Nonneg => {| full := full c; empty := empty c ++ [q]; border := border c |}
  | Some Neg => {| full := full c ++ [q]; empty := empty c; border := border c |}
  | None => {| full := full c; empty := empty c; border := border c ++ [q] |}
  end.
Definition collect (l : list (option sign * nat * addr)) (c : cells B) : cells B := fold_left put_cell l c.
Lemma collect_app l1 l2 c : collect (l1 ++ l2) c = collect l2 (collect l1 c).
Proof. apply fold_left_app. Qed.
Lemma collect_reported l c s x : In x (reported s (collect l c)) <-> In x (reported s c) \/ exists j a, In (Some s, j, a) l /\ x = g j a.
Proof.
  revert c. induction l as [|[[o j] a] l IH]; intros c.
  - cbn. split; [auto|intros [H|[? [? [[] _]]]]; exact H].
  - cbn [collect fold_left]. change (fold_left put_cell l ?c) with (collect l c). rewrite IH. unfold put_cell; cbn [fst snd]. split.
    + intros [H|[j' [a' [H E]]]]; [|right; exists j', a'; split; [right; exact H|exact E]].
      destruct o as [[]|], s; cbn [reported full empty border] in *; auto; (apply in_app_or in H; destruct H as [H|[<-|[]]]; [auto|right; exists j, a; split; [left; reflexivity|reflexivity]]).
    + intros [H|[j' [a' [[H|H] E]]]].
      * left. destruct o as [[]|], s; cbn [reported full empty border] in *; auto; apply in_or_app; auto.
      * injection H as -> <- <-. left. destruct s; cbn [reported full empty border] in *; apply in_or_app; right; left; symmetry; exact E.
      * right. exists j', a'. split; assumption.
Qed.
Lemma collect_border l c x : In x (border (collect l c)) <-> In x (border c) \/ exists j a, In (None, j, a) l /\ x = g j a.
Proof.
  revert c. induction l as [|[[o j] a] l IH]; intros c.
  - cbn. split; [auto|intros [H|[? [? [[] _]]]]; exact H].
  - cbn [collect fold_left]. change (fold_left put_cell l ?c) with (collect l c). rewrite IH. unfold put_cell; cbn [fst snd]. split.
    + intros [H|[j' [a' [H E]]]]; [|right; exists j', a'; split; [right; exact H|exact E]].
      destruct o as [[]|]; cbn [reported full empty border] in *; auto; (apply in_app_or in H; destruct H as [H|[<-|[]]]; [auto|right; exists j, a; split; [left; reflexivity|reflexivity]]).
    + intros [H|[j' [a' [[H|H] E]]]].
      * left. destruct o as [[]|]; cbn [reported full empty border] in *; auto; apply in_or_app; auto.
      * injection H as -> <- <-. left. cbn [reported full empty border] in *; apply in_or_app; right; left; symmetry; exact E.
      * right. exists j', a'. split; assumption.
Qed.
Lemma collect_every l c : Permutation (every (collect l c)) (every c ++ map (fun x => g (snd (fst x)) (snd x)) l).
Proof.
  revert c. induction l as [|[[o j] a] l IH]; intros c; [cbn; rewrite app_nil_r; reflexivity|].
  cbn [collect fold_left map]. change (fold_left put_cell l ?c) with (collect l c). rewrite IH.
  transitivity ((every c ++ [g j a]) ++ map (fun x => g (snd (fst x)) (snd x)) l); [|rewrite <- app_assoc; reflexivity]. apply Permutation_app_tail.
  unfold every, put_cell; cbn [fst snd]. destruct o as [[]|]; cbn [full empty border]; rewrite <- !app_assoc; cbn [app].
  - apply Permutation_app_head. rewrite app_assoc. apply Permutation_cons_append.
  - do 2 apply Permutation_app_head. apply Permutation_cons_append.
  - reflexivity.
Qed.
End C.
Lemma fop_map {X Y} (R : Y -> Y -> Prop) (f : X -> Y) l : ForallOrdPairs (fun x y => R (f x) (f y)) l -> ForallOrdPairs R (map f l).
Proof. induction 1 as [|x l H F IH]; cbn; constructor; [|exact IH]. apply Forall_map. exact H. Qed.
Lemma fop_impl {X} (R S : X -> X -> Prop) l : (forall x y, In x l -> In y l -> R x y -> S x y) -> ForallOrdPairs R l -> ForallOrdPairs S l.
Proof.
  intros I F. induction F as [|x l H F IH]; constructor.
  - rewrite Forall_forall in *. intros y Hy. apply I; [left; reflexivity|right; exact Hy|apply H; exact Hy].
  - apply IH. intros a b Ha Hb. apply I; right; assumption.
Qed.

(* ---- two dimensions ---- *)
Section D2.
Context (f : p2 -> Qc) (x0 y0 x1 y1 : Qc).
Notation b := ((x0, y0), (x1, y1)).
Definition verdict2 (t : tree2) : option sign := match t with Full2 _ => Some Neg | Empty2 _ => Some Nonneg | _ => None end.
Definition g2 (j : nat) (a : addr) : box2 := match a with [k; l] => grid2 b j k l | _ => b end.
Definition mark2 (D : nat) (a : addr) : option sign := verdict2 (collapse_leaf2 f (g2 D a)).

Lemma grid2_eq j k l : grid2 b j k l = ((tick x0 x1 j k, tick y0 y1 j l), (tick x0 x1 j (S k), tick y0 y1 j (S l))).
Proof. reflexivity. Qed.
Lemma leaf_cases data : match collapse_leaf2 f data with Root2 _ _ _ _ => False | Leaf2 _ => True | Empty2 _ => True | Full2 _ => True end.
Proof. destruct data as [[? ?] [? ?]]. unfold collapse_leaf2. destruct (forallb _ _); [exact I|]. destruct (forallb _ _); exact I. Qed.
Lemma empty_same t : is_empty2 t = same Nonneg (verdict2 t).
Proof. destruct t; reflexivity. Qed.
Lemma full_same t : is_full2 t = same Neg (verdict2 t).
Proof. destruct t; reflexivity. Qed.

Lemma bridge2 D : forall d j k l, (j + d = D)%nat ->
  let t := collapse2d f (build_tree2d (fst (grid2 b j k l)) (snd (grid2 b j k l)) d) in
  verdict2 t = verdict (mark2 D) d [k; l] /\ forall c, build_node2 t (grid2 b j k l) c = collect g2 (rep (mark2 D) d j [k; l]) c.
Proof.
  induction d as [|d IH]; intros j k l E; cbv zeta.
  - cbn [verdict rep]. cbn [build_tree2d collapse2d fst snd]. assert (j = D) by lia. subst j. unfold mark2; cbn [g2].
    assert (Q : (fst (grid2 b D k l), snd (grid2 b D k l)) = grid2 b D k l) by reflexivity. rewrite Q. split; [reflexivity|]. intros c.
    pose proof (leaf_cases (grid2 b D k l)) as L. destruct (collapse_leaf2 f (grid2 b D k l)); cbn [verdict2]; try contradiction; reflexivity.
  - pose proof (IH (S j) (2 * k)%nat (2 * l)%nat ltac:(lia)) as [Va Na].
    pose proof (IH (S j) (S (2 * k)) (2 * l)%nat ltac:(lia)) as [Vb Nb].
    pose proof (IH (S j) (2 * k)%nat (S (2 * l)) ltac:(lia)) as [Vc Nc].
    pose proof (IH (S j) (S (2 * k)) (S (2 * l)) ltac:(lia)) as [Vd Nd].
    rewrite !grid2_eq in *. rewrite !tick_double', !tick_double, !tick_mid in *. cbn [fst snd] in *. clear IH. cbn [build_tree2d].
    set (xm := (tick x0 x1 j k + tick x0 x1 j (S k)) / two) in *. set (ym := (tick y0 y1 j l + tick y0 y1 j (S l)) / two) in *.
    set (ta := build_tree2d (tick x0 x1 j k, tick y0 y1 j l) (xm, ym) d) in *.
    set (tb := build_tree2d (xm, tick y0 y1 j l) (tick x0 x1 j (S k), ym) d) in *.
    set (tc := build_tree2d (tick x0 x1 j k, ym) (xm, tick y0 y1 j (S l)) d) in *.
    set (td := build_tree2d (xm, ym) (tick x0 x1 j (S k), tick y0 y1 j (S l)) d) in *.
    cbn [collapse2d]. rewrite !empty_same, !full_same. rewrite Va, Vb, Vc, Vd.
    assert (K : kids [k; l] = [[(2 * k)%nat; (2 * l)%nat]; [S (2 * k); (2 * l)%nat]; [(2 * k)%nat; S (2 * l)]; [S (2 * k); S (2 * l)]]) by reflexivity.
    cbn [verdict rep]. rewrite K. clear K. cbn [forallb flat_map]. rewrite !andb_true_r, !andb_assoc.
    destruct (same Nonneg _ && _ && _ && _) eqn:E1; [split; [reflexivity|intros c; reflexivity]|].
    destruct (same Neg _ && _ && _ && _) eqn:E2; [split; [reflexivity|intros c; reflexivity]|]. split; [reflexivity|].
    intros c. rewrite app_nil_r, !collect_app. rewrite <- Na, <- Nb, <- Nc, <- Nd. reflexivity.
Qed.

Lemma vertices2 c p : vertex2 c p <-> let '((xa, ya), (xb, yb)) := c in In p [(xa, ya); (xa, yb); (xb, ya); (xb, yb)].
Proof.
  destruct c as [[xa ya] [xb yb]], p as [px py]. unfold vertex2; cbn [fst snd In]. split.
  - intros [[->| ->] [->| ->]]; auto.
  - intros [H|[H|[H|[H|[]]]]]; injection H as <- <-; auto.
Qed.
Lemma mark2_spec D a s : mark2 D a = Some s <-> forall p, vertex2 (g2 D a) p -> has s (f p).
Proof.
  unfold mark2. set (c := g2 D a). clearbody c. assert (V : forall P : Qc -> Prop, (forall p, vertex2 c p -> P (f p)) <-> Forall P (let '((xa, ya), (xb, yb)) := c in flat_map (fun x => map (fun y => f (x, y)) [ya; yb]) [xa; xb])).
  { intros P. destruct c as [[xa ya] [xb yb]]. cbn [flat_map map app]. split.
    - intros H. repeat (apply Forall_cons; [apply H, vertices2; cbn; auto|]). constructor.
    - intros H p Hp. apply vertices2 in Hp. rewrite Forall_forall in H. destruct Hp as [<-|[<-|[<-|[<-|[]]]]]; apply H; cbn; auto. }
  destruct c as [[xa ya] [xb yb]]. unfold collapse_leaf2. set (vs := flat_map _ _) in *.
  assert (NE : exists v, In v vs) by (eexists; left; reflexivity). clearbody vs.
  assert (F1 : forallb (fun v => qlt v 0) vs = true <-> Forall (has Neg) vs) by (rewrite forallb_forall, Forall_forall; split; intros H v Hv; apply qlt_true, H, Hv).
  assert (F2 : forallb (fun v => qle 0 v) vs = true <-> Forall (has Nonneg) vs) by (rewrite forallb_forall, Forall_forall; split; intros H v Hv; apply qle_true, H, Hv).
  rewrite V. destruct (forallb (fun v => qlt v 0) vs) eqn:E1; [|destruct (forallb (fun v => qle 0 v) vs) eqn:E2]; cbn [verdict2].
  - destruct s; split; try discriminate; try reflexivity; [intros _; apply F1; reflexivity|]. intros H. exfalso. destruct NE as [v Hv]. rewrite Forall_forall in H. specialize (H v Hv).
    assert (H1 : Forall (has Neg) vs) by (apply F1; reflexivity). rewrite Forall_forall in H1. specialize (H1 v Hv). cbn [has] in *. qlra.
  - destruct s; split; try discriminate; try reflexivity; [|intros _; apply F2; reflexivity]. intros H. apply F1 in H. discriminate.
  - split; [discriminate|]. destruct s; intros H; [apply F1 in H|apply F2 in H]; discriminate.
Qed.
Lemma under_2 e K L k l : under e [K; L] [k; l] <-> part_of (2 ^ e) K k /\ part_of (2 ^ e) L l.
Proof. unfold under. split; [intros H; inversion H as [|? ? ? ? H1 F]; subst; inversion F; subst; auto|intros [H1 H2]; constructor; [exact H1|constructor; [exact H2|constructor]]]. Qed.
Lemma under_2' e K L a : under e [K; L] a -> exists k l, a = [k; l] /\ part_of (2 ^ e) K k /\ part_of (2 ^ e) L l.
Proof. unfold under. intros H. inversion H as [|? k ? ? H1 F]; subst. inversion F as [|? l ? ? H2 F2]; subst. inversion F2; subst. exists k, l. auto. Qed.
Lemma all2_verdict d s j K L : all2 f b d s j K L <-> verdict (mark2 d) (d - j) [K; L] = Some s.
Proof.
  rewrite verdict_spec. split.
  - intros H a U. apply under_2' in U. destruct U as [k [l [-> [H1 H2]]]]. apply mark2_spec. intros p Hp. apply (H k l p H1 H2 Hp).
  - intros H k l p H1 H2 Hp. specialize (H [k; l]). assert (U : under (d - j) [K; L] [k; l]) by (apply under_2; auto). specialize (H U). rewrite mark2_spec in H. apply H. exact Hp.
Qed.
Definition cells2 (d : nat) : cells box2 := build_node2 (collapse2d f (build_tree2d (fst b) (snd b) d)) b no_cells.
Lemma grid2_0 : grid2 b 0 0 0 = b.
Proof. rewrite grid2_eq. rewrite !(proj1 (tick_0 _ _)), !(proj2 (tick_0 _ _)). reflexivity. Qed.
Lemma cells2_eq d : cells2 d = collect g2 (rep (mark2 d) d 0 [0; 0]%nat) no_cells.
Proof. unfold cells2. destruct (bridge2 d d 0 0 0 ltac:(lia)) as [_ N]. cbv zeta in N. rewrite grid2_0 in N. apply N. Qed.

Lemma part_0 e k : part_of (2 ^ e) 0 k <-> (k < 2 ^ e)%nat.
Proof. unfold part_of. lia. Qed.
Theorem reported2 d s x : In x (reported s (cells2 d)) <->
  exists j K L, (j <= d /\ K < 2 ^ j /\ L < 2 ^ j)%nat /\ x = grid2 b j K L /\ all2 f b d s j K L /\ ((0 < j)%nat -> ~ all2 f b d s (j - 1) (K / 2) (L / 2)).
Proof.
  rewrite cells2_eq, collect_reported. split.
  - intros [H|[j [a [H ->]]]]; [destruct s; destruct H|]. apply rep_sound in H. destruct H as [e [He [-> [U [V [_ N]]]]]]. cbn [Nat.add] in *.
    apply under_2' in U. destruct U as [K [L [-> [P1 P2]]]]. apply part_0 in P1, P2. exists e, K, L. split; [auto|]. split; [reflexivity|]. split; [apply all2_verdict; exact V|].
    intros Z A. apply all2_verdict in A. specialize (N Z). unfold up in N; cbn [map] in N. replace (d - (e - 1))%nat with (S (d - e)) in A by lia. congruence.
  - intros [j [K [L [[Hj [HK HL]] [-> [A N]]]]]]. right. exists j, [K; L]. split; [|reflexivity]. apply (rep_some (mark2 d) d 0 [0; 0]%nat j [K; L] s Hj).
    + apply under_2. split; apply part_0; assumption.
    + apply all2_verdict. exact A.
    + destruct j as [|j]; [left; reflexivity|right]. intros V. apply N; [lia|]. apply all2_verdict. replace (d - (S j - 1))%nat with (S (d - S j)) by lia. exact V.
Qed.
Theorem border2 d x : In x (border (cells2 d)) <->
  exists K L, (K < 2 ^ d /\ L < 2 ^ d)%nat /\ x = grid2 b d K L /\ ~ all2 f b d Neg d K L /\ ~ all2 f b d Nonneg d K L.
Proof.
  rewrite cells2_eq, collect_border. split.
  - intros [H|[j [a [H ->]]]]; [destruct H|]. apply rep_sound in H. destruct H as [e [He [-> [U [V [N _]]]]]]. cbn [Nat.add] in *. specialize (N eq_refl). subst e.
    apply under_2' in U. destruct U as [K [L [-> [P1 P2]]]]. apply part_0 in P1, P2. exists K, L. split; [auto|]. split; [reflexivity|]. rewrite !all2_verdict. split; congruence.
  - intros [K [L [[HK HL] [-> [A1 A2]]]]]. right. exists d, [K; L]. split; [|reflexivity]. apply (rep_none (mark2 d) d 0 [0; 0]%nat).
    + apply under_2. split; apply part_0; assumption.
    + rewrite all2_verdict, Nat.sub_diag in A1, A2. cbn [verdict] in A1, A2. destruct (mark2 d [K; L]) as [[]|]; congruence.
Qed.
Lemma in_cellb2 p j k l : in2 p (grid2 b j k l) <-> inb [fst p; snd p] (cellb [(x0, x1); (y0, y1)] j [k; l]).
Proof. unfold in2, inb. cbn [cellb span grid2 fst snd]. split; [intros [H1 H2]; repeat (constructor; [assumption|]); constructor|intros H; inversion H as [|? ? ? ? H1 F]; subst; inversion F; subst; auto]. Qed.
Lemma inside_cellb2 p j k l : inside2 p (grid2 b j k l) <-> insideb [fst p; snd p] (cellb [(x0, x1); (y0, y1)] j [k; l]).
Proof. unfold inside2, insideb. cbn [cellb span grid2 fst snd]. split; [intros [H1 H2]; repeat (constructor; [assumption|]); constructor|intros H; inversion H as [|? ? ? ? H1 F]; subst; inversion F; subst; auto]. Qed.
Lemma rep_dim2 m d j a x : In x (rep m d j a) -> length a = 2%nat -> exists k l, snd x = [k; l].
Proof.
  destruct x as [[o j'] a']. intros H L. apply rep_sound in H. destruct H as [e [_ [_ [U _]]]]. apply Forall2_length in U. cbn [snd].
  destruct a' as [|k [|l [|]]]; cbn in U; try lia. eauto.
Qed.
Theorem tiles2_cells d : proper2 b -> tiles2 b (every (cells2 d)).
Proof.
  intros [Px Py]. cbn [fst snd] in Px, Py. assert (P : properb [(x0, x1); (y0, y1)]) by (repeat (apply Forall_cons; [assumption|]); constructor).
  rewrite cells2_eq. pose proof (collect_every g2 (rep (mark2 d) d 0 [0; 0]%nat) no_cells) as E. unfold no_cells in E at 2. unfold every in E at 2. cbn [full empty border app] in E.
  set (l := rep (mark2 d) d 0 [0; 0]%nat) in *. set (c := collect g2 l no_cells) in *. split.
  - intros p. transitivity (exists x, In x l /\ inb [fst p; snd p] (place [(x0, x1); (y0, y1)] x)).
    + rewrite <- grid2_0. rewrite in_cellb2. split.
      * apply rep_cover. reflexivity.
      * intros [x [Hx H]]. eapply (rep_in (mark2 d) [(x0, x1); (y0, y1)] inb); [intros; eapply kid_inside; eassumption|exact Hx|exact H].
    + split.
      * intros [x [Hx H]]. exists (g2 (snd (fst x)) (snd x)). split; [eapply Permutation_in; [symmetry; exact E|]; apply in_map_iff; exists x; auto|].
        destruct (rep_dim2 _ _ _ _ _ Hx eq_refl) as [k [m Em]]. destruct x as [[o j] a]; cbn [fst snd] in *. subst a. cbn [g2]. apply in_cellb2. exact H.
      * intros [q [Hq H]]. apply (Permutation_in _ E) in Hq. apply in_map_iff in Hq. destruct Hq as [x [<- Hx]]. exists x. split; [exact Hx|].
        destruct (rep_dim2 _ _ _ _ _ Hx eq_refl) as [k [m Em]]. destruct x as [[o j] a]; cbn [fst snd] in *. subst a. cbn [g2] in H. apply in_cellb2 in H. exact H.
  - eapply fop_perm; [|symmetry; exact E|]; [intros x y H p H1 H2; apply (H p); assumption|].
    apply (fop_map (fun c0 d0 => forall p, inside2 p c0 -> ~ inside2 p d0)). eapply fop_impl; [|apply (rep_apart (mark2 d) [(x0, x1); (y0, y1)] d 0 [0; 0]%nat P eq_refl)].
    intros x y Hx Hy H p H1 H2. destruct (rep_dim2 _ _ _ _ _ Hx eq_refl) as [k [m Em]]. destruct (rep_dim2 _ _ _ _ _ Hy eq_refl) as [k' [m' Em']].
    destruct x as [[o j] a], y as [[o' j'] a']; cbn [fst snd] in *. subst a a'. cbn [g2] in H1, H2. apply inside_cellb2 in H1, H2. apply (H [fst p; snd p] H1 H2).
Qed.
End D2.
