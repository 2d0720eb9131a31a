(* Lemmas for StepProps.v: the writer. *)
From Coq Require Import List Arith ZArith Bool QArith Qcanon String Lia.
From Verif Require Import Common QcLib StepModel StepModel2 StepSpec2.
Import ListNotations.
Local Open Scope string_scope.
Local Open Scope list_scope.

Definition known (s : st) (r : nat) : Prop := (1 <= r <= last_ref s)%nat.
Definition sound (s : st) : Prop :=
  map fst (insts s) = seq 1 (last_ref s) /\
  (forall r e, In (r, e) (insts s) -> Forall (fun x => 1 <= x < r)%nat (ent_refs e)).
Lemma known_present s r : sound s -> (known s r <-> present s r).
Proof. intros [H _]. unfold known, present. rewrite H, in_seq. lia. Qed.
Lemma dict_put_new k v l : ~ In k (map fst l) -> dict_put k v l = l ++ [(k, v)].
Proof. induction l as [|[k0 v0] l IH]; intros N; [reflexivity|]. cbn in *. destruct (Nat.eqb_spec k0 k); [tauto|]. rewrite IH by tauto. reflexivity. Qed.
Lemma dict_get_in k v l : dict_get k l = Some v -> In (k, v) l.
Proof. induction l as [|[k0 v0] l IH]; intros H; [discriminate|]. cbn in H. destruct (Nat.eqb_spec k0 k); [injection H as ->; subst; left; reflexivity|right; apply IH, H]. Qed.
Lemma dict_get_none k l : dict_get k l = None -> ~ In k (map fst l).
Proof. induction l as [|[k0 v0] l IH]; intros H; [auto|]. cbn in *. destruct (Nat.eqb_spec k0 k); [discriminate|]. specialize (IH H). tauto. Qed.

Section Hist.
Context (raw : bool).
Definition typed (s : st) : Prop := raw = false -> forall r n l, In (r, Simple n l) (insts s) -> well_typed s n l.
Definition inv (s : st) : Prop := sound s /\ typed s /\ Forall (known s) (some (context3 s)).
Definition ext (s s' : st) : Prop :=
  (exists l, insts s' = insts s ++ l) /\ (last_ref s <= last_ref s')%nat /\ e4 s' = e4 s /\ e8 s' = e8 s /\ world s' = world s /\ tolerance s' = tolerance s /\ (context3 s = None \/ context3 s' = context3 s).
Lemma ext_refl s : ext s s.
Proof. split; [exists []; rewrite app_nil_r; reflexivity|]. repeat (split; [solve [reflexivity|lia]|]). right; reflexivity. Qed.
Lemma ext_trans a b c : ext a b -> ext b c -> ext a c.
Proof.
  intros [[l E] [L [A [B [C [T D]]]]]] [[l' E'] [L' [A' [B' [C' [T' D']]]]]]. split; [exists (l ++ l'); rewrite E', E, app_assoc; reflexivity|]. split; [lia|]. repeat (split; [congruence|]).
  destruct D as [D|D]; [left; exact D|]. destruct D' as [D'|D']; [left; congruence|right; congruence].
Qed.
Lemma ext_in s s' x : ext s s' -> In x (insts s) -> In x (insts s').
Proof. intros [[l E] _] H. rewrite E. apply in_or_app. left. exact H. Qed.
Lemma ext_known s s' r : ext s s' -> known s r -> known s' r.
Proof. unfold known. intros [_ [L _]]. lia. Qed.
Lemma ext_is s s' r n : ext s s' -> is_a s r n -> is_a s' r n.
Proof. intros E [l H]. exists l. exact (ext_in _ _ _ E H). Qed.
Lemma ext_typed s s' n l : ext s s' -> well_typed s n l -> well_typed s' n l.
Proof.
  intros E [A [B C]]. split; [|split].
  - intros N. destruct (A N) as [x [p [-> P]]]. exists x, p. split; [reflexivity|]. exact (ext_is _ _ _ _ E P).
  - intros N. destruct (B N) as [x [a [b [g [f [-> [P Q]]]]]]]. exists x, a, b, g, f. split; [reflexivity|]. split; eapply ext_is; eauto.
  - intros N. destruct (C N) as [x [es [-> P]]]. exists x, es. split; [reflexivity|]. eapply Forall_impl; [|exact P]. intros e. apply ext_is, E.
Qed.
Lemma ext_ctx s s' : ext s s' -> Forall (known s) (some (context3 s)) -> context3 s' = context3 s -> Forall (known s') (some (context3 s')).
Proof. intros E F ->. eapply Forall_impl; [|exact F]. intros a. apply ext_known, E. Qed.

Definition safe {A} (s : st) (m : W A) (Q : A -> st -> Prop) : Prop :=
  inv (fst (m s)) /\ ext s (fst (m s)) /\ match snd (m s) with Ok a => Q a (fst (m s)) | Err e => e = ValueError end.
Lemma safe_ret {A} s (a : A) (Q : A -> st -> Prop) : inv s -> Q a s -> safe s (ret a) Q.
Proof. intros I H. split; [exact I|]. split; [apply ext_refl|exact H]. Qed.
Lemma safe_raise {A} s (Q : A -> st -> Prop) : inv s -> safe s (raise ValueError) Q.
Proof. intros I. split; [exact I|]. split; [apply ext_refl|reflexivity]. Qed.
Lemma safe_bind {A B} s (m : W A) (k : A -> W B) (Q : A -> st -> Prop) (R : B -> st -> Prop) :
  safe s m Q -> (forall a s', inv s' -> ext s s' -> Q a s' -> safe s' (k a) R) -> safe s (andthen m k) R.
Proof.
  unfold safe, andthen. intros [I [E H]] K. destruct (m s) as [s1 [a|e]] eqn:M; cbn [fst snd] in *.
  - destruct (K a s1 I E H) as [I2 [E2 H2]]. split; [exact I2|]. split; [eapply ext_trans; eassumption|exact H2].
  - auto.
Qed.
Lemma safe_impl {A} s (m : W A) (Q R : A -> st -> Prop) : safe s m Q -> (forall a s', Q a s' -> ext s s' -> R a s') -> safe s m R.
Proof. intros [I [E H]] K. split; [exact I|]. split; [exact E|]. destruct (snd (m s)); auto. Qed.

(* ---- the basic step ---- *)
Definition fine (s : st) (e : ent) : Prop := raw = false -> match e with Simple n l => well_typed s n l | Complex _ => True end.
Lemma safe_add s e : inv s -> Forall (known s) (ent_refs e) -> fine s e -> safe s (add e) (fun r s' => r = S (last_ref s) /\ last_ref s' = r /\ known s' r /\ In (r, e) (insts s') /\ insts s' = insts s ++ [(r, e)] /\ context3 s' = context3 s).
Proof.
  intros [[K R] [T C]] F Ty. unfold safe, add, andthen, next_ref. cbn [fst snd]. set (s' := set_insts _ _).
  assert (P : insts s' = insts s ++ [(S (last_ref s), e)]) by (unfold s'; cbn; apply dict_put_new; rewrite K, in_seq; lia).
  assert (E : ext s s'). { split; [eexists; exact P|]. split; [cbn; lia|]. repeat (split; [reflexivity|]). right. reflexivity. }
  split; [|split; [exact E|]].
  - split; [split|split].
    + rewrite P, map_app, K. cbn [map fst]. unfold s'. cbn [last_ref set_insts set_last]. rewrite seq_S. reflexivity.
    + intros r x. rewrite P, in_app_iff. intros [I|[I|[]]]; [exact (R _ _ I)|]. injection I as <- <-. eapply Forall_impl; [|exact F]. unfold known. cbn. intros. lia.
    + intros Hr r n l. rewrite P, in_app_iff. intros [I|[I|[]]]; [eapply ext_typed; [exact E|]; exact (T Hr _ _ _ I)|]. injection I as <- ->. eapply ext_typed; [exact E|]. apply (Ty Hr).
    + eapply ext_ctx; [exact E|exact C|reflexivity].
  - split; [reflexivity|]. split; [reflexivity|]. split; [unfold known; cbn; lia|]. split; [rewrite P; apply in_or_app; right; left; reflexivity|]. split; [exact P|reflexivity].
Qed.
Definition adds (s : st) (e : ent) (r : nat) (s' : st) : Prop := r = S (last_ref s) /\ last_ref s' = r /\ known s' r /\ In (r, e) (insts s') /\ insts s' = insts s ++ [(r, e)] /\ context3 s' = context3 s.
Definition usual (n : string) : Prop := n <> "EDGE_CURVE" /\ n <> "VERTEX_POINT" /\ n <> "EDGE_LOOP".
Lemma safe_entity s n l : inv s -> Forall (known s) (flat_map arg_refs l) -> usual n -> safe s (add_entity n l) (adds s (Simple n l)).
Proof. intros I F [N1 [N2 N3]]. apply safe_add; [exact I|exact F|]. intros _. split; [|split]; intros; congruence. Qed.
Lemma safe_complex s p : inv s -> Forall (known s) (ent_refs (Complex p)) -> safe s (add_complex_entity p) (adds s (Complex p)).
Proof. intros I F. apply safe_add; [exact I|exact F|]. intros _. exact Logic.I. Qed.
Lemma safe_typeof s r : inv s -> known s r -> safe s (typeof r) (fun t s' => s' = s /\ (t = "COMPLEX_ENTITY_INSTANCE" \/ is_a s r t)).
Proof.
  intros I K. unfold safe, typeof. destruct (dict_get r (insts s)) as [[n l|p]|] eqn:D; cbn [fst snd].
  - split; [exact I|]. split; [apply ext_refl|]. split; [reflexivity|]. right. exists l. apply dict_get_in, D.
  - split; [exact I|]. split; [apply ext_refl|]. auto.
  - apply dict_get_none in D. exfalso. apply D. apply (known_present s r (proj1 I)), K.
Qed.
Lemma refs_refs l : flat_map arg_refs (map ARef l) = l.
Proof. induction l as [|x l IH]; [reflexivity|]. cbn. f_equal. exact IH. Qed.
Lemma arg_refs_refs l : arg_refs (refs l) = l.
Proof. apply refs_refs. Qed.
Lemma num_refs l : flat_map arg_refs (map ANum l) = [].
Proof. induction l as [|x l IH]; [reflexivity|exact IH]. Qed.
Lemma int_refs l : flat_map arg_refs (map (fun n => AInt (Z.of_nat n)) l) = [].
Proof. induction l as [|x l IH]; [reflexivity|exact IH]. Qed.
Lemma arg_num_refs l : arg_refs (nums l) = [].
Proof. apply num_refs. Qed.
Lemma arg_count_refs l : arg_refs (counts l) = [].
Proof. apply int_refs. Qed.
Lemma rows_refs l : flat_map arg_refs (map refs l) = List.concat l.
Proof. induction l as [|x l IH]; [reflexivity|]. cbn [map flat_map List.concat]. rewrite arg_refs_refs, IH. reflexivity. Qed.
Lemma flag_refs b : arg_refs (flag b) = [].
Proof. destruct b; reflexivity. Qed.
Lemma opt_refs o : arg_refs (opt o) = some o.
Proof. destruct o; reflexivity. Qed.

(* ---- the methods ---- *)
Lemma safe_point s pt n : inv s -> safe s (add_cartesian_point pt n) (adds s (Simple "CARTESIAN_POINT" [AStr n; AList (map ANum pt)])).
Proof. intros I. unfold add_cartesian_point. destruct (dims pt); [|apply safe_raise, I]. apply safe_entity; [exact I| |repeat split; discriminate]. cbn [flat_map app arg_refs]. rewrite num_refs. constructor. Qed.
Lemma safe_direction s pt n : inv s -> safe s (add_direction pt n) (adds s (Simple "DIRECTION" [AStr n; AList (map ANum pt)])).
Proof. intros I. unfold add_direction. destruct (dims pt); [|apply safe_raise, I]. apply safe_entity; [exact I| |repeat split; discriminate]. cbn [flat_map app arg_refs]. rewrite num_refs. constructor. Qed.
Definition gives (n : string) (r : nat) (s' : st) : Prop := known s' r /\ is_a s' r n.
Lemma adds_gives s n l r s' : adds s (Simple n l) r s' -> gives n r s'.
Proof. intros [_ [_ [K [I _]]]]. split; [exact K|]. exists l. exact I. Qed.
Lemma ext_gives n r s s' : ext s s' -> gives n r s -> gives n r s'.
Proof. intros E [K I]. split; [exact (ext_known _ _ _ E K)|exact (ext_is _ _ _ _ E I)]. Qed.
Lemma safe_vertex_ref s r n : inv s -> known s r -> safe s (vertex_of_ref r n) (gives "VERTEX_POINT").
Proof.
  intros I K. unfold vertex_of_ref. eapply safe_bind; [apply safe_typeof; assumption|]. intros t s' I' E [-> T]. destruct (String.eqb_spec t "CARTESIAN_POINT") as [->|N1].
  - eapply safe_impl; [apply safe_add; [exact I'| |]|intros a s' H _; exact (adds_gives _ _ _ _ _ H)].
    + cbn. constructor; [exact K|constructor].
    + intros _. split; [|split; discriminate]. intros _. exists n, r. split; [reflexivity|]. destruct T as [T|T]; [discriminate|exact T].
  - destruct (String.eqb_spec t "VERTEX_POINT") as [->|N2]; [|apply safe_raise, I']. apply safe_ret; [exact I'|]. split; [exact K|]. destruct T as [T|T]; [discriminate|exact T].
Qed.
Lemma safe_vertex s p n : inv s -> Forall (known s) (point_refs p) -> safe s (add_vertex_point p n) (gives "VERTEX_POINT").
Proof.
  intros I F. destruct p as [l|r]; cbn [add_vertex_point point_refs] in *; [|apply safe_vertex_ref; [exact I|inversion F; assumption]]. eapply safe_bind; [apply safe_point, I|]. intros a s' I' E H. apply safe_vertex_ref; [exact I'|apply H].
Qed.
Lemma safe_edge_curve s a b g same n : inv s -> Forall (known s) (point_refs a ++ point_refs b ++ [g]) -> safe s (add_edge_curve a b g same n) (gives "EDGE_CURVE").
Proof.
  intros I F. apply Forall_app in F. destruct F as [F1 F]. apply Forall_app in F. destruct F as [F2 F3]. inversion F3 as [|? ? Kg _]; subst. unfold add_edge_curve.
  eapply safe_bind; [apply safe_vertex; assumption|]. intros va s1 I1 E1 [K1 T1]. eapply safe_bind; [apply safe_vertex; [exact I1|eapply Forall_impl; [|exact F2]; intros x; apply ext_known, E1]|]. intros vb s2 I2 E2 [K2 T2].
  eapply safe_impl; [apply safe_add; [exact I2| |]|intros x s' H _; exact (adds_gives _ _ _ _ _ H)].
  - cbn [ent_refs flat_map arg_refs app]. rewrite flag_refs. cbn [app]. constructor; [exact (ext_known _ _ _ E2 K1)|]. constructor; [exact K2|]. constructor; [exact (ext_known _ _ _ E2 (ext_known _ _ _ E1 Kg))|constructor].
  - intros _. split; [discriminate|]. split; [|discriminate]. intros _. exists n, va, vb, g, (flag same). split; [reflexivity|]. split; [exact (ext_is _ _ _ _ E2 T1)|exact T2].
Qed.
Lemma safe_oriented s e a b o n : inv s -> Forall (known s) (e :: some a ++ some b) -> safe s (add_oriented_edge e a b o n) (adds s (Simple "ORIENTED_EDGE" [AStr n; opt a; opt b; ARef e; flag o])).
Proof.
  intros I F. apply safe_entity; [exact I| |repeat split; discriminate]. inversion F as [|? ? K F']; subst. apply Forall_app in F'. destruct F' as [Fa Fb]. cbn [flat_map arg_refs app]. rewrite !opt_refs, flag_refs. apply Forall_app. split; [exact Fa|]. apply Forall_app. split; [exact Fb|]. constructor; [exact K|constructor].
Qed.
Lemma safe_each {A B} (f : A -> W B) (Q : A -> B -> st -> Prop) (l : list A) : (forall a b s s', ext s s' -> Q a b s -> Q a b s') ->
  forall s, inv s -> (forall a s', In a l -> inv s' -> ext s s' -> safe s' (f a) (Q a)) -> safe s (each f l) (fun bs s' => Forall2 (fun a b => Q a b s') l bs).
Proof.
  intros Mono. induction l as [|a l IH]; intros s I H; cbn [each]; [apply safe_ret; [exact I|constructor]|]. eapply safe_bind; [apply H; [left; reflexivity|exact I|apply ext_refl]|]. intros b s1 I1 E1 Hb. eapply safe_bind; [apply IH; [exact I1|]|].
  - intros x s2 X I2 E2. apply H; [right; exact X|exact I2|eapply ext_trans; eassumption].
  - cbn beta. intros bs s2 I2 E2 Hbs. apply safe_ret; [exact I2|]. constructor; [|exact Hbs]. exact (Mono _ _ _ _ E2 Hb).
Qed.
Lemma Forall2_r {A B} (P : B -> Prop) (Q : A -> B -> Prop) l m : (forall a b, Q a b -> P b) -> Forall2 Q l m -> Forall P m.
Proof. intros H. induction 1; constructor; eauto. Qed.
Lemma safe_loop_edge s e : inv s -> Forall (known s) (some e) -> safe s (loop_edge e) (gives "ORIENTED_EDGE").
Proof.
  intros I F. unfold loop_edge. destruct e as [r|]; [|apply safe_raise, I]. inversion F as [|? ? K _]; subst. eapply safe_bind; [apply safe_typeof; assumption|]. intros t s' I' E [-> T]. destruct (String.eqb_spec t "ORIENTED_EDGE") as [->|N1].
  - apply safe_ret; [exact I'|]. split; [exact K|]. destruct T as [T|T]; [discriminate|exact T].
  - destruct (String.eqb_spec t "EDGE_CURVE"); [|apply safe_raise, I']. eapply safe_impl; [apply safe_oriented; [exact I'|constructor; [exact K|constructor]]|]. intros a s' H _. exact (adds_gives _ _ _ _ _ H).
Qed.
Lemma gives_mono {A} n (a : A) r s s' : ext s s' -> gives n r s -> gives n r s'.
Proof. apply ext_gives. Qed.
Lemma safe_loop s es n : inv s -> Forall (known s) (flat_map some es) -> safe s (add_edge_loop es n) (gives "EDGE_LOOP").
Proof.
  intros I F. unfold add_edge_loop. eapply safe_bind; [apply (safe_each _ (fun _ => gives "ORIENTED_EDGE"))|]; [intros; eapply ext_gives; eassumption|exact I| |].
  - intros e s' He I' E. apply safe_loop_edge; [exact I'|]. apply Forall_forall. intros r R. eapply ext_known; [exact E|]. rewrite Forall_forall in F. apply F. apply in_flat_map. exists e. auto.
  - cbn beta. intros l s1 I1 E1 Hl. assert (G : Forall (fun r => gives "ORIENTED_EDGE" r s1) l) by (eapply Forall2_r; [|exact Hl]; cbn; auto). eapply safe_impl; [apply safe_add; [exact I1| |]|intros x s' H _; exact (adds_gives _ _ _ _ _ H)].
    + cbn [ent_refs flat_map arg_refs app refs]. rewrite refs_refs, app_nil_r. eapply Forall_impl; [|exact G]. intros r [K _]. exact K.
    + intros _. split; [discriminate|]. split; [discriminate|]. intros _. exists n, l. split; [reflexivity|]. eapply Forall_impl; [|exact G]. intros r [_ K]. exact K.
Qed.
Ltac knowns := repeat (first [assumption | apply Forall_cons | apply Forall_nil | apply Forall_app; split]); try (match goal with K : known ?a ?r |- known ?b ?r => apply (ext_known a b r); [assumption|exact K] end).
Ltac ent I := apply safe_entity; [exact I|cbn [flat_map arg_refs app]; rewrite ?arg_refs_refs, ?flag_refs, ?app_nil_r; cbn [app]|repeat split; discriminate].
Lemma safe_bound s l o n : inv s -> known s l -> arg_refs o = [] -> safe s (add_face_bound l o n) (adds s (Simple "FACE_BOUND" [AStr n; ARef l; o])).
Proof. intros I K O. ent I. rewrite O. constructor; [exact K|constructor]. Qed.
Lemma safe_shell s l n : inv s -> Forall (known s) l -> safe s (add_open_shell l n) (adds s (Simple "OPEN_SHELL" [AStr n; refs l])).
Proof. intros I K. ent I. exact K. Qed.
Lemma safe_face s l g o n : inv s -> Forall (known s) (g :: l) -> arg_refs o = [] -> safe s (add_advanced_face l g o n) (adds s (Simple "ADVANCED_FACE" [AStr n; refs l; ARef g; o])).
Proof. intros I K O. inversion K; subst. ent I. rewrite O. apply Forall_app. split; [assumption|constructor; [assumption|constructor]]. Qed.
Lemma safe_model s l n : inv s -> Forall (known s) l -> safe s (add_shell_based_surface_model l n) (adds s (Simple "SHELL_BASED_SURFACE_MODEL" [AStr n; refs l])).
Proof. intros I K. ent I. exact K. Qed.
Lemma safe_units s : inv s -> safe s add_units (fun u s' => let '(a, b, c, d) := u in Forall (known s') [a; b; c; d] /\ context3 s' = context3 s).
Proof.
  intros I. unfold add_units. eapply safe_bind; [apply safe_complex; [exact I|constructor]|]. intros a s1 I1 E1 [_ [_ [K1 [_ [_ C1]]]]]. eapply safe_bind; [apply safe_complex; [exact I1|constructor]|]. intros b s2 I2 E2 [_ [_ [K2 [_ [_ C2]]]]]. eapply safe_bind; [apply safe_complex; [exact I2|constructor]|]. intros c s3 I3 E3 [_ [_ [K3 [_ [_ C3]]]]].
  pose proof (ext_trans _ _ _ E2 E3) as E23. change (safe s3 (let! unc := add_entity "UNCERTAINTY_MEASURE_WITH_UNIT" [AEnt "LENGTH_MEASURE" [ANum (tolerance s3)]; ARef a; AStr ""; AStr "maximum tolerance"] in ret (a, b, c, unc)) (fun u s' => let '(a, b, c, d) := u in Forall (known s') [a; b; c; d] /\ context3 s' = context3 s)).
  eapply safe_bind; [ent I3; knowns|]. intros d s4 I4 E4 [_ [_ [K4 [_ [_ C4]]]]]. apply safe_ret; [exact I4|]. split; [|congruence]. pose proof (ext_trans _ _ _ E23 E4). pose proof (ext_trans _ _ _ E3 E4). knowns.
Qed.
Lemma safe_context s : inv s -> safe s add_context3 (fun c s' => known s' c /\ context3 s' = Some c).
Proof.
  intros I. unfold safe, add_context3. destruct (context3 s) as [c|] eqn:C; cbn [fst snd].
  - split; [exact I|]. split; [apply ext_refl|]. split; [|exact C]. destruct I as [_ [_ F]]. rewrite C in F. inversion F; assumption.
  - apply (safe_bind s add_units _ _ (fun c s' => known s' c /\ context3 s' = Some c) (safe_units s I)). intros [[[a b] c] d] s1 I1 E1 [K1 C1]. inversion K1 as [|? ? Ka K2]; subst. inversion K2 as [|? ? Kb K3]; subst. inversion K3 as [|? ? Kc K4]; subst. inversion K4 as [|? ? Kd _]; subst.
    eapply safe_bind; [apply safe_complex; [exact I1|]|].
    + cbn. repeat constructor; apply Ka || apply Kb || apply Kc || apply Kd.
    + cbn beta. intros x s2 I2 E2 [Ex [L2 [K [_ [_ C2]]]]]. unfold safe. cbn [fst snd]. split; [|split].
      * destruct I2 as [So [Ty _]]. split; [exact So|]. split; [exact Ty|]. cbn. constructor; [exact K|constructor].
      * split; [exists []; cbn; rewrite app_nil_r; reflexivity|]. split; [cbn; lia|]. repeat (split; [reflexivity|]). left. congruence.
      * split; [exact K|reflexivity].
Qed.
Lemma safe_context_or s c : inv s -> Forall (known s) (some c) -> safe s (context_or c) (fun c s' => known s' c).
Proof. intros I F. destruct c as [c|]; cbn [context_or]; [apply safe_ret; [exact I|inversion F; assumption]|]. eapply safe_impl; [apply safe_context, I|]. intros a s' [H _] _. exact H. Qed.
Lemma ext_knowns s s' l : ext s s' -> Forall (known s) l -> Forall (known s') l.
Proof. intros E F. eapply Forall_impl; [|exact F]. intros a. apply ext_known, E. Qed.
Lemma safe_manifold s l c n : inv s -> Forall (known s) (some c ++ l) -> safe s (add_manifold_surface_shape_representation l c n) (fun r s' => known s' r).
Proof. intros I F. apply Forall_app in F. destruct F as [Fc Fl]. unfold add_manifold_surface_shape_representation. eapply safe_bind; [apply safe_context_or; assumption|]. intros x s1 I1 E1 K1. eapply safe_impl; [ent I1|intros a s' H _; apply H]. apply Forall_app. split; [exact (ext_knowns _ _ _ E1 Fl)|knowns]. Qed.
Lemma safe_shape s l c n : inv s -> Forall (known s) (some c ++ l) -> safe s (add_shape_representation l c n) (fun r s' => known s' r).
Proof. intros I F. apply Forall_app in F. destruct F as [Fc Fl]. unfold add_shape_representation. eapply safe_bind; [apply safe_context_or; assumption|]. intros x s1 I1 E1 K1. eapply safe_impl; [ent I1|intros a s' H _; apply H]. apply Forall_app. split; [exact (ext_knowns _ _ _ E1 Fl)|knowns]. Qed.
Lemma safe_plane s o x y : inv s -> safe s (add_plane o x y) (fun u s' => let '(a, b, c, d) := u in Forall (known s') [a; b; c; d]).
Proof.
  intros I. unfold add_plane. eapply safe_bind; [apply safe_point, I|]. intros a s1 I1 E1 [_ [_ [K1 _]]]. eapply safe_bind; [apply safe_direction, I1|]. intros b s2 I2 E2 [_ [_ [K2 _]]]. eapply safe_bind; [apply safe_direction, I2|]. intros c s3 I3 E3 [_ [_ [K3 _]]].
  pose proof (ext_trans _ _ _ E2 E3) as E23. eapply safe_bind; [unfold add_axis_axis2_placement_3d; ent I3; knowns|]. intros d s4 I4 E4 [_ [_ [K4 _]]]. apply safe_ret; [exact I4|]. pose proof (ext_trans _ _ _ E23 E4). pose proof (ext_trans _ _ _ E3 E4). knowns.
Qed.
Definition ready (s : st) : Prop := known s (e4 s) /\ known s (e8 s) /\ known s (world s).
Lemma ext_ready s s' : ext s s' -> ready s -> ready s'.
Proof. intros E [A [B C]]. pose proof E as [_ [_ [E4 [E8 [Ew _]]]]]. unfold ready. rewrite E4, E8, Ew. split; [|split]; eapply ext_known; eassumption. Qed.
Lemma safe_style s m col : inv s -> ready s -> known s m -> safe s (add_surface_style m col) (fun _ _ => True).
Proof.
  intros I [R4 [R8 Rw]] K. unfold add_surface_style.
  match goal with |- safe s (fun s => ?body s) ?Q => change (safe s ((fun s0 => body) s) Q) || idtac end.
  unfold safe.
  match goal with |- inv (fst (?f s)) /\ _ => let g := eval cbv beta in (f s) in match g with ?h s => change (safe s h (fun _ _ => True)) end end.
  eapply safe_bind; [apply safe_context_or; [exact I|apply I]|]. intros c s0 I0 E0 Kc.
  eapply safe_bind; [apply safe_manifold; [exact I0|cbn [some app]; knowns]|]. intros a s1 I1 E1 K1. pose proof (ext_trans _ _ _ E0 E1) as F1.
  eapply safe_bind; [ent I1; knowns|]. intros a2 s2 I2 E2 [_ [_ [K2 _]]]. pose proof (ext_trans _ _ _ F1 E2) as F2.
  eapply safe_bind; [ent I2; knowns|]. intros a3 s3 I3 E3 [_ [_ [K3 _]]]. pose proof (ext_trans _ _ _ F2 E3) as F3.
  eapply safe_bind; [ent I3; rewrite num_refs; constructor|]. intros a4 s4 I4 E4 [_ [_ [K4 _]]]. pose proof (ext_trans _ _ _ F3 E4) as F4.
  eapply safe_bind; [ent I4; knowns|]. intros a5 s5 I5 E5 [_ [_ [K5 _]]]. pose proof (ext_trans _ _ _ F4 E5) as F5.
  eapply safe_bind; [ent I5; knowns|]. intros a6 s6 I6 E6 [_ [_ [K6 _]]]. pose proof (ext_trans _ _ _ F5 E6) as F6.
  eapply safe_bind; [ent I6; knowns|]. intros a7 s7 I7 E7 [_ [_ [K7 _]]]. pose proof (ext_trans _ _ _ F6 E7) as F7.
  eapply safe_bind; [ent I7; knowns|]. intros a8 s8 I8 E8 [_ [_ [K8 _]]]. pose proof (ext_trans _ _ _ F7 E8) as F8.
  eapply safe_bind; [ent I8; knowns|]. intros a9 s9 I9 E9 [_ [_ [K9 _]]]. pose proof (ext_trans _ _ _ F8 E9) as F9.
  eapply safe_bind; [ent I9; knowns|]. intros a10 s10 I10 E10 [_ [_ [K10 _]]]. pose proof (ext_trans _ _ _ F9 E10) as F10.
  eapply safe_bind; [ent I10; knowns|]. intros a11 s11 I11 E11 [_ [_ [K11 _]]]. pose proof (ext_trans _ _ _ F10 E11) as F11.
  assert (Kc11 : known s11 c). { eapply ext_known; [|exact Kc]. repeat (eapply ext_trans; [eassumption|]). apply ext_refl. }
  eapply safe_bind; [ent I11; knowns|]. intros a12 s12 I12 E12 _. pose proof (ext_trans _ _ _ F11 E12) as F12.
  eapply safe_bind; [ent I12; knowns|]. intros a13 s13 I13 E13 _. apply safe_ret; [exact I13|exact Logic.I].
Qed.

(* ---- curves and surfaces ---- *)
Lemma keys_nodup s : sound s -> NoDup (map fst (insts s)).
Proof. intros [H _]. rewrite H. apply seq_NoDup. Qed.
Lemma get_in : forall l k v, NoDup (map fst l) -> In (k, v) l -> dict_get k l = Some v.
Proof.
  induction l as [|[k0 v0] l IH]; intros k v N H; [destruct H|]. cbn in *. inversion N; subst. destruct H as [H|H]; [injection H as -> ->; rewrite Nat.eqb_refl; reflexivity|]. destruct (Nat.eqb_spec k0 k) as [->|]; [|apply IH; assumption]. exfalso. match goal with K : ~ In _ _ |- _ => apply K end. apply in_map_iff. exists (k, v). auto.
Qed.
Lemma typeof_is s r n : sound s -> is_a s r n -> typeof r s = (s, Ok n).
Proof. intros So [l H]. unfold typeof. rewrite (get_in _ _ _ (keys_nodup s So) H). reflexivity. Qed.
Lemma safe_vertex_new s r n : inv s -> known s r -> is_a s r "CARTESIAN_POINT" -> safe s (vertex_of_ref r n) (adds s (Simple "VERTEX_POINT" [AStr n; ARef r])).
Proof.
  intros I K T. unfold safe, vertex_of_ref, andthen. rewrite (typeof_is s r _ (proj1 I) T). change ("CARTESIAN_POINT" =? "CARTESIAN_POINT")%string with true. cbn iota. apply safe_add; [exact I|cbn; constructor; [exact K|constructor]|]. intros _. split; [|split; discriminate]. intros _. exists n, r. auto.
Qed.
Lemma ext_point s s' r p : ext s s' -> point_at s r p -> point_at s' r p.
Proof. intros E [n H]. exists n. exact (ext_in _ _ _ E H). Qed.
Lemma Forall2_imp {A B} (P Q : A -> B -> Prop) l m : (forall a b, P a b -> Q a b) -> Forall2 P l m -> Forall2 Q l m.
Proof. intros H. induction 1; constructor; auto. Qed.
Lemma Forall2_swap {A B} (P : A -> B -> Prop) l m : Forall2 P l m -> Forall2 (fun b a => P a b) m l.
Proof. induction 1; constructor; auto. Qed.
Lemma ext_bspline s s' r c : ext s s' -> bspline_of s r c -> bspline_of s' r c.
Proof.
  intros E [n [x1 [x2 [x3 [x4 [pts [m [u [H [P G]]]]]]]]]]. exists n, x1, x2, x3, x4, pts, m, u. split; [exact (ext_in _ _ _ E H)|]. split; [|exact G]. eapply Forall2_imp; [|exact P]. intros a b. apply ext_point, E.
Qed.
Lemma ext_vertex s s' r p : ext s s' -> vertex_at s r p -> vertex_at s' r p.
Proof. intros E [n [q [H P]]]. exists n, q. split; [exact (ext_in _ _ _ E H)|exact (ext_point _ _ _ _ E P)]. Qed.
Lemma ext_surface s s' r f : ext s s' -> surface_of s r f -> surface_of s' r f.
Proof.
  intros E [n [x1 [x2 [x3 [x4 [x5 [rows [mu [mv [uu [uv [H [P G]]]]]]]]]]]]]. exists n, x1, x2, x3, x4, x5, rows, mu, mv, uu, uv. split; [exact (ext_in _ _ _ E H)|]. split; [|exact G]. eapply Forall2_imp; [|exact P]. intros a b. apply Forall2_imp. intros x y. apply ext_point, E.
Qed.
Lemma ext_along s s' r a b c : ext s s' -> edge_along s r a b c -> edge_along s' r a b c.
Proof.
  intros E [n [x [y [e [f [H [n' [g [f' [H' [A [B C]]]]]]]]]]]]. exists n, x, y, e, f. split; [exact (ext_in _ _ _ E H)|]. exists n', g, f'. split; [exact (ext_in _ _ _ E H')|]. split; [exact (ext_vertex _ _ _ _ E A)|]. split; [exact (ext_vertex _ _ _ _ E B)|exact (ext_bspline _ _ _ _ E C)].
Qed.
Lemma safe_points s l : inv s -> safe s (each (fun p => add_cartesian_point p "") l) (fun rs s' => Forall2 (fun p r => known s' r /\ point_at s' r p) l rs).
Proof.
  intros I. apply (safe_each _ (fun p r s' => known s' r /\ point_at s' r p)); [|exact I|].
  - intros p r s1 s2 E [K P]. split; [exact (ext_known _ _ _ E K)|exact (ext_point _ _ _ _ E P)].
  - intros p s' _ I' _. eapply safe_impl; [apply safe_point, I'|]. intros r s2 [_ [_ [K [H _]]]] _. split; [exact K|]. exists "". exact H.
Qed.
Lemma safe_bspline s c n : inv s -> safe s (add_b_spline_curve_with_knots c n) (fun r s' => known s' r /\ bspline_of s' r c).
Proof.
  intros I. unfold add_b_spline_curve_with_knots. destruct (get_knot_multiplicities (c_knots c)) as [u m] eqn:G. eapply safe_bind; [apply safe_points, I|]. cbn beta. intros pts s1 I1 E1 P. eapply safe_impl; [apply safe_entity; [exact I1| |repeat split; discriminate]|].
  - cbn [flat_map arg_refs app]. rewrite arg_refs_refs, arg_num_refs, arg_count_refs. cbn [app arg_refs UNSPECIFIED FALSE_]. rewrite app_nil_r. eapply Forall2_r; [|exact P]. intros a b [K _]. exact K.
  - intros r s' [_ [_ [K [H _]]]] E. split; [exact K|]. exists n, UNSPECIFIED, FALSE_, FALSE_, UNSPECIFIED, pts, m, u. split; [exact H|]. split; [|exact G]. apply Forall2_swap. eapply Forall2_imp; [|exact P]. intros a b [_ Q]. exact (ext_point _ _ _ _ E Q).
Qed.
Lemma safe_curve_edge s c : inv s -> safe s (curve_edge c) (fun r s' => known s' r /\ is_a s' r "ORIENTED_EDGE" /\ exists a b, edge_along s' r a b c /\ (last_ref s < a < b)%nat /\ (b <= last_ref s')%nat).
Proof.
  intros I. unfold curve_edge. eapply safe_bind; [apply safe_point, I|]. intros a s1 I1 E1 [Ea [La [Ka [Ia _]]]]. eapply safe_bind; [apply safe_point, I1|]. intros b s2 I2 E2 [Eb [Lb [Kb [Ib _]]]]. eapply safe_bind; [apply safe_bspline, I2|]. cbn beta. intros g s3 I3 E3 [Kg Bg].
  pose proof (ext_trans _ _ _ E2 E3) as E13. unfold add_edge_curve. cbn [add_vertex_point].
  assert (Q : safe s3 (let! e := (let! a0 := vertex_of_ref a "" in let! b0 := vertex_of_ref b "" in add_entity "EDGE_CURVE" [AStr ""; ARef a0; ARef b0; ARef g; flag true]) in add_oriented_edge e None None true "") (fun r s' => known s' r /\ is_a s' r "ORIENTED_EDGE" /\ exists x y, edge_along s' r x y c /\ (last_ref s3 < x < y)%nat /\ (y <= last_ref s')%nat)).
  { apply (safe_bind s3 _ _ (fun e s' => known s' e /\ exists x y, (last_ref s3 < x < y)%nat /\ (y <= last_ref s')%nat /\ vertex_at s' x (c_start c) /\ vertex_at s' y (c_end c) /\ bspline_of s' g c /\ In (e, Simple "EDGE_CURVE" [AStr ""; ARef x; ARef y; ARef g; flag true]) (insts s'))).
    - eapply safe_bind; [apply safe_vertex_new; [exact I3|exact (ext_known _ _ _ E13 Ka)|eexists; exact (ext_in _ _ _ E13 Ia)]|]. intros x s4 I4 E4 [Ex [Lx [Kx [Ix _]]]].
      eapply safe_bind; [apply safe_vertex_new; [exact I4|exact (ext_known _ _ _ (ext_trans _ _ _ E3 E4) Kb)|eexists; exact (ext_in _ _ _ (ext_trans _ _ _ E3 E4) Ib)]|]. intros y s5 I5 E5 [Ey [Ly [Ky [Iy _]]]]. pose proof (ext_trans _ _ _ E4 E5) as E35.
      eapply safe_impl; [apply safe_add; [exact I5| |]|].
      + cbn. constructor; [exact (ext_known _ _ _ E5 Kx)|]. constructor; [exact Ky|]. constructor; [exact (ext_known _ _ _ E35 Kg)|constructor].
      + intros _. split; [discriminate|]. split; [|discriminate]. intros _. exists "", x, y, g, (flag true). split; [reflexivity|]. split; [eexists; exact (ext_in _ _ _ E5 Ix)|eexists; exact Iy].
      + intros e s6 [Ee [Le [Ke [Ie _]]]] E6. split; [exact Ke|]. exists x, y. split; [lia|]. split; [lia|]. pose proof (ext_trans _ _ _ E5 E6) as E46. split; [|split; [|split; [exact (ext_bspline _ _ _ _ (ext_trans _ _ _ E35 E6) Bg)|exact Ie]]].
        * exists "", a. split; [exact (ext_in _ _ _ E46 Ix)|]. exists "". exact (ext_in _ _ _ (ext_trans _ _ _ E4 E46) (ext_in _ _ _ E13 Ia)).
        * exists "", b. split; [exact (ext_in _ _ _ E6 Iy)|]. exists "". exact (ext_in _ _ _ (ext_trans _ _ _ E4 E46) (ext_in _ _ _ E3 Ib)).
    - cbn beta. intros e s4 I4 E4 [Ke [x [y [O [L [Vx [Vy [B Ie]]]]]]]]. eapply safe_impl; [apply safe_oriented; [exact I4|constructor; [exact Ke|constructor]]|]. intros r s5 [Er [Lr [Kr [Ir _]]]] E5. split; [exact Kr|]. split; [eexists; exact Ir|]. exists x, y. split; [|split; [exact O|lia]].
      exists (AStr ""), (opt None), (opt None), e, (flag true). split; [exact Ir|]. exists (AStr ""), g, (flag true). split; [exact (ext_in _ _ _ E5 Ie)|]. split; [exact (ext_vertex _ _ _ _ E5 Vx)|]. split; [exact (ext_vertex _ _ _ _ E5 Vy)|exact (ext_bspline _ _ _ _ E5 B)]. }
  eapply safe_impl; [exact Q|]. cbn beta. intros r s' [K [T [x [y [A [O L]]]]]] E. split; [exact K|]. split; [exact T|]. exists x, y. split; [exact A|]. split; [|exact L]. destruct E1 as [_ [L1 _]]. destruct E13 as [_ [L2 _]]. lia.
Qed.
(* vertices in the order in which they were added *)
Fixpoint ascending (lo : nat) (vs : list (nat * nat)) (hi : nat) : Prop :=
  match vs with [] => (lo <= hi)%nat | (a, b) :: r => (lo < a < b)%nat /\ ascending b r hi end.
Lemma ascending_lo lo lo' vs hi : (lo' <= lo)%nat -> ascending lo vs hi -> ascending lo' vs hi.
Proof. destruct vs as [|[a b] vs]; cbn; [lia|]. intros H [A B]. split; [lia|exact B]. Qed.
Lemma ascending_nodup : forall vs lo hi, ascending lo vs hi -> NoDup (flat_map (fun v => [fst v; snd v]) vs) /\ Forall (fun x => lo < x)%nat (flat_map (fun v => [fst v; snd v]) vs).
Proof.
  induction vs as [|[a b] vs IH]; intros lo hi; [split; constructor|]. cbn [ascending flat_map app fst snd]. intros [A B]. destruct (IH _ _ B) as [N F]. assert (Hb : ~ In b (flat_map (fun v => [fst v; snd v]) vs)) by (intros K; rewrite Forall_forall in F; specialize (F b K); lia). assert (Ha : ~ In a (flat_map (fun v => [fst v; snd v]) vs)) by (intros K; rewrite Forall_forall in F; specialize (F a K); lia).
  split; [constructor; [intros [K|K]; [lia|tauto]|constructor; assumption]|]. constructor; [lia|]. constructor; [lia|]. eapply Forall_impl; [|exact F]. cbn. intros x. lia.
Qed.
Lemma safe_edges : forall bs s, inv s -> safe s (each curve_edge bs) (fun rs s' => Forall (fun r => known s' r /\ is_a s' r "ORIENTED_EDGE") rs /\ exists vs, List.length vs = List.length bs /\ Forall2 (fun r vc => edge_along s' r (fst (fst vc)) (snd (fst vc)) (snd vc)) rs (combine vs bs) /\ ascending (last_ref s) vs (last_ref s')).
Proof.
  induction bs as [|c bs IH]; intros s I; cbn [each]; [apply safe_ret; [exact I|]; split; [constructor|]; exists []; split; [reflexivity|]; split; [constructor|cbn; lia]|]. eapply safe_bind; [apply safe_curve_edge, I|]. cbn beta. intros r s1 I1 E1 [K [T [a [b [A [O L]]]]]]. eapply safe_bind; [apply IH, I1|]. cbn beta. intros rs s2 I2 E2 [Fs [vs [Lv [F2 As]]]].
  apply safe_ret; [exact I2|]. split; [constructor; [split; [exact (ext_known _ _ _ E2 K)|exact (ext_is _ _ _ _ E2 T)]|exact Fs]|]. exists ((a, b) :: vs). split; [cbn; lia|]. split; [cbn [combine]; constructor; [cbn; exact (ext_along _ _ _ _ _ _ E2 A)|exact F2]|]. cbn [ascending]. split; [exact O|]. exact (ascending_lo _ _ _ _ L As).
Qed.
Lemma each_loop : forall l s, sound s -> Forall (fun r => is_a s r "ORIENTED_EDGE") l -> each loop_edge (map Some l) s = (s, Ok l).
Proof.
  induction l as [|r l IH]; intros s So F; [reflexivity|]. inversion F as [|? ? T F']; subst. cbn [map each]. unfold andthen at 1. unfold loop_edge at 1. unfold andthen at 1. rewrite (typeof_is s r _ So T). change ("ORIENTED_EDGE" =? "ORIENTED_EDGE")%string with true. cbn iota. unfold ret at 1. unfold andthen. rewrite (IH s So F'). reflexivity.
Qed.
Lemma safe_loop_of s l n : inv s -> Forall (fun r => known s r /\ is_a s r "ORIENTED_EDGE") l -> safe s (add_edge_loop (map Some l) n) (adds s (Simple "EDGE_LOOP" [AStr n; refs l])).
Proof.
  intros I F. unfold safe, add_edge_loop, andthen. rewrite each_loop; [|apply I|eapply Forall_impl; [|exact F]; intros a [_ T]; exact T]. apply safe_add; [exact I| |].
  - cbn [ent_refs flat_map arg_refs app]. rewrite arg_refs_refs, app_nil_r. eapply Forall_impl; [|exact F]. intros a [K _]. exact K.
  - intros _. split; [discriminate|]. split; [discriminate|]. intros _. exists n, l. split; [reflexivity|]. eapply Forall_impl; [|exact F]. intros a [_ T]. exact T.
Qed.
Lemma Forall2_concat {A B} (P : B -> Prop) (Q : list A -> list B -> Prop) l m : (forall a b, Q a b -> Forall P b) -> Forall2 Q l m -> Forall P (List.concat m).
Proof. intros H. induction 1; cbn; [constructor|]. apply Forall_app. eauto. Qed.
Lemma safe_bsurface s f n : inv s -> safe s (add_b_spline_surface f n) (fun r s' => known s' r /\ surface_of s' r f).
Proof.
  intros I. unfold add_b_spline_surface. destruct (get_knot_multiplicities (s_knots_u f)) as [uu mu] eqn:Gu. destruct (get_knot_multiplicities (s_knots_v f)) as [uv mv] eqn:Gv.
  eapply safe_bind; [apply (safe_each _ (fun row rs s' => Forall2 (fun p r => known s' r /\ point_at s' r p) row rs))|]; [|exact I| |].
  - intros row rs s1 s2 E. apply Forall2_imp. intros p r [K P]. split; [exact (ext_known _ _ _ E K)|exact (ext_point _ _ _ _ E P)].
  - intros row s' _ I' _. apply safe_points, I'.
  - cbn beta. intros rows s1 I1 E1 P. eapply safe_impl; [apply safe_entity; [exact I1| |repeat split; discriminate]|].
    + cbn [flat_map arg_refs app]. rewrite rows_refs, !arg_num_refs, !arg_count_refs. cbn [app arg_refs UNSPECIFIED FALSE_]. rewrite app_nil_r. eapply Forall2_concat; [|exact P]. cbn beta. intros a b H. eapply Forall2_r; [|exact H]. intros x y [K _]. exact K.
    + intros r s' [_ [_ [K [H _]]]] E. split; [exact K|]. exists n, UNSPECIFIED, FALSE_, FALSE_, FALSE_, UNSPECIFIED, rows, mu, mv, uu, uv. split; [exact H|]. split; [|auto]. apply Forall2_swap. eapply Forall2_imp; [|exact P]. intros a b H2. apply Forall2_swap. eapply Forall2_imp; [|exact H2]. intros x y [_ Q]. exact (ext_point _ _ _ _ E Q).
Qed.
Lemma safe_surface s f bs col n : inv s -> ready s -> safe s (add_nurbs_surface f bs col n) (fun m s' => known s' m /\ exists es vs, List.length vs = List.length bs /\ model_of s' m f es /\ Forall2 (fun r vc => edge_along s' r (fst (fst vc)) (snd (fst vc)) (snd vc)) es (combine vs bs) /\ NoDup (flat_map (fun v => [fst v; snd v]) vs)).
Proof.
  intros I R. unfold add_nurbs_surface. eapply safe_bind; [apply safe_edges, I|]. cbn beta. intros es s1 I1 E1 [Fes [vs [Lv [Fv As]]]]. eapply safe_bind; [apply safe_loop_of; assumption|]. intros loop s2 I2 E2 [_ [_ [K2 [H2 _]]]]. eapply safe_bind; [apply safe_bound; [exact I2|exact K2|reflexivity]|]. intros bound s3 I3 E3 [_ [_ [K3 [H3 _]]]]. eapply safe_bind; [apply safe_bsurface, I3|]. cbn beta. intros g s4 I4 E4 [K4 H4].
  eapply safe_bind; [apply safe_face; [exact I4| |reflexivity]|]; [constructor; [exact K4|constructor; [exact (ext_known _ _ _ E4 K3)|constructor]]|]. intros face s5 I5 E5 [_ [_ [K5 [H5 _]]]]. eapply safe_bind; [apply safe_shell; [exact I5|constructor; [exact K5|constructor]]|]. intros shell s6 I6 E6 [_ [_ [K6 [H6 _]]]]. eapply safe_bind; [apply safe_model; [exact I6|constructor; [exact K6|constructor]]|]. intros m s7 I7 E7 [_ [_ [K7 [H7 _]]]].
  pose proof (ext_trans _ _ _ E6 E7) as E57. pose proof (ext_trans _ _ _ E5 E57) as E47. pose proof (ext_trans _ _ _ E4 E47) as E37. pose proof (ext_trans _ _ _ E3 E37) as E27. pose proof (ext_trans _ _ _ E2 E27) as E17.
  eapply safe_bind; [apply safe_style; [exact I7|eapply ext_ready; [|exact R]; eapply ext_trans; eassumption|exact K7]|]. intros _ s8 I8 E8 _. apply safe_ret; [exact I8|]. split; [exact (ext_known _ _ _ E8 K7)|]. exists es, vs. split; [exact Lv|]. split; [|split; [|apply (ascending_nodup _ _ _ As)]].
  - exists (AStr n), (AStr ""), (AStr n), (AStr ""), (AStr ""), TRUE_, TRUE_, shell, face, bound, loop, g. split; [exact (ext_in _ _ _ E8 H7)|]. split; [exact (ext_in _ _ _ (ext_trans _ _ _ E7 E8) H6)|]. split; [exact (ext_in _ _ _ (ext_trans _ _ _ E57 E8) H5)|]. split; [exact (ext_in _ _ _ (ext_trans _ _ _ E37 E8) H3)|]. split; [exact (ext_in _ _ _ (ext_trans _ _ _ E27 E8) H2)|exact (ext_surface _ _ _ _ (ext_trans _ _ _ E47 E8) H4)].
  - eapply Forall2_imp; [|exact Fv]. intros r vc. apply ext_along. eapply ext_trans; eassumption.
Qed.

(* ---- histories ---- *)
Lemma safe_one s m (Q : nat -> st -> Prop) : safe s m Q -> (forall r s', Q r s' -> known s' r) -> safe s (one m) (fun l s' => Forall (known s') l).
Proof. intros H K. unfold one. eapply safe_bind; [exact H|]. intros r s' I' _ q. apply safe_ret; [exact I'|]. constructor; [exact (K _ _ q)|constructor]. Qed.
Lemma safe_four s m (Q : nat * nat * nat * nat -> st -> Prop) : safe s m Q -> (forall u s', Q u s' -> let '(a, b, c, d) := u in Forall (known s') [a; b; c; d]) -> safe s (four m) (fun l s' => Forall (known s') l).
Proof. intros H K. unfold four. eapply safe_bind; [exact H|]. intros [[[a b] c] d] s' I' _ q. apply safe_ret; [exact I'|]. exact (K _ _ q). Qed.
Lemma adds_known s e r s' : adds s e r s' -> known s' r.
Proof. intros [_ [_ [K _]]]. exact K. Qed.
Lemma gives_known n r s' : gives n r s' -> known s' r.
Proof. intros [K _]. exact K. Qed.
Lemma safe_exec s c : inv s -> ready s -> Forall (known s) (cmd_refs c) -> (raw = false -> plain c) -> safe s (exec c) (fun l s' => Forall (known s') l).
Proof.
  intros I R F P. destruct c; cbn [exec cmd_refs] in *.
  - eapply safe_one; [|apply adds_known]. apply safe_add; [exact I|exact F|]. intros Hr. destruct (P Hr) as [N1 [N2 N3]]. split; [|split]; intros; congruence.
  - eapply safe_one; [|apply adds_known]. apply safe_complex; assumption.
  - eapply safe_one; [apply safe_bspline, I|]. intros r s' [K _]. exact K.
  - eapply safe_one; [apply safe_edge_curve; assumption|apply gives_known].
  - eapply safe_one; [apply safe_vertex; assumption|apply gives_known].
  - eapply safe_one; [apply safe_oriented; assumption|apply adds_known].
  - eapply safe_one; [apply safe_loop; assumption|apply gives_known].
  - eapply safe_one; [apply safe_bound; [exact I|inversion F; assumption|apply flag_refs]|apply adds_known].
  - eapply safe_one; [apply safe_shell; assumption|apply adds_known].
  - eapply safe_one; [apply safe_face; [exact I|exact F|apply flag_refs]|apply adds_known].
  - eapply safe_one; [apply safe_model; assumption|apply adds_known].
  - eapply safe_one; [apply safe_manifold; assumption|auto].
  - eapply safe_four; [apply safe_units, I|]. intros [[[a b] c] d] s' [K _]. exact K.
  - eapply safe_one; [apply safe_context, I|]. intros r s' [K _]. exact K.
  - eapply safe_one; [|apply adds_known]. unfold add_axis_axis2_placement_3d. ent I. exact F.
  - eapply safe_four; [apply safe_plane, I|]. intros [[[a b] c] d] s' K. exact K.
  - eapply safe_one; [apply safe_shape; assumption|auto].
  - eapply safe_one; [|apply adds_known]. unfold add_shape_representation_relationship. ent I. exact F.
  - eapply safe_one; [apply safe_point, I|apply adds_known].
  - eapply safe_one; [apply safe_direction, I|apply adds_known].
  - eapply safe_bind; [apply safe_style; [exact I|exact R|inversion F; assumption]|]. intros _ s' I' _ _. apply safe_ret; [exact I'|constructor].
  - eapply safe_one; [apply safe_surface; assumption|]. cbn beta. intros r s' [K _]. exact K.
  - eapply safe_one; [apply safe_curve_edge, I|]. cbn beta. intros r s' [K _]. exact K.
Qed.
Lemma safe_step {A B} s (m : W A) (k : A -> W B) (Q : A -> st -> Prop) s' b : safe s m Q -> andthen m k s = (s', Ok b) -> exists a s1, inv s1 /\ ext s s1 /\ Q a s1 /\ k a s1 = (s', Ok b).
Proof. unfold safe, andthen. intros [I [E H]] K. destruct (m s) as [s1 [a|e]]; [|discriminate]. exists a, s1. auto. Qed.
Lemma init_inv tol w0 w1 w2 s : init tol w0 w1 w2 = (s, Ok tt) -> inv s /\ ready s.
Proof.
  unfold init. set (s0 := {| last_ref := 0 |}). intros H.
  assert (I0 : inv s0) by (split; [split; [reflexivity|intros r e []]|]; split; [intros _ r n l []|constructor]).
  eapply safe_step in H; [|ent I0; constructor]. destruct H as [e1 [s1 [I1 [E1 [[_ [_ [K1 _]]] H]]]]].
  eapply safe_step in H; [|ent I1; knowns]. destruct H as [e2 [s2 [I2 [E2 [_ H]]]]].
  eapply safe_step in H; [|ent I2; knowns]. destruct H as [e3 [s3 [I3 [E3 [[_ [_ [K3 _]]] H]]]]].
  eapply safe_step in H; [|ent I3; knowns]. destruct H as [e4 [s4 [I4 [E4 [[_ [_ [K4 _]]] H]]]]].
  eapply safe_step in H; [|ent I4; knowns]. destruct H as [e5 [s5 [I5 [E5 [[_ [_ [K5 _]]] H]]]]].
  pose proof (ext_trans _ _ _ E2 (ext_trans _ _ _ E3 (ext_trans _ _ _ E4 E5))) as E15.
  eapply safe_step in H; [|ent I5; knowns]. destruct H as [e6 [s6 [I6 [E6 [[_ [_ [K6 _]]] H]]]]].
  eapply safe_step in H; [|ent I6; knowns]. destruct H as [e7 [s7 [I7 [E7 [[_ [_ [K7 _]]] H]]]]].
  eapply safe_step in H; [|ent I7; knowns]. destruct H as [e8 [s8 [I8 [E8 [[_ [_ [K8 _]]] H]]]]].
  pose proof (ext_trans _ _ _ E5 (ext_trans _ _ _ E6 (ext_trans _ _ _ E7 E8))) as E48.
  eapply safe_step in H; [|apply safe_context, I8]. destruct H as [e9 [s9 [I9 [E9 [_ H]]]]].
  eapply safe_step in H; [|apply safe_plane, I9]. destruct H as [[[[a b] c] d] [s10 [I10 [E10 [K H]]]]]. pose proof (ext_trans _ _ _ E9 E10) as E810.
  injection H as <-. rewrite Forall_forall in K. assert (Kd : known s10 d) by (apply K; right; right; right; left; reflexivity).
  split; [exact I10|]. split; [exact (ext_known _ _ _ (ext_trans _ _ _ E48 E810) K4)|]. split; [exact (ext_known _ _ _ E810 K8)|exact Kd].
Qed.
Lemma used_inv s : used raw s -> inv s /\ ready s.
Proof.
  induction 1 as [tol w0 w1 w2 s H|s c U [I R] F P]; [exact (init_inv _ _ _ _ _ H)|]. assert (F' : Forall (known s) (cmd_refs c)) by (eapply Forall_impl; [|exact F]; intros r; apply known_present, I). destruct (safe_exec s c I R F' P) as [I' [E _]]. split; [exact I'|exact (ext_ready _ _ E R)].
Qed.
Lemma used_exec s c : used raw s -> Forall (present s) (cmd_refs c) -> (raw = false -> plain c) -> safe s (exec c) (fun l s' => Forall (known s') l).
Proof. intros U F P. destruct (used_inv s U) as [I R]. apply safe_exec; try assumption. eapply Forall_impl; [|exact F]. intros r. apply known_present, I. Qed.
End Hist.
