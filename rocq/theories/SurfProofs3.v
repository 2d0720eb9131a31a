(* Knot insertion and splitting of surfaces. *)
From Coq Require Import List ZArith Lia Bool QArith Qcanon Permutation.
From Verif Require Import Common ListLib QcLib ArrZ SplineTheory SplineTheory2 NurbsModel NurbsSpec NurbsProofs NurbsProofs2 NurbsProofs3 NurbsEditModel NurbsEditSpec NurbsInsert NurbsEditProofs NurbsEditProofs2 NurbsSplit SurfModel SurfSpec SurfProofs1 SurfProofs2.
Import ListNotations.
Local Open Scope Z_scope.
Local Open Scope Qc_scope.

(* ---- arrays ------------------------------------------------------------- *)
Lemma mapR_ok {A B} (d : B) (f : A -> res B) l (Q : A -> B -> Prop) (da : A) :
  (forall a, In a l -> exists b, f a = Ok b /\ Q a b) ->
  exists bs, mapR f l = Ok bs /\ lenZ bs = lenZ l /\
    forall i, (0 <= i < lenZ l)%Z -> Q (atZ da l i) (atZ d bs i).
Proof.
  induction l as [|a l IH]; intro H; cbn [mapR].
  - exists []. split; auto. split; auto. intros i Hi. unfold lenZ in Hi. simpl in Hi. lia.
  - destruct (H a) as [b [E Qb]]; [left; auto|]. rewrite E. cbn [bind].
    destruct IH as [bs [E' [L I]]]; [intros; apply H; right; auto|]. rewrite E'. cbn [bind].
    exists (b :: bs). split; auto. split; [unfold lenZ in *; simpl length; lia|].
    intros i Hi. destruct (Z.eq_dec i 0) as [->|]; [exact Qb|].
    assert (Hs : forall X (d0 : X) x r, atZ d0 (x :: r) i = atZ d0 r (i - 1)).
    { intros. unfold atZ. replace (Z.to_nat i) with (S (Z.to_nat (i - 1))) by lia. reflexivity. }
    rewrite !Hs. apply I. unfold lenZ in *; simpl length in Hi; lia.
Qed.

Lemma lenZ_ixs n : (0 <= n)%Z -> lenZ (ixs n) = n.
Proof. intro H. unfold ixs. rewrite lenZ_map. unfold lenZ. rewrite seq_length. lia. Qed.
Lemma In_ixs n i : In i (ixs n) -> (0 <= i < n)%Z.
Proof. unfold ixs. intro H. apply in_map_iff in H. destruct H as [k [<- Hk]]. apply in_seq in Hk. lia. Qed.
Lemma atZ_ixs n i : (0 <= i < n)%Z -> atZ 0%Z (ixs n) i = i.
Proof.
  intro H. unfold ixs, atZ. rewrite (nth_indep _ 0%Z (Z.of_nat 0)) by (rewrite map_length, seq_length; lia).
  rewrite map_nth, seq_nth by lia. lia.
Qed.

Lemma mapR_ixs {B} (d : B) n f (Q : Z -> B -> Prop) : (0 <= n)%Z ->
  (forall i, (0 <= i < n)%Z -> exists b, f i = Ok b /\ Q i b) ->
  exists bs, mapR f (ixs n) = Ok bs /\ lenZ bs = n /\ forall i, (0 <= i < n)%Z -> Q i (atZ d bs i).
Proof.
  intros Hn H. destruct (mapR_ok d f (ixs n) Q 0%Z) as [bs [E [L I]]].
  { intros a Ha. apply H. now apply In_ixs. }
  rewrite lenZ_ixs in L, I by auto. exists bs. split; auto. split; auto.
  intros i Hi. specialize (I i Hi). now rewrite atZ_ixs in I by auto.
Qed.

Lemma grid_col_ok nu nv G v : shaped nu nv G -> (0 <= v < nv)%Z ->
  exists c, grid_col G v = Ok c /\ lenZ c = nu /\ forall i, (0 <= i < nu)%Z -> atZ pt0 c i = entry G i v.
Proof.
  intros [L F] Hv. destruct (mapR_ok pt0 (fun r => rdZ r v) G (fun r q => q = atZ pt0 r v) []) as [c [E [Lc I]]].
  { intros r Hr. rewrite Forall_forall in F. specialize (F r Hr). exists (atZ pt0 r v). split; auto. apply rdZ_ok. lia. }
  exists c. split; auto. split; [lia|]. intros i Hi. apply I. lia.
Qed.

Lemma shapedI nu nv (G : grid) : lenZ G = nu -> (forall i, (0 <= i < nu)%Z -> lenZ (atZ [] G i) = nv) -> shaped nu nv G.
Proof.
  intros L H. split; auto. apply Forall_forall. intros r Hr. apply (In_nth _ _ []) in Hr. destruct Hr as [k [Hk <-]].
  specialize (H (Z.of_nat k)). unfold atZ in H. rewrite Nat2Z.id in H. apply H. unfold lenZ in L. lia.
Qed.

Lemma from_cols_ok nu nv cols : (0 <= nu)%Z -> lenZ cols = nv -> (forall v, (0 <= v < nv)%Z -> lenZ (atZ [] cols v) = nu) ->
  exists G, from_cols nu cols = Ok G /\ shaped nu nv G /\
    forall i j, (0 <= i < nu)%Z -> (0 <= j < nv)%Z -> entry G i j = atZ pt0 (atZ [] cols j) i.
Proof.
  intros Hn L H.
  destruct (mapR_ixs [] nu (fun i => mapR (fun c => rdZ c i) cols)
    (fun i row => lenZ row = nv /\ forall j, (0 <= j < nv)%Z -> atZ pt0 row j = atZ pt0 (atZ [] cols j) i)) as [G [E [LG I]]]; auto.
  { intros i Hi. destruct (mapR_ok pt0 (fun c => rdZ c i) cols (fun c q => q = atZ pt0 c i) []) as [row [E [Lr I]]].
    - intros c Hc. apply (In_nth _ _ []) in Hc. destruct Hc as [k [Hk <-]].
      specialize (H (Z.of_nat k)). unfold atZ in H. rewrite Nat2Z.id in H. eexists. split; [|reflexivity]. apply rdZ_ok. unfold lenZ in *. lia.
    - exists row. split; auto. split; [lia|]. intros j Hj. apply I. lia. }
  exists G. split; auto. split. { apply shapedI; auto. intros i Hi. apply I; auto. }
  intros i j Hi Hj. unfold entry. apply I; auto.
Qed.

Lemma shaped_nv nu nv G : shaped nu nv G -> (0 < nu)%Z -> lenZ (hd [] G) = nv.
Proof. intros [L F] H. destruct G as [|r G]; [unfold lenZ in L; simpl in L; lia|]. inversion F; auto. Qed.

Lemma interval_ok p n U : valid_knots p n U -> update_interval U = Ok (knot U 0, knot U (n + p + 1)).
Proof.
  intros [Hp [L _]]. unfold update_interval. rewrite !rd_knot by lia. cbn [bind]. rewrite L.
  now replace (n + p + 2 - 1)%Z with (n + p + 1)%Z by lia.
Qed.

(* a surface object built from matching parts *)
Lemma update_surface_ok nu nv G du dv ku kv : shaped nu nv G -> valid_knots du (nu - 1) ku -> valid_knots dv (nv - 1) kv ->
  exists s, update_surface G du dv ku kv = Ok s /\ s_pts s = G /\ s_du s = du /\ s_dv s = dv /\ s_ku s = ku /\ s_kv s = kv /\
    s_nu s = nu /\ s_nv s = nv /\ valid_surface s /\ interval_current s /\
    s_int s = ((knot ku 0, knot ku (nu + du)), (knot kv 0, knot kv (nv + dv))).
Proof.
  intros Sh VU VV. pose proof VU as [Hu _]. pose proof VV as [Hv _].
  unfold update_surface, surface_interval. rewrite (interval_ok _ _ _ VU). cbn [bind]. rewrite (interval_ok _ _ _ VV). cbn [bind].
  eexists. split; [reflexivity|]. cbn [s_pts s_du s_dv s_ku s_kv s_int].
  assert (N1 : s_nu (mksurf G du dv ku kv (knot ku 0, knot ku (nu - 1 + du + 1), (knot kv 0, knot kv (nv - 1 + dv + 1)))) = nu).
  { unfold s_nu. cbn [s_pts]. apply Sh. }
  assert (N2 : s_nv (mksurf G du dv ku kv (knot ku 0, knot ku (nu - 1 + du + 1), (knot kv 0, knot kv (nv - 1 + dv + 1)))) = nv).
  { unfold s_nv. cbn [s_pts]. apply (shaped_nv nu); auto. lia. }
  repeat split; auto; rewrite ?N1, ?N2; auto; try apply Sh; try apply VU; try apply VV.
  - unfold interval_current, surface_interval. cbn [s_ku s_kv s_int]. rewrite (interval_ok _ _ _ VU). cbn [bind].
    rewrite (interval_ok _ _ _ VV). reflexivity.
  - replace (nu - 1 + du + 1)%Z with (nu + du)%Z by lia. replace (nv - 1 + dv + 1)%Z with (nv + dv)%Z by lia. reflexivity.
Qed.

Lemma new_surface_some G du dv ku kv : new_surface G du dv (Some ku) (Some kv) = update_surface G du dv ku kv.
Proof. reflexivity. Qed.

(* ---- evaluation only depends on the four sums ----------------------------- *)
Lemma evaluate_same s s' u v u' v' : valid_surface s -> valid_surface s' ->
  knot (s_ku s) (s_du s) <= u -> knot (s_kv s) (s_dv s) <= v ->
  knot (s_ku s') (s_du s') <= u' -> knot (s_kv s') (s_dv s') <= v' ->
  (forall f, coord f -> tensor s' f u' v' = tensor s f u v) -> evaluate_surface s' u' v' = evaluate_surface s u v.
Proof.
  intros V V' H1 H2 H3 H4 E. rewrite !evaluate_eq by auto.
  now rewrite (E px coord_px), (E py coord_py), (E pz coord_pz), (E pw coord_pw).
Qed.

(* ---- insertion ------------------------------------------------------------ *)
Definition col_list (G : grid) (nu j : Z) : list pt := map (fun i => entry G i j) (ixs nu).

Lemma atZ_map_ixs {B} (d : B) f n i : (0 <= i < n)%Z -> atZ d (map f (ixs n)) i = f i.
Proof.
  intro H. unfold atZ. rewrite (nth_indep _ d (f 0%Z)) by (rewrite map_length; unfold ixs; rewrite map_length, seq_length; lia).
  rewrite map_nth. f_equal. apply atZ_ixs. auto.
Qed.

Lemma insert_u_raw s t count junk span kv m :
  valid_surface s -> (0 <= count)%Z ->
  find_span (s_nu s - 1) (s_du s) t (s_ku s) false = Ok span ->
  knot_insertion_kv (s_ku s) t span count = Ok kv -> find_multiplicity t (s_ku s) = Ok m ->
  valid_knots (s_du s) (s_nu s - 1 + count) kv ->
  (forall P junk, lenZ P = (s_nu s - 1 + 1)%Z -> lenZ junk = (s_nu s - 1 + 1 + count)%Z ->
     exists R, knot_insertion (s_du s) (s_ku s) P t count m span junk = Ok R /\ lenZ R = (s_nu s - 1 + 1 + count)%Z /\
       (forall f x, coord f -> knot (s_ku s) (s_du s) <= x ->
          spl kv (s_nu s - 1 + count) (s_du s) x (fun i => f (ctrl R i)) = spl (s_ku s) (s_nu s - 1) (s_du s) x (fun i => f (ctrl P i)))) ->
  exists s', insert_knot_u s t count junk = Ok s' /\ valid_surface s' /\ s_du s' = s_du s /\ s_dv s' = s_dv s /\
    s_ku s' = kv /\ s_kv s' = s_kv s /\ s_nu s' = (s_nu s + count)%Z /\ s_nv s' = s_nv s /\ interval_current s' /\
    (forall f u v, coord f -> knot (s_ku s) (s_du s) <= u -> tensor s' f u v = tensor s f u v).
Proof.
  intros V Hc E1 E2 E3 VK KI. pose proof V as [Sh [VU VV]]. pose proof VU as [Hu _]. pose proof VV as [Hv _].
  unfold insert_knot_u. rewrite E1. cbn [bind]. rewrite E2. cbn [bind]. rewrite E3. cbn [bind].
  set (nu := s_nu s) in *. set (nv := s_nv s) in *.
  destruct (mapR_ixs [] nv (fun v0 => do c <- grid_col (s_pts s) v0 ;
     knot_insertion (s_du s) (s_ku s) c t count m span (map (fun i => junk i v0) (ixs (nu + count))))
     (fun j R => lenZ R = (nu + count)%Z /\ forall f x, coord f -> knot (s_ku s) (s_du s) <= x ->
        spl kv (nu - 1 + count) (s_du s) x (fun i => f (ctrl R i)) = spl (s_ku s) (nu - 1) (s_du s) x (fun i => f (entry (s_pts s) i j))))
    as [cols [EC [LC IC]]].
  - lia.
  - intros j Hj. destruct (grid_col_ok nu nv (s_pts s) j Sh Hj) as [c [Ec [Lc Ic]]]. rewrite Ec. cbn [bind].
    destruct (KI c (map (fun i => junk i j) (ixs (nu + count)))) as [R [ER [LR HR]]].
    { lia. } { rewrite lenZ_map, lenZ_ixs; lia. }
    exists R. split; auto. split; [lia|]. intros f x Cf Hx. rewrite HR by auto. apply spl_ext.
    intros i Hi. unfold ctrl. rewrite Ic by lia. auto.
  - rewrite EC. cbn [bind].
    destruct (from_cols_ok (nu + count) nv cols) as [G [EG [SG IG]]]; auto; try lia. { intros v Hv'. apply IC; auto. }
    rewrite EG. cbn [bind].
    destruct (update_surface_ok (nu + count) nv G (s_du s) (s_dv s) kv (s_kv s)) as [s' [E [F1 [F2 [F3 [F4 [F5 [F6 [F7 [F8 [F9 _]]]]]]]]]]]; auto.
    { replace (nu + count - 1)%Z with (nu - 1 + count)%Z by lia. auto. }
    exists s'. split; auto. split; auto. split; auto. split; auto. split; auto. split; auto. split; auto. split; auto. split; auto.
    intros f u v Cf Hx. rewrite !tensor_spl2. rewrite F1, F2, F3, F4, F5, F6, F7. fold nu nv.
    apply spl_ext. intros j Hj. destruct (IC j) as [_ I]; [lia|]. rewrite <- (I f u Cf Hx).
    replace (nu + count - 1)%Z with (nu - 1 + count)%Z by lia. apply spl_ext. intros i Hi. rewrite IG by lia. auto.
Qed.

Lemma insert_v_raw s t count junk span kv m :
  valid_surface s -> (0 <= count)%Z ->
  find_span (s_nv s - 1) (s_dv s) t (s_kv s) false = Ok span ->
  knot_insertion_kv (s_kv s) t span count = Ok kv -> find_multiplicity t (s_kv s) = Ok m ->
  valid_knots (s_dv s) (s_nv s - 1 + count) kv ->
  (forall P junk, lenZ P = (s_nv s - 1 + 1)%Z -> lenZ junk = (s_nv s - 1 + 1 + count)%Z ->
     exists R, knot_insertion (s_dv s) (s_kv s) P t count m span junk = Ok R /\ lenZ R = (s_nv s - 1 + 1 + count)%Z /\
       (forall f x, coord f -> knot (s_kv s) (s_dv s) <= x ->
          spl kv (s_nv s - 1 + count) (s_dv s) x (fun i => f (ctrl R i)) = spl (s_kv s) (s_nv s - 1) (s_dv s) x (fun i => f (ctrl P i)))) ->
  exists s', insert_knot_v s t count junk = Ok s' /\ valid_surface s' /\ s_du s' = s_du s /\ s_dv s' = s_dv s /\
    s_ku s' = s_ku s /\ s_kv s' = kv /\ s_nu s' = s_nu s /\ s_nv s' = (s_nv s + count)%Z /\ interval_current s' /\
    (forall f u v, coord f -> knot (s_kv s) (s_dv s) <= v -> tensor s' f u v = tensor s f u v).
Proof.
  intros V Hc E1 E2 E3 VK KI. pose proof V as [Sh [VU VV]]. pose proof VU as [Hu _]. pose proof VV as [Hv _].
  unfold insert_knot_v. rewrite E1. cbn [bind]. rewrite E2. cbn [bind]. rewrite E3. cbn [bind].
  set (nu := s_nu s) in *. set (nv := s_nv s) in *.
  destruct (mapR_ixs [] nu (fun u0 => do r <- rdZ (s_pts s) u0 ;
     knot_insertion (s_dv s) (s_kv s) r t count m span (map (fun j => junk u0 j) (ixs (nv + count))))
     (fun i R => lenZ R = (nv + count)%Z /\ forall f x, coord f -> knot (s_kv s) (s_dv s) <= x ->
        spl kv (nv - 1 + count) (s_dv s) x (fun j => f (ctrl R j)) = spl (s_kv s) (nv - 1) (s_dv s) x (fun j => f (entry (s_pts s) i j))))
    as [G [EG [LG IG]]].
  - lia.
  - intros i Hi. pose proof (shaped_row nu nv _ i Sh Hi) as Lr. destruct Sh as [LS _].
    rewrite (rdZ_ok []) by lia. cbn [bind].
    destruct (KI (atZ [] (s_pts s) i) (map (fun j => junk i j) (ixs (nv + count)))) as [R [ER [LR HR]]].
    { lia. } { rewrite lenZ_map, lenZ_ixs; lia. }
    exists R. split; auto. split; [lia|]. intros f x Cf Hx. rewrite HR by auto. reflexivity.
  - rewrite EG. cbn [bind].
    assert (SG : shaped nu (nv + count) G). { apply shapedI; auto. intros i Hi. apply IG; auto. }
    destruct (update_surface_ok nu (nv + count) G (s_du s) (s_dv s) (s_ku s) kv) as [s' [E [F1 [F2 [F3 [F4 [F5 [F6 [F7 [F8 [F9 _]]]]]]]]]]]; auto.
    { replace (nv + count - 1)%Z with (nv - 1 + count)%Z by lia. auto. }
    exists s'. split; auto. split; auto. split; auto. split; auto. split; auto. split; auto. split; auto. split; auto. split; auto.
    intros f u v Cf Hx. rewrite !tensor_spl. rewrite F1, F2, F3, F4, F5, F6, F7. fold nu nv.
    apply spl_ext. intros i Hi. destruct (IG i) as [_ I]; [lia|]. rewrite <- (I f v Cf Hx).
    replace (nv + count - 1)%Z with (nv - 1 + count)%Z by lia. apply spl_ext. intros j Hj. reflexivity.
Qed.

Lemma insert_knot_u_ok s t count junk : valid_surface s ->
  knot (s_ku s) (s_du s) <= t -> t < knot (s_ku s) (s_nu s) -> separated t (s_ku s) ->
  (0 <= count)%Z -> (count + multiplicity (s_ku s) t <= s_du s)%Z ->
  exists s', insert_knot_u s t count junk = Ok s' /\ valid_surface s' /\ interval_current s' /\
    s_du s' = s_du s /\ s_dv s' = s_dv s /\ s_nu s' = (s_nu s + count)%Z /\ s_nv s' = s_nv s /\
    Permutation (s_ku s') (repeat t (Z.to_nat count) ++ s_ku s) /\ s_kv s' = s_kv s /\
    (forall u v, in_dom s' u v <-> in_dom s u v) /\
    (forall u v, in_dom s u v -> evaluate_surface s' u v = evaluate_surface s u v).
Proof.
  intros V H1 H2 Sep Hc Hm. pose proof V as [Sh [VU VV]]. pose proof VU as [Hu [LU [Mo _]]].
  assert (H2' : t < knot (s_ku s) (s_nu s - 1 + 1)) by (replace (s_nu s - 1 + 1)%Z with (s_nu s) by lia; auto).
  destruct (insert_dir _ _ _ t count VU H1 H2' Sep Hc Hm) as [span [kv [E1 [E2 [E3 [VK [Hs [M [KV KI]]]]]]]]].
  destruct (insert_u_raw s t count junk span kv _ V Hc E1 E2 E3 VK KI) as [s' [E [V' [F1 [F2 [F3 [F4 [F5 [F6 [F7 T]]]]]]]]]].
  pose proof KV as [LV [A [B C]]].
  assert (K1 : knot kv (s_du s) = knot (s_ku s) (s_du s)) by (apply A; lia).
  assert (K2 : knot kv (s_nu s + count) = knot (s_ku s) (s_nu s)). { rewrite C by lia. f_equal. lia. }
  exists s'. repeat (split; [solve [auto]|]).
  split. { rewrite F3. apply (kv_after_perm _ _ span); auto; lia. }
  split; [auto|].
  split. { intros u v. unfold in_dom, dom_u, dom_v. rewrite F1, F2, F3, F4, F5, F6, K1, K2. tauto. }
  intros u v [[D1 _] [D2 _]]. apply evaluate_same; auto.
  - rewrite F1, F3, K1. auto.
  - rewrite F2, F4. auto.
Qed.

Lemma insert_knot_v_ok s t count junk : valid_surface s ->
  knot (s_kv s) (s_dv s) <= t -> t < knot (s_kv s) (s_nv s) -> separated t (s_kv s) ->
  (0 <= count)%Z -> (count + multiplicity (s_kv s) t <= s_dv s)%Z ->
  exists s', insert_knot_v s t count junk = Ok s' /\ valid_surface s' /\ interval_current s' /\
    s_du s' = s_du s /\ s_dv s' = s_dv s /\ s_nu s' = s_nu s /\ s_nv s' = (s_nv s + count)%Z /\
    s_ku s' = s_ku s /\ Permutation (s_kv s') (repeat t (Z.to_nat count) ++ s_kv s) /\
    (forall u v, in_dom s' u v <-> in_dom s u v) /\
    (forall u v, in_dom s u v -> evaluate_surface s' u v = evaluate_surface s u v).
Proof.
  intros V H1 H2 Sep Hc Hm. pose proof V as [Sh [VU VV]]. pose proof VV as [Hu [LU [Mo _]]].
  assert (H2' : t < knot (s_kv s) (s_nv s - 1 + 1)) by (replace (s_nv s - 1 + 1)%Z with (s_nv s) by lia; auto).
  destruct (insert_dir _ _ _ t count VV H1 H2' Sep Hc Hm) as [span [kv [E1 [E2 [E3 [VK [Hs [M [KV KI]]]]]]]]].
  destruct (insert_v_raw s t count junk span kv _ V Hc E1 E2 E3 VK KI) as [s' [E [V' [F1 [F2 [F3 [F4 [F5 [F6 [F7 T]]]]]]]]]].
  pose proof KV as [LV [A [B C]]].
  assert (K1 : knot kv (s_dv s) = knot (s_kv s) (s_dv s)) by (apply A; lia).
  assert (K2 : knot kv (s_nv s + count) = knot (s_kv s) (s_nv s)). { rewrite C by lia. f_equal. lia. }
  exists s'. repeat (split; [solve [auto]|]).
  split. { rewrite F4. apply (kv_after_perm _ _ span); auto; lia. }
  split. { intros u v. unfold in_dom, dom_u, dom_v. rewrite F1, F2, F3, F4, F5, F6, K1, K2. tauto. }
  intros u v [[D1 _] [D2 _]]. apply evaluate_same; auto.
  - rewrite F1, F3. auto.
  - rewrite F2, F4, K1. auto.
Qed.

(* ---- splitting --------------------------------------------------------------- *)
(* what a cut at t in the u direction must look like *)
Definition cut_u (s : surface) (t : Qc) (s1 s2 : surface) : Prop :=
  valid_surface s1 /\ valid_surface s2 /\ interval_current s1 /\ interval_current s2 /\
  s_du s1 = s_du s /\ s_dv s1 = s_dv s /\ s_du s2 = s_du s /\ s_dv s2 = s_dv s /\
  s_kv s1 = s_kv s /\ s_kv s2 = s_kv s /\ s_nv s1 = s_nv s /\ s_nv s2 = s_nv s /\
  (forall u v, in_dom s1 u v <-> in_dom s u v /\ u <= t) /\
  (forall u v, in_dom s2 u v <-> in_dom s u v /\ t <= u) /\
  (forall u v, in_dom s1 u v -> evaluate_surface s1 u v = evaluate_surface s u v) /\
  (forall u v, in_dom s2 u v -> evaluate_surface s2 u v = evaluate_surface s u v).
Definition cut_v (s : surface) (t : Qc) (s1 s2 : surface) : Prop :=
  valid_surface s1 /\ valid_surface s2 /\ interval_current s1 /\ interval_current s2 /\
  s_du s1 = s_du s /\ s_dv s1 = s_dv s /\ s_du s2 = s_du s /\ s_dv s2 = s_dv s /\
  s_ku s1 = s_ku s /\ s_ku s2 = s_ku s /\ s_nu s1 = s_nu s /\ s_nu s2 = s_nu s /\
  (forall u v, in_dom s1 u v <-> in_dom s u v /\ v <= t) /\
  (forall u v, in_dom s2 u v <-> in_dom s u v /\ t <= v) /\
  (forall u v, in_dom s1 u v -> evaluate_surface s1 u v = evaluate_surface s u v) /\
  (forall u v, in_dom s2 u v -> evaluate_surface s2 u v = evaluate_surface s u v).

Lemma interval_current_eq s : valid_surface s -> interval_current s ->
  s_int s = ((knot (s_ku s) 0, knot (s_ku s) (s_nu s + s_du s)), (knot (s_kv s) 0, knot (s_kv s) (s_nv s + s_dv s))).
Proof.
  intros [_ [VU VV]] I. unfold interval_current, surface_interval in I.
  rewrite (interval_ok _ _ _ VU) in I. cbn [bind] in I. rewrite (interval_ok _ _ _ VV) in I. cbn [bind] in I.
  injection I as <-.
  replace (s_nu s - 1 + s_du s + 1)%Z with (s_nu s + s_du s)%Z by lia.
  replace (s_nv s - 1 + s_dv s + 1)%Z with (s_nv s + s_dv s)%Z by lia. reflexivity.
Qed.

Lemma shaped_slice_to nu nv G k : shaped nu nv G -> (0 <= k <= nu)%Z -> shaped k nv (slice_to G k).
Proof.
  intros [L F] H. split. { unfold slice_to. rewrite lenZ_firstn; lia. }
  rewrite Forall_forall in *. intros r Hr. apply F. exact (in_firstn _ _ _ Hr).
Qed.
Lemma shaped_slice_from nu nv G k : shaped nu nv G -> (0 <= k <= nu)%Z -> shaped (nu - k) nv (slice_from G k).
Proof.
  intros [L F] H. split. { unfold slice_from. rewrite lenZ_skipn; lia. }
  rewrite Forall_forall in *. intros r Hr. apply F. exact (in_skipn _ _ _ Hr).
Qed.
Lemma shaped_map (h : list pt -> list pt) nu nv nv' G : shaped nu nv G -> (forall r, lenZ r = nv -> lenZ (h r) = nv') -> shaped nu nv' (map h G).
Proof.
  intros [L F] H. split. { now rewrite lenZ_map. } rewrite Forall_forall in *. intros r Hr.
  apply in_map_iff in Hr. destruct Hr as [x [<- Hx]]. auto.
Qed.
Lemma atZ_map_in {A B} (h : A -> B) da db l i : (0 <= i < lenZ l)%Z -> atZ db (map h l) i = h (atZ da l i).
Proof.
  intro H. unfold atZ, lenZ in *. rewrite (nth_indep _ db (h da)) by (rewrite map_length; lia). apply map_nth.
Qed.

Lemma split_u_raw s t tol junk : valid_surface s -> interval_current s -> (1 <= s_du s)%Z -> 0 <= tol ->
  knot (s_ku s) 0 + tol < t -> t + tol < knot (s_ku s) (s_nu s + s_du s) ->
  knot (s_ku s) (s_du s) < t -> t < knot (s_ku s) (s_nu s) ->
  separated t (s_ku s) -> (multiplicity (s_ku s) t <= s_du s)%Z ->
  exists s1 s2 span, split_surface_u s t tol junk = Ok (s1, s2) /\ cut_u s t s1 s2 /\
    s_int s1 = ((fst (fst (s_int s)), t), snd (s_int s)) /\ s_int s2 = ((t, snd (fst (s_int s))), snd (s_int s)) /\
    mult_at (s_ku s) t span (multiplicity (s_ku s) t) /\ (s_du s <= span - multiplicity (s_ku s) t <= s_nu s - 1)%Z /\
    s_ku s1 = firstn (Z.to_nat (span - multiplicity (s_ku s) t + 1)) (s_ku s) ++ repeat t (Z.to_nat (s_du s + 1)) /\
    s_ku s2 = repeat t (Z.to_nat (s_du s + 1)) ++ skipn (Z.to_nat (span + 1)) (s_ku s).
Proof.
  intros V IC Hp1 Ht0 Hlo Hhi H1 H2 Sep Hm. pose proof V as [Sh [VU VV]].
  pose proof (interval_current_eq s V IC) as EI.
  set (nu := s_nu s) in *. set (nv := s_nv s) in *. set (p := s_du s) in *.
  assert (H2' : t < knot (s_ku s) (nu - 1 + 1)) by (replace (nu - 1 + 1)%Z with nu by lia; auto).
  assert (Hhi' : t + tol < knot (s_ku s) (nu - 1 + p + 1)) by (replace (nu - 1 + p + 1)%Z with (nu + p)%Z by lia; auto).
  destruct (split_dir p (nu - 1) (s_ku s) t tol VU Hp1 Ht0 Hlo Hhi' H1 H2' Sep Hm)
    as [span [kv [d [E0 [FS0 [Dd [Hd [EM [E1 [E2 [VK [FS2 [KI [W1 [W2 [L1 [L2 [MA [A1 [A2 [A3 [A4 [A5 [A6 [A7 [A8 [S1 S2]]]]]]]]]]]]]]]]]]]]]]]]]]].
  set (m := multiplicity (s_ku s) t) in *. set (r := (p - m)%Z) in *.
  assert (Hr : (0 <= r)%Z) by (unfold r; lia).
  destruct (insert_u_raw s t r junk span kv m V Hr E1 E2 EM VK KI) as [tmp [ET [VT [F1 [F2 [F3 [F4 [F5 [F6 [F7 T]]]]]]]]]].
  fold nu nv p in F1, F5, F6, T.
  set (k1 := first_kv kv (d + p + 1) t) in *. set (k2 := second_kv kv (d + p + 1) p t) in *.
  pose proof VT as [ShT [VTU VTV]]. rewrite F5, F6 in ShT.
  assert (N1 : (span - p + 1 + r = d + 1)%Z) by lia.
  assert (Sh1 : shaped (d + 1) nv (slice_to (s_pts tmp) (d + 1))) by (apply (shaped_slice_to (nu + r)); auto; lia).
  assert (Sh2 : shaped (nu + r - d) nv (slice_from (s_pts tmp) d)) by (apply shaped_slice_from; auto; lia).
  destruct (update_surface_ok (d + 1) nv _ p (s_dv s) k1 (s_kv s) Sh1) as [s1 [Q1 [B1 [B2 [B3 [B4 [B5 [B6 [B7 [B8 [B9 B10]]]]]]]]]]]; auto.
  { now replace (d + 1 - 1)%Z with d by lia. }
  destruct (update_surface_ok (nu + r - d) nv _ p (s_dv s) k2 (s_kv s) Sh2) as [s2 [Q2 [C1 [C2 [C3 [C4 [C5 [C6 [C7 [C8 [C9 C10]]]]]]]]]]]; auto.
  { now replace (nu + r - d - 1)%Z with (nu - 1 + r - d)%Z by lia. }
  exists s1, s2, span. split.
  { unfold split_surface_u. rewrite EI. cbn [fst]. replace (nu + p)%Z with (nu - 1 + p + 1)%Z by lia. rewrite E0.
    fold nu p. replace (nu - 1 + 1)%Z with nu in FS0 by lia. rewrite FS0. cbn [bind]. rewrite EM. cbn [bind]. fold r. rewrite ET. cbn [bind].
    rewrite F5, F3. replace (nu + r)%Z with (nu - 1 + r + 1)%Z by lia. rewrite FS2. cbn [bind].
    rewrite N1. replace (d + 1 - 1)%Z with d by lia. rewrite !new_surface_some. fold k1 k2. rewrite Q1. cbn [bind]. rewrite Q2. reflexivity. }
  assert (DU1 : forall u, dom_u s1 u <-> dom_u s u /\ u <= t).
  { intro u. unfold dom_u. rewrite B2, B4, B6. fold p nu. rewrite A5, A6 by lia.
    split; [intros [X Y]|intros [[X Y] Z']]; repeat split; auto; qlra. }
  assert (DU2 : forall u, dom_u s2 u <-> dom_u s u /\ t <= u).
  { intro u. unfold dom_u. rewrite C2, C4, C6. fold p nu. rewrite A7 by lia. rewrite A8 by lia.
    replace (nu + r - d - r + d)%Z with nu by lia.
    split; [intros [X Y]|intros [[X Y] Z']]; repeat split; auto; qlra. }
  assert (DV1 : forall v, dom_v s1 v <-> dom_v s v) by (intro v; unfold dom_v; rewrite B3, B5, B7; fold nv; tauto).
  assert (DV2 : forall v, dom_v s2 v <-> dom_v s v) by (intro v; unfold dom_v; rewrite C3, C5, C7; fold nv; tauto).
  assert (D1 : forall u v, in_dom s1 u v <-> in_dom s u v /\ u <= t) by (intros; unfold in_dom; rewrite DU1, DV1; tauto).
  assert (D2 : forall u v, in_dom s2 u v <-> in_dom s u v /\ t <= u) by (intros; unfold in_dom; rewrite DU2, DV2; tauto).
  split.
  { unfold cut_u. fold p nv. repeat (split; [solve [auto]|]). split.
    - intros u v D. pose proof (proj1 (D1 u v) D) as [Dc Lx]. apply evaluate_same; auto; try apply Dc; try apply D.
      intros f Cf. rewrite <- T by (auto; apply Dc). rewrite !tensor_spl. rewrite B1, B2, B3, B4, B5, B6, B7, F1, F2, F3, F4, F5, F6.
      replace (nu + r - 1)%Z with (nu - 1 + r)%Z by lia. rewrite <- S1 by (auto; apply Dc).
      replace (d + 1 - 1)%Z with d by lia. apply spl_ext. intros i Hi. apply spl_ext. intros j Hj.
      unfold entry, slice_to. rewrite atZ_firstn by lia. auto.
    - intros u v D. pose proof (proj1 (D2 u v) D) as [Dc Lx]. apply evaluate_same; auto; try apply Dc; try apply D.
      intros f Cf. rewrite <- T by (auto; apply Dc). rewrite !tensor_spl. rewrite C1, C2, C3, C4, C5, C6, C7, F1, F2, F3, F4, F5, F6.
      replace (nu + r - 1)%Z with (nu - 1 + r)%Z by lia. rewrite <- S2; auto.
      2:{ replace (nu - 1 + 1)%Z with nu by lia. apply Dc. }
      replace (nu + r - d - 1)%Z with (nu - 1 + r - d)%Z by lia. apply spl_ext. intros i Hi. apply spl_ext. intros j Hj.
      unfold entry, slice_from. rewrite atZ_skipn by lia. do 3 f_equal. lia. }
  split. { rewrite B10, EI. cbn [fst snd]. replace (d + 1 + p)%Z with (d + p + 1)%Z by lia. now rewrite A1, A2. }
  split. { rewrite C10, EI. cbn [fst snd]. rewrite A3. replace (nu + r - d + p)%Z with (nu - 1 + r - d + p + 1)%Z by lia.
    rewrite A4. now replace (nu - 1 + p + 1)%Z with (nu + p)%Z by lia. }
  split; [exact MA|]. split; [rewrite <- Dd; auto|]. rewrite B4, C4. rewrite L1, L2. split; auto. do 3 f_equal. lia.
Qed.

Lemma split_v_raw s t tol junk : valid_surface s -> interval_current s -> (1 <= s_dv s)%Z -> 0 <= tol ->
  knot (s_kv s) 0 + tol < t -> t + tol < knot (s_kv s) (s_nv s + s_dv s) ->
  knot (s_kv s) (s_dv s) < t -> t < knot (s_kv s) (s_nv s) ->
  separated t (s_kv s) -> (multiplicity (s_kv s) t <= s_dv s)%Z ->
  exists s1 s2 span, split_surface_v s t tol junk = Ok (s1, s2) /\ cut_v s t s1 s2 /\
    s_int s1 = (fst (s_int s), (fst (snd (s_int s)), t)) /\ s_int s2 = (fst (s_int s), (t, snd (snd (s_int s)))) /\
    mult_at (s_kv s) t span (multiplicity (s_kv s) t) /\ (s_dv s <= span - multiplicity (s_kv s) t <= s_nv s - 1)%Z /\
    s_kv s1 = firstn (Z.to_nat (span - multiplicity (s_kv s) t + 1)) (s_kv s) ++ repeat t (Z.to_nat (s_dv s + 1)) /\
    s_kv s2 = repeat t (Z.to_nat (s_dv s + 1)) ++ skipn (Z.to_nat (span + 1)) (s_kv s).
Proof.
  intros V IC Hp1 Ht0 Hlo Hhi H1 H2 Sep Hm. pose proof V as [Sh [VU VV]].
  pose proof (interval_current_eq s V IC) as EI.
  set (nu := s_nu s) in *. set (nv := s_nv s) in *. set (p := s_dv s) in *.
  assert (H2' : t < knot (s_kv s) (nv - 1 + 1)) by (replace (nv - 1 + 1)%Z with nv by lia; auto).
  assert (Hhi' : t + tol < knot (s_kv s) (nv - 1 + p + 1)) by (replace (nv - 1 + p + 1)%Z with (nv + p)%Z by lia; auto).
  destruct (split_dir p (nv - 1) (s_kv s) t tol VV Hp1 Ht0 Hlo Hhi' H1 H2' Sep Hm)
    as [span [kv [d [E0 [FS0 [Dd [Hd [EM [E1 [E2 [VK [FS2 [KI [W1 [W2 [L1 [L2 [MA [A1 [A2 [A3 [A4 [A5 [A6 [A7 [A8 [S1 S2]]]]]]]]]]]]]]]]]]]]]]]]]]].
  set (m := multiplicity (s_kv s) t) in *. set (r := (p - m)%Z) in *.
  assert (Hr : (0 <= r)%Z) by (unfold r; lia).
  destruct (insert_v_raw s t r junk span kv m V Hr E1 E2 EM VK KI) as [tmp [ET [VT [F1 [F2 [F3 [F4 [F5 [F6 [F7 T]]]]]]]]]].
  fold nu nv p in F1, F5, F6, T.
  set (k1 := first_kv kv (d + p + 1) t) in *. set (k2 := second_kv kv (d + p + 1) p t) in *.
  pose proof VT as [ShT [VTU VTV]]. rewrite F5, F6 in ShT.
  assert (N1 : (span - p + 1 + r = d + 1)%Z) by lia.
  assert (Sh1 : shaped nu (d + 1) (map (fun row => slice_to row (d + 1)) (s_pts tmp))).
  { apply (shaped_map _ nu (nv + r)); auto. intros q Lq. unfold slice_to. rewrite lenZ_firstn; lia. }
  assert (Sh2 : shaped nu (nv + r - d) (map (fun row => slice_from row d) (s_pts tmp))).
  { apply (shaped_map _ nu (nv + r)); auto. intros q Lq. unfold slice_from. rewrite lenZ_skipn; lia. }
  destruct (update_surface_ok nu (d + 1) _ (s_du s) p (s_ku s) k1 Sh1) as [s1 [Q1 [B1 [B2 [B3 [B4 [B5 [B6 [B7 [B8 [B9 B10]]]]]]]]]]]; auto.
  { now replace (d + 1 - 1)%Z with d by lia. }
  destruct (update_surface_ok nu (nv + r - d) _ (s_du s) p (s_ku s) k2 Sh2) as [s2 [Q2 [C1 [C2 [C3 [C4 [C5 [C6 [C7 [C8 [C9 C10]]]]]]]]]]]; auto.
  { now replace (nv + r - d - 1)%Z with (nv - 1 + r - d)%Z by lia. }
  exists s1, s2, span. split.
  { unfold split_surface_v. rewrite EI. cbn [snd]. replace (nv + p)%Z with (nv - 1 + p + 1)%Z by lia. rewrite E0.
    fold nv p. replace (nv - 1 + 1)%Z with nv in FS0 by lia. rewrite FS0. cbn [bind]. rewrite EM. cbn [bind]. fold r. rewrite ET. cbn [bind].
    rewrite F6, F4. replace (nv + r)%Z with (nv - 1 + r + 1)%Z by lia. rewrite FS2. cbn [bind].
    rewrite N1. replace (d + 1 - 1)%Z with d by lia. rewrite !new_surface_some. fold k1 k2. rewrite Q1. cbn [bind]. rewrite Q2. reflexivity. }
  assert (DV1 : forall u, dom_v s1 u <-> dom_v s u /\ u <= t).
  { intro u. unfold dom_v. rewrite B3, B5, B7. fold p nv. rewrite A5, A6 by lia.
    split; [intros [X Y]|intros [[X Y] Z']]; repeat split; auto; qlra. }
  assert (DV2 : forall u, dom_v s2 u <-> dom_v s u /\ t <= u).
  { intro u. unfold dom_v. rewrite C3, C5, C7. fold p nv. rewrite A7 by lia. rewrite A8 by lia.
    replace (nv + r - d - r + d)%Z with nv by lia.
    split; [intros [X Y]|intros [[X Y] Z']]; repeat split; auto; qlra. }
  assert (DU1 : forall v, dom_u s1 v <-> dom_u s v) by (intro v; unfold dom_u; rewrite B2, B4, B6; fold nu; tauto).
  assert (DU2 : forall v, dom_u s2 v <-> dom_u s v) by (intro v; unfold dom_u; rewrite C2, C4, C6; fold nu; tauto).
  assert (D1 : forall u v, in_dom s1 u v <-> in_dom s u v /\ v <= t) by (intros; unfold in_dom; rewrite DU1, DV1; tauto).
  assert (D2 : forall u v, in_dom s2 u v <-> in_dom s u v /\ t <= v) by (intros; unfold in_dom; rewrite DU2, DV2; tauto).
  split.
  { unfold cut_v. fold p nu. repeat (split; [solve [auto]|]). split.
    - intros u v D. pose proof (proj1 (D1 u v) D) as [Dc Lx]. apply evaluate_same; auto; try apply Dc; try apply D.
      intros f Cf. rewrite <- T by (auto; apply Dc). rewrite !tensor_spl2. rewrite B1, B2, B3, B4, B5, B6, B7, F1, F2, F3, F4, F5, F6.
      replace (nv + r - 1)%Z with (nv - 1 + r)%Z by lia. rewrite <- S1 by (auto; apply Dc).
      replace (d + 1 - 1)%Z with d by lia. apply spl_ext. intros j Hj. apply spl_ext. intros i Hi.
      destruct ShT as [LT _]. unfold entry. rewrite (atZ_map_in (fun row => slice_to row (d + 1)) []) by lia. unfold slice_to. rewrite atZ_firstn by lia. auto.
    - intros u v D. pose proof (proj1 (D2 u v) D) as [Dc Lx]. apply evaluate_same; auto; try apply Dc; try apply D.
      intros f Cf. rewrite <- T by (auto; apply Dc). rewrite !tensor_spl2. rewrite C1, C2, C3, C4, C5, C6, C7, F1, F2, F3, F4, F5, F6.
      replace (nv + r - 1)%Z with (nv - 1 + r)%Z by lia. rewrite <- S2; auto.
      2:{ replace (nv - 1 + 1)%Z with nv by lia. apply Dc. }
      replace (nv + r - d - 1)%Z with (nv - 1 + r - d)%Z by lia. apply spl_ext. intros j Hj. apply spl_ext. intros i Hi.
      destruct ShT as [LT _]. unfold entry. rewrite (atZ_map_in (fun row => slice_from row d) []) by lia. unfold slice_from. rewrite atZ_skipn by lia. do 2 f_equal. lia. }
  split. { rewrite B10, EI. cbn [fst snd]. replace (d + 1 + p)%Z with (d + p + 1)%Z by lia. now rewrite A1, A2. }
  split. { rewrite C10, EI. cbn [fst snd]. rewrite A3. replace (nv + r - d + p)%Z with (nv - 1 + r - d + p + 1)%Z by lia.
    rewrite A4. now replace (nv - 1 + p + 1)%Z with (nv + p)%Z by lia. }
  split; [exact MA|]. split; [rewrite <- Dd; auto|]. rewrite B5, C5. rewrite L1, L2. split; auto. do 3 f_equal. lia.
Qed.
