(* One direction of a surface: inserting and splitting at a knot. *)
From Coq Require Import List ZArith Lia Bool QArith Qcanon.
From Verif Require Import Common ListLib QcLib ArrZ SplineTheory SplineTheory2 NurbsModel NurbsSpec NurbsProofs NurbsProofs2 NurbsProofs3 NurbsEditModel NurbsEditSpec NurbsInsert NurbsEditProofs NurbsEditProofs2 NurbsSplit SurfModel SurfSpec SurfProofs1.
Import ListNotations.
Local Open Scope Z_scope.
Local Open Scope Qc_scope.

Lemma spl_chain p n U u s g : valid_knots p n U -> span_of p n U u s ->
  spl U n p u g = chain (knot U) s (repeat u (Z.to_nat p)) g.
Proof. intros. apply cdb_sum_chain; auto. Qed.

(* ---- pieces ------------------------------------------------------------ *)
Section Pieces2.
Variables (p n d : Z) (V : list Qc) (t : Qc).
Hypothesis (VV : valid_knots p n V) (Hp1 : (1 <= p)%Z).
Hypothesis (Hd : (p <= d)%Z) (Hdn : (d + p <= n)%Z).
Hypothesis (Kt : forall i, (d < i <= d + p)%Z -> knot V i = t).
Hypothesis (Klo : knot V d < t) (Khi : t < knot V (d + p + 1)).

Let V1 : valid_knots p d (piece1_knots p d V t) := piece1_valid p n d V t VV Hp1 Hd Hdn Kt Klo.
Let V2 : valid_knots p (n - d) (piece2_knots p d V t) := piece2_valid p n d V t VV Hp1 Hd Hdn Kt.

Lemma piece1_spl x g : knot V p <= x -> x <= t ->
  spl (piece1_knots p d V t) d p x g = spl V n p x g.
Proof.
  intros H1 H2. pose proof VV as [Hp [L [M N]]].
  assert (P1 : forall i, (0 <= i <= d + p)%Z -> knot (piece1_knots p d V t) i = knot V i) by (intros; apply (piece1_at p n); auto).
  destruct (find_span_span_of p n V x VV H1) as [s [_ S]].
  assert (G1 : knot (piece1_knots p d V t) p <= x) by (rewrite P1 by lia; auto).
  destruct (find_span_span_of p d _ x V1 G1) as [z [_ Z']].
  rewrite (spl_chain p n V x s) by auto. rewrite (spl_chain p d _ x z) by auto.
  pose proof S as [Hs [S1 S2]]. pose proof Z' as [Hz [Z1 Z2]].
  rewrite P1 in Z1, Z2 by lia. rewrite (Kt (d + 1)) in Z1, Z2 by lia.
  assert (Lt : x < knot V (n + 1)). { assert (knot V (d + p + 1) <= knot V (n + 1)) by (apply M; lia). qlra. }
  destruct (S1 Lt) as [A B].
  destruct (Qclt_le_dec x t) as [Lx|Gx].
  - destruct (Z1 Lx) as [A' B']. rewrite P1 in A', B' by lia.
    assert (z = s).
    { destruct (Z_lt_le_dec s z). { assert (knot V (s + 1) <= knot V z) by (apply M; lia). qlra. }
      destruct (Z_lt_le_dec z s). { assert (knot V (z + 1) <= knot V s) by (apply M; lia). qlra. } lia. }
    subst z. apply chain_ext2; rewrite repeat_length; auto.
    intros i Hi. apply P1. lia.
  - assert (x = t) by (apply Qcle_antisym; auto). subst x.
    rewrite (value_at_t p n d V t) by auto.
    rewrite Z2 by auto. rewrite <- (kn_rep_t p d t Hp1 (piece1_knots p d V t)).
    2:{ intros i Hi. rewrite P1 by lia. apply Kt. lia. }
    rewrite chain_dual; auto.
    { apply (span_ndg p d _ t); [apply V1|]. rewrite (Z2 Gx) in Z'. exact Z'. }
    lia.
Qed.

Lemma piece2_spl x g : t <= x -> x <= knot V (n + 1) ->
  spl (piece2_knots p d V t) (n - d) p x (fun i => g (i + d)%Z) = spl V n p x g.
Proof.
  clearbody V1 V2. intros H1 H2. pose proof VV as [Hp [L [M N]]].
  assert (P2 : forall i, (1 <= i <= n - d + p + 1)%Z -> knot (piece2_knots p d V t) i = knot V (i + d)) by (intros; apply (piece2_at p n); auto).
  assert (G0 : knot V p <= x). { assert (knot V p <= knot V d) by (apply M; lia). qlra. }
  destruct (find_span_span_of p n V x VV G0) as [s [_ S]].
  assert (G1 : knot (piece2_knots p d V t) p <= x). { rewrite P2 by lia. rewrite Kt by lia. auto. }
  destruct (find_span_span_of p (n - d) _ x V2 G1) as [z [_ Z']].
  rewrite (spl_chain p n V x s) by auto. rewrite (spl_chain p (n - d) _ x z) by auto.
  pose proof S as [Hs [S1 S2]]. pose proof Z' as [Hz [Z1 Z2]].
  assert (s = z + d)%Z.
  { rewrite P2 in Z1, Z2 by lia. replace (n - d + 1 + d)%Z with (n + 1)%Z in Z1, Z2 by lia.
    destruct (Qclt_le_dec x (knot V (n + 1))) as [Lt|Ge].
    - destruct (S1 Lt) as [A B]. destruct (Z1 Lt) as [A' B']. rewrite P2 in A', B' by lia.
      replace (z + 1 + d)%Z with (z + d + 1)%Z in B' by lia.
      destruct (Z_lt_le_dec s (z + d)). { assert (knot V (s + 1) <= knot V (z + d)) by (apply M; lia). qlra. }
      destruct (Z_lt_le_dec (z + d) s). { assert (knot V (z + d + 1) <= knot V s) by (apply M; lia). qlra. } lia.
    - rewrite (S2 Ge). pose proof (Z2 Ge). lia. }
  subst s. rewrite chain_shift. apply chain_ext2; rewrite repeat_length; auto.
  intros i Hi. rewrite P2 by lia. reflexivity.
Qed.
End Pieces2.

(* ---- insertion --------------------------------------------------------- *)
Lemma insert_dir p n U t count : valid_knots p n U -> knot U p <= t -> t < knot U (n + 1) ->
  separated t U -> (0 <= count)%Z -> (count + multiplicity U t <= p)%Z ->
  exists span kv, find_span n p t U false = Ok span /\ knot_insertion_kv U t span count = Ok kv /\
    find_multiplicity t U = Ok (multiplicity U t) /\
    valid_knots p (n + count) kv /\ (p <= span <= n)%Z /\
    mult_at U t span (multiplicity U t) /\ kv_after U t span count kv /\
    (forall P junk, lenZ P = (n + 1)%Z -> lenZ junk = (n + 1 + count)%Z ->
       exists R, knot_insertion p U P t count (multiplicity U t) span junk = Ok R /\ lenZ R = (n + 1 + count)%Z /\
         (forall f x, coord f -> knot U p <= x ->
            spl kv (n + count) p x (fun i => f (ctrl R i)) = spl U n p x (fun i => f (ctrl P i)))).
Proof.
  intros V H1 H2 Sep Hc Hm. pose proof V as [Hp [LU [Mo NN]]].
  destruct (find_span_span_of p n U t V H1) as [span [E1 S]]. pose proof S as [Hs [S2 _]].
  destruct (S2 H2) as [T1 T2].
  destruct (find_multiplicity_ok U t span Mo ltac:(lia) ltac:(lia) T1 T2 Sep) as [s [E2 M]].
  rewrite (find_multiplicity_count t U Sep) in E2. inversion E2. subst s. clear E2.
  destruct (knot_insertion_kv_ok U t span count Hc ltac:(lia)) as [kv [E3 KV]].
  exists span, kv. split; [auto|]. split; [auto|]. split; [apply find_multiplicity_count; auto|].
  split. { apply (kv_after_valid p n U t span count kv); auto. }
  split; [auto|]. split; [auto|]. split; [auto|].
  intros P junk LP LJ. pose proof M as [M0 _].
  destruct (knot_insertion_ok p n U P t count (multiplicity U t) span junk) as [R [E4 RA]]; auto; try lia. { qlra. }
  exists R. split; [auto|]. split. { destruct RA as [L _]. lia. }
  intros f x Cf Hx. unfold spl. eapply insertion_keeps_coord; eauto.
Qed.

(* ---- splitting ---------------------------------------------------------- *)
(* the knot vectors of the two halves, and where the cut is *)
Lemma split_dir p n U t tol : valid_knots p n U -> (1 <= p)%Z -> 0 <= tol ->
  knot U 0 + tol < t -> t + tol < knot U (n + p + 1) ->
  knot U p < t -> t < knot U (n + 1) -> separated t U -> (multiplicity U t <= p)%Z ->
  let m := multiplicity U t in let r := (p - m)%Z in
  exists span kv d, at_edge t tol (knot U 0, knot U (n + p + 1)) = false /\
    find_span (n + 1) p t U false = Ok span /\ (d = span - m)%Z /\ (p <= d <= n)%Z /\
    find_multiplicity t U = Ok m /\
    find_span n p t U false = Ok span /\ knot_insertion_kv U t span r = Ok kv /\
    valid_knots p (n + r) kv /\
    find_span (n + r + 1) p t kv false = Ok (d + p)%Z /\
    (forall P junk, lenZ P = (n + 1)%Z -> lenZ junk = (n + 1 + r)%Z ->
       exists R, knot_insertion p U P t r m span junk = Ok R /\ lenZ R = (n + 1 + r)%Z /\
         (forall f x, coord f -> knot U p <= x ->
            spl kv (n + r) p x (fun i => f (ctrl R i)) = spl U n p x (fun i => f (ctrl P i)))) /\
    (let k1 := first_kv kv (d + p + 1) t in let k2 := second_kv kv (d + p + 1) p t in
     valid_knots p d k1 /\ valid_knots p (n + r - d) k2 /\
     k1 = firstn (Z.to_nat (d + 1)) U ++ repeat t (Z.to_nat (p + 1)) /\
     k2 = repeat t (Z.to_nat (p + 1)) ++ skipn (Z.to_nat (span + 1)) U /\
     mult_at U t span m /\
     knot k1 0 = knot U 0 /\ knot k1 (d + p + 1) = t /\ knot k2 0 = t /\ knot k2 (n + r - d + p + 1) = knot U (n + p + 1) /\
     (forall i, (0 <= i <= p)%Z -> knot k1 i = knot U i) /\ (forall i, (d + 1 <= i <= d + p + 1)%Z -> knot k1 i = t) /\
     (forall i, (0 <= i <= p)%Z -> knot k2 i = t) /\
     (forall i, (n + r - d + 1 <= i <= n + r - d + p + 1)%Z -> knot k2 i = knot U (i - r + d)) /\
     (forall x g, knot U p <= x -> x <= t -> spl k1 d p x g = spl kv (n + r) p x g) /\
     (forall x g, t <= x -> x <= knot U (n + 1) -> spl k2 (n + r - d) p x (fun i => g (i + d)%Z) = spl kv (n + r) p x g)).
Proof.
  intros V Hp1 Ht0 Hlo Hhi H1 H2 Sep Hm m r. pose proof V as [Hp [LU [Mo NN]]].
  assert (Hm0 : (0 <= m)%Z) by (unfold m, multiplicity; lia).
  assert (H1' : knot U p <= t) by qlra.
  destruct (insert_dir p n U t r V H1' H2 Sep) as [span [kv [E1 [E2 [E3 [VK [Hs [M [KV KI]]]]]]]]]; unfold r; fold m; try lia.
  pose proof M as [M0 [M1 [M2 M3]]]. pose proof KV as [LV [KA [KB KC]]]. fold m in M0, M1, M2, M3. fold r in KV, LV, KA, KB, KC.
  assert (T1 : knot U span <= t).
  { destruct (Z_le_dec m 0). apply Qclt_le_weak, M2; lia. rewrite M1 by lia. apply Qcle_refl. }
  assert (T2 : t < knot U (span + 1)) by (apply M3; lia).
  assert (Hd : (p <= span - m)%Z).
  { destruct (Z_le_dec p (span - m)); auto. assert (knot U p = t) by (apply M1; lia). rewrite H in H1. qlra. }
  set (d := (span - m)%Z) in *. fold r in VK.
  assert (Kt : forall i, (d < i <= d + p)%Z -> knot kv i = t).
  { intros i Hi. destruct (Z_le_dec i span). rewrite KA by lia. apply M1; lia. apply KB; lia. }
  assert (Klo : knot kv d < t). { rewrite KA by lia. apply M2; lia. }
  assert (Khi : t < knot kv (d + p + 1)).
  { rewrite KC by lia. replace (d + p + 1 - r)%Z with (span + 1)%Z by lia. auto. }
  assert (Hdn : (d + p <= n + r)%Z) by lia.
  assert (Lt' : t < knot kv (n + r + 1)).
  { rewrite KC by lia. replace (n + r + 1 - r)%Z with (n + 1)%Z by lia. auto. }
  exists span, kv, d.
  split. { unfold at_edge. cbn [fst snd]. apply split_guard; auto. }
  split. { apply find_span_over; auto. }
  split; [auto|]. split; [lia|]. split; [auto|]. split; [auto|]. split; [auto|]. split; [auto|].
  split. { apply find_span_over; auto; try lia.
    - rewrite KA by lia. auto.
    - rewrite Kt by lia. apply Qcle_refl. }
  split; [exact KI|].
  cbv zeta. change (first_kv kv (d + p + 1) t) with (piece1_knots p d kv t).
  change (second_kv kv (d + p + 1) p t) with (piece2_knots p d kv t).
  assert (P1 : forall i, (0 <= i <= d + p)%Z -> knot (piece1_knots p d kv t) i = knot kv i) by (intros; apply (piece1_at p (n + r)); auto).
  assert (P2 : forall i, (1 <= i <= n + r - d + p + 1)%Z -> knot (piece2_knots p d kv t) i = knot kv (i + d)) by (intros; apply (piece2_at p (n + r)); auto).
  assert (PL : knot (piece1_knots p d kv t) (d + p + 1) = t) by (apply (piece1_last p (n + r)); auto).
  assert (P0 : knot (piece2_knots p d kv t) 0 = t) by (apply (piece2_first p (n + r)); auto).
  assert (PV1 : valid_knots p d (piece1_knots p d kv t)) by (eapply piece1_valid; eauto).
  assert (PV2 : valid_knots p (n + r - d) (piece2_knots p d kv t)) by (eapply piece2_valid; eauto).
  split; [auto|]. split; [auto|].
  split. { apply (list_ext_atZ 0).
    - destruct PV1 as [_ [L1 _]]. unfold lenZ in *. rewrite app_length, firstn_length, repeat_length. lia.
    - intros i Hi. destruct PV1 as [_ [L1 _]]. fold (lenZ (piece1_knots p d kv t)) in Hi.
      destruct (Z_le_dec i d).
      + rewrite atZ_app1 by (rewrite lenZ_firstn by lia; lia). rewrite atZ_firstn by lia. fold (knot (piece1_knots p d kv t) i).
        rewrite P1 by lia. apply KA; lia.
      + rewrite atZ_app2 by (rewrite lenZ_firstn by lia; lia). rewrite lenZ_firstn by lia.
        rewrite atZ_repeat_in by lia. fold (knot (piece1_knots p d kv t) i).
        destruct (Z.eq_dec i (d + p + 1)) as [->|]; auto. rewrite P1 by lia. apply Kt; lia. }
  split. { apply (list_ext_atZ 0).
    - destruct PV2 as [_ [L1 _]]. unfold lenZ in *. rewrite app_length, skipn_length, repeat_length. lia.
    - intros i Hi. destruct PV2 as [_ [L1 _]]. fold (lenZ (piece2_knots p d kv t)) in Hi.
      destruct (Z_le_dec i p).
      + rewrite atZ_app1 by (rewrite lenZ_repeat; lia). rewrite atZ_repeat_in by lia. fold (knot (piece2_knots p d kv t) i).
        destruct (Z.eq_dec i 0) as [->|]; auto. rewrite P2 by lia. apply Kt; lia.
      + rewrite atZ_app2 by (rewrite lenZ_repeat; lia). rewrite lenZ_repeat. rewrite atZ_skipn by lia.
        fold (knot (piece2_knots p d kv t) i). rewrite P2 by lia. rewrite KC by lia. unfold knot. f_equal. lia. }
  split; [auto|].
  split. { rewrite P1 by lia. apply KA; lia. }
  split; [auto|]. split; [auto|].
  split. { rewrite P2 by lia. rewrite KC by lia. f_equal. lia. }
  split. { intros i Hi. rewrite P1 by lia. apply KA; lia. }
  split. { intros i Hi. destruct (Z.eq_dec i (d + p + 1)) as [->|]; auto. rewrite P1 by lia. apply Kt; lia. }
  split. { intros i Hi. destruct (Z.eq_dec i 0) as [->|]; auto. rewrite P2 by lia. apply Kt; lia. }
  split. { intros i Hi. rewrite P2 by lia. rewrite KC by lia. f_equal. lia. }
  split.
  - intros x g X1 X2. eapply piece1_spl; eauto. rewrite KA by lia. auto.
  - intros x g X1 X2. eapply piece2_spl; eauto. rewrite KC by lia. match goal with |- _ <= knot U ?e => replace e with (n + 1)%Z by lia end. auto.
Qed.

(* ---- normalisation ------------------------------------------------------ *)
Lemma mapR_map {A B} (f : A -> B) (g : A -> res B) l : (forall x, In x l -> g x = Ok (f x)) -> mapR g l = Ok (map f l).
Proof.
  induction l as [|x l IH]; intro H; cbn [mapR map]; auto. rewrite H by (left; auto). cbn [bind].
  rewrite IH by (intros; apply H; right; auto). auto.
Qed.

Lemma normalize_dir p n U : valid_knots p n U ->
  let a := knot U 0 in let b := knot U (n + p + 1) in let h x := (x - a) / (b - a) in
  a < b /\ normalize_kv U = Ok (map h U) /\ valid_knots p n (map h U) /\
  knot (map h U) 0 = 0 /\ knot (map h U) (n + p + 1) = 1 /\
  (forall x y, x <= y -> h x <= h y) /\
  (forall x g, knot U p <= x -> spl (map h U) n p (h x) g = spl U n p x g).
Proof.
  intros V a b h. pose proof V as [Hp [LU [M N]]].
  assert (Hab : a < b).
  { assert (knot U 0 <= knot U n) by (apply M; lia). assert (knot U (n + 1) <= knot U (n + p + 1)) by (apply M; lia).
    unfold a, b. qlra. }
  assert (Hd : b - a <> 0) by (intro X; qlra).
  set (k := 1 / (b - a)). assert (Hk : 0 < k).
  { unfold k. apply qc_div_pos; [vm_compute; auto|qlra]. }
  assert (EF : forall x, h x = affine k a x) by (intro x; unfold h, affine, k; field; auto).
  assert (EM : map h U = map (affine k a) U) by (apply map_ext; auto).
  split; [auto|]. split.
  { unfold normalize_kv. rewrite !rd_knot by lia. cbn [bind]. rewrite LU. replace (n + p + 2 - 1)%Z with (n + p + 1)%Z by lia.
    fold a b. apply mapR_map. intros x _. rewrite divR_ok by auto. reflexivity. }
  split. { rewrite EM. apply affine_valid; auto. }
  split. { rewrite knot_map by lia. fold a. unfold h. field. auto. }
  split. { rewrite knot_map by lia. fold b. unfold h. field. auto. }
  split. { intros. rewrite !EF. apply affine_le; auto. }
  intros x g Hx. destruct (find_span_span_of p n U x V Hx) as [s [_ S]].
  rewrite EM, EF. rewrite (spl_chain p n U x s) by auto.
  rewrite (spl_chain p n _ _ s). { apply (affine_chain p n); auto. }
  { apply affine_valid; auto. } { apply affine_span; auto. }
Qed.
