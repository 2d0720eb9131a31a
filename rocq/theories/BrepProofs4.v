(* Proofs for boundary points and the terminator. *)
From Coq Require Import List ZArith Bool QArith Qcanon Lia Permutation.
From Verif Require Import Common QcLib ArrZ NurbsModel NurbsSpec SurfModel SurfSpec BrepModel BrepSpec BrepProofs2 BrepProofs3.
Import ListNotations.
Local Open Scope Z_scope.
Local Open Scope Qc_scope.

Lemma sqd_dist2 a b : sqd a b = dist2 a b. Proof. reflexivity. Qed.
Lemma sq_nonneg (x : Qc) : 0 <= x * x.
Proof. destruct (qle 0 x) eqn:E; [apply qle_true in E|apply qle_false in E]; qnra. Qed.
Lemma dist2_nonneg a b : 0 <= dist2 a b.
Proof.
  unfold dist2. pose proof (sq_nonneg (fst (fst a) - fst (fst b))). pose proof (sq_nonneg (snd (fst a) - snd (fst b))).
  pose proof (sq_nonneg (snd a - snd b)). qlra.
Qed.
Lemma sq_zero (x : Qc) : x * x = 0 -> x = 0.
Proof. intro H. apply Qcmult_integral in H. tauto. Qed.
Lemma dist2_zero a b : dist2 a b <= 0 -> a = b.
Proof.
  unfold dist2. intro H. pose proof (sq_nonneg (fst (fst a) - fst (fst b))). pose proof (sq_nonneg (snd (fst a) - snd (fst b))).
  pose proof (sq_nonneg (snd a - snd b)).
  assert (X : fst (fst a) - fst (fst b) = 0) by (apply sq_zero, Qcle_antisym; qlra).
  assert (Y : snd (fst a) - snd (fst b) = 0) by (apply sq_zero, Qcle_antisym; qlra).
  assert (Z : snd a - snd b = 0) by (apply sq_zero, Qcle_antisym; qlra).
  destruct a as [[x y] z], b as [[x' y'] z']. cbn in *. f_equal; [f_equal|]; qlra.
Qed.
Lemma dist2_self a : dist2 a a = 0.
Proof. unfold dist2. ring. Qed.
Lemma dist2_sym a b : dist2 a b = dist2 b a.
Proof. unfold dist2. ring. Qed.

(* ---- lists filtered in order ---- *)
Section Keep.
Context {A B : Type} (img : A -> B) (seen : A -> list B -> bool).
Definition keep (l : list A) (acc : list B) : list B := fold_left (fun acc p => if seen p acc then acc else acc ++ [img p]) l acc.
Lemma keep_ext l : forall acc, exists t, keep l acc = acc ++ t /\ subseq t (map img l).
Proof.
  unfold keep. induction l as [|p l IH]; intro acc; cbn [fold_left map].
  - exists []. split; [now rewrite app_nil_r|constructor].
  - destruct (seen p acc).
    + destruct (IH acc) as [t [E S]]. exists t. split; auto. now constructor.
    + destruct (IH (acc ++ [img p])) as [t [E S]]. exists (img p :: t). split; [rewrite E, <- app_assoc; reflexivity|now constructor].
Qed.
Lemma keep_all l : forall acc p, In p l -> (exists a, seen p a = true /\ (exists t, keep l acc = a ++ t)) \/ In (img p) (keep l acc).
Proof.
  unfold keep. induction l as [|q l IH]; intros acc p I; [destruct I|]. cbn [fold_left]. destruct I as [->|I].
  - destruct (seen p acc) eqn:E.
    + left. exists acc. split; auto. destruct (keep_ext l acc) as [t [K _]]. eauto.
    + right. destruct (keep_ext l (acc ++ [img p])) as [t [K _]]. unfold keep in K. rewrite K. apply in_or_app. left. apply in_or_app. cbn. auto.
  - now apply IH.
Qed.
Lemma keep_pairwise (R : B -> B -> Prop) l : (forall p acc x, seen p acc = false -> In x acc -> R x (img p)) ->
  forall acc, ForallOrdPairs R acc -> ForallOrdPairs R (keep l acc).
Proof.
  intro H. unfold keep. induction l as [|p l IH]; intros acc F; cbn [fold_left]; auto. destruct (seen p acc) eqn:E; auto. apply IH.
  assert (G : forall x, In x acc -> R x (img p)) by (intros; eapply H; eauto). clear - F G.
  induction F as [|a l Fa Fl IH]; cbn; [repeat constructor|]. constructor; [|apply IH; intros; apply G; now right].
  apply Forall_app. split; auto. constructor; auto. apply G. now left.
Qed.
End Keep.

Lemma unique_keep tol ps : unique_points tol ps = keep (fun p => p) (fun p acc => existsb (fun e => close tol (ip_point p) (ip_point e)) acc) ps [].
Proof. reflexivity. Qed.
Lemma close_iff tol a b : 0 < tol -> close tol a b = true <-> dist2 a b < tol * tol.
Proof. intro P. unfold close. apply qlt_true in P. rewrite P. cbn [andb]. rewrite qlt_true, sqd_dist2. tauto. Qed.
Lemma unique_spec tol ps : 0 < tol ->
  subseq (unique_points tol ps) ps /\
  pairwise (fun a b => tol * tol <= dist2 (ip_point a) (ip_point b)) (unique_points tol ps) /\
  forall p, In p ps -> exists e, In e (unique_points tol ps) /\ (p = e \/ dist2 (ip_point p) (ip_point e) < tol * tol).
Proof.
  intro P. rewrite unique_keep. set (seen := fun p acc => existsb (fun e => close tol (ip_point p) (ip_point e)) acc). split; [|split].
  - destruct (keep_ext (fun p => p) seen ps []) as [t [E S]]. rewrite E. cbn [app]. now rewrite map_id in S.
  - apply keep_pairwise; [|constructor]. intros p acc x E I. unfold seen in E. rewrite dist2_sym. apply Qcnot_lt_le. intro X.
    assert (Y : existsb (fun e => close tol (ip_point p) (ip_point e)) acc = true) by (apply existsb_exists; exists x; split; auto; now apply close_iff).
    congruence.
  - intros p I. destruct (keep_all (fun p => p) seen ps [] p I) as [[a [E [t K]]]|J]; [|exists p; auto].
    unfold seen in E. apply existsb_exists in E. destruct E as [e [Ie C]]. exists e. split; [rewrite K; apply in_or_app; auto|]. right. now apply (close_iff tol).
Qed.
Lemma unique_none tol ps : tol <= 0 -> unique_points tol ps = ps.
Proof.
  intro P. rewrite unique_keep. unfold keep. assert (C : forall a b, close tol a b = false).
  { intros a b. unfold close. assert (X : qlt 0 tol = false) by now apply qlt_false. now rewrite X. }
  assert (G : forall acc, fold_left (fun acc p => if existsb (fun e => close tol (ip_point p) (ip_point e)) acc then acc else acc ++ [p]) ps acc = acc ++ ps).
  { induction ps as [|p ps IH]; intro acc; cbn [fold_left]; [now rewrite app_nil_r|].
    assert (X : existsb (fun e => close tol (ip_point p) (ip_point e)) acc = false) by (clear - C; induction acc; cbn; rewrite ?C; auto).
    rewrite X, IH, <- app_assoc. reflexivity. }
  apply G.
Qed.

Lemma subseq_in {A} (l m : list A) : subseq l m -> forall x, In x l -> In x m.
Proof. induction 1; intros y I; auto; cbn in *; intuition. Qed.

(* ---- hits ---- *)
Lemma in_combine_seq {A} (l : list A) : forall n i x, In (i, x) (combine (seq n (length l)) l) -> nth_error l (i - n) = Some x /\ (n <= i)%nat.
Proof.
  induction l as [|y l IH]; intros n i x I; cbn in I; [destruct I|]. destruct I as [E|I].
  - injection E as <- <-. rewrite Nat.sub_diag. auto.
  - destruct (IH _ _ _ I) as [E L]. split; [|lia]. replace (i - n)%nat with (S (i - S n)) by lia. auto.
Qed.
Lemma hits_in csx first iv bs p : In p (boundary_hits csx first iv bs) ->
  exists i c x, nth_error bs i = Some c /\ In x (csx c) /\ p = mkip (fst (fst x)) (snd (fst x)) (snd x) (Z.of_nat i) first iv.
Proof.
  unfold boundary_hits. intro I. apply in_concat in I. destruct I as [l [I1 I2]]. apply in_map_iff in I1. destruct I1 as [[i c] [<- I1]].
  apply in_map_iff in I2. destruct I2 as [x [<- I2]]. destruct (in_combine_seq _ _ _ _ I1) as [E _]. rewrite Nat.sub_0_r in E. exists i, c, x. auto.
Qed.
Lemma in_seq_combine {A} (l : list A) : forall n i x, nth_error l i = Some x -> In ((n + i)%nat, x) (combine (seq n (length l)) l).
Proof.
  induction l as [|y l IH]; intros n [|i] x E; cbn in *; try discriminate.
  - injection E as ->. left. f_equal. lia.
  - right. replace (n + S i)%nat with (S n + i)%nat by lia. auto.
Qed.
Lemma in_hits csx first iv bs i c x : nth_error bs i = Some c -> In x (csx c) ->
  In (mkip (fst (fst x)) (snd (fst x)) (snd x) (Z.of_nat i) first iv) (boundary_hits csx first iv bs).
Proof.
  intros E I. unfold boundary_hits. apply in_concat. eexists. split; [apply in_map_iff; exists (i, c); split; [reflexivity|]; exact (in_seq_combine bs 0 i c E)|].
  apply in_map_iff. exists x. auto.
Qed.

Lemma found_points csx s1 s2 tol ps : sound csx -> regular s1 -> regular s2 -> weight_all s1 1 -> weight_all s2 1 ->
  find_boundary_intersections csx s1 s2 tol = Ok ps -> forall p, In p ps ->
  evaluate_surface s1 (fst (params1 p)) (snd (params1 p)) = Ok (ip_point p) /\
  evaluate_surface s2 (fst (params2 p)) (snd (params2 p)) = Ok (ip_point p) /\
  start_params p = (params1 p, params2 p) /\
  (if ip_first p then on_side (s_int s1) (ip_index p) (ip_param p) (params1 p) else on_side (s_int s2) (ip_index p) (ip_param p) (params2 p)).
Proof.
  intros So G1 G2 W1 W2 E p I. unfold find_boundary_intersections in E.
  destruct (surface_boundaries s1) as [b1|] eqn:B1; [|discriminate]. cbn [bind] in E. destruct (surface_boundaries s2) as [b2|] eqn:B2; [|discriminate]. cbn [bind] in E.
  injection E as <-.
  assert (J : In p (boundary_hits (fun c => csx c s2) true (s_int s1) b1 ++ boundary_hits (fun c => csx c s1) false (s_int s2) b2)).
  { destruct (Qclt_le_dec 0 tol) as [T|T]; [|now rewrite unique_none in I]. apply (subseq_in _ _ (proj1 (unique_spec tol _ T)) p I). }
  apply in_app_or in J. destruct J as [J|J]; apply hits_in in J; destruct J as [i [c [x [N [Ix ->]]]]];
    destruct (So _ _ _ Ix) as [T [V1 V2]]; unfold params1, params2, start_params; cbn [ip_first ip_index ip_param ip_int ip_uv ip_point].
  - destruct (boundary_params s1 b1 i c (snd (fst x)) (fst (fst x)) G1 W1 B1 N T V1) as [X [Y _]]. auto.
  - destruct (boundary_params s2 b2 i c (snd (fst x)) (fst (fst x)) G2 W2 B2 N T V1) as [X [Y _]]. auto.
Qed.
(* every hit is close to a point that is returned *)
Lemma found_all csx s1 s2 tol b1 b2 : 0 < tol -> surface_boundaries s1 = Ok b1 -> surface_boundaries s2 = Ok b2 ->
  exists ps, find_boundary_intersections csx s1 s2 tol = Ok ps /\
    pairwise (fun a b => tol * tol <= dist2 (ip_point a) (ip_point b)) ps /\
    (forall p, In p ps -> exists c s x, (In c b1 /\ s = s2 \/ In c b2 /\ s = s1) /\ In x (csx c s) /\ ip_point p = fst (fst x)) /\
    (forall c x, In c b1 -> In x (csx c s2) -> exists p, In p ps /\ (ip_point p = fst (fst x) \/ dist2 (fst (fst x)) (ip_point p) < tol * tol)) /\
    (forall c x, In c b2 -> In x (csx c s1) -> exists p, In p ps /\ (ip_point p = fst (fst x) \/ dist2 (fst (fst x)) (ip_point p) < tol * tol)).
Proof.
  intros T B1 B2. unfold find_boundary_intersections. rewrite B1. cbn [bind]. rewrite B2. cbn [bind]. eexists. split; [reflexivity|].
  set (hs := _ ++ _). destruct (unique_spec tol hs T) as [U1 [U2 U3]]. split; auto. split; [|split].
  - intros p I. apply (subseq_in _ _ U1) in I. apply in_app_or in I. destruct I as [I|I]; apply hits_in in I; destruct I as [i [c [x [N [Ix ->]]]]];
      apply nth_error_In in N; [exists c, s2, x|exists c, s1, x]; auto.
  - intros c x Ic Ix. apply In_nth_error in Ic. destruct Ic as [i N].
    assert (J : In (mkip (fst (fst x)) (snd (fst x)) (snd x) (Z.of_nat i) true (s_int s1)) hs) by (apply in_or_app; left; eapply in_hits; eauto).
    destruct (U3 _ J) as [e [Ie [<-|D]]]; [eexists; split; [exact Ie|]; auto|exists e; auto].
  - intros c x Ic Ix. apply In_nth_error in Ic. destruct Ic as [i N].
    assert (J : In (mkip (fst (fst x)) (snd (fst x)) (snd x) (Z.of_nat i) false (s_int s2)) hs) by (apply in_or_app; right; eapply in_hits; eauto).
    destruct (U3 _ J) as [e [Ie [<-|D]]]; [eexists; split; [exact Ie|]; auto|exists e; auto].
Qed.

(* ---- pairs ---- *)
Definition at_ (ps : list ipoint) (i : nat) : list ipoint := match nth_error ps i with Some p => [p] | None => [] end.
Lemma at_all ps : flat_map (at_ ps) (seq 0 (length ps)) = ps.
Proof.
  induction ps as [|p ps IH]; auto. cbn [length seq flat_map]. unfold at_ at 1. cbn [nth_error app]. f_equal.
  rewrite <- seq_shift, flat_map_concat_map, map_map. rewrite <- IH at 2. rewrite flat_map_concat_map. reflexivity.
Qed.
Lemma nearest_fold ps a l : forall best,
  (forall j d, best = Some (j, d) -> exists b, nth_error ps j = Some b /\ d = dist2 (ip_point a) (ip_point b)) ->
  Forall (fun i => (i < length ps)%nat) l ->
  match fold_left (fun best i => match nth_error ps i with
    | Some c => let d := sqd (ip_point a) (ip_point c) in match best with Some (_, m) => if qlt d m then Some (i, d) else best | None => Some (i, d) end
    | None => best end) l best with
  | None => best = None /\ l = []
  | Some (j, d) => (exists b, nth_error ps j = Some b /\ d = dist2 (ip_point a) (ip_point b)) /\
      (In j l \/ best = Some (j, d)) /\
      (forall k c, In k l -> nth_error ps k = Some c -> d <= dist2 (ip_point a) (ip_point c)) /\
      (forall i m, best = Some (i, m) -> d <= m)
  end.
Proof.
  induction l as [|i l IH]; intros best Hb Hl; cbn [fold_left].
  - destruct best as [[j d]|]; auto. split; [eauto|]. split; [auto|]. split; [intros k c []|]. intros i m E. injection E as <- <-. apply Qcle_refl.
  - inversion Hl as [|? ? Hi Hl']; subst. destruct (nth_error ps i) as [c|] eqn:N; [|apply nth_error_None in N; lia].
    set (d0 := sqd (ip_point a) (ip_point c)).
    set (best' := match best with Some (_, m) => if qlt d0 m then Some (i, d0) else best | None => Some (i, d0) end).
    assert (Hb' : forall j d, best' = Some (j, d) -> exists b, nth_error ps j = Some b /\ d = dist2 (ip_point a) (ip_point b)).
    { intros j d. unfold best'. destruct best as [[j0 m]|].
      - destruct (qlt d0 m). { intro X. injection X as <- <-. eauto. } apply Hb.
      - intro X. injection X as <- <-. eauto. }
    assert (Nn : best' <> None) by (unfold best'; destruct best as [[j0 m]|]; [destruct (qlt d0 m)|]; discriminate).
    specialize (IH best' Hb' Hl'). cbn zeta. fold d0. fold best'. destruct (fold_left _ l best') as [[j d]|]; [|tauto].
    destruct IH as [A [B [C D]]].
    assert (Dd : d <= d0 /\ forall i1 m, best = Some (i1, m) -> d <= m).
    { unfold best' in D. destruct best as [[j0 m]|].
      - destruct (qlt d0 m) eqn:Q; [apply qlt_true in Q|apply qlt_false in Q].
        + pose proof (D _ _ eq_refl). split; [auto|]. intros ? ? E. injection E as <- <-. qlra.
        + pose proof (D _ _ eq_refl). split; [qlra|]. intros ? ? E. injection E as <- <-. auto.
      - pose proof (D _ _ eq_refl). split; [auto|discriminate]. }
    destruct Dd as [D0 D1]. split; auto. split; [|split; auto].
    + destruct B as [B|B]; [left; now right|]. unfold best' in B. destruct best as [[j0 m]|].
      * destruct (qlt d0 m); [left; left; congruence|auto].
      * left; left; congruence.
    + intros k c' [<-|I] E; [|eapply C; eauto]. rewrite N in E. injection E as <-. exact D0.
Qed.
Lemma nearest_spec ps a l : Forall (fun i => (i < length ps)%nat) l ->
  match nearest ps a l with
  | None => l = []
  | Some (j, _) => In j l /\ exists b, nth_error ps j = Some b /\
      forall k c, In k l -> nth_error ps k = Some c -> dist2 (ip_point a) (ip_point b) <= dist2 (ip_point a) (ip_point c)
  end.
Proof.
  intro F. pose proof (nearest_fold ps a l None ltac:(discriminate) F) as H. unfold nearest.
  destruct (fold_left _ l None) as [[j d]|]; [|tauto]. destruct H as [[b [N ->]] [[I|X] [C _]]]; [|discriminate]. split; auto. exists b. auto.
Qed.
Lemma remove_perm j l : NoDup l -> In j l -> Permutation l (j :: remove Nat.eq_dec j l).
Proof.
  induction l as [|x l IH]; intros N I; [destruct I|]. inversion N as [|? ? N1 N2]; subst. cbn [remove]. destruct (Nat.eq_dec j x) as [->|D].
  - constructor. rewrite notin_remove; auto.
  - destruct I as [->|I]; [congruence|]. rewrite perm_swap. now constructor; apply IH.
Qed.
Lemma pair_loop_ok order ps fuel : walks order -> forall un, NoDup un -> Forall (fun i => (i < length ps)%nat) un -> (length un <= fuel)%nat ->
  exists ss, pair_loop order fuel ps un = Ok ss /\ Permutation (concat ss) (flat_map (at_ ps) un) /\ greedy ss.
Proof.
  intro W. induction fuel as [|f IH]; intros un N F L.
  - destruct un; [|cbn in L; lia]. cbn [pair_loop]. rewrite (Permutation_nil (Permutation_sym (W (2 * 0 + 1)%nat []))). exists []. repeat split. constructor.
  - cbn [pair_loop]. pose proof (W (2 * S f + 1)%nat un) as P. destruct (order (2 * S f + 1)%nat un) as [|i rest].
    { apply Permutation_nil in P. subst un. exists []. repeat split. constructor. }
    assert (N1 : NoDup (i :: rest)) by (eapply Permutation_NoDup; [apply Permutation_sym; exact P|auto]). inversion N1 as [|? ? N2 N3]; subst.
    assert (F1 : Forall (fun i => (i < length ps)%nat) (i :: rest)) by (eapply Permutation_Forall; [apply Permutation_sym; exact P|auto]).
    inversion F1 as [|? ? F2 F3]; subst.
    assert (L1 : length (i :: rest) = length un) by now apply Permutation_length. cbn [length] in L1.
    destruct (nth_error ps i) as [a|] eqn:A; [|apply nth_error_None in A; lia].
    pose proof (W (2 * S f)%nat rest) as P2.
    assert (F4 : Forall (fun i => (i < length ps)%nat) (order (2 * S f)%nat rest)) by (eapply Permutation_Forall; [apply Permutation_sym; exact P2|auto]).
    pose proof (nearest_spec ps a _ F4) as H. destruct (nearest ps a (order (2 * S f)%nat rest)) as [[j d]|].
    + destruct H as [Ij [b [B H]]]. rewrite B. assert (Ij' : In j rest) by (eapply Permutation_in; eauto).
      pose proof (remove_perm j rest N3 Ij') as P3. set (un' := remove Nat.eq_dec j rest) in *.
      assert (N4 : NoDup (j :: un')) by (eapply Permutation_NoDup; eauto). inversion N4; subst.
      assert (F5 : Forall (fun i => (i < length ps)%nat) (j :: un')) by (eapply Permutation_Forall; eauto). inversion F5; subst.
      assert (L3 : length rest = S (length un')) by (rewrite (Permutation_length P3); auto).
      destruct (IH un') as [ss [E [Pm G]]]; auto; [lia|]. rewrite E. cbn [bind]. exists ([a; b] :: ss). split; auto. split.
      * transitivity (flat_map (at_ ps) (i :: j :: un')).
        -- cbn [concat app flat_map]. unfold at_ at 1 2. rewrite A, B. cbn [app]. now repeat constructor.
        -- apply Permutation_flat_map. etransitivity; [|exact P]. constructor. now apply Permutation_sym.
      * cbn [greedy]. split; auto. intros c Ic. apply (Permutation_in _ Pm) in Ic. apply in_flat_map in Ic. destruct Ic as [k [Ik Ck]].
        unfold at_ in Ck. destruct (nth_error ps k) as [c'|] eqn:K; [|destruct Ck]. destruct Ck as [->|[]].
        apply (H k); auto. eapply Permutation_in; [apply Permutation_sym; exact P2|]. eapply Permutation_in; [apply Permutation_sym; exact P3|]. now right.
    + assert (R : rest = []) by (apply Permutation_nil; rewrite <- H; exact P2). subst rest.
      destruct (IH []) as [ss [E [Pm G]]]; [constructor|constructor|cbn; lia|]. rewrite E. cbn [bind]. exists ([a] :: ss). split; auto.
      assert (S0 : ss = []). { destruct f; cbn [pair_loop] in E; rewrite (Permutation_nil (Permutation_sym (W _ []))) in E; congruence. } subst ss.
      split; [|reflexivity]. transitivity (flat_map (at_ ps) [i]); [|now apply Permutation_flat_map]. cbn. unfold at_. rewrite A. auto.
Qed.
Lemma sort_spec order ps : walks order -> exists ss, sort_points order ps = Ok ss /\ Permutation (concat ss) ps /\ greedy ss.
Proof.
  intro W. unfold sort_points. destruct (pair_loop_ok order ps (length ps) W (seq 0 (length ps))) as [ss [E [P G]]].
  - apply seq_NoDup.
  - apply Forall_forall. intros i I. apply in_seq in I. lia.
  - now rewrite seq_length.
  - rewrite at_all in P. eauto.
Qed.
(* sequences have two points, except perhaps the last *)
Lemma greedy_lengths ss : greedy ss -> forall a b, ss = a ++ b -> b <> [] -> Forall (fun s => length s = 2%nat) a.
Proof.
  induction ss as [|s ss IH]; intros G a b E N. { destruct a; [constructor|discriminate]. }
  destruct a as [|x a]; [constructor|]. injection E as -> ->. cbn [greedy] in G.
  destruct x as [|p [|q [|]]]; try contradiction.
  - destruct a; [|discriminate]. destruct b; [congruence|discriminate].
  - constructor; auto. apply (IH (proj2 G) a b); auto.
Qed.

(* ---- terminator ---- *)
Lemma pop_order xyz : forall uv1 uv2 kd fuel, length uv1 = length xyz -> length uv2 = length xyz -> (length xyz <= fuel)%nat ->
  pop_all fuel (mkt xyz uv1 uv2 (lenZ xyz) kd) = Ok (zip3 xyz uv1 uv2).
Proof.
  induction xyz as [|x xyz IH]; intros uv1 uv2 kd fuel L1 L2 F.
  - destruct fuel; reflexivity.
  - destruct uv1 as [|a uv1]; [discriminate|]. destruct uv2 as [|b uv2]; [discriminate|]. destruct fuel as [|fuel]; [cbn in F; lia|].
    cbn [pop_all t_size]. assert (P : (0 <? lenZ (x :: xyz))%Z = true) by (apply Z.ltb_lt; unfold lenZ; cbn [length]; lia). rewrite P.
    cbn [term_pop t_xyz t_uv1 t_uv2 t_size bind fst snd].
    replace (lenZ (x :: xyz) - 1)%Z with (lenZ xyz) by (unfold lenZ; cbn [length]; lia).
    rewrite IH by (cbn in *; lia). reflexivity.
Qed.
Lemma pop_new xyz uv1 uv2 : length uv1 = length xyz -> length uv2 = length xyz ->
  pop_all (length xyz) (new_term xyz uv1 uv2) = Ok (zip3 xyz uv1 uv2).
Proof. intros. now apply pop_order. Qed.
Lemma del_keeps t key t' : term_del t key = Ok t' -> t_xyz t' = t_xyz t /\ t_uv1 t' = t_uv1 t /\ t_uv2 t' = t_uv2 t /\ t_size t' = (t_size t - 1)%Z.
Proof. unfold term_del. destruct (_ && _)%bool; [|discriminate]. intros [= <-]. auto. Qed.
Lemma index_of_in p l : In p l -> exists i, index_of p l = Some i /\ (i < length l)%nat.
Proof.
  intro I. destruct (index_of p l) as [i|] eqn:E; [|now apply index_of_none in E]. exists i. split; auto. apply nth_error_Some. apply index_of_some in E. congruence.
Qed.
Lemma remove_many t p : t_kd t = true -> In p (t_xyz t) ->
  term_remove t p = Ok (mkt (t_xyz t) (t_uv1 t) (t_uv2 t) (t_size t - 1) (1 <? t_size t - 1)%Z).
Proof.
  intros K I. unfold term_remove. rewrite K. cbn [negb andb]. destruct (index_of_in _ _ I) as [i [E L]]. rewrite E. unfold term_del.
  assert (X : ((- (2 * lenZ (t_xyz t)) <=? Z.of_nat i) && (Z.of_nat i <? 2 * lenZ (t_xyz t)))%Z = true).
  { apply andb_true_iff. rewrite Z.leb_le, Z.ltb_lt. unfold lenZ. lia. }
  now rewrite X.
Qed.
(* removing a point twice, from three points on *)
Lemma remove_twice xyz uv1 uv2 p : (3 <= lenZ xyz)%Z -> In p xyz -> exists t, removes (new_term xyz uv1 uv2) [p; p] = Ok t /\
  t_xyz t = xyz /\ t_size t = (lenZ xyz - 2)%Z.
Proof.
  intros L I. cbn [removes]. rewrite remove_many by auto. cbn [bind t_xyz t_uv1 t_uv2 t_size t_kd new_term].
  rewrite remove_many; cbn [t_xyz t_uv1 t_uv2 t_size t_kd]; auto. 2:{ apply Z.ltb_lt. lia. } cbn [bind]. eexists. split; [reflexivity|]. cbn. split; auto. lia.
Qed.
(* the removed point is still the closest one *)
Lemma removed_closest query xyz uv1 uv2 p : exact_query query -> (3 <= lenZ xyz)%Z -> length uv1 = length xyz -> length uv2 = length xyz -> In p xyz ->
  exists t a b, term_remove (new_term xyz uv1 uv2) p = Ok t /\ get_closest query t p = Ok (p, a, b).
Proof.
  intros Q L L1 L2 I. rewrite remove_many by auto. cbn [t_xyz t_uv1 t_uv2 t_size t_kd new_term].
  destruct (Q xyz p) as [x [E M]]; [intro X; subst; cbn in L; lia|].
  assert (x = p). { apply dist2_zero. pose proof (M p I) as H. now rewrite dist2_self in H. } subst x.
  assert (B : (query xyz p < length xyz)%nat) by (apply nth_error_Some; congruence).
  eexists. exists (nth (query xyz p) uv1 (0, 0)), (nth (query xyz p) uv2 (0, 0)). split; [reflexivity|]. unfold get_closest. cbn [t_kd t_xyz t_uv1 t_uv2].
  assert (X : (1 <? lenZ xyz - 1)%Z = true) by (apply Z.ltb_lt; lia). rewrite X.
  rewrite (rdZ_ok ((0, 0, 0) : tri)) by (unfold lenZ; lia). cbn [bind]. rewrite (rdZ_ok (0, 0)) by (unfold lenZ; lia). cbn [bind].
  rewrite (rdZ_ok (0, 0)) by (unfold lenZ; lia). cbn [bind]. unfold atZ. rewrite Nat2Z.id. rewrite (nth_error_nth _ _ _ E). reflexivity.
Qed.
(* two points: the second cannot be removed after the first *)
Lemma tol6_pos : 0 < tol6. Proof. reflexivity. Qed.
Lemma remove_pair a1 a2 b1 b2 p q : tol6 * tol6 <= dist2 p q ->
  removes (new_term [p; q] [a1; a2] [b1; b2]) [p; q] = Err ValueError /\
  exists t, removes (new_term [p; q] [a1; a2] [b1; b2]) [q; p] = Ok t /\ t_size t = 0%Z.
Proof.
  intro D.
  assert (E1 : term_remove (new_term [p; q] [a1; a2] [b1; b2]) p = Ok (mkt [p; q] [a1; a2] [b1; b2] 1 false)) by (rewrite remove_many by (cbn; auto); reflexivity).
  assert (E2 : term_remove (new_term [p; q] [a1; a2] [b1; b2]) q = Ok (mkt [p; q] [a1; a2] [b1; b2] 1 false)) by (rewrite remove_many by (cbn; auto); reflexivity).
  cbn [removes]. rewrite E1, E2. cbn [bind]. unfold term_remove. cbn [t_kd t_size t_xyz negb andb Z.eqb Pos.eqb].
  assert (C1 : close tol6 p q = false).
  { destruct (close tol6 p q) eqn:C; auto. apply (close_iff _ _ _ tol6_pos) in C. exfalso. exact (Qclt_not_le _ _ C D). }
  assert (C2 : close tol6 p p = true) by (apply (close_iff _ _ _ tol6_pos); rewrite dist2_self; reflexivity).
  rewrite C1, C2. split; auto. eexists. split; reflexivity.
Qed.

(* ---- the points kept for tracing ---- *)
Lemma uv_eqb_true a b : uv_eqb a b = true <-> a = b.
Proof.
  unfold uv_eqb. rewrite andb_true_iff, !qeq_true. destruct a as [x y], b as [x' y']; cbn. split; [intros [-> ->]; auto|].
  intro E. pose proof (f_equal fst E). pose proof (f_equal snd E). auto.
Qed.
Lemma keep_points_keep ps : keep_points ps = keep triple (fun p acc => existsb (fun e => tri_eqb (fst (fst e)) (ip_point p)) acc ||
  existsb (fun e => uv_eqb (snd (fst e)) (params1 p)) acc || existsb (fun e => uv_eqb (snd e) (params2 p)) acc)%bool ps [].
Proof. reflexivity. Qed.
Lemma keep_points_spec ps :
  subseq (keep_points ps) (map triple ps) /\
  pairwise (fun a b => fst (fst a) <> fst (fst b) /\ snd (fst a) <> snd (fst b) /\ snd a <> snd b) (keep_points ps) /\
  forall p, In p ps -> exists e, In e (keep_points ps) /\ (fst (fst e) = ip_point p \/ snd (fst e) = params1 p \/ snd e = params2 p).
Proof.
  rewrite keep_points_keep. set (seen := fun p acc => _). split; [|split].
  - destruct (keep_ext triple seen ps []) as [t [E S]]. now rewrite E.
  - apply keep_pairwise; [|constructor]. intros p acc x E I. unfold seen in E. apply orb_false_iff in E. destruct E as [E E3]. apply orb_false_iff in E. destruct E as [E1 E2].
    assert (X : forall (f : tri * (Qc * Qc) * (Qc * Qc) -> bool), existsb f acc = false -> f x = false).
    { intros f F. destruct (f x) eqn:Y; auto. assert (existsb f acc = true) by (apply existsb_exists; eauto). congruence. }
    apply X in E1, E2, E3. cbv beta in *. unfold triple. cbn [fst snd]. split; [|split]; intro Y.
    + apply tri_eqb_true in Y. congruence.
    + apply uv_eqb_true in Y. congruence.
    + apply uv_eqb_true in Y. congruence.
  - intros p I. destruct (keep_all triple seen ps [] p I) as [[a [E [t K]]]|J]; [|exists (triple p); split; auto].
    unfold seen in E. rewrite K. apply orb_prop in E. destruct E as [E|E]; [apply orb_prop in E; destruct E as [E|E]|];
      apply existsb_exists in E; destruct E as [e [Ie Ee]]; exists e; (split; [apply in_or_app; auto|]).
    + apply tri_eqb_true in Ee. auto.
    + apply uv_eqb_true in Ee. auto.
    + apply uv_eqb_true in Ee. auto.
Qed.
(* when the parameters belong to the points, no point is lost *)
Lemma keep_points_sound s1 s2 ps : (forall p, In p ps -> evaluate_surface s1 (fst (params1 p)) (snd (params1 p)) = Ok (ip_point p) /\
    evaluate_surface s2 (fst (params2 p)) (snd (params2 p)) = Ok (ip_point p)) ->
  forall p, In p ps -> exists e, In e (keep_points ps) /\ fst (fst e) = ip_point p /\
    evaluate_surface s1 (fst (snd (fst e))) (snd (snd (fst e))) = Ok (ip_point p) /\ evaluate_surface s2 (fst (snd e)) (snd (snd e)) = Ok (ip_point p).
Proof.
  intros H p I. destruct (keep_points_spec ps) as [S [_ K]]. destruct (K p I) as [e [Ie E]]. exists e. split; auto.
  apply (subseq_in _ _ S) in Ie. apply in_map_iff in Ie. destruct Ie as [q [<- Iq]]. destruct (H p I) as [P1 P2]. destruct (H q Iq) as [Q1 Q2].
  unfold triple in *. cbn [fst snd] in *. assert (X : ip_point q = ip_point p). { destruct E as [E|[E|E]]; [auto|rewrite E in Q1; congruence|rewrite E in Q2; congruence]. }
  rewrite <- X. auto.
Qed.
