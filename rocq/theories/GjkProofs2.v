(* Sizes, hulls and the Python version of the collision test. *)
From Coq Require Import List ZArith Lia Bool QArith Qcanon.
From Verif Require Import Common ListLib QcLib ArrZ SumLib NurbsModel DerModel PlnModel PlnSpec PlnProofs2 PlnProofs4 PlnProofs5 GjkModel GjkSpec GjkProofs1.
Import ListNotations.
Local Open Scope Z_scope.
Local Open Scope Qc_scope.

(* ---- hulls ---- *)
Lemma mul_cancel u a b : u <> 0 -> u * a = u * b -> a = b.
Proof.
  intros NZ H. assert (E : u * (a - b) = 0) by (replace (u * (a - b)) with (u * a - u * b) by ring; rewrite H; ring).
  apply Qcmult_integral in E. destruct E as [E|E]; [contradiction|]. replace a with (a - b + b) by ring. rewrite E. ring.
Qed.
Lemma pos_nz u : 0 < u -> u <> 0.
Proof. intros H K. rewrite K in H. qlra. Qed.

Lemma hull_weights P p q u w r : hull P p -> hull P q -> 0 <= u -> 0 <= w -> 0 < u + w ->
  (u + w) * vx r = u * vx p + w * vx q -> (u + w) * vy r = u * vy p + w * vy q -> (u + w) * vz r = u * vz p + w * vz q ->
  hull P r.
Proof.
  intros Hp Hq U W S X Y Z. pose proof (pos_nz _ S) as NZ.
  replace r with (along p (w / (u + w)) (minus3 q p)).
  - apply hull_between; auto; [now apply qc_div_nonneg|]. apply qc_div_le; auto. qlra.
  - unfold along, minus3. apply v3_ext; cbn [vx vy vz]; apply (mul_cancel (u + w)); auto; [rewrite X|rewrite Y|rewrite Z]; field; auto.
Qed.

Lemma hull_weights3 P p q s u w t r : hull P p -> hull P q -> hull P s -> 0 <= u -> 0 <= w -> 0 <= t -> 0 < u + w + t ->
  (u + w + t) * vx r = u * vx p + w * vx q + t * vx s ->
  (u + w + t) * vy r = u * vy p + w * vy q + t * vy s ->
  (u + w + t) * vz r = u * vz p + w * vz q + t * vz s -> hull P r.
Proof.
  intros Hp Hq Hs U W T S X Y Z.
  destruct (Qclt_le_dec 0 (u + w)) as [L|L].
  - pose proof (pos_nz _ L) as NZ.
    apply (hull_weights P (mkv ((u * vx p + w * vx q) / (u + w)) ((u * vy p + w * vy q) / (u + w)) ((u * vz p + w * vz q) / (u + w))) s (u + w) t); auto.
    + apply (hull_weights P p q u w); auto; cbn [vx vy vz]; field; auto.
    + qlra.
    + cbn [vx vy vz]. rewrite X. field; auto.
    + cbn [vx vy vz]. rewrite Y. field; auto.
    + cbn [vx vy vz]. rewrite Z. field; auto.
  - assert (u = 0) by qlra. assert (w = 0) by qlra. subst u w.
    apply (hull_weights P p s 0 t); auto; qlra.
Qed.

Lemma hull_weights4 P p q s e u w t z : hull P p -> hull P q -> hull P s -> hull P e -> 0 <= u -> 0 <= w -> 0 <= t -> 0 <= z ->
  0 < u + w + t + z ->
  u * vx p + w * vx q + t * vx s + z * vx e = 0 ->
  u * vy p + w * vy q + t * vy s + z * vy e = 0 ->
  u * vz p + w * vz q + t * vz s + z * vz e = 0 -> hull P zero3.
Proof.
  intros Hp Hq Hs He U W T Z S X Y Zz.
  destruct (Qclt_le_dec 0 (u + w + t)) as [L|L].
  - pose proof (pos_nz _ L) as NZ.
    apply (hull_weights P (mkv ((u * vx p + w * vx q + t * vx s) / (u + w + t)) ((u * vy p + w * vy q + t * vy s) / (u + w + t)) ((u * vz p + w * vz q + t * vz s) / (u + w + t))) e (u + w + t) z); auto.
    + apply (hull_weights3 P p q s u w t); auto; cbn [vx vy vz]; field; auto.
    + qlra.
    + unfold zero3. cbn [vx vy vz]. transitivity 0; [ring|]. rewrite <- X. field; auto.
    + unfold zero3. cbn [vx vy vz]. transitivity 0; [ring|]. rewrite <- Y. field; auto.
    + unfold zero3. cbn [vx vy vz]. transitivity 0; [ring|]. rewrite <- Zz. field; auto.
  - assert (u = 0) by qlra. assert (w = 0) by qlra. assert (t = 0) by qlra. subst u w t.
    apply (hull_weights P p e 0 z); auto; unfold zero3; cbn [vx vy vz]; qlra.
Qed.

(* the shapes meet when the differences surround the origin *)
Lemma hull_diffs A B z : hull (diffs A B) z -> exists x y, hull (fun p => In p A) x /\ hull (fun p => In p B) y /\ z = minus3 x y.
Proof.
  induction 1 as [p [a [b [Ha [Hb ->]]]]|p q t _ [x [y [Hx [Hy ->]]]] _ [x' [y' [Hx' [Hy' ->]]]] T0 T1].
  - exists a, b. split; [now constructor|]. split; [now constructor|reflexivity].
  - exists (along x t (minus3 x' x)), (along y t (minus3 y' y)). split; [now apply hull_between|]. split; [now apply hull_between|].
    unfold along, minus3. cbn [vx vy vz]. apply v3_ext; cbn [vx vy vz]; ring.
Qed.
Lemma hull_meet A B : hull (diffs A B) zero3 -> meet A B.
Proof.
  intro H. apply hull_diffs in H. destruct H as [x [y [Hx [Hy E]]]].
  apply v3_inv in E. unfold minus3, zero3 in E. cbn [vx vy vz] in E. destruct E as [E1 [E2 E3]].
  exists x. split; [exact Hx|]. replace x with y; [exact Hy|]. apply v3_ext; qlra.
Qed.
Lemma hull_dot (P : v3 -> Prop) x d c : (forall p, P p -> dot3 p d < c) -> hull P x -> dot3 x d < c.
Proof.
  intros H. induction 1 as [p Hp|p q t _ IHp _ IHq T0 T1]; [now apply H|].
  replace (dot3 (along p t (minus3 q p)) d) with ((1 - t) * dot3 p d + t * dot3 q d) by (unfold dot3, along, minus3; cbn [vx vy vz]; ring).
  destruct (Qclt_le_dec 0 t) as [L|L].
  - pose proof (qc_mul_pos t (c - dot3 q d) L ltac:(qlra)). pose proof (qc_mul_nonneg (1 - t) (c - dot3 p d) ltac:(qlra) ltac:(qlra)).
    assert (E : c - ((1 - t) * dot3 p d + t * dot3 q d) = (1 - t) * (c - dot3 p d) + t * (c - dot3 q d)) by ring. qlra.
  - assert (t = 0) by qlra. subst t. replace ((1 - 0) * dot3 p d + 0 * dot3 q d) with (dot3 p d) by ring. exact IHp.
Qed.
Lemma hull_dot_le (P : v3 -> Prop) x d c : (forall p, P p -> c <= dot3 p d) -> hull P x -> c <= dot3 x d.
Proof.
  intros H. induction 1 as [p Hp|p q t _ IHp _ IHq T0 T1]; [now apply H|].
  replace (dot3 (along p t (minus3 q p)) d) with ((1 - t) * dot3 p d + t * dot3 q d) by (unfold dot3, along, minus3; cbn [vx vy vz]; ring).
  pose proof (qc_mul_nonneg t (dot3 q d - c) T0 ltac:(qlra)). pose proof (qc_mul_nonneg (1 - t) (dot3 p d - c) ltac:(qlra) ltac:(qlra)).
  assert (E : ((1 - t) * dot3 p d + t * dot3 q d) - c = (1 - t) * (dot3 p d - c) + t * (dot3 q d - c)) by ring. qlra.
Qed.
Lemma hull_empty x : ~ hull (fun p => In p []) x.
Proof. induction 1; auto. Qed.
(* the least value of a list *)
Lemma least (B : list v3) d : B <> [] -> exists b, In b B /\ forall b', In b' B -> dot3 b d <= dot3 b' d.
Proof.
  induction B as [|b B IH]; [congruence|]. intros _. destruct B as [|b0 B].
  - exists b. split; [now left|]. intros b' [<-|[]]. qlra.
  - destruct IH as [m [Hm Lm]]; [discriminate|]. destruct (Qclt_le_dec (dot3 b d) (dot3 m d)) as [L|L].
    + exists b. split; [now left|]. intros b' [<-|Hb]; [qlra|]. specialize (Lm b' Hb). qlra.
    + exists m. split; [now right|]. intros b' [<-|Hb]; [exact L|now apply Lm].
Qed.
Lemma separated_apart A B : separated A B -> ~ meet A B.
Proof.
  intros [d H] [x [HA HB]]. destruct B as [|b0 B]; [now apply (hull_empty x)|].
  destruct (least (b0 :: B) d) as [b [Hb Lb]]; [discriminate|].
  assert (dot3 x d < dot3 b d) by (apply (hull_dot (fun p => In p A)); auto).
  assert (dot3 b d <= dot3 x d) by (apply (hull_dot_le (fun p => In p (b0 :: B))); auto). qlra.
Qed.

(* ---- sizes ---- *)
Definition sized (s : list v3) (d : v3) : Prop := (1 <= lenZ s <= 3)%Z.
Definition good (handle : list v3 -> v3 -> res (bool * list v3 * v3)) : Prop :=
  forall s d p, sized s d -> exists b s' d', handle (s ++ [p]) d = Ok (b, s', d') /\
    (b = false -> sized s' d' /\ (lenZ s' <= lenZ s + 1)%Z /\ incl s' (s ++ [p])) /\ (b = true -> lenZ s = 3%Z).

Lemma sized_cases s d : sized s d -> (exists a, s = [a]) \/ (exists b a, s = [b; a]) \/ (exists c b a, s = [c; b; a]).
Proof.
  unfold sized, lenZ. destruct s as [|a [|b [|c [|e s]]]]; cbn [length]; intro H; try lia; eauto 10.
Qed.
Ltac inc := intros ?z ?Hz; cbn [In app] in *; tauto.
Ltac fin3 := split; [reflexivity|split; [intros _; split; [unfold sized, lenZ; cbn [length]; lia|split; [unfold lenZ; cbn [length]; lia|inc]]|discriminate]].

Lemma handle_good tol : good (fun s d => handle_simplex s d tol).
Proof.
  intros s d p H. apply sized_cases in H. destruct H as [[a ->]|[[b [a ->]]|[c [b [a ->]]]]]; cbn [app].
  - cbn [handle_simplex]. unfold handle2. destruct (qlt tol _); cbn [fst snd]; eexists _, _, _; fin3.
  - cbn [handle_simplex]. unfold handle3. cbv zeta.
    destruct (qlt tol _); [destruct (qlt tol _); cbn [fst snd]; eexists _, _, _; fin3|].
    destruct (qlt tol _); [cbn [fst snd]; eexists _, _, _; fin3|].
    destruct (qlt tol _); cbn [fst snd]; eexists _, _, _; fin3.
  - cbn [handle_simplex]. unfold handle4. cbv zeta.
    destruct (qlt 0 _); [eexists _, _, _; fin3|]. destruct (qlt 0 _); [eexists _, _, _; fin3|].
    destruct (qlt 0 _); [eexists _, _, _; fin3|]. eexists _, _, _. split; [reflexivity|]. split; [discriminate|reflexivity].
Qed.

Lemma chandle2_size b a tol : (1 <= lenZ (fst (chandle2 b a tol)) <= 2)%Z /\ incl (fst (chandle2 b a tol)) [b; a].
Proof. unfold chandle2. cbv zeta. destruct (qlt tol _); cbn [fst]; (split; [unfold lenZ; cbn [length]; lia|inc]). Qed.
Lemma chandle3_size c b a tol : (1 <= lenZ (fst (chandle3 c b a tol)) <= 3)%Z /\ incl (fst (chandle3 c b a tol)) [c; b; a].
Proof.
  pose proof (chandle2_size b a tol) as [H1 H2]. assert (H3 : incl (fst (chandle2 b a tol)) [c; b; a]) by (intros z Hz; right; now apply H2).
  unfold chandle3. cbv zeta. destruct (qlt tol _); [destruct (qlt 0 _)|destruct (qlt tol _); [|destruct (qlt tol _)]];
    cbn [fst]; try (split; [lia|exact H3]); (split; [unfold lenZ; cbn [length]; lia|inc]).
Qed.
Lemma chandle_good tol : good (fun s d => chandle_simplex s d tol).
Proof.
  intros s d p H. apply sized_cases in H. destruct H as [[a ->]|[[b [a ->]]|[c [b [a ->]]]]]; cbn [app].
  - cbn [chandle_simplex]. eexists _, _, _. split; [reflexivity|]. split; [|discriminate]. intros _.
    pose proof (chandle2_size a p tol) as [H1 H2]. split; [unfold sized; lia|]. split; [unfold lenZ in *; cbn [length]; lia|exact H2].
  - cbn [chandle_simplex]. eexists _, _, _. split; [reflexivity|]. split; [|discriminate]. intros _.
    pose proof (chandle3_size b a p tol) as [H1 H2]. split; [unfold sized; lia|]. split; [unfold lenZ in *; cbn [length]; lia|exact H2].
  - cbn [chandle_simplex]. unfold chandle4. cbv zeta.
    pose proof (chandle3_size b a p tol) as [A1 A2]. pose proof (chandle3_size c a p tol) as [B1 B2]. pose proof (chandle3_size c b p tol) as [C1 C2].
    destruct (qlt 0 _); [|destruct (qlt 0 _); [|destruct (qlt 0 _)]]; eexists _, _, _; (split; [reflexivity|]).
    + split; [|discriminate]. intros _. split; [unfold sized; lia|]. split; [unfold lenZ in *; cbn [length]; lia|]. intros z Hz. apply A2 in Hz. cbn [In] in *. tauto.
    + split; [|discriminate]. intros _. split; [unfold sized; lia|]. split; [unfold lenZ in *; cbn [length]; lia|]. intros z Hz. apply B2 in Hz. cbn [In] in *. tauto.
    + split; [|discriminate]. intros _. split; [unfold sized; lia|]. split; [unfold lenZ in *; cbn [length]; lia|]. intros z Hz. apply C2 in Hz. cbn [In] in *. tauto.
    + split; [discriminate|reflexivity].
Qed.

(* the points held are differences of the shapes *)
Definition held (A B : list v3) (s : list v3) (d : v3) : Prop := sized s d /\ forall p, In p s -> diffs A B p.
Lemma good_step handle A B : good handle -> forall s d p, held A B s d -> diffs A B p -> (forall q, diffs A B q -> dot3 q d <= dot3 p d) ->
  exists b s' d', handle (s ++ [p]) d = Ok (b, s', d') /\ (0 <= dot3 p d -> b = false -> held A B s' d').
Proof.
  intros G s d p [H1 H2] Dp _. destruct (G s d p H1) as [b [s' [d' [E [F _]]]]]. exists b, s', d'. split; [exact E|].
  intros _ Hb. destruct (F Hb) as [F1 [_ F3]]. split; [exact F1|]. intros q Hq. apply F3, in_app_or in Hq. destruct Hq as [Hq|[<-|[]]]; auto.
Qed.

(* a yes needs three passes *)
Lemma loop_three sqrt handle A B tol : good handle -> forall n k m s d k', sized s d -> (lenZ s <= k + 1)%Z ->
  gjk_loop sqrt handle A B tol n k m s d = Ok (true, k') -> (3 <= k')%Z.
Proof.
  intros G. induction n as [|n IH]; intros k m s d k' H1 H2 H; [discriminate|].
  rewrite loop_S in H. cbv zeta in H.
  match type of H with (if ?f then _ else _) = _ => destruct f end; [discriminate|].
  destruct (qlt _ 0); [discriminate|].
  destruct (G s d (fst (support A B d)) H1) as [b [s' [d' [E [F1 F2]]]]]. rewrite E in H. cbn [bind fst snd] in H.
  destruct b.
  - injection H as <-. specialize (F2 eq_refl). lia.
  - destruct (F1 eq_refl) as [S1 [S2 _]]. eapply IH; [exact S1| |exact H]. lia.
Qed.

Lemma start_held A B d d' : A <> [] -> B <> [] -> held A B [fst (support A B d)] d'.
Proof.
  intros NA NB. destruct (support_ok A B d NA NB) as [p [i [j [a [b [Hs [Ra [Rb [Ep [Dp Mp]]]]]]]]]]. rewrite Hs. cbn [fst].
  split; [unfold sized, lenZ; cbn [length]; lia|]. intros q [<-|[]]. exact Dp.
Qed.
Lemma start_memo A B d : A <> [] -> B <> [] -> memo_ok A B [(snd (support A B d), fst (support A B d))].
Proof.
  intros NA NB. destruct (support_ok A B d NA NB) as [p [i [j [a [b [Hs [Ra [Rb [Ep [Dp Mp]]]]]]]]]]. rewrite Hs. cbn [fst snd].
  rewrite Ep. apply memo_add; auto. apply memo_nil.
Qed.

(* the test from its beginning *)
Definition run sqrt handle A B tol n : res (bool * Z) :=
  gjk_loop sqrt handle A B tol n 0 [(snd (support A B (mkv 1 0 0)), fst (support A B (mkv 1 0 0)))] [fst (support A B (mkv 1 0 0))]
    (vneg (fst (support A B (mkv 1 0 0)))).
Lemma gjk_run sqrt A B tol n : A <> [] -> B <> [] ->
  gjk_passes sqrt A B tol n = run sqrt (fun s d => handle_simplex s d tol) A B tol (Z.to_nat n).
Proof. destruct A; [congruence|]. destruct B; [congruence|]. reflexivity. Qed.
Definition passes (A B : list v3) (n : Z) : Z := if (n =? 0)%Z then (lenZ A * lenZ B)%Z else n.
Lemma cgjk_run sqrt A B tol n : A <> [] -> B <> [] ->
  cgjk_passes sqrt A B tol n = run sqrt (fun s d => chandle_simplex s d tol) A B tol (Z.to_nat (passes A B n)).
Proof. destruct A; [congruence|]. destruct B; [congruence|]. reflexivity. Qed.

Lemma run_total sqrt handle A B tol n : good handle -> A <> [] -> B <> [] -> exists b k, run sqrt handle A B tol n = Ok (b, k) /\
  (0 <= k <= Z.of_nat n)%Z /\ (b = true -> (3 <= k)%Z).
Proof.
  intros G NA NB.
  destruct (loop_total sqrt handle A B tol NA NB (held A B) (good_step handle A B G) n 0
    [(snd (support A B (mkv 1 0 0)), fst (support A B (mkv 1 0 0)))] [fst (support A B (mkv 1 0 0))] (vneg (fst (support A B (mkv 1 0 0)))))
    as [b [k [E [K _]]]]; [lia|now apply start_held|].
  exists b, k. split; [exact E|]. split; [lia|]. intros ->.
  eapply loop_three; [exact G| | |exact E]; [unfold sized, lenZ; cbn [length]; lia|unfold lenZ; cbn [length]; lia].
Qed.
Lemma run_false sqrt handle A B tol n k : good handle -> A <> [] -> B <> [] -> is_sqrt (sqrt 0) 0 -> 0 <= tol ->
  run sqrt handle A B tol n = Ok (false, k) -> k = Z.of_nat n \/ separated A B.
Proof.
  intros G NA NB SQ T H.
  destruct (loop_false sqrt handle A B tol NA NB (held A B) (good_step handle A B G) n SQ T _ _ _ _ _ (start_memo A B _ NA NB) (start_held A B _ _ NA NB) H) as [->|S]; [left; lia|now right].
Qed.
Lemma run_more sqrt handle A B tol n n' k : (n <= n')%nat -> run sqrt handle A B tol n = Ok (true, k) -> run sqrt handle A B tol n' = Ok (true, k).
Proof. unfold run. apply loop_more. Qed.

(* ---- the four points of a yes ---- *)
Lemma face_det a b c : dot3 (cross3 (minus3 b a) (minus3 c a)) (vneg a) = - det3 a b c.
Proof. unfold dot3, cross3, minus3, det3, dot3, cross3, vneg. cbn [vx vy vz]. ring. Qed.
Lemma four_points a b c e :
  det3 b e c * vx a + det3 a c e * vx b + det3 a e b * vx c + det3 a b c * vx e = 0 /\
  det3 b e c * vy a + det3 a c e * vy b + det3 a e b * vy c + det3 a b c * vy e = 0 /\
  det3 b e c * vz a + det3 a c e * vz b + det3 a e b * vz c + det3 a b c * vz e = 0.
Proof. unfold det3, dot3, cross3. cbn [vx vy vz]. repeat split; ring. Qed.
Lemma around_hull (P : v3 -> Prop) a b c e : P a -> P b -> P c -> P e -> around a b c e -> 0 <= det3 b e c ->
  0 < det3 b e c + det3 a c e + det3 a e b + det3 a b c -> hull P zero3.
Proof.
  intros Ha Hb Hc He [H1 [H2 H3]] H0 S. destruct (four_points a b c e) as [X [Y Z]].
  apply (hull_weights4 P a b c e (det3 b e c) (det3 a c e) (det3 a e b) (det3 a b c)); auto using hull_point.
Qed.
Lemma handle_true tol s d p s' d' : sized s d -> handle_simplex (s ++ [p]) d tol = Ok (true, s', d') ->
  exists e c b, s = [e; c; b] /\ around p b c e.
Proof.
  intros H. apply sized_cases in H. destruct H as [[a ->]|[[b [a ->]]|[e [c [b ->]]]]]; cbn [app handle_simplex]; [discriminate|discriminate|].
  unfold handle4. cbv zeta. change vdot with dot3. change vcross with cross3. change vsub with minus3. rewrite !face_det.
  destruct (qlt 0 (- det3 p b c)) eqn:E1; [discriminate|]. destruct (qlt 0 (- det3 p c e)) eqn:E2; [discriminate|].
  destruct (qlt 0 (- det3 p e b)) eqn:E3; [discriminate|]. intros _. apply qlt_false in E1, E2, E3.
  exists e, c, b. split; [reflexivity|]. split; [qlra|]. split; qlra.
Qed.
Lemma gjk_true sqrt A B tol n k : gjk_passes sqrt A B tol n = Ok (true, k) ->
  exists a b c e, diffs A B a /\ diffs A B b /\ diffs A B c /\ diffs A B e /\ around a b c e /\
    (0 <= det3 b e c -> 0 < det3 b e c + det3 a c e + det3 a e b + det3 a b c -> meet A B).
Proof.
  intro H. assert (NA : A <> []) by (intro K; subst; discriminate). assert (NB : B <> []) by (intro K; subst; destruct A; discriminate).
  rewrite gjk_run in H by auto.
  destruct (loop_true _ _ A B tol NA NB (held A B) (good_step _ A B (handle_good tol)) _ _ _ _ _ _ (start_held A B _ _ NA NB) H)
    as [s0 [d0 [p [s' [d' [[S1 S2] [Dp [Mp [Pp Hh]]]]]]]]].
  destruct (handle_true tol s0 d0 p s' d' S1 Hh) as [e [c [b [-> R]]]].
  exists p, b, c, e. assert (Db : diffs A B b) by (apply S2; cbn [In]; tauto). assert (Dc : diffs A B c) by (apply S2; cbn [In]; tauto).
  assert (De : diffs A B e) by (apply S2; cbn [In]; tauto).
  repeat (split; [assumption|]). intros H0 HS. apply hull_meet. apply (around_hull _ p b c e); auto.
Qed.

(* ---- one common vertex ---- *)
Lemma same_point sqrt handle x tol n : (forall b a d, b = zero3 -> a = zero3 -> handle [b; a] d = Ok (false, [zero3], zero3)) ->
  is_sqrt (sqrt 0) 0 -> 0 <= tol -> run sqrt handle [x] [x] tol n = Ok (false, Z.of_nat n).
Proof.
  intros Hh SQ T. unfold run.
  assert (Sp : forall d, support [x] [x] d = (zero3, (0%Z, 0%Z))).
  { intro d. unfold support, support_vector. cbn [support_from fst snd]. f_equal. unfold vsub, zero3. f_equal; ring. }
  rewrite Sp. cbn [fst snd].
  assert (E : forall d m k, seen m (0, 0)%Z = Some zero3 -> d = zero3 ->
    gjk_loop sqrt handle [x] [x] tol n k m [zero3] d = Ok (false, (k + Z.of_nat n)%Z)).
  { induction n as [|n IH]; intros d m k Sm Hd.
    - cbn [gjk_loop]. f_equal. f_equal. lia.
    - rewrite loop_S. cbv zeta. rewrite Sp. cbn [fst snd]. rewrite Sm. rewrite norm_self by exact SQ.
      replace (qlt tol 0) with false by (symmetry; apply qlt_false; exact T).
      replace (vdot zero3 d) with 0 by (unfold vdot, zero3; cbn [vx vy vz]; ring).
      replace (qlt 0 0) with false by (symmetry; apply qlt_false; qlra).
      cbn [app]. rewrite Hh by reflexivity. cbn [bind fst snd]. rewrite IH; auto. f_equal. f_equal. lia. }
  rewrite E; [f_equal; f_equal; lia|reflexivity|]. unfold vneg, zero3. cbn [vx vy vz]. f_equal; ring.
Qed.
Lemma neg_zero : vneg zero3 = zero3.
Proof. unfold vneg, zero3. cbn [vx vy vz]. f_equal; ring. Qed.
Lemma handle2_zero tol : 0 <= tol -> handle2 zero3 zero3 tol = ([zero3], zero3).
Proof.
  intro T. unfold handle2. cbv zeta. replace (vdot (vsub zero3 zero3) (vneg zero3)) with 0 by (unfold vdot, vsub, vneg, zero3; cbn [vx vy vz]; ring).
  replace (qlt tol 0) with false by (symmetry; apply qlt_false; exact T). now rewrite neg_zero.
Qed.
Lemma gjk_same sqrt x tol n : is_sqrt (sqrt 0) 0 -> 0 <= tol ->
  gjk sqrt [x] [x] tol n = Ok false /\ cgjk sqrt [x] [x] tol n = Ok false /\ meet [x] [x].
Proof.
  intros SQ T. split; [|split].
  - unfold gjk. rewrite gjk_run by discriminate. rewrite same_point; auto. intros b a d -> ->. cbn [handle_simplex]. now rewrite handle2_zero.
  - unfold cgjk. rewrite cgjk_run by discriminate. rewrite same_point; auto. intros b a d -> ->. cbn [chandle_simplex].
    change (chandle2 zero3 zero3 tol) with (handle2 zero3 zero3 tol). now rewrite handle2_zero.
  - exists x. split; constructor; now left.
Qed.
