(* Support points, the memory of index pairs, the loop of the collision test. *)
From Coq Require Import List ZArith Lia Bool QArith Qcanon.
From Verif Require Import Common ListLib QcLib ArrZ SumLib NurbsModel DerModel PlnModel PlnSpec PlnProofs2 PlnProofs4 GjkModel GjkSpec.
Import ListNotations.
Local Open Scope Z_scope.
Local Open Scope Qc_scope.

Lemma vdot_dot : vdot = dot3.
Proof. reflexivity. Qed.

Lemma support_from_ok vs : forall i d h v k, 
  exists h' v' k', support_from i vs d (Some h, v, k) = (Some h', v', k') /\
  h <= h' /\ (forall x, In x vs -> vdot x d <= h') /\
  ((v' = v /\ k' = k /\ h' = h) \/
   (h < h' /\ exists j, (0 <= j < lenZ vs)%Z /\ rdZ vs j = Ok v' /\ k' = (i + j)%Z /\ h' = vdot v' d /\
    forall j' x, (0 <= j' < j)%Z -> rdZ vs j' = Ok x -> vdot x d < h')).
Proof.
  induction vs as [|a t IH]; intros i d h v k; cbn [support_from].
  - exists h, v, k. split; [reflexivity|]. split; [qlra|]. split; [intros x []|auto].
  - cbn [fst].
    assert (L : lenZ (a :: t) = (1 + lenZ t)%Z) by (unfold lenZ; cbn [length]; lia).
    assert (R0 : rdZ (a :: t) 0 = Ok a) by reflexivity.
    assert (RS : forall j, (0 <= j < lenZ t)%Z -> rdZ (a :: t) (j + 1) = rdZ t j).
    { intros j J. rewrite (rdZ_ok a (a :: t)) by lia. rewrite (rdZ_ok a t) by lia. unfold atZ. f_equal.
      replace (Z.to_nat (j + 1)) with (S (Z.to_nat j)) by lia. reflexivity. }
    destruct (qlt h (vdot a d)) eqn:E.
    + apply qlt_true in E. destruct (IH (i + 1)%Z d (vdot a d) a i) as [h' [v' [k' [H1 [H2 [H3 H4]]]]]].
      exists h', v', k'. split; [exact H1|]. split; [qlra|]. split.
      { intros x [<-|X]; [exact H2|now apply H3]. }
      right. split; [qlra|]. destruct H4 as [[-> [-> ->]]|[H4 [j [J [H5 [H6 [H7 H8]]]]]]].
      * exists 0%Z. split; [unfold lenZ in *; lia|]. split; [reflexivity|]. split; [lia|]. split; [reflexivity|]. intros j' x J'; lia.
      * exists (j + 1)%Z. split; [lia|]. split; [rewrite RS; auto; lia|]. split; [lia|]. split; [exact H7|].
        intros j' x J' X. destruct (Z.eq_dec j' 0) as [->|NZ].
        { rewrite R0 in X. injection X as <-. qlra. }
        { replace j' with (j' - 1 + 1)%Z in X by lia. rewrite RS in X by lia. apply (H8 (j' - 1)%Z x); [lia|exact X]. }
    + apply qlt_false in E. destruct (IH (i + 1)%Z d h v k) as [h' [v' [k' [H1 [H2 [H3 H4]]]]]].
      exists h', v', k'. split; [exact H1|]. split; [exact H2|]. split.
      { intros x [<-|X]; [qlra|now apply H3]. }
      destruct H4 as [H4|[H4 [j [J [H5 [H6 [H7 H8]]]]]]]; [now left|]. right. split; [exact H4|].
      exists (j + 1)%Z. split; [lia|]. split; [rewrite RS; auto; lia|]. split; [lia|]. split; [exact H7|].
      intros j' x J' X. destruct (Z.eq_dec j' 0) as [->|NZ].
      { rewrite R0 in X. injection X as <-. qlra. }
      { replace j' with (j' - 1 + 1)%Z in X by lia. rewrite RS in X by lia. apply (H8 (j' - 1)%Z x); [lia|exact X]. }
Qed.

Lemma support_vector_ok vs d : vs <> [] -> exists v i, support_vector vs d = (v, i) /\
  (0 <= i < lenZ vs)%Z /\ rdZ vs i = Ok v /\ (forall x, In x vs -> dot3 x d <= dot3 v d) /\
  (forall j x, (0 <= j < i)%Z -> rdZ vs j = Ok x -> dot3 x d < dot3 v d).
Proof.
  destruct vs as [|a t]; [congruence|]. intros _. unfold support_vector. cbn [support_from fst].
  destruct (support_from_ok t (0 + 1)%Z d (vdot a d) a 0%Z) as [h' [v' [k' [H1 [H2 [H3 H4]]]]]].
  rewrite H1. cbn [fst snd]. exists v', k'. split; [reflexivity|].
  assert (L : lenZ (a :: t) = (1 + lenZ t)%Z) by (unfold lenZ; cbn [length]; lia).
  assert (RS : forall j, (0 <= j < lenZ t)%Z -> rdZ (a :: t) (j + 1) = rdZ t j).
  { intros j J. rewrite (rdZ_ok a (a :: t)) by lia. rewrite (rdZ_ok a t) by lia. unfold atZ. f_equal.
    replace (Z.to_nat (j + 1)) with (S (Z.to_nat j)) by lia. reflexivity. }
  assert (LT : (0 <= lenZ t)%Z) by (unfold lenZ; lia).
  rewrite vdot_dot in *.
  destruct H4 as [[-> [-> ->]]|[H4 [j [J [H5 [H6 [H7 H8]]]]]]].
  - split; [lia|]. split; [reflexivity|]. split; [intros x [<-|X]; [qlra|now apply H3]|]. intros j x J; lia.
  - subst k'. replace (0 + 1 + j)%Z with (j + 1)%Z by lia. split; [lia|]. split; [rewrite RS; auto; lia|].
    split; [intros x [<-|X]; [rewrite <- H7; qlra|rewrite <- H7; now apply H3]|].
    intros j' x J' X. destruct (Z.eq_dec j' 0) as [->|NZ].
    { injection X as <-. rewrite <- H7. exact H4. }
    { replace j' with (j' - 1 + 1)%Z in X by lia. rewrite RS in X by lia. rewrite <- H7. apply (H8 (j' - 1)%Z x); [lia|exact X]. }
Qed.

Lemma support_empty d : support_vector [] d = (zero3, (-1)%Z).
Proof. reflexivity. Qed.


Lemma rdZ_In {T} (l : list T) i (x : T) : rdZ l i = Ok x -> In x l.
Proof.
  intro H. pose proof (rdZ_inv x _ _ _ H) as K. destruct K as [R K]. rewrite K. unfold atZ. apply nth_In. unfold lenZ in R. lia.
Qed.

Lemma neg_dot a d : dot3 a (vneg d) = - dot3 a d.
Proof. unfold dot3, vneg. cbn [vx vy vz]. ring. Qed.
Lemma minus_dot a b d : dot3 (minus3 a b) d = dot3 a d - dot3 b d.
Proof. unfold dot3, minus3. cbn [vx vy vz]. ring. Qed.

Lemma support_ok A B d : A <> [] -> B <> [] -> exists p i j a b, support A B d = (p, (i, j)) /\
  rdZ A i = Ok a /\ rdZ B j = Ok b /\ p = minus3 a b /\ diffs A B p /\
  (forall q, diffs A B q -> dot3 q d <= dot3 p d).
Proof.
  intros NA NB. unfold support.
  destruct (support_vector_ok A d NA) as [a [i [Ha [Ia [Ra [Ma _]]]]]].
  destruct (support_vector_ok B (vneg d) NB) as [b [j [Hb [Ib [Rb [Mb _]]]]]].
  rewrite Ha, Hb. cbn [fst snd]. exists (vsub a b), i, j, a, b. split; [reflexivity|].
  split; [exact Ra|]. split; [exact Rb|]. split; [reflexivity|]. split.
  { exists a, b. split; [eapply rdZ_In; eauto|]. split; [eapply rdZ_In; eauto|reflexivity]. }
  intros q [a' [b' [Xa [Xb ->]]]]. change (vsub a b) with (minus3 a b). rewrite !minus_dot.
  specialize (Ma a' Xa). specialize (Mb b' Xb). rewrite !neg_dot in Mb. qlra.
Qed.

(* the memory holds what the indices stand for *)
Definition memo_ok (A B : list v3) (m : memo) : Prop :=
  forall k p, seen m k = Some p -> exists a b, rdZ A (fst k) = Ok a /\ rdZ B (snd k) = Ok b /\ p = minus3 a b.
Lemma memo_add A B m i j a b : memo_ok A B m -> rdZ A i = Ok a -> rdZ B j = Ok b -> memo_ok A B ((i, j, minus3 a b) :: m).
Proof.
  intros H Ha Hb k p. cbn [seen]. destruct ((i =? fst k) && (j =? snd k))%Z eqn:E; [|apply H].
  apply andb_true_iff in E. destruct E as [E1 E2]. apply Z.eqb_eq in E1, E2. intro K. injection K as <-.
  exists a, b. subst. auto.
Qed.
Lemma memo_nil A B : memo_ok A B [].
Proof. intros k p H. discriminate. Qed.

Lemma norm_self sqrt p : is_sqrt (sqrt 0) 0 -> scalar_norm sqrt (vsub p p) = 0.
Proof.
  intros [H1 H2]. unfold scalar_norm. replace (vdot (vsub p p) (vsub p p)) with 0 by (unfold vdot, vsub; cbn [vx vy vz]; ring).
  apply Qcmult_integral in H2. tauto.
Qed.

Section L.
Variables (sqrt : Qc -> Qc) (handle : list v3 -> v3 -> res (bool * list v3 * v3)) (A B : list v3) (tol : Qc).
Hypothesis NA : A <> [].
Hypothesis NB : B <> [].

(* one pass *)
Lemma loop_S n k m s d : gjk_loop sqrt handle A B tol (S n) k m s d =
  (let np := support A B d in
    let far := match seen m (snd np) with
               | Some q => qlt tol (scalar_norm sqrt (vsub q (fst np)))
               | None => false end in
    if far then Ok (false, (k + 1)%Z)
    else
      let m' := match seen m (snd np) with Some _ => m | None => (snd np, fst np) :: m end in
      if qlt (vdot (fst np) d) 0 then Ok (false, (k + 1)%Z)
      else
        do (r, d') <- handle (s ++ [fst np]) d ;
        if fst r then Ok (true, (k + 1)%Z)
        else gjk_loop sqrt handle A B tol n (k + 1) m' (snd r) d').
Proof. reflexivity. Qed.

(* an invariant of the points held and the direction, kept by one pass *)
Variable Inv : list v3 -> v3 -> Prop.
Hypothesis step : forall s d p, Inv s d -> diffs A B p -> (forall q, diffs A B q -> dot3 q d <= dot3 p d) ->
  exists b s' d', handle (s ++ [p]) d = Ok (b, s', d') /\ (0 <= dot3 p d -> b = false -> Inv s' d').

Lemma loop_total n : forall k m s d, (0 <= k)%Z -> Inv s d -> exists b k', gjk_loop sqrt handle A B tol n k m s d = Ok (b, k') /\
  (k <= k' <= k + Z.of_nat n)%Z /\ (b = true -> (k < k')%Z).
Proof.
  induction n as [|n IH]; intros k m s d K HI.
  - exists false, k. split; [reflexivity|]. split; [lia|discriminate].
  - rewrite loop_S. cbv zeta. destruct (support_ok A B d NA NB) as [p [i [j [a [b [Hs [Ra [Rb [Ep [Dp Mp]]]]]]]]]].
    rewrite Hs. cbn [fst snd].
    destruct (match seen m (i, j) with Some q => qlt tol (scalar_norm sqrt (vsub q p)) | None => false end).
    { exists false, (k + 1)%Z. split; [reflexivity|]. split; [lia|discriminate]. }
    rewrite vdot_dot. destruct (qlt (dot3 p d) 0) eqn:E.
    { exists false, (k + 1)%Z. split; [reflexivity|]. split; [lia|discriminate]. }
    apply qlt_false in E. destruct (step s d p HI Dp Mp) as [bb [s' [d' [Hh Hi]]]]. rewrite Hh. cbn [bind fst snd].
    destruct bb.
    { exists true, (k + 1)%Z. split; [reflexivity|]. split; [lia|intro; lia]. }
    match goal with |- context [gjk_loop _ _ _ _ _ n (k + 1) ?m' s' d'] => destruct (IH (k + 1)%Z m' s' d') as [bb [k' [H1 [H2 H3]]]]; [lia|now apply Hi|] end.
    exists bb, k'. split; [exact H1|]. split; [lia|]. intro T. specialize (H3 T). lia.
Qed.

(* the answer is no because of a separating plane or because the passes are used up *)
Lemma loop_false n : is_sqrt (sqrt 0) 0 -> 0 <= tol -> forall k m s d k', memo_ok A B m -> Inv s d ->
  gjk_loop sqrt handle A B tol n k m s d = Ok (false, k') -> k' = (k + Z.of_nat n)%Z \/ separated A B.
Proof.
  intros SQ T. induction n as [|n IH]; intros k m s d k' HM HI.
  - cbn [gjk_loop]. intro H. injection H as <-. left. lia.
  - rewrite loop_S. cbv zeta. destruct (support_ok A B d NA NB) as [p [i [j [a [b [Hs [Ra [Rb [Ep [Dp Mp]]]]]]]]]].
    rewrite Hs. cbn [fst snd].
    replace (match seen m (i, j) with Some q => qlt tol (scalar_norm sqrt (vsub q p)) | None => false end) with false.
    2:{ destruct (seen m (i, j)) as [q|] eqn:Sq; [|reflexivity].
        destruct (HM _ _ Sq) as [a' [b' [Ha [Hb ->]]]]. cbn [fst snd] in Ha, Hb. rewrite Ra in Ha. rewrite Rb in Hb.
        injection Ha as <-. injection Hb as <-. rewrite Ep. change minus3 with vsub. rewrite norm_self by exact SQ.
        symmetry. apply qlt_false. exact T. }
    rewrite vdot_dot. destruct (qlt (dot3 p d) 0) eqn:E.
    { intro H. right. apply qlt_true in E. exists d. intros x y X Y. assert (D : diffs A B (minus3 x y)) by (exists x, y; auto).
      specialize (Mp _ D). rewrite minus_dot in Mp. qlra. }
    apply qlt_false in E. destruct (step s d p HI Dp Mp) as [bb [s' [d' [Hh Hi]]]]. rewrite Hh. cbn [bind fst snd].
    destruct bb; [discriminate|]. intro H.
    apply IH in H; [destruct H as [->|H]; [left; lia|now right]| |now apply Hi].
    destruct (seen m (i, j)) as [q|]; [exact HM|]. rewrite Ep. now apply memo_add.
Qed.

(* the answer is yes after a pass that says so *)
Lemma loop_true n : forall k m s d k', Inv s d -> gjk_loop sqrt handle A B tol n k m s d = Ok (true, k') ->
  exists s0 d0 p s' d', Inv s0 d0 /\ diffs A B p /\ (forall q, diffs A B q -> dot3 q d0 <= dot3 p d0) /\ 0 <= dot3 p d0 /\
    handle (s0 ++ [p]) d0 = Ok (true, s', d').
Proof.
  induction n as [|n IH]; intros k m s d k' HI; [discriminate|].
  rewrite loop_S. cbv zeta. destruct (support_ok A B d NA NB) as [p [i [j [a [b [Hs [Ra [Rb [Ep [Dp Mp]]]]]]]]]].
  rewrite Hs. cbn [fst snd].
  destruct (match seen m (i, j) with Some q => qlt tol (scalar_norm sqrt (vsub q p)) | None => false end); [discriminate|].
  rewrite vdot_dot. destruct (qlt (dot3 p d) 0) eqn:E; [discriminate|].
  apply qlt_false in E. destruct (step s d p HI Dp Mp) as [bb [s' [d' [Hh Hi]]]]. rewrite Hh. cbn [bind fst snd].
  destruct bb; [|intro H; apply IH in H; [exact H|now apply Hi]].
  intros _. exists s, d, p, s', d'. auto.
Qed.
End L.

(* more passes keep a yes *)
Lemma loop_more sqrt handle A B tol n : forall n' k m s d k', (n <= n')%nat ->
  gjk_loop sqrt handle A B tol n k m s d = Ok (true, k') -> gjk_loop sqrt handle A B tol n' k m s d = Ok (true, k').
Proof.
  induction n as [|n IH]; intros n' k m s d k' L H; [discriminate|].
  destruct n' as [|n']; [lia|]. rewrite loop_S in *. cbv zeta in *.
  match goal with |- (if ?f then _ else _) = _ => destruct f end; [discriminate|].
  destruct (qlt _ 0); [discriminate|].
  destruct (handle _ d) as [[[bb s'] d']|e]; [|discriminate]. cbn [bind fst snd] in *.
  destruct bb; [exact H|]. apply IH; [lia|exact H].
Qed.
