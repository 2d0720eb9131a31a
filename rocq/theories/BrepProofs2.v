(* Proofs for the symmetric table and for the vertices of a surface's loop. *)
From Coq Require Import List ZArith Bool QArith Qcanon Lia Permutation.
From Verif Require Import Common QcLib ArrZ NurbsModel NurbsSpec SurfModel SurfSpec BrepModel BrepSpec.
Import ListNotations.
Local Open Scope Z_scope.
Local Open Scope Qc_scope.

(* ---- dictionaries ---- *)
Lemma keyb_true a b : keyb a b = true <-> a = b.
Proof.
  unfold keyb. rewrite andb_true_iff, !Z.eqb_eq. destruct a, b; cbn. split; [intros [-> ->]; auto|intros [= -> ->]; auto].
Qed.
Lemma keyb_refl a : keyb a a = true. Proof. now apply keyb_true. Qed.
Lemma find_filter {A} (p q : A -> bool) l : (forall x, p x = true -> q x = true) -> find p (filter q l) = find p l.
Proof.
  intro H. induction l as [|x l IH]; auto. cbn. destruct (q x) eqn:Q; cbn; destruct (p x) eqn:P; auto. rewrite H in Q; auto. discriminate.
Qed.
Lemma dget_dset {V} (l : list ((Z * Z) * V)) k v k' : dget (dset l k v) k' = if keyb k k' then Some v else dget l k'.
Proof.
  unfold dget, dset. cbn [find fst snd]. destruct (keyb k k') eqn:E; auto. rewrite find_filter; auto.
  intros x P. apply keyb_true in P. rewrite P. apply negb_true_iff. destruct (keyb k' k) eqn:F; auto. apply keyb_true in F. subst. now rewrite keyb_refl in E.
Qed.
Lemma dget_del {V} (l : list ((Z * Z) * V)) k k' : dget (filter (fun e => negb (keyb (fst e) k)) l) k' = if keyb k k' then None else dget l k'.
Proof.
  unfold dget. destruct (keyb k k') eqn:E.
  - apply keyb_true in E. subst k'. destruct (find _ _) as [x|] eqn:F; auto. apply find_some in F. destruct F as [I X]. apply filter_In in I. destruct I as [_ I]. now rewrite X in I.
  - rewrite find_filter; auto. intros x P. apply keyb_true in P. rewrite P. apply negb_true_iff. destruct (keyb k' k) eqn:F; auto. apply keyb_true in F. subst. now rewrite keyb_refl in E.
Qed.

(* ---- the values ---- *)
Lemma last_write_snoc ops w a b : last_write (ops ++ [w]) a b = if touches a b w then Some (snd w) else last_write ops a b.
Proof.
  induction ops as [|x ops IH]; cbn [app last_write]; auto. rewrite IH. destruct (touches a b w); auto.
Qed.
Lemma writes_snoc ops w : writes (ops ++ [w]) = sp_set (writes ops) (fst (fst w)) (snd (fst w)) (snd w).
Proof. unfold writes. now rewrite fold_left_app. Qed.
Lemma writes_get ops : forall a b, dget (sp_items (writes ops)) (a, b) = last_write ops a b.
Proof.
  induction ops as [|w ops IH] using rev_ind; intros a b; [reflexivity|]. rewrite writes_snoc, last_write_snoc. unfold sp_set. cbn [sp_items].
  rewrite !dget_dset, IH. unfold touches, keyb. cbn [fst snd]. rewrite (andb_comm (snd (fst w) =? a)%Z).
  destruct (fst (fst w) =? a)%Z, (snd (fst w) =? b)%Z, (fst (fst w) =? b)%Z, (snd (fst w) =? a)%Z; reflexivity.
Qed.
Lemma touches_sym a b w : touches a b w = touches b a w.
Proof. unfold touches. apply orb_comm. Qed.
Lemma last_write_sym ops a b : last_write ops a b = last_write ops b a.
Proof. induction ops as [|w r IH]; auto. cbn. now rewrite IH, touches_sym. Qed.
Lemma sp_reads ops a b : sp_get (writes ops) a b = match last_write ops a b with Some v => Ok v | None => Err KeyError end /\
  sp_get (writes ops) a b = sp_get (writes ops) b a.
Proof. unfold sp_get. rewrite !writes_get. rewrite (last_write_sym ops b a). auto. Qed.

(* ---- the nodes ---- *)
Lemma rget_app l a x : rget (l ++ [x]) a = match rget l a with Some n => Some n | None => if Z.eqb (fst x) a then Some (snd x) else None end.
Proof.
  unfold rget. induction l as [|y l IH]; cbn [app find]. { destruct (Z.eqb (fst x) a); auto. }
  destruct (Z.eqb (fst y) a); auto.
Qed.
Lemma rget_rnew l a c : rget (rnew l a) c = match rget l c with Some n => Some n | None => if Z.eqb a c then Some [] else None end.
Proof.
  unfold rnew. destruct (rget l a) eqn:E.
  - destruct (rget l c) eqn:F; auto. destruct (Z.eqb a c) eqn:X; auto. apply Z.eqb_eq in X. congruence.
  - rewrite rget_app. auto.
Qed.
Definition note (b : Z) (n : list Z) : list Z := if existsb (Z.eqb b) n then n else n ++ [b].
Lemma rget_radd l a b c : rget (radd l a b) c = if Z.eqb a c then option_map (note b) (rget l c) else rget l c.
Proof.
  unfold rget, radd, note. induction l as [|x l IH]; cbn [map find]. { destruct (Z.eqb a c); auto. }
  destruct (Z.eqb (fst x) a) eqn:A; cbn [fst snd].
  - apply Z.eqb_eq in A. rewrite A. destruct (Z.eqb a c) eqn:C; auto.
  - destruct (Z.eqb (fst x) c) eqn:C; auto. destruct (Z.eqb a c) eqn:AC; auto. apply Z.eqb_eq in C, AC. apply Z.eqb_neq in A. congruence.
Qed.
Lemma radd_keys l a b : map fst (radd l a b) = map fst l.
Proof. unfold radd. rewrite map_map. apply map_ext. intro x. now destruct (Z.eqb (fst x) a). Qed.
Lemma rget_in l a : rget l a <> None <-> In a (map fst l).
Proof.
  unfold rget. induction l as [|x l IH]; cbn; [tauto|]. destruct (Z.eqb (fst x) a) eqn:E.
  - apply Z.eqb_eq in E. split; [auto|discriminate].
  - apply Z.eqb_neq in E. rewrite IH. tauto.
Qed.
Lemma rnew_keys l a : map fst (rnew l a) = if in_dec Z.eq_dec a (map fst l) then map fst l else map fst l ++ [a].
Proof.
  unfold rnew. destruct (rget l a) eqn:E; destruct (in_dec Z.eq_dec a (map fst l)) as [I|I]; auto.
  - exfalso. apply I, rget_in. congruence.
  - exfalso. now apply rget_in in I.
  - now rewrite map_app.
Qed.
Lemma rnew_nodup l a : NoDup (map fst l) -> NoDup (map fst (rnew l a)).
Proof.
  intro N. rewrite rnew_keys. destruct (in_dec _ _ _); auto. apply (Permutation_NoDup (Permutation_cons_append _ _)). now constructor.
Qed.
Lemma rnew_in l a c : In c (map fst (rnew l a)) <-> In c (map fst l) \/ c = a.
Proof. rewrite rnew_keys. destruct (in_dec _ _ _) as [I|I]; [split; [auto|intros [X| ->]; auto]|]. rewrite in_app_iff. cbn. intuition. Qed.
Lemma writes_keys ops : NoDup (map fst (sp_rc (writes ops))) /\
  forall k, In k (map fst (sp_rc (writes ops))) <-> exists w, In w ops /\ (k = fst (fst w) \/ k = snd (fst w)).
Proof.
  induction ops as [|w ops [IH1 IH2]] using rev_ind; cbn; [split; [constructor|intro; split; [tauto|intros [w [[] _]]]]|].
  rewrite writes_snoc. unfold sp_set. cbn [sp_rc]. rewrite !radd_keys. split; [now apply rnew_nodup, rnew_nodup|].
  intro k. rewrite !rnew_in, IH2. split.
  - intros [[[x [I X]]|E]|E]; [exists x|exists w|exists w]; rewrite in_app_iff; cbn; intuition.
  - intros [x [I X]]. apply in_app_iff in I. cbn in I. destruct I as [I|[<-|[]]]; [left; left; eauto|]. destruct X; auto.
Qed.
Lemma sp_row_spec ops a : map fst (sp_row (writes ops) a) = map fst (sp_rc (writes ops)) /\
  forall k o, In (k, o) (sp_row (writes ops) a) -> o = last_write ops a k.
Proof.
  unfold sp_row. split. { rewrite map_map. reflexivity. }
  intros k o I. apply in_map_iff in I. destruct I as [x [E _]]. injection E as <- <-. apply writes_get.
Qed.

(* ---- the neighbours ---- *)
Lemma note_in b n c : In c (note b n) <-> In c n \/ c = b.
Proof.
  unfold note. destruct (existsb _ n) eqn:E.
  - apply existsb_exists in E. destruct E as [x [I X]]. apply Z.eqb_eq in X. subst x. split; [auto|intros [H| ->]; auto].
  - rewrite in_app_iff. cbn. intuition.
Qed.
Lemma note_nodup b n : NoDup n -> NoDup (note b n).
Proof.
  intro N. unfold note. destruct (existsb _ n) eqn:E; auto. apply (Permutation_NoDup (Permutation_cons_append _ _)). constructor; auto.
  intro I. assert (X : existsb (Z.eqb b) n = true) by (apply existsb_exists; exists b; split; auto; apply Z.eqb_refl). congruence.
Qed.
Lemma touches_true a b w : touches a b w = true <-> fst (fst w) = a /\ snd (fst w) = b \/ fst (fst w) = b /\ snd (fst w) = a.
Proof. unfold touches. rewrite orb_true_iff, !andb_true_iff, !Z.eqb_eq. tauto. Qed.
Lemma writes_neighbours ops : forall a n, rget (sp_rc (writes ops)) a = Some n ->
  NoDup n /\ forall b, In b n <-> exists w, In w ops /\ touches a b w = true.
Proof.
  induction ops as [|w ops IH] using rev_ind; intros a n; [discriminate|]. rewrite writes_snoc. unfold sp_set. cbn [sp_rc].
  destruct w as [[x y] v]. cbn [fst snd]. rewrite !rget_radd, !rget_rnew.
  set (o := rget (sp_rc (writes ops)) a).
  assert (O : exists m, (o = Some m \/ o = None /\ m = []) /\ NoDup m /\ forall b, In b m <-> exists w, In w ops /\ touches a b w = true).
  { unfold o. destruct (rget (sp_rc (writes ops)) a) as [m|] eqn:E. { exists m. destruct (IH a m E). auto. }
    exists []. split; auto. split; [constructor|]. intro b. split; [intros []|]. intros [w [I T]]. exfalso.
    assert (K : In a (map fst (sp_rc (writes ops)))). { apply (proj2 (writes_keys ops)). exists w. split; auto. apply touches_true in T. intuition. }
    apply rget_in in K. auto. }
  clearbody o. destruct O as [m [O [Nm Im]]].
  assert (R : match match o with Some n0 => Some n0 | None => if Z.eqb x a then Some [] else None end with
    | Some n0 => Some n0 | None => if Z.eqb y a then Some [] else None end = if (Z.eqb x a || Z.eqb y a)%bool then Some m else o).
  { destruct O as [-> |[-> ->]]; destruct (Z.eqb x a), (Z.eqb y a); reflexivity. }
  rewrite R. intro E.
  assert (G : n = (if Z.eqb y a then note x (if Z.eqb x a then note y m else m) else if Z.eqb x a then note y m else m)).
  { destruct (Z.eqb x a), (Z.eqb y a); cbn [orb option_map] in E |- *; try congruence. clear R. destruct O as [O|[O _]]; rewrite O in E; [injection E as E; auto|discriminate]. }
  subst n. split. { destruct (Z.eqb y a), (Z.eqb x a); auto using note_nodup. }
  intro b. transitivity ((exists w, In w ops /\ touches a b w = true) \/ touches a b ((x, y), v) = true).
  - rewrite <- Im. rewrite touches_true. cbn [fst snd].
    destruct (Z.eqb_spec x a) as [X|X]; destruct (Z.eqb_spec y a) as [Y|Y]; rewrite ?note_in; clear - X Y; intuition (subst; auto; congruence).
  - split.
    + intros [[w [I T]]|T]; [exists w|exists ((x, y), v)]; rewrite in_app_iff; cbn; auto.
    + intros [w [I T]]. apply in_app_iff in I. cbn in I. destruct I as [I|[<-|[]]]; eauto.
Qed.

(* ---- deletion ---- *)
Lemma sp_del_one_way ops a b v : last_write ops a b = Some v -> a <> b -> exists s', sp_del (writes ops) a b = Ok s' /\
  sp_get s' a b = Err KeyError /\ sp_get s' b a = Ok v.
Proof.
  intros L N. unfold sp_del. rewrite writes_get, L. eexists. split; [reflexivity|]. unfold sp_get. cbn [sp_items]. rewrite !dget_del, keyb_refl.
  split; auto. assert (K : keyb (a, b) (b, a) = false). { destruct (keyb (a, b) (b, a)) eqn:E; auto. apply keyb_true in E. congruence. }
  rewrite K, writes_get, last_write_sym, L. auto.
Qed.
Lemma sp_del_again ops a b v s' : last_write ops a b = Some v -> sp_del (writes ops) a b = Ok s' -> forall c d, (c, d) <> (a, b) ->
  sp_get s' c d = sp_get (writes ops) c d.
Proof.
  intros L. unfold sp_del. rewrite writes_get, L. intros [= <-] c d N. unfold sp_get. cbn [sp_items]. rewrite dget_del.
  destruct (keyb (a, b) (c, d)) eqn:E; auto. apply keyb_true in E. congruence.
Qed.

(* ---- vertices of a loop ---- *)
Lemma tri_eqb_true a b : tri_eqb a b = true <-> a = b.
Proof.
  unfold tri_eqb. rewrite !andb_true_iff, !qeq_true. destruct a as [[x y] z], b as [[x' y'] z']; cbn. split.
  - intros [[-> ->] ->]. auto.
  - intro E. pose proof (f_equal (fun t => fst (fst t)) E). pose proof (f_equal (fun t => snd (fst t)) E). pose proof (f_equal snd E). cbn in *. auto.
Qed.
Lemma index_of_some p l i : index_of p l = Some i -> nth_error l i = Some p.
Proof.
  revert i. induction l as [|x l IH]; intros i E; cbn in E; [discriminate|]. destruct (tri_eqb x p) eqn:T.
  - injection E as <-. apply tri_eqb_true in T. now subst.
  - destruct (index_of p l) as [j|]; [|discriminate]. injection E as <-. cbn. auto.
Qed.
Lemma index_of_none p l : index_of p l = None -> ~ In p l.
Proof.
  induction l as [|x l IH]; cbn; auto. destruct (tri_eqb x p) eqn:T; [discriminate|]. destruct (index_of p l); [discriminate|]. intros _ [E|I]; [|now apply IH].
  apply tri_eqb_true in E. congruence.
Qed.
Lemma add_end_spec pts p : NoDup pts -> let '(q, i) := add_end pts p in
  NoDup q /\ nth_error q i = Some p /\ (exists t, q = pts ++ t) /\ (forall x, In x q -> In x pts \/ x = p).
Proof.
  intro N. unfold add_end. destruct (index_of p pts) as [i|] eqn:E.
  - split; auto. split; [now apply index_of_some|]. split; [exists []; now rewrite app_nil_r|auto].
  - split. { apply (Permutation_NoDup (Permutation_cons_append _ _)). constructor; auto. now apply index_of_none. }
    split. { rewrite nth_error_app2 by lia. now rewrite Nat.sub_diag. } split; [eauto|]. intros x I. apply in_app_iff in I. cbn in I. intuition.
Qed.
Lemma nth_error_grow {A} (l t : list A) i x : nth_error l i = Some x -> nth_error (l ++ t) i = Some x.
Proof. intro E. rewrite nth_error_app1; auto. apply nth_error_Some. congruence. Qed.
Lemma to_brep_spec ends : forall pts, NoDup pts -> let '(q, es) := to_brep pts ends in
  NoDup q /\ (exists t, q = pts ++ t) /\ (forall x, In x q -> In x pts \/ exists e, In e ends /\ (x = fst e \/ x = snd e)) /\
  Forall2 (fun e ij => nth_error q (fst ij) = Some (fst e) /\ nth_error q (snd ij) = Some (snd e)) ends es.
Proof.
  induction ends as [|[a b] r IH]; intros pts N; cbn [to_brep].
  - split; auto. split; [exists []; now rewrite app_nil_r|]. split; [auto|constructor].
  - pose proof (add_end_spec pts a N) as A. destruct (add_end pts a) as [p1 i]. destruct A as [A1 [A2 [[t1 A3] A4]]].
    pose proof (add_end_spec p1 b A1) as B. destruct (add_end p1 b) as [p2 j]. destruct B as [B1 [B2 [[t2 B3] B4]]].
    specialize (IH p2 B1). destruct (to_brep p2 r) as [p3 es]. destruct IH as [C1 [[t3 C2] [C3 C4]]].
    split; auto. split. { exists (t1 ++ t2 ++ t3). now rewrite C2, B3, A3, !app_assoc. }
    split.
    + intros x I. destruct (C3 x I) as [X|[e [X Y]]]; [|right; exists e; split; [now right|auto]].
      destruct (B4 x X) as [Y| ->]; [|right; exists (a, b); cbn; auto]. destruct (A4 x Y) as [Z| ->]; auto. right; exists (a, b); cbn; auto.
    + constructor; auto. cbn [fst snd]. rewrite C2. split; apply nth_error_grow; auto. rewrite B3. now apply nth_error_grow.
Qed.
(* four corners *)
Lemma tri_neqb a b : a <> b -> tri_eqb a b = false.
Proof. intro N. destruct (tri_eqb a b) eqn:E; auto. now apply tri_eqb_true in E. Qed.
Lemma tri_refl a : tri_eqb a a = true. Proof. now apply tri_eqb_true. Qed.
Lemma to_brep_corners a b c d : NoDup [a; b; c; d] ->
  to_brep [] [(a, b); (c, d); (a, c); (b, d)] = ([a; b; c; d], [(0, 1); (2, 3); (0, 2); (1, 3)]%nat).
Proof.
  intro N. inversion N as [|? ? N1 N2]; subst. inversion N2 as [|? ? N3 N4]; subst. inversion N4 as [|? ? N5 N6]; subst. cbn in N1, N3, N5.
  assert (a <> b /\ a <> c /\ a <> d /\ b <> c /\ b <> d /\ c <> d) as [E1 [E2 [E3 [E4 [E5 E6]]]]] by (repeat split; intro; subst; tauto).
  cbn [to_brep]. unfold add_end. cbn [index_of app length option_map].
  repeat (rewrite ?tri_refl, ?(tri_neqb a b), ?(tri_neqb a c), ?(tri_neqb a d), ?(tri_neqb b c), ?(tri_neqb b d), ?(tri_neqb c d) by auto; cbn [index_of app length option_map]).
  reflexivity.
Qed.
