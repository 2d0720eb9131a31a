From Coq Require Import List Arith ZArith Bool Lia.
From Verif Require Import Common ListLib CdllModel CdllSpec.
Import ListNotations.

(* ---------- adjacency along a path ---------- *)
Section Adj.
Context {A : Type}.
Fixpoint adj (P : A -> A -> Prop) (l : list A) : Prop :=
  match l with
  | a :: (b :: _) as t => P a b /\ adj P t
  | _ => True
  end.

Lemma adj_split P l1 a l2 : adj P (l1 ++ a :: l2) <-> adj P (l1 ++ [a]) /\ adj P (a :: l2).
Proof.
  induction l1 as [|x l1 IH]; simpl; [tauto|].
  destruct l1 as [|y l1]; simpl in *; [tauto|]. rewrite IH. tauto.
Qed.

Lemma adj_frame (P Q : A -> A -> Prop) l : adj P l ->
  (forall x y, In x (removelast l) -> In y (tl l) -> P x y -> Q x y) -> adj Q l.
Proof.
  induction l as [|a l IH]; simpl; auto. destruct l as [|b l]; auto.
  intros [H1 H2] H. split.
  - apply H; simpl; auto.
  - apply IH; auto. intros x y Hx Hy. apply H; simpl in *; auto.
Qed.

Definition cyc (l : list A) : list A := match l with [] => [] | a :: _ => l ++ [a] end.

Lemma adj_rot P l1 l2 : adj P (cyc (l1 ++ l2)) -> adj P (cyc (l2 ++ l1)).
Proof.
  destruct l1 as [|a l1]; [simpl; now rewrite app_nil_r|].
  destruct l2 as [|b l2]; [now rewrite app_nil_r|].
  simpl cyc. rewrite <- !app_assoc. intro H.
  change (a :: l1 ++ (b :: l2) ++ [a]) with ((a :: l1) ++ b :: (l2 ++ [a])) in H.
  change (b :: l2 ++ (a :: l1) ++ [b]) with ((b :: l2) ++ a :: (l1 ++ [b])).
  apply adj_split in H. destruct H as [H1 H2]. apply adj_split. split; auto.
Qed.

Lemma removelast_snoc (l : list A) a : removelast (l ++ [a]) = l.
Proof. apply removelast_last. Qed.

(* i-th step of the cycle *)
Lemma adj_nth P l i a b : adj P l -> nth_error l i = Some a -> nth_error l (S i) = Some b -> P a b.
Proof.
  revert i; induction l as [|x l IH]; intros i H Ha Hb; [destruct i; discriminate|].
  destruct l as [|y l]; [destruct i; simpl in *; [discriminate|destruct i; discriminate]|].
  destruct H as [H1 H2]. destruct i as [|i].
  - simpl in *. congruence.
  - apply (IH i); auto.
Qed.
End Adj.

Section P.
Context {V : Type} (veq : V -> V -> bool).
Notation node := (node V).
Notation cdll := (cdll V).

Definition fnext (h : list node) a := match nth_error h a with Some n => nxt n | None => None end.
Definition fprev (h : list node) a := match nth_error h a with Some n => prv n | None => None end.
Definition fdata (h : list node) a := match nth_error h a with Some n => Some (data n) | None => None end.

Definition ptr := nat -> option nat.
Definition put (f : ptr) a b : ptr := fun x => if x =? a then b else f x.

Lemma put_eq f a b : put f a b a = b.
Proof. unfold put. now rewrite Nat.eqb_refl. Qed.
Lemma put_neq f a b x : x <> a -> put f a b x = f x.
Proof. unfold put. intro. destruct (Nat.eqb_spec x a); congruence. Qed.

Lemma get_next_ok h a b : fnext h a = Some b -> get_next h a = Ok b.
Proof. unfold fnext, get_next, node_at. destruct (nth_error h a); [|discriminate]. simpl. intros ->. reflexivity. Qed.
Lemma get_prev_ok h a b : fprev h a = Some b -> get_prev h a = Ok b.
Proof. unfold fprev, get_prev, node_at. destruct (nth_error h a); [|discriminate]. simpl. intros ->. reflexivity. Qed.

Lemma set_next_ok h a b : a < length h -> exists h', set_next h a b = Ok h' /\ length h' = length h /\
  (forall x, fnext h' x = put (fnext h) a b x) /\ (forall x, fprev h' x = fprev h x) /\ (forall x, fdata h' x = fdata h x).
Proof.
  intro H. unfold set_next, node_at. destruct (nth_error h a) as [n|] eqn:E; [|apply nth_error_None in E; lia].
  simpl. eexists; split; [reflexivity|]. split; [apply upd_length|].
  repeat split; intro x; unfold fnext, fprev, fdata, put; destruct (Nat.eqb_spec x a) as [->|Hne];
    rewrite ?nth_error_upd_eq, ?nth_error_upd_neq by auto; rewrite ?E; auto.
Qed.
Lemma set_prev_ok h a b : a < length h -> exists h', set_prev h a b = Ok h' /\ length h' = length h /\
  (forall x, fnext h' x = fnext h x) /\ (forall x, fprev h' x = put (fprev h) a b x) /\ (forall x, fdata h' x = fdata h x).
Proof.
  intro H. unfold set_prev, node_at. destruct (nth_error h a) as [n|] eqn:E; [|apply nth_error_None in E; lia].
  simpl. eexists; split; [reflexivity|]. split; [apply upd_length|].
  repeat split; intro x; unfold fnext, fprev, fdata, put; destruct (Nat.eqb_spec x a) as [->|Hne];
    rewrite ?nth_error_upd_eq, ?nth_error_upd_neq by auto; rewrite ?E; auto.
Qed.
Lemma set_data_ok h a d : a < length h -> exists h', set_data h a d = Ok h' /\ length h' = length h /\
  (forall x, fnext h' x = fnext h x) /\ (forall x, fprev h' x = fprev h x) /\
  (forall x, fdata h' x = if x =? a then Some d else fdata h x).
Proof.
  intro H. unfold set_data, node_at. destruct (nth_error h a) as [n|] eqn:E; [|apply nth_error_None in E; lia].
  simpl. eexists; split; [reflexivity|]. split; [apply upd_length|].
  repeat split; intro x; unfold fnext, fprev, fdata, put; destruct (Nat.eqb_spec x a) as [->|Hne];
    rewrite ?nth_error_upd_eq, ?nth_error_upd_neq by auto; rewrite ?E; auto.
Qed.

Lemma alloc_old (h : list node) d x : x < length h ->
  fnext (fst (alloc h d)) x = fnext h x /\ fprev (fst (alloc h d)) x = fprev h x /\ fdata (fst (alloc h d)) x = fdata h x.
Proof. intro H. unfold fnext, fprev, fdata, alloc. simpl. now rewrite nth_error_app1. Qed.
Lemma alloc_new (h : list node) d : fnext (fst (alloc h d)) (length h) = Some (length h) /\
  fprev (fst (alloc h d)) (length h) = Some (length h) /\ fdata (fst (alloc h d)) (length h) = Some d.
Proof. unfold fnext, fprev, fdata, alloc. simpl. rewrite nth_error_app2, Nat.sub_diag by lia. simpl. auto. Qed.
Lemma alloc_len (h : list node) d : length (fst (alloc h d)) = S (length h).
Proof. unfold alloc. simpl. rewrite app_length. simpl. lia. Qed.

(* ---------- rings ---------- *)
Definition lk (fn fp : ptr) a b := fn a = Some b /\ fp b = Some a.
Definition ring (fn fp : ptr) (l : list nat) := NoDup l /\ adj (lk fn fp) (cyc l).

Lemma ring_ext fn fp fn' fp' l : ring fn fp l -> (forall x, In x l -> fn' x = fn x) -> (forall x, In x l -> fp' x = fp x) ->
  ring fn' fp' l.
Proof.
  intros [N R] Hn Hp. split; auto. eapply adj_frame; [exact R|].
  destruct l as [|a l]; [simpl; tauto|]. intros x y Hx Hy [A B].
  change (cyc (a :: l)) with ((a :: l) ++ [a]) in Hx, Hy. rewrite removelast_last in Hx. simpl in Hy.
  assert (In y (a :: l)) by (apply in_app_iff in Hy; simpl in *; tauto).
  split; [rewrite Hn|rewrite Hp]; auto.
Qed.

Lemma NoDup_rot {A} (l1 l2 : list A) : NoDup (l1 ++ l2) -> NoDup (l2 ++ l1).
Proof. intro H. eapply Permutation.Permutation_NoDup; [apply Permutation.Permutation_app_comm|auto]. Qed.

Lemma ring_rot fn fp l1 l2 : ring fn fp (l1 ++ l2) -> ring fn fp (l2 ++ l1).
Proof. intros [N R]. split; [now apply NoDup_rot|now apply adj_rot]. Qed.

Lemma cyc_cons {A} (t : A) l : cyc (t :: l) = t :: l ++ [t]. Proof. reflexivity. Qed.

Lemma removelast_snoc2 {A} (l : list A) a : removelast (l ++ [a]) = l.
Proof. apply removelast_last. Qed.

Lemma snoc_cons {A} (l : list A) t : exists b rest, l ++ [t] = b :: rest /\ (l = [] /\ b = t /\ rest = [] \/ exists l', l = b :: l' /\ rest = l' ++ [t]).
Proof. destruct l as [|b l]; simpl; eauto 10. Qed.

Lemma ring_next fn fp t l : ring fn fp (t :: l) ->
  exists b rest, l ++ [t] = b :: rest /\ fn t = Some b /\ fp b = Some t.
Proof.
  intros [N R]. rewrite cyc_cons in R. destruct (l ++ [t]) as [|b rest] eqn:E; [destruct l; discriminate|].
  exists b, rest. split; auto. simpl in R. apply R.
Qed.

Lemma ring_insert fn fp t l n b rest : ring fn fp (t :: l) -> ~ In n (t :: l) -> l ++ [t] = b :: rest ->
  forall fn' fp',
  (forall x, fn' x = put (put fn n (Some b)) t (Some n) x) ->
  (forall x, fp' x = put (put fp b (Some n)) n (Some t) x) ->
  ring fn' fp' (t :: n :: l).
Proof.
  intros [N R] Hn E fn' fp' Fn Fp.
  assert (Hnt : n <> t) by (intro; subst; apply Hn; left; auto).
  assert (Hb : In b (t :: l)). { assert (In b (l ++ [t])) by (rewrite E; left; auto). apply in_app_iff in H. simpl in *. tauto. }
  assert (Hbn : b <> n) by (intro; subst; auto).
  split.
  - inversion N; subst. constructor; [|constructor]; auto.
    + simpl. intros [H|H]; auto.
    + intro H. apply Hn. right; auto.
  - rewrite cyc_cons in *. simpl app. rewrite E in *.
    destruct R as [_ R].
    change (adj (lk fn' fp') (t :: n :: b :: rest)) with (lk fn' fp' t n /\ lk fn' fp' n b /\ adj (lk fn' fp') (b :: rest)).
    split; [|split].
    + split; [rewrite Fn; apply put_eq|rewrite Fp; apply put_eq].
    + split; [rewrite Fn, put_neq, put_eq by auto; auto|rewrite Fp, put_neq, put_eq by auto; auto].
    + eapply adj_frame; [exact R|]. intros x y Hx Hy [A B].
      rewrite <- E, removelast_last in Hx.
      assert (x <> t). { intro; subst. inversion N; auto. }
      assert (x <> n). { intro; subst. apply Hn. right; auto. }
      simpl in Hy.
      assert (NR : NoDup (b :: rest)). { rewrite <- E. apply (NoDup_rot [t] l). exact N. }
      assert (y <> b). { intro; subst. inversion NR; auto. }
      assert (Hyl : In y (t :: l)). { assert (In y (l ++ [t])) by (rewrite E; right; auto). apply in_app_iff in H2. simpl in *. tauto. }
      assert (y <> n) by (intro; subst; auto).
      split; [rewrite Fn, !put_neq by auto; auto|rewrite Fp, !put_neq by auto; auto].
Qed.

Lemma ring_remove fn fp t b l : ring fn fp (t :: b :: l) ->
  exists l0 z, b :: l = l0 ++ [z] /\ fn t = Some b /\ fp t = Some z /\
  forall fn' fp',
  (forall x, x <> t -> fn' x = put fn z (Some b) x) ->
  (forall x, x <> t -> fp' x = put fp b (Some z) x) ->
  ring fn' fp' (b :: l).
Proof.
  intros [N R]. destruct (exists_last (l := b :: l) ltac:(discriminate)) as (l0 & z & E).
  exists l0, z. split; auto. rewrite cyc_cons in R. rewrite E in R. rewrite <- app_assoc in R. cbn [app] in R.
  assert (R1 := R). change (t :: l0 ++ z :: [t]) with ((t :: l0) ++ z :: [t]) in R1.
  apply adj_split in R1. destruct R1 as [R1 [[_ R2] _]].
  assert (R3 : adj (lk fn fp) (t :: b :: l)). { rewrite E. exact R1. }
  destruct R3 as [[R4 R5] R6]. split; auto. split; auto.
  intros fn' fp' Fn Fp.
  assert (Nb : NoDup (b :: l)) by (inversion N; auto).
  assert (Ht : forall x, In x (b :: l) -> x <> t) by (intros x Hx ->; inversion N; auto).
  split; auto.
  rewrite cyc_cons. change (b :: l ++ [b]) with ((b :: l) ++ [b]). rewrite E, <- app_assoc. simpl.
  apply adj_split. split.
  - rewrite <- E. eapply adj_frame; [exact R6|]. intros x y Hx Hy [A B].
    rewrite E, removelast_last in Hx.
    assert (x <> z). { intro; subst. rewrite E in Nb. apply NoDup_remove_2 in Nb. rewrite app_nil_r in Nb. auto. }
    simpl in Hy. assert (y <> b). { intro; subst. inversion Nb; auto. }
    split; [rewrite Fn|rewrite Fp]; try rewrite put_neq; auto; apply Ht; [rewrite E; apply in_app_iff; auto|right; auto].
  - simpl. split; auto. split; [rewrite Fn, put_eq; auto|rewrite Fp, put_eq; auto]; apply Ht; [rewrite E; apply in_app_iff; simpl; auto|left; auto].
Qed.

Lemma walk_path h l1 : forall t rest a, adj (lk (fnext h) (fprev h)) (l1 ++ t :: rest) ->
  hd_error (l1 ++ t :: rest) = Some a -> walk h a (length l1) = Ok t.
Proof.
  induction l1 as [|x l1 IH]; intros t rest a R H; simpl in *.
  - congruence.
  - inversion H; subst x. destruct (l1 ++ t :: rest) as [|y q] eqn:E; [destruct l1; discriminate|].
    destruct R as [[R1 _] R2]. rewrite (get_next_ok _ _ _ R1). simpl. apply (IH t rest); [rewrite E; exact R2|rewrite E; reflexivity].
Qed.

Lemma ring_walk h l1 t l2 a : ring (fnext h) (fprev h) (l1 ++ t :: l2) ->
  hd_error (l1 ++ t :: l2) = Some a -> walk h a (length l1) = Ok t.
Proof.
  intros [N R] H.
  assert (exists rest, cyc (l1 ++ t :: l2) = l1 ++ t :: rest) as [rest E].
  { destruct l1 as [|x l1]; simpl; eauto. exists (l2 ++ [x]). now rewrite <- app_assoc. }
  rewrite E in R. eapply walk_path; [exact R|]. destruct l1; simpl in *; auto.
Qed.

(* ---------- representation ---------- *)
Definition rep_at (s : cdll) (l : list nat) (xs : list (option V)) : Prop :=
  ring (fnext (heap s)) (fprev (heap s)) l /\ (forall a, In a l -> a < length (heap s)) /\
  Forall2 (fun a x => fdata (heap s) a = Some x) l xs /\
  head s = hd_error l /\ count s = length xs.

Lemma rep_length s l xs : rep_at s l xs -> length l = length xs.
Proof. intros (_ & _ & F & _). now apply Forall2_length in F. Qed.

Lemma fdata_frame (h h' : list node) l xs : Forall2 (fun a x => fdata h a = Some x) l xs ->
  (forall a, In a l -> fdata h' a = fdata h a) -> Forall2 (fun a x => fdata h' a = Some x) l xs.
Proof.
  induction 1 as [|a x l xs H F IH]; intro K; constructor.
  - rewrite K; [auto|left; auto].
  - apply IH. intros; apply K; right; auto.
Qed.

Lemma split_len {A} (l : list A) i : i < length l -> exists l1 t l2, l = l1 ++ t :: l2 /\ length l1 = i.
Proof.
  intro H. destruct (nth_error l i) as [t|] eqn:E; [|apply nth_error_None in E; lia].
  apply nth_error_split in E. destruct E as (l1 & l2 & E & L). eauto.
Qed.

Ltac hp H := destruct H as (?h & ?E & ?L & ?FN & ?FP & ?FD).

(* insertion after the node with index i of a non-empty ring *)
Lemma insert_core s l1 t l2 xs1 x xs2 d idx : rep_at s (l1 ++ t :: l2) (xs1 ++ x :: xs2) -> length l1 = length xs1 ->
  Z.to_nat (idx - 1) = length l1 -> (0 <= idx)%Z ->
  exists h3, let n := length (heap s) in
    insert s d idx = Ok (mkCdll h3 (if (idx =? 0)%Z then Some n else head s) (S (count s))) /\
    ring (fnext h3) (fprev h3) (l1 ++ t :: n :: l2) /\ (forall y, In y (l1 ++ t :: n :: l2) -> y < length h3) /\
    Forall2 (fun a x => fdata h3 a = Some x) (l1 ++ t :: n :: l2) (xs1 ++ x :: d :: xs2).
Proof.
  intros (R & B & F & Hh & Hc) HL Hidx Hpos.
  unfold insert. rewrite Hc, app_length. simpl length.
  destruct (Z.ltb_spec (Z.of_nat (length xs1 + S (length xs2))) idx); [lia|].
  destruct (Z.ltb_spec idx 0); [lia|]. cbn [orb].
  set (n := length (heap s)).
  destruct (alloc (heap s) d) as [h n'] eqn:EA.
  assert (n' = n) by (unfold alloc in EA; inversion EA; reflexivity). subst n'.
  assert (Eh : h = fst (alloc (heap s) d)) by (rewrite EA; reflexivity).
  assert (Lh : length h = S n) by (rewrite Eh; apply alloc_len).
  rewrite Hh. destruct (hd_error (l1 ++ t :: l2)) as [a|] eqn:Ea; [|destruct l1; discriminate].
  assert (OLD : forall y, In y (l1 ++ t :: l2) -> fnext h y = fnext (heap s) y /\ fprev h y = fprev (heap s) y /\ fdata h y = fdata (heap s) y).
  { intros y Hy. rewrite Eh. apply alloc_old. auto. }
  assert (Rh : ring (fnext h) (fprev h) (l1 ++ t :: l2)).
  { eapply ring_ext; [exact R| |]; intros y Hy; apply OLD; auto. }
  rewrite Hidx.
  rewrite (ring_walk h l1 t l2 a Rh Ea). cbn [bind].
  assert (R1 := ring_rot _ _ l1 (t :: l2) Rh). simpl in R1.
  destruct (ring_next _ _ _ _ R1) as (b & rest & Eb & Nt & Pb).
  rewrite (get_next_ok _ _ _ Nt). cbn [bind].
  assert (Hin : forall y, In y (t :: l2 ++ l1) <-> In y (l1 ++ t :: l2)).
  { intro y. simpl. rewrite !in_app_iff. simpl. tauto. }
  assert (Hb : In b (t :: l2 ++ l1)). { assert (Q : In b ((l2 ++ l1) ++ [t])) by (rewrite Eb; left; auto). apply in_app_iff in Q. simpl in *. tauto. }
  assert (Bb : b < n) by (apply B; apply Hin; auto).
  assert (Bt : t < n) by (apply B; apply Hin; left; auto).
  hp (set_prev_ok h b (Some n) ltac:(lia)). rewrite E. cbn [bind].
  rewrite (get_next_ok h0 t b) by (rewrite FN; auto). cbn [bind].
  hp (set_next_ok h0 n (Some b) ltac:(lia)). rewrite E0. cbn [bind].
  hp (set_prev_ok h1 n (Some t) ltac:(lia)). rewrite E1. cbn [bind].
  hp (set_next_ok h2 t (Some n) ltac:(lia)). rewrite E2. cbn [bind].
  exists h3. cbv zeta. split; [reflexivity|].
  assert (Nn : ~ In n (t :: l2 ++ l1)) by (rewrite Hin; intro Q; apply B in Q; fold n in Q; lia).
  assert (R2 : ring (fnext h3) (fprev h3) (t :: n :: l2 ++ l1)).
  { eapply ring_insert; [exact R1|exact Nn|exact Eb| |].
    - intro y. rewrite FN2. unfold put. destruct (y =? t); auto. rewrite FN1, FN0. unfold put. destruct (y =? n); auto.
    - intro y. rewrite FP2, FP1. unfold put. destruct (y =? n); auto. rewrite FP0, FP. unfold put. destruct (y =? b); auto. }
  assert (FDn : fdata h3 n = Some d). { rewrite FD2, FD1, FD0, FD, Eh. apply alloc_new. }
  assert (FDo : forall y, In y (l1 ++ t :: l2) -> fdata h3 y = fdata (heap s) y).
  { intros y Hy. rewrite FD2, FD1, FD0, FD. now apply OLD. }
  split; [|split].
  - apply (ring_rot _ _ (t :: n :: l2) l1) . exact R2.
  - intros y Hy. assert (Q : y = n \/ In y (l1 ++ t :: l2)) by (rewrite in_app_iff in *; simpl in *; intuition).
    destruct Q as [->|Q]; [lia|]. apply B in Q. fold n in Q. lia.
  - assert (F' := fdata_frame _ _ _ _ F FDo). 
    apply Forall2_app_inv_l in F'. destruct F' as (ys1 & ys2 & F1 & F2 & Ey).
    assert (length ys1 = length xs1) by (apply Forall2_length in F1; lia).
    inversion F2; subst. assert (X : xs1 = ys1 /\ x :: xs2 = y :: l').
    { apply app_inj_len; [congruence|auto]. }
    destruct X as [-> X]. inversion X; subst. apply Forall2_app; auto.
Qed.

Lemma insert_at s l1 t l2 xs1 x xs2 d : rep_at s (l1 ++ t :: l2) (xs1 ++ x :: xs2) -> length l1 = length xs1 ->
  exists s', insert s d (Z.of_nat (S (length l1))) = Ok s' /\ rep_at s' (l1 ++ t :: length (heap s) :: l2) (xs1 ++ x :: d :: xs2).
Proof.
  intros R HL. destruct (insert_core s l1 t l2 xs1 x xs2 d (Z.of_nat (S (length l1))) R HL) as (h & E & A1 & A2 & A3); [lia|lia|].
  eexists; split; [exact E|]. destruct R as (_ & _ & _ & Hh & Hc). unfold rep_at. cbn [heap head count].
  split; auto. split; auto. split; auto. split.
  - destruct (Z.eqb_spec (Z.of_nat (S (length l1))) 0); [lia|]. rewrite Hh. destruct l1; simpl in *; auto.
  - rewrite Hc, !app_length. simpl. lia.
Qed.

Lemma Forall2_split {A B} (R : A -> B -> Prop) l1 t l2 xs :
  Forall2 R (l1 ++ t :: l2) xs -> exists xs1 x xs2, xs = xs1 ++ x :: xs2 /\ length xs1 = length l1 /\
    Forall2 R l1 xs1 /\ R t x /\ Forall2 R l2 xs2.
Proof.
  intro F. apply Forall2_app_inv_l in F. destruct F as (xs1 & ys & F1 & F2 & ->).
  inversion F2; subst. exists xs1, y, l'. repeat split; auto. symmetry. eapply Forall2_length; eauto.
Qed.

Definition rep s xs := exists l, rep_at s l xs.

Lemma insert_empty s d : rep s [] -> exists s', insert s d 0 = Ok s' /\ rep s' [d].
Proof.
  intros (l & R & B & F & Hh & Hc). inversion F; subst l. simpl in Hh, Hc.
  unfold insert. rewrite Hc, Hh. cbn -[alloc set_next set_prev].
  destruct (alloc (heap s) d) as [h n'] eqn:EA.
  assert (n' = length (heap s)) by (unfold alloc in EA; inversion EA; reflexivity). subst n'.
  assert (Eh : h = fst (alloc (heap s) d)) by (rewrite EA; reflexivity).
  set (n := length (heap s)) in *.
  assert (Lh : length h = S n) by (rewrite Eh; apply alloc_len).
  hp (set_next_ok h n (Some n) ltac:(lia)). rewrite E. cbn [bind].
  hp (set_prev_ok h0 n (Some n) ltac:(lia)). rewrite E0. cbn [bind].
  eexists; split; [reflexivity|]. exists [n]. unfold rep_at; cbn [heap head count].
  split; [|split; [|split; [|split]]]; auto.
  - split; [repeat constructor; simpl; tauto|]. simpl. split; auto. split.
    + rewrite FN0, FN. apply put_eq.
    + rewrite FP0. apply put_eq.
  - intros a [<-|[]]. lia.
  - repeat constructor. rewrite FD0, FD, Eh. apply alloc_new.
Qed.

Lemma insert_spec s xs d i : rep s xs -> (xs = [] /\ i = 0%Z) \/ (1 <= i <= Z.of_nat (length xs))%Z ->
  exists s', insert s d i = Ok s' /\ rep s' (firstn (Z.to_nat i) xs ++ d :: skipn (Z.to_nat i) xs).
Proof.
  intros R [[-> ->]|Hi].
  - simpl. now apply insert_empty.
  - destruct R as (l & R). assert (L := rep_length _ _ _ R).
    destruct (split_len l (Z.to_nat (i - 1))) as (l1 & t & l2 & -> & L1); [lia|].
    destruct (Forall2_split _ _ _ _ _ (proj1 (proj2 (proj2 R)))) as (xs1 & x & xs2 & -> & L2 & _).
    destruct (insert_at s l1 t l2 xs1 x xs2 d R) as (s' & E & R'); [congruence|].
    replace (Z.of_nat (S (length l1))) with i in E by lia.
    exists s'. split; auto. eexists.
    replace (Z.to_nat i) with (length (xs1 ++ [x])) by (rewrite app_length; simpl; lia).
    replace (xs1 ++ x :: xs2) with ((xs1 ++ [x]) ++ xs2) by now rewrite <- app_assoc.
    rewrite firstn_app, skipn_app, Nat.sub_diag, firstn_all, skipn_all. simpl. rewrite app_nil_r, <- app_assoc. simpl.
    exact R'.
Qed.

Lemma append_spec s xs d : rep s xs -> exists s', append s d = Ok s' /\ rep s' (xs ++ [d]).
Proof.
  intro R. unfold append. assert (Hc : count s = length xs) by (destruct R as (l & R); apply R). rewrite Hc.
  destruct (insert_spec s xs d (Z.of_nat (length xs)) R) as (s' & E & R').
  { destruct xs; [left; auto|right; simpl; lia]. }
  exists s'. split; auto. rewrite Nat2Z.id, firstn_all, skipn_all in R'. exact R'.
Qed.

Lemma append_node_spec s xs d : rep s xs -> exists s', append_node s d = Ok s' /\ rep s' (xs ++ [d]).
Proof.
  intros (l & R & B & F & Hh & Hc). unfold append_node.
  destruct (alloc (heap s) d) as [h n'] eqn:EA.
  assert (n' = length (heap s)) by (unfold alloc in EA; inversion EA; reflexivity). subst n'.
  assert (Eh : h = fst (alloc (heap s) d)) by (rewrite EA; reflexivity).
  set (n := length (heap s)) in *.
  assert (Lh : length h = S n) by (rewrite Eh; apply alloc_len).
  destruct l as [|a l].
  - inversion F; subst. simpl in Hh. rewrite Hh. eexists; split; [reflexivity|].
    exists [n]. unfold rep_at; cbn [heap head count]. split; [|split; [|split; [|split]]]; auto.
    + split; [repeat constructor; simpl; tauto|]. simpl. destruct (alloc_new (heap s) d) as (A1 & A2 & A3). repeat split; auto.
    + intros x [<-|[]]. lia.
    + repeat constructor. apply alloc_new.
  - simpl in Hh. rewrite Hh.
    assert (OLD : forall y, In y (a :: l) -> fnext h y = fnext (heap s) y /\ fprev h y = fprev (heap s) y /\ fdata h y = fdata (heap s) y).
    { intros y Hy. rewrite Eh. apply alloc_old. auto. }
    assert (Rh : ring (fnext h) (fprev h) (a :: l)).
    { eapply ring_ext; [exact R| |]; intros y Hy; apply OLD; auto. }
    destruct (exists_last (l := a :: l) ltac:(discriminate)) as (l0 & p & El).
    assert (Rp : ring (fnext h) (fprev h) (p :: l0)). { rewrite El in Rh. apply ring_rot in Rh. exact Rh. }
    assert (Eap : l0 ++ [p] = a :: l) by auto.
    destruct (ring_next _ _ _ _ Rp) as (b & rest & Eb & Np & Pb).
    rewrite Eap in Eb. inversion Eb; subst b rest.
    assert (Ba : a < n) by (apply B; left; auto).
    assert (Bp : p < n) by (apply B; rewrite El; apply in_app_iff; simpl; auto).
    rewrite (get_prev_ok _ _ _ Pb). cbn [bind].
    hp (set_prev_ok h n (Some p) ltac:(lia)). rewrite E. cbn [bind].
    rewrite (get_prev_ok h0 a p) by (rewrite FP, put_neq by lia; auto). cbn [bind].
    hp (set_next_ok h0 p (Some n) ltac:(lia)). rewrite E0. cbn [bind].
    hp (set_prev_ok h1 a (Some n) ltac:(lia)). rewrite E1. cbn [bind].
    hp (set_next_ok h2 n (Some a) ltac:(lia)). rewrite E2. cbn [bind].
    eexists; split; [reflexivity|]. exists ((a :: l) ++ [n]).
    assert (Hin : forall y, In y (p :: l0) <-> In y (a :: l)).
    { intro y. rewrite <- Eap, in_app_iff. simpl. tauto. }
    assert (Nn : ~ In n (p :: l0)) by (rewrite Hin; intro Q; apply B in Q; fold n in Q; lia).
    assert (R2 : ring (fnext h3) (fprev h3) (p :: n :: l0)).
    { eapply ring_insert; [exact Rp|exact Nn|exact Eap| |].
      - intro y. rewrite FN2. unfold put. rewrite FN1, FN0. unfold put. rewrite FN.
        destruct (Nat.eqb_spec y n), (Nat.eqb_spec y p); try lia; auto.
      - intro y. rewrite FP2, FP1. unfold put. rewrite FP0, FP. unfold put.
        destruct (Nat.eqb_spec y n), (Nat.eqb_spec y a); try lia; auto. }
    unfold rep_at; cbn [heap head count]. split; [|split; [|split; [|split]]]; auto.
    + rewrite El, <- app_assoc. apply (ring_rot _ _ [p; n] l0). exact R2.
    + intros y Hy. apply in_app_iff in Hy. destruct Hy as [Hy|[<-|[]]]; [|lia]. apply B in Hy. fold n in Hy. lia.
    + apply Forall2_app.
      * eapply fdata_frame; [exact F|]. intros y Hy. rewrite FD2, FD1, FD0, FD. now apply OLD.
      * repeat constructor. rewrite FD2, FD1, FD0, FD, Eh. apply alloc_new.
    + rewrite app_length. simpl. lia.
Qed.

(* unlinking the node t *)
Lemma unlink_ok h l1 t l2 hd0 : ring (fnext h) (fprev h) (l1 ++ t :: l2) -> l1 ++ l2 <> [] ->
  (forall y, In y (l1 ++ t :: l2) -> y < length h) -> hd_error (l1 ++ t :: l2) = Some hd0 ->
  exists tn tp h1 h2 hd',
    (if t =? hd0 then get_next h hd0 else Ok hd0) = Ok hd' /\ get_next h t = Ok tn /\ get_prev h t = Ok tp /\
    set_next h tp (Some tn) = Ok h1 /\ get_next h1 t = Ok tn /\ set_prev h1 tn (Some tp) = Ok h2 /\
    ring (fnext h2) (fprev h2) (l1 ++ l2) /\ length h2 = length h /\ hd_error (l1 ++ l2) = Some hd' /\
    (forall x, fdata h2 x = fdata h x).
Proof.
  intros R NE B Hh.
  assert (R1 := ring_rot _ _ l1 (t :: l2) R). simpl in R1.
  destruct (l2 ++ l1) as [|b q] eqn:E2. { destruct l1, l2; simpl in *; try discriminate. congruence. }
  destruct (ring_remove _ _ _ _ _ R1) as (l0 & z & Ez & Nt & Pt & K).
  assert (Hz : In z (b :: q)) by (rewrite Ez; apply in_app_iff; simpl; auto).
  assert (Hin : forall y, In y (b :: q) -> In y (l1 ++ t :: l2)).
  { intros y Hy. rewrite <- E2 in Hy. rewrite in_app_iff in *. simpl. tauto. }
  assert (Ht : forall x, In x (b :: q) -> x <> t) by (intros x Hx ->; destruct R1 as [N _]; inversion N; auto).
  hp (set_next_ok h z (Some b) ltac:(auto)).
  hp (set_prev_ok h0 b (Some z) ltac:(rewrite L; apply B; apply Hin; left; auto)).
  exists b, z, h0, h1, (match l1 ++ l2 with [] => 0 | x :: _ => x end).
  split; [|split; [now apply get_next_ok|split; [now apply get_prev_ok|split; [auto|split; [|split; [auto|split; [|split; [congruence|split]]]]]]]].
  - destruct l1 as [|x l1]; simpl in *.
    + inversion Hh; subst hd0. rewrite Nat.eqb_refl. rewrite app_nil_r in E2. subst l2. now apply get_next_ok.
    + inversion Hh; subst x. destruct (Nat.eqb_spec t hd0) as [Q|Q]; auto. exfalso.
      assert (Q2 : In hd0 (b :: q)) by (rewrite <- E2; apply in_app_iff; right; left; auto).
      apply (Ht hd0 Q2). auto.
  - apply get_next_ok. rewrite FN, put_neq; auto. intro; subst. apply (Ht z); auto.
  - assert (Q : ring (fnext h1) (fprev h1) (l2 ++ l1)).
    { rewrite E2. apply K.
      - intros x Hx. rewrite FN0, FN. auto.
      - intros x Hx. rewrite FP0. unfold put. rewrite FP. auto. }
    now apply ring_rot in Q.
  - destruct (l1 ++ l2); simpl; congruence.
  - intro x. rewrite FD0, FD. auto.
Qed.

Lemma remove_at_spec s xs i : rep s xs -> (0 <= i < Z.of_nat (length xs))%Z ->
  exists s', remove_by_index s i = Ok s' /\ rep s' (firstn (Z.to_nat i) xs ++ skipn (S (Z.to_nat i)) xs).
Proof.
  intros (l & R & B & F & Hh & Hc) Hi. unfold remove_by_index, in_range. rewrite Hc.
  destruct (Z.leb_spec (Z.of_nat (length xs)) i); [lia|]. destruct (Z.ltb_spec i 0); [lia|]. cbn [orb negb].
  assert (L := Forall2_length _ _ _ F).
  destruct (Nat.eqb_spec (length xs) 1) as [E1|E1].
  - destruct xs as [|x [|y xs]]; simpl in E1; try lia. assert (i = 0%Z) by (simpl in Hi; lia). subst i.
    eexists; split; [reflexivity|]. simpl. exists []. unfold rep_at; cbn [heap head count].
    split; [split; [constructor|simpl; auto]|]. split; [simpl; tauto|]. split; [constructor|]. auto.
  - destruct (split_len l (Z.to_nat i)) as (l1 & t & l2 & -> & L1); [lia|].
    destruct (Forall2_split _ _ _ _ _ F) as (xs1 & x & xs2 & -> & L2 & F1 & F2 & F3).
    rewrite Hh. destruct (hd_error (l1 ++ t :: l2)) as [a|] eqn:Ea; [|destruct l1; discriminate]. cbn [attr bind].
    rewrite <- L1, (ring_walk (heap s) l1 t l2 a R Ea). cbn [bind].
    destruct (unlink_ok (heap s) l1 t l2 a R) as (tn & tp & h1 & h2 & hd' & A1 & A2 & A3 & A4 & A5 & A6 & A7 & A8 & A9 & A10); auto.
    { intro Q. apply app_eq_nil in Q. destruct Q; subst. rewrite !app_length in *. simpl in *.
      inversion F1; inversion F3; subst. simpl in *. lia. }
    rewrite A1. cbn [bind]. rewrite A2. cbn [bind]. rewrite A3. cbn [bind]. rewrite A4. cbn [bind]. rewrite A5. cbn [bind]. rewrite A6. cbn [bind].
    eexists; split; [reflexivity|]. rewrite <- L2. rewrite firstn_app, Nat.sub_diag, firstn_all. simpl firstn. rewrite app_nil_r.
    replace (skipn (S (length xs1)) (xs1 ++ x :: xs2)) with xs2.
    2:{ replace (xs1 ++ x :: xs2) with ((xs1 ++ [x]) ++ xs2) by now rewrite <- app_assoc.
        replace (S (length xs1)) with (length (xs1 ++ [x])) by (rewrite app_length; simpl; lia).
        rewrite skipn_app, skipn_all, Nat.sub_diag. reflexivity. }
    exists (l1 ++ l2). unfold rep_at; cbn [heap head count]. split; auto. split.
    { intros y Hy. rewrite A8. apply B. rewrite in_app_iff in *. simpl. tauto. }
    split.
    { eapply fdata_frame; [apply Forall2_app; eauto|]. auto. }
    split; auto. rewrite !app_length. simpl. lia.
Qed.

Lemma setitem_spec s xs i d : rep s xs -> (0 <= i < Z.of_nat (length xs))%Z ->
  exists s', setitem s i d = Ok s' /\ rep s' (firstn (Z.to_nat i) xs ++ d :: skipn (S (Z.to_nat i)) xs).
Proof.
  intros (l & R & B & F & Hh & Hc) Hi. unfold setitem, get_node, in_range. rewrite Hc.
  destruct (Z.leb_spec (Z.of_nat (length xs)) i); [lia|]. destruct (Z.ltb_spec i 0); [lia|]. cbn [orb negb].
  assert (L := Forall2_length _ _ _ F).
  destruct (split_len l (Z.to_nat i)) as (l1 & t & l2 & -> & L1); [lia|].
  destruct (Forall2_split _ _ _ _ _ F) as (xs1 & x & xs2 & -> & L2 & F1 & F2 & F3).
  rewrite Hh. destruct (hd_error (l1 ++ t :: l2)) as [a|] eqn:Ea; [|destruct l1; discriminate]. cbn [attr bind].
  rewrite <- L1, (ring_walk (heap s) l1 t l2 a R Ea). cbn [bind].
  hp (set_data_ok (heap s) t d ltac:(apply B; apply in_app_iff; simpl; auto)). rewrite E. cbn [bind].
  eexists; split; [reflexivity|]. rewrite <- L2. rewrite firstn_app, Nat.sub_diag, firstn_all. simpl firstn. rewrite app_nil_r.
  replace (skipn (S (length xs1)) (xs1 ++ x :: xs2)) with xs2.
  2:{ replace (xs1 ++ x :: xs2) with ((xs1 ++ [x]) ++ xs2) by now rewrite <- app_assoc.
      replace (S (length xs1)) with (length (xs1 ++ [x])) by (rewrite app_length; simpl; lia).
      rewrite skipn_app, skipn_all, Nat.sub_diag. reflexivity. }
  exists (l1 ++ t :: l2). unfold rep_at; cbn [heap head count]. split.
  { eapply ring_ext; [exact R| |]; intros; auto. }
  split. { intros y Hy. rewrite L0. auto. }
  split; [|split; [now rewrite Ea|rewrite !app_length in *; simpl in *; lia]].
  destruct R as [N _]. assert (Nt := NoDup_remove_2 _ _ _ N).
  apply Forall2_app; [|constructor].
  - eapply fdata_frame; [exact F1|]. intros y Hy. rewrite FD. destruct (Nat.eqb_spec y t); auto. subst. exfalso. apply Nt. apply in_app_iff; auto.
  - rewrite FD, Nat.eqb_refl. auto.
  - eapply fdata_frame; [exact F3|]. intros y Hy. rewrite FD. destruct (Nat.eqb_spec y t); auto. subst. exfalso. apply Nt. apply in_app_iff; auto.
Qed.

(* removal by value: the loop stops at the first equal item *)
Lemma fdata_node h a x : fdata h a = Some x -> exists n : node, node_at h a = Ok n /\ data n = x.
Proof. unfold fdata, node_at. destruct (nth_error h a) as [n|]; [|discriminate]. intro E; inversion E. eauto. Qed.

Lemma remove_loop_spec s l0 t l2 x d hd0 :
  ring (fnext (heap s)) (fprev (heap s)) (l0 ++ t :: l2) -> l0 ++ l2 <> [] ->
  (forall y, In y (l0 ++ t :: l2) -> y < length (heap s)) ->
  hd_error (l0 ++ t :: l2) = Some hd0 -> head s = Some hd0 ->
  fdata (heap s) t = Some x -> deq veq x d = true ->
  forall l1 l1' xs0 a k, l0 = l1' ++ l1 -> hd_error (l1 ++ t :: l2) = Some a ->
  Forall2 (fun a x => fdata (heap s) a = Some x) l1 xs0 ->
  (forall y, In y xs0 -> deq veq y d = false) -> length l1 < k ->
  exists tn tp h2 hd',
    remove_loop veq s a d k = Ok (mkCdll h2 (Some hd') (count s - 1), t) /\
    ring (fnext h2) (fprev h2) (l0 ++ l2) /\ length h2 = length (heap s) /\ hd_error (l0 ++ l2) = Some hd' /\
    (forall x, fdata h2 x = fdata (heap s) x) /\ fnext h2 t = Some tn /\ fprev h2 t = Some tp.
Proof.
  intros R NE B Hh Hd Dt Ex l1.
  assert (U := unlink_ok (heap s) l0 t l2 hd0 R NE B Hh).
  induction l1 as [|y l1 IH]; intros l1' xs0 a k El Ha F Hx Hk.
  - simpl in Ha. inversion Ha; subst a. destruct k as [|k]; [lia|]. cbn [remove_loop].
    destruct (fdata_node _ _ _ Dt) as (n & En & Dn). rewrite En. cbn [bind]. rewrite Dn, Ex, Hd. cbn [attr bind].
    destruct U as (tn & tp & h1 & h2 & hd' & A1 & A2 & A3 & A4 & A5 & A6 & A7 & A8 & A9 & A10).
    rewrite A1. cbn [bind]. rewrite A2. cbn [bind]. rewrite A3. cbn [bind]. rewrite A4. cbn [bind]. rewrite A5. cbn [bind]. rewrite A6. cbn [bind].
    exists tn, tp, h2, hd'. split; [reflexivity|]. split; [auto|]. split; [auto|]. split; [auto|]. split; [auto|].
    assert (Ltp : tp < length (heap s)).
    { unfold set_next, node_at in A4. destruct (nth_error (heap s) tp) eqn:Q; [|discriminate]. apply nth_error_Some. congruence. }
    hp (set_next_ok (heap s) tp (Some tn) Ltp). rewrite A4 in E. inversion E; subst h.
    assert (Ltn : tn < length h1).
    { unfold set_prev, node_at in A6. destruct (nth_error h1 tn) eqn:Q; [|discriminate]. apply nth_error_Some. congruence. }
    hp (set_prev_ok h1 tn (Some tp) Ltn). rewrite A6 in E0. inversion E0; subst h.
    split.
    + rewrite FN0. unfold get_next, node_at, fnext in *. destruct (nth_error h1 t); [|discriminate]. simpl in A5. destruct (nxt n0); simpl in A5; [congruence|discriminate].
    + rewrite FP0. unfold put. destruct (Nat.eqb_spec t tn) as [Q|Q]; auto.
      rewrite FP. unfold get_prev, node_at, fprev in *. destruct (nth_error (heap s) t); [|discriminate]. simpl in A3. destruct (prv n0); simpl in A3; [congruence|discriminate].
  - simpl in Ha. inversion Ha; subst a. destruct k as [|k]; [simpl in Hk; lia|]. cbn [remove_loop].
    inversion F as [|? z ? zs Dy F']; subst.
    destruct (fdata_node _ _ _ Dy) as (n & En & Dn). rewrite En. cbn [bind]. rewrite Dn, (Hx z) by (left; auto).
    assert (Ny : exists a', hd_error (l1 ++ t :: l2) = Some a' /\ fnext (heap s) y = Some a').
    { assert (exists rest, cyc ((l1' ++ y :: l1) ++ t :: l2) = l1' ++ y :: l1 ++ t :: rest) as [rest Ec].
      { destruct l1' as [|w l1']; simpl.
        - exists (l2 ++ [y]). now rewrite <- app_assoc.
        - exists (l2 ++ [w]). rewrite <- !app_assoc; reflexivity. }
      destruct R as [_ R]. rewrite Ec in R. apply adj_split in R. destruct R as [_ R].
      destruct l1 as [|a' l1]; simpl in *; eexists; split; try reflexivity; apply R. }
    destruct Ny as (a' & Ha' & Ny). rewrite (get_next_ok _ _ _ Ny). cbn [bind].
    apply (IH (l1' ++ [y]) zs); auto.
    + now rewrite <- app_assoc.
    + intros q Hq. apply Hx. right; auto.
    + simpl in Hk. lia.
Qed.

Lemma first_match (xs : list (option V)) d : (exists x, In x xs /\ deq veq x d = true) ->
  exists xs1 x xs2, xs = xs1 ++ x :: xs2 /\ deq veq x d = true /\ (forall y, In y xs1 -> deq veq y d = false) /\
    remove_first (deq veq) d xs = xs1 ++ xs2.
Proof.
  induction xs as [|z xs IH]; intros (x & Hin & E); [destruct Hin|].
  simpl. destruct (deq veq z d) eqn:Ez.
  - exists [], z, xs. simpl. repeat split; auto. tauto.
  - destruct IH as (xs1 & y & xs2 & -> & A & B & C).
    { exists x. split; auto. destruct Hin; auto. subst. congruence. }
    exists (z :: xs1), y, xs2. simpl. split; auto. split; auto. split; [|now rewrite C].
    intros w [<-|Hw]; auto.
Qed.

Lemma remove_spec s xs d : rep s xs -> 2 <= length xs -> (exists x, In x xs /\ deq veq x d = true) ->
  exists s', remove veq s d = Ok s' /\ rep s' (remove_first (deq veq) d xs).
Proof.
  intros (l & R & B & F & Hh & Hc) H2 Hex.
  destruct (first_match xs d Hex) as (xs1 & x & xs2 & -> & Ex & Hx & Er).
  assert (exists l1 t l2, l = l1 ++ t :: l2 /\ length l1 = length xs1) as (l1 & t & l2 & -> & L1).
  { apply split_len. rewrite (Forall2_length _ _ _ F), app_length. simpl. lia. }
  destruct (Forall2_split _ _ _ _ _ F) as (ys1 & y & ys2 & Eq & L2 & F1 & F2 & F3).
  destruct (app_inj_len _ _ _ _ (eq_trans (eq_sym L1) (eq_sym L2)) Eq) as [<- Q]. inversion Q; subst y ys2.
  destruct (hd_error (l1 ++ t :: l2)) as [a|] eqn:Ea; [|destruct l1; discriminate].
  unfold remove. rewrite Hh. cbn [attr bind].
  destruct (remove_loop_spec s l1 t l2 x d a R) with (l1' := @nil nat) (l1 := l1) (xs0 := xs1) (a := a) (k := count s)
    as (tn & tp & h2 & hd' & A1 & A2 & A3 & A4 & A5 & A6 & A7); auto.
  { intro Q'. apply app_eq_nil in Q'. destruct Q'; subst. inversion F1; inversion F3; subst. simpl in *. lia. }
  { rewrite Hc, app_length. simpl. lia. }
  rewrite A1. cbn [bind heap head count]. rewrite (get_next_ok _ _ _ A6). cbn [bind].
  assert (Bt : t < length h2). { rewrite A3. apply B. apply in_app_iff; simpl; auto. }
  hp (set_next_ok h2 t None Bt). rewrite E. cbn [bind].
  rewrite (get_prev_ok h t tp) by (rewrite FP; auto). cbn [bind].
  hp (set_prev_ok h t None ltac:(lia)). rewrite E0. cbn [bind].
  eexists; split; [reflexivity|]. rewrite Er. exists (l1 ++ l2). unfold rep_at; cbn [heap head count].
  destruct R as [N _]. assert (Nt := NoDup_remove_2 _ _ _ N).
  split.
  { eapply ring_ext; [exact A2| |].
    - intros z Hz. rewrite FN0, FN, put_neq; auto. intro; subst; auto.
    - intros z Hz. rewrite FP0, put_neq, FP; auto. intro; subst; auto. }
  split. { intros z Hz. rewrite L0, L, A3. apply B. rewrite in_app_iff in *. simpl. tauto. }
  split. { eapply fdata_frame; [apply Forall2_app; eauto|]. intros z Hz. now rewrite FD0, FD, A5. }
  split; auto. rewrite Hc, !app_length. simpl. lia.
Qed.

(* ---------- observers ---------- *)
Lemma get_spec s xs i : rep s xs -> (- Z.of_nat (length xs) <= i < Z.of_nat (length xs))%Z ->
  exists x, get s i = Ok x /\ nth_error xs (Z.to_nat (if (i <? 0)%Z then Z.of_nat (length xs) + i else i)) = Some x.
Proof.
  intros (l & R & B & F & Hh & Hc) Hi. unfold get. rewrite Hc.
  replace ((i <? 0)%Z || (i <? Z.of_nat (length xs))%Z) with true.
  2:{ symmetry. apply orb_true_iff. right. apply Z.ltb_lt. lia. }
  set (j := if (i <? 0)%Z then (Z.of_nat (length xs) + i)%Z else i).
  assert (Hj : (0 <= j < Z.of_nat (length xs))%Z) by (subst j; destruct (Z.ltb_spec i 0); lia).
  assert (L := Forall2_length _ _ _ F).
  destruct (split_len l (Z.to_nat j)) as (l1 & t & l2 & -> & L1); [lia|].
  destruct (Forall2_split _ _ _ _ _ F) as (xs1 & x & xs2 & -> & L2 & F1 & F2 & F3).
  rewrite Hh. destruct (hd_error (l1 ++ t :: l2)) as [a|] eqn:Ea; [|destruct l1; discriminate]. cbn [attr bind].
  rewrite <- L1, (ring_walk (heap s) l1 t l2 a R Ea). cbn [bind].
  destruct (fdata_node _ _ _ F2) as (n & En & Dn). rewrite En. cbn [bind]. rewrite Dn.
  exists x. split; auto. rewrite <- L2. rewrite nth_error_app2, Nat.sub_diag by lia. reflexivity.
Qed.

Lemma iter_loop_spec h hd0 : forall l1 xs a fuel, hd_error (l1 ++ [hd0]) = Some a ->
  adj (lk (fnext h) (fprev h)) (l1 ++ [hd0]) -> ~ In hd0 l1 ->
  Forall2 (fun a x => fdata h a = Some x) l1 xs -> length l1 < fuel ->
  iter_loop (V := V) fuel h hd0 a = Ok xs.
Proof.
  induction l1 as [|y l1 IH]; intros xs a fuel Ha R N F Hf; (destruct fuel as [|fuel]; [simpl in Hf; lia|]).
  - simpl in Ha. inversion Ha; subst. inversion F; subst. simpl. now rewrite Nat.eqb_refl.
  - simpl in Ha. inversion Ha; subst a. inversion F as [|? x ? xs' D F']; subst. cbn [iter_loop].
    destruct (Nat.eqb_spec y hd0) as [->|Hne]; [exfalso; apply N; left; auto|].
    destruct (fdata_node _ _ _ D) as (n & En & Dn). rewrite En. cbn [bind].
    assert (Ny : exists a', hd_error (l1 ++ [hd0]) = Some a' /\ fnext h y = Some a' /\ adj (lk (fnext h) (fprev h)) (l1 ++ [hd0])).
    { simpl in R. destruct (l1 ++ [hd0]) as [|a' q] eqn:Eq; [destruct l1; discriminate|]. destruct R as [[R1 _] R2]. simpl. eauto. }
    destruct Ny as (a' & Ha' & Ny & R'). rewrite (get_next_ok _ _ _ Ny). cbn [bind].
    rewrite (IH xs' a' fuel); auto; [simpl; now rewrite Dn| |simpl in Hf; lia].
    intro Q. apply N. right; auto.
Qed.

Lemma nodup_bound (l : list nat) n : NoDup l -> (forall a, In a l -> a < n) -> length l <= n.
Proof.
  intros N B. rewrite <- (seq_length n 0). apply NoDup_incl_length; auto.
  intros a Ha. apply in_seq. specialize (B a Ha). lia.
Qed.

Lemma iter_spec s xs : rep s xs -> iter s = Ok (match xs with [] => [None] | _ => xs end).
Proof.
  intros (l & [N R] & B & F & Hh & Hc). unfold iter. rewrite Hh.
  destruct F as [|a x l xs D F]; [reflexivity|]. cbn [hd_error].
  destruct (fdata_node _ _ _ D) as (n & En & Dn). rewrite En. cbn [bind].
  assert (NB := nodup_bound _ _ N B). rewrite cyc_cons in R.
  assert (Ny : exists a', hd_error (l ++ [a]) = Some a' /\ fnext (heap s) a = Some a' /\ adj (lk (fnext (heap s)) (fprev (heap s))) (l ++ [a])).
  { simpl in R. destruct (l ++ [a]) as [|a' q] eqn:Eq; [destruct l; discriminate|]. destruct R as [[R1 _] R2]. simpl. eauto. }
  destruct Ny as (a' & Ha' & Ny & R'). rewrite (get_next_ok _ _ _ Ny). cbn [bind].
  assert (Na : ~ In a l) by (inversion N; auto).
  rewrite (iter_loop_spec (heap s) a l xs a') by (auto; simpl in NB; lia). simpl. now rewrite Dn.
Qed.

Lemma nth_cyc (l : list nat) a i : hd_error l = Some a -> i < length l ->
  nth_error (cyc l) (S i) = nth_error l ((i + 1) mod length l).
Proof.
  intros Ha Hi. destruct l as [|b l]; [discriminate|]. simpl in Ha. inversion Ha; subst b.
  change (cyc (a :: l)) with ((a :: l) ++ [a]).
  destruct (Nat.eq_dec (S i) (length (a :: l))) as [E|E].
  - rewrite E, nth_error_app2, Nat.sub_diag by lia. replace (i + 1) with (length (a :: l)) by lia.
    rewrite Nat.mod_same by (simpl; lia). reflexivity.
  - rewrite nth_error_app1 by lia. rewrite Nat.mod_small by lia. f_equal. lia.
Qed.

Lemma nth_cyc0 (l : list nat) i : i < length l -> nth_error (cyc l) i = nth_error l i.
Proof. intros Hi. destruct l as [|b l]; [simpl in Hi; lia|]. unfold cyc. apply nth_error_app1. auto. Qed.

Lemma rep_is_ring s l xs : rep_at s l xs -> is_ring s l xs.
Proof.
  intros ([N R] & B & F & Hh & Hc). unfold is_ring. split; auto. split; [eapply Forall2_length; eauto|]. split; auto.
  split; [rewrite Hh; destruct l; auto|]. intros i a x Ha Hx.
  assert (Hi : i < length l) by (apply nth_error_Some; congruence).
  assert (Hd : exists b, hd_error l = Some b) by (destruct l; simpl in *; [lia|eauto]). destruct Hd as (b & Hd).
  assert (D : fdata (heap s) a = Some x).
  { clear - F Ha Hx. revert i Ha Hx. induction F; intros [|i] Ha Hx; simpl in *; try discriminate; [congruence|eauto]. }
  destruct (fdata_node _ _ _ D) as (n & En & Dn). exists n.
  assert (En' : nth_error (heap s) a = Some n). { unfold node_at in En. destruct (nth_error (heap s) a); congruence. }
  split; auto. split; auto.
  assert (Q : forall i, i < length l -> exists u v, nth_error l i = Some u /\ nth_error l ((i + 1) mod length l) = Some v /\ lk (fnext (heap s)) (fprev (heap s)) u v).
  { intros j Hj. destruct (nth_error l j) as [u|] eqn:Eu; [|apply nth_error_None in Eu; lia].
    destruct (nth_error l ((j + 1) mod length l)) as [v|] eqn:Ev.
    2:{ apply nth_error_None in Ev. pose proof (Nat.mod_upper_bound (j + 1) (length l)). lia. }
    exists u, v. split; auto. split; auto. eapply (adj_nth _ (cyc l) j); auto; [rewrite nth_cyc0; auto|rewrite (nth_cyc l b); auto]. }
  split.
  - destruct (Q i Hi) as (u & v & Hu & Hv & [K1 K2]). rewrite Ha in Hu. inversion Hu; subst u. unfold fnext in K1. rewrite En' in K1. now rewrite Hv.
  - set (m := length l) in *. set (j := (i + m - 1) mod m).
    assert (Hj : j < m) by (apply Nat.mod_upper_bound; lia).
    destruct (Q j Hj) as (u & v & Hu & Hv & [K1 K2]).
    assert (Em : (j + 1) mod m = i).
    { subst j. rewrite Nat.add_mod_idemp_l by lia. replace (i + m - 1 + 1) with (i + 1 * m) by lia.
      rewrite Nat.mod_add by lia. now apply Nat.mod_small. }
    rewrite Em, Ha in Hv. inversion Hv; subst v. unfold fprev in K2. rewrite En' in K2. now rewrite K2, Hu.
Qed.

(* ---------- histories ---------- *)
Lemma step_spec s xs o : rep s xs -> legal veq xs o ->
  exists s', cdll_step veq s o = Ok s' /\ rep s' (seq_step veq xs o).
Proof.
  intros R. destruct o as [d|d|d i|i|d|i d]; simpl; intro H.
  - now apply append_spec.
  - now apply append_node_spec.
  - now apply insert_spec.
  - now apply remove_at_spec.
  - destruct H as [H1 H2]. apply remove_spec; auto. lia.
  - now apply setitem_spec.
Qed.

Lemma run_spec ops : forall s xs, rep s xs -> legal_run veq xs ops ->
  exists s', cdll_run veq s ops = Ok s' /\ rep s' (seq_run veq xs ops).
Proof.
  induction ops as [|o ops IH]; intros s xs R H.
  - exists s. split; auto.
  - destruct H as [H1 H2]. destruct (step_spec s xs o R H1) as (s1 & E1 & R1).
    destruct (IH s1 _ R1 H2) as (s2 & E2 & R2). exists s2. split; [cbn [cdll_run]; rewrite E1; exact E2|exact R2].
Qed.

Lemma rep_new : rep cdll_new [].
Proof.
  exists []. unfold rep_at; simpl. split; [split; [constructor|simpl; auto]|]. split; [tauto|]. split; [constructor|]. auto.
Qed.

Lemma cdll_history ops : legal_run veq [] ops ->
  exists s addrs, cdll_run veq cdll_new ops = Ok s /\
    let xs := seq_run veq [] ops in
    is_ring s addrs xs /\ (xs <> [] -> iter s = Ok xs) /\
    forall i, (0 <= i < Z.of_nat (length xs))%Z -> exists x, get s i = Ok x /\ nth_error xs (Z.to_nat i) = Some x.
Proof.
  intro H. destruct (run_spec ops cdll_new [] rep_new H) as (s & E & R). pose proof R as R'. destruct R' as (l & Rl).
  exists s, l. split; auto. split; [now apply rep_is_ring|]. split.
  - intro NE. rewrite (iter_spec s _ R). destruct (seq_run veq [] ops); congruence.
  - intros i Hi. destruct (get_spec s _ i R) as (x & A & B); [lia|]. exists x. split; auto.
    destruct (Z.ltb_spec i 0); [lia|auto].
Qed.

(* out-of-range calls raise and change nothing (the state is returned only by Ok) *)
Lemma cdll_range ops i d : legal_run veq [] ops ->
  exists s, cdll_run veq cdll_new ops = Ok s /\
    let n := Z.of_nat (length (seq_run veq [] ops)) in
    ((i < 0 \/ n <= i)%Z -> remove_by_index s i = Err ValueError /\ setitem s i d = Err ValueError) /\
    ((i < 0 \/ n < i)%Z -> insert s d i = Err ValueError) /\
    ((n <= i)%Z -> get s i = Err ValueError).
Proof.
  intro H. destruct (run_spec ops cdll_new [] rep_new H) as (s & E & (l & R & B & F & Hh & Hc)).
  exists s. split; auto. cbv zeta. repeat split; intros.
  - unfold remove_by_index, in_range. rewrite Hc. destruct (Z.leb_spec (Z.of_nat (length (seq_run veq [] ops))) i), (Z.ltb_spec i 0); simpl; auto; lia.
  - unfold setitem, get_node, in_range. rewrite Hc. destruct (Z.leb_spec (Z.of_nat (length (seq_run veq [] ops))) i), (Z.ltb_spec i 0); simpl; auto; lia.
  - unfold insert. rewrite Hc. destruct (Z.ltb_spec (Z.of_nat (length (seq_run veq [] ops))) i), (Z.ltb_spec i 0); simpl; auto; lia.
  - unfold get. rewrite Hc. destruct (Z.ltb_spec i (Z.of_nat (length (seq_run veq [] ops)))), (Z.ltb_spec i 0); simpl; auto; lia.
Qed.

(* index(d): position of the first equal item *)
Lemma index_loop_spec h d : forall l1 xs a i rest, hd_error (l1 ++ rest) = Some a \/ l1 = [] ->
  adj (lk (fnext h) (fprev h)) (l1 ++ rest) -> (l1 <> [] -> rest <> []) ->
  Forall2 (fun a x => fdata h a = Some x) l1 xs ->
  index_loop veq h a d i (length l1) = Ok (first_index (deq veq) d xs i).
Proof.
  induction l1 as [|y l1 IH]; intros xs a i rest Ha R N F; inversion F as [|? x ? xs' D F']; subst.
  - reflexivity.
  - destruct Ha as [Ha|Ha]; [|discriminate]. simpl in Ha. inversion Ha; subst a. cbn [index_loop length first_index].
    destruct (fdata_node _ _ _ D) as (n & En & Dn). rewrite En. cbn [bind]. rewrite Dn.
    destruct (deq veq x d); auto.
    assert (Ny : exists a', hd_error (l1 ++ rest) = Some a' /\ fnext h y = Some a' /\ adj (lk (fnext h) (fprev h)) (l1 ++ rest)).
    { simpl in R. destruct (l1 ++ rest) as [|a' q] eqn:E.
      - apply app_eq_nil in E. destruct E. exfalso. apply N; [discriminate|auto].
      - destruct R as [[R1 _] R2]. simpl. eauto. }
    destruct Ny as (a' & Ha' & Ny & R'). rewrite (get_next_ok _ _ _ Ny). cbn [bind].
    apply (IH xs' a' (S i) rest); auto. intros _. apply N. discriminate.
Qed.

Lemma index_spec s xs d : rep s xs -> index veq s d = Ok (first_index (deq veq) d xs 0).
Proof.
  intros (l & [N R] & B & F & Hh & Hc). unfold index. rewrite Hc. assert (L := Forall2_length _ _ _ F).
  destruct l as [|a l]; [inversion F; subst; reflexivity|].
  destruct xs as [|x xs]; [simpl in L; lia|]. rewrite Hh. cbn [length hd_error attr bind].
  replace (S (length xs)) with (length (a :: l)) by (simpl in *; lia).
  apply (index_loop_spec (heap s) d (a :: l) (x :: xs) a 0 [a]); auto. discriminate.
Qed.

Lemma cdll_observe ops : legal_run veq [] ops ->
  exists s, cdll_run veq cdll_new ops = Ok s /\
    let xs := seq_run veq [] ops in
    (forall d, index veq s d = Ok (first_index (deq veq) d xs 0)) /\
    (forall k, (1 <= k <= Z.of_nat (length xs))%Z ->
        exists x, get s (- k) = Ok x /\ nth_error xs (length xs - Z.to_nat k) = Some x).
Proof.
  intro H. destruct (run_spec ops cdll_new [] rep_new H) as (s & E & R).
  exists s. split; auto. split.
  - intro d. now apply index_spec.
  - intros k Hk. destruct (get_spec s _ (- k) R) as (x & A & C); [lia|]. exists x. split; auto.
    destruct (Z.ltb_spec (- k) 0); [|lia]. rewrite <- C. f_equal. lia.
Qed.

(* insert at the front of a non-empty list: the new item comes first but the old
   first item is moved to the end *)
Lemma insert_front s x xs d : rep s (x :: xs) ->
  exists s', insert s d 0 = Ok s' /\ rep s' (d :: xs ++ [x]).
Proof.
  intros (l & R). destruct l as [|t l2]; [apply rep_length in R; discriminate|].
  destruct (insert_core s [] t l2 [] x xs d 0 R) as (h & E & A1 & A2 & A3); [reflexivity|reflexivity|lia|].
  eexists; split; [exact E|]. destruct R as (_ & _ & _ & Hh & Hc). exists (length (heap s) :: l2 ++ [t]).
  unfold rep_at; cbn [heap head count]. simpl in A1, A2, A3. split; [|split; [|split; [|split]]].
  - apply (ring_rot _ _ [t] (length (heap s) :: l2)). exact A1.
  - intros y Hy. apply A2. simpl in *. rewrite in_app_iff in Hy. simpl in Hy. tauto.
  - inversion A3 as [|? ? ? ? D1 A4]; subst. inversion A4 as [|? ? ? ? D2 A5]; subst.
    constructor; auto. apply Forall2_app; auto.
  - reflexivity.
  - rewrite Hc. simpl. rewrite app_length. simpl. lia.
Qed.

Lemma cdll_front ops x xs d : legal_run veq [] ops -> seq_run veq [] ops = x :: xs ->
  exists s s', cdll_run veq cdll_new ops = Ok s /\ insert s d 0 = Ok s' /\ iter s' = Ok (d :: xs ++ [x]).
Proof.
  intros H E0. destruct (run_spec ops cdll_new [] rep_new H) as (s & E & R). rewrite E0 in R.
  destruct (insert_front s x xs d R) as (s' & E' & R'). exists s, s'. split; auto. split; auto.
  now rewrite (iter_spec s' _ R').
Qed.

Lemma cdll_remove_present ops d : legal_run veq [] ops -> 2 <= length (seq_run veq [] ops) ->
  (exists x, In x (seq_run veq [] ops) /\ deq veq x d = true) ->
  exists s s', cdll_run veq cdll_new ops = Ok s /\ remove veq s d = Ok s' /\
    exists addrs, is_ring s' addrs (remove_first (deq veq) d (seq_run veq [] ops)).
Proof.
  intros H L X. destruct (run_spec ops cdll_new [] rep_new H) as (s & E & R).
  destruct (remove_spec s _ d R L X) as (s' & E' & (l & R')). exists s, s'. split; auto. split; auto.
  exists l. now apply rep_is_ring.
Qed.
End P.
