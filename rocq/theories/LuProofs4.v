(* Linear systems: the statements of the properties. *)
From Coq Require Import List Arith ZArith Bool QArith Qcanon Permutation Lia.
From Verif Require Import Common ListLib QcLib SumLib LuModel LuSpec LuProofs1 LuProofs2 LuProofs3.
Import ListNotations.
Local Open Scope Qc_scope.

Lemma factored_product n G F P r c : factored n n G F P -> (r < n)%nat -> (c < n)%nat -> G (nth r P 0%nat) c = mulm n (low F) (upp F) r c.
Proof.
  intros Fa Hr Hc. rewrite (Fa r c Hr Hc). replace (Nat.min n r) with r by lia. unfold mulm.
  transitivity (sumn n (fun k => (if (k <? Nat.min r (S c))%nat then F r k * F k c else 0) + (if (k =? r)%nat then (if (c <? r)%nat then 0 else F r c) else 0))).
  - rewrite sumn_add. rewrite (sumn_one n r (fun k => if (k =? r)%nat then (if (c <? r)%nat then 0 else F r c) else 0)).
    + rewrite Nat.eqb_refl. f_equal. apply sumn_trunc. lia.
    + auto.
    + intros k _ Nk. destruct (Nat.eqb_spec k r); [lia|auto].
  - apply sumn_ext. intros k Hk. unfold low, upp, ident.
    destruct (Nat.ltb_spec k (Nat.min r (S c))); destruct (Nat.eqb_spec k r); destruct (Nat.ltb_spec k r); destruct (Nat.leb_spec k c); destruct (Nat.eqb_spec r k); destruct (Nat.ltb_spec c r); subst; try lia; ring.
Qed.
Lemma fabs_le1 x : fabs x <= 1 -> - (1) <= x /\ x <= 1.
Proof. intro H. destruct (fabs_cases x) as [(A & E)|(A & E)]; rewrite E in H; split; qlra. Qed.

Lemma lu_factors n A P0 LU P : square n A -> length P0 = n -> lu_decomposition A P0 = Ok (LU, P) ->
  square n LU /\ is_perm n P /\
  (forall r c, (r < n)%nat -> (c < n)%nat -> ent A (nth r P 0%nat) c = mulm n (low (ent LU)) (upp (ent LU)) r c) /\
  (forall r k, (r < n)%nat -> (k < r)%nat -> - (1) <= ent LU r k /\ ent LU r k <= 1).
Proof.
  intros Q L E. destruct (lu_ok n A P0 Q L) as [(st & E' & F & R & HP & Fa & Mu & Pv)|(E' & _)]; [|congruence].
  rewrite E in E'. assert (st = (LU, P)) by congruence. subst st. cbn [fst snd] in *. destruct R as (QL & R). split; auto. split; auto. split.
  - intros r c Hr Hc. rewrite (factored_product n _ F P r c Fa Hr Hc). unfold mulm. apply sumn_ext. intros k Hk. unfold low, upp.
    destruct (k <? r)%nat; destruct (k <=? c)%nat; rewrite ?R by auto; reflexivity.
  - intros r k Hr Hk. rewrite R by lia. apply fabs_le1. apply Mu; lia.
Qed.

Lemma lu_solves n A P0 LU P b y0 x0 : square n A -> length P0 = n -> length b = n -> length y0 = n -> length x0 = n -> lu_decomposition A P0 = Ok (LU, P) ->
  (nonsingular n (ent A) /\ exists x, lu_solve LU P b y0 x0 = Ok x /\ length x = n /\ forall r, (r < n)%nat -> mulv n (ent A) (fun c => nth c x 0) r = nth r b 0) \/
  (~ nonsingular n (ent A) /\ lu_solve LU P b y0 x0 = Err ZeroDivision).
Proof.
  intros Q L Lb Ly Lx E. destruct (lu_ok n A P0 Q L) as [(st & E' & F & R & HP & Fa & Mu & Pv)|(E' & _)]; [|congruence].
  rewrite E in E'. assert (st = (LU, P)) by congruence. subst st. cbn [fst snd] in *.
  destruct (solve_ok n (ent A) LU F P b y0 x0 R HP Fa Lb Ly Lx) as [H|(H & k & Hk & Z)]; [left; auto|right]. split; auto. eapply zero_diag_singular; eauto.
Qed.
Lemma lu_solve_spec n A P0 b y0 x0 : square n A -> length P0 = n -> length b = n -> length y0 = n -> length x0 = n -> nonsingular n (ent A) ->
  exists LU P x, lu_decomposition A P0 = Ok (LU, P) /\ lu_solve LU P b y0 x0 = Ok x /\ length x = n /\ forall r, (r < n)%nat -> mulv n (ent A) (fun c => nth c x 0) r = nth r b 0.
Proof.
  intros Q L Lb Ly Lx NS. destruct (lu_ok n A P0 Q L) as [((LU, P) & E & _)|(E & i & F & P & Hi & HP & Fa & Pv & Z)].
  - destruct (lu_solves n A P0 LU P b y0 x0 Q L Lb Ly Lx E) as [(_ & x & H)|(H & _)]; [|contradiction]. exists LU, P, x. tauto.
  - exfalso. eapply no_pivot_singular; eauto.
Qed.

Lemma invert_spec n A R0 P0 b0 x0 y0 : square n A -> square n R0 -> length P0 = n -> length b0 = n -> length x0 = n -> length y0 = n -> (0 < n)%nat ->
  (nonsingular n (ent A) -> exists LU R, invert_matrix A R0 P0 b0 x0 y0 = Ok (LU, R) /\ square n R /\
     forall r c, (r < n)%nat -> (c < n)%nat -> mulm n (ent A) (ent R) r c = ident r c /\ mulm n (ent R) (ent A) r c = ident r c) /\
  (~ nonsingular n (ent A) -> invert_matrix A R0 P0 b0 x0 y0 = Err ZeroDivision).
Proof.
  intros QA QR LP Lb Lx Ly Pn. destruct (invert_ok n A R0 P0 b0 x0 y0 QA QR LP Lb Lx Ly Pn) as [(NS & LU & R & P & E & _ & QM & H)|(NS & E)]; split; try contradiction; auto.
  intros _. exists LU, R. split; auto. split; auto. intros r c Hr Hc. split; auto. apply left_inverse; auto.
Qed.

Lemma zeros_square n : square n (mkM (repeat 0 (n * n)) n n).
Proof. repeat split. apply repeat_length. Qed.
Lemma inv_argument n arr P0 b0 x0 y0 arr' R : square n arr -> length P0 = n -> length b0 = n -> length x0 = n -> length y0 = n -> (0 < n)%nat ->
  inv arr P0 b0 x0 y0 = Ok (arr', R) ->
  exists P, is_perm n P /\ (forall r c, (r < n)%nat -> (c < n)%nat -> ent arr (nth r P 0%nat) c = mulm n (low (ent arr')) (upp (ent arr')) r c) /\
    forall r c, (r < n)%nat -> (c < n)%nat -> mulm n (ent arr) (ent R) r c = ident r c.
Proof.
  intros Q LP Lb Lx Ly Pn E. unfold inv in E. assert (Q' := Q). destruct Q' as (Q1 & Q2 & Q3). rewrite Q1, Q2 in E.
  destruct (invert_ok n arr _ P0 b0 x0 y0 Q (zeros_square n) LP Lb Lx Ly Pn) as [(NS & LU & M & P & E' & EL & QM & H)|(NS & E')]; rewrite E in E'; [|discriminate].
  assert (LU = arr' /\ M = R) as [-> ->] by (split; congruence). exists P. destruct (lu_factors n arr P0 arr' P Q LP EL) as (_ & HP & HF & _). auto.
Qed.

(* the 2 x 2 case of row_reduce without exchange and without regularisation *)
Lemma reduce_2x2 a b c d : fabs c <= fabs a -> TOO_SMALL <= fabs a -> TOO_SMALL <= fabs (d - c / a * b) ->
  row_reduce 2 [[a; b]; [c; d]] = Ok [[a; b]; [0; d - c / a * b]].
Proof.
  intros H1 H2 H3. assert (NA : a <> 0) by (intro E; rewrite E, fabs_0 in H2; assert (T := too_small_pos); qlra).
  unfold row_reduce, loop. cbn [Nat.sub loopN]. unfold rr_step, rr_pivot, rget, rset, wr, loop.
  cbn [getR nth_error bind Nat.add Nat.sub loopN fst snd length Nat.ltb Nat.leb upd Nat.eqb].
  rewrite (proj2 (qlt_false (fabs a) (fabs c)) H1). cbn [bind Nat.eqb getR nth_error].
  rewrite (proj2 (qlt_false (fabs a) TOO_SMALL) H2). cbn [bind getR nth_error].
  rewrite (proj2 (qeq_false a 0) NA). cbn [bind getR nth_error upd length Nat.ltb Nat.leb Nat.sub loopN Nat.eqb].
  rewrite (proj2 (qlt_false (fabs (d - c / a * b)) TOO_SMALL) H3). cbn [bind].
  do 4 f_equal. field. auto.
Qed.
Lemma solve_2x2 a b c d b0 b1 : fabs c <= fabs a -> TOO_SMALL <= fabs a -> TOO_SMALL <= fabs (d - c / a * b) ->
  exists U x0 x1, row_reduce 2 [[a; b]; [c; d]] = Ok U /\ back_solve U [b0; b1] = Ok [x0; x1] /\
    a * x0 + b * x1 = b0 /\ c * x0 + d * x1 = b1 + c / a * b0.
Proof.
  intros H1 H2 H3. assert (NA : a <> 0) by (intro E; rewrite E, fabs_0 in H2; assert (T := too_small_pos); qlra).
  destruct (reduce_and_solve 2 [[a; b]; [c; d]] [b0; b1]) as (U & x & E & Ex & _ & _ & L & H); [split; [auto|repeat constructor]|auto|].
  rewrite (reduce_2x2 a b c d H1 H2 H3) in E. assert (U = [[a; b]; [0; d - c / a * b]]) by congruence. subst U.
  destruct x as [|x0 [|x1 [|]]]; cbn in L; try lia. exists [[a; b]; [0; d - c / a * b]], x0, x1. split; [now apply reduce_2x2|]. split; auto.
  assert (G0 := H 0%nat ltac:(lia)). assert (G1 := H 1%nat ltac:(lia)). unfold mulv, rent in G0, G1. cbn in G0, G1.
  assert (E0 : a * x0 + b * x1 = b0) by (rewrite <- G0; ring). assert (E1 : (d - c / a * b) * x1 = b1) by (rewrite <- G1; ring).
  split; auto. rewrite <- E0, <- E1. field. auto.
Qed.

Lemma away_fabs x : away x <-> TOO_SMALL <= fabs x.
Proof. unfold away. fold TOO_SMALL. assert (T := too_small_pos). destruct (fabs_cases x) as [(A & ->)|(A & ->)]; split; intro H; try (destruct H as [H|H]); try (left; qlra); try (right; qlra); try qlra. Qed.
Lemma within_fabs c a : within_mag c a -> fabs c <= fabs a.
Proof. intros [(A & B)|(A & B)]; destruct (fabs_cases c) as [(C & ->)|(C & ->)]; destruct (fabs_cases a) as [(D & ->)|(D & ->)]; qlra. Qed.
Lemma sorted_unique (l l' : list nat) : Sorted.StronglySorted lt l -> Sorted.StronglySorted lt l' -> (forall i, In i l <-> In i l') -> l = l'.
Proof.
  intro H. revert l'. induction H as [|a l Hs IH Ha]; intros l' H' E.
  - destruct l' as [|b l']; auto. exfalso. apply (E b). left; auto.
  - destruct H' as [|b l' Hs' Hb]; [exfalso; apply (E a); left; auto|]. rewrite Forall_forall in Ha, Hb.
    assert (a = b).
    { assert (X : In a (b :: l')) by (apply E; left; auto). assert (Y : In b (a :: l)) by (apply E; left; auto).
      destruct X as [->|X]; auto. destruct Y as [->|Y]; auto. specialize (Ha _ Y). specialize (Hb _ X). lia. }
    subst b. f_equal. apply IH; auto. intro i. split; intro X.
    + assert (Z : In i (a :: l')) by (apply E; right; auto). destruct Z as [->|Z]; auto. specialize (Ha _ X). lia.
    + assert (Z : In i (a :: l)) by (apply E; right; auto). destruct Z as [->|Z]; auto. specialize (Hb _ X). lia.
Qed.
Lemma reduced_hessian_spec n active H fr : length active = n -> rsquare n H -> zeros_of active fr ->
  exists R, form_reduced_hessian active H = Ok R /\ rsquare (length fr) R /\
    forall a b, (a < length fr)%nat -> (b < length fr)%nat -> rent R a b = rent H (nth a fr 0%nat) (nth b fr 0%nat).
Proof.
  intros L Q (S1 & S2). assert (fr = free_indices active).
  { apply sorted_unique; auto; [apply free_sorted|]. intro i. rewrite S2. symmetry. apply in_free. }
  subst fr. eapply reduced_hessian_ok; eauto.
Qed.
Lemma reduce_and_solve_spec n A b : rsquare n A -> length b = n ->
  exists U x, row_reduce n A = Ok U /\ back_solve U b = Ok x /\
    (forall r c, (r < n)%nat -> (c < r)%nat -> rent U r c = 0) /\ (forall k, (k < n)%nat -> away (rent U k k)) /\
    length x = n /\ forall r, (r < n)%nat -> mulv n (rent U) (fun c => nth c x 0) r = nth r b 0.
Proof.
  intros Q L. destruct (reduce_and_solve n A b Q L) as (U & x & H1 & H2 & H3 & H4 & H5). exists U, x. repeat (split; auto). intros k Hk. apply away_fabs. auto.
Qed.
Lemma solve_2x2_wrong a b c d b0 b1 : within_mag c a -> away a -> away (d - c / a * b) ->
  exists U x0 x1, row_reduce 2 [[a; b]; [c; d]] = Ok U /\ back_solve U [b0; b1] = Ok [x0; x1] /\
    a * x0 + b * x1 = b0 /\ (c * x0 + d * x1 = b1 <-> c = 0 \/ b0 = 0).
Proof.
  intros H1 H2 H3. assert (NA : a <> 0) by (intro E; subst a; destruct H2 as [H2|H2]; vm_compute in H2; apply H2; reflexivity).
  apply away_fabs in H2. apply away_fabs in H3. apply within_fabs in H1.
  destruct (solve_2x2 a b c d b0 b1 H1 H2 H3) as (U & x0 & x1 & E1 & E2 & E3 & E4). exists U, x0, x1. repeat (split; auto).
  - intro E. assert (Z : c / a * b0 = 0) by (rewrite E in E4; clear - E4; qlra). apply Qcmult_integral in Z. destruct Z as [Z|Z]; auto. left.
    replace c with (c / a * a) by (field; auto). rewrite Z. ring.
  - intros [E|E]; rewrite E4, E; field; auto.
Qed.
