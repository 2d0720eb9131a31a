(* The searches: proofs. *)
From Coq Require Import List Arith ZArith Bool QArith Qcanon Lia Lqa.
From Verif Require Import Common ListLib QcLib SumLib BezModel DacModel DacSpec.
Import ListNotations.
Open Scope Qc_scope.

Lemma div_q2 x : x / q2 = x * Q2Qc (1 # 2).
Proof. unfold Qcdiv. f_equal. Qed.
Lemma div_q4 x : x / q4 = x * Q2Qc (1 # 4).
Proof. unfold Qcdiv. f_equal. Qed.
Ltac qd := rewrite ?div_q2, ?div_q4 in *.

(* ---- geometric sequences ---- *)
Lemma archimedes x : exists n, x < zq (Z.of_nat n).
Proof.
  destruct x as [[p q] C]. exists (Z.to_nat (Z.abs p + 1)). apply qc_lt_Q. unfold zq. rewrite this_Q2Qc. cbn [this]. unfold Qlt. cbn.
  rewrite Z2Nat.id by lia. nia.
Qed.
Lemma pow_nonneg r n : 0 <= r -> 0 <= r ^ n.
Proof. intro H. induction n as [|n IH]; [cbn; qlra|]. rewrite pow_S. apply qc_mul_nonneg; auto. Qed.
Lemma pow_bound r n : 0 <= r -> r <= 1 -> r ^ n * (1 + zq (Z.of_nat n) * (1 - r)) <= 1.
Proof.
  intros H0 H1. induction n as [|n IH].
  - change (Z.of_nat 0) with 0%Z. rewrite zq_0. cbn [Qcpower]. qlra.
  - rewrite pow_S. rewrite Nat2Z.inj_succ, <- Z.add_1_r, zq_add, zq_1. assert (P := pow_nonneg r n H0). assert (N : 0 <= zq (Z.of_nat n)) by (rewrite <- zq_0; apply zq_le; lia).
    set (p := r ^ n) in *. set (k := zq (Z.of_nat n)) in *. clearbody p k.
    assert (Q : 0 <= p * ((k + 1) * ((1 - r) * (1 - r)))).
    { apply qc_mul_nonneg; auto. apply qc_mul_nonneg; [qlra|]. apply qc_mul_nonneg; qlra. }
    replace (r * p * (1 + (k + 1) * (1 - r))) with (p * (1 + k * (1 - r)) - p * ((k + 1) * ((1 - r) * (1 - r)))) by ring. qlra.
Qed.
Lemma shrinks w r tol : 0 <= r -> r < 1 -> 0 < tol -> exists n, w * r ^ n < tol.
Proof.
  intros H0 H1 HT. destruct (archimedes (w / (tol * (1 - r)))) as [n Hn]. exists n.
  assert (D : 0 < tol * (1 - r)) by (apply qc_mul_pos; auto; qlra).
  assert (W : w < tol * (1 + zq (Z.of_nat n) * (1 - r))).
  { assert (E : w = w / (tol * (1 - r)) * (tol * (1 - r))) by (assert (NZ : tol * (1 - r) <> 0) by (intro X; rewrite X in D; qlra); set (d := tol * (1 - r)) in *; clearbody d; field; auto).
    set (z := w / (tol * (1 - r))) in *. clearbody z. set (k := zq (Z.of_nat n)) in *. clearbody k.
    assert (0 < (k - z) * (tol * (1 - r))) by (apply qc_mul_pos; auto; qlra). subst w. qlra. }
  assert (B := pow_bound r n H0 (Qclt_le_weak _ _ H1)). assert (P := pow_nonneg r n H0). assert (N : 0 <= zq (Z.of_nat n)) by (rewrite <- zq_0; apply zq_le; lia).
  set (p := r ^ n) in *. set (k := 1 + zq (Z.of_nat n) * (1 - r)) in *.
  assert (K : 1 <= k) by (unfold k; assert (0 <= zq (Z.of_nat n) * (1 - r)) by (apply qc_mul_nonneg; auto; qlra); qlra). clearbody p k.
  destruct (Qc_eq_dec p 0) as [->|NZ]; [qlra|]. assert (PP : 0 < p) by (destruct (Qclt_le_dec 0 p); auto; exfalso; apply NZ; qlra).
  assert (0 < (tol * k - w) * p) by (apply qc_mul_pos; auto; qlra).
  assert (0 <= tol * (1 - p * k)) by (apply qc_mul_nonneg; qlra). qlra.
Qed.

(* ---- one variable ---- *)
Definition q34 : Qc := Q2Qc (3 # 4).
Lemma valley_sub f a b s a' b' : valley f a b s -> a <= a' -> b' <= b -> a' <= s -> s <= b' -> valley f a' b' s.
Proof.
  intros [H1 [H2 [H3 H4]]] A B C D. split; auto. split; auto. split.
  - intros x y X Y Z. apply H3; auto. qlra.
  - intros x y X Y Z. apply H4; auto. qlra.
Qed.
Lemma recursive_min_ok f tol n : 0 < tol -> forall low high, low <= high -> (high - low) * q34 ^ n < tol -> forall fuel, (n < fuel)%nat ->
  exists x, recursive_min fuel f low high tol = Ok (x, f x) /\ low <= x /\ x <= high /\ forall s, valley f low high s -> within (tol / q2) x s.
Proof.
  intro HT. induction n as [|n IH]; intros low high L W fuel F; (destruct fuel as [|fuel]; [lia|]); cbn [recursive_min];
  (destruct (qlt (high - low) tol) eqn:E; [apply qlt_true in E; exists ((low + high) / q2); qd; split; auto; split; [qlra|]; split; [qlra|]; intros s [S1 [S2 _]]; split; qd; qlra|]).
  - cbn [Qcpower] in W. apply qlt_false in E. exfalso. qlra.
  - apply qlt_false in E. rewrite pow_S in W. cbn zeta.
    set (m1 := low + (high - low) / q4). set (m2 := high - (high - low) / q4).
    assert (B1 : low <= m1) by (unfold m1; qd; qlra). assert (B2 : m1 < m2) by (unfold m1, m2; qd; qlra). assert (B3 : m2 <= high) by (unfold m2; qd; qlra).
    assert (W1 : (m2 - low) * q34 ^ n < tol). { replace (m2 - low) with ((high - low) * q34); [|unfold m2; qd; unfold q34; qlra]. replace ((high - low) * q34 * q34 ^ n) with ((high - low) * (q34 * q34 ^ n)) by ring. auto. }
    assert (W2 : (high - m1) * q34 ^ n < tol). { replace (high - m1) with ((high - low) * q34); [|unfold m1; qd; unfold q34; qlra]. replace ((high - low) * q34 * q34 ^ n) with ((high - low) * (q34 * q34 ^ n)) by ring. auto. }
    clearbody m1 m2. destruct (qlt (f m1) (f m2)) eqn:Q.
    + apply qlt_true in Q. destruct (IH low m2 ltac:(qlra) W1 fuel ltac:(lia)) as [x [E1 [E2 [E3 E4]]]]. exists x. split; auto. split; auto. split; [qlra|].
      intros s V. apply E4. apply valley_sub with low high; auto; try apply V; [qlra|]. destruct (Qclt_le_dec m2 s) as [C|C]; auto. exfalso. destruct V as [_ [_ [V _]]].
      assert (f m2 < f m1) by (apply V; auto; qlra). qlra.
    + apply qlt_false in Q. destruct (IH m1 high ltac:(qlra) W2 fuel ltac:(lia)) as [x [E1 [E2 [E3 E4]]]]. exists x. split; auto. split; [qlra|]. split; auto.
      intros s V. apply E4. apply valley_sub with low high; auto; try apply V; [qlra|]. destruct (Qclt_le_dec s m1) as [C|C]; auto. exfalso. destruct V as [_ [_ [_ V]]].
      assert (f m1 < f m2) by (apply V; auto; qlra). qlra.
Qed.
Lemma q34_range : 0 <= q34 /\ q34 < 1. Proof. unfold q34. split; qlra. Qed.
Lemma recursive_min_thm f low high tol : 0 < tol -> low <= high -> exists x n, low <= x /\ x <= high /\
  (forall fuel, (n < fuel)%nat -> recursive_min fuel f low high tol = Ok (x, f x)) /\ (forall s, valley f low high s -> within (tol / q2) x s).
Proof.
  intros HT L. destruct q34_range as [R1 R2]. destruct (shrinks (high - low) q34 tol R1 R2 HT) as [n Hn].
  assert (G := recursive_min_ok f tol n HT low high L Hn). destruct (G (S n) ltac:(lia)) as [x [E [X1 [X2 X3]]]]. exists x, n. split; auto. split; auto. split; auto.
  assert (MON : forall k m lo hi y, (k <= m)%nat -> recursive_min k f lo hi tol = Ok y -> recursive_min m f lo hi tol = Ok y).
  { clear. induction k as [|k IH]; intros m lo hi y LE E; [discriminate|]. destruct m as [|m]; [lia|]. cbn [recursive_min] in *. destruct (qlt (hi - lo) tol); auto.
    cbn zeta in *. destruct (qlt _ _); apply IH; auto; lia. }
  intros fuel F. apply MON with (S n); auto.
Qed.
Lemma q_abs_pos x : 0 <= x -> q_abs x = x.
Proof. intro H. unfold q_abs. destruct (qlt x 0) eqn:E; auto. apply qlt_true in E. exfalso. qlra. Qed.
Lemma iterative_recursive f tol fuel : 0 < tol -> forall low high, low <= high -> iterative_min fuel f low high tol = recursive_min fuel f low high tol.
Proof.
  intro HT. induction fuel as [|fuel IH]; intros low high L; cbn [iterative_min recursive_min]; auto. rewrite q_abs_pos by qlra.
  destruct (qle tol (high - low)) eqn:A; destruct (qlt (high - low) tol) eqn:B; auto.
  - apply qle_true in A. apply qlt_true in B. exfalso. qlra.
  - cbn zeta. rewrite !IH; auto; qd; qlra.
  - apply qle_false in A. apply qlt_false in B. exfalso. qlra.
Qed.
Lemma iterative_min_thm f low high tol : 0 < tol -> low <= high -> exists x n, low <= x /\ x <= high /\
  (forall fuel, (n < fuel)%nat -> iterative_min fuel f low high tol = Ok (x, f x)) /\ (forall s, valley f low high s -> within (tol / q2) x s).
Proof.
  intros HT L. destruct (recursive_min_thm f low high tol HT L) as [x [n [A [B [C D]]]]]. exists x, n. split; auto. split; auto. split; auto.
  intros fuel F. rewrite iterative_recursive by auto. auto.
Qed.
Lemma qlt_opp a b : qlt (- a) (- b) = qlt b a.
Proof. destruct (qlt b a) eqn:E; [apply qlt_true in E; apply qlt_true; qlra|apply qlt_false in E; apply qlt_false; qlra]. Qed.
Lemma max_is_min f tol fuel : forall low high, recursive_max fuel f low high tol = (do (x, y) <- recursive_min fuel (fun t => - f t) low high tol ; Ok (x, f x)).
Proof.
  induction fuel as [|fuel IH]; intros low high; cbn [recursive_max recursive_min]; auto. destruct (qlt (high - low) tol); [reflexivity|]. cbn zeta. rewrite qlt_opp. destruct (qlt _ _); apply IH.
Qed.
Lemma recursive_max_thm f low high tol : 0 < tol -> low <= high -> exists x n, low <= x /\ x <= high /\
  (forall fuel, (n < fuel)%nat -> recursive_max fuel f low high tol = Ok (x, f x)) /\ (forall s, peak f low high s -> within (tol / q2) x s).
Proof.
  intros HT L. destruct (recursive_min_thm (fun t => - f t) low high tol HT L) as [x [n [A [B [C D]]]]]. exists x, n. split; auto. split; auto. split; auto.
  intros fuel F. rewrite max_is_min. rewrite C by auto. reflexivity.
Qed.

(* ---- roots: always the right end ---- *)
Definition q12 : Qc := Q2Qc (1 # 2).
Lemma q12_range : 0 <= q12 /\ q12 < 1. Proof. unfold q12. split; qlra. Qed.
Lemma roots_ok f tol n : 0 < tol -> forall low high, low <= high -> (high - low) * q12 ^ n < tol -> forall fuel, (n < fuel)%nat ->
  exists x, recursive_roots fuel f low high tol = Ok [(x, f x)] /\ x <= high /\ high - tol / q2 < x.
Proof.
  intro HT. induction n as [|n IH]; intros low high L W fuel F; (destruct fuel as [|fuel]; [lia|]); cbn [recursive_roots]; rewrite q_abs_pos by qlra;
  (destruct (qlt (high - low) tol) eqn:E; [apply qlt_true in E; exists ((low + high) / q2); qd; split; auto; split; qlra|]).
  - cbn [Qcpower] in W. apply qlt_false in E. exfalso. qlra.
  - apply qlt_false in E. rewrite pow_S in W. cbn zeta. assert (EQ : low + (high - low) / q2 = high - (high - low) / q2) by (qd; qlra). rewrite <- EQ.
    assert (NL : qlt (q_abs (f (low + (high - low) / q2))) (q_abs (f (low + (high - low) / q2))) = false) by (apply qlt_false; apply Qcle_refl). rewrite NL.
    apply IH; auto; [qd; qlra| |lia]. replace (high - (low + (high - low) / q2)) with ((high - low) * q12); [|qd; unfold q12; qlra].
    replace ((high - low) * q12 * q12 ^ n) with ((high - low) * (q12 * q12 ^ n)) by ring. auto.
Qed.
Lemma roots_right_end f low high tol s : 0 < tol -> low <= s -> s + tol <= high -> exists n, forall fuel, (n < fuel)%nat ->
  exists x, recursive_roots fuel f low high tol = Ok [(x, f x)] /\ s + tol / q2 < x.
Proof.
  intros HT LS SH. destruct q12_range as [R1 R2]. destruct (shrinks (high - low) q12 tol R1 R2 HT) as [n Hn]. exists n. intros fuel F.
  destruct (roots_ok f tol n HT low high ltac:(qlra) Hn fuel F) as [x [E [X1 X2]]]. exists x. split; auto. qd. qlra.
Qed.
Lemma roots_in_range f low high tol : 0 < tol -> low <= high -> exists n, forall fuel, (n < fuel)%nat ->
  exists x, recursive_roots fuel f low high tol = Ok [(x, f x)] /\ x <= high /\ high - tol / q2 < x.
Proof.
  intros HT LS. destruct q12_range as [R1 R2]. destruct (shrinks (high - low) q12 tol R1 R2 HT) as [n Hn]. exists n. intros fuel F. apply (roots_ok f tol n HT low high LS Hn fuel F).
Qed.

(* ---- several variables ---- *)
Lemma py_max_spec a b : a <= py_max a b /\ b <= py_max a b /\ (py_max a b = a \/ py_max a b = b).
Proof. unfold py_max. destruct (qlt a b) eqn:E; [apply qlt_true in E|apply qlt_false in E]; split; try qlra; split; auto; qlra. Qed.
Lemma py_min_spec a b : py_min a b <= a /\ py_min a b <= b /\ (py_min a b = a \/ py_min a b = b).
Proof. unfold py_min. destruct (qlt b a) eqn:E; [apply qlt_true in E|apply qlt_false in E]; split; try qlra; split; auto; qlra. Qed.
Lemma first_min_spec f : forall l best, In (first_min f best l) (best :: l) /\ forall c, In c (best :: l) -> f (first_min f best l) <= f c.
Proof.
  induction l as [|a l IH]; intro best; cbn [first_min].
  - split; [left; auto|]. intros c [<-|[]]. apply Qcle_refl.
  - destruct (IH (if qlt (f a) (f best) then a else best)) as [I M]. split.
    + destruct I as [I|I]; [|right; right; auto]. rewrite <- I. destruct (qlt (f a) (f best)); [right; left; auto|left; auto].
    + intros c [<-|[<-|J]].
      * eapply Qcle_trans; [apply M; left; reflexivity|]. destruct (qlt (f a) (f best)) eqn:E; [apply qlt_true in E; apply Qclt_le_weak; auto|apply Qcle_refl].
      * eapply Qcle_trans; [apply M; left; reflexivity|]. destruct (qlt (f a) (f best)) eqn:E; [apply Qcle_refl|apply qlt_false in E; auto].
      * apply M. right; auto.
Qed.
Lemma best_of_spec f l : l <> [] -> exists c, best_of f l = Ok c /\ In c l /\ forall d, In d l -> f c <= f d.
Proof. destruct l as [|a l]; [congruence|]. intros _. destruct (first_min_spec f l a) as [I M]. eexists. split; [reflexivity|]. auto. Qed.

(* the box b lies in the range r and is proper *)
Definition sub_box (b r : box) : Prop := Forall2 (fun lh rr => fst rr <= fst lh /\ fst lh <= snd lh /\ snd lh <= snd rr) b r.
(* candidates lie in the box *)
Definition good_cands (cands : box -> list (list Qc)) (n : nat) : Prop :=
  forall b, length b = n -> proper_box b -> cands b <> [] /\ forall c, In c (cands b) -> in_box c b.
Lemma sub_box_proper b r : sub_box b r -> proper_box b.
Proof. induction 1 as [|x y b r H F IH]; constructor; auto. apply H. Qed.
Lemma window_sub c b r : in_box c b -> sub_box b r -> sub_box (window c b r) r.
Proof.
  intros I. revert r. induction I as [|v lh c b H I IH]; intros r SB; inversion SB as [|x rr b' r' H2 F]; subst; cbn [window]; [constructor|].
  destruct lh as [lo hi], rr as [r0 r1]. cbn [fst snd] in *. destruct H as [Ha Hb]. destruct H2 as [Hc [Hd He]]. constructor; [|apply IH; exact F]. cbn [fst snd].
  destruct (py_max_spec (v - (hi - lo) / q4) r0) as [A1 [A2 A3]]. destruct (py_min_spec (v + (hi - lo) / q4) r1) as [B1 [B2 B3]]. split; [qlra|]. split; [|qlra]. qd.
  destruct A3 as [->| ->], B3 as [->| ->]; qlra.
Qed.
Definition narrow (w : Qc) (b : box) : Prop := Forall (fun lh => snd lh - fst lh <= w) b.
Lemma window_narrow c b r w : in_box c b -> sub_box b r -> narrow w b -> narrow (w * q12) (window c b r).
Proof.
  intros I. revert r. induction I as [|v lh c b H I IH]; intros r SB N; inversion SB as [|x rr b' r' H2 F]; inversion N as [|y b'' N1 N2]; subst; cbn [window]; [constructor|].
  destruct lh as [lo hi], rr as [r0 r1]. cbn [fst snd] in *. destruct H as [Ha Hb]. destruct H2 as [Hc [Hd He]]. constructor; [|apply IH; auto]. cbn [fst snd].
  destruct (py_max_spec (v - (hi - lo) / q4) r0) as [A1 [A2 A3]]. destruct (py_min_spec (v + (hi - lo) / q4) r1) as [B1 [B2 B3]]. qd. unfold q12. qlra.
Qed.
Lemma narrow_stops w b tol : narrow w b -> w <= tol -> existsb (fun lh => qlt tol (snd lh - fst lh)) b = false.
Proof.
  intros N W. induction N as [|lh b H N IH]; cbn [existsb]; auto. rewrite IH, orb_false_r. apply qlt_false. qlra.
Qed.
Lemma middle_in b r : sub_box b r -> in_box (map middle b) r.
Proof. induction 1 as [|lh rr b r H F IH]; cbn [map]; constructor; auto. unfold middle. qd. destruct H as [H1 [H2 H3]]. split; qlra. Qed.
(* invariant reasoning for the loop *)
Lemma search_ok cands f range tol (I : box -> Prop) n :
  0 < tol -> good_cands cands (length range) ->
  (forall b c, sub_box b range -> I b -> existsb (fun lh => qlt tol (snd lh - fst lh)) b = true -> In c (cands b) -> in_box c b -> (forall d, In d (cands b) -> f c <= f d) -> I (window c b range)) ->
  forall b w, sub_box b range -> I b -> narrow w b -> w * q12 ^ n <= tol -> forall fuel, (n < fuel)%nat ->
  exists b', search fuel cands f range tol b = Ok (map middle b') /\ sub_box b' range /\ I b' /\ existsb (fun lh => qlt tol (snd lh - fst lh)) b' = false.
Proof.
  intros HT GC STEP. induction n as [|n IH]; intros b w SB IB N W fuel F; (destruct fuel as [|fuel]; [lia|]); cbn [search].
  - cbn [Qcpower] in W. replace (w * 1) with w in W by ring. rewrite (narrow_stops w b tol N W). exists b. split; auto. split; auto. split; auto. apply (narrow_stops w b tol N W).
  - destruct (existsb _ b) eqn:E; [|exists b; auto].
    assert (LB : length b = length range) by (eapply Forall2_length; eauto).
    destruct (GC b LB (sub_box_proper b range SB)) as [NE CI]. destruct (best_of_spec f (cands b) NE) as [c [Ec [Ic Mc]]]. rewrite Ec. cbn [bind].
    apply (IH (window c b range) (w * q12)); auto; [apply window_sub; auto|apply window_narrow; auto| |lia].
    rewrite pow_S in W. replace (w * q12 * q12 ^ n) with (w * (q12 * q12 ^ n)) by ring. auto.
Qed.
Lemma narrow_exists b : exists w, narrow w b /\ 0 <= w.
Proof.
  induction b as [|lh b [w [N P]]]; [exists 0; split; [constructor|qlra]|]. exists (py_max w (snd lh - fst lh)). destruct (py_max_spec w (snd lh - fst lh)) as [A [B _]]. split; [|qlra].
  constructor; auto. eapply Forall_impl; [|exact N]. cbn. intros a H. qlra.
Qed.
Lemma sub_box_refl r : proper_box r -> sub_box r r.
Proof. induction 1 as [|lh r H F IH]; constructor; auto. split; [apply Qcle_refl|]. split; auto. apply Qcle_refl. Qed.
Lemma search_thm cands f range tol (I : box -> Prop) :
  0 < tol -> proper_box range -> good_cands cands (length range) -> I range ->
  (forall b c, sub_box b range -> I b -> existsb (fun lh => qlt tol (snd lh - fst lh)) b = true -> In c (cands b) -> in_box c b -> (forall d, In d (cands b) -> f c <= f d) -> I (window c b range)) ->
  exists n, forall fuel, (n < fuel)%nat -> exists b', search fuel cands f range tol range = Ok (map middle b') /\ sub_box b' range /\ I b' /\ existsb (fun lh => qlt tol (snd lh - fst lh)) b' = false.
Proof.
  intros HT PB GC IR STEP. destruct (narrow_exists range) as [w [N P]]. destruct q12_range as [R1 R2]. destruct (shrinks w q12 tol R1 R2 HT) as [n Hn]. exists n. intros fuel F.
  apply (search_ok cands f range tol I n HT GC STEP range w); auto; [apply sub_box_refl; auto|apply Qclt_le_weak; auto].
Qed.
Lemma search_in_range cands f range tol : 0 < tol -> proper_box range -> good_cands cands (length range) ->
  exists n, forall fuel, (n < fuel)%nat -> exists x, search fuel cands f range tol range = Ok x /\ in_box x range.
Proof.
  intros HT PB GC. destruct (search_thm cands f range tol (fun _ => True) HT PB GC I ltac:(auto)) as [n H]. exists n. intros fuel F. destruct (H fuel F) as [b' [E [SB _]]].
  eexists. split; [exact E|]. apply middle_in; auto.
Qed.
Lemma mid_in lo hi : lo <= hi -> lo <= middle (lo, hi) /\ middle (lo, hi) <= hi.
Proof. intro H. unfold middle. cbn [fst snd]. qd. split; qlra. Qed.
Lemma good_2d : good_cands cands_2d 2.
Proof.
  intros b L P. destruct b as [|[x0 x1] [|[y0 y1] [|? ?]]]; try discriminate L. inversion P as [|? ? P1 P2]; subst. inversion P2 as [|? ? P3 _]; subst. cbn [fst snd] in *.
  destruct (mid_in x0 x1 P1). destruct (mid_in y0 y1 P3). split; [discriminate|]. intros c I. cbn [cands_2d In] in I.
  repeat destruct I as [<-|I]; try destruct I; repeat constructor; cbn [fst snd]; auto; apply Qcle_refl.
Qed.
Lemma good_3d : good_cands cands_3d 3.
Proof.
  intros b L P. destruct b as [|[x0 x1] [|[y0 y1] [|[z0 z1] [|? ?]]]]; try discriminate L. inversion P as [|? ? P1 P2]; subst. inversion P2 as [|? ? P3 P4]; subst. inversion P4 as [|? ? P5 _]; subst. cbn [fst snd] in *.
  destruct (mid_in x0 x1 P1). destruct (mid_in y0 y1 P3). destruct (mid_in z0 z1 P5). split; [discriminate|]. intros c I. cbn [cands_3d In] in I.
  repeat destruct I as [<-|I]; try destruct I; repeat constructor; cbn [fst snd]; auto; apply Qcle_refl.
Qed.
Lemma at_corner_in b : proper_box b -> forall k, length k = length b -> in_box (at_corner b k) b.
Proof.
  induction 1 as [|lh b H P IH]; intros [|k0 k] L; try discriminate L; [constructor|]. constructor; [|apply IH; cbn in L; lia].
  cbn [fst snd]. destruct k0; split; auto; apply Qcle_refl.
Qed.
Lemma corners_len n : forall k, In k (corners n) -> length k = n.
Proof.
  induction n as [|n IH]; intros k I; cbn [corners] in I; [destruct I as [<-|[]]; auto|]. apply in_app_or in I. destruct I as [I|I]; apply in_map_iff in I; destruct I as [k' [<- I]]; cbn; f_equal; auto.
Qed.
Lemma corners_ne n : corners n <> [].
Proof. induction n as [|n IH]; cbn; [discriminate|]. destruct (corners n); [congruence|discriminate]. Qed.
Lemma good_nd n : good_cands cands_nd n.
Proof.
  intros b L P. assert (GEN : map (at_corner b) (corners (length b)) <> [] /\ forall c, In c (map (at_corner b) (corners (length b))) -> in_box c b).
  { split.
    - assert (N := corners_ne (length b)). destruct (corners (length b)); [congruence|discriminate].
    - intros c I. apply in_map_iff in I. destruct I as [k [<- I]]. apply at_corner_in; auto. apply corners_len in I. auto. }
  destruct b as [|[x0 x1] [|[y0 y1] [|[z0 z1] [|w b]]]]; try exact GEN; clear GEN; cbn [cands_nd].
  - inversion P as [|? ? P1 P2]; subst. inversion P2 as [|? ? P3 _]; subst. cbn [fst snd] in *. destruct (mid_in x0 x1 P1). destruct (mid_in y0 y1 P3). split; [discriminate|].
    intros c I. cbn [In] in I. repeat destruct I as [<-|I]; try destruct I; repeat constructor; cbn [fst snd]; auto; apply Qcle_refl.
  - split; [discriminate|]. intros c I. cbn [corners map app In] in I. repeat destruct I as [<-|I]; try destruct I; apply at_corner_in; auto.
Qed.
