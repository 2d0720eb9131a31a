(* Bounded minimisation: proofs. *)
From Coq Require Import List Arith ZArith Bool QArith Qcanon Lia.
From Verif Require Import Common QcLib SumLib BndModel BndSpec.
Import ListNotations.
Local Open Scope Qc_scope.

Lemma map2_length g a b : length a = length b -> length (map2 g a b) = length a.
Proof. revert b. induction a as [|x a IH]; intros [|y b] L; cbn in *; auto; try discriminate. Qed.
Lemma map2_nth g a b i : length a = length b -> (i < length a)%nat -> nth i (map2 g a b) 0 = g (nth i a 0) (nth i b 0).
Proof. revert b i. induction a as [|x a IH]; intros [|y b] i L Hi; cbn in *; try discriminate; try lia. destruct i; auto. apply IH; lia. Qed.
Lemma fold_plus l acc : fold_left Qcplus l acc = acc + sumn (length l) (fun i => nth i l 0).
Proof.
  revert acc. induction l as [|x l IH]; intro acc; [cbn; ring|]. cbn [fold_left length]. rewrite IH, sumn_first. cbn [nth]. ring.
Qed.
Lemma vdot_inner n a b : length a = n -> length b = n -> vdot a b = inner n a b.
Proof.
  intros La Lb. unfold vdot, inner, co. rewrite fold_plus, map2_length by lia. rewrite La. rewrite (sumn_ext n _ (fun i => nth i a 0 * nth i b 0)); [ring|].
  intros i Hi. apply map2_nth; lia.
Qed.
Lemma qabs_le x t : qle (qabs x) t = true -> - t <= x /\ x <= t.
Proof. intro H. apply qle_true in H. unfold qabs in H. destruct (qlt x 0) eqn:E; [apply qlt_true in E|apply qlt_false in E]; split; qlra. Qed.
Lemma qmin_pos a b : 0 < a -> 0 < b -> 0 < qmin a b.
Proof. intros A B. unfold qmin. destruct (qlt b a); auto. Qed.

Lemma mul_nonneg (a b : Qc) : 0 <= a -> 0 <= b -> 0 <= a * b.
Proof. intros A B. replace 0 with (0 * b) by ring. apply Qcmult_le_compat_r; auto. Qed.
Lemma sumn_le n f g : (forall i, (i < n)%nat -> f i <= g i) -> sumn n f <= sumn n g.
Proof. induction n as [|n IH]; intro H; cbn [sumn]; [apply Qcle_refl|]. apply Qcplus_le_compat; [apply IH; intros; apply H; lia|apply H; lia]. Qed.

(* the projection *)
Lemma clamp_nearest lo hi x : lo <= hi -> nearest lo hi x (qmin (qmax x lo) hi).
Proof.
  intro H. unfold nearest, qmin, qmax. destruct (qlt x lo) eqn:E1; [apply qlt_true in E1|apply qlt_false in E1].
  - destruct (qlt hi lo) eqn:E2; [apply qlt_true in E2; exfalso; qlra|]. left. split; [qlra|auto].
  - destruct (qlt hi x) eqn:E2; [apply qlt_true in E2; right; right; split; [qlra|auto]|apply qlt_false in E2; right; left; auto].
Qed.
Lemma project_co n lower upper x i : length lower = n -> length upper = n -> length x = n -> (i < n)%nat ->
  co (project_to_bounds x lower upper) i = qmin (qmax (co x i) (co lower i)) (co upper i).
Proof.
  intros L1 L2 L3 Hi. unfold co, project_to_bounds. rewrite map2_nth by (rewrite map2_length; lia). rewrite map2_nth by lia. reflexivity.
Qed.
Lemma project_length n lower upper x : length lower = n -> length upper = n -> length x = n -> length (project_to_bounds x lower upper) = n.
Proof. intros. unfold project_to_bounds. rewrite !map2_length; rewrite ?map2_length; lia. Qed.
Lemma nearest_in lo hi x y : lo <= hi -> nearest lo hi x y -> lo <= y /\ y <= hi.
Proof. intros H [(A & ->)|[(A & B & ->)|(A & ->)]]; split; qlra. Qed.
Lemma project_ok n lower upper x : box n lower upper -> length x = n -> in_box n lower upper (project_to_bounds x lower upper) /\
  forall i, (i < n)%nat -> nearest (co lower i) (co upper i) (co x i) (co (project_to_bounds x lower upper) i).
Proof.
  intros (L1 & L2 & B) L. assert (N : forall i, (i < n)%nat -> nearest (co lower i) (co upper i) (co x i) (co (project_to_bounds x lower upper) i)).
  { intros i Hi. rewrite (project_co n) by auto. apply clamp_nearest. auto. }
  split; auto. split; [now apply project_length|]. intros i Hi. eapply nearest_in; [apply B; auto|apply N; auto].
Qed.
Lemma nearest_dist lo hi x y z : nearest lo hi x y -> lo <= z -> z <= hi -> (x - y) * (x - y) <= (x - z) * (x - z).
Proof.
  assert (M : forall a b : Qc, 0 <= a -> 0 <= b -> 0 <= a * b) by (intros; apply mul_nonneg; auto).
  intros [(A & ->)|[(A & B & ->)|(A & ->)]] H1 H2.
  - assert (K := M (z - lo) ((lo - x) + (z - x)) ltac:(qlra) ltac:(qlra)). qnra.
  - assert (K : 0 <= (x - z) * (x - z)). { destruct (Qclt_le_dec x z); [replace ((x - z) * (x - z)) with ((z - x) * (z - x)) by ring|]; apply M; qlra. } qlra.
  - assert (K := M (hi - z) ((x - hi) + (x - z)) ltac:(qlra) ltac:(qlra)). qnra.
Qed.
Lemma project_closest n lower upper x p : box n lower upper -> length x = n -> in_box n lower upper p ->
  sumn n (fun i => (co x i - co (project_to_bounds x lower upper) i) * (co x i - co (project_to_bounds x lower upper) i)) <= sumn n (fun i => (co x i - co p i) * (co x i - co p i)).
Proof.
  intros B L (_ & P). apply sumn_le. intros i Hi. destruct (project_ok n lower upper x B L) as (_ & N). eapply nearest_dist; [apply N; auto|apply P; auto|apply P; auto].
Qed.
Lemma project_inside n lower upper x : in_box n lower upper x -> length lower = n -> length upper = n -> project_to_bounds x lower upper = x.
Proof.
  intros (L & P) L1 L2. apply (nth_ext _ _ 0 0); [rewrite (project_length n); auto|]. intros i Hi. rewrite (project_length n) in Hi by auto.
  assert (E := project_co n lower upper x i L1 L2 L Hi). unfold co in E at 1. rewrite E. destruct (P i Hi) as (A & B). unfold qmin, qmax, co in *.
  rewrite (proj2 (qlt_false _ _) A). rewrite (proj2 (qlt_false _ _) B). reflexivity.
Qed.

Section Generic.
Variables (f : vec -> Qc) (grad : vec -> vec) (at_ : Qc -> vec) (d : vec) (f0 dd c1 c2 : Qc).

Definition good (r : Qc * vec * bool) : Prop :=
  let '(a, p, ok) := r in p = at_ a /\ (ok = true -> 0 < a /\ f p <= f0 + c1 * a * dd /\ qle (qabs (vdot d (grad p))) (- c2 * dd) = true).

Lemma half_pos a b : 0 < a + b -> 0 < half * (a + b).
Proof. intro H. apply qc_mul_pos; auto. reflexivity. Qed.
Lemma zoom_good k : forall lo hi, 0 <= lo -> 0 <= hi -> 0 < lo + hi -> good (zoom f grad at_ d f0 dd c1 c2 k lo hi).
Proof.
  induction k as [|k IH]; intros lo hi H1 H2 H3; cbn [zoom]; [split; [auto|discriminate]|]. cbv zeta.
  assert (J := half_pos lo hi H3). set (aj := half * (lo + hi)) in *. clearbody aj.
  destruct (qlt (f0 + c1 * aj * dd) (f (at_ aj))) eqn:E1; cbn [orb].
  - apply IH; auto; qlra.
  - destruct (qle (f (at_ lo)) (f (at_ aj))) eqn:E2; [apply IH; auto; qlra|].
    destruct (qle (qabs (vdot d (grad (at_ aj)))) (- c2 * dd)) eqn:E3.
    + apply qlt_false in E1. split; auto.
    + destruct (qle 0 (vdot d (grad (at_ aj)) * (hi - lo))); apply IH; auto; qlra.
Qed.
Lemma search_good k : forall first a_prev a f_prev, 0 <= a_prev -> 0 < a -> good (search f grad at_ d f0 dd c1 c2 k first a_prev a f_prev).
Proof.
  induction k as [|k IH]; intros first a_prev a f_prev H1 H2; cbn [search]; [split; [auto|discriminate]|]. cbv zeta.
  destruct (qlt (f0 + c1 * a * dd) (f (at_ a)) || negb first && qle f_prev (f (at_ a))) eqn:E1; [apply zoom_good; auto; qlra|].
  apply orb_false_iff in E1. destruct E1 as (E1 & _). apply qlt_false in E1.
  destruct (qle (qabs (vdot d (grad (at_ a)))) (- c2 * dd)) eqn:E3; [split; auto|].
  destruct (qle 0 (vdot d (grad (at_ a)))); [apply zoom_good; auto; qlra|]. apply IH; [qlra|]. apply qmin_pos; [|reflexivity]. apply qc_mul_pos; auto. reflexivity.
Qed.
End Generic.

Lemma move_length n x a d : length x = n -> length d = n -> length (move x a d) = n.
Proof. intros. unfold move. rewrite map2_length; lia. Qed.
Lemma move_co n x a d i : length x = n -> length d = n -> (i < n)%nat -> co (move x a d) i = co x i + a * co d i.
Proof. intros L1 L2 Hi. unfold co, move. rewrite map2_nth by lia. reflexivity. Qed.

Lemma decrease f0 fp c1 a dd : fp <= f0 + c1 * a * dd -> 0 < a -> dd < 0 -> 0 < c1 -> fp < f0.
Proof. intros H A D C. assert (P : 0 < c1 * a) by now apply qc_mul_pos. assert (Q : 0 < (c1 * a) * - dd) by (apply qc_mul_pos; auto; qlra). set (u := c1 * a) in *. clearbody u. qlra. Qed.

Lemma line_search_ok n f grad x d lower upper c1 c2 k a p : box n lower upper -> length x = n -> length d = n -> (forall y, length y = n -> length (grad y) = n) ->
  line_search f grad x d lower upper c1 c2 k = (a, p, true) ->
  0 < a /\ inner n d (grad x) < 0 /\ is_projected n lower upper x a d p /\ in_box n lower upper p /\
  armijo n f grad c1 x d a p /\ curvature n grad c2 x d p /\ (0 < c1 -> f p < f x).
Proof.
  intros B Lx Ld G E. unfold line_search in E. cbv zeta in E. rewrite (vdot_inner n) in E by auto.
  destruct (qle 0 (inner n d (grad x))) eqn:Q; [discriminate|]. apply qle_false in Q.
  assert (S := search_good f grad (fun a => project_to_bounds (move x a d) lower upper) d (f x) (inner n d (grad x)) c1 c2 k true 0 1 (f x) ltac:(apply Qcle_refl) ltac:(reflexivity)).
  rewrite E in S. destruct S as (Ep & S). destruct (S eq_refl) as (A & F & C). apply qabs_le in C.
  assert (Lm := move_length n x a d Lx Ld). destruct (project_ok n lower upper (move x a d) B Lm) as (IB & N). rewrite <- Ep in IB, N.
  assert (Lp : length p = n) by (destruct IB; auto). rewrite (vdot_inner n) in C by auto.
  split; auto. split; auto. split; [|split; auto].
  - split; auto. intros i Hi. specialize (N i Hi). rewrite (move_co n) in N by auto. auto.
  - split; [exact F|]. split; [|intro; eapply decrease; eauto]. destruct C as (C1 & C2). split; auto. clear - C1. qlra.
Qed.

Lemma strong_wolfe_ok n f grad x d c1 c2 k a p : length x = n -> length d = n -> (forall y, length y = n -> length (grad y) = n) ->
  line_search_strong_wolfe f grad x d c1 c2 k = (a, p, true) ->
  0 < a /\ inner n d (grad x) < 0 /\ is_moved n x a d p /\ armijo n f grad c1 x d a p /\ curvature n grad c2 x d p /\ (0 < c1 -> f p < f x).
Proof.
  intros Lx Ld G E. unfold line_search_strong_wolfe in E. cbv zeta in E. rewrite (vdot_inner n) in E by auto.
  destruct (qle 0 (inner n d (grad x))) eqn:Q; [discriminate|]. apply qle_false in Q.
  assert (S := search_good f grad (fun a => move x a d) d (f x) (inner n d (grad x)) c1 c2 k true 0 1 (f x) ltac:(apply Qcle_refl) ltac:(reflexivity)).
  rewrite E in S. destruct S as (Ep & S). destruct (S eq_refl) as (A & F & C). apply qabs_le in C.
  assert (Lp : length p = n) by (rewrite Ep; now apply move_length). rewrite (vdot_inner n) in C by auto.
  split; auto. split; auto. split; [split; auto; intros i Hi; rewrite Ep; apply (move_co n); auto|].
  split; [exact F|]. split; [|intro; eapply decrease; eauto]. destruct C as (C1 & C2). split; auto. clear - C1. qlra.
Qed.

(* backtracking *)
Lemma backtrack_ok n f x dx f0 dd k : length x = n -> length dx = n -> forall alpha p ok, backtrack f k x dx f0 dd alpha = (p, ok) ->
  (ok = true -> exists j, (j < k)%nat /\ p = move x (alpha * half ^ j) dx /\ f p <= f0 + c1_default * (alpha * half ^ j) * dd /\
      forall i, (i < j)%nat -> f0 + c1_default * (alpha * half ^ i) * dd < f (move x (alpha * half ^ i) dx)) /\
  (ok = false -> p = x /\ forall i, (i < k)%nat -> f0 + c1_default * (alpha * half ^ i) * dd < f (move x (alpha * half ^ i) dx)).
Proof.
  intros Lx Ld. induction k as [|k IH]; intros alpha p ok E; cbn [backtrack] in E.
  - injection E as <- <-. split; [discriminate|]. intros _. split; auto. intros; lia.
  - cbv zeta in E. destruct (qle (f (move x alpha dx)) (f0 + c1_default * alpha * dd)) eqn:Q.
    + injection E as <- <-. apply qle_true in Q. split; [|discriminate]. intros _. exists 0%nat. cbn [Qcpower]. rewrite Qcmult_1_r. split; [lia|]. split; auto. split; auto. intros; lia.
    + apply qle_false in Q. assert (SH : forall i, alpha * half * half ^ i = alpha * half ^ (S i)) by (intro i; cbn [Qcpower]; ring).
      destruct (IH _ _ _ E) as (H1 & H2). split.
      * intro T. destruct (H1 T) as (j & Hj & Ep & F & Ear). exists (S j). rewrite <- SH. split; [lia|]. split; auto. split; auto.
        intros [|i] Hi; [cbn [Qcpower]; rewrite Qcmult_1_r; auto|]. rewrite <- SH. apply Ear. lia.
      * intro T. destruct (H2 T) as (-> & Ear). split; auto. intros [|i] Hi; [cbn [Qcpower]; rewrite Qcmult_1_r; auto|]. rewrite <- SH. apply Ear. lia.
Qed.

(* the step of a descent method *)
Section Newton.
Variables (n : nat) (f : vec -> Qc) (grad : vec -> vec) (hess : vec -> list vec) (norm : vec -> Qc) (inverse : list vec -> option (list vec)).
Variables (lower upper : vec) (tol step_tol gtol : Qc) (min_value : option Qc).
Hypothesis B : box n lower upper.
Hypothesis HG : forall y, length y = n -> length (grad y) = n.
Hypothesis HH : forall y, length y = n -> length (hess y) = n.
Hypothesis HI : forall m m', inverse m = Some m' -> length m' = length m.

Lemma inverse_or_length H k : length H = k -> length (inverse_or inverse H k) = k.
Proof.
  intro L. unfold inverse_or. destruct (inverse H) as [m|] eqn:E; [rewrite (HI _ _ E); auto|].
  destruct (inverse (regular H)) as [m|] eqn:E2.
  - rewrite (HI _ _ E2). unfold regular. rewrite map_length, combine_length. unfold eye. rewrite map_length, seq_length. lia.
  - unfold eye. now rewrite map_length, seq_length.
Qed.
Lemma c1_pos : 0 < c1_default. Proof. reflexivity. Qed.

(* a point that is left is in the box and is left for a point of the box with a smaller value *)
Lemma newton_inv k : forall p r, in_box n lower upper p -> newton_loop f grad hess norm inverse lower upper tol step_tol gtol min_value k p = Some r ->
  in_box n lower upper r /\ (r = p \/ f r < f p).
Proof.
  induction k as [|k IH]; intros p r P E; cbn [newton_loop] in E; [discriminate|]. cbv zeta in E. assert (L : length p = n) by (destruct P; auto).
  destruct (qlt (norm (grad p)) gtol); [injection E as <-; auto|].
  assert (Ld : length (vneg (matvec (inverse_or inverse (hess p) (length p)) (grad p))) = n).
  { unfold vneg, matvec. rewrite !map_length. rewrite L. apply inverse_or_length. auto. }
  assert (Lg : length (vneg (grad p)) = n) by (unfold vneg; rewrite map_length; auto).
  set (dir := vneg (matvec (inverse_or inverse (hess p) (length p)) (grad p))) in *. clearbody dir.
  assert (ST : forall q, in_box n lower upper q -> f q < f p ->
     (if match min_value with Some m => qlt (f p - m) tol | None => false end then Some q else if qlt (norm (vsub q p)) step_tol then Some q
      else newton_loop f grad hess norm inverse lower upper tol step_tol gtol min_value k q) = Some r -> in_box n lower upper r /\ (r = p \/ f r < f p)).
  { intros q Q F E'. destruct (match min_value with Some m => qlt (f p - m) tol | None => false end); [injection E' as <-; auto|].
    destruct (qlt (norm (vsub q p)) step_tol); [injection E' as <-; auto|]. destruct (IH q r Q E') as (R1 & R2). split; auto. right. destruct R2 as [->|R2]; auto.
    eapply Qclt_trans; eauto. }
  destruct (line_search f grad p dir lower upper c1_default c2_default 20) as ((a1, q1), ok1) eqn:E1. destruct ok1.
  - destruct (line_search_ok n f grad p dir lower upper _ _ 20 a1 q1 B L Ld HG E1) as (_ & _ & _ & Q & _ & _ & F). apply (ST q1); auto. apply F. apply c1_pos.
  - destruct (line_search f grad p (vneg (grad p)) lower upper c1_default c2_default 20) as ((a2, q2), ok2) eqn:E2. destruct ok2; [|injection E as <-; auto].
    destruct (line_search_ok n f grad p (vneg (grad p)) lower upper _ _ 20 a2 q2 B L Lg HG E2) as (_ & _ & _ & Q & _ & _ & F). apply (ST q2); auto. apply F. apply c1_pos.
Qed.

Lemma newton_min k p : in_box n lower upper p -> (forall q, in_box n lower upper q -> f p <= f q) ->
  newton_loop f grad hess norm inverse lower upper tol step_tol gtol min_value (S k) p = Some p.
Proof.
  intros P M. cbn [newton_loop]. cbv zeta. assert (L : length p = n) by (destruct P; auto).
  destruct (qlt (norm (grad p)) gtol); auto.
  assert (Ld : length (vneg (matvec (inverse_or inverse (hess p) (length p)) (grad p))) = n).
  { unfold vneg, matvec. rewrite !map_length. rewrite L. apply inverse_or_length. auto. }
  assert (Lg : length (vneg (grad p)) = n) by (unfold vneg; rewrite map_length; auto).
  set (dir := vneg (matvec (inverse_or inverse (hess p) (length p)) (grad p))) in *. clearbody dir.
  destruct (line_search f grad p dir lower upper c1_default c2_default 20) as ((a1, q1), ok1) eqn:E1. destruct ok1.
  - destruct (line_search_ok n f grad p dir lower upper _ _ 20 a1 q1 B L Ld HG E1) as (_ & _ & _ & Q & _ & _ & F).
    exfalso. specialize (F c1_pos). specialize (M q1 Q). qlra.
  - destruct (line_search f grad p (vneg (grad p)) lower upper c1_default c2_default 20) as ((a2, q2), ok2) eqn:E2. destruct ok2; auto.
    destruct (line_search_ok n f grad p (vneg (grad p)) lower upper _ _ 20 a2 q2 B L Lg HG E2) as (_ & _ & _ & Q & _ & _ & F).
    exfalso. specialize (F c1_pos). specialize (M q2 Q). qlra.
Qed.
End Newton.

Lemma bounds_box bounds : (forall b, In b bounds -> fst b <= snd b) -> box (length bounds) (map fst bounds) (map snd bounds).
Proof.
  intro H. split; [apply map_length|]. split; [apply map_length|]. intros i Hi. unfold co.
  assert (E1 := map_nth fst bounds (0, 0) i). assert (E2 := map_nth snd bounds (0, 0) i). cbn [fst snd] in E1, E2. rewrite E1, E2. apply H. apply nth_In. auto.
Qed.
Lemma bounded_ok f initial bounds grad hess norm inverse tol step_tol gtol max_iter mv r :
  (forall b, In b bounds -> fst b <= snd b) -> length initial = length bounds ->
  (forall y, length y = length bounds -> length (grad y) = length bounds) -> (forall y, length y = length bounds -> length (hess y) = length bounds) ->
  (forall m m', inverse m = Some m' -> length m' = length m) ->
  bounded_newtons_method f initial bounds grad hess norm inverse tol step_tol gtol max_iter mv = Ok (Some r) ->
  exists p, in_box (length bounds) (map fst bounds) (map snd bounds) p /\
    (forall i, (i < length bounds)%nat -> nearest (co (map fst bounds) i) (co (map snd bounds) i) (co initial i) (co p i)) /\
    in_box (length bounds) (map fst bounds) (map snd bounds) r /\ (r = p \/ f r < f p).
Proof.
  intros Hb L HG HH HI E. assert (B := bounds_box bounds Hb). destruct (project_ok _ _ _ initial B L) as (P & N).
  exists (project_to_bounds initial (map fst bounds) (map snd bounds)). split; auto. split; auto.
  unfold bounded_newtons_method in E. destruct bounds as [|b bs]; [discriminate|].
  assert (E' : newton_loop f grad hess norm inverse (map fst (b :: bs)) (map snd (b :: bs)) tol step_tol gtol mv max_iter
     (project_to_bounds initial (map fst (b :: bs)) (map snd (b :: bs))) = Some r) by (cbv zeta in E; congruence).
  eapply newton_inv; eauto.
Qed.
Lemma bounded_min f initial bounds grad hess norm inverse tol step_tol gtol k mv :
  (forall b, In b bounds -> fst b <= snd b) -> bounds <> [] ->
  (forall y, length y = length bounds -> length (grad y) = length bounds) -> (forall y, length y = length bounds -> length (hess y) = length bounds) ->
  (forall m m', inverse m = Some m' -> length m' = length m) ->
  in_box (length bounds) (map fst bounds) (map snd bounds) initial ->
  (forall q, in_box (length bounds) (map fst bounds) (map snd bounds) q -> f initial <= f q) ->
  bounded_newtons_method f initial bounds grad hess norm inverse tol step_tol gtol (S k) mv = Ok (Some initial).
Proof.
  intros Hb NE HG HH HI P M. assert (B := bounds_box bounds Hb). unfold bounded_newtons_method. destruct bounds as [|b bs]; [contradiction|]. cbv zeta.
  rewrite (project_inside (length (b :: bs))) by (auto; apply map_length). f_equal. eapply newton_min; eauto.
Qed.

(* a constant gradient: no step is ever accepted *)
Lemma const_no_step n f grad g x d lower upper k a p : box n lower upper -> length x = n -> length d = n -> length g = n -> (forall y, length y = n -> grad y = g) ->
  line_search f grad x d lower upper c1_default c2_default k = (a, p, true) -> False.
Proof.
  intros B Lx Ld Lg G E. destruct (line_search_ok n f grad x d lower upper c1_default c2_default k a p B Lx Ld) as (_ & D & _ & (Lp & _) & _ & (C & _) & _); auto.
  { intros y Ly. now rewrite G. }
  rewrite (G x Lx) in *. rewrite (G p Lp) in *. set (s := inner n d g) in *. clearbody s. unfold c2_default in C.
  assert (K : 0 < Q2Qc (1 # 10) * - s) by (apply qc_mul_pos; [reflexivity|qlra]).
  replace (Q2Qc (9 # 10)) with (1 - Q2Qc (1 # 10)) in C by (apply Qc_is_canon; reflexivity). set (u := Q2Qc (1 # 10)) in *. clearbody u.
  assert (K2 : (1 - u) * s = s + u * - s) by ring. rewrite K2 in C. set (w := u * - s) in *. clearbody w. qlra.
Qed.
Lemma bounded_const f initial bounds grad hess norm inverse tol step_tol gtol k mv g :
  (forall b, In b bounds -> fst b <= snd b) -> bounds <> [] -> length g = length bounds ->
  (forall y, length y = length bounds -> grad y = g) -> (forall y, length y = length bounds -> length (hess y) = length bounds) ->
  (forall m m', inverse m = Some m' -> length m' = length m) ->
  in_box (length bounds) (map fst bounds) (map snd bounds) initial ->
  bounded_newtons_method f initial bounds grad hess norm inverse tol step_tol gtol (S k) mv = Ok (Some initial).
Proof.
  intros Hb NE Lg HG HH HI P. assert (B := bounds_box bounds Hb). unfold bounded_newtons_method. destruct bounds as [|b bs]; [contradiction|]. cbv zeta.
  rewrite (project_inside (length (b :: bs))) by (auto; apply map_length). f_equal. set (n := length (b :: bs)) in *. assert (L : length initial = n) by (destruct P; auto).
  cbn [newton_loop]. cbv zeta. destruct (qlt (norm (grad initial)) gtol); auto.
  assert (Ld : length (vneg (matvec (inverse_or inverse (hess initial) (length initial)) (grad initial))) = n).
  { unfold vneg, matvec. rewrite !map_length. rewrite L. apply inverse_or_length; auto. }
  assert (Lv : length (vneg (grad initial)) = n) by (unfold vneg; rewrite map_length, HG; auto).
  set (dir := vneg (matvec (inverse_or inverse (hess initial) (length initial)) (grad initial))) in *. clearbody dir.
  destruct (line_search f grad initial dir (map fst (b :: bs)) (map snd (b :: bs)) c1_default c2_default 20) as ((a1, q1), ok1) eqn:E1.
  destruct ok1; [exfalso; eapply (const_no_step n f grad g initial dir); eauto|].
  destruct (line_search f grad initial (vneg (grad initial)) (map fst (b :: bs)) (map snd (b :: bs)) c1_default c2_default 20) as ((a2, q2), ok2) eqn:E2.
  destruct ok2; auto. exfalso. eapply (const_no_step n f grad g initial (vneg (grad initial))); eauto.
Qed.
Lemma inner_comm n a b : inner n a b = inner n b a.
Proof. unfold inner. apply sumn_ext. intros. ring. Qed.
Lemma moved_eq n x a d y : length x = n -> length d = n -> is_moved n x a d y -> y = move x a d.
Proof.
  intros Lx Ld (Ly & M). apply (nth_ext _ _ 0 0); [rewrite (move_length n); auto|]. intros i Hi. rewrite Ly in Hi. specialize (M i Hi).
  rewrite <- (move_co n) in M by auto. exact M.
Qed.
Lemma backtrack_all n f grad x dx alpha k p ok : length x = n -> length dx = n -> length (grad x) = n ->
  line_search_backtrack f grad x dx alpha k = (p, ok) ->
  let enough j y := f y <= f x + Q2Qc (1 # 10000) * (alpha * Q2Qc (1 # 2) ^ j) * inner n dx (grad x) in
  (ok = true -> exists j, (j < k)%nat /\ is_moved n x (alpha * Q2Qc (1 # 2) ^ j) dx p /\ enough j p /\
     (forall i y, (i < j)%nat -> is_moved n x (alpha * Q2Qc (1 # 2) ^ i) dx y -> ~ enough i y)) /\
  (ok = false -> p = x /\ forall i y, (i < k)%nat -> is_moved n x (alpha * Q2Qc (1 # 2) ^ i) dx y -> ~ enough i y).
Proof.
  intros Lx Ld Lg E enough. unfold line_search_backtrack in E. rewrite (vdot_inner n), inner_comm in E by auto.
  destruct (backtrack_ok n f x dx (f x) (inner n dx (grad x)) k Lx Ld alpha p ok E) as (H1 & H2). fold half.
  assert (C : Q2Qc (1 # 10000) = c1_default) by (apply Qc_is_canon; reflexivity).
  assert (NE : forall i y, is_moved n x (alpha * half ^ i) dx y -> f x + c1_default * (alpha * half ^ i) * inner n dx (grad x) < f (move x (alpha * half ^ i) dx) -> ~ enough i y).
  { intros i y M F K. unfold enough in K. rewrite C in K. apply (moved_eq n) in M; auto. subst y. fold half in K. apply (Qclt_not_le _ _ F K). }
  split.
  - intro T. destruct (H1 T) as (j & Hj & -> & F & Ear). exists j. split; auto. split; [split; [now apply move_length|intros; now apply (move_co n)]|].
    split; [unfold enough; rewrite C; exact F|]. intros i y Hi M. apply NE; auto.
  - intro T. destruct (H2 T) as (-> & Ear). split; [reflexivity|]. intros i y Hi M. apply NE; auto.
Qed.
