(* Newton's method for systems and constrained problems: lemmas. *)
From Coq Require Import List Arith ZArith Bool QArith Qcanon Lia Lra.
From Verif Require Import Common QcLib ListLib NcsModel MchModel SphModel SphSpec.
Import ListNotations.
Local Open Scope Qc_scope.

Lemma vdot_app : forall a b c d, length a = length c -> vdot (a ++ b) (c ++ d) = vdot a c + vdot b d.
Proof.
  unfold vdot. induction a as [|x a IH]; intros b [|y c] d H; cbn in *; try discriminate; [ring|]. rewrite IH by lia. ring.
Qed.

Lemma vdot_zeros n : forall v, vdot (repeat 0 n) v = 0.
Proof. unfold vdot. induction n as [|n IH]; intros [|y v]; cbn; try reflexivity. rewrite IH. ring. Qed.

Lemma matvec_app A B v : matvec (A ++ B) v = matvec A v ++ matvec B v.
Proof. apply map_app. Qed.

Lemma transpose_matvec n A v : matvec (transpose n A) v = vecmat n v A.
Proof. unfold matvec, transpose, vecmat. now rewrite map_map. Qed.

Lemma kkt_top : forall H T p nu, Forall (fun r => length r = length p) H -> length T = length H ->
  matvec (map (fun q => fst q ++ snd q) (combine H T)) (p ++ nu) = vplus (matvec H p) (matvec T nu).
Proof.
  unfold matvec, vplus. induction H as [|h H IH]; intros [|t T] p nu F L; try discriminate; [reflexivity|].
  cbn [combine map fst snd length] in *. inversion_clear F. rewrite vdot_app by assumption. f_equal. apply IH; [assumption|lia].
Qed.

Lemma kkt_bottom k : forall A p nu, Forall (fun r => length r = length p) A -> matvec (map (fun r => r ++ repeat 0 k) A) (p ++ nu) = matvec A p.
Proof.
  unfold matvec. induction A as [|h A IH]; intros p nu F; [reflexivity|]. cbn [map] in *. inversion_clear F. rewrite vdot_app by assumption. rewrite vdot_zeros. f_equal; [ring|]. now apply IH.
Qed.

Lemma nscale_app c a b : nscale c (a ++ b) = nscale c a ++ nscale c b.
Proof. apply map_app. Qed.

Lemma app_split {A} (a b c d : list A) : length a = length c -> a ++ b = c ++ d -> a = c /\ b = d.
Proof.
  revert c. induction a as [|x a IH]; intros [|y c] L E; cbn in *; try discriminate; [auto|]. injection E as -> E. destruct (IH c ltac:(lia) E). subst. auto.
Qed.

Lemma nadd_cancel (a b : list Qc) : length a = length b -> nadd a (nscale (- (1)) a) = repeat 0 (length a).
Proof. intros _. unfold nadd, nscale. induction a as [|x a IH]; cbn; [reflexivity|]. rewrite IH. f_equal. ring. Qed.

Lemma vplus_swap : forall g h t : list Qc, length g = length h -> length h = length t -> vplus h t = nscale (- (1)) g -> nadd g h = nscale (- (1)) t.
Proof.
  unfold vplus, nadd, nscale. induction g as [|x g IH]; intros [|y h] [|z t] L1 L2 E; try discriminate; [reflexivity|]. cbn [length combine map fst snd] in *.
  pose proof (f_equal (hd 0) E) as E1. pose proof (f_equal (@tl Qc) E) as E2. cbn [hd tl] in E1, E2. f_equal; [|apply IH; auto; lia]. assert (y = - (1) * x - z) as -> by (rewrite <- E1; ring). ring.
Qed.

Lemma nadd_length : forall a b : list Qc, length a = length b -> length (nadd a b) = length a.
Proof. unfold nadd. induction a as [|x a IH]; intros [|y b] L; cbn in *; try discriminate; [reflexivity|]. rewrite IH; lia. Qed.

Section Quadratic.
Variable solve : list (list Qc) -> list Qc -> option (list Qc).
Variable norm : list Qc -> Qc.
Variable grad_f constr : list Qc -> list Qc.
Variable n m : nat.
Variable H A : list (list Qc).
Hypothesis Hsolve : solves solve.
Hypothesis HH : matrix n n H.
Hypothesis HA : matrix m n A.
Hypothesis Hg : forall x, length x = n -> length (grad_f x) = n.
Hypothesis Hc : forall x, length x = n -> length (constr x) = m.
Hypothesis Hquad : forall x p, length x = n -> length p = n -> grad_f (nadd x p) = vplus (grad_f x) (matvec H p).
Hypothesis Haff : forall x p, length x = n -> length p = n -> constr (nadd x p) = vplus (constr x) (matvec A p).

Lemma kkt_step x sol : length x = n -> solve (kkt n H A) (nscale (- (1)) (grad_f x ++ constr x)) = Some sol ->
  let p := firstn n sol in let nu := skipn n sol in
  length p = n /\ length nu = m /\ grad_f (nadd x p) = nscale (- (1)) (vecmat n nu A) /\ constr (nadd x p) = repeat 0 m.
Proof.
  intros Hx E. destruct (Hsolve _ _ _ E) as [L S]. destruct HH as [H1 H2], HA as [A1 A2].
  assert (LT : length (transpose n A) = n) by (unfold transpose; now rewrite map_length, seq_length).
  assert (LK : length (kkt n H A) = (n + m)%nat).
  { unfold kkt. rewrite app_length, !map_length, combine_length. lia. }
  rewrite LK in L. cbn zeta.
  assert (Lp : length (firstn n sol) = n) by (rewrite firstn_length; lia). assert (Ln : length (skipn n sol) = m) by (rewrite skipn_length; lia).
  rewrite <- (firstn_skipn n sol) in S. unfold kkt in S. rewrite matvec_app, kkt_top, kkt_bottom, nscale_app in S;
    [|rewrite Lp; exact A2|rewrite Lp; exact H2|lia].
  rewrite transpose_matvec in S.
  assert (Lh : length (matvec H (firstn n sol)) = n) by (unfold matvec; now rewrite map_length).
  assert (Lv : length (vecmat n (skipn n sol) A) = n) by (unfold vecmat; now rewrite map_length, seq_length).
  apply app_split in S as [S1 S2].
  - split; [exact Lp|]. split; [exact Ln|]. split.
    + rewrite Hquad by assumption. apply (vplus_swap (grad_f x) _ _); [rewrite Hg; auto|congruence|exact S1].
    + rewrite Haff by assumption. rewrite S2. change (vplus (constr x) (nscale (- (1)) (constr x))) with (nadd (constr x) (nscale (- (1)) (constr x))).
      rewrite (nadd_cancel _ (constr x)) by reflexivity. now rewrite Hc.
  - unfold nscale. rewrite map_length, Hg by exact Hx. unfold vplus. rewrite map_length, combine_length. lia.
Qed.

Lemma sqp_quadratic tol hess_l grad_c : (forall x lam, hess_l x lam = H) -> (forall x, grad_c x = A) ->
  forall max_iter x lam, length x = n -> (exists nu, length nu = m /\ grad_f x = nscale (- (1)) (vecmat n nu A)) /\ constr x = repeat 0 m \/ ((0 < max_iter)%nat /\ forall b, solve (kkt n H A) b <> None) ->
  let r := sqp solve norm grad_f constr hess_l grad_c max_iter tol x lam in
  (exists nu, length nu = m /\ grad_f r = nscale (- (1)) (vecmat n nu A)) /\ constr r = repeat 0 m.
Proof.
  intros EH EA. induction max_iter as [|k IH]; intros x lam Hx Hyp; cbn [sqp]; cbn zeta.
  - destruct Hyp as [Hyp|[Hyp _]]; [exact Hyp|lia].
  - rewrite EH, EA, Hx. destruct (solve _ _) as [sol|] eqn:E.
    + destruct (kkt_step x sol Hx E) as (Lp & Ln & S1 & S2). destruct (_ && _)%bool.
      * split; [exists (skipn n sol); auto|exact S2].
      * apply IH; [rewrite nadd_length; congruence|]. left. split; [exists (skipn n sol); auto|exact S2].
    + destruct Hyp as [Hyp|[_ Hyp]]; [exact Hyp|]. exfalso. exact (Hyp _ E).
Qed.
End Quadratic.

Section Newton.
Variable solve : list (list Qc) -> list Qc -> option (list Qc).
Variable norm : list Qc -> Qc.
Variable F : list Qc -> list Qc.
Variable JF : list Qc -> list (list Qc).

Lemma newton22_run tol : forall k x, let r := newton22 solve norm F JF k tol x in
  exists l, hd [] (l ++ [r]) = x /\ (length l <= k)%nat /\
    (forall pre a b post, l ++ [r] = pre ++ a :: b :: post -> exists d, solve (JF a) (nscale (- (1)) (F a)) = Some d /\ b = nadd a d) /\
    ((length l < k)%nat -> (exists pre a, l = pre ++ [a] /\ norm (nsub r a) < tol) \/ solve (JF r) (nscale (- (1)) (F r)) = None).
Proof.
  induction k as [|k IH]; intros x; cbn [newton22]; cbn zeta.
  - exists []. cbn. split; [reflexivity|]. split; [lia|]. split; [|lia]. intros [|? [|? ?]] a b post E; discriminate.
  - destruct (solve _ _) as [d|] eqn:E.
    + destruct (qlt _ _) eqn:B.
      * exists [x]. cbn [app hd length]. split; [reflexivity|]. split; [lia|]. split.
        -- intros [|c [|? [|? ?]]] a b post Q; try discriminate. injection Q as <- <- _. eauto.
        -- intros _. left. exists [], x. apply qlt_true in B. auto.
      * destruct (IH (nadd x d)) as (l & C1 & C2 & C3 & C4). set (r := newton22 solve norm F JF k tol (nadd x d)) in *.
        exists (x :: l). cbn [app hd length]. split; [reflexivity|]. split; [lia|]. split.
        -- intros [|c pre] a b post Q.
           ++ injection Q as <- Q. exists d. split; [exact E|]. rewrite Q in C1. cbn in C1. congruence.
           ++ injection Q as <- Q. exact (C3 _ _ _ _ Q).
        -- intros L. destruct (C4 ltac:(lia)) as [(pre & a & -> & R)|R]; [|right; exact R]. left. exists (x :: pre), a. split; [reflexivity|exact R].
    + exists []. cbn [app hd length]. split; [reflexivity|]. split; [lia|]. split; [|intros _; right; exact E]. intros [|? [|? ?]] a b post Q; discriminate.
Qed.
End Newton.
