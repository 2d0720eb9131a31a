(* The loop: trace, termination, exact results for polynomials. *)
From Coq Require Import List Arith ZArith Bool QArith Qcanon Lia.
From Verif Require Import Common QcLib ListLib SumLib DacProofs RkModel RkSpec RkProofs1 RkProofs2.
Import ListNotations.
Local Open Scope Qc_scope.

Lemma pmin_le a b : pmin a b <= a /\ pmin a b <= b.
Proof. unfold pmin. destruct (qlt b a) eqn:E; [apply qlt_true in E|apply qlt_false in E]; split; qlra. Qed.

Section Loop.
Variables (f : Qc -> list Qc -> list Qc) (norm : list Qc -> Qc) (root4 : Qc -> Qc) (t1 tol hmax hmin : Qc).
Hypothesis HM : 0 < hmax.
Hypothesis Hm : 0 < hmin.
Notation loop := (rk_loop f norm root4 t1 tol hmax hmin).
Notation nexth := (next_h root4 tol hmax hmin).
Notation err t y h := (norm (vsub (snd (rk_step f t y h)) (fst (rk_step f t y h)))).

Lemma pmin_pos : 0 < pmin hmax hmin.
Proof. unfold pmin. destruct (qlt hmin hmax); auto. Qed.
Lemma next_range e h : pmin hmax hmin <= nexth e h /\ nexth e h <= hmax.
Proof.
  unfold next_h. destruct (pmin_le hmax hmin) as (P & Q). destruct (qeq e 0); [destruct (qeq tol 0); split; auto; qlra|]. destruct (qlt (tol / e) 0); [split; auto; qlra|].
  set (z := fr 9 10 * h * root4 (tol / e)). unfold pmax. destruct (qlt hmin z) eqn:E; [apply qlt_true in E|]; [|split; auto; qlra].
  split; [|apply pmin_le]. unfold pmin at 2. destruct (qlt z hmax) eqn:F; [apply qlt_true in F|]; qlra.
Qed.
(* the step that is tried *)
Definition cut (t h : Qc) : Qc := if qlt t1 (t + h) then t1 - t else h.
Lemma cut_ok t h : t < t1 -> 0 < h -> 0 < cut t h /\ cut t h <= h /\ t + cut t h <= t1 /\ (cut t h = h \/ t + cut t h = t1).
Proof. intros A B. unfold cut. destruct (qlt t1 (t + h)) eqn:E; [apply qlt_true in E|apply qlt_false in E]; repeat split; try qlra; [right; ring|left; reflexivity]. Qed.
Lemma loop_step k t y h vt vy : t < t1 -> loop (S k) t y h vt vy =
  if qle (err t y (cut t h)) tol then loop k (t + cut t h) (snd (rk_step f t y (cut t h))) (nexth (err t y (cut t h)) (cut t h)) (vt ++ [t + cut t h]) (vy ++ [snd (rk_step f t y (cut t h))])
  else loop k t y (nexth (err t y (cut t h)) (cut t h)) vt vy.
Proof. intro T. cbn [rk_loop]. rewrite (proj2 (qlt_true t t1) T). fold (cut t h). destruct (rk_step f t y (cut t h)) as [y4 y5]. reflexivity. Qed.
Lemma loop_end k t y h vt vy : t1 <= t -> loop (S k) t y h vt vy = Ok (vt, vy).
Proof. intro T. cbn [rk_loop]. rewrite (proj2 (qlt_false t t1)) by auto. reflexivity. Qed.

Lemma loop_trace k : forall t y h vt vy r, 0 < h -> h <= hmax -> t <= t1 -> loop k t y h vt vy = Ok r ->
  exists dt dy, r = (vt ++ dt, vy ++ dy) /\ steps hmax t1 t dt /\ accepted f norm tol t y dt dy /\ last dt t = t1.
Proof.
  induction k as [|k IH]; intros t y h vt vy r H0 H1 T E; [discriminate|].
  destruct (qlt t t1) eqn:TT; [apply qlt_true in TT|apply qlt_false in TT].
  - rewrite loop_step in E by auto. destruct (cut_ok t h TT H0) as (C0 & C1 & C2 & _). set (c := cut t h) in *. destruct (next_range (err t y c) c) as (N0 & N1). pose proof pmin_pos as PP.
    destruct (qle (err t y c) tol) eqn:EE.
    + apply IH in E; [|qlra|auto|auto]. destruct E as (dt & dy & -> & S & A & L). exists ((t + c) :: dt), (snd (rk_step f t y c) :: dy). rewrite <- !app_assoc. split; [reflexivity|]. split; [|split].
      * cbn [steps]. repeat split; auto; qlra.
      * cbn [accepted]. replace (t + c - t) with c by ring. split; [reflexivity|]. split; [apply qle_true in EE; exact EE|exact A].
      * destruct dt as [|u dt]; [exact L|]. cbn [last]. cbn [last] in L. destruct dt; [exact L|]. rewrite <- L. clear. revert q. induction dt as [|v dt IH]; intro q; [reflexivity|]. exact (IH v).
    + apply IH in E; auto. qlra.
  - rewrite loop_end in E by auto. injection E as <-. exists [], []. rewrite !app_nil_r. repeat split; auto. cbn. qlra.
Qed.

Lemma loop_done k : forall t y h vt vy, (forall t y h, 0 < h -> h <= hmax -> err t y h <= tol) -> pmin hmax hmin <= h -> h <= hmax -> t <= t1 -> t1 - t <= zq (Z.of_nat k) * pmin hmax hmin ->
  exists r, loop (S k) t y h vt vy = Ok r.
Proof.
  induction k as [|k IH]; intros t y h vt vy G H0 H1 T B.
  - rewrite loop_end; [eexists; reflexivity|]. change (zq (Z.of_nat 0)) with (0 : Qc) in B. qlra.
  - destruct (qlt t t1) eqn:TT; [apply qlt_true in TT|apply qlt_false in TT; rewrite loop_end by auto; eexists; reflexivity].
    pose proof pmin_pos as PP. assert (HP : 0 < h) by qlra. rewrite loop_step by auto. destruct (cut_ok t h TT HP) as (C0 & C1 & C2 & C3). set (c := cut t h) in *.
    rewrite (proj2 (qle_true (err t y c) tol)) by (apply G; auto; qlra). destruct (next_range (err t y c) c) as (N0 & N1). apply IH; auto.
    assert (Z : zq (Z.of_nat (S k)) = zq (Z.of_nat k) + 1) by (rewrite Nat2Z.inj_succ, <- Z.add_1_r, zq_add, zq_1; reflexivity). rewrite Z in B.
    destruct C3 as [C3 | C3]; [rewrite C3; qlra|]. assert (0 <= zq (Z.of_nat k) * pmin hmax hmin) by (apply qc_mul_nonneg; [rewrite <- zq_0; apply zq_le; lia|qlra]). qlra.
Qed.
Lemma loop_more k : forall t y h vt vy r, loop k t y h vt vy = Ok r -> forall m, (k <= m)%nat -> loop m t y h vt vy = Ok r.
Proof.
  induction k as [|k IH]; intros t y h vt vy r E m M; [discriminate|]. destruct m as [|m]; [lia|].
  destruct (qlt t t1) eqn:TT; [apply qlt_true in TT|apply qlt_false in TT].
  - rewrite loop_step in E by auto. rewrite loop_step by auto. destruct (qle _ tol); apply IH with (m := m) in E; auto; lia.
  - rewrite loop_end in E by auto. rewrite loop_end by auto. exact E.
Qed.

Lemma loop_never t y : t < t1 -> (forall h, pmin (pmin hmax hmin) (t1 - t) <= h -> h <= hmax -> tol < err t y h) ->
  forall k h vt vy, pmin hmax hmin <= h -> h <= hmax -> loop k t y h vt vy = Err OutOfFuel.
Proof.
  intros T G. induction k as [|k IH]; intros h vt vy H0 H1; [reflexivity|]. pose proof pmin_pos as PP. assert (HP : 0 < h) by qlra.
  rewrite loop_step by auto. destruct (cut_ok t h T HP) as (C0 & C1 & C2 & C3). destruct (pmin_le (pmin hmax hmin) (t1 - t)) as (P & Q). set (c := cut t h) in *.
  rewrite (proj2 (qle_false (err t y c) tol)); [apply IH; apply next_range|]. apply G; [|qlra]. destruct C3 as [C3 | C3]; [rewrite C3|]; qlra.
Qed.
End Loop.

Lemma trace_ok f norm root4 t1 tol hmax hmin fuel t0 y0 vt vy : 0 < hmax -> 0 < hmin -> t0 <= t1 -> rk45_vector f norm root4 t1 tol hmax hmin fuel t0 y0 = Ok (vt, vy) ->
  steps hmax t1 t0 vt /\ accepted f norm tol t0 y0 vt vy /\ last vt t0 = t1.
Proof.
  intros A B C E. unfold rk45_vector in E. apply loop_trace in E; auto; [|apply Qcle_refl]. destruct E as (dt & dy & X & S & T & L). cbn in X. injection X as -> ->. auto.
Qed.
Lemma finishes f norm root4 t1 tol hmax hmin t0 y0 : 0 < hmax -> 0 < hmin -> (forall t y h, 0 < h -> h <= hmax -> norm (vsub (snd (rk_step f t y h)) (fst (rk_step f t y h))) <= tol) ->
  exists N r, forall fuel, (N <= fuel)%nat -> rk45_vector f norm root4 t1 tol hmax hmin fuel t0 y0 = Ok r.
Proof.
  intros A B G. destruct (qlt t0 t1) eqn:T; [apply qlt_true in T|apply qlt_false in T].
  - assert (PP := pmin_pos hmax hmin A B). destruct (archimedes ((t1 - t0) / pmin hmax hmin)) as [k K].
    assert (BB : t1 - t0 <= zq (Z.of_nat k) * pmin hmax hmin).
    { assert (t1 - t0 = (t1 - t0) / pmin hmax hmin * pmin hmax hmin) by (field; intro Z; rewrite Z in PP; qlra). assert (0 < (zq (Z.of_nat k) - (t1 - t0) / pmin hmax hmin) * pmin hmax hmin) by (apply qc_mul_pos; auto; qlra). qlra. }
    destruct (pmin_le hmax hmin) as (P & _). destruct (loop_done f norm root4 t1 tol hmax hmin A B k t0 y0 hmax [] [] G P (Qcle_refl _)) as [r E]; [qlra|auto|]. exists (S k), r. intros fuel F. unfold rk45_vector. eapply loop_more; eauto.
  - exists 1%nat, ([], []). intros [|fuel] F; [lia|]. apply loop_end. auto.
Qed.
Lemma never f norm root4 t1 tol hmax hmin t0 y0 : 0 < hmax -> 0 < hmin -> t0 < t1 ->
  (forall h, (hmax <= h \/ hmin <= h \/ t1 - t0 <= h) -> h <= hmax -> tol < norm (vsub (snd (rk_step f t0 y0 h)) (fst (rk_step f t0 y0 h)))) ->
  forall fuel, rk45_vector f norm root4 t1 tol hmax hmin fuel t0 y0 = Err OutOfFuel.
Proof.
  intros A B T G fuel. unfold rk45_vector. destruct (pmin_le hmax hmin) as (P & _). apply loop_never; auto; [|qlra]. intros h H0 H1. apply G; auto.
  unfold pmin in H0. destruct (qlt hmin hmax); destruct (qlt (t1 - t0) _); auto.
Qed.

(* polynomials *)
Lemma poly_exact4 ps t y h : length ps = length y -> Forall (fun p => length p <= 4)%nat ps -> fst (rk_step (poly_rhs ps) t y h) = exact_solution ps t y (t + h).
Proof.
  intros L F. rewrite poly_step. cbn [fst]. unfold exact_solution. apply map_ext_in. intros [p a] I. cbn [fst snd]. apply coord4_exact. rewrite Forall_forall in F. apply F. exact (in_combine_l _ _ _ _ I).
Qed.
Lemma poly_exact5 ps t y h : length ps = length y -> Forall (fun p => length p <= 5)%nat ps -> snd (rk_step (poly_rhs ps) t y h) = exact_solution ps t y (t + h).
Proof.
  intros L F. rewrite poly_step. cbn [snd]. unfold exact_solution. apply map_ext_in. intros [p a] I. cbn [fst snd]. apply coord5_exact. rewrite Forall_forall in F. apply F. exact (in_combine_l _ _ _ _ I).
Qed.
Lemma poly_error ps : forall t y h, length ps = length y -> Forall (fun p => length p <= 5)%nat ps ->
  vsub (snd (rk_step (poly_rhs ps) t y h)) (fst (rk_step (poly_rhs ps) t y h)) = map (fun p => fr 1 2080 * nth 4 p 0 * (h * h * h * h * h)) ps.
Proof.
  intros t y h L F. rewrite poly_step. cbn [fst snd]. clear - L F. revert y L. induction ps as [|p ps IH]; intros [|a y] L; try discriminate; [reflexivity|]. inversion F; subst. injection L as L.
  cbn [combine map fst snd]. unfold vsub. cbn [combine map fst snd]. apply f_equal2; [apply coord_error; auto|]. apply (IH H2 y L).
Qed.
Lemma exact_len ps t0 y0 t : length ps = length y0 -> length (exact_solution ps t0 y0 t) = length y0.
Proof. intro L. unfold exact_solution. rewrite map_length, combine_length. lia. Qed.
Lemma exact_twice ps t0 t u : forall y0, exact_solution ps t (exact_solution ps t0 y0 t) u = exact_solution ps t0 y0 u.
Proof.
  unfold exact_solution. induction ps as [|p ps IH]; intros [|a y]; try reflexivity. cbn [combine map fst snd]. apply f_equal2; [unfold integral; ring|apply IH].
Qed.
Lemma exact_start ps t0 : forall y0, length ps = length y0 -> exact_solution ps t0 y0 t0 = y0.
Proof.
  unfold exact_solution. induction ps as [|p ps IH]; intros [|a y] L; try discriminate; try reflexivity. cbn [combine map fst snd]. injection L as L. apply f_equal2; [unfold integral; ring|apply IH; auto].
Qed.
Lemma poly_trace ps norm tol t0 y0 : length ps = length y0 -> Forall (fun p => length p <= 5)%nat ps -> forall vt vy t, accepted (poly_rhs ps) norm tol t (exact_solution ps t0 y0 t) vt vy -> vy = map (exact_solution ps t0 y0) vt.
Proof.
  intros L F. induction vt as [|u vt IH]; intros [|z vy] t A; cbn [accepted] in A; try contradiction; [reflexivity|]. destruct A as (E & _ & A).
  assert (Z : z = exact_solution ps t0 y0 u). { rewrite E, poly_exact5; auto; [|rewrite exact_len; auto]. replace (t + (u - t)) with u by ring. apply exact_twice. }
  cbn [map]. rewrite <- Z. apply f_equal2; [reflexivity|]. apply (IH vy u). rewrite <- Z. exact A.
Qed.
Lemma poly_values ps norm root4 t1 tol hmax hmin fuel t0 y0 vt vy : length ps = length y0 -> Forall (fun p => length p <= 5)%nat ps -> 0 < hmax -> 0 < hmin -> t0 <= t1 ->
  rk45_vector (poly_rhs ps) norm root4 t1 tol hmax hmin fuel t0 y0 = Ok (vt, vy) -> vy = map (exact_solution ps t0 y0) vt.
Proof.
  intros L F A B C E. apply trace_ok in E; auto. destruct E as (_ & E & _). apply (poly_trace ps norm tol t0 y0 L F vt vy t0). rewrite exact_start by auto. exact E.
Qed.
Lemma cubic_error ps : forall y t h, Forall (fun p => length p <= 4)%nat ps -> exists n, vsub (snd (rk_step (poly_rhs ps) t y h)) (fst (rk_step (poly_rhs ps) t y h)) = repeat 0 n.
Proof.
  intros y t h F. rewrite poly_step. cbn [fst snd]. exists (length (combine ps y)). revert y. induction ps as [|p ps IH]; intros [|a y]; try reflexivity. inversion F as [|? ? P Q]; subst.
  cbn [combine map fst snd length repeat]. unfold vsub. cbn [combine map fst snd]. apply f_equal2; [rewrite coord_error by lia; rewrite nth_overflow by auto; ring|]. apply (IH Q y).
Qed.
Lemma cubics ps norm root4 t1 tol hmax hmin t0 y0 : length ps = length y0 -> Forall (fun p => length p <= 4)%nat ps -> 0 < hmax -> 0 < hmin -> t0 <= t1 -> 0 <= tol -> (forall n, norm (repeat 0 n) = 0) ->
  exists N vt, steps hmax t1 t0 vt /\ last vt t0 = t1 /\ forall fuel, (N <= fuel)%nat -> rk45_vector (poly_rhs ps) norm root4 t1 tol hmax hmin fuel t0 y0 = Ok (vt, map (exact_solution ps t0 y0) vt).
Proof.
  intros L F A B C T N0. destruct (finishes (poly_rhs ps) norm root4 t1 tol hmax hmin t0 y0 A B) as (N & (vt & vy) & E).
  - intros t y h _ _. destruct (cubic_error ps y t h F) as [n ->]. rewrite N0. exact T.
  - exists N, vt. pose proof (E N (le_n N)) as E0. destruct (trace_ok _ _ _ _ _ _ _ _ _ _ _ _ A B C E0) as (S & _ & LL). split; [exact S|]. split; [exact LL|]. intros fuel G. rewrite (E fuel G).
    rewrite (poly_values ps norm root4 t1 tol hmax hmin N t0 y0 vt vy L); auto. revert F. apply Forall_impl. intros p P. lia.
Qed.
