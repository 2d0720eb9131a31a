(* Vectors, linear systems and polynomials under one step. *)
From Coq Require Import List Arith ZArith Bool QArith Qcanon Lia.
From Verif Require Import Common QcLib ListLib RkModel RkSpec RkProofs2.
Import ListNotations.
Local Open Scope Qc_scope.

Lemma vadd_len a : forall b n, length a = n -> length b = n -> length (vadd a b) = n.
Proof. intros b n A B. unfold vadd. rewrite map_length, combine_length. lia. Qed.
Lemma vsub_len a : forall b n, length a = n -> length b = n -> length (vsub a b) = n.
Proof. intros b n A B. unfold vsub. rewrite map_length, combine_length. lia. Qed.
Lemma vscale_len c a : length (vscale c a) = length a.
Proof. apply map_length. Qed.
Lemma vsub_vadd a : forall b, vsub a b = vadd a (vscale (- (1)) b).
Proof. unfold vsub, vadd, vscale. induction a as [|x a IH]; intros [|y b]; cbn; auto. apply f_equal2; [ring|apply IH]. Qed.
Lemma vadd_comm a : forall b, vadd a b = vadd b a.
Proof. unfold vadd. induction a as [|x a IH]; intros [|y b]; cbn; auto. apply f_equal2; [ring|apply IH]. Qed.
Lemma vadd_assoc a : forall b c, vadd (vadd a b) c = vadd a (vadd b c).
Proof. unfold vadd. induction a as [|x a IH]; intros [|y b] [|z c]; cbn; auto. apply f_equal2; [ring|apply IH]. Qed.
Lemma vscale_vadd k a : forall b, vscale k (vadd a b) = vadd (vscale k a) (vscale k b).
Proof. unfold vadd, vscale. induction a as [|x a IH]; intros [|y b]; cbn; auto. apply f_equal2; [ring|apply IH]. Qed.
Lemma vscale_twice k l a : vscale k (vscale l a) = vscale (k * l) a.
Proof. unfold vscale. rewrite map_map. apply map_ext. intro x. ring. Qed.
Lemma vscale_sum k l a : vscale (k + l) a = vadd (vscale k a) (vscale l a).
Proof. unfold vadd, vscale. induction a as [|x a IH]; cbn; auto. apply f_equal2; [ring|apply IH]. Qed.
Lemma vscale_one a : vscale 1 a = a.
Proof. unfold vscale. induction a as [|x a IH]; cbn; auto. apply f_equal2; [ring|apply IH]. Qed.
Lemma vscale_zero a : vscale 0 a = repeat 0 (length a).
Proof. unfold vscale. induction a as [|x a IH]; cbn; auto. apply f_equal2; [ring|apply IH]. Qed.
Lemma vscale_rep k n : vscale k (repeat 0 n) = repeat 0 n.
Proof. unfold vscale. induction n as [|n IH]; cbn; auto. apply f_equal2; [ring|apply IH]. Qed.
Lemma vadd_zero a : vadd a (repeat 0 (length a)) = a.
Proof. unfold vadd. induction a as [|x a IH]; cbn; auto. apply f_equal2; [ring|apply IH]. Qed.
Lemma vadd_zero_l n a : length a = n -> vadd (repeat 0 n) a = a.
Proof. intros <-. rewrite vadd_comm. apply vadd_zero. Qed.
Lemma vadd_swap a b c d : vadd (vadd a b) (vadd c d) = vadd (vadd a c) (vadd b d).
Proof. rewrite !vadd_assoc. f_equal. rewrite <- (vadd_assoc b c d), (vadd_comm b c), vadd_assoc. reflexivity. Qed.

(* sum of coefficient lists *)
Fixpoint padd (a b : list Qc) : list Qc :=
  match a, b with [], _ => b | _, [] => a | x :: r, y :: s => x + y :: padd r s end.

Section Linear.
Variable n : nat.
Variable A : list Qc -> list Qc.
Hypothesis LA : linear n A.

Lemma A_len x : length x = n -> length (A x) = n.
Proof. apply (proj1 LA). Qed.
Lemma A_zero : A (repeat 0 n) = repeat 0 n.
Proof.
  assert (L : length (repeat (0 : Qc) n) = n) by apply repeat_length. rewrite <- (vscale_rep 0 n) at 1. rewrite (proj2 (proj2 LA)) by auto. rewrite vscale_zero, (A_len _ L). reflexivity.
Qed.
Lemma series_len cs : forall y, length y = n -> length (series A cs y) = n.
Proof. induction cs as [|c cs IH]; intros y L; cbn; [rewrite repeat_length; auto|]. apply vadd_len; [rewrite vscale_len; auto|]. apply IH, A_len, L. Qed.
Lemma series_add a : forall b y, length y = n -> vadd (series A a y) (series A b y) = series A (padd a b) y.
Proof.
  induction a as [|x a IH]; intros b y L.
  - cbn [series padd]. rewrite L. apply vadd_zero_l, series_len, L.
  - destruct b as [|z b]; cbn [series padd].
    + rewrite vadd_comm, L. apply vadd_zero_l. apply (series_len (x :: a)), L.
    + rewrite vadd_swap, <- vscale_sum, IH by (apply A_len, L). reflexivity.
Qed.
Lemma series_scale k a : forall y, length y = n -> vscale k (series A a y) = series A (map (Qcmult k) a) y.
Proof.
  induction a as [|x a IH]; intros y L; cbn [series map]; [apply vscale_rep|]. rewrite vscale_vadd, vscale_twice, IH by (apply A_len, L). reflexivity.
Qed.
Lemma series_A a : forall y, length y = n -> A (series A a y) = series A (0 :: a) y.
Proof.
  intros y L. assert (E : forall a y, length y = n -> A (series A a y) = series A a (A y)).
  { clear a y L. induction a as [|x a IH]; intros y L; cbn [series]; [rewrite L, (A_len _ L); apply A_zero|]. rewrite (proj1 (proj2 LA)) by (rewrite ?vscale_len; auto; apply series_len, A_len, L). rewrite (proj2 (proj2 LA)) by auto. f_equal. apply IH, A_len, L. }
  rewrite E by auto. cbn [series]. rewrite vscale_zero, L. symmetry. apply vadd_zero_l, series_len, A_len, L.
Qed.
Lemma series_one y : length y = n -> y = series A [1] y.
Proof. intro L. cbn [series]. rewrite vscale_one, (A_len y L), <- L. symmetry. apply vadd_zero. Qed.
Lemma series_sub a b y : length y = n -> vsub (series A a y) (series A b y) = series A (padd a (map (Qcmult (- (1))) b)) y.
Proof. intro L. rewrite vsub_vadd, series_scale, series_add by auto. reflexivity. Qed.
End Linear.

Ltac series_step LA L := repeat (first [rewrite (series_A _ _ LA) by exact L|rewrite (series_scale _ _ LA) by exact L|rewrite (series_add _ _ LA) by exact L|rewrite (series_sub _ _ LA) by exact L]);
  cbn [padd map]; apply (f_equal (fun l => series _ l _)); repeat (apply f_equal2; [q_ring|]); try reflexivity.
Lemma linear_step n A t y h : linear n A -> length y = n -> rk_step (fun _ x => A x) t y h =
  (series A [1; h; h * h * fr 1 2; h * h * h * fr 1 6; h * h * h * h * fr 1 24; h * h * h * h * h * fr 1 104] y,
   series A [1; h; h * h * fr 1 2; h * h * h * fr 1 6; h * h * h * h * fr 1 24; h * h * h * h * h * fr 1 120; h * h * h * h * h * h * fr 1 2080] y).
Proof.
  intros LA L. transitivity (rk_step (fun _ x => A x) t (series A [1] y) h); [rewrite <- (series_one n A LA y L); reflexivity|].
  unfold rk_step.
  assert (K1 : vscale h (A (series A [1] y)) = series A [0; h] y) by series_step LA L. rewrite K1.
  match goal with |- context [vscale h (A (vadd (series A [1] y) (vscale (fr 1 4) ?k)))] => assert (K2 : vscale h (A (vadd (series A [1] y) (vscale (fr 1 4) k))) = series A [0; h; h * h * fr 1 4] y) by series_step LA L; rewrite K2 end.
  match goal with |- context [vscale h (A (vadd ?u (vscale (fr 9 32) ?k)))] => assert (K3 : vscale h (A (vadd u (vscale (fr 9 32) k))) = series A [0; h; h * h * fr 3 8; h * h * h * fr 9 128] y) by series_step LA L; rewrite K3 end.
  match goal with |- context [vscale h (A (vadd ?u (vscale (fr 7296 2197) ?k)))] => assert (K4 : vscale h (A (vadd u (vscale (fr 7296 2197) k))) = series A [0; h; h * h * fr 12 13; h * h * h * fr 72 169; h * h * h * h * fr 513 2197] y) by series_step LA L; rewrite K4 end.
  match goal with |- context [vscale h (A (vsub ?u (vscale (fr 845 4104) ?k)))] => assert (K5 : vscale h (A (vsub u (vscale (fr 845 4104) k))) = series A [0; h; h * h; h * h * h * fr 1 2; h * h * h * h * fr 5 12; h * h * h * h * h * fr (-5) 104] y) by series_step LA L; rewrite K5 end.
  match goal with |- context [vscale h (A (vsub ?u (vscale (fr 11 40) ?k)))] => assert (K6 : vscale h (A (vsub u (vscale (fr 11 40) k))) = series A [0; h; h * h * fr 1 2; h * h * h * fr 1 8; h * h * h * h * fr (-1) 24; h * h * h * h * h * fr (-11) 1248; h * h * h * h * h * h * fr 11 832] y) by series_step LA L; rewrite K6 end.
  apply f_equal2; series_step LA L.
Qed.
