(* The files of the triangulation program: lemmas. *)
From Coq Require Import List Arith ZArith Bool QArith Qcanon Lia.
From Verif Require Import Common QcLib TldModel TldSpec.
Import ListNotations.
Local Open Scope Qc_scope.

Lemma to_int_tok z : to_int (tok z) = Ok z.
Proof.
  unfold to_int, tok. cbn [this Q2Qc]. assert (Qred (inject_Z z) = inject_Z z) as ->; [|reflexivity].
  unfold inject_Z, Qred. pose proof (Z.ggcd_gcd z 1) as G. pose proof (Z.ggcd_correct_divisors z 1) as D. destruct (Z.ggcd z 1) as [g [a b]]. cbn [fst snd] in *.
  rewrite Z.gcd_1_r in G. subst g. destruct D as [D1 D2]. rewrite Z.mul_1_l in D1, D2. subst a b. reflexivity.
Qed.

Lemma to_count_ntok n : to_count (ntok n) = Ok n.
Proof. unfold to_count, ntok. rewrite to_int_tok. cbn [bind]. replace (Z.of_nat n <? 0)%Z with false by (symmetry; apply Z.ltb_ge; lia). now rewrite Nat2Z.id. Qed.

Lemma tok_zero z : qeq (tok z) 0 = (z =? 0)%Z.
Proof.
  destruct (Z.eqb_spec z 0) as [->|N]; [reflexivity|]. apply qeq_false. intros E. apply N. pose proof (to_int_tok z) as T. rewrite E in T.
  change (Ok 0%Z = Ok z) in T. congruence.
Qed.

Lemma map_all_ok {A B} (f : A -> res B) (g : B -> A) l : (forall b, f (g b) = Ok b) -> map_all f (map g l) = Ok l.
Proof. intros H. induction l as [|x l IH]; cbn [map map_all]; [reflexivity|]. rewrite H, IH. reflexivity. Qed.

Lemma int_rows_toks l : int_rows (toks l) = Ok l.
Proof. unfold int_rows, toks. apply map_all_ok. intros b. apply map_all_ok. apply to_int_tok. Qed.

Lemma rows_of_concat {A} w (l : list (list A)) : (0 < w)%nat -> width w l -> forall fuel, (length l <= fuel)%nat -> rows_of fuel w (concat l) = Ok l.
Proof.
  intros Hw. induction 1 as [|r l Hr Hl IH]; intros fuel Hf; cbn [concat]; [destruct fuel; reflexivity|].
  cbn [length] in Hf. destruct fuel as [|fuel]; [lia|]. cbn [rows_of]. destruct (r ++ concat l) as [|x t] eqn:E; [destruct r; [cbn in Hr; lia|discriminate]|]. rewrite <- E. clear E.
  replace (length (r ++ concat l) <? w)%nat with false by (symmetry; apply Nat.ltb_ge; rewrite app_length; lia).
  rewrite skipn_app, firstn_app, Hr, Nat.sub_diag. cbn [skipn firstn]. rewrite skipn_all2, firstn_all2 by lia. cbn [app]. rewrite app_nil_r. rewrite IH by lia. reflexivity.
Qed.

Lemma concat_length {A} w (l : list (list A)) : width w l -> length (concat l) = (length l * w)%nat.
Proof. induction 1 as [|r l Hr _ IH]; cbn [concat length]; [reflexivity|]. rewrite app_length, IH, Hr. lia. Qed.

Lemma reshape_concat {A} w (l : list (list A)) : (0 < w)%nat -> width w l -> reshape_rows w (concat l) = Ok l.
Proof. intros Hw Hl. unfold reshape_rows. apply rows_of_concat; auto. rewrite (concat_length w l Hl). nia. Qed.

Lemma split_concat {A} w (l : list (list A)) rest : width w l -> split_at (concat l ++ rest) (length l * w) = (concat l, rest).
Proof.
  intros H. unfold split_at. rewrite <- (concat_length w l H). f_equal.
  - rewrite firstn_app, Nat.sub_diag, firstn_all. cbn [firstn]. apply app_nil_r.
  - rewrite skipn_app, Nat.sub_diag, skipn_all. reflexivity.
Qed.

Lemma split_header {A} (h rest : list A) n : length h = n -> split_at (h ++ rest) n = (h, rest).
Proof. intros <-. unfold split_at. rewrite firstn_app, skipn_app, Nat.sub_diag, firstn_all, skipn_all. cbn [firstn skipn]. now rewrite app_nil_r. Qed.

Lemma numbered_width base l w : width w l -> width (S w) (numbered base l).
Proof. intros H. revert base. induction H as [|r l Hr _ IH]; intros base; cbn [numbered]; constructor; [cbn [length]; now rewrite Hr|apply IH]. Qed.

Lemma numbered_length base l : length (numbered base l) = length l.
Proof. revert base. induction l; intros; cbn [numbered length]; auto. Qed.

Lemma beside_width {A} w1 w2 (a b : list (list A)) : length a = length b -> width w1 a -> width w2 b -> width (w1 + w2) (beside a b).
Proof.
  unfold beside. revert b. induction a as [|r a IH]; intros [|s b] L Ha Hb; try discriminate; cbn [combine map fst snd]; constructor.
  - inversion_clear Ha. inversion_clear Hb. rewrite app_length. lia.
  - inversion_clear Ha. inversion_clear Hb. apply IH; auto.
Qed.

Lemma beside_length {A} (a b : list (list A)) : length a = length b -> length (beside a b) = length a.
Proof. intros L. unfold beside. rewrite map_length, combine_length. lia. Qed.

Lemma columns_numbered base l a b : (0 < a)%nat -> columns_of a b (numbered base l) = columns_of (a - 1) (b - 1) l.
Proof.
  intros Ha. unfold columns_of. revert base. induction l as [|r l IH]; intros base; cbn [numbered map]; [reflexivity|]. rewrite IH. f_equal.
  destruct a as [|a]; [lia|]. cbn [skipn]. replace (S a - 1)%nat with a by lia. f_equal. lia.
Qed.

Lemma columns_left {A} w1 (a b : list (list A)) : length a = length b -> width w1 a -> columns_of 0 w1 (beside a b) = a.
Proof.
  unfold columns_of, beside. revert b. induction a as [|r a IH]; intros [|s b] L Ha; try discriminate; cbn [combine map fst snd]; [reflexivity|]. inversion_clear Ha as [|? ? Hr Ha'].
  rewrite IH by auto. f_equal. cbn [skipn]. rewrite Nat.sub_0_r, firstn_app, Hr, Nat.sub_diag, firstn_all2 by lia. cbn [firstn]. apply app_nil_r.
Qed.

Lemma columns_right {A} w1 (a b : list (list A)) x y : length a = length b -> width w1 a -> (w1 <= x)%nat -> columns_of x y (beside a b) = columns_of (x - w1) (y - w1) b.
Proof.
  unfold columns_of, beside. revert b. induction a as [|r a IH]; intros [|s b] L Ha Hx; try discriminate; cbn [combine map fst snd]; [reflexivity|]. inversion_clear Ha as [|? ? Hr Ha'].
  rewrite IH by auto. f_equal. rewrite skipn_app, Hr, skipn_all2 by lia. cbn [app]. f_equal. lia.
Qed.

Lemma columns_all {A} w (a : list (list A)) y : width w a -> y = w -> columns_of 0 y a = a.
Proof. intros H ->. unfold columns_of. induction H as [|r l Hr _ IH]; cbn [map]; [reflexivity|]. rewrite IH. cbn [skipn]. rewrite Nat.sub_0_r, firstn_all2 by lia. reflexivity. Qed.

Lemma toks_width l w : width w l -> width w (toks l).
Proof. unfold toks, width. rewrite Forall_map. apply Forall_impl. intros r Hr. now rewrite map_length. Qed.

Lemma based_width b l w : width w l -> width w (based b l).
Proof. unfold based, width. rewrite Forall_map. apply Forall_impl. intros r Hr. now rewrite map_length. Qed.

Lemma from_zero_based (base : Z) l : base = 0%Z \/ base = 1%Z -> from_zero (base =? 0)%Z (based base l) = l.
Proof.
  intros [->| ->]; cbn; unfold based; [|rewrite map_map]; rewrite <- (map_id l) at 2; apply map_ext; intros r; [|rewrite map_map]; rewrite <- (map_id r) at 2; apply map_ext; intros z; lia.
Qed.

Lemma positive_columns {A B} w (x y : A) (f : A -> option B) : (if (0 <? w)%nat then f x else None) = match w with O => None | _ => f x end.
Proof. destruct w; reflexivity. Qed.
