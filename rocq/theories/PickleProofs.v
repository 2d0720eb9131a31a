From Coq Require Import List ZArith Bool QArith Qcanon Lia.
From Verif Require Import Common QcLib ArrZ NurbsModel PickleModel.
Import ListNotations.
Local Open Scope Qc_scope.

Definition current (c : curve) : Prop := knots_update_hook c = Ok c.
Lemma hook_current c d : knots_update_hook c = Ok d -> current d.
Proof.
  unfold current, knots_update_hook. destruct (update_interval (c_knots c)) as [iv|] eqn:A; [|discriminate]. cbn [bind]. destruct (greville_abscissae _ _) as [g|] eqn:B; [|discriminate]. cbn [bind]. intros [= <-]. cbn [c_knots c_deg c_pts c_per]. rewrite A. cbn [bind]. rewrite B. reflexivity.
Qed.
Lemma hook_same P d K per iv g iv' g' c : knots_update_hook (mkcurve P d K per iv g) = Ok c -> knots_update_hook (mkcurve P d K per iv' g') = Ok c.
Proof. exact (fun H => H). Qed.
Lemma hook_parts c d : knots_update_hook c = Ok d -> c_pts d = c_pts c /\ c_deg d = c_deg c /\ c_knots d = c_knots c /\ c_per d = c_per c.
Proof. unfold knots_update_hook. destruct (update_interval (c_knots c)) as [iv|]; [|discriminate]. cbn [bind]. destruct (greville_abscissae _ _) as [g|]; [|discriminate]. intros [= <-]. auto. Qed.
Lemma trip_current c : current c -> c_per c = false \/ is_periodic (c_pts c) (c_deg c) = true -> pickle_trip c = Ok c.
Proof.
  intros H P. unfold pickle_trip, reduce, restore, new_curve. destruct c as [pts d K per iv g]. cbn [c_pts c_deg c_knots c_per] in *. rewrite (hook_same _ _ _ _ _ _ (0, 0) [] _ H). cbn [bind]. destruct per; [|reflexivity]. destruct P as [P|P]; [discriminate|]. unfold make_periodic. cbn [c_pts c_deg]. rewrite P. reflexivity.
Qed.
Lemma row_refl a : row_eqb a a = true.
Proof. unfold row_eqb. rewrite !(proj2 (qeq_true _ _) eq_refl). reflexivity. Qed.
Lemma fold_same l : fold_left (fun _ ab => row_eqb (fst ab) (snd ab)) (combine l l) true = true.
Proof. induction l as [|a l IH]; [reflexivity|]. cbn. rewrite row_refl. exact IH. Qed.
Lemma closed_is_periodic P d : (0 <= d <= lenZ P)%Z -> is_periodic (P ++ firstn (Z.to_nat d) P) d = true.
Proof.
  intros H. unfold is_periodic. unfold lenZ in H. set (n := Z.to_nat d). assert (N : (n <= length P)%nat) by (unfold n; lia). assert (L : length (firstn n P) = n) by (rewrite firstn_length; lia). rewrite app_length, L. replace (length P + n - n)%nat with (length P) by lia.
  rewrite skipn_app, Nat.sub_diag, skipn_all. cbn [app skipn]. rewrite firstn_app. replace (n - length P)%nat with 0%nat by lia. rewrite firstn_O, app_nil_r. apply fold_same.
Qed.
Lemma periodic_current c d : current c -> (0 <= c_deg c <= lenZ (c_pts c))%Z -> make_periodic c = Ok d -> c_per c = true -> current d /\ c_per d = true /\ is_periodic (c_pts d) (c_deg d) = true.
Proof.
  intros H D M P. unfold make_periodic in M. destruct (is_periodic (c_pts c) (c_deg c)) eqn:E; [injection M as <-; auto|]. destruct (knots_update_hook _) as [e|] eqn:K; [|discriminate]. cbn [bind] in M. injection M as <-. destruct (hook_parts _ _ K) as [A1 [A2 [A3 A4]]]. pose proof (hook_current _ _ K) as C. cbn [c_pts c_deg c_knots c_per] in *.
  split; [|split; [reflexivity|cbn [c_pts c_deg]; rewrite A1, A2; apply closed_is_periodic, D]]. clear H K; unfold current, knots_update_hook in *. cbn [c_pts c_deg c_knots c_per c_int c_grev]. destruct (update_interval (c_knots e)) as [iv|]; [|discriminate C]. cbn [bind] in *. destruct (greville_abscissae (c_knots e) (c_deg e)) as [g|]; [|discriminate C]. cbn [bind] in *. injection C as C. rewrite <- C. cbn. reflexivity.
Qed.
Lemma new_current P d K per c : (0 <= d <= lenZ P)%Z -> new_curve P d K per = Ok c -> current c /\ (c_per c = false \/ is_periodic (c_pts c) (c_deg c) = true).
Proof.
  intros D. unfold new_curve. set (U := match K with Some k => k | None => _ end). destruct (knots_update_hook _) as [e|] eqn:H; [|discriminate]. cbn [bind]. pose proof (hook_current _ _ H) as C. destruct (hook_parts _ _ H) as [A1 [A2 [A3 A4]]]. cbn [c_pts c_deg c_knots c_per] in *. destruct per.
  - intros M. destruct (periodic_current e c C) as [X [Y Z]]; [rewrite A1, A2; exact D|exact M|exact A4|]. auto.
  - intros [= <-]. auto.
Qed.
Lemma trip_grows c c' : c_per c = true -> is_periodic (c_pts c) (c_deg c) = false -> pickle_trip c = Ok c' -> c_pts c' = c_pts c ++ firstn (Z.to_nat (c_deg c)) (c_pts c) /\ c_pts c' <> c_pts c.
Proof.
  intros P N. unfold pickle_trip, reduce, restore, new_curve. destruct (knots_update_hook _) as [e|] eqn:H; [|discriminate]. cbn [bind]. destruct (hook_parts _ _ H) as [A1 [A2 [A3 A4]]]. cbn [c_pts c_deg c_knots c_per] in *. rewrite P. unfold make_periodic. rewrite A1, A2, N. destruct (knots_update_hook (mkcurve (_ ++ _) _ _ _ _ _)) as [f|] eqn:K; [|discriminate]. cbn [bind]. destruct (hook_parts _ _ K) as [B1 _]. cbn [c_pts] in *. intros M. injection M as M. rewrite <- M. cbn [c_pts]. rewrite B1. split; [reflexivity|].
  intros E. apply (f_equal (@length pt)) in E. rewrite app_length, firstn_length in E. unfold is_periodic in N. destruct (Z.to_nat (c_deg c)) as [|n] eqn:D; [discriminate N|]. destruct (c_pts c) as [|q l]; [discriminate N|]. cbn in E. lia.
Qed.
