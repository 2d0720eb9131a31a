(* Tessellation parameters: averages, the rectangle, the trims and the inner points. *)
From Coq Require Import List Arith ZArith Bool QArith Qcanon Lia.
From Verif Require Import Common QcLib ListLib LuModel RtModel TessModel TessSpec RtSpec RtProofs1 TessProofs1.
Import ListNotations.
Local Open Scope list_scope.
Local Open Scope Qc_scope.

Lemma linspace2_length a b n : length (linspace2 a b n) = n.
Proof. unfold linspace2, pt. rewrite combine_length, !linspace_length. lia. Qed.
Lemma rectangle_length b nu nv : length (rectangle b nu nv) = (2 * (nu + nv))%nat.
Proof. destruct b as [[u0 v0] [u1 v1]]. unfold rectangle. rewrite !app_length, !linspace2_length. lia. Qed.
Lemma linspace2_nth a b n i : (i < n)%nat -> nth_error (linspace2 a b n) i = Some (nth i (linspace (fst a) (fst b) n) 0, nth i (linspace (snd a) (snd b) n) 0).
Proof.
  intro H. unfold linspace2, pt. rewrite (nth_error_nth' _ (0, 0)) by (rewrite combine_length, !linspace_length; lia). rewrite combine_nth by (rewrite !linspace_length; reflexivity). reflexivity.
Qed.
Lemma linspace2_in a b n p : In p (linspace2 a b n) -> In (fst p) (linspace (fst a) (fst b) n) /\ In (snd p) (linspace (snd a) (snd b) n).
Proof. destruct p as [x y]. intro H. split; [eapply in_combine_l|eapply in_combine_r]; exact H. Qed.
Lemma linspace_const a n x : In x (linspace a a n) -> x = a.
Proof. intro H. apply linspace_in in H; [|apply Qcle_refl]. apply Qcle_antisym; tauto. Qed.
Lemma linspace_down a b n x : b <= a -> In x (linspace a b n) -> b <= x /\ x <= a.
Proof.
  intros AB H. assert (G : In (- x) (linspace (- a) (- b) n)).
  { unfold linspace in *. apply in_map_iff in H. destruct H as (i & E & Hi). apply in_map_iff. exists i. split; [|exact Hi]. destruct (n =? 1)%nat; subst x; [reflexivity|]. unfold Qcdiv. ring. }
  apply linspace_in in G; [|qlra]. destruct G. split; qlra.
Qed.
Lemma rectangle_on u0 v0 u1 v1 nu nv p : u0 <= u1 -> v0 <= v1 -> In p (rectangle ((u0, v0), (u1, v1)) nu nv) -> on_rectangle ((u0, v0), (u1, v1)) p.
Proof.
  intros HU HV H. unfold rectangle in H. apply in_app_or in H. destruct H as [H|H]; [|apply in_app_or in H; destruct H as [H|H]; [|apply in_app_or in H; destruct H as [H|H]]]; apply linspace2_in in H; cbn [fst snd] in H; destruct H as (A & B); unfold on_rectangle.
  - right. apply linspace_in in A; auto. apply linspace_const in B. auto.
  - left. apply linspace_const in A. apply linspace_in in B; auto.
  - right. apply linspace_down in A; auto. apply linspace_const in B. auto.
  - left. apply linspace_const in A. apply linspace_down in B; auto.
Qed.
Lemma rectangle_at u0 v0 u1 v1 nu nv : (2 <= nu)%nat -> (2 <= nv)%nat -> let r := rectangle ((u0, v0), (u1, v1)) nu nv in
  nth_error r 0 = Some (u0, v0) /\ nth_error r (nu - 1) = Some (u1, v0) /\ nth_error r nu = Some (u1, v0) /\
  nth_error r (nu + nv - 1) = Some (u1, v1) /\ nth_error r (nu + nv) = Some (u1, v1) /\
  nth_error r (2 * nu + nv - 1) = Some (u0, v1) /\ nth_error r (2 * nu + nv) = Some (u0, v1) /\ nth_error r (2 * nu + 2 * nv - 1) = Some (u0, v0).
Proof.
  intros HU HV r. unfold r, rectangle.
  assert (F : forall a b n, (1 <= n)%nat -> nth_error (linspace2 a b n) 0 = Some a) by (intros [a1 a2] [b1 b2] n H; rewrite linspace2_nth by lia; cbn [fst snd]; rewrite !linspace_first by lia; reflexivity).
  assert (L : forall a b n, (2 <= n)%nat -> nth_error (linspace2 a b n) (n - 1) = Some b) by (intros [a1 a2] [b1 b2] n H; rewrite linspace2_nth by lia; cbn [fst snd]; rewrite !linspace_last by lia; reflexivity).
  repeat split.
  - rewrite nth_error_app1 by (rewrite linspace2_length; lia). apply F. lia.
  - rewrite nth_error_app1 by (rewrite linspace2_length; lia). apply L. lia.
  - rewrite nth_error_app2, linspace2_length by (rewrite linspace2_length; lia). rewrite nth_error_app1 by (rewrite linspace2_length; lia). rewrite Nat.sub_diag. apply F. lia.
  - rewrite nth_error_app2, linspace2_length by (rewrite linspace2_length; lia). rewrite nth_error_app1 by (rewrite linspace2_length; lia). replace (nu + nv - 1 - nu)%nat with (nv - 1)%nat by lia. apply L. lia.
  - do 2 (rewrite nth_error_app2, linspace2_length by (rewrite linspace2_length; lia)). rewrite nth_error_app1 by (rewrite linspace2_length; lia). replace (nu + nv - nu - nv)%nat with 0%nat by lia. apply F. lia.
  - do 2 (rewrite nth_error_app2, linspace2_length by (rewrite linspace2_length; lia)). rewrite nth_error_app1 by (rewrite linspace2_length; lia). replace (2 * nu + nv - 1 - nu - nv)%nat with (nu - 1)%nat by lia. apply L. lia.
  - do 3 (rewrite nth_error_app2, linspace2_length by (rewrite linspace2_length; lia)). replace (2 * nu + nv - nu - nv - nu)%nat with 0%nat by lia. apply F. lia.
  - do 3 (rewrite nth_error_app2, linspace2_length by (rewrite linspace2_length; lia)). replace (2 * nu + 2 * nv - 1 - nu - nv - nu)%nat with (nv - 1)%nat by lia. apply L. lia.
Qed.

(* the average *)
Lemma sum_half_plane a b c (l : list pt) : Forall (half_plane a b c) l -> a * fold_right (fun p s => fst p + s) 0 l + b * fold_right (fun p s => snd p + s) 0 l <= c * qn (length l).
Proof.
  induction 1 as [|p l H _ IH]; cbn [fold_right length].
  - unfold qn. cbn [Z.of_nat]. change (Q2Qc (inject_Z 0)) with 0. assert (E : a * 0 + b * 0 = 0) by ring. assert (E2 : c * 0 = 0) by ring. rewrite E, E2. apply Qcle_refl.
  - unfold half_plane in H. rewrite qn_S. assert (G := Qcplus_le_compat _ _ _ _ H IH). match goal with |- ?x <= ?y => match type of G with ?x' <= ?y' => replace x with x' by ring; replace y with y' by ring end end. exact G.
Qed.
Lemma average_half_plane a b c (l : list pt) p : Forall (half_plane a b c) l -> average l = Some p -> half_plane a b c p.
Proof.
  intros H E. destruct l as [|x r]; [discriminate|]. assert (S := sum_half_plane a b c _ H). remember (x :: r) as l. assert (L : (0 < length l)%nat) by (subst; cbn; lia). unfold average in E. assert (P := qn_pos _ L).
  assert (E' : p = (fold_right (fun p s => fst p + s) 0 l / qn (length l), fold_right (fun p s => snd p + s) 0 l / qn (length l))) by (rewrite Heql in *; congruence). subst p. unfold half_plane. cbn [fst snd]. clear E.
  set (s := fold_right (fun p s => fst p + s) 0 l) in *. set (t := fold_right (fun p s => snd p + s) 0 l) in *. set (n := qn (length l)) in *. clearbody s t n. clear Heql L H.
  destruct (Qclt_le_dec c (a * (s / n) + b * (t / n))) as [K|K]; [|exact K]. exfalso.
  assert (M : c * n < (a * (s / n) + b * (t / n)) * n) by (apply Qcmult_lt_compat_r; auto).
  assert (N : n <> 0) by (intro Z; rewrite Z in P; discriminate P).
  assert (EQ : (a * (s / n) + b * (t / n)) * n = a * s + b * t) by (field; auto). rewrite EQ in M. exact (Qcle_not_lt _ _ S M).
Qed.
Lemma average_times (l : list pt) p : average l = Some p -> qn (length l) * fst p = fold_right (fun q s => fst q + s) 0 l /\ qn (length l) * snd p = fold_right (fun q s => snd q + s) 0 l.
Proof.
  intro E. destruct l as [|x r]; [discriminate|]. assert (P := qn_pos (length (x :: r)) ltac:(cbn; lia)). remember (x :: r) as l. unfold average in E.
  assert (E' : p = (fold_right (fun p s => fst p + s) 0 l / qn (length l), fold_right (fun p s => snd p + s) 0 l / qn (length l))) by (rewrite Heql in *; congruence). subst p. cbn [fst snd]. assert (N : qn (length l) <> 0) by (intro Z; rewrite Z in P; discriminate P). split; field; auto.
Qed.
Lemma sum_perm f (l : list pt) : fold_right (fun q s => f q + s) 0 (rev l) = fold_right (fun q s => f q + s) 0 l.
Proof.
  assert (A : forall l a, fold_right (fun q s => f q + s) a l = fold_right (fun q s => f q + s) 0 l + a) by (intros l'; induction l' as [|x r IH]; intro a; cbn [fold_right]; [ring|rewrite (IH a); ring]).
  induction l as [|x r IH]; [reflexivity|]. cbn [rev fold_right]. rewrite fold_right_app. cbn [fold_right]. rewrite A, IH. ring.
Qed.

(* the trims *)
Lemma count_inv n k : count n = Ok k -> n = Some (Z.of_nat k).
Proof. destruct n as [z|]; [|discriminate]. cbn. destruct (z <? 0)%Z eqn:E; [discriminate|]. intro H. injection H as <-. apply Z.ltb_ge in E. rewrite Z2Nat.id by auto. reflexivity. Qed.
Lemma count_nat k : count (Some (Z.of_nat k)) = Ok k.
Proof. cbn. destruct (Z.ltb_spec (Z.of_nat k) 0); [lia|]. rewrite Nat2Z.id. reflexivity. Qed.
Lemma shifted {A} (p : list A) mx : map (fun e => ((fst e + mx)%nat, (snd e + mx)%nat)) (map (fun i => (i, ((i + 1) mod length p)%nat)) (seq 0 (length p))) = segments_by_loop p mx.
Proof. unfold segments_by_loop. rewrite map_map. reflexivity. Qed.
Lemma trim_loop_inv ts : forall vs segs mx r, trim_loop ts vs segs mx = Ok r -> exists ks, map snd ts = map Z.of_nat ks /\
  r = (vs ++ concat (map (fun x => polygon_of (fst x) (snd x)) (combine (map fst ts) ks)), segs ++ place mx (map (fun x => polygon_of (fst x) (snd x)) (combine (map fst ts) ks))).
Proof.
  induction ts as [|[t n] ts IH]; intros vs segs mx r E; cbn [trim_loop] in E.
  - injection E as <-. exists []. cbn. rewrite !app_nil_r. auto.
  - unfold process_trim in E. destruct (count (Some n)) as [k|] eqn:EK; [|discriminate]. cbn [bind] in E. cbv zeta in E. fold (polygon_of t k) in E. apply IH in E. destruct E as (ks & A & ->). exists (k :: ks). apply count_inv in EK. injection EK as ->. split; [cbn; rewrite A; reflexivity|].
    cbn [map fst snd combine concat place]. rewrite <- !app_assoc, shifted, map_length, seq_length. reflexivity.
Qed.
Lemma trim_loop_ok ts ks : map snd ts = map Z.of_nat ks -> forall vs segs mx, exists r, trim_loop ts vs segs mx = Ok r.
Proof.
  revert ks. induction ts as [|[t n] ts IH]; intros [|k ks] E; try discriminate; intros vs segs mx; [eexists; reflexivity|]. cbn in E. injection E as -> E. cbn [trim_loop]. unfold process_trim. rewrite count_nat. cbn [bind]. apply (IH ks E).
Qed.

(* the inner points *)
Lemma fdiv_ok a n : (1 <= n)%nat -> fdiv a (qn n) = Ok (a / qn n).
Proof. intro H. unfold fdiv. assert (P := qn_pos n ltac:(lia)). destruct (qeq (qn n) 0) eqn:E; [|reflexivity]. apply qeq_true in E. rewrite E in P. discriminate P. Qed.
Lemma interior_ok junk u0 v0 u1 v1 nu nv : (1 <= nu)%nat -> (1 <= nv)%nat -> length junk = ((nu - 1) * (nv - 1))%nat ->
  interior junk ((u0, v0), (u1, v1)) nu nv = Ok (pairs (linspace (u0 + (u1 - u0) / qn nu) (v0 + (v1 - v0) / qn nv) (nu - 1)) (linspace (u1 - (u1 - u0) / qn nu) (v1 - (v1 - v0) / qn nv) (nv - 1))).
Proof. intros A B L. unfold interior. rewrite !fdiv_ok by auto. cbn [bind]. rewrite uvs_ok by auto. reflexivity. Qed.
Lemma pairs_in u v p : In p (pairs u v) -> In (fst p) u /\ In (snd p) v.
Proof. unfold pairs. intro H. apply in_flat_map in H. destruct H as (a & A & B). apply in_map_iff in B. destruct B as (b & <- & B). auto. Qed.
