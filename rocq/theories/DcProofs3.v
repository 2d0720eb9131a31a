(* Dual contouring: proofs about interpolation, merging and nd_max. *)
From Coq Require Import List Arith ZArith Bool QArith Qcanon Lia.
From Verif Require Import Common QcLib AabbModel ImplModel DcModel DcSpec DcProofs1 DcProofs2.
Import ListNotations.
Local Open Scope Qc_scope.

Definition blend (a b c d dx dy : Qc) : Qc := (a * (1 - dx) + b * dx) * (1 - dy) + (c * (1 - dx) + d * dx) * dy.
Lemma interp_eq s u v w z p : u <> w -> v <> z -> interpolate s ((u, v), (w, z)) p =
  Ok (blend (s (u, v)) (s (w, v)) (s (u, z)) (s (w, z)) ((fst p - u) / (w - u)) ((snd p - v) / (z - v))).
Proof.
  intros X Y. unfold interpolate. assert (E1 : qeq (w - u) 0 = false). { apply qeq_false. intro K. apply X. replace w with (w - u + u) by ring. rewrite K. ring. }
  assert (E2 : qeq (z - v) 0 = false). { apply qeq_false. intro K. apply Y. replace z with (z - v + v) by ring. rewrite K. ring. } rewrite E1, E2. reflexivity.
Qed.
Lemma diff_nz u w : u <> w -> w - u <> 0.
Proof. intros X K. apply X. replace w with (w - u + u) by ring. rewrite K. ring. Qed.
Lemma interp_zero s u v w z p : interpolate s ((u, v), (w, z)) p = Err ZeroDivision <-> u = w \/ v = z.
Proof.
  split.
  - intro E. destruct (Qc_eq_dec u w) as [|X]; auto. destruct (Qc_eq_dec v z) as [|Y]; auto. rewrite interp_eq in E by auto. discriminate.
  - unfold interpolate. intros [-> | ->].
    + replace (w - w) with 0 by ring. rewrite (proj2 (qeq_true 0 0) eq_refl). reflexivity.
    + destruct (qeq (w - u) 0); auto. replace (z - z) with 0 by ring. rewrite (proj2 (qeq_true 0 0) eq_refl). reflexivity.
Qed.
Lemma div_self x : x <> 0 -> x / x = 1.
Proof. intro H. unfold Qcdiv. now apply Qcmult_inv_r. Qed.
Lemma div_zero x : 0 / x = 0.
Proof. unfold Qcdiv. ring. Qed.
Lemma bilinear_exact k0 k1 k2 k3 u v w z p : u <> w -> v <> z ->
  interpolate (fun r => k0 + k1 * fst r + k2 * snd r + k3 * fst r * snd r) ((u, v), (w, z)) p = Ok (k0 + k1 * fst p + k2 * snd p + k3 * fst p * snd p).
Proof.
  intros X Y. rewrite interp_eq by auto. f_equal. unfold blend. cbn [fst snd]. destruct p as (x, y). cbn [fst snd].
  assert (EX : x = u + (x - u) / (w - u) * (w - u)). { unfold Qcdiv. rewrite <- Qcmult_assoc, (Qcmult_comm (/ _)), Qcmult_inv_r by now apply diff_nz. ring. }
  assert (EY : y = v + (y - v) / (z - v) * (z - v)). { unfold Qcdiv. rewrite <- Qcmult_assoc, (Qcmult_comm (/ _)), Qcmult_inv_r by now apply diff_nz. ring. }
  set (dx := (x - u) / (w - u)) in *. set (dy := (y - v) / (z - v)) in *. clearbody dx dy. subst x y. ring.
Qed.
Lemma interp_corners s c : proper c -> forall p, In p [(x0 c, y0 c); (x1 c, y0 c); (x0 c, y1 c); (x1 c, y1 c)] -> interpolate s c p = Ok (s p).
Proof.
  destruct c as ((u, v), (w, z)). unfold proper, x0, x1, y0, y1. cbn [fst snd]. intros (X & Y) p K. assert (NX : u <> w) by (intros ->; qlra). assert (NY : v <> z) by (intros ->; qlra). rewrite interp_eq by auto. f_equal. unfold blend.
  assert (DX := div_self _ (diff_nz _ _ NX)). assert (DY := div_self _ (diff_nz _ _ NY)). assert (ZX : (u - u) / (w - u) = 0) by (replace (u - u) with 0 by ring; apply div_zero). assert (ZY : (v - v) / (z - v) = 0) by (replace (v - v) with 0 by ring; apply div_zero).
  destruct K as [<-|[<-|[<-|[<-|[]]]]]; cbn [fst snd]; rewrite ?DX, ?DY, ?ZX, ?ZY; ring.
Qed.

Lemma frac_mid u w : u <> w -> (mid u w - u) / (w - u) = / two.
Proof.
  intro X. assert (E : mid u w - u = / two * (w - u)). { unfold mid, Qcdiv. change (Q2Qc 2) with two. assert (K := half_twice u). unfold Qcdiv in K. rewrite <- K at 2. ring. }
  rewrite E. unfold Qcdiv. rewrite <- Qcmult_assoc, Qcmult_inv_r by now apply diff_nz. ring.
Qed.
Lemma half_compl : 1 - / two = / two.
Proof. apply Qc_is_canon. reflexivity. Qed.
Lemma mid_blend a b : a * (1 - / two) + b * / two = mid a b.
Proof. rewrite half_compl. unfold mid, Qcdiv. change (Q2Qc 2) with two. ring. Qed.
Lemma qabs_within v w : qlt (qabs (v - w)) (Q2Qc (1 # 1000)) = true <-> within v w.
Proof.
  unfold within, qabs. rewrite qlt_true. destruct (qlt (v - w) 0) eqn:E; [apply qlt_true in E|apply qlt_false in E]; set (k := Q2Qc (1 # 1000)); assert (P : 0 < k) by reflexivity; clearbody k;
  (split; [intro H; split; qlra|intros (H1 & H2); qlra]).
Qed.
Lemma scores_flat s q : proper q -> let xm := mid (x0 q) (x1 q) in let ym := mid (y0 q) (y1 q) in
  exists vs, scores s q [(xm, ym); (xm, y0 q); (x1 q, ym); (x0 q, ym); (xm, y1 q)] = Ok vs /\ (forallb (fun v => qlt v (Q2Qc (1 # 1000))) vs = true <-> flat s q).
Proof.
  intro P. destruct q as ((u, v), (w, z)). unfold proper, x0, x1, y0, y1 in *. cbn [fst snd] in *. destruct P as (X & Y). assert (NX : u <> w) by (intros ->; qlra). assert (NY : v <> z) by (intros ->; qlra).
  set (xm := mid u w). set (ym := mid v z). cbn [scores]. unfold score. rewrite !interp_eq by auto. cbn [bind fst snd]. eexists. split; [reflexivity|]. cbn [forallb].
  assert (DX := div_self _ (diff_nz _ _ NX)). assert (DY := div_self _ (diff_nz _ _ NY)). assert (ZX : (u - u) / (w - u) = 0) by (replace (u - u) with 0 by ring; apply div_zero). assert (ZY : (v - v) / (z - v) = 0) by (replace (v - v) with 0 by ring; apply div_zero).
  unfold xm, ym. rewrite DX, DY, ZX, ZY, !frac_mid by auto. fold xm ym. unfold flat, x0, x1, y0, y1. cbn [fst snd]. fold xm ym.
  rewrite !andb_true_iff, !qabs_within. unfold blend. rewrite !mid_blend.
  set (a := s (u, v)). set (b := s (w, v)). set (c := s (u, z)). set (d := s (w, z)).
  replace (mid a b * (1 - 0) + mid c d * 0) with (mid a b) by ring. replace (mid a b * (1 - 1) + mid c d * 1) with (mid c d) by ring.
  replace (a * (1 - 1) + b * 1) with b by ring. replace (c * (1 - 1) + d * 1) with d by ring. replace (a * (1 - 0) + b * 0) with a by ring. replace (c * (1 - 0) + d * 0) with c by ring.
  tauto.
Qed.

Lemma four_dec a b c d : (exists da db dc dd, a = Leaf2 da /\ b = Leaf2 db /\ c = Leaf2 dc /\ d = Leaf2 dd) \/
  (~ four_leaves a b c d /\ forall s, merge_four s a b c d = Ok (Root2 a b c d)).
Proof.
  destruct a, b, c, d; try (right; split; [intros []|reflexivity]). left. eauto 10.
Qed.
Lemma merge_four_ok s a b c d q : proper q -> tiled (Root2 a b c d) q ->
  exists t', merge_four s a b c d = Ok t' /\ ((t' = Root2 a b c d /\ (four_leaves a b c d -> ~ flat s q)) \/ (t' = Leaf2 q /\ four_leaves a b c d /\ flat s q)).
Proof.
  intros P T. destruct (four_dec a b c d) as [(da & db & dc' & dd & -> & -> & -> & ->)|(N & E)]; [|eexists; split; [apply E|]; left; tauto].
  cbn [tiled] in T. unfold quarters in T. destruct T as (-> & -> & -> & ->). unfold merge_four. cbn [fst snd].
  destruct (scores_flat s q P) as (vs & E & F). destruct q as ((u, v), (w, z)). cbv zeta.
  match goal with |- context [scores s ?cc ?l] => replace (scores s cc l) with (Ok vs : res (list Qc)) by (symmetry; exact E) end. cbn [bind].
  eexists. split; [reflexivity|]. destruct (forallb (fun v => qlt v (Q2Qc (1 # 1000))) vs) eqn:K.
  - right. split; auto. split; [exact Logic.I|]. now apply F.
  - left. split; auto. intros _ G. apply F in G. congruence.
Qed.
Lemma merge_ok s t : forall q, tiled t q -> proper q -> exists t', merge s t = Ok t' /\ tiled t' q /\ no_flat s t' q /\ merge s t' = Ok t' /\
  (forall c, In c (leaves t') -> In c (leaves t) \/ flat s c) /\ (is_root t' -> is_root t).
Proof.
  induction t as [d|n IH|n IH|a IHa b IHb c IHc d IHd]; intros q T P; cbn [merge]; [eexists; split; [reflexivity|]; cbn [merge no_flat is_root]; repeat split; auto .. |].
  assert (PQ := quarters_proper q P). assert (T' := T). cbn [tiled] in T. unfold quarters in *. destruct T as (Ta & Tb & Tc & Td). destruct PQ as (Pa & Pb & Pc & Pd).
  destruct (IHa _ Ta Pa) as (ta & -> & Tta & Na & Ma & La & _). destruct (IHb _ Tb Pb) as (tb & -> & Ttb & Nb & Mb & Lb & _).
  destruct (IHc _ Tc Pc) as (tc & -> & Ttc & Nc & Mc & Lc & _). destruct (IHd _ Td Pd) as (td & -> & Ttd & Nd & Md & Ld & _). cbn [bind].
  assert (TT : tiled (Root2 ta tb tc td) q) by (cbn [tiled]; unfold quarters; auto).
  destruct (merge_four_ok s ta tb tc td q P TT) as (t' & E & [(-> & G)|(-> & F & G)]).
  - exists (Root2 ta tb tc td). split; auto. split; auto. split; [cbn [no_flat]; unfold quarters; auto|]. split; [cbn [merge]; rewrite Ma, Mb, Mc, Md; exact E|]. split; [|cbn; auto].
    cbn [leaves]. intros cell K. rewrite !in_app_iff in *. destruct K as [K|[K|[K|K]]]; [apply La in K|apply Lb in K|apply Lc in K|apply Ld in K]; tauto.
  - exists (Leaf2 q). split; auto. split; [reflexivity|]. split; [exact Logic.I|]. split; [reflexivity|]. split; [|intros []]. intros cell [<-|[]]. now right.
Qed.

(* nd_max *)
Lemma qabs_absq x : qabs x = absq x.
Proof. unfold qabs, absq, qlt. destruct (Qclt_le_dec x 0); reflexivity. Qed.
Lemma pick_larger x y : (if qlt (qabs x) (qabs y) then y else x) = larger x y.
Proof. unfold larger. rewrite !qabs_absq. unfold qlt. destruct (Qclt_le_dec (absq x) (absq y)); reflexivity. Qed.
Lemma abs_cmp_larger x y : abs_cmp x y = larger x y.
Proof.
  unfold abs_cmp, larger, fmax. rewrite !qabs_absq. unfold qlt. destruct (Qclt_le_dec (absq x) (absq y)) as [L|L].
  - destruct (qeq (absq x) (absq y)) eqn:E; auto. apply qeq_true in E. exfalso. rewrite E in L. qlra.
  - rewrite (proj2 (qeq_true _ _) eq_refl). reflexivity.
Qed.
Lemma overwrite_length a : forall b, length a = length b -> length (overwrite a b) = length a.
Proof. induction a as [|x a IH]; intros [|y b] L; cbn in *; try discriminate; auto. Qed.
Lemma overwrite_nth a : forall b i, length a = length b -> (i < length a)%nat -> nth i (overwrite a b) 0 = larger (nth i a 0) (nth i b 0).
Proof. induction a as [|x a IH]; intros [|y b] i L Hi; cbn [length overwrite nth] in *; try discriminate; try lia. destruct i; [apply pick_larger|apply IH; lia]. Qed.
Lemma nd_max_arrays la lb : length la = length lb -> exists r, nd_max (Arr la) (Arr lb) = Ok (Arr r, Arr r, Arr lb) /\ length r = length la /\
  forall i, (i < length la)%nat -> nth i r 0 = larger (nth i la 0) (nth i lb 0).
Proof. intro L. cbn [nd_max]. rewrite (proj2 (Nat.eqb_eq _ _) L). exists (overwrite la lb). split; auto. split; [now apply overwrite_length|]. intros. now apply overwrite_nth. Qed.
Lemma nd_max_left la y : nd_max (Arr la) (Num y) = Ok (Arr (map (fun x => larger x y) la), Arr (map (fun x => larger x y) la), Num y).
Proof. cbn [nd_max]. assert (E : map (fun x => if qlt (qabs x) (qabs y) then y else x) la = map (fun x => larger x y) la) by (apply map_ext; intro; apply pick_larger). now rewrite E. Qed.
Lemma nd_max_right x lb : nd_max (Num x) (Arr lb) = Ok (Arr (map (fun y => larger y x) lb), Num x, Arr (map (fun y => larger y x) lb)).
Proof. cbn [nd_max]. assert (E : map (fun y => if qlt (qabs y) (qabs x) then x else y) lb = map (fun y => larger y x) lb) by (apply map_ext; intro; apply pick_larger). now rewrite E. Qed.
Lemma nd_max_nums x y : nd_max (Num x) (Num y) = Ok (Num (larger x y), Num x, Num y).
Proof. cbn [nd_max]. now rewrite abs_cmp_larger. Qed.

Lemma build_tiled i : forall lo hi, tiled (build_tree2d lo hi i) (lo, hi).
Proof.
  induction i as [|i IH]; intros (u, v) (w, z); [reflexivity|]. cbn [build_tree2d tiled]. unfold quarters, x0, x1, y0, y1. cbn [fst snd].
  split; [apply IH|]. split; [apply IH|]. split; apply IH.
Qed.
Lemma collapse_tiled s t : forall q, tiled t q -> tiled (collapse2d s t) q.
Proof.
  induction t as [d|n IH|n IH|a IHa b IHb c IHc d IHd]; intros q T; cbn [collapse2d]; auto.
  - unfold collapse_leaf2. destruct d as ((u, v), (w, z)). destruct (forallb _ _); [exact Logic.I|]. destruct (forallb _ _); [exact Logic.I|exact T].
  - destruct (is_empty2 _ && _ && _ && _); [exact Logic.I|]. destruct (is_full2 _ && _ && _ && _); [exact Logic.I|]. cbn [tiled] in *. unfold quarters in *. destruct T as (Ta & Tb & Tc & Td). auto.
Qed.
Lemma leaves_V_ok {A} (f : box2 -> A) q1 q2 : edgeProcV f (Leaf2 q1) (Leaf2 q2) = [(f q1, f q2)].
Proof. reflexivity. Qed.
Lemma trav_collapsed s t : is_root (collapse2d s t) -> map snd (trav (collapse2d s t) leaf_filter) = map Leaf2 (all_leaves t).
Proof. intro R. rewrite trav_leaves, <- (collapse_all s t). destruct (collapse2d s t); try contradiction R. reflexivity. Qed.
