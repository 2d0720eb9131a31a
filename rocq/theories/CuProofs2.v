(* Curve utilities: proofs about the points, the binomials and the derivatives. *)
From Coq Require Import List Arith ZArith Bool QArith Qcanon Lia.
From Verif Require Import Common QcLib ListLib SumLib LuModel LuProofs1 CuModel CuSpec CuProofs.
Import ListNotations.
Local Open Scope Qc_scope.

Lemma loop_first {St} lo hi (st : St) body : (lo < hi)%nat -> loop lo hi st body = bind (body lo st) (fun s => loop (S lo) hi s body).
Proof. intro L. unfold loop. replace (hi - lo)%nat with (S (hi - S lo)) by lia. reflexivity. Qed.
Lemma pos_nz x : 0 < x -> x <> 0.
Proof. intros H E. rewrite E in H. qlra. Qed.

(* the two values *)
Lemma parts_sum U p s u : kn U (s + 1 - p) < kn U (s + 1) -> first_part U p s u + second_part U p s u = 1.
Proof.
  intro H. unfold first_part, second_part, Qcdiv. assert (N : kn U (s + 1) - kn U (s + 1 - p) <> 0) by (apply pos_nz; qlra).
  assert (E := Qcmult_inv_r _ N). transitivity ((kn U (s + 1) - kn U (s + 1 - p)) * / (kn U (s + 1) - kn U (s + 1 - p))); [ring|exact E].
Qed.
Lemma linear_right U s u : sorted_knots U -> (1 <= s)%nat -> (s + 1 < length U)%nat -> kn U s <= u -> u < kn U (s + 1) ->
  bspline U 1 (s - 1) u = first_part U 1 s u /\ ((s + 2 < length U)%nat -> bspline U 1 s u = second_part U 1 s u).
Proof.
  intros SO S1 L A B. unfold first_part, second_part. split.
  - cbn [bspline]. replace (s - 1 + 1)%nat with s by lia. rewrite (proj2 (qlt_false u (kn U s)) A), andb_false_r, (proj2 (qle_true _ _) A), (proj2 (qlt_true _ _) B). cbn [andb].
    replace (s + 1 - 1)%nat with s by lia. unfold Qcdiv. ring.
  - intro L2. cbn [bspline]. rewrite (proj2 (qle_true _ _) A), (proj2 (qlt_true _ _) B), (proj2 (qle_false _ _) B). cbn [andb].
    replace (s + 1 - 1)%nat with s by lia. unfold Qcdiv. ring.
Qed.
Lemma bspline_zero U u p : forall i, (forall k, (i <= k <= i + p)%nat -> u < kn U k) -> bspline U p i u = 0.
Proof.
  induction p as [|p IH]; intros i H; cbn [bspline].
  - rewrite (proj2 (qle_false _ _) (H i ltac:(lia))). reflexivity.
  - rewrite (IH i), (IH (i + 1)%nat) by (intros; apply H; lia). ring.
Qed.
Lemma bspline_last U u p : forall s, sorted_knots U -> (s + p < length U)%nat -> (1 <= p)%nat -> kn U s < u -> u < kn U (s + 1) -> 0 < bspline U p s u.
Proof.
  intros s SO L P A B. induction p as [|p IH]; [lia|].
  assert (0 < bspline U p s u) as H.
  { destruct p; [|apply IH; lia]. cbn [bspline]. rewrite (proj2 (qle_true _ _)) by qlra. rewrite (proj2 (qlt_true _ _) B). cbn [andb]. qlra. }
  cbn [bspline]. rewrite (bspline_zero U u p (s + 1)); [|intros k K; assert (X := SO (s + 1)%nat k ltac:(lia) ltac:(lia)); qlra].
  assert (X := SO (s + 1)%nat (s + S p)%nat ltac:(lia) ltac:(lia)).
  assert (D : 0 < (u - kn U s) / (kn U (s + S p) - kn U s)) by (apply qc_div_pos; qlra). assert (G := qc_mul_pos _ _ D H). rewrite Qcmult_0_r, Qcplus_0_r. exact G.
Qed.

(* the right end *)
Lemma basis_at_end U p s : (2 <= p <= s)%nat -> (s + 1 < length U)%nat -> calc_basis_functions s (kn U (s + 1)) p U = Err ZeroDivision.
Proof.
  intros P L. unfold calc_basis_functions. cbv zeta. rewrite wr_ok by (rewrite repeat_length; lia). cbn [bind]. rewrite loop_first by lia. unfold basis_outer at 1.
  rewrite (getR_nth 0) by lia. cbn [bind]. rewrite wr_ok by (rewrite repeat_length; lia). cbn [bind]. rewrite (getR_nth 0) by lia. cbn [bind]. rewrite wr_ok by (rewrite repeat_length; lia). cbn [bind].
  rewrite loop_first by lia. unfold basis_inner at 1. rewrite !(getR_nth 0) by (rewrite ?upd_length, ?repeat_length; lia). cbn [bind].
  rewrite !(nth_upd 0) by (rewrite repeat_length; lia). change (0 + 1)%nat with 1%nat. destruct (Nat.eqb_spec (p - 0) 1) as [Q|Q]; [lia|]. rewrite !nth_repeat. cbn [Nat.eqb].
  change (nth (s + 1) U 0) with (kn U (s + 1)). replace (kn U (s + 1) - kn U (s + 1) + 0) with (0 : Qc) by ring. reflexivity.
Qed.
Lemma point_at_end p U P : sorted_knots U -> (2 <= p)%nat -> (2 * p + 1 < length U)%nat -> calc_b_spline_point p U P (kn U (length U - p - 1)) = Err ZeroDivision.
Proof.
  intros SO P2 L. unfold calc_b_spline_point. destruct (find_span_ok p (kn U (length U - p - 1)) U SO L) as (s & -> & S1 & S2 & _). rewrite (S2 (Qcle_refl _)) in *. cbn [bind].
  set (n := (length U - p - 1)%nat) in *. replace (kn U n) with (kn U (n - 1 + 1)) by (f_equal; unfold n; lia). rewrite basis_at_end; auto; unfold n; lia.
Qed.

(* the point of the curve *)
Definition point_state (a b : Qc) (P Q : pt4) (j : nat) (C : pt4) : Prop :=
  match j with O => C = pt_0 | S O => C = mix a 0 P Q | _ => C = mix a b P Q end.
Lemma point_two p s P N : (1 <= p <= s)%nat -> (s < length P)%nat -> length N = (p + 1)%nat -> (forall k, (1 < k)%nat -> nth k N 0 = 0) ->
  loop 0 (p + 1) (0, 0, 0, 0) (point_step p s P N) = Ok (mix (nth 0 N 0) (nth 1 N 0) (nth (s - p) P pt_0) (nth (s - p + 1) P pt_0)).
Proof.
  intros PS L LN Z. destruct (loop_inv (point_state (nth 0 N 0) (nth 1 N 0) (nth (s - p) P pt_0) (nth (s - p + 1) P pt_0)) (point_step p s P N) 0 (p + 1) (0, 0, 0, 0)) as (C & EC & H); [lia|reflexivity| |].
  - intros j C J H. unfold point_step. rewrite (getR_nth pt_0) by lia. cbn [bind]. destruct (nth (s - p + j) P pt_0) as (((x, y), z), w) eqn:E. cbn [bind]. rewrite (getR_nth 0) by lia. cbn [bind].
    destruct C as (((c0, c1), c2), c3). eexists. split; [reflexivity|]. destruct j as [|[|j]]; cbn [point_state] in *.
    + replace (s - p + 0)%nat with (s - p)%nat in E by lia. rewrite E. destruct (nth (s - p + 1) P pt_0) as (((x', y'), z'), w'). unfold mix. unfold pt_0 in H.
      assert (c0 = 0 /\ c1 = 0 /\ c2 = 0 /\ c3 = 0) as (-> & -> & -> & ->) by (split; [|split; [|split]]; congruence).
      f_equal; [f_equal; [f_equal|]|]; ring.
    + rewrite E in *. destruct (nth (s - p) P pt_0) as (((x', y'), z'), w'). unfold mix in *.
      assert (H' := f_equal (fun t => fst (fst (fst t))) H). assert (H1 := f_equal (fun t => snd (fst (fst t))) H). assert (H2 := f_equal (fun t => snd (fst t)) H). assert (H3 := f_equal snd H). cbn [fst snd] in *. rewrite H', H1, H2, H3.
      f_equal; [f_equal; [f_equal|]|]; ring.
    + rewrite (Z (S (S j))) by lia. rewrite <- H. f_equal; [f_equal; [f_equal|]|]; ring.
  - etransitivity; [exact EC|]. f_equal. destruct p as [|p]; [lia|]. replace (S p + 1)%nat with (S (S p)) in H by lia. exact H.
Qed.
Lemma point_closed p U P u : sorted_knots U -> (1 <= p)%nat -> (2 * p + 1 < length U)%nat -> length P = (length U - p - 1)%nat -> kn U p < u -> u < kn U (length U - p - 1) ->
  exists s, (p <= s < length P)%nat /\ kn U s <= u /\ u < kn U (s + 1) /\
    calc_b_spline_point p U P u = Ok (mix (first_part U p s u) (second_part U p s u) (nth (s - p) P pt_0) (nth (s - p + 1) P pt_0)).
Proof.
  intros SO P1 L LP A B. destruct (find_span_ok p u U SO L) as (s & E & S1 & _ & _ & S4). destruct (S4 A B) as (S5 & S6). exists s. split; [lia|]. split; auto. split; auto.
  unfold calc_b_spline_point. rewrite E. cbn [bind]. destruct (basis_closed U p s u SO ltac:(lia) ltac:(lia) S5 S6 P1) as (N & -> & LN & N0 & N1 & Nk). cbn [bind].
  rewrite point_two by (auto; lia). rewrite N0, N1. reflexivity.
Qed.

(* binomials *)
Lemma prod_table : forallb (fun k => Z.eqb (prod_to k) (zfact k) && forallb (fun i => Z.eqb (wrap64 (prod_to i * prod_to (k - i))) (zfact i * zfact (k - i))) (seq 0 (k + 1))) (seq 0 21) = true.
Proof. vm_compute. reflexivity. Qed.
Lemma calcKoverI_ok k i : (i <= k <= 20)%nat -> calcKoverI k i = bq k i.
Proof.
  intros H. assert (T := prod_table). rewrite forallb_forall in T. specialize (T k ltac:(apply in_seq; lia)). apply andb_prop in T. destruct T as (T1 & T2).
  rewrite forallb_forall in T2. specialize (T2 i ltac:(apply in_seq; lia)). apply Z.eqb_eq in T1, T2. unfold calcKoverI. rewrite T1, T2. change (Q2Qc (inject_Z (zfact k))) with (zq (zfact k)). change (Q2Qc (inject_Z (zfact i * zfact (k - i)))) with (zq (zfact i * zfact (k - i))).
  rewrite <- (bin_fact k i) by lia. rewrite zq_mul. unfold bq, Qcdiv. rewrite <- Qcmult_assoc, Qcmult_inv_r; [ring|]. apply pos_nz, zq_pos. assert (A := zfact_pos i). assert (B := zfact_pos (k - i)). nia.
Qed.
Lemma calcKoverI_bad : calcKoverI 21 1 <> bq 21 1.
Proof. intro H. apply (f_equal this) in H. revert H. vm_compute. discriminate. Qed.

(* derivatives of a rational curve *)
Lemma aders_get (Pders : list arr4) k : (k < length Pders)%nat ->
  getR (map (fun '(t, (x, y, z, _)) => (t, (x, y, z))) Pders) k = Ok (fst (nth k Pders zero4), (crd 0 (nth k Pders zero4), crd 1 (nth k Pders zero4), crd 2 (nth k Pders zero4))).
Proof.
  revert k. induction Pders as [|(t, (((x, y), z), w)) l IH]; intros [|k] L; cbn [length] in L; try lia; [reflexivity|]. change (nth (S k) ((t, (x, y, z, w)) :: l) zero4) with (nth k l zero4). rewrite <- IH by lia. reflexivity.
Qed.
Lemma wders_get (Pders : list arr4) k : (k < length Pders)%nat -> getR (map (fun '(_, (_, _, _, w)) => w) Pders) k = Ok (wgt (nth k Pders zero4)).
Proof.
  revert k. induction Pders as [|(t, (((x, y), z), w)) l IH]; intros [|k] L; cbn [length] in L; try lia; [reflexivity|]. change (nth (S k) ((t, (x, y, z, w)) :: l) zero4) with (nth k l zero4). rewrite <- IH by lia. reflexivity.
Qed.
Section Leibniz.
Variable Pders : list arr4.
Local Notation A c k := (crd c (nth k Pders zero4)).
Local Notation W k := (wgt (nth k Pders zero4)).
Local Notation Aders := (map (fun '(t, (x, y, z, _)) => (t, (x, y, z))) Pders).
Local Notation wders := (map (fun '(_, (_, _, _, w)) => w) Pders).
Definition o3 : Qc * Qc * Qc := (0, 0, 0).
Lemma rational_step_ok k CK : (k < length Pders)%nat -> length CK = k -> fst (nth k Pders zero4) = DFloat ->
  exists v, rational_step Aders wders k CK = Ok (CK ++ [v]) /\
    forall c, (c < 3)%nat -> crd3 c v = (A c k - sumn k (fun t => calcKoverI k (S t) * W (S t) * crd3 c (nth (k - S t) CK o3))) / W 0.
Proof.
  intros L LC F. unfold rational_step. rewrite aders_get, F by auto. cbn [bind].
  match goal with |- context [loop 1 (k + 1) ?st ?body] => destruct (loop_inv (fun i (v : arr3) => fst v = DFloat /\ forall c, (c < 3)%nat -> crd3 c (snd v) = A c k - sumn (i - 1) (fun t => calcKoverI k (S t) * W (S t) * crd3 c (nth (k - S t) CK o3))) body 1 (k + 1) st) as (v & -> & H) end; [lia| | |].
  - split; auto. intros c C. cbn [snd Nat.sub sumn]. destruct c as [|[|[|c]]]; [cbn [crd3]; ring..|lia].
  - intros i (t, ((x, y), z)) J (F' & H). cbn [fst snd] in *. subst t. rewrite (getR_nth o3) by lia. cbn [bind]. destruct (nth (k - i) CK o3) as ((x', y'), z') eqn:E. cbn [bind]. rewrite wders_get by lia. cbn [bind isub3].
    eexists. split; [reflexivity|]. split; auto. cbn [snd]. intros c C. replace (S i - 1)%nat with (S (i - 1)) by lia. rewrite sumn_S. replace (S (i - 1)) with i by lia. rewrite E. specialize (H c C).
    destruct c as [|[|[|c]]]; [cbn [crd3] in *; rewrite H; ring..|lia].
  - cbn [bind]. rewrite wders_get by lia. cbn [bind]. destruct v as (t, ((x, y), z)). cbn [fst snd] in H. destruct H as (_ & H). eexists. split; [reflexivity|].
    intros c C. specialize (H c C). replace (k + 1 - 1)%nat with k in H by lia. rewrite <- H. destruct c as [|[|[|c]]]; [reflexivity..|lia].
Qed.
Lemma leibniz_sum k c CK : (k < length CK)%nat -> (k <= 20)%nat -> W 0 <> 0 -> crd3 c (nth k CK o3) = (A c k - sumn k (fun t => calcKoverI k (S t) * W (S t) * crd3 c (nth (k - S t) CK o3))) / W 0 ->
  sumn (k + 1) (fun i => bq k i * W i * crd3 c (nth (k - i) CK o3)) = A c k.
Proof.
  intros L K N E. replace (k + 1)%nat with (S k) by lia. rewrite sumn_first. replace (k - 0)%nat with k by lia. rewrite bq_0, E.
  rewrite (sumn_ext k (fun t => calcKoverI k (S t) * W (S t) * crd3 c (nth (k - S t) CK o3)) (fun i => bq k (S i) * W (S i) * crd3 c (nth (k - S i) CK o3))) by (intros i H; rewrite calcKoverI_ok by lia; reflexivity).
  set (R := sumn k _). unfold Qcdiv. assert (X := Qcmult_inv_r _ N). transitivity ((A c k - R) * (W 0 * / W 0) + R); [ring|]. rewrite X. ring.
Qed.
Lemma rational_ok : (length Pders <= 21)%nat -> (forall k, (k < length Pders)%nat -> fst (nth k Pders zero4) = DFloat) -> W 0 <> 0 ->
  exists CK, calc_rational_curve_derivatives Pders = Ok CK /\ length CK = length Pders /\
    forall k c, (k < length Pders)%nat -> (c < 3)%nat -> sumn (k + 1) (fun i => bq k i * W i * crd3 c (nth (k - i) CK o3)) = A c k.
Proof.
  intros L F N. unfold calc_rational_curve_derivatives. cbv zeta.
  destruct (loop_inv (fun k CK => length CK = k /\ forall m c, (m < k)%nat -> (c < 3)%nat -> sumn (m + 1) (fun i => bq m i * W i * crd3 c (nth (m - i) CK o3)) = A c m) (rational_step Aders wders) 0 (length Pders) []) as (CK & -> & H); [lia|split; [auto|intros; lia]| |exists CK; tauto].
  intros k CK K (LC & H). destruct (rational_step_ok k CK ltac:(lia) LC (F k ltac:(lia))) as (v & -> & V). eexists. split; [reflexivity|]. split; [rewrite app_length; cbn; lia|].
  intros m c M C. destruct (Nat.eq_dec m k) as [->|NE].
  - apply leibniz_sum; [rewrite app_length; cbn; lia|lia|auto|]. rewrite app_nth2 by lia. rewrite LC, Nat.sub_diag. cbn [nth]. rewrite V by auto. replace (sumn k (fun t => calcKoverI k (S t) * W (S t) * crd3 c (nth (k - S t) (CK ++ [v]) o3))) with (sumn k (fun t => calcKoverI k (S t) * W (S t) * crd3 c (nth (k - S t) CK o3))); [reflexivity|].
    apply sumn_ext. intros i I'. rewrite app_nth1 by lia. reflexivity.
  - rewrite <- (H m c) by (auto; lia). apply sumn_ext. intros i I'. rewrite app_nth1 by lia. reflexivity.
Qed.
(* an array of ints at a later place *)
Lemma rational_int m : (1 <= m < length Pders)%nat -> (forall k, (k < m)%nat -> fst (nth k Pders zero4) = DFloat) -> fst (nth m Pders zero4) = DInt ->
  calc_rational_curve_derivatives Pders = Err TypeError.
Proof.
  intros M F D. unfold calc_rational_curve_derivatives. cbv zeta.
  assert (S1 : forall n, (n <= m)%nat -> exists CK, length CK = n /\ loop 0 (length Pders) [] (rational_step Aders wders) = loop n (length Pders) CK (rational_step Aders wders)).
  { induction n as [|n IH]; intro Hn; [exists []; auto|]. destruct IH as (CK & LC & ->); [lia|]. rewrite loop_first by lia. destruct (rational_step_ok n CK ltac:(lia) LC (F n ltac:(lia))) as (v & -> & _). cbn [bind]. eexists. split; [|reflexivity]. rewrite app_length. cbn. lia. }
  destruct (S1 m (le_n m)) as (CK & LC & ->). rewrite loop_first by lia. unfold rational_step at 1. rewrite aders_get, D by lia. cbn [bind]. rewrite (loop_first 1) by lia. rewrite (getR_nth o3) by lia. cbn [bind].
  destruct (nth (m - 1) CK o3) as ((x, y), z). rewrite wders_get by lia. reflexivity.
Qed.
End Leibniz.
Lemma snoc_all {T} (Q : T -> Prop) d l x n : length l = n -> (forall k, (k < n)%nat -> Q (nth k l d)) -> Q x -> length (l ++ [x]) = S n /\ (forall k, (k < S n)%nat -> Q (nth k (l ++ [x]) d)).
Proof.
  intros L H X. split; [rewrite app_length; cbn; lia|]. intros k K. destruct (Nat.eq_dec k n) as [->|NE]; [rewrite app_nth2 by lia; rewrite L, Nat.sub_diag; exact X|]. rewrite app_nth1 by lia. apply H. lia.
Qed.
Lemma pad_all {T} (Q : T -> Prop) d l x n m : length l = n -> (forall k, (k < n)%nat -> Q (nth k l d)) -> (n < m)%nat ->
  length (l ++ repeat x (m - n)) = m /\ (forall k, (k < n)%nat -> Q (nth k (l ++ repeat x (m - n)) d)) /\ nth n (l ++ repeat x (m - n)) d = x.
Proof.
  intros L H M. split; [rewrite app_length, repeat_length; lia|]. split; [intros k K; rewrite app_nth1 by lia; auto|]. rewrite app_nth2 by lia. rewrite L, Nat.sub_diag. replace (m - n)%nat with (S (m - n - 1)) by lia. reflexivity.
Qed.
Lemma bspline_ders_shape bd p U P u nd Pders : calc_bspline_derivatives bd p U P u nd = Ok Pders ->
  length Pders = (nd + 2)%nat /\ (forall k, (k <= Nat.min nd p)%nat -> fst (nth k Pders zero4) = DFloat) /\ fst (nth (Nat.min nd p + 1) Pders zero4) = DInt.
Proof.
  unfold calc_bspline_derivatives. destruct (find_span p u U) as [s|]; cbn [bind]; [|discriminate]. destruct (bd _ _ _ _ _) as [nders|]; cbn [bind]; [|discriminate].
  set (d := Nat.min nd p). assert (DN : (d <= nd)%nat) by (unfold d; lia). clearbody d.
  match goal with |- context [loop 0 (d + 1) [] ?b] => destruct (loop 0 (d + 1) [] b) as [CK|] eqn:E end; cbn [bind]; [|discriminate].
  intro H. injection H as <-.
  assert (I' : length CK = (d + 1)%nat /\ forall k, (k < d + 1)%nat -> fst (nth k CK zero4) = DFloat).
  { apply (loop_part (fun n CK => length CK = n /\ forall k, (k < n)%nat -> fst (nth k CK zero4) = DFloat) _ 0%nat (d + 1)%nat [] CK ltac:(lia)) in E; [exact E|split; [auto|intros; lia]|].
    intros k CK' c K (LC & HC) Q. destruct (getR nders k) as [row|]; cbn [bind] in Q; [|discriminate]. destruct (combine_pts _ _ _ _) as [t|]; cbn [bind] in Q; [|discriminate]. injection Q as <-. exact (snoc_all (fun a => fst a = DFloat) zero4 CK' (DFloat, t) k LC HC eq_refl). }
  destruct I' as (LC & HC). destruct (pad_all (fun a => fst a = DFloat) zero4 CK (DInt, (0, 0, 0, 0)) (d + 1) (nd + 2) LC HC ltac:(lia)) as (X1 & X2 & X3).
  split; [exact X1|]. split; [intros k K; apply X2; lia|]. exact (f_equal fst X3).
Qed.
Lemma nurbs_ders_fail bd p U P u nd Pders : calc_bspline_derivatives bd p U P u nd = Ok Pders -> calcNURBSDerivatives bd p U P u nd = Err TypeError.
Proof.
  intro E. destruct (bspline_ders_shape _ _ _ _ _ _ _ E) as (L & F & D). unfold calcNURBSDerivatives. rewrite E. cbn [bind]. apply rational_int with (m := (Nat.min nd p + 1)%nat); auto; [lia|]. intros k K. apply F. lia.
Qed.

(* points of a surface *)
Lemma surface_never st p q U V P u v r : surface_point st p q U V P u v <> Ok r.
Proof.
  unfold surface_point. destruct (find_span p u U); cbn [bind]; [|discriminate]. destruct (find_span q v V); cbn [bind]; [|discriminate].
  destruct (calc_basis_functions _ u p U); cbn [bind]; [|discriminate]. destruct (calc_basis_functions _ v q V) as [Nv|]; cbn [bind]; [|discriminate].
  match goal with |- context [bind ?x _] => destruct x as [T|]; cbn [bind]; [|discriminate] end.
  rewrite loop_first by lia. destruct (getR T 0); cbn [bind]; [|discriminate]. destruct (getR Nv 0); cbn [bind]; discriminate.
Qed.
(* what find_span and calc_basis_functions return together inside the domain *)
Lemma span_basis p u U : sorted_knots U -> (1 <= p)%nat -> (2 * p + 1 < length U)%nat -> kn U p < u -> u < kn U (length U - p - 1) ->
  exists s N, find_span p u U = Ok s /\ (p <= s < length U - p - 1)%nat /\ calc_basis_functions s u p U = Ok N /\ length N = (p + 1)%nat.
Proof.
  intros SO P1 L A B. destruct (find_span_ok p u U SO L) as (s & E & S1 & _ & _ & S4). destruct (S4 A B) as (S5 & S6).
  destruct (basis_closed U p s u SO ltac:(lia) ltac:(lia) S5 S6 P1) as (N & EN & LN & _). exists s, N. auto.
Qed.
Lemma column_float st p q su sv P Nu l : (p <= su < length P)%nat -> (forall row, In row P -> (sv - q + l < length row)%nat) -> length Nu = (p + 1)%nat ->
  fst st = DFloat -> exists t, column st p q su sv P Nu l = Ok t.
Proof.
  intros A B LN F. unfold column. destruct (loop_inv (fun _ t => fst t = DFloat) (fun k t => do a <- weighted_at P (su - p + k) (sv - q + l) ; do nk <- getR Nu k ; iadd4 t (scale4 nk a)) 0 (p + 1) st) as (t & E & _); [lia|auto| |exists t; exact E].
  intros k (d, (((x, y), z), w)) K F'. cbn [fst] in F'. subst d. unfold weighted_at. rewrite (getR_nth []) by lia. cbn [bind]. rewrite (getR_nth pt_0) by (apply B, nth_In; lia). cbn [bind].
  destruct (nth (sv - q + l) (nth (su - p + k) P []) pt_0) as (((x', y'), z'), w'). cbn [bind]. rewrite (getR_nth 0) by lia. cbn [bind scale4 iadd4]. eexists. split; reflexivity.
Qed.
Lemma column_int z p q su sv P Nu l : (p <= su < length P)%nat -> (forall row, In row P -> (sv - q + l < length row)%nat) -> length Nu = (p + 1)%nat ->
  column (DInt, z) p q su sv P Nu l = Err TypeError.
Proof.
  intros A B LN. unfold column. rewrite loop_first by lia. unfold weighted_at at 1. rewrite (getR_nth []) by lia. cbn [bind]. rewrite (getR_nth pt_0) by (apply B, nth_In; lia). cbn [bind].
  destruct (nth (sv - q + l) (nth (su - p + 0) P []) pt_0) as (((x', y'), z'), w'). cbn [bind]. rewrite (getR_nth 0) by lia. reflexivity.
Qed.
Lemma surface_error z t p q U V P u v : sorted_knots U -> sorted_knots V -> (1 <= p)%nat -> (1 <= q)%nat -> (2 * p + 1 < length U)%nat -> (2 * q + 1 < length V)%nat ->
  kn U p < u -> u < kn U (length U - p - 1) -> kn V q < v -> v < kn V (length V - q - 1) ->
  length P = (length U - p - 1)%nat -> (forall row, In row P -> length row = (length V - q - 1)%nat) -> surface_point (t, z) p q U V P u v = Err TypeError.
Proof.
  intros SU SV P1 Q1 LU LV A1 A2 B1 B2 LP LR. destruct (span_basis p u U SU P1 LU A1 A2) as (su & Nu & E1 & R1 & E2 & L1). destruct (span_basis q v V SV Q1 LV B1 B2) as (sv & Nv & E3 & R3 & E4 & L3).
  unfold surface_point. rewrite E1. cbn [bind]. rewrite E3. cbn [bind]. rewrite E2. cbn [bind]. rewrite E4. cbn [bind].
  assert (RR : forall l, (l < q + 1)%nat -> forall row, In row P -> (sv - q + l < length row)%nat) by (intros l Hl row Hr; rewrite (LR row Hr); lia).
  destruct t.
  - rewrite loop_first by lia. rewrite column_int by (auto; try lia; apply RR; lia). reflexivity.
  - match goal with |- context [loop 0 (q + 1) [] ?b] => destruct (loop_inv (fun n ts => length ts = n) b 0 (q + 1) []) as (T & -> & LT) end; [lia|reflexivity| |].
    + intros l ts Hl LT. destruct (column_float (DFloat, z) p q su sv P Nu l ltac:(lia) (RR l ltac:(lia)) L1 eq_refl) as (c & ->). cbn [bind]. eexists. split; [reflexivity|]. rewrite app_length. cbn [length]. rewrite LT. lia.
    + cbn [bind]. rewrite loop_first by lia. rewrite (getR_nth zero4) by lia. cbn [bind]. rewrite (getR_nth 0) by lia. reflexivity.
Qed.
