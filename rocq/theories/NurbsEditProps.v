(* C37, C40, C41, C51, C61-C65: curve editing in mmcore/geom/nurbs.pyx *)
From Coq Require Import List ZArith Bool Lia QArith Qcanon Permutation.
From Verif Require Import Common QcLib ArrZ NurbsModel NurbsSpec NurbsProofs NurbsProofs2 NurbsProofs3 NurbsEditModel NurbsEditSpec
  NurbsInsert NurbsEditProofs NurbsEditProofs2 NurbsReverse NurbsSplit NurbsProps.
Import ListNotations.
Local Open Scope Z_scope.
Local Open Scope Qc_scope.

(* cubic with equal weights, an inner knot 2 *)
Definition poly : curve :=
  mkcurve (map (fun q => mkpt (px q) (py q) (pz q) (qz 2)) sample_pts) 3 sample_knots false (qz 0, qz 5) [].

Definition sepb (t : Qc) (U : list Qc) : bool :=
  forallb (fun x => qeq x t || qlt (calc_epsilon x) (qabs (t - x))) U.
Lemma sepb_ok t U : sepb t U = true -> separated t U.
Proof.
  unfold sepb. rewrite forallb_forall. intros H x Hx. specialize (H x Hx). apply orb_true_iff in H.
  destruct H as [H|H]; [left; now apply qeq_true|right; now apply qlt_true].
Qed.
Definition eqwb (c : curve) (w : Qc) : bool := negb (qeq w 0) && forallb (fun q => qeq (pw q) w) (c_pts c).
Lemma eqwb_ok c w : eqwb c w = true -> equal_weights c.
Proof.
  unfold eqwb. rewrite andb_true_iff, forallb_forall. intros [A B]. exists w. split.
  - intro X. apply negb_true_iff in A. apply qeq_false in A. auto.
  - intros q Hq. apply qeq_true. auto.
Qed.
Definition some_point (c : curve) (t : Qc) : bool := match evaluate c t with Ok _ => true | _ => false end.
Definition out_pts (r : res curve) : list (list Q) :=
  match r with Ok c => map (fun q => map this [px q; py q; pz q; pw q]) (c_pts c) | _ => [] end.
Definition out_knots (r : res curve) : list Q := match r with Ok c => map this (c_knots c) | _ => [] end.
Ltac vq := vm_compute; auto; try discriminate; try reflexivity.

(* ---- C37: knot insertion, polynomial curves ---- *)

(* every column of the control point array keeps its B-spline function, for any weights *)
Theorem C37_insert_knot_columns : forall c t count junk,
  valid_curve c -> knot (c_knots c) (c_deg c) <= t -> t < knot (c_knots c) (last_ix c + 1) ->
  separated t (c_knots c) -> (0 <= count)%Z ->
  (count + multiplicity (c_knots c) t <= c_deg c)%Z ->
  lenZ junk = (lenZ (c_pts c) + count)%Z ->
  exists c', insert_knot c t count junk = Ok c' /\
    c_deg c' = c_deg c /\ valid_curve c' /\
    lenZ (c_pts c') = (lenZ (c_pts c) + count)%Z /\
    Permutation (c_knots c') (repeat t (Z.to_nat count) ++ c_knots c) /\
    (forall u, in_domain c' u <-> in_domain c u) /\
    (forall f u, column f -> in_domain c u -> column_value c' f u = column_value c f u).
Proof. exact insert_knot_ok. Qed.
Print Assumptions C37_insert_knot_columns.

(* with equal weights the curve is unchanged *)
Theorem C37_insert_knot_keeps_curve : forall c t count junk,
  valid_curve c -> equal_weights c ->
  knot (c_knots c) (c_deg c) <= t -> t < knot (c_knots c) (last_ix c + 1) ->
  separated t (c_knots c) -> (0 <= count)%Z ->
  (count + multiplicity (c_knots c) t <= c_deg c)%Z ->
  lenZ junk = (lenZ (c_pts c) + count)%Z ->
  exists c', insert_knot c t count junk = Ok c' /\ valid_curve c' /\ equal_weights c' /\
    (forall u, in_domain c u -> evaluate c' u = evaluate c u).
Proof. exact insert_knot_evaluate. Qed.
Print Assumptions C37_insert_knot_keeps_curve.

Example C37_case : valid_curve poly /\ equal_weights poly /\ separated (qz 2) (c_knots poly) /\
  multiplicity (c_knots poly) (qz 2) = 1%Z /\
  out_knots (insert_knot poly (qz 2) 2 (repeat pt0 7)) = [0; 0; 0; 0; 2; 2; 2; 5; 5; 5; 5]%Q /\
  out_pts (insert_knot poly (qz 2) 2 (repeat pt0 7)) =
    map (map this) (map (map (fun q => Q2Qc q))
    [[0; 0; 0; 2]; [1; 2; 0; 2]; [9 # 5; 12 # 5; 2 # 5; 2]; [61 # 25; 58 # 25; 32 # 25; 2];
     [17 # 5; 11 # 5; 13 # 5; 2]; [4; 1; 5; 2]; [6; 0; 2; 2]])%Q.
Proof.
  split; [apply valid_knotsb_ok; vm_compute; auto|]. split; [apply (eqwb_ok _ (qz 2)); vq|].
  split; [apply sepb_ok; vq|]. split; [vq|]. split; vm_compute; reflexivity.
Qed.

(* ---- C61: the same for rational curves: false ---- *)

Definition arc : curve :=
  mkcurve [row 0 0 0 1; row 1 2 0 3; row 3 0 0 1] 2 (map qz [0; 0; 0; 1; 1; 1]%Z) false (qz 0, qz 1) [].

Lemma arc_valid : valid_curve arc.
Proof. apply valid_knotsb_ok; vm_compute; auto. Qed.
Lemma arc_weights : positive_weights arc.
Proof. unfold positive_weights. repeat constructor; vq. Qed.

Theorem C61_rational_insert_refuted :
  ~ (forall c t junk c', valid_curve c -> positive_weights c ->
      knot (c_knots c) (c_deg c) <= t -> t < knot (c_knots c) (last_ix c + 1) ->
      separated t (c_knots c) -> (1 + multiplicity (c_knots c) t <= c_deg c)%Z ->
      lenZ junk = (lenZ (c_pts c) + 1)%Z -> insert_knot c t 1 junk = Ok c' ->
      forall u, in_domain c u -> evaluate c' u = evaluate c u).
Proof.
  intro H.
  destruct (insert_knot arc (qf 1 2) 1 (repeat pt0 4)) as [c'|] eqn:E; [|vm_compute in E; discriminate].
  specialize (H arc (qf 1 2) (repeat pt0 4) c').
  assert (X : evaluate c' (qf 1 4) = evaluate arc (qf 1 4)).
  { apply H; [exact arc_valid|exact arc_weights|vq|vq|apply sepb_ok; vq|vq|vq|exact E|split; vq]. }
  assert (Y : out3 (evaluate c' (qf 1 4)) = out3 (evaluate arc (qf 1 4))) by now rewrite X.
  assert (E' : match insert_knot arc (qf 1 2) 1 (repeat pt0 4) with Ok c0 => out3 (evaluate c0 (qf 1 4)) | _ => out3 (evaluate arc (qf 1 4)) end
               = out3 (evaluate arc (qf 1 4))) by (rewrite E; auto).
  vm_compute in E'. discriminate.
Qed.
Print Assumptions C61_rational_insert_refuted.

(* ---- C62: multiply_knot ---- *)

Theorem C62_multiply_knot : forall c t junk,
  valid_curve c -> knot (c_knots c) (c_deg c) <= t -> t < knot (c_knots c) (last_ix c + 1) ->
  separated t (c_knots c) -> (multiplicity (c_knots c) t <= c_deg c)%Z ->
  lenZ junk = (lenZ (c_pts c) + (c_deg c - multiplicity (c_knots c) t))%Z ->
  exists c', multiply_knot c t junk = Ok (c', c_deg c - multiplicity (c_knots c) t)%Z /\
    valid_curve c' /\ multiplicity (c_knots c') t = c_deg c /\
    (forall f u, column f -> in_domain c u -> column_value c' f u = column_value c f u) /\
    (equal_weights c -> forall u, in_domain c u -> evaluate c' u = evaluate c u).
Proof. exact multiply_knot_ok. Qed.
Print Assumptions C62_multiply_knot.

Example C62_case : match multiply_knot poly (qf 7 2) (repeat pt0 8) with
  | Ok (c', k) => k = 3%Z /\ multiplicity (c_knots c') (qf 7 2) = 3%Z /\ out3 (evaluate c' (qz 1)) = out3 (evaluate poly (qz 1))
  | _ => False end.
Proof. vm_compute. auto. Qed.

(* ---- C63: Greville abscissae after an insertion: stale for every curve ---- *)

Theorem C63_greville_after_insert_refuted : forall c t count junk,
  valid_curve c -> knot (c_knots c) (c_deg c) <= t -> t < knot (c_knots c) (last_ix c + 1) ->
  separated t (c_knots c) -> (1 <= count)%Z ->
  (count + multiplicity (c_knots c) t <= c_deg c)%Z ->
  lenZ junk = (lenZ (c_pts c) + count)%Z ->
  greville_abscissae (c_knots c) (c_deg c) = Ok (c_grev c) ->
  exists c', insert_knot c t count junk = Ok c' /\
    greville_abscissae (c_knots c') (c_deg c') <> Ok (c_grev c').
Proof. exact greville_stale. Qed.
Print Assumptions C63_greville_after_insert_refuted.

Definition poly_grev : list Qc := match greville_abscissae (c_knots poly) 3 with Ok g => g | _ => [] end.
Definition poly_fresh : curve := mkcurve (c_pts poly) 3 (c_knots poly) false (c_int poly) poly_grev.
Example C63_case : greville_abscissae (c_knots poly_fresh) (c_deg poly_fresh) = Ok (c_grev poly_fresh)
  /\ lenZ poly_grev = 5%Z.
Proof. split; vm_compute; reflexivity. Qed.

(* ---- C40: reversal ---- *)

Theorem C40_reverse_curve : forall c, valid_curve c -> (1 <= c_deg c)%Z -> first_span c -> wrapped c ->
  positive_weights c -> inner_multiplicities c ->
  exists c', reverse_curve c = Ok c' /\ valid_curve c' /\
    c_int c' = (knot (c_knots c) 0, knot (c_knots c) (lenZ (c_knots c) - 1)) /\
    forall t, in_domain c t ->
      let t' := knot (c_knots c) 0 + knot (c_knots c) (lenZ (c_knots c) - 1) - t in
      in_domain c' t' /\ evaluate c' t' = evaluate c t.
Proof. exact reverse_full. Qed.
Print Assumptions C40_reverse_curve.

Theorem C40_reverse_twice : forall c, valid_curve c -> (1 <= c_deg c)%Z -> first_span c -> wrapped c ->
  exists c' c'', reverse_curve c = Ok c' /\ reverse_curve c' = Ok c'' /\
    c_pts c'' = c_pts c /\ c_deg c'' = c_deg c /\ c_knots c'' = c_knots c /\ c_per c'' = c_per c.
Proof. exact reverse_twice. Qed.
Print Assumptions C40_reverse_twice.

Definition innerb (c : curve) : bool :=
  (0 <=? c_deg c)%Z &&
  forallb (fun x => qle x (knot (c_knots c) (c_deg c)) || qle (knot (c_knots c) (last_ix c + 1)) x
                    || (multiplicity (c_knots c) x <=? c_deg c)%Z) (c_knots c).
Lemma innerb_ok c : innerb c = true -> inner_multiplicities c.
Proof.
  unfold innerb. rewrite andb_true_iff, forallb_forall. intros [P H] t H1 H2.
  destruct (in_dec Qc_eq_dec t (c_knots c)) as [I|I].
  - specialize (H t I). apply orb_true_iff in H. destruct H as [H|H]; [apply orb_true_iff in H; destruct H as [H|H]|].
    + apply qle_true in H. exfalso. revert H1. apply Qcle_not_lt. auto.
    + apply qle_true in H. exfalso. revert H2. apply Qcle_not_lt. auto.
    + apply Z.leb_le; auto.
  - unfold multiplicity. rewrite (proj1 (count_occ_not_In Qc_eq_dec _ _) I). apply Z.leb_le in P. exact P.
Qed.

Example C40_case : valid_curve sample /\ first_span sample /\ wrapped sample /\ positive_weights sample /\ inner_multiplicities sample /\
  out_knots (reverse_curve sample) = [0; 0; 0; 0; 3; 5; 5; 5; 5]%Q /\
  match reverse_curve sample with
  | Ok c' => out3 (evaluate c' (qz 4)) = out3 (evaluate sample (qz 1)) | _ => False end.
Proof.
  split; [apply valid_knotsb_ok; vm_compute; auto|]. split; [vq|]. split; [intro H; discriminate|].
  split; [unfold positive_weights; repeat constructor; vq|]. split; [apply innerb_ok; vq|].
  split; vm_compute; reflexivity.
Qed.

(* ---- C64: flip ---- *)

(* every flipped curve has a descending knot vector *)
Theorem C64_flip_refuted : forall c, valid_curve c -> (1 <= c_deg c)%Z ->
  exists c', flip c = Ok c' /\ ~ sorted_knots (c_knots c') /\ c_per c' = false /\
    knot (c_knots c') (lenZ (c_knots c') - 1) < knot (c_knots c') 0.
Proof. exact flip_refuted. Qed.
Print Assumptions C64_flip_refuted.

Example C64_case : valid_curve sample /\ out_knots (flip sample) = [5; 5; 5; 5; 3; 0; 0; 0; 0]%Q.
Proof. split; [apply valid_knotsb_ok; vm_compute; auto|]. vm_compute; reflexivity. Qed.

(* ---- C41: normalisation ---- *)

Theorem C41_normalize_knots : forall c, valid_curve c -> (1 <= c_deg c)%Z ->
  let a := knot (c_knots c) 0 in
  let b := knot (c_knots c) (lenZ (c_knots c) - 1) in
  a < b /\
  exists c', normalize_knots c = Ok c' /\ valid_curve c' /\
    c_pts c' = c_pts c /\ c_deg c' = c_deg c /\ c_per c' = c_per c /\
    c_knots c' = map (fun k => (k - a) / (b - a)) (c_knots c) /\
    c_int c' = (0, 1) /\
    (forall k, multiplicity (c_knots c') ((k - a) / (b - a)) = multiplicity (c_knots c) k) /\
    (positive_weights c \/ equal_weights c -> forall t, in_domain c t ->
       in_domain c' ((t - a) / (b - a)) /\ evaluate c' ((t - a) / (b - a)) = evaluate c t).
Proof. exact normalize_knots_ok. Qed.
Print Assumptions C41_normalize_knots.

Example C41_case : valid_curve unclamped /\
  out_knots (normalize_knots unclamped) = [0; 1 # 8; 1 # 4; 3 # 8; 1 # 2; 5 # 8; 3 # 4; 7 # 8; 1]%Q /\
  match normalize_knots unclamped with
  | Ok c' => out3 (evaluate c' (qf 7 16)) = out3 (evaluate unclamped (qf 7 2)) | _ => False end.
Proof.
  split; [apply valid_knotsb_ok; vm_compute; auto|]. split; vm_compute; reflexivity.
Qed.

(* ---- C51: splitting ---- *)

Theorem C51_split_curve : forall c t tol junk,
  valid_curve c -> (1 <= c_deg c)%Z -> equal_weights c ->
  update_interval (c_knots c) = Ok (c_int c) ->
  0 <= tol -> knot (c_knots c) 0 + tol < t -> t + tol < knot (c_knots c) (lenZ (c_knots c) - 1) ->
  knot (c_knots c) (c_deg c) < t -> t < knot (c_knots c) (last_ix c + 1) ->
  separated t (c_knots c) -> (multiplicity (c_knots c) t <= c_deg c)%Z ->
  lenZ junk = (lenZ (c_pts c) + (c_deg c - multiplicity (c_knots c) t))%Z ->
  exists c1 c2, split_curve c t tol false junk = Ok (c1, c2) /\
    valid_curve c1 /\ valid_curve c2 /\
    c_int c1 = (fst (c_int c), t) /\ c_int c2 = (t, snd (c_int c)) /\
    (forall x, in_domain c1 x <-> in_domain c x /\ x <= t) /\
    (forall x, in_domain c2 x <-> in_domain c x /\ t <= x) /\
    (forall x, in_domain c1 x -> evaluate c1 x = evaluate c x) /\
    (forall x, in_domain c2 x -> evaluate c2 x = evaluate c x).
Proof. exact split_plain. Qed.
Print Assumptions C51_split_curve.

(* the same with normalize_knots=True: both halves on [0,1] *)
Theorem C51_split_normalized : forall c t tol junk,
  valid_curve c -> (1 <= c_deg c)%Z -> equal_weights c ->
  update_interval (c_knots c) = Ok (c_int c) ->
  0 <= tol -> knot (c_knots c) 0 + tol < t -> t + tol < knot (c_knots c) (lenZ (c_knots c) - 1) ->
  knot (c_knots c) (c_deg c) < t -> t < knot (c_knots c) (last_ix c + 1) ->
  separated t (c_knots c) -> (multiplicity (c_knots c) t <= c_deg c)%Z ->
  lenZ junk = (lenZ (c_pts c) + (c_deg c - multiplicity (c_knots c) t))%Z ->
  let (a, b) := c_int c in
  exists d1 d2, split_curve c t tol true junk = Ok (d1, d2) /\
    valid_curve d1 /\ valid_curve d2 /\ c_int d1 = (0, 1) /\ c_int d2 = (0, 1) /\
    (forall x, in_domain c x -> x <= t -> evaluate d1 ((x - a) / (t - a)) = evaluate c x) /\
    (forall x, in_domain c x -> t <= x -> evaluate d2 ((x - t) / (b - t)) = evaluate c x).
Proof. exact split_normalized. Qed.
Print Assumptions C51_split_normalized.

Definition tol7 : Qc := qf 1 10000000.
Example C51_case : valid_curve poly /\ equal_weights poly /\
  update_interval (c_knots poly) = Ok (c_int poly) /\ separated (qz 2) (c_knots poly) /\
  match split_curve poly (qz 2) tol7 false (repeat pt0 7) with
  | Ok (c1, c2) => out_knots (Ok c1) = [0; 0; 0; 0; 2; 2; 2; 2]%Q /\ out_knots (Ok c2) = [2; 2; 2; 2; 5; 5; 5; 5]%Q
      /\ out3 (evaluate c1 (qz 1)) = out3 (evaluate poly (qz 1))
      /\ out3 (evaluate c2 (qz 4)) = out3 (evaluate poly (qz 4))
  | _ => False end.
Proof.
  split; [apply valid_knotsb_ok; vm_compute; auto|]. split; [apply (eqwb_ok _ (qz 2)); vq|].
  split; [vq|]. split; [apply sepb_ok; vq|]. vm_compute. auto.
Qed.

(* ---- C65: splitting a rational curve: the halves are other curves ---- *)

Theorem C65_rational_split_refuted :
  ~ (forall c t tol junk c1 c2, valid_curve c -> (1 <= c_deg c)%Z -> positive_weights c ->
      update_interval (c_knots c) = Ok (c_int c) ->
      0 <= tol -> knot (c_knots c) 0 + tol < t -> t + tol < knot (c_knots c) (lenZ (c_knots c) - 1) ->
      separated t (c_knots c) -> (multiplicity (c_knots c) t <= c_deg c)%Z ->
      lenZ junk = (lenZ (c_pts c) + (c_deg c - multiplicity (c_knots c) t))%Z ->
      split_curve c t tol false junk = Ok (c1, c2) ->
      forall x, in_domain c1 x -> evaluate c1 x = evaluate c x).
Proof.
  intro H.
  destruct (split_curve arc (qf 1 2) tol7 false (repeat pt0 5)) as [[c1 c2]|] eqn:E; [|vm_compute in E; discriminate].
  specialize (H arc (qf 1 2) tol7 (repeat pt0 5) c1 c2).
  assert (D : in_domain c1 (qf 1 4)).
  { assert (X : match split_curve arc (qf 1 2) tol7 false (repeat pt0 5) with Ok (c0, _) => in_domain c0 (qf 1 4) | _ => False end).
    { split; vq. } rewrite E in X. exact X. }
  assert (X : evaluate c1 (qf 1 4) = evaluate arc (qf 1 4)).
  { apply H; [exact arc_valid|vq|exact arc_weights|vq|vq|vq|vq|apply sepb_ok; vq|vq|vq|exact E|exact D]. }
  assert (Y : match split_curve arc (qf 1 2) tol7 false (repeat pt0 5) with
     Ok (c0, _) => out3 (evaluate c0 (qf 1 4)) | _ => out3 (evaluate arc (qf 1 4)) end
     = out3 (evaluate arc (qf 1 4))) by (rewrite E; now rewrite X).
  vm_compute in Y. discriminate.
Qed.
Print Assumptions C65_rational_split_refuted.
