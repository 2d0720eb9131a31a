(* C301-C306: knot refinement and knot removal, mmcore/geom/nurbs.pyx:563-765 *)
From Coq Require Import List ZArith Bool Lia QArith Qcanon Permutation.
From Verif Require Import Common QcLib ArrZ SortModel SortSpec SortProofs NurbsModel NurbsSpec NurbsProofs NurbsProofs2 NurbsProofs3 NurbsEditModel NurbsEditSpec
  NurbsInsert NurbsEditProofs NurbsProps NurbsEditProps RefModel RefSpec RefProofs1 RefProofs2 RefProofs3 RefProofs4.
Import ListNotations.
Local Open Scope Z_scope.
Local Open Scope Qc_scope.

Definition nums (l : list Q) : list Qc := map (fun x => Q2Qc x) l.
Definition row (x y : Q) : pt := mkpt (Q2Qc x) (Q2Qc y) 0 1.
Definition arch_knots : list Qc := nums [0; 0; 0; 1; 2; 2; 2]%Q.
Definition arch_rows : list pt := [row 0 0; row 1 2; row 3 2; row 4 0].
Definition shown (r : res (list pt * list Qc * option (list Qc))) : list (list Q) * list Q * option (list Q) :=
  match r with Ok (R, W, k) => (map (fun q => map this [px q; py q; pz q; pw q]) R, map this W, option_map (map this) k) | _ => ([], [], None) end.

Definition spreadb (tol : Qc) (l : list Qc) : bool := forallb (fun x => forallb (fun y => negb (qlt (qabs (x - y)) tol) || qeq x y) l) l.
Lemma spreadb_ok tol l : spreadb tol l = true -> spread tol l.
Proof.
  unfold spreadb. rewrite forallb_forall. intros H x y Hx Hy Hd. specialize (H x Hx). rewrite forallb_forall in H. specialize (H y Hy).
  apply orb_true_iff in H. destruct H as [H|H]; [|apply qeq_true; auto]. apply negb_true_iff in H. apply qlt_true in Hd. congruence.
Qed.
Definition askedb (p : Z) (U : list Qc) (P : list pt) (l : list Qc) : bool :=
  forallb (fun x => sepb x U && ((qle (knot U p) x && qlt x (knot U (lenZ P))) || (p <=? multiplicity U x)%Z)) l.
Lemma askedb_ok p U P l : askedb p U P l = true -> forall x, In x l -> separated x U /\ (inside p U P x \/ (p <= multiplicity U x)%Z).
Proof.
  unfold askedb. rewrite forallb_forall. intros H x Hx. specialize (H x Hx). apply andb_true_iff in H. destruct H as (A & B). split; [apply sepb_ok; auto|].
  apply orb_true_iff in B. destruct B as [B|B]; [left|right; apply Z.leb_le; auto]. apply andb_true_iff in B. destruct B. split; [apply qle_true|apply qlt_true]; auto.
Qed.
Lemma nums_ascending l : (forall i, (S i < length l)%nat -> qlt (nth i l 0) (nth (S i) l 0) = true) -> strictly_ascending l.
Proof.
  intro H. apply Sorted.Sorted_StronglySorted; [intros x y z; apply Qclt_trans|]. induction l as [|x l IH]; [constructor|]. constructor.
  - apply IH. intros i Hi. apply (H (S i)). cbn. lia.
  - destruct l as [|y l]; constructor. apply qlt_true. apply (H 0%nat). cbn. lia.
Qed.
Ltac asc := apply nums_ascending; intros [|[|[|[|i]]]] Hi; cbn in Hi; try lia; vm_compute; reflexivity.

(* ---- C301: refinement keeps the curve ---- *)
Theorem C301_refinement_keeps_curve : forall p U P kl akl per l,
  valid_knots p (lenZ P - 1) U -> (1 <= p)%Z ->
  strictly_ascending l -> same_values l (asked p U kl akl) ->
  (forall x, In x l -> separated x U /\ (inside p U P x \/ (p <= multiplicity U x)%Z)) ->
  spread ref_tol (l ++ U) -> (exists x, In x l /\ (multiplicity U x < p)%Z) ->
  exists R W rest, knot_refinement p U P kl akl 1 per = Ok (R, W, rest) /\
    lenZ R = (lenZ P + lenZ (missing p U l))%Z /\ valid_knots p (lenZ R - 1) W /\ Permutation W (missing p U l ++ U) /\
    same_splines p (knot U p) U P W R /\ knot W (lenZ R) = knot U (lenZ P).
Proof. exact refinement_ok. Qed.
Print Assumptions C301_refinement_keeps_curve.

Example C301_case : valid_knots 2 (lenZ arch_rows - 1) arch_knots /\
  strictly_ascending (nums [1 # 2; 3 # 2]%Q) /\ same_values (nums [1 # 2; 3 # 2]%Q) (asked 2 arch_knots (Some (nums [3 # 2; 1 # 2; 1 # 2]%Q)) None) /\
  (forall x, In x (nums [1 # 2; 3 # 2]%Q) -> separated x arch_knots /\ (inside 2 arch_knots arch_rows x \/ (2 <= multiplicity arch_knots x)%Z)) /\
  spread ref_tol (nums [1 # 2; 3 # 2]%Q ++ arch_knots) /\ multiplicity arch_knots (Q2Qc (1 # 2)) = 0%Z /\
  shown (knot_refinement 2 arch_knots arch_rows (Some (nums [3 # 2; 1 # 2; 1 # 2]%Q)) None 1 false) =
   ([[0; 0; 0; 1]; [1 # 2; 1; 0; 1]; [1; 3 # 2; 0; 1]; [3 # 2; 2; 0; 1]; [5 # 2; 2; 0; 1]; [3; 3 # 2; 0; 1]; [7 # 2; 1; 0; 1]; [4; 0; 0; 1]]%Q,
    [0; 0; 0; 1 # 2; 1 # 2; 1; 3 # 2; 3 # 2; 2; 2; 2]%Q, Some [1 # 2; 1 # 2; 3 # 2]%Q).
Proof.
  split; [apply valid_knotsb_ok; vm_compute; auto|]. split; [asc|]. split; [intro x; cbn; tauto|].
  split; [apply askedb_ok; vm_compute; reflexivity|]. split; [apply spreadb_ok; vm_compute; reflexivity|]. split; vm_compute; reflexivity.
Qed.

(* ---- C302: the multiplicities afterwards ---- *)
Lemma refinement_counts p U P kl akl per l :
  valid_knots p (lenZ P - 1) U -> (1 <= p)%Z ->
  strictly_ascending l -> same_values l (asked p U kl akl) ->
  (forall x, In x l -> separated x U /\ (inside p U P x \/ (p <= multiplicity U x)%Z)) ->
  spread ref_tol (l ++ U) -> (exists x, In x l /\ (multiplicity U x < p)%Z) ->
  exists R W rest, knot_refinement p U P kl akl 1 per = Ok (R, W, rest) /\
    (forall x, In x (asked p U kl akl) -> multiplicity W x = Z.max p (multiplicity U x)) /\
    (forall x, ~ In x (asked p U kl akl) -> multiplicity W x = multiplicity U x).
Proof.
  intros VU Hp AS SV HA SP EX. destruct (refinement_ok p U P kl akl per l VU Hp AS SV HA SP EX) as (R & W & rest & E & _ & _ & PW & _).
  exists R, W, rest. split; [exact E|]. split; intros x Hx; destruct (refinement_multiplicities p U l W x AS PW) as (A & B); [apply A|apply B]; rewrite (SV x); auto.
Qed.
Theorem C302_multiplicities : forall p U P kl akl per l,
  valid_knots p (lenZ P - 1) U -> (1 <= p)%Z ->
  strictly_ascending l -> same_values l (asked p U kl akl) ->
  (forall x, In x l -> separated x U /\ (inside p U P x \/ (p <= multiplicity U x)%Z)) ->
  spread ref_tol (l ++ U) -> (exists x, In x l /\ (multiplicity U x < p)%Z) ->
  exists R W rest, knot_refinement p U P kl akl 1 per = Ok (R, W, rest) /\
    (forall x, In x (asked p U kl akl) -> multiplicity W x = Z.max p (multiplicity U x)) /\
    (forall x, ~ In x (asked p U kl akl) -> multiplicity W x = multiplicity U x).
Proof. exact refinement_counts. Qed.
Print Assumptions C302_multiplicities.

(* without a list the inner knots are asked for: every one gets multiplicity 2, as in a chain of Bezier curves *)
Example C302_case : map this (asked 2 arch_knots None None) = [0; 1; 2]%Q /\ strictly_ascending (nums [0; 1; 2]%Q) /\
  same_values (nums [0; 1; 2]%Q) (asked 2 arch_knots None None) /\
  (forall x, In x (nums [0; 1; 2]%Q) -> separated x arch_knots /\ (inside 2 arch_knots arch_rows x \/ (2 <= multiplicity arch_knots x)%Z)) /\
  spread ref_tol (nums [0; 1; 2]%Q ++ arch_knots) /\ multiplicity arch_knots (Q2Qc 1) = 1%Z /\
  shown (knot_refinement 2 arch_knots arch_rows None None 1 false) =
   ([[0; 0; 0; 1]; [1; 2; 0; 1]; [2; 2; 0; 1]; [3; 2; 0; 1]; [4; 0; 0; 1]]%Q, [0; 0; 0; 1; 1; 2; 2; 2]%Q, None).
Proof.
  split; [vm_compute; reflexivity|]. split; [asc|]. split; [change (asked 2 arch_knots None None) with (nums [0; 1; 2]%Q); intro x; tauto|].
  split; [apply askedb_ok; vm_compute; reflexivity|]. split; [apply spreadb_ok; vm_compute; reflexivity|]. split; vm_compute; reflexivity.
Qed.

(* ---- C303: nothing to insert: the curve is not returned unchanged, the call fails ---- *)
Theorem C303_nothing_to_insert_refuted : forall p U P kl akl per,
  (forall x, In x (asked p U kl akl) -> separated x U /\ (p <= multiplicity U x)%Z) ->
  knot_refinement p U P kl akl 1 per = Err ValueError.
Proof. exact refinement_nothing. Qed.
Print Assumptions C303_nothing_to_insert_refuted.
Definition seg_knots : list Qc := nums [0; 0; 1; 1]%Q.
Definition seg_rows : list pt := [row 0 0; row 4 4].
Example C303_case : map this (asked 1 seg_knots None None) = [0; 1]%Q /\ askedb 1 seg_knots seg_rows (asked 1 seg_knots None None) = true /\
  map (multiplicity seg_knots) (asked 1 seg_knots None None) = [2; 2]%Z /\ knot_refinement 1 seg_knots seg_rows None None 1 false = Err ValueError.
Proof. repeat split; vm_compute; reflexivity. Qed.

(* ---- C304: the caller's list ---- *)
Lemma refinement_reorders p U P kl density per R W rest : knot_refinement p U P (Some kl) None density per = Ok (R, W, rest) ->
  exists l, rest = Some l /\ Permutation kl l /\ ascending l.
Proof. intro E. apply refinement_sorts in E. exists (qsort kl). split; auto. apply qsort_ok. Qed.
Theorem C304_list_sorted_in_place_refuted : forall p U P kl density per R W rest,
  knot_refinement p U P (Some kl) None density per = Ok (R, W, rest) -> exists l, rest = Some l /\ Permutation kl l /\ ascending l.
Proof. exact refinement_reorders. Qed.
Print Assumptions C304_list_sorted_in_place_refuted.
Theorem C304_list_kept_partial : forall p U P kl akl density per R W rest, akl <> None \/ kl = None ->
  knot_refinement p U P kl akl density per = Ok (R, W, rest) -> rest = kl.
Proof. exact refinement_keeps. Qed.
Print Assumptions C304_list_kept_partial.
Example C304_case :
  shown (knot_refinement 1 seg_knots seg_rows (Some (nums [3 # 4; 1 # 4]%Q)) None 1 false) =
    ([[0; 0; 0; 1]; [1; 1; 0; 1]; [3; 3; 0; 1]; [4; 4; 0; 1]]%Q, [0; 0; 1 # 4; 3 # 4; 1; 1]%Q, Some [1 # 4; 3 # 4]%Q) /\
  shown (knot_refinement 1 seg_knots seg_rows (Some (nums [3 # 4]%Q)) (Some (nums [1 # 4]%Q)) 1 false) =
    ([[0; 0; 0; 1]; [1; 1; 0; 1]; [3; 3; 0; 1]; [4; 4; 0; 1]]%Q, [0; 0; 1 # 4; 3 # 4; 1; 1]%Q, Some [3 # 4]%Q).
Proof. split; vm_compute; reflexivity. Qed.

(* ---- C305: density ---- *)
Theorem C305_density_two_partial : forall p U P kl akl per l,
  valid_knots p (lenZ P - 1) U -> (1 <= p)%Z ->
  strictly_ascending l -> same_values l (asked p U kl akl) -> NoDup (asked p U kl akl) ->
  (forall x, In x (with_middles l) -> separated x U /\ (inside p U P x \/ (p <= multiplicity U x)%Z)) ->
  spread ref_tol (with_middles l ++ U) -> (exists x, In x (with_middles l) /\ (multiplicity U x < p)%Z) ->
  exists R W rest, knot_refinement p U P kl akl 2 per = Ok (R, W, rest) /\
    lenZ R = (lenZ P + lenZ (missing p U (with_middles l)))%Z /\ valid_knots p (lenZ R - 1) W /\ Permutation W (missing p U (with_middles l) ++ U) /\
    same_splines p (knot U p) U P W R /\ knot W (lenZ R) = knot U (lenZ P).
Proof. exact density_two_ok. Qed.
Print Assumptions C305_density_two_partial.
(* a knot asked for twice: the list is read past its end *)
Theorem C305_repeated_knots_refuted : forall p U P kl akl density per, (2 <= density)%Z ->
  asked p U kl akl <> [] -> ~ NoDup (asked p U kl akl) -> knot_refinement p U P kl akl density per = Err IndexError.
Proof. exact density_repeats_fail. Qed.
Print Assumptions C305_repeated_knots_refuted.
(* density 3: the new knots are out of order *)
Theorem C305_density_three_refuted : exists R W rest,
  valid_knots 1 (lenZ seg_rows - 1) seg_knots /\ NoDup (nums [1 # 4; 3 # 4]%Q) /\ (forall x, In x (nums [1 # 4; 3 # 4]%Q) -> inside 1 seg_knots seg_rows x) /\
  knot_refinement 1 seg_knots seg_rows (Some (nums [1 # 4; 3 # 4]%Q)) None 3 false = Ok (R, W, rest) /\
  knot W 6 < knot W 5 /\ ~ valid_knots 1 (lenZ R - 1) W.
Proof.
  destruct (knot_refinement 1 seg_knots seg_rows (Some (nums [1 # 4; 3 # 4]%Q)) None 3 false) as [[[R W] rest]|] eqn:E; [|vm_compute in E; discriminate E].
  assert (EW : map this W = [0; 0; 1 # 4; 3 # 8; 1 # 2; 5 # 8; 1 # 2; 1; 1]%Q).
  { change (map this W) with (snd (fst (shown (Ok (R, W, rest))))). rewrite <- E. vm_compute. reflexivity. }
  assert (KW : map this (nums [0; 0; 1 # 4; 3 # 8; 1 # 2; 5 # 8; 1 # 2; 1; 1]%Q) = map this W) by (rewrite EW; vm_compute; reflexivity).
  assert (W = nums [0; 0; 1 # 4; 3 # 8; 1 # 2; 5 # 8; 1 # 2; 1; 1]%Q).
  { clear -KW. revert KW. generalize (nums [0; 0; 1 # 4; 3 # 8; 1 # 2; 5 # 8; 1 # 2; 1; 1]%Q). induction W as [|x W IH]; intros [|y l] K; try discriminate K; auto.
    cbn in K. injection K as K1 K2. f_equal; [|apply IH; auto]. apply Qc_is_canon. rewrite K1. reflexivity. }
  exists R, W, rest. split; [apply valid_knotsb_ok; vm_compute; auto|]. split.
  { apply ascending_nodup. asc. }
  split. { intros x Hx. destruct Hx as [<-|[<-|[]]]; split; (apply qle_true || apply qlt_true); vm_compute; reflexivity. }
  split; [reflexivity|]. subst W. assert (D : knot (nums [0; 0; 1 # 4; 3 # 8; 1 # 2; 5 # 8; 1 # 2; 1; 1]%Q) 6 < knot (nums [0; 0; 1 # 4; 3 # 8; 1 # 2; 5 # 8; 1 # 2; 1; 1]%Q) 5) by (apply qlt_true; vm_compute; reflexivity).
  split; [exact D|]. intros (_ & _ & M & _). assert (K := M 5%Z 6%Z ltac:(lia) ltac:(lia) ltac:(vm_compute; reflexivity)). qlra.
Qed.
Print Assumptions C305_density_three_refuted.
Example C305_case :
  strictly_ascending (nums [1 # 2; 3 # 2]%Q) /\ NoDup (asked 2 arch_knots (Some (nums [3 # 2; 1 # 2]%Q)) None) /\
  map this (with_middles (nums [1 # 2; 3 # 2]%Q)) = [1 # 2; 1; 3 # 2]%Q /\ askedb 2 arch_knots arch_rows (with_middles (nums [1 # 2; 3 # 2]%Q)) = true /\
  spread ref_tol (with_middles (nums [1 # 2; 3 # 2]%Q) ++ arch_knots) /\
  snd (fst (shown (knot_refinement 2 arch_knots arch_rows (Some (nums [3 # 2; 1 # 2]%Q)) None 2 false))) = [0; 0; 0; 1 # 2; 1 # 2; 1; 1; 3 # 2; 3 # 2; 2; 2; 2]%Q /\
  knot_refinement 2 arch_knots arch_rows (Some (nums [3 # 2; 1 # 2; 1 # 2]%Q)) None 2 false = Err IndexError.
Proof.
  split; [asc|]. split. { apply (Permutation_NoDup (l := nums [1 # 2; 3 # 2]%Q)); [apply perm_swap|]. apply ascending_nodup. asc. }
  split; [vm_compute; reflexivity|]. split; [vm_compute; reflexivity|]. split; [apply spreadb_ok; vm_compute; reflexivity|]. split; vm_compute; reflexivity.
Qed.

(* ---- C306: knot removal ---- *)
(* equal weights above half the tolerance: one row is deleted, the others stay, whatever the curve *)
Theorem C306_removal_deletes_a_row_refuted : forall p U P u tol w per temp0 r, valid_knots p (lenZ P - 1) U -> (1 <= p)%Z -> separated u U ->
  (1 <= multiplicity U u <= p)%Z -> knot U p < u -> u < knot U (lenZ P) -> knot U r <= u -> u < knot U (r + 1) -> (p <= r < lenZ P)%Z ->
  (forall q, In q P -> pw q = w) -> tol * tol < (w + w) * (w + w) -> lenZ temp0 = (2 * p + 1)%Z ->
  knot_removal p U P u tol 1 per temp0 = Ok (without_row ((2 * r - multiplicity U u - p) / 2) P).
Proof. exact knot_removal_ok. Qed.
Print Assumptions C306_removal_deletes_a_row_refuted.
(* inserting a knot and removing it again does not give the first curve *)
Definition para : curve := mkcurve [row 0 0; row 1 2; row 4 0] 2 (nums [0; 0; 0; 2; 2; 2]%Q) false (0, Q2Qc 2) [].
Definition pts_of (r : res curve) : list pt := match r with Ok c => c_pts c | _ => [] end.
Definition knots_of (r : res curve) : list Qc := match r with Ok c => c_knots c | _ => [] end.
Definition rows_shown (r : res (list pt)) : list (list Q) := match r with Ok R => map (fun q => map this [px q; py q; pz q; pw q]) R | _ => [] end.
Theorem C306_insert_remove_refuted : exists R,
  knots_of (insert_knot para 1 1 (repeat pt0 4)) = arch_knots /\
  knot_removal 2 arch_knots (pts_of (insert_knot para 1 1 (repeat pt0 4))) 1 (Q2Qc (1 # 10000)) 1 false (repeat pt0 5) = Ok R /\ R <> c_pts para.
Proof.
  destruct (knot_removal 2 arch_knots (pts_of (insert_knot para 1 1 (repeat pt0 4))) 1 (Q2Qc (1 # 10000)) 1 false (repeat pt0 5)) as [R|] eqn:E; [|vm_compute in E; discriminate E].
  exists R. split; [|split; [reflexivity|]].
  - assert (K : map this (knots_of (insert_knot para 1 1 (repeat pt0 4))) = map this arch_knots) by (vm_compute; reflexivity).
    revert K. generalize arch_knots. generalize (knots_of (insert_knot para 1 1 (repeat pt0 4))). clear. intros l1. induction l1 as [|x l IH]; intros [|y l2] K; try discriminate K; auto.
    cbn in K. injection K as K1 K2. f_equal; [|apply IH; auto]. apply Qc_is_canon. rewrite K1. reflexivity.
  - intro ER. subst R. apply (f_equal rows_shown) in E. vm_compute in E. discriminate E.
Qed.
Print Assumptions C306_insert_remove_refuted.
Lemma removal_count p U P u tol w per temp0 r : valid_knots p (lenZ P - 1) U -> (1 <= p)%Z -> separated u U ->
  (1 <= multiplicity U u <= p)%Z -> knot U p < u -> u < knot U (lenZ P) -> knot U r <= u -> u < knot U (r + 1) -> (p <= r < lenZ P)%Z ->
  (forall q, In q P -> pw q = w) -> tol * tol < (w + w) * (w + w) -> lenZ temp0 = (2 * p + 1)%Z ->
  exists R, knot_removal p U P u tol 1 per temp0 = Ok R /\ lenZ R = (lenZ P - 1)%Z /\ (forall q, In q R -> pw q = w).
Proof.
  intros H1 H2 H3 H4 H5 H6 H7 H8 H9 H10 H11 H12. eexists. split; [eapply knot_removal_ok; eauto|]. set (j := ((2 * r - multiplicity U u - p) / 2)%Z).
  assert (Hj : (0 <= j < lenZ P)%Z). { unfold j. split; [apply Z.div_pos; lia|]. apply Z.div_lt_upper_bound; lia. }
  split.
  - unfold without_row, lenZ in *. rewrite app_length, firstn_length, skipn_length. lia.
  - intros q Hq. apply H10. unfold without_row in Hq. apply in_app_or in Hq. destruct Hq as [Hq|Hq].
    + rewrite <- (firstn_skipn (Z.to_nat j) P). apply in_or_app. auto.
    + rewrite <- (firstn_skipn (Z.to_nat (j + 1)) P). apply in_or_app. auto.
Qed.
Theorem C306_removal_count_partial : forall p U P u tol w per temp0 r, valid_knots p (lenZ P - 1) U -> (1 <= p)%Z -> separated u U ->
  (1 <= multiplicity U u <= p)%Z -> knot U p < u -> u < knot U (lenZ P) -> knot U r <= u -> u < knot U (r + 1) -> (p <= r < lenZ P)%Z ->
  (forall q, In q P -> pw q = w) -> tol * tol < (w + w) * (w + w) -> lenZ temp0 = (2 * p + 1)%Z ->
  exists R, knot_removal p U P u tol 1 per temp0 = Ok R /\ lenZ R = (lenZ P - 1)%Z /\ (forall q, In q R -> pw q = w).
Proof. exact removal_count. Qed.
Print Assumptions C306_removal_count_partial.
Example C306_case :
  valid_knots 2 (lenZ arch_rows - 1) arch_knots /\ separated 1 arch_knots /\ multiplicity arch_knots 1 = 1%Z /\
  (knot arch_knots 3 <= 1 /\ 1 < knot arch_knots 4) /\
  rows_shown (knot_removal 2 arch_knots arch_rows 1 (Q2Qc (1 # 10000)) 1 false (repeat pt0 5)) = [[0; 0; 0; 1]; [3; 2; 0; 1]; [4; 0; 0; 1]]%Q /\
  map (fun q => map this [px q; py q; pz q; pw q]) (pts_of (insert_knot para 1 1 (repeat pt0 4))) = [[0; 0; 0; 1]; [1 # 2; 1; 0; 1]; [5 # 2; 1; 0; 1]; [4; 0; 0; 1]]%Q /\
  rows_shown (knot_removal 2 arch_knots (pts_of (insert_knot para 1 1 (repeat pt0 4))) 1 (Q2Qc (1 # 10000)) 1 false (repeat pt0 5)) = [[0; 0; 0; 1]; [5 # 2; 1; 0; 1]; [4; 0; 0; 1]]%Q.
Proof.
  split; [apply valid_knotsb_ok; vm_compute; auto|]. split; [apply sepb_ok; vm_compute; reflexivity|]. split; [vm_compute; reflexivity|].
  split; [split; [apply qle_true|apply qlt_true]; vm_compute; reflexivity|]. split; [vm_compute; reflexivity|]. split; vm_compute; reflexivity.
Qed.
