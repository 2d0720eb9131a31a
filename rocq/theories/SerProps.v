(* Properties of serialization. *)
From Coq Require Import List ZArith Bool QArith Qcanon Lia.
From Verif Require Import Common QcLib ArrZ SumLib NurbsModel PickleModel PickleProofs SerModel SerSpec SerProofs.
Import ListNotations.
Local Open Scope Z_scope.

(* C38: deserialize after serialize gives back the curve; other magic or version is rejected *)
Theorem C38_round_trip_partial : forall c junk after, sized c -> packed_points c -> packed_knots c -> exists data d, serialize c junk = Ok data /\ deserialize (Bytes data) after = Ok d /\ same c d /\
  s_int d = (hd 0 (items1 (s_knots c)), last (items1 (s_knots c)) 0).
Proof.
  intros c junk after Z P K. destruct (round_trip c junk after Z) as [data [d [A [B [D1 [D2 [D3 [D4 D5]]]]]]]]. exists data, d. split; [exact A|]. split; [exact B|].
  assert (E2 : dense2 (s_pts c) = s_pts c) by (destruct P as [P1 P2]; pose proof (z_dim c Z) as P3; unfold dense2; destruct (s_pts c); cbn in *; subst; reflexivity). assert (E1 : dense1 (s_knots c) = s_knots c) by (unfold packed_knots in K; unfold dense1; destruct (s_knots c); cbn in *; subst; reflexivity). rewrite E2 in D1. rewrite E1 in D2. split; [repeat split; assumption|]. rewrite D5.
  pose proof (z_knots c Z) as N. unfold packed_knots in K. unfold items1. rewrite K. set (n := n1 (s_knots c)) in *. replace (Z.to_nat n) with (S (Z.to_nat (n - 1))) by lia. f_equal; [cbn [seq map hd]; f_equal; lia|]. rewrite seq_S, map_app. cbn [map]. rewrite last_last. f_equal. lia.
Qed.
Theorem C38_magic : forall data after, (4 <= length data)%nat -> firstn 4 data <> magic -> deserialize (Bytes data) after = Err ValueError.
Proof. exact bad_magic. Qed.
Theorem C38_version : forall data after, (8 <= length data)%nat -> Forall is_byte data -> firstn 4 (skipn 4 data) <> [1; 0; 0; 0] -> deserialize (Bytes data) after = Err ValueError.
Proof. exact bad_version. Qed.
(* knots that are spread out in memory: their neighbours are stored instead *)
Theorem C38_spread_refuted : forall c junk after, sized c -> items1 (dense1 (s_knots c)) <> items1 (s_knots c) -> exists data d, serialize c junk = Ok data /\ deserialize (Bytes data) after = Ok d /\ ~ same c d.
Proof. intros c junk after Z N. destruct (round_trip c junk after Z) as [data [d [A [B [_ [D2 _]]]]]]. exists data, d. split; [exact A|]. split; [exact B|]. intros [_ [_ [E _]]]. apply N. rewrite <- D2, E. reflexivity. Qed.
Print Assumptions C38_round_trip_partial.
Print Assumptions C38_magic.
Print Assumptions C38_version.
Print Assumptions C38_spread_refuted.
(* a line of degree 1; every second number of the array is a knot *)
Definition line (step : Z) : scurve :=
  {| s_pts := {| b2 := [7; 0; 0; 1; 2 ^ 62; 3; 0; 1]; off2 := 0; step_row := 4; step_col := 1; n2 := 2; dim2 := 4 |}; s_deg := 1;
     s_knots := {| b1 := [0; 10; 0; 20; 30; 40; 50; 60]; off1 := 0; step1 := step; n1 := 4 |}; s_per := false; s_int := (0, 0) |}.
Lemma line_sized step : sized (line step).
Proof. split; cbn [line s_pts s_knots s_deg n1 n2 dim2 b1 b2 off1 off2 length]; try lia; repeat constructor; unfold is_word; lia. Qed.
Example C38_round_trip_case : sized (line 1) /\ packed_points (line 1) /\ packed_knots (line 1) /\ match serialize (line 1) [9; 9; 9; 9] with Ok l => length l = 124%nat /\ firstn 8 l = [78; 82; 66; 67; 1; 0; 0; 0] | Err _ => False end.
Proof. split; [apply line_sized|]. split; [split; reflexivity|]. split; [reflexivity|]. vm_compute. split; reflexivity. Qed.
Example C38_reject_case : firstn 4 [78; 82; 66; 68; 1; 0; 0; 0] <> magic /\ Forall is_byte (magic ++ [2; 0; 0; 0]) /\ firstn 4 (skipn 4 (magic ++ [2; 0; 0; 0])) <> [1; 0; 0; 0].
Proof. split; [discriminate|]. split; [repeat constructor; discriminate|discriminate]. Qed.
Example C38_spread_case : sized (line 2) /\ items1 (s_knots (line 2)) = [0; 0; 30; 50] /\ items1 (dense1 (s_knots (line 2))) = [0; 10; 0; 20] /\ items1 (dense1 (s_knots (line 2))) <> items1 (s_knots (line 2)).
Proof. split; [apply line_sized|]. split; [reflexivity|]. split; [reflexivity|discriminate]. Qed.

(* C143: the same curve is stored as the same bytes *)
Theorem C143_bytes_refuted : forall c junk1 junk2, sized c -> junk1 <> junk2 -> exists d1 d2, serialize c junk1 = Ok d1 /\ serialize c junk2 = Ok d2 /\ d1 <> d2.
Proof.
  intros c j1 j2 Z N. destruct (serialize_layout c j1 Z) as [p1 [u1 [_ [_ S1]]]]. destruct (serialize_layout c j2 Z) as [p2 [u2 [_ [_ S2]]]]. eexists _, _. split; [exact S1|]. split; [exact S2|]. apply (junk_matters c j1 j2); assumption.
Qed.
(* all but the last four bytes depend on the curve only *)
Theorem C143_bytes_partial : forall c junk1 junk2 d1 d2, length junk1 = 4%nat -> length junk2 = 4%nat -> serialize c junk1 = Ok d1 -> serialize c junk2 = Ok d2 -> length d1 = length d2 /\ firstn (length d1 - 4) d1 = firstn (length d2 - 4) d2.
Proof.
  intros c j1 j2 d1 d2 L1 L2. unfold serialize. destruct (block _ _ _) as [p|]; [|discriminate]. cbn [bind]. destruct (block _ _ _) as [u|]; [|discriminate]. cbn [bind]. intros H1 H2. apply (f_equal (fun r => match r with Ok l => l | Err _ => [] end)) in H1, H2. cbv beta iota in H1, H2. rewrite <- H1, <- H2, !app_assoc. clear H1 H2. set (h := _ ++ doubles u). rewrite !app_length, L1, L2. split; [reflexivity|]. replace (length h + 4 - 4)%nat with (length h) by lia. rewrite !firstn_app, Nat.sub_diag, !firstn_O. reflexivity.
Qed.
Print Assumptions C143_bytes_refuted.
Print Assumptions C143_bytes_partial.
Example C143_case : sized (line 1) /\ [0; 0; 0; 0] <> [0; 0; 0; 1] /\ serialize (line 1) [0; 0; 0; 0] <> serialize (line 1) [0; 0; 0; 1].
Proof. split; [apply line_sized|]. split; [discriminate|]. vm_compute. discriminate. Qed.

(* C144: data that was cut short is rejected *)
Theorem C144_cut_refuted : forall c junk w after, sized c -> length junk = 4%nat -> is_word w -> exists data d, serialize c junk = Ok data /\ deserialize (Bytes (firstn (length data - 12) data)) (le 8 w ++ after) = Ok d /\ items1 (s_knots d) = removelast (items1 (dense1 (s_knots c))) ++ [w].
Proof. exact tail_read. Qed.
Theorem C144_memory_refuted : forall data n after, deserialize (Bytes (firstn n data)) (skipn n data ++ after) = deserialize (Bytes data) after.
Proof. exact cut_off. Qed.
Print Assumptions C144_cut_refuted.
Print Assumptions C144_memory_refuted.
Example C144_case : match serialize (line 1) [9; 9; 9; 9] with Ok l => match deserialize (Bytes (firstn 112 l)) (le 8 77) with Ok d => items1 (s_knots d) = [0; 10; 0; 77] | Err _ => False end | Err _ => False end.
Proof. vm_compute. reflexivity. Qed.

(* C145: pickling (and copy.copy) gives back the curve *)
Theorem C145_pickle_partial : forall P d K per c, (0 <= d <= lenZ P)%Z -> new_curve P d K per = Ok c -> pickle_trip c = Ok c.
Proof. intros P d K per c D H. destruct (new_current P d K per c D H) as [A B]. apply trip_current; assumption. Qed.
(* a periodic curve whose ends were moved apart gets more control points *)
Theorem C145_pickle_refuted : forall c c', c_per c = true -> is_periodic (c_pts c) (c_deg c) = false -> pickle_trip c = Ok c' -> c_pts c' = c_pts c ++ firstn (Z.to_nat (c_deg c)) (c_pts c) /\ c_pts c' <> c_pts c.
Proof. exact trip_grows. Qed.
Print Assumptions C145_pickle_partial.
Print Assumptions C145_pickle_refuted.
Local Open Scope Qc_scope.
Definition square : list pt := [mkpt 0 0 0 1; mkpt 1 0 0 1; mkpt 1 1 0 1; mkpt 0 1 0 1].
Definition stretched : list pt := square ++ [mkpt 0 0 0 1; mkpt (zq 2) 0 0 1].
Definition moved : res curve := do c <- new_curve square 2 None true ; set_control_points c stretched.
Example C145_case : (0 <= 2 <= lenZ square)%Z /\ match new_curve square 2 None true with Ok c => lenZ (c_pts c) = 6%Z /\ c_per c = true | Err _ => False end /\
  match moved with Ok c => c_per c = true /\ is_periodic (c_pts c) (c_deg c) = false /\ match pickle_trip c with Ok c' => lenZ (c_pts c') = 8%Z | Err _ => False end | Err _ => False end.
Proof. split; [vm_compute; split; discriminate|]. split; [vm_compute; split; reflexivity|]. vm_compute. repeat split; reflexivity. Qed.
