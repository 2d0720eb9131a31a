From Coq Require Import List ZArith Bool Lia.
From Verif Require Import Common SerModel SerSpec.
Import ListNotations.
Local Open Scope Z_scope.

Lemma le_length n z : length (le n z) = n.
Proof. revert z. induction n as [|n IH]; intros z; [reflexivity|]. cbn. rewrite IH. reflexivity. Qed.
Lemma unle_le n z : 0 <= z < 256 ^ Z.of_nat n -> unle (le n z) = z.
Proof.
  revert z. induction n as [|n IH]; intros z H; [cbn in *; lia|]. cbn [le unle]. rewrite IH.
  - pose proof (Z.div_mod z 256). lia.
  - rewrite Nat2Z.inj_succ, Z.pow_succ_r in H by lia. split; [apply Z.div_pos; lia|apply Z.div_lt_upper_bound; lia].
Qed.
Lemma block_mid (a b c : list Z) o n : o = Z.of_nat (length a) -> n = Z.of_nat (length b) -> block (a ++ b ++ c) o n = Ok b.
Proof.
  intros -> ->. unfold block. rewrite !app_length. assert (E : (0 <=? Z.of_nat (length a)) && (0 <=? Z.of_nat (length b)) && (Z.of_nat (length a) + Z.of_nat (length b) <=? Z.of_nat (length a + (length b + length c))) = true) by (rewrite !andb_true_iff, !Z.leb_le; lia). rewrite E, !Nat2Z.id.
  rewrite skipn_app, Nat.sub_diag, skipn_all2 by lia. cbn. rewrite firstn_app, Nat.sub_diag, firstn_all, firstn_O, app_nil_r. reflexivity.
Qed.
Lemma word_mid (a c : list Z) o z : o = Z.of_nat (length a) -> 0 <= z < 2 ^ 32 -> word_at (a ++ le 4 z ++ c) o = Ok z.
Proof. intros E H. unfold word_at, bytes_at. rewrite (block_mid a (le 4 z) c) by (try exact E; rewrite le_length; reflexivity). cbn [bind]. rewrite unle_le by exact H. reflexivity. Qed.
Lemma doubles_length l : length (doubles l) = (8 * length l)%nat.
Proof. unfold doubles. induction l as [|x l IH]; [reflexivity|]. cbn [map concat]. rewrite app_length, le_length, IH. cbn. lia. Qed.
Lemma doubles_mid l : forall (a c : list Z) o n, o = Z.of_nat (length a) -> n = length l -> Forall is_word l -> doubles_at (a ++ doubles l ++ c) o n = Ok l.
Proof.
  induction l as [|x l IH]; intros a c o n E -> W; [reflexivity|]. inversion W; subst. cbn [length doubles_at]. change (doubles (x :: l)) with (le 8 x ++ doubles l). rewrite <- app_assoc. unfold bytes_at. rewrite (block_mid a (le 8 x)) by (try reflexivity; rewrite le_length; reflexivity). cbn [bind].
  rewrite app_assoc. rewrite (IH (a ++ le 8 x)); [|rewrite app_length, le_length; lia|reflexivity|assumption]. cbn [bind]. rewrite unle_le by (exact H1). reflexivity.
Qed.
Lemma block_ok b off n : 0 <= off -> 0 <= n -> off + n <= Z.of_nat (length b) -> block b off n = Ok (firstn (Z.to_nat n) (skipn (Z.to_nat off) b)).
Proof. intros A B C. unfold block. assert (E : (0 <=? off) && (0 <=? n) && (off + n <=? Z.of_nat (length b)) = true) by (rewrite !andb_true_iff, !Z.leb_le; lia). rewrite E. reflexivity. Qed.
Lemma block_length b off n l : block b off n = Ok l -> Z.of_nat (length l) = n.
Proof. unfold block. destruct (_ && _) eqn:E; [|discriminate]. rewrite !andb_true_iff, !Z.leb_le in E. intros [= <-]. rewrite firstn_length, skipn_length. lia. Qed.
Lemma block_words b off n l : block b off n = Ok l -> Forall is_word b -> Forall is_word l.
Proof. unfold block. destruct (_ && _); [|discriminate]. intros [= <-] W. rewrite Forall_forall in *. intros x I. apply W. rewrite <- (firstn_skipn (Z.to_nat off) b). apply in_or_app. right. rewrite <- (firstn_skipn (Z.to_nat n) (skipn (Z.to_nat off) b)). apply in_or_app. left. exact I. Qed.
Lemma uint_id z : 0 <= z < 2 ^ 31 -> uint32 z = z.
Proof. intros H. apply Z.mod_small. lia. Qed.
Lemma uint_range z : 0 <= uint32 z < 2 ^ 32.
Proof. apply Z.mod_pos_bound. lia. Qed.
Lemma int_uint z : - 2 ^ 31 <= z < 2 ^ 31 -> int32 (uint32 z) = z.
Proof.
  intros H. unfold int32, uint32. destruct (Z.ltb_spec z 0).
  - rewrite <- (Z.mod_add z 1) by lia. rewrite Z.mod_small by lia. destruct (Z.ltb_spec (z + 1 * 2 ^ 32) (2 ^ 31)); lia.
  - rewrite Z.mod_small by lia. destruct (Z.ltb_spec z (2 ^ 31)); lia.
Qed.
Lemma beq_refl l : beq l l = true.
Proof. induction l as [|x l IH]; [reflexivity|]. cbn. rewrite Z.eqb_refl. exact IH. Qed.
Lemma beq_true a : forall b, beq a b = true -> a = b.
Proof. induction a as [|x a IH]; intros [|y b] H; try discriminate; [reflexivity|]. cbn in H. apply andb_true_iff in H. destruct H as [H1 H2]. apply Z.eqb_eq in H1. rewrite H1, (IH b H2). reflexivity. Qed.

(* the layout *)
Definition layout (deg per n k : Z) (p u tail : list Z) : list Z :=
  magic ++ le 4 version ++ le 4 (uint32 deg) ++ le 4 per ++ le 4 (uint32 n) ++ le 4 (uint32 k) ++ doubles p ++ doubles u ++ tail.
Definition packed (p u : list Z) (n k deg : Z) (per : bool) : scurve :=
  {| s_pts := {| b2 := p; off2 := 0; step_row := 4; step_col := 1; n2 := n; dim2 := 4 |}; s_deg := deg; s_knots := {| b1 := u; off1 := 0; step1 := 1; n1 := k |}; s_per := per; s_int := (item u 0, item u (k - 1)) |}.
Lemma read_layout deg per n k p u data after tail : data ++ after = layout deg per n k p u tail -> - 2 ^ 31 <= deg < k -> 0 <= per < 2 ^ 32 -> 0 < n < 2 ^ 29 -> 0 < k < 2 ^ 29 -> Z.of_nat (length p) = n * 4 -> Z.of_nat (length u) = k -> Forall is_word p -> Forall is_word u ->
  cdeserialize data after = Ok (packed p u n k deg (negb (per =? 0))).
Proof.
  intros E D P N K LP LU WP WU. unfold cdeserialize. rewrite E. clear E. unfold layout, bytes_at.
  set (rest0 := le 4 version ++ _). rewrite (block_mid [] magic rest0) by reflexivity. cbn [bind app]. rewrite beq_refl. cbn [negb]. subst rest0.
  set (rest1 := le 4 (uint32 deg) ++ _). rewrite (word_mid magic rest1) by (try reflexivity; unfold version; lia). cbn [bind]. rewrite Z.eqb_refl. cbn [negb]. subst rest1.
  rewrite app_assoc. set (h1 := magic ++ le 4 version). set (rest2 := le 4 per ++ _). rewrite (word_mid h1 rest2) by (try reflexivity; apply uint_range). cbn [bind]. subst rest2.
  rewrite app_assoc. set (h2 := h1 ++ le 4 (uint32 deg)). assert (L2 : length h2 = 12%nat) by (unfold h2; rewrite app_length, le_length; reflexivity). set (rest3 := le 4 (uint32 n) ++ _). rewrite (word_mid h2 rest3) by (try exact P; rewrite L2; reflexivity). cbn [bind]. subst rest3.
  rewrite app_assoc. set (h3 := h2 ++ le 4 per). assert (L3 : length h3 = 16%nat) by (unfold h3; rewrite app_length, le_length, L2; reflexivity). set (rest4 := le 4 (uint32 k) ++ _). rewrite (word_mid h3 rest4) by (try apply uint_range; rewrite L3; reflexivity). cbn [bind]. subst rest4.
  rewrite app_assoc. set (h4 := h3 ++ le 4 (uint32 n)). assert (L4 : length h4 = 20%nat) by (unfold h4; rewrite app_length, le_length, L3; reflexivity). set (rest5 := doubles p ++ _). rewrite (word_mid h4 rest5) by (try apply uint_range; rewrite L4; reflexivity). cbn [bind]. subst rest5.
  rewrite app_assoc. set (h5 := h4 ++ le 4 (uint32 k)). assert (L5 : length h5 = 24%nat) by (unfold h5; rewrite app_length, le_length, L4; reflexivity).
  rewrite !int_uint by lia. destruct (Z.leb_spec n 0); [lia|]. destruct (Z.leb_spec k 0); [lia|]. cbn [orb].
  rewrite (doubles_mid p h5) by (try assumption; rewrite ?L5; lia). cbn [bind].
  rewrite app_assoc. rewrite (doubles_mid u (h5 ++ doubles p)) by (try assumption; rewrite ?app_length, ?L5, ?doubles_length; lia). cbn [bind].
  unfold hook. cbn [n1 b1 off1 step1]. destruct (Z.leb_spec k 0); [lia|]. destruct (Z.ltb_spec (k - deg - 1) 0); [lia|]. unfold packed. rewrite Z.add_0_l, Z.mul_1_r. reflexivity.
Qed.
Lemma serialize_layout c junk : sized c -> exists p u, block (b2 (s_pts c)) (off2 (s_pts c)) (n2 (s_pts c) * 4) = Ok p /\ block (b1 (s_knots c)) (off1 (s_knots c)) (n1 (s_knots c)) = Ok u /\
  serialize c junk = Ok (layout (s_deg c) (if s_per c then 1 else 0) (n2 (s_pts c)) (n1 (s_knots c)) p u junk).
Proof.
  intros [ZP ZD ZK _ _ _ [P1 P2] [K1 K2]]. pose proof (block_ok (b2 (s_pts c)) (off2 (s_pts c)) (n2 (s_pts c) * 4) P1 ltac:(lia) P2) as EP. pose proof (block_ok (b1 (s_knots c)) (off1 (s_knots c)) (n1 (s_knots c)) K1 ltac:(lia) K2) as EK.
  eexists _, _. split; [exact EP|]. split; [exact EK|]. unfold serialize. rewrite ZD, EP. cbn [bind]. rewrite EK. reflexivity.
Qed.
Lemma item_block b off n l i : block b off n = Ok l -> 0 <= i < n -> item l i = item b (off + i).
Proof.
  unfold block. destruct (_ && _) eqn:E; [|discriminate]. rewrite !andb_true_iff, !Z.leb_le in E. intros [= <-] H. unfold item.
  rewrite <- (firstn_skipn (Z.to_nat off) b) at 2. rewrite app_nth2 by (rewrite firstn_length; lia). rewrite firstn_length. replace (Z.to_nat (off + i) - Nat.min (Z.to_nat off) (length b))%nat with (Z.to_nat i) by lia.
  rewrite <- (firstn_skipn (Z.to_nat n) (skipn (Z.to_nat off) b)) at 2. rewrite app_nth1 by (rewrite firstn_length, skipn_length; lia). reflexivity.
Qed.
Lemma knots_back b off n u : block b off n = Ok u -> items1 {| b1 := u; off1 := 0; step1 := 1; n1 := n |} = items1 {| b1 := b; off1 := off; step1 := 1; n1 := n |}.
Proof. intros E. unfold items1. cbn [b1 off1 step1 n1]. apply map_ext_in. intros i I. apply in_seq in I. rewrite (item_block b off n u) by (try exact E; lia). f_equal. Qed.
Lemma points_back b off n p : block b off (n * 4) = Ok p -> rows2 {| b2 := p; off2 := 0; step_row := 4; step_col := 1; n2 := n; dim2 := 4 |} = rows2 {| b2 := b; off2 := off; step_row := 4; step_col := 1; n2 := n; dim2 := 4 |}.
Proof.
  intros E. unfold rows2, row2. cbn [b2 off2 step_row step_col n2 dim2]. apply map_ext_in. intros i I. apply in_seq in I. apply map_ext_in. intros j J. apply in_seq in J. assert (Z.of_nat j < 4) by (cbn in J; lia). rewrite (item_block b off (n * 4) p) by (try exact E; lia). f_equal. lia.
Qed.
(* reading back what was written, whatever the steps of the arrays *)
Definition dense1 (v : view1) : view1 := {| b1 := b1 v; off1 := off1 v; step1 := 1; n1 := n1 v |}.
Definition dense2 (v : view2) : view2 := {| b2 := b2 v; off2 := off2 v; step_row := 4; step_col := 1; n2 := n2 v; dim2 := 4 |}.
Lemma round_trip c junk after : sized c -> exists data d, serialize c junk = Ok data /\ cdeserialize data after = Ok d /\
  rows2 (s_pts d) = rows2 (dense2 (s_pts c)) /\ items1 (s_knots d) = items1 (dense1 (s_knots c)) /\ s_deg d = s_deg c /\ s_per d = s_per c /\ s_int d = (item (b1 (s_knots c)) (off1 (s_knots c)), item (b1 (s_knots c)) (off1 (s_knots c) + n1 (s_knots c) - 1)).
Proof.
  intros Z. destruct (serialize_layout c junk Z) as [p [u [EP [EU S]]]]. destruct Z as [ZP ZD ZK ZG ZWP ZWK _ _]. eexists _, (packed p u (n2 (s_pts c)) (n1 (s_knots c)) (s_deg c) (s_per c)). split; [exact S|].
  assert (X : negb ((if s_per c then 1 else 0) =? 0) = s_per c) by (destruct (s_per c); reflexivity). split.
  - rewrite <- X at 2. apply (read_layout _ _ _ _ _ _ _ _ (junk ++ after)); try assumption; try lia; [unfold layout; rewrite <- !app_assoc; reflexivity|destruct (s_per c); lia|apply (block_length _ _ _ _ EP)|apply (block_length _ _ _ _ EU)|apply (block_words _ _ _ _ EP ZWP)|apply (block_words _ _ _ _ EU ZWK)].
  - split; [apply points_back, EP|]. split; [apply knots_back, EU|]. split; [reflexivity|]. split; [reflexivity|]. unfold packed. cbn [s_int]. rewrite (item_block _ _ _ u 0 EU), (item_block _ _ _ u (n1 (s_knots c) - 1) EU) by lia. f_equal; f_equal; lia.
Qed.
Lemma bad_magic data after : (4 <= length data)%nat -> firstn 4 data <> magic -> cdeserialize data after = Err ValueError.
Proof.
  intros L H. unfold cdeserialize, bytes_at. rewrite block_ok by (rewrite ?app_length; lia). cbn [bind]. change (Z.to_nat 4) with 4%nat. change (Z.to_nat 0) with 0%nat. rewrite skipn_O, firstn_app, (proj2 (Nat.sub_0_le 4 (length data)) L), firstn_O, app_nil_r.
  destruct (beq (firstn 4 data) magic) eqn:E; [elim H; apply beq_true, E|reflexivity].
Qed.
Lemma bytes_eq a b c d : is_byte a -> is_byte b -> is_byte c -> is_byte d -> unle [a; b; c; d] = 1 -> [a; b; c; d] = [1; 0; 0; 0].
Proof. unfold is_byte. cbn [unle]. intros A B C D H. assert (d = 0) by lia. assert (c = 0) by lia. assert (b = 0) by lia. assert (a = 1) by lia. subst. reflexivity. Qed.
Lemma bad_version data after : (8 <= length data)%nat -> Forall is_byte data -> firstn 4 (skipn 4 data) <> [1; 0; 0; 0] -> cdeserialize data after = Err ValueError.
Proof.
  intros L W H. unfold cdeserialize, bytes_at. rewrite block_ok by (rewrite ?app_length; lia). cbn [bind]. destruct (negb _); [reflexivity|]. unfold word_at, bytes_at. rewrite block_ok by (rewrite ?app_length; lia). cbn [bind]. change (Z.to_nat 4) with 4%nat.
  do 8 (destruct data as [|? data]; [cbn in L; lia|]). cbn [app skipn firstn] in *. repeat match goal with X : Forall _ (_ :: _) |- _ => inversion X; clear X; subst end.
  match goal with |- context [unle ?l =? version] => destruct (Z.eqb_spec (unle l) version) as [E|E] end; [|reflexivity]. elim H. apply bytes_eq; assumption.
Qed.
(* data that was cut off: the missing part is read from the memory behind it *)
Lemma cut_off data n after : cdeserialize (firstn n data) (skipn n data ++ after) = cdeserialize data after.
Proof. unfold cdeserialize. rewrite app_assoc, firstn_skipn. reflexivity. Qed.
Lemma junk_matters c j1 j2 d1 d2 : serialize c j1 = Ok d1 -> serialize c j2 = Ok d2 -> j1 <> j2 -> d1 <> d2.
Proof.
  unfold serialize. destruct (block _ _ _) as [p|]; [|discriminate]. cbn [bind]. destruct (block _ _ _) as [u|]; [|discriminate]. cbn [bind]. intros H1 H2 N E. apply N. apply (f_equal (fun r => match r with Ok l => l | Err _ => [] end)) in H1, H2. cbv beta iota in H1, H2. rewrite <- H1, <- H2, !app_assoc in E. apply app_inv_head in E. exact E.
Qed.
Lemma last_cons {A} (l : list A) (x : A) : l <> [] -> exists m y, l = m ++ [y].
Proof. intros H. exists (removelast l), (last l x). apply app_removelast_last, H. Qed.
Lemma tail_read c junk w after : sized c -> length junk = 4%nat -> is_word w -> exists data d, serialize c junk = Ok data /\
  let cut := firstn (length data - 12) data in
  cdeserialize cut (le 8 w ++ after) = Ok d /\ items1 (s_knots d) = removelast (items1 (dense1 (s_knots c))) ++ [w].
Proof.
  intros Z J W. destruct (serialize_layout c junk Z) as [p [u [EP [EU S]]]]. destruct Z as [ZP ZD ZK ZG ZWP ZWK _ _]. set (n := n2 (s_pts c)) in *. set (k := n1 (s_knots c)) in *.
  pose proof (block_length _ _ _ _ EU) as LU. destruct (last_cons u 0) as [v [y EV]]; [intros ->; cbn in LU; lia|].
  eexists _, (packed p (v ++ [w]) n k (s_deg c) (s_per c)). split; [exact S|]. assert (WU : Forall is_word (v ++ [w])). { pose proof (block_words _ _ _ _ EU ZWK) as Q. rewrite EV in Q. apply Forall_app in Q. apply Forall_app. split; [apply Q|repeat constructor; apply W]. }
  assert (X : negb ((if s_per c then 1 else 0) =? 0) = s_per c) by (destruct (s_per c); reflexivity). split.
  - cbv zeta. assert (Y : packed p (v ++ [w]) n k (s_deg c) (s_per c) = packed p (v ++ [w]) n k (s_deg c) (negb ((if s_per c then 1 else 0) =? 0))) by (rewrite X; reflexivity). rewrite Y. apply (read_layout _ _ _ _ _ _ _ _ after); try assumption; try lia; [|destruct (s_per c); lia|apply (block_length _ _ _ _ EP)|rewrite EV in LU; rewrite app_length in *; exact LU|apply (block_words _ _ _ _ EP ZWP)].
    unfold layout. rewrite EV. assert (DD : forall a b, doubles (a ++ b) = doubles a ++ doubles b) by (intros a b; unfold doubles; rewrite map_app, concat_app; reflexivity). rewrite !DD. change (doubles [y]) with (le 8 y ++ []). change (doubles [w]) with (le 8 w ++ []). rewrite !app_nil_r.
    set (h := magic ++ _ ++ _ ++ _ ++ _ ++ _ ++ _ ++ (doubles v ++ le 8 y) ++ junk). set (pre := magic ++ le 4 version ++ le 4 (uint32 (s_deg c)) ++ le 4 (if s_per c then 1 else 0) ++ le 4 (uint32 n) ++ le 4 (uint32 k) ++ doubles p ++ doubles v).
    assert (EH : h = pre ++ le 8 y ++ junk) by (unfold h, pre; rewrite <- !app_assoc; reflexivity). rewrite EH, !app_length, le_length, J. replace (length pre + (8 + 4) - 12)%nat with (length pre) by lia. rewrite firstn_app, Nat.sub_diag, firstn_all, firstn_O, app_nil_r. unfold pre. rewrite <- !app_assoc. reflexivity.
  - cbn [packed s_knots]. assert (LV : Z.of_nat (length v) = k - 1) by (rewrite EV, app_length in LU; cbn in LU; lia).
    assert (I : forall l, Z.of_nat (length l) = k -> items1 {| b1 := l; off1 := 0; step1 := 1; n1 := k |} = l). { intros l L. unfold items1. cbn. replace (Z.to_nat k) with (length l) by lia. unfold item. apply nth_ext with (d := 0) (d' := 0); [rewrite map_length, seq_length; reflexivity|]. intros i H. rewrite map_length, seq_length in H. rewrite (nth_indep _ 0 (nth (Z.to_nat (Z.of_nat 0 * 1)) l 0)) by (rewrite map_length, seq_length; exact H). rewrite (map_nth (fun i => nth (Z.to_nat (Z.of_nat i * 1)) l 0)), seq_nth by exact H. f_equal. lia. }
    rewrite I by (rewrite app_length; cbn; lia). unfold dense1. fold k. rewrite <- (knots_back _ _ _ _ EU), I by exact LU. rewrite EV, removelast_last. reflexivity.
Qed.
