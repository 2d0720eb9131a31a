(* Points and segments of the sweep line: proofs. *)
From Coq Require Import List ZArith Lia Bool QArith Qcanon.
From Verif Require Import Common QcLib SwpModel SwpSpec.
Import ListNotations.
Local Open Scope Z_scope.
Local Open Scope Qc_scope.

Lemma eps2_pos : 0 < eps2. Proof. reflexivity. Qed.
Ltac qcase E := match goal with |- context[qlt ?a ?b] => destruct (qlt a b) eqn:E; [apply qlt_true in E|apply qlt_false in E] end.

Lemma pcompare_anti a b : pcompare a b = (- pcompare b a)%Z.
Proof.
  unfold pcompare. rewrite (Z.eqb_sym (p_id b)). pose proof eps2_pos. destruct (Z.eqb (p_id a) (p_id b)); [reflexivity|]. cbv zeta.
  repeat (let E := fresh "E" in qcase E); try reflexivity; exfalso; qlra.
Qed.
Lemma pcompare_self a : pcompare a a = 0%Z. Proof. unfold pcompare. now rewrite Z.eqb_refl. Qed.

Lemma pcompare_clear a b : clear_points a b ->
  (pcompare a b = (-1)%Z <-> before a b) /\ (pcompare a b = 1%Z <-> before b a) /\ (pcompare a b = 0%Z <-> p_x a = p_x b /\ p_y a = p_y b).
Proof.
  intros [S [X Y]]. unfold pcompare. pose proof eps2_pos as P. destruct (Z.eqb_spec (p_id a) (p_id b)) as [I|I].
  - destruct (S I) as [E F]. unfold before. rewrite E, F. pose proof (Qclt_not_eq (p_x b) (p_x b)) as N. pose proof (Qclt_not_eq (p_y b) (p_y b)) as M.
    split; [split; [discriminate|intros [H|[_ H]]; exfalso; [now apply N|now apply M]]|].
    split; [split; [discriminate|intros [H|[_ H]]; exfalso; [now apply N|now apply M]]|]. split; auto.
  - cbv zeta. unfold before, clear in *. clear S I. set (e := eps2) in *. clearbody e.
    qcase E1. { split; [split; [discriminate|intros [H|[H _]]; exfalso; qlra]|]. split; [split; auto; intros _; left; qlra|]. split; [discriminate|intros [H _]; exfalso; qlra]. }
    qcase E2. { split; [split; auto; intros _; left; qlra|]. split; [split; [discriminate|intros [H|[H _]]; exfalso; qlra]|]. split; [discriminate|intros [H _]; exfalso; qlra]. }
    assert (EX : p_x a = p_x b) by (destruct X as [X|[X|X]]; [exact X|exfalso; qlra|exfalso; qlra]).
    qcase E3. { split; [split; [discriminate|intros [H|[_ H]]; exfalso; qlra]|]. split; [split; auto; intros _; right; split; [now symmetry|qlra]|]. split; [discriminate|intros [_ H]; exfalso; qlra]. }
    qcase E4. { split; [split; auto; intros _; right; split; [exact EX|qlra]|]. split; [split; [discriminate|intros [H|[_ H]]; exfalso; qlra]|]. split; [discriminate|intros [_ H]; exfalso; qlra]. }
    assert (EY : p_y a = p_y b) by (destruct Y as [Y|[Y|Y]]; [exact Y|exfalso; qlra|exfalso; qlra]).
    split; [split; [discriminate|intros [H|[_ H]]; exfalso; qlra]|]. split; [split; [discriminate|intros [H|[_ H]]; exfalso; qlra]|]. split; auto.
Qed.

(* three points, each before the next and the last before the first *)
Lemma pcompare_cycle x y i j k : i <> j -> j <> k -> i <> k ->
  let a := mkp i x y in let b := mkp j (x + eps2) (y - 1) in let c := mkp k (x + eps2 + eps2) (y - (1 + 1)) in
  pcompare b a = (-1)%Z /\ pcompare c b = (-1)%Z /\ pcompare a c = (-1)%Z.
Proof.
  intros IJ JK IK. cbv zeta. assert (P : 0 < eps2) by reflexivity. assert (L : eps2 < 1) by reflexivity. unfold pcompare. cbn [p_id p_x p_y].
  set (e := eps2) in *. clearbody e.
  repeat match goal with |- context[Z.eqb ?u ?v] => destruct (Z.eqb_spec u v); [congruence|] end.
  repeat split; repeat (let E := fresh "E" in qcase E); try reflexivity; exfalso; qlra.
Qed.
(* equality within the tolerance is not transitive either *)
Lemma peq_chain x y i j k : i <> j -> j <> k -> i <> k ->
  let a := mkp i x y in let b := mkp j (x + eps2) y in let c := mkp k (x + eps2 + eps2) y in
  peq a b = true /\ peq b c = true /\ peq a c = false.
Proof.
  intros IJ JK IK. cbv zeta. assert (P : 0 < eps2) by reflexivity. unfold peq, pcompare. cbn [p_id p_x p_y].
  set (e := eps2) in *. clearbody e.
  repeat match goal with |- context[Z.eqb ?u ?v] => destruct (Z.eqb_spec u v); [congruence|] end.
  repeat split; repeat (let E := fresh "E" in qcase E); try reflexivity; exfalso; qlra.
Qed.

(* ---- segments ---- *)

Lemma new_seg_fields i a b : s_id (new_seg i a b) = i /\ s_p1 (new_seg i a b) = a /\ s_p2 (new_seg i a b) = b /\
  s_dx (new_seg i a b) = p_x b - p_x a /\ s_dy (new_seg i a b) = p_y b - p_y a.
Proof. unfold new_seg. destruct (negb (qeq (p_x b) (p_x a))); repeat split. Qed.

Lemma new_seg_line i a b :
  (p_x a = p_x b -> s_slope (new_seg i a b) = None /\ s_shift (new_seg i a b) = None) /\
  (p_x a <> p_x b -> exists m c, s_slope (new_seg i a b) = Some m /\ s_shift (new_seg i a b) = Some c /\
     forall p, on_line a b p <-> p_y p = m * p_x p + c).
Proof.
  unfold new_seg. split; intro H.
  - destruct (qeq (p_x b) (p_x a)) eqn:E; [split; reflexivity|]. apply qeq_false in E. congruence.
  - destruct (qeq (p_x b) (p_x a)) eqn:E; [apply qeq_true in E; congruence|]. cbn [negb]. eexists _, _. split; [reflexivity|]. split; [reflexivity|].
    intro p. assert (D : p_x b - p_x a <> 0) by (intro; apply H; qlra). unfold on_line, turn. split; intro L.
    + assert (Q : (p_y p - p_y a) = (p_y b - p_y a) * (p_x p - p_x a) / (p_x b - p_x a)).
      { replace ((p_y b - p_y a) * (p_x p - p_x a)) with ((p_x b - p_x a) * (p_y p - p_y a)) by qlra. field. exact D. }
      replace (p_y p) with ((p_y p - p_y a) + p_y a) by ring. rewrite Q. field. exact D.
    + rewrite L. field. exact D.
Qed.

Lemma cmp_val_sign a b : sign_of (cmp_val a b) (a - b).
Proof.
  unfold cmp_val, sign_of. destruct (qlt b a) eqn:E, (qlt a b) eqn:F; rewrite ?qlt_true, ?qlt_false in *.
  - exfalso; qlra.
  - left. split; [reflexivity|qlra].
  - right. right. split; [reflexivity|qlra].
  - right. left. split; [reflexivity|]. assert (a = b) by (apply Qcle_antisym; auto). subst. ring.
Qed.
Lemma sign_of_eq s t x y : sign_of s x -> sign_of t y -> x = y -> s = t.
Proof. unfold sign_of. intros [[? ?]|[[? ?]|[? ?]]] [[? ?]|[[? ?]|[? ?]]] E; subst; auto; exfalso; qlra. Qed.
Lemma sign_of_opp s x : sign_of s x -> sign_of (- s) (- x).
Proof. unfold sign_of. intros [[-> H]|[[-> H]|[-> H]]]; [right; right|right; left|left]; split; auto; qlra. Qed.
Lemma sign_of_pos s x k : 0 < k -> sign_of s x -> sign_of s (k * x).
Proof.
  unfold sign_of. intros K [[-> H]|[[-> H]|[-> H]]]; [left|right; left|right; right]; split; auto.
  - qnra.
  - rewrite H. ring.
  - qnra.
Qed.
Lemma orientation_turn i a b p : sign_of (orientation (new_seg i a b) p) (turn a b p).
Proof.
  unfold orientation. destruct (new_seg_fields i a b) as [_ [E1 [_ [E3 E4]]]]. rewrite E1, E3, E4.
  pose proof (cmp_val_sign ((p_y b - p_y a) * (p_x a - p_x p)) ((p_x b - p_x a) * (p_y a - p_y p))) as H.
  replace (turn a b p) with ((p_y b - p_y a) * (p_x a - p_x p) - (p_x b - p_x a) * (p_y a - p_y p)) by (unfold turn; ring). exact H.
Qed.
Lemma orientation_reversed i j a b p : orientation (new_seg i b a) p = (- orientation (new_seg j a b) p)%Z.
Proof.
  apply (sign_of_eq _ _ (turn b a p) (- turn a b p)); [apply orientation_turn|apply sign_of_opp, orientation_turn|unfold turn; ring].
Qed.

(* ---- the order of segments ---- *)

Lemma trivial_iff i a b : is_trivial (new_seg i a b) = true <-> ~ proper a b.
Proof.
  unfold is_trivial, proper. destruct (new_seg_fields i a b) as [_ [_ [_ [-> ->]]]]. rewrite andb_true_iff, !qeq_true. split.
  - intros [H1 H2] [H|H]; apply H; qlra.
  - intro H. destruct (Qc_eq_dec (p_x a) (p_x b)) as [E|E]; [|exfalso; auto]. destruct (Qc_eq_dec (p_y a) (p_y b)) as [F|F]; [|exfalso; auto].
    rewrite E, F. split; ring.
Qed.
Lemma trivial_false i a b : proper a b -> is_trivial (new_seg i a b) = false.
Proof. intro H. destruct (is_trivial (new_seg i a b)) eqn:E; auto. apply trivial_iff in E. contradiction. Qed.

(* both segments start at the sweep point, or the other passes through it *)
Lemma seg_compare_starts w i j a2 b1 b2 : i <> j -> proper w a2 -> proper b1 b2 ->
  seg_compare w (new_seg i w a2) (new_seg j b1 b2) =
    Ok (if negb (Z.eqb (orientation (new_seg j b1 b2) w) 0) then orientation (new_seg j b1 b2) w
        else if negb (Z.eqb (orientation (new_seg j b1 b2) a2) 0) then orientation (new_seg j b1 b2) a2 else (i - j)%Z).
Proof.
  intros IJ A B. unfold seg_compare. destruct (new_seg_fields i w a2) as [-> [-> [-> _]]]. destruct (new_seg_fields j b1 b2) as [-> [-> _]].
  destruct (Z.eqb_spec i j); [congruence|]. rewrite Z.eqb_refl. cbn [bind]. rewrite !trivial_false, !orb_false_r by auto.
  destruct (negb (orientation (new_seg j b1 b2) w =? 0)%Z); reflexivity.
Qed.
Lemma seg_compare_other w i j a2 b1 b2 : i <> j -> p_id w <> p_id b1 -> proper w a2 -> proper b1 b2 ->
  seg_compare w (new_seg j b1 b2) (new_seg i w a2) =
    Ok (if negb (Z.eqb (orientation (new_seg j b1 b2) w) 0) then (- orientation (new_seg j b1 b2) w)%Z
        else if negb (Z.eqb (orientation (new_seg i w a2) b2) 0) then orientation (new_seg i w a2) b2 else (j - i)%Z).
Proof.
  intros IJ W A B. unfold seg_compare. destruct (new_seg_fields i w a2) as [-> [-> _]]. destruct (new_seg_fields j b1 b2) as [-> [-> [-> _]]].
  destruct (Z.eqb_spec j i); [congruence|]. destruct (Z.eqb_spec (p_id w) (p_id b1)); [congruence|]. rewrite Z.eqb_refl. cbn [bind].
  rewrite !trivial_false, !orb_false_r by auto.
  destruct (Z.eqb_spec (orientation (new_seg j b1 b2) w) 0) as [E|E]; cbn [negb]. { rewrite E. reflexivity. }
  destruct (Z.eqb_spec (- orientation (new_seg j b1 b2) w) 0); [lia|]. reflexivity.
Qed.

Lemma seg_compare_anti w i j a2 b1 b2 : i <> j -> p_id w <> p_id b1 -> proper w a2 -> proper b1 b2 ->
  (on_line b1 b2 w -> passes b1 b2 w) ->
  exists x, seg_compare w (new_seg i w a2) (new_seg j b1 b2) = Ok x /\ seg_compare w (new_seg j b1 b2) (new_seg i w a2) = Ok (- x)%Z.
Proof.
  intros IJ W A B H. rewrite seg_compare_starts, seg_compare_other by auto. eexists. split; [reflexivity|].
  destruct (Z.eqb_spec (orientation (new_seg j b1 b2) w) 0) as [E|E]; cbn [negb]; [|reflexivity].
  pose proof (orientation_turn j b1 b2 w) as T. rewrite E in T. assert (L : on_line b1 b2 w) by (destruct T as [[? _]|[[_ ?]|[? _]]]; try discriminate; auto).
  destruct (H L) as [t [T1 [X Y]]].
  assert (K : orientation (new_seg i w a2) b2 = (- orientation (new_seg j b1 b2) a2)%Z).
  { apply (sign_of_eq _ _ (turn w a2 b2) (- ((1 - t) * turn b1 b2 a2))).
    - apply orientation_turn.
    - apply sign_of_opp, sign_of_pos; [qlra|apply orientation_turn].
    - unfold turn. rewrite X, Y. ring. }
  rewrite K. destruct (Z.eqb_spec (orientation (new_seg j b1 b2) a2) 0) as [F|F]; cbn [negb].
  - rewrite F. cbn. f_equal. lia.
  - destruct (Z.eqb_spec (- orientation (new_seg j b1 b2) a2) 0); [lia|]. reflexivity.
Qed.
(* both start at the sweep point *)
Lemma seg_compare_anti_start w i j a2 b2 : i <> j -> proper w a2 -> proper w b2 ->
  exists x, seg_compare w (new_seg i w a2) (new_seg j w b2) = Ok x /\ seg_compare w (new_seg j w b2) (new_seg i w a2) = Ok (- x)%Z.
Proof.
  intros IJ A B. rewrite !seg_compare_starts by auto. eexists. split; [reflexivity|].
  assert (Z0 : forall k c, orientation (new_seg k w c) w = 0%Z).
  { intros k c. apply (sign_of_eq _ 0%Z (turn w c w) 0); [apply orientation_turn|right; left; auto|unfold turn; ring]. }
  rewrite !Z0. cbn [negb Z.eqb].
  assert (K : orientation (new_seg i w a2) b2 = (- orientation (new_seg j w b2) a2)%Z).
  { apply (sign_of_eq _ _ (turn w a2 b2) (- turn w b2 a2)); [apply orientation_turn|apply sign_of_opp, orientation_turn|unfold turn; ring]. }
  rewrite K. destruct (Z.eqb_spec (orientation (new_seg j w b2) a2) 0) as [F|F]; cbn [negb].
  - rewrite F. cbn. f_equal. lia.
  - destruct (Z.eqb_spec (- orientation (new_seg j w b2) a2) 0); [lia|]. reflexivity.
Qed.
(* a segment that ends at the sweep point is both below and above one that starts there *)
Lemma seg_compare_both w i j a2 b1 b2 : (i < j)%Z -> p_id w <> p_id b1 -> p_x b2 = p_x w -> p_y b2 = p_y w -> proper b1 b2 -> 0 < turn b1 b2 a2 ->
  seg_compare w (new_seg i w a2) (new_seg j b1 b2) = Ok 1%Z /\ exists x, seg_compare w (new_seg j b1 b2) (new_seg i w a2) = Ok x /\ (0 < x)%Z.
Proof.
  intros IJ W X Y B T. assert (A : proper w a2).
  { unfold proper. destruct (Qc_eq_dec (p_x w) (p_x a2)) as [E|E]; [|left; exact E]. right. intro F. unfold turn in T. rewrite <- E, <- F, X, Y in T. apply Qclt_not_eq in T. apply T. ring. }
  rewrite seg_compare_starts, seg_compare_other by (auto; lia).
  assert (E1 : orientation (new_seg j b1 b2) w = 0%Z).
  { apply (sign_of_eq _ 0%Z (turn b1 b2 w) 0); [apply orientation_turn|right; left; auto|unfold turn; rewrite X, Y; ring]. }
  assert (E2 : orientation (new_seg j b1 b2) a2 = 1%Z).
  { apply (sign_of_eq _ 1%Z (turn b1 b2 a2) (turn b1 b2 a2)); [apply orientation_turn|left; auto|reflexivity]. }
  assert (E3 : orientation (new_seg i w a2) b2 = 0%Z).
  { apply (sign_of_eq _ 0%Z (turn w a2 b2) 0); [apply orientation_turn|right; left; auto|unfold turn; rewrite X, Y; ring]. }
  rewrite E1, E2, E3. cbn [negb Z.eqb]. split; [reflexivity|]. eexists. split; [reflexivity|]. lia.
Qed.
Lemma seg_compare_raises w a b : p_id w <> p_id (s_p1 a) -> p_id w <> p_id (s_p1 b) -> s_id a <> s_id b -> seg_compare w a b = Err ValueError.
Proof.
  intros A B C. unfold seg_compare. destruct (Z.eqb_spec (s_id a) (s_id b)); [congruence|]. destruct (Z.eqb_spec (p_id w) (p_id (s_p1 a))); [congruence|].
  destruct (Z.eqb_spec (p_id w) (p_id (s_p1 b))); [congruence|]. reflexivity.
Qed.

(* segments that start at the sweep point and go on from there are ordered *)
Lemma bundle_value w i j a2 b2 : i <> j -> before w a2 -> before w b2 ->
  exists x, seg_compare w (new_seg i w a2) (new_seg j w b2) = Ok x /\
    ((0 < x)%Z <-> 0 < turn w b2 a2 \/ turn w b2 a2 = 0 /\ (j < i)%Z).
Proof.
  intros IJ A B. assert (PA : forall c, before w c -> proper w c).
  { intros c [H|[_ H]]; [left|right]; now apply Qclt_not_eq. }
  rewrite seg_compare_starts by auto. eexists. split; [reflexivity|].
  assert (E1 : orientation (new_seg j w b2) w = 0%Z).
  { apply (sign_of_eq _ 0%Z (turn w b2 w) 0); [apply orientation_turn|right; left; auto|unfold turn; ring]. }
  rewrite E1. cbn [negb Z.eqb]. destruct (orientation_turn j w b2 a2) as [[-> H]|[[-> H]|[-> H]]]; cbn [negb Z.eqb].
  - split; intro; [left; exact H|lia].
  - split; [intro; right; split; [exact H|lia]|]. intros [G|[_ G]]; [|lia]. rewrite H in G. exfalso. now apply Qclt_not_eq in G.
  - split; [lia|]. intros [G|[G _]]; exfalso; qlra.
Qed.
Lemma turn_trans w a b c : before w a -> before w b -> before w c ->
  (0 <= turn w b a -> 0 <= turn w c b -> 0 <= turn w c a) /\ (0 <= turn w b a -> 0 <= turn w c b -> turn w c a = 0 -> turn w b a = 0 /\ turn w c b = 0).
Proof.
  unfold turn, before. set (ax := p_x a - p_x w). set (ay := p_y a - p_y w). set (bx := p_x b - p_x w). set (by_ := p_y b - p_y w).
  set (cx := p_x c - p_x w). set (cy := p_y c - p_y w). intros A B C.
  assert (A' : 0 < ax \/ ax = 0 /\ 0 < ay) by (unfold ax, ay; destruct A as [A|[A1 A2]]; [left; qlra|right; split; [rewrite A1; ring|qlra]]).
  assert (B' : 0 < bx \/ bx = 0 /\ 0 < by_) by (unfold bx, by_; destruct B as [A1|[A1 A2]]; [left; qlra|right; split; [rewrite A1; ring|qlra]]).
  assert (C' : 0 < cx \/ cx = 0 /\ 0 < cy) by (unfold cx, cy; destruct C as [A1|[A1 A2]]; [left; qlra|right; split; [rewrite A1; ring|qlra]]).
  clearbody ax ay bx by_ cx cy. clear A B C a b c w.
  (* bx * (c x a) = cx * (b x a) + ax * (c x b); by likewise *)
  assert (I1 : bx * (cx * ay - cy * ax) = cx * (bx * ay - by_ * ax) + ax * (cx * by_ - cy * bx)) by ring.
  assert (I2 : by_ * (cx * ay - cy * ax) = cy * (bx * ay - by_ * ax) + ay * (cx * by_ - cy * bx)) by ring.
  set (ca := cx * ay - cy * ax) in *. set (ba := bx * ay - by_ * ax) in *. set (cb := cx * by_ - cy * bx) in *.
  assert (M : forall k x, 0 < k -> 0 <= k * x -> 0 <= x).
  { intros k x K H. apply Qcnot_lt_le. intro N. assert (k * x < 0) by qnra. qlra. }
  assert (P : forall k x, 0 <= k -> 0 <= x -> 0 <= k * x) by (intros k x K H; qnra).
  assert (S0 : forall k x, 0 < k -> 0 <= x -> k * x = 0 -> x = 0).
  { intros k x K H E. apply Qcle_antisym; [|exact H]. apply Qcnot_lt_le. intro N. assert (0 < k * x) by qnra. qlra. }
  assert (XA : 0 <= ax) by (destruct A' as [H|[-> _]]; [qlra|apply Qcle_refl]).
  assert (XC : 0 <= cx) by (destruct C' as [H|[-> _]]; [qlra|apply Qcle_refl]).
  destruct B' as [B'|[B1 B2]].
  - split.
    + intros H1 H2. apply (M bx); auto. rewrite I1. pose proof (P cx ba XC H1). pose proof (P ax cb XA H2). qlra.
    + intros H1 H2 E. rewrite E in I1. pose proof (P cx ba XC H1) as Q1. pose proof (P ax cb XA H2) as Q2.
      assert (Z1 : cx * ba = 0) by (apply Qcle_antisym; qlra). assert (Z2 : ax * cb = 0) by (apply Qcle_antisym; qlra).
      destruct C' as [C'|[C1 C2]]; [|].
      * assert (ba = 0) by (apply (S0 cx); auto). destruct A' as [A'|[A1 A2]]; [split; auto; apply (S0 ax); auto|].
        exfalso. unfold ba in H. rewrite A1 in H. assert (0 < bx * ay) by qnra. qlra.
      * exfalso. unfold cb in H2. rewrite C1 in H2. assert (0 < cy * bx) by qnra. qlra.
  - (* b straight up: c must be straight up as well, and a too for equality *)
    assert (B0 : ba = - (by_ * ax)) by (unfold ba; rewrite B1; ring). assert (C0 : cb = cx * by_) by (unfold cb; rewrite B1; ring).
    split.
    + intros H1 H2. assert (AX : ax = 0) by (apply Qcle_antisym; [|exact XA]; apply Qcnot_lt_le; intro N; assert (0 < by_ * ax) by qnra; qlra).
      assert (AY : 0 < ay) by (destruct A' as [A'|[_ A2]]; [exfalso; rewrite AX in A'; now apply Qclt_not_eq in A'|exact A2]).
      unfold ca. rewrite AX. pose proof (P cx ay XC (Qclt_le_weak _ _ AY)). qlra.
    + intros H1 H2 E. assert (AX : ax = 0) by (apply Qcle_antisym; [|exact XA]; apply Qcnot_lt_le; intro N; assert (0 < by_ * ax) by qnra; qlra).
      assert (AY : 0 < ay) by (destruct A' as [A'|[_ A2]]; [exfalso; rewrite AX in A'; now apply Qclt_not_eq in A'|exact A2]).
      unfold ca in E. rewrite AX in E. assert (CX : cx = 0) by (apply (S0 ay); auto; qlra).
      rewrite B0, C0, AX, CX. split; ring.
Qed.
Lemma bundle_order w i j k a b c x y z : before w a -> before w b -> before w c -> i <> j -> j <> k -> i <> k ->
  seg_compare w (new_seg i w a) (new_seg j w b) = Ok x -> seg_compare w (new_seg j w b) (new_seg k w c) = Ok y ->
  seg_compare w (new_seg i w a) (new_seg k w c) = Ok z -> (0 < x)%Z -> (0 < y)%Z -> (0 < z)%Z.
Proof.
  intros A B C IJ JK IK HX HY HZ X Y.
  destruct (bundle_value w i j a b IJ A B) as [x' [E1 F1]]. rewrite HX in E1. injection E1 as <-.
  destruct (bundle_value w j k b c JK B C) as [y' [E2 F2]]. rewrite HY in E2. injection E2 as <-.
  destruct (bundle_value w i k a c IK A C) as [z' [E3 F3]]. rewrite HZ in E3. injection E3 as <-.
  apply F3. apply F1 in X. apply F2 in Y. destruct (turn_trans w a b c A B C) as [T1 T2].
  assert (X0 : 0 <= turn w b a) by (destruct X as [X|[-> _]]; [now apply Qclt_le_weak|apply Qcle_refl]).
  assert (Y0 : 0 <= turn w c b) by (destruct Y as [Y|[-> _]]; [now apply Qclt_le_weak|apply Qcle_refl]).
  specialize (T1 X0 Y0). destruct (Qc_eq_dec (turn w c a) 0) as [E|E].
  - destruct (T2 X0 Y0 E) as [G1 G2]. right. split; [exact E|]. destruct X as [X|[_ X]]; [exfalso; rewrite G1 in X; now apply Qclt_not_eq in X|].
    destruct Y as [Y|[_ Y]]; [exfalso; rewrite G2 in Y; now apply Qclt_not_eq in Y|]. lia.
  - left. destruct (Qcle_lt_or_eq _ _ T1) as [L|L]; [exact L|]. congruence.
Qed.
