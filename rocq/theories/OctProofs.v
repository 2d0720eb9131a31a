(* Lemmas for OctProps.v. *)
From Coq Require Import List Arith ZArith Bool QArith Qround Qcanon Lia.
From Verif Require Import Common QcLib SumLib AabbModel OctModel OctSpec DacProofs.
Import ListNotations.
Local Open Scope Qc_scope.

(* ---- rounding ---- *)
Lemma half_two x : x * half + x * half = x.
Proof. assert (E : half + half = 1) by (apply Qc_is_canon; reflexivity). replace (x * half + x * half) with (x * (half + half)) by ring. rewrite E. ring. Qed.
Lemma half_val : half + half = 1 /\ 0 < half.
Proof. split; [apply Qc_is_canon; reflexivity|apply qlt_true; reflexivity]. Qed.
Lemma floor_spec x : zq (Qfloor (this x)) <= x /\ x < zq (Qfloor (this x)) + 1.
Proof.
  split; [apply qc_le_Q; unfold zq; rewrite this_Q2Qc; apply Qfloor_le|]. apply qc_lt_Q. rewrite this_add, this_1. unfold zq. rewrite this_Q2Qc. pose proof (Qlt_floor (this x)) as H. rewrite inject_Z_plus in H. exact H.
Qed.
Lemma zq_one : zq 1 = 1.
Proof. reflexivity. Qed.
Lemma zq_lt_iff a b : zq a < zq b <-> (a < b)%Z.
Proof.
  split; intros H.
  - destruct (Z.lt_ge_cases a b) as [L|L]; [exact L|]. apply zq_le in L. qlra.
  - assert (L : (a + 1 <= b)%Z) by lia. apply zq_le in L. rewrite zq_add in L. change (zq 1) with 1 in L. qlra.
Qed.
Lemma round_near x : x - half <= zq (round_even x) /\ zq (round_even x) <= x + half.
Proof.
  unfold round_even. destruct (floor_spec x) as [A B]. pose proof half_val as [E P]. destruct (qlt (x - zq (Qfloor (this x))) half) eqn:C; [apply qlt_true in C; split; qlra|apply qlt_false in C]. destruct (qlt half (x - zq (Qfloor (this x)))) eqn:D; [apply qlt_true in D|apply qlt_false in D]; rewrite ?zq_add, ?zq_one; [split; qlra|]. destruct (Z.even _); rewrite ?zq_add, ?zq_one; split; qlra.
Qed.
Lemma round_nonneg x : 0 <= x -> (0 <= round_even x)%Z.
Proof.
  intros H. destruct (round_near x) as [A _]. pose proof half_val as [E P]. assert (L : zq (-1) < zq (round_even x)). { assert (zq (-1) = - (1)) as -> by reflexivity. qlra. } apply (proj1 (zq_lt_iff _ _)) in L. 
 lia.
Qed.
Lemma round_small x : 0 <= x -> x <= half -> round_even x = 0%Z.
Proof.
  intros H1 H2. unfold round_even. destruct (floor_spec x) as [A B]. pose proof half_val as [E P]. assert (F : Qfloor (this x) = 0%Z). { assert (-1 < Qfloor (this x))%Z by (apply (proj1 (zq_lt_iff _ _)); assert (zq (-1) = - (1)) as -> by reflexivity; qlra). assert (Qfloor (this x) < 1)%Z by (apply (proj1 (zq_lt_iff _ _)); rewrite zq_one; qlra). lia. }
  rewrite F. change (zq 0) with 0. destruct (qlt (x - 0) half) eqn:C; [reflexivity|]. apply qlt_false in C. destruct (qlt half (x - 0)) eqn:D; [apply qlt_true in D; qlra|reflexivity].
Qed.
Definition u4 : Qc := Q2Qc (1 # 20000).
Lemma u4_val : zq 10000 * (u4 + u4) = 1 /\ 0 < u4 /\ zq 10000 * u4 = half /\ 0 < zq 10000.
Proof. split; [apply Qc_is_canon; reflexivity|]. split; [apply qlt_true; reflexivity|]. split; [apply Qc_is_canon; reflexivity|apply qlt_true; reflexivity]. Qed.
Lemma div_u4 x : x / zq 10000 = x * (u4 + u4).
Proof. destruct u4_val as [E [_ [_ P]]]. assert (zq 10000 <> 0) by (intros K; rewrite K in P; revert P; apply Qclt_not_eq || (intros P; apply (Qclt_not_eq _ _ P); reflexivity)). replace (x * (u4 + u4)) with (x * (zq 10000 * (u4 + u4)) / zq 10000) by (field; assumption). rewrite E. field. assumption. Qed.
Lemma round4_spec x : 0 <= x -> exists z, (0 <= z)%Z /\ round4 x = zq z * (u4 + u4) /\ x - u4 <= round4 x /\ round4 x <= x + u4 /\ (x <= u4 -> z = 0%Z).
Proof.
  intros H. destruct u4_val as [E [P [G Q]]]. exists (round_even (x * zq 10000)). assert (N : 0 <= x * zq 10000) by qnra. split; [apply round_nonneg, N|]. split; [apply div_u4|]. unfold round4. rewrite div_u4. destruct (round_near (x * zq 10000)) as [A B]. set (r := zq (round_even (x * zq 10000))) in *. set (n := zq 10000) in *. split; [|split].
  - replace (x - u4) with ((x * n - half) * (u4 + u4)). + qnra. + rewrite <- G. replace ((x * n - n * u4) * (u4 + u4)) with (x * (n * (u4 + u4)) - u4 * (n * (u4 + u4))) by ring. rewrite E. ring.
  - replace (x + u4) with ((x * n + half) * (u4 + u4)). + qnra. + rewrite <- G. replace ((x * n + n * u4) * (u4 + u4)) with (x * (n * (u4 + u4)) + u4 * (n * (u4 + u4))) by ring. rewrite E. ring.
  - intros L. apply round_small; [exact N|]. rewrite <- G. qnra.
Qed.
(* the centre is in the box *)
Lemma mid_between lo hi : lo <= hi -> lo <= lo + round4 (hi - lo) * half /\ lo + round4 (hi - lo) * half <= hi.
Proof.
  intros H. destruct (round4_spec (hi - lo)) as [z [Z [R [A [B C]]]]]; [qlra|]. destruct u4_val as [_ [P _]]. pose proof half_val as [E Ph]. pose proof (half_two (round4 (hi - lo))) as T. assert (N : 0 <= round4 (hi - lo)) by (rewrite R; assert (0 <= zq z) by (apply (zq_le 0 z); exact Z); qnra). split; [qlra|].
  destruct (qle (hi - lo) u4) eqn:D; [apply qle_true in D|apply qle_false in D; qlra]. rewrite (C D) in R. change (zq 0) with 0 in R. rewrite R. qlra.
Qed.
Lemma center_within b : proper b -> within b (center b).
Proof. intros [A [B C]]. unfold within, center, dims. cbn [vx vy vz fst snd]. pose proof (mid_between _ _ A) as [A1 A2]. pose proof (mid_between _ _ B) as [B1 B2]. pose proof (mid_between _ _ C) as [C1 C2]. cbn [vx vy vz fst snd] in *. unfold vx, vy, vz in *. cbn [fst snd]. tauto. Qed.

(* ---- division ---- *)
Ltac boxes := unfold within, inside, proper in *; cbn [fst snd vx vy vz] in *; unfold vx, vy, vz in *; cbn [fst snd] in *.
Definition division (b : box3) (l : list box3) : Prop := l <> [] /\ tile b l /\ Forall proper l.
Lemma tile_intro b l : (forall x, In x l -> forall p, within x p -> within b p) -> (forall p, within b p -> Exists (fun x => within x p) l) -> ForallOrdPairs apart l -> tile b l.
Proof. intros A B C. split; [|exact C]. intros p. split; [intros H; apply Exists_exists, B, H|intros [x [X W]]; exact (A x X p W)]. Qed.
Ltac ex := first [left; boxes; tauto | right; ex].
Lemma division_ok b c : proper b -> within b c -> forall l, In l [divide X (fst b) (snd b) c; divide Y (fst b) (snd b) c; divide Z_ (fst b) (snd b) c; divide_two X (fst b) (snd b) c; divide_two Y (fst b) (snd b) c; divide_two Z_ (fst b) (snd b) c; divide_xyz (fst b) (snd b) c] -> division b l.
Proof.
  destruct b as [[[x0 y0] z0] [[x1 y1] z1]], c as [[cx cy] cz]. intros P C l L. unfold divide, divide_two, divide_xyz in L. boxes. destruct P as [P1 [P2 P3]]. destruct C as [C1 [C2 [C3 [C4 [C5 C6]]]]].
  assert (A : forall l, l <> [] -> (forall x, In x l -> forall p, within x p -> within (x0, y0, z0, (x1, y1, z1)) p) -> (forall p, within (x0, y0, z0, (x1, y1, z1)) p -> Exists (fun x => within x p) l) -> ForallOrdPairs apart l -> Forall proper l -> division (x0, y0, z0, (x1, y1, z1)) l) by (intros; split; [assumption|split; [apply tile_intro; assumption|assumption]]).
  assert (T : forall a b, a <= b \/ b <= a) by (intros a b; destruct (qle a b) eqn:E; [left; apply qle_true, E|right; apply qle_false in E; qlra]).
  repeat (destruct L as [<-|L]); [| | | | | | |destruct L]; (apply A; [discriminate| | | |]).
  all: try (intros x I [[px py] pz]; repeat (destruct I as [<-|I]; [boxes; intros [H1 [H2 [H3 [H4 [H5 H6]]]]]; repeat split; qlra|]); destruct I).
  all: try (intros [[px py] pz] W; boxes; destruct W as [W1 [W2 [W3 [W4 [W5 W6]]]]]; destruct (T px cx) as [Tx|Tx], (T py cy) as [Ty|Ty], (T pz cz) as [Tz|Tz]; ex).
  all: try (repeat (apply Forall_cons; [boxes; tauto|]); apply Forall_nil).
  all: repeat (apply FOP_cons; [repeat (apply Forall_cons; [intros [[px py] pz]; boxes; split; intros [[H1 [H2 [H3 [H4 [H5 H6]]]]] [K1 [K2 [K3 [K4 [K5 K6]]]]]]; qlra|]); apply Forall_nil|]); apply FOP_nil.
Qed.
Lemma option_division b target l : proper b -> find_division_option (fst b) (snd b) (center b) (dims b) target = Some l -> division b l.
Proof.
  intros P H. apply (division_ok b (center b) P (center_within b P)). unfold find_division_option in H. cbn [In]. destruct (qlt (vx target) (vx (dims b))), (qlt (vy target) (vy (dims b))), (qlt (vz target) (vz (dims b))); try discriminate; injection H as <-; tauto.
Qed.
