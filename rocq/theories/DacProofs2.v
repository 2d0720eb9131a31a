(* The searches in several variables, bisection: proofs. *)
From Coq Require Import List Arith ZArith Bool QArith Qcanon Lia Lqa.
From Verif Require Import Common ListLib QcLib SumLib BezModel BezProofs BezProofs2 DacModel DacSpec DacProofs.
Import ListNotations.
Open Scope Qc_scope.

Lemma stops_all b tol : existsb (fun lh => qlt tol (snd lh - fst lh)) b = false -> Forall (fun lh => snd lh - fst lh <= tol) b.
Proof.
  induction b as [|lh b IH]; cbn [existsb]; intro E; constructor; apply orb_false_iff in E; destruct E as [E1 E2]; auto. apply qlt_false in E1. auto.
Qed.

(* ---- 2d, towards a centre ---- *)
Lemma near_grid x0 x1 a : x0 <= a -> a <= x1 -> exists g, (g = x0 \/ g = middle (x0, x1) \/ g = x1) /\ g - (x1 - x0) / q4 <= a /\ a <= g + (x1 - x0) / q4.
Proof.
  intros A B. unfold middle. cbn [fst snd]. qd. destruct (Qclt_le_dec a (x0 + (x1 - x0) * Q2Qc (1 # 4))) as [C|C].
  - exists x0. split; auto. split; qlra.
  - destruct (Qclt_le_dec a (x1 - (x1 - x0) * Q2Qc (1 # 4))) as [D|D].
    + exists ((x0 + x1) * Q2Qc (1 # 2)). split; auto. split; qlra.
    + exists x1. split; auto. split; qlra.
Qed.
Lemma not_near_is_farther x0 x1 a g c : x0 <= x1 -> g - (x1 - x0) / q4 <= a -> a <= g + (x1 - x0) / q4 ->
  ~ (c - (x1 - x0) / q4 <= a /\ a <= c + (x1 - x0) / q4) -> nearer a g c.
Proof.
  intros L A B N. unfold nearer. set (w := (x1 - x0) / q4) in *. assert (W : 0 <= w) by (unfold w; qd; qlra). clearbody w.
  assert (E : (c - a) * (c - a) - (g - a) * (g - a) = (c - g) * ((c - a) + (g - a))) by ring.
  destruct (Qclt_le_dec a (c - w)) as [C|C].
  - assert (0 < ((c - a) - (g - a)) * ((c - a) + (g - a))) by (apply qc_mul_pos; qlra). qlra.
  - destruct (Qclt_le_dec (c + w) a) as [D|D]; [|exfalso; apply N; split; qlra].
    assert (0 < ((a - c) - (a - g)) * ((a - c) + (a - g))) by (apply qc_mul_pos; qlra). qlra.
Qed.
Lemma window_contains c x0 x1 r0 r1 a : r0 <= a -> a <= r1 -> c - (x1 - x0) / q4 <= a -> a <= c + (x1 - x0) / q4 ->
  py_max (c - (x1 - x0) / q4) r0 <= a /\ a <= py_min (c + (x1 - x0) / q4) r1.
Proof.
  intros A B C D. destruct (py_max_spec (c - (x1 - x0) / q4) r0) as [_ [_ [->| ->]]]; destruct (py_min_spec (c + (x1 - x0) / q4) r1) as [_ [_ [->| ->]]]; auto.
Qed.
Lemma cands_2d_in x0 x1 y0 y1 gx gy : (gx = x0 \/ gx = middle (x0, x1) \/ gx = x1) -> (gy = y0 \/ gy = middle (y0, y1) \/ gy = y1) -> In [gx; gy] (cands_2d [(x0, x1); (y0, y1)]).
Proof. intros [->|[->| ->]] [->|[->| ->]]; cbn [cands_2d]; cbn zeta; cbn [In]; tauto. Qed.
Lemma cands_2d_inv x0 x1 y0 y1 c : In c (cands_2d [(x0, x1); (y0, y1)]) -> exists gx gy, c = [gx; gy] /\ (gx = x0 \/ gx = middle (x0, x1) \/ gx = x1) /\ (gy = y0 \/ gy = middle (y0, y1) \/ gy = y1).
Proof. cbn [cands_2d]. cbn zeta. cbn [In]. intro I. repeat destruct I as [<-|I]; try destruct I; do 2 eexists; (split; [reflexivity|]); auto. Qed.
Lemma min_2d_bowl f x0 x1 y0 y1 tol a b : 0 < tol -> x0 <= a -> a <= x1 -> y0 <= b -> b <= y1 -> bowl f a b ->
  exists n, forall fuel, (n < fuel)%nat -> exists x y, min_2d fuel f [(x0, x1); (y0, y1)] tol = Ok [x; y] /\
    a - tol / q2 <= x /\ x <= a + tol / q2 /\ b - tol / q2 <= y /\ y <= b + tol / q2.
Proof.
  intros HT A1 A2 B1 B2 [F1 F2]. set (range := [(x0, x1); (y0, y1)]).
  set (I := fun bx : box => exists u0 u1 v0 v1, bx = [(u0, u1); (v0, v1)] /\ u0 <= a /\ a <= u1 /\ v0 <= b /\ b <= v1).
  destruct (search_thm cands_2d f range tol I HT) as [n H].
  - repeat constructor; cbn; qlra.
  - apply good_2d.
  - exists x0, x1, y0, y1. auto 6.
  - intros bx c SB [u0 [u1 [v0 [v1 [-> [U1 [U2 [V1 V2]]]]]]]] _ IC _ MIN. destruct (cands_2d_inv _ _ _ _ _ IC) as [gx [gy [-> [GX GY]]]].
    unfold range. cbn [window].
    assert (NX : gx - (u1 - u0) / q4 <= a /\ a <= gx + (u1 - u0) / q4).
    { destruct (near_grid u0 u1 a U1 U2) as [g [G [N1 N2]]]. assert (LL : u0 <= u1) by qlra.
      destruct (Qclt_le_dec a (gx - (u1 - u0) / q4)) as [C|C]; [|destruct (Qclt_le_dec (gx + (u1 - u0) / q4) a) as [D|D]; [|auto]];
      exfalso; (assert (NE : nearer a g gx) by (apply (not_near_is_farther u0 u1); auto; intros [? ?]; qlra));
      apply (Qclt_not_le _ _ (F1 g gx gy NE)); apply MIN; apply cands_2d_in; auto. }
    assert (NY : gy - (v1 - v0) / q4 <= b /\ b <= gy + (v1 - v0) / q4).
    { destruct (near_grid v0 v1 b V1 V2) as [g [G [N1 N2]]]. assert (LL : v0 <= v1) by qlra.
      destruct (Qclt_le_dec b (gy - (v1 - v0) / q4)) as [C|C]; [|destruct (Qclt_le_dec (gy + (v1 - v0) / q4) b) as [D|D]; [|auto]];
      exfalso; (assert (NE : nearer b g gy) by (apply (not_near_is_farther v0 v1); auto; intros [? ?]; qlra));
      apply (Qclt_not_le _ _ (F2 gx g gy NE)); apply MIN; apply cands_2d_in; auto. }
    destruct NX as [NX1 NX2]. destruct NY as [NY1 NY2].
    destruct (window_contains gx u0 u1 x0 x1 a A1 A2 NX1 NX2) as [X1 X2]. destruct (window_contains gy v0 v1 y0 y1 b B1 B2 NY1 NY2) as [Y1 Y2].
    do 4 eexists. split; [reflexivity|]. auto.
  - exists n. intros fuel F. destruct (H fuel F) as [b' [E [SB [[u0 [u1 [v0 [v1 [-> [U1 [U2 [V1 V2]]]]]]]] ST]]]]. apply stops_all in ST.
    inversion ST as [|? ? S1 S2]; subst. inversion S2 as [|? ? S3 _]; subst. cbn [fst snd] in *. exists (middle (u0, u1)), (middle (v0, v1)). split; [exact E|].
    unfold middle. cbn [fst snd]. qd. repeat split; qlra.
Qed.

(* ---- how far the window can still move ---- *)
Lemma reach_hi c lo hi r0 r1 : lo <= c -> c <= hi -> r0 <= lo -> hi <= r1 ->
  let lo' := py_max (c - (hi - lo) / q4) r0 in let hi' := py_min (c + (hi - lo) / q4) r1 in
  hi' + (hi' - lo') / q2 <= hi + (hi - lo) / q2 /\ lo - (hi - lo) / q2 <= lo' - (hi' - lo') / q2.
Proof.
  intros A B C D. cbn zeta. destruct (py_max_spec (c - (hi - lo) / q4) r0) as [P1 [P2 _]]. destruct (py_min_spec (c + (hi - lo) / q4) r1) as [Q1 [Q2 _]]. qd.
  set (l' := py_max _ _) in *. set (h' := py_min _ _) in *. clearbody l' h'. split; qlra.
Qed.

(* a separable valley the 2d search misses *)
Definition steep (x : Qc) : Qc := if qle x (Q2Qc (9 # 20)) then Q2Qc (9 # 20) - x else Q2Qc 100 * (x - Q2Qc (9 # 20)).
Definition missed_2d (p : list Qc) : Qc := match p with [x; y] => steep x + y * y | _ => 0 end.
Definition unit_box (n : nat) : box := repeat (0, 1) n.
Lemma steep_valley : valley steep 0 1 (Q2Qc (9 # 20)).
Proof.
  split; [qlra|]. split; [qlra|]. unfold steep. split; intros x y A B C.
  - destruct (qle x (Q2Qc (9 # 20))) eqn:E1; [|apply qle_false in E1; exfalso; qlra]. destruct (qle y (Q2Qc (9 # 20))) eqn:E2; [qlra|apply qle_false in E2; exfalso; qlra].
  - destruct (qle y (Q2Qc (9 # 20))) eqn:E2; [apply qle_true in E2; exfalso; qlra|]. apply qle_false in E2. destruct (qle x (Q2Qc (9 # 20))) eqn:E1; [apply qle_true in E1; qlra|apply qle_false in E1; qlra].
Qed.
Lemma square_valley : valley (fun y => y * y) 0 1 0.
Proof. split; [qlra|]. split; [qlra|]. split; intros x y A B C; [exfalso; qlra|]. assert (0 < (y - x) * (y + x)) by (apply qc_mul_pos; qlra). qlra. Qed.
Lemma min_2d_misses tol : 0 < tol -> tol < 1 -> exists n, forall fuel, (n < fuel)%nat ->
  exists x y, min_2d fuel missed_2d (unit_box 2) tol = Ok [x; y] /\ x <= Q2Qc (3 # 8).
Proof.
  intros HT HT1. set (I := fun bx : box => bx = unit_box 2 \/ exists u0 u1 v, bx = [(u0, u1); v] /\ u0 <= u1 /\ u1 + (u1 - u0) / q2 <= Q2Qc (3 # 8)).
  destruct (search_thm cands_2d missed_2d (unit_box 2) tol I HT) as [n H].
  - repeat constructor; cbn; qlra.
  - apply good_2d.
  - left; auto.
  - intros bx c SB [->|[u0 [u1 [v [-> [L R]]]]]] _ IC CB MIN; right.
    + assert (c = [0; 0]).
      { assert (M := MIN [0; 0] ltac:(left; reflexivity)). cbn [unit_box repeat cands_2d In] in IC. cbn zeta in IC.
        destruct IC as [<-|IC]; auto. exfalso. repeat destruct IC as [<-|IC]; try destruct IC; apply qle_true in M; vm_compute in M; discriminate M. }
      subst c. do 3 eexists. split; [reflexivity|]. split; apply qle_true; vm_compute; reflexivity.
    + inversion CB as [|cx [lo hi] c' b' CX CR]; subst. inversion CR as [|cy v' c2 b2 CY CZ]; subst. inversion CZ; subst. unfold unit_box. cbn [repeat window]. destruct v as [v0 v1].
      inversion SB as [|? ? ? ? S1 S2]; subst. cbn [fst snd] in *. destruct S1 as [S1a [S1b S1c]]. destruct CX as [C1 C2].
      destruct (reach_hi cx u0 u1 0 1 C1 C2 S1a S1c) as [RH _]. assert (WS : sub_box (window [cx] [(u0, u1)] [(0, 1)]) [(0, 1)]).
      { apply window_sub; repeat constructor; cbn [fst snd]; auto. }
      cbn [window] in WS. inversion WS as [|? ? ? ? W1 _]; subst. cbn [fst snd] in W1. do 3 eexists. split; [reflexivity|]. split; [apply W1|]. eapply Qcle_trans; [exact RH|auto].
  - exists n. intros fuel F. destruct (H fuel F) as [b' [E [SB [IB ST]]]]. destruct IB as [->|[u0 [u1 [v [-> [L R]]]]]].
    + exfalso. apply stops_all in ST. unfold unit_box in ST. cbn [repeat] in ST. inversion ST as [|? ? S1 _]; subst. cbn [fst snd] in S1. qlra.
    + exists (middle (u0, u1)), (middle v). split; [exact E|]. unfold middle. cbn [fst snd]. qd. qlra.
Qed.

(* ---- 3d: the grid has holes ---- *)
Definition missed_3d (p : list Qc) : Qc :=
  match p with [x; y; z] => (x - Q2Qc (7 # 16)) * (x - Q2Qc (7 # 16)) + y * y + (z - 1) * (z - 1) | _ => 0 end.
Lemma min_3d_misses tol : 0 < tol -> tol < 1 -> exists n, forall fuel, (n < fuel)%nat ->
  exists x y z, min_3d fuel missed_3d (unit_box 3) tol = Ok [x; y; z] /\ x <= Q2Qc (3 # 8).
Proof.
  intros HT HT1. set (I := fun bx : box => bx = unit_box 3 \/ exists u0 u1 v w, bx = [(u0, u1); v; w] /\ u0 <= u1 /\ u1 + (u1 - u0) / q2 <= Q2Qc (3 # 8)).
  destruct (search_thm cands_3d missed_3d (unit_box 3) tol I HT) as [n H].
  - repeat constructor; cbn; qlra.
  - apply good_3d.
  - left; auto.
  - intros bx c SB [->|[u0 [u1 [v [w [-> [L R]]]]]]] _ IC CB MIN; right.
    + assert (c = [0; 0; 1]).
      { assert (M := MIN [0; 0; 1] ltac:(cbn; auto 20)). cbn [unit_box repeat cands_3d In] in IC. cbn zeta in IC.
        repeat destruct IC as [<-|IC]; auto; try destruct IC; exfalso; apply qle_true in M; vm_compute in M; discriminate M. }
      subst c. do 4 eexists. split; [reflexivity|]. split; apply qle_true; vm_compute; reflexivity.
    + inversion CB as [|cx [lo hi] c' b' CX CR]; subst. inversion CR as [|cy v' c2 b2 CY CZ]; subst. inversion CZ as [|cz w' c3 b3 CW CV]; subst. inversion CV; subst. unfold unit_box. cbn [repeat window]. destruct v as [v0 v1], w as [w0 w1].
      inversion SB as [|? ? ? ? S1 S2]; subst. cbn [fst snd] in *. destruct S1 as [S1a [S1b S1c]]. destruct CX as [C1 C2].
      destruct (reach_hi cx u0 u1 0 1 C1 C2 S1a S1c) as [RH _]. assert (WS : sub_box (window [cx] [(u0, u1)] [(0, 1)]) [(0, 1)]).
      { apply window_sub; repeat constructor; cbn [fst snd]; auto. }
      cbn [window] in WS. inversion WS as [|? ? ? ? W1 _]; subst. cbn [fst snd] in W1. do 4 eexists. split; [reflexivity|]. split; [apply W1|]. eapply Qcle_trans; [exact RH|auto].
  - exists n. intros fuel F. destruct (H fuel F) as [b' [E [SB [IB ST]]]]. destruct IB as [->|[u0 [u1 [v [w [-> [L R]]]]]]].
    + exfalso. apply stops_all in ST. unfold unit_box in ST. cbn [repeat] in ST. inversion ST as [|? ? S1 _]; subst. cbn [fst snd] in S1. qlra.
    + exists (middle (u0, u1)), (middle v), (middle w). split; [exact E|]. unfold middle. cbn [fst snd]. qd. qlra.
Qed.

(* ---- nd: the middle is never looked at ---- *)
Definition off_middle (lh rr : Qc * Qc) : Prop :=
  snd lh + (snd lh - fst lh) / q2 <= fst rr + (snd rr - fst rr) * Q2Qc (3 # 8) \/ snd rr - (snd rr - fst rr) * Q2Qc (3 # 8) <= fst lh - (snd lh - fst lh) / q2.
Definition ends (c : list Qc) (b : box) : Prop := Forall2 (fun v lh => v = fst lh \/ v = snd lh) c b.
Lemma at_corner_ends b : forall k, length k = length b -> ends (at_corner b k) b.
Proof. induction b as [|lh b IH]; intros [|k0 k] L; try discriminate L; [constructor|]. constructor; [cbn; destruct k0; auto|apply IH; cbn in L; lia]. Qed.
Lemma cands_nd_ends b c : length b <> 2%nat -> In c (cands_nd b) -> ends c b.
Proof.
  intros N I. assert (GEN : In c (map (at_corner b) (corners (length b))) -> ends c b).
  { intro J. apply in_map_iff in J. destruct J as [k [<- J]]. apply at_corner_ends. apply corners_len in J. auto. }
  destruct b as [|[x0 x1] [|[y0 y1] [|[z0 z1] [|w b]]]]; try (apply GEN; exact I); [exfalso; apply N; reflexivity|].
  cbn [cands_nd corners map app In] in I. repeat destruct I as [<-|I]; try destruct I; apply at_corner_ends; reflexivity.
Qed.
Lemma window_first c r : ends c r -> proper_box r -> Forall2 off_middle (window c r r) r.
Proof.
  intros E. induction E as [|v lh c r H E IH]; intro P; inversion P as [|? ? P1 P2]; subst; cbn [window]; [constructor|]. destruct lh as [lo hi]. cbn [fst snd] in *. constructor; auto.
  unfold off_middle. cbn [fst snd]. destruct (py_max_spec (v - (hi - lo) / q4) lo) as [A1 [A2 _]]. destruct (py_min_spec (v + (hi - lo) / q4) hi) as [B1 [B2 _]]. qd.
  set (l' := py_max _ _) in *. set (h' := py_min _ _) in *. clearbody l' h'. destruct H as [->| ->]; [left|right]; qlra.
Qed.
Lemma window_later c b r : in_box c b -> sub_box b r -> Forall2 off_middle b r -> Forall2 off_middle (window c b r) r.
Proof.
  intro I. revert r. induction I as [|v lh c b H I IH]; intros r SB O; inversion SB as [|x rr b' r' H2 F]; subst; cbn [window]; [constructor|]. inversion O as [|? ? ? ? O1 O2]; subst.
  destruct lh as [lo hi], rr as [r0 r1]. cbn [fst snd] in *. destruct H as [Ha Hb]. destruct H2 as [Hc [Hd He]]. constructor; [|apply IH; [exact F|assumption]].
  destruct (reach_hi v lo hi r0 r1 Ha Hb Hc He) as [R1 R2]. unfold off_middle in *. cbn [fst snd] in *. destruct O1 as [O1|O1]; [left|right]; eapply Qcle_trans; eauto.
Qed.
Lemma off_middle_mid b r : sub_box b r -> Forall2 off_middle b r -> Forall2 (fun v rr => v <= fst rr + (snd rr - fst rr) * Q2Qc (3 # 8) \/ snd rr - (snd rr - fst rr) * Q2Qc (3 # 8) <= v) (map middle b) r.
Proof.
  intros SB. induction SB as [|lh rr b r H F IH]; intro O; inversion O as [|? ? ? ? O1 O2]; subst; cbn [map]; constructor; auto. destruct lh as [lo hi], rr as [r0 r1]. destruct H as [Ha [Hb Hc]]. unfold off_middle, middle in *. cbn [fst snd] in *. qd.
  destruct O1 as [Hd|Hd]; [left|right]; qlra.
Qed.
Lemma min_nd_misses f range tol : 0 < tol -> proper_box range -> length range <> 2%nat -> Exists (fun lh => tol < snd lh - fst lh) range ->
  exists n, forall fuel, (n < fuel)%nat -> exists x, min_nd fuel f range tol = Ok x /\
    Forall2 (fun v rr => v <= fst rr + (snd rr - fst rr) * Q2Qc (3 # 8) \/ snd rr - (snd rr - fst rr) * Q2Qc (3 # 8) <= v) x range.
Proof.
  intros HT P N2 EX. destruct (search_thm cands_nd f range tol (fun b => b = range \/ Forall2 off_middle b range) HT P (good_nd _)) as [n H].
  - left; auto.
  - intros b c SB [->|O] _ IC CB _; right.
    + apply window_first; auto. apply cands_nd_ends; auto.
    + apply window_later; auto.
  - exists n. intros fuel F. destruct (H fuel F) as [b' [E [SB [[->|O] ST]]]].
    + exfalso. apply stops_all in ST. apply Exists_exists in EX. destruct EX as [lh [I1 I2]]. rewrite Forall_forall in ST. specialize (ST lh I1). qlra.
    + eexists. split; [exact E|]. apply off_middle_mid; auto.
Qed.
Lemma min_nd2_misses f x0 x1 y0 y1 tol : 0 < tol -> x0 <= x1 -> y0 <= y1 -> (tol < x1 - x0 \/ tol < y1 - y0) ->
  exists n, forall fuel, (n < fuel)%nat -> exists x y, min_nd fuel f [(x0, x1); (y0, y1)] tol = Ok [x; y] /\ (x <= x0 + (x1 - x0) / q4 \/ y <= y0 + (y1 - y0) / q4).
Proof.
  intros HT LX LY W. set (range := [(x0, x1); (y0, y1)]).
  destruct (search_thm cands_nd f range tol (fun b => b = range \/ exists u0 u1 v0 v1, b = [(u0, u1); (v0, v1)] /\ u0 <= u1 /\ v0 <= v1 /\ (u1 <= x0 + (x1 - x0) / q4 \/ v1 <= y0 + (y1 - y0) / q4)) HT) as [n H].
  - repeat constructor; auto.
  - apply good_nd.
  - left; auto.
  - assert (STEP : forall u0 u1 v0 v1 c, sub_box [(u0, u1); (v0, v1)] range -> In c (cands_nd [(u0, u1); (v0, v1)]) -> in_box c [(u0, u1); (v0, v1)] ->
      exists s0 s1 t0 t1, window c [(u0, u1); (v0, v1)] range = [(s0, s1); (t0, t1)] /\ s0 <= s1 /\ t0 <= t1 /\ s1 <= u1 /\ t1 <= v1 /\ (s1 <= u0 + (u1 - u0) / q4 \/ t1 <= v0 + (v1 - v0) / q4)).
    { intros u0 u1 v0 v1 c SB IC CB. assert (WS := window_sub c _ _ CB SB). cbn [cands_nd] in IC. cbn zeta in IC. unfold range in WS |- *.
      inversion SB as [|? ? ? ? [S1 [S2 S3]] S4]; subst. inversion S4 as [|? ? ? ? [S5 [S6 S7]] _]; subst. cbn [fst snd] in *.
      repeat destruct IC as [<-|IC]; try destruct IC; cbn [window] in WS |- *; inversion WS as [|? ? ? ? [W1 [W2 W3]] W4]; subst; inversion W4 as [|? ? ? ? [W5 [W6 W7]] _]; subst; cbn [fst snd] in *;
      (do 4 eexists; split; [reflexivity|]; split; [assumption|]; split; [assumption|]);
      match goal with |- py_min ?a ?b <= _ /\ py_min ?c ?d <= _ /\ _ => destruct (py_min_spec a b) as [M1 [M2 _]]; destruct (py_min_spec c d) as [M3 [M4 _]]; set (p := py_min a b) in *; set (q := py_min c d) in *; clearbody p q end;
      unfold middle in *; cbn [fst snd] in *; qd; (split; [qlra|]; split; [qlra|]); [right|right|left|left]; qlra. }
    intros b c SB [->|[u0 [u1 [v0 [v1 [-> [U [V D]]]]]]]] _ IC CB _; right; destruct (STEP _ _ _ _ c SB IC CB) as [s0 [s1 [t0 [t1 [EW [T1 [T2 [T3 [T4 T5]]]]]]]]]; exists s0, s1, t0, t1; (split; [exact EW|]); (split; [auto|]); (split; [auto|]).
    + auto.
    + destruct D as [D|D]; [left|right]; eapply Qcle_trans; eauto.
  - exists n. intros fuel F. destruct (H fuel F) as [b' [E [SB [[->|[u0 [u1 [v0 [v1 [-> [U [V D]]]]]]]] ST]]]].
    + exfalso. apply stops_all in ST. inversion ST as [|? ? S1 S2]; subst. inversion S2 as [|? ? S3 _]; subst. cbn [fst snd] in *. destruct W; qlra.
    + exists (middle (u0, u1)), (middle (v0, v1)). split; [exact E|]. unfold middle. cbn [fst snd]. qd. destruct D; [left|right]; qlra.
Qed.
