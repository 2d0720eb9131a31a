(* Lines, planes and circles of the object API. *)
From Coq Require Import List ZArith Lia Bool QArith Qcanon.
From Verif Require Import Common QcLib ArrZ SumLib NurbsModel DerModel PlnModel ApiModel ApiSpec ApiProofs1 ApiProofs2.
Import ListNotations.
Local Open Scope Z_scope.
Local Open Scope Qc_scope.

Lemma direction_ends l : line_direction l = vsub (line_end l) (line_start l).
Proof. destruct l as [o d|o a b]; cbn; [destruct o as [o1 o2 o3], d as [d1 d2 d3]; unfold vsub, vadd; cbn [vx vy vz]; f_equal; ring|reflexivity]. Qed.
Lemma call_at l t : line_call l t = line_at l t.
Proof. unfold line_call, line_at. rewrite direction_ends. reflexivity. Qed.

(* ---- planes and lines ---- *)

Lemma dot_shift n a b c t : vdot n (vsub (vadd a (vscale t b)) c) = vdot n (vsub a c) + t * vdot n b.
Proof. unfold vdot, vsub, vadd, vscale. cbn [vx vy vz]. ring. Qed.
Lemma plane_line p l : fresh l ->
  match plane_x_line p l with
  | Some q => on_plane p q /\ exists t, in_range l t /\ q = line_at l t
  | None => fabs (vdot (pl_n (ap_array p)) (line_direction l)) <= atol \/ (forall t, in_range l t -> ~ on_plane p (line_at l t))
  end.
Proof.
  intros F. unfold plane_x_line, plane_is_parallel_line. set (n := pl_n (ap_array p)).
  destruct (v3_is_perpendicular n (line_direction l)) eqn:E; cbn [negb].
  - left. apply perp_bound, E.
  - assert (NZ : vdot n (line_direction l) <> 0) by (intros C; rewrite (perp_true _ _ C) in E; discriminate E).
    cbv zeta. rewrite F. set (t := - vdot n (vsub (line_start l) (ap_origin p)) / vdot n (line_direction l)).
    assert (ON : on_plane p (vadd (line_start l) (vscale t (line_direction l)))).
    { unfold on_plane. fold n. rewrite dot_shift. unfold t. field. exact NZ. }
    assert (AT : vadd (line_start l) (vscale t (line_direction l)) = line_at l t) by (rewrite <- call_at; reflexivity).
    assert (UN : forall u, on_plane p (line_at l u) -> u = t).
    { intros u H. unfold on_plane in H. fold n in H. rewrite <- call_at in H. unfold line_call in H. rewrite dot_shift in H.
      unfold t. apply (Qcmult_inj_r_aux) with (1 := NZ) || idtac.
      assert (K : u * vdot n (line_direction l) = - vdot n (vsub (line_start l) (ap_origin p))) by (rewrite <- (Qcplus_0_l (u * _)), <- (Qcplus_opp_r (vdot n (vsub (line_start l) (ap_origin p)))); rewrite <- Qcplus_assoc, (Qcplus_comm (- _)), Qcplus_assoc, H; ring).
      rewrite <- K. field. exact NZ. }
    destruct l as [o d|o a b].
    + split; [exact ON|]. exists t. split; [exact Logic.I|exact AT].
    + destruct (qle 0 t && qle t 1) eqn:R.
      * apply andb_true_iff in R. destruct R as (R1 & R2). apply qle_true in R1, R2. split; [exact ON|]. exists t. split; [split; assumption|exact AT].
      * right. intros u (U1 & U2) H. apply UN in H. subst u. apply andb_false_iff in R. destruct R as [R|R]; apply qle_false in R; qlra.
Qed.
Lemma vsub0 a b : vsub a b = v30 -> a = b.
Proof.
  intros E. apply v3_ext; [apply (f_equal vx) in E|apply (f_equal vy) in E|apply (f_equal vz) in E]; unfold vsub in E; cbn [vx vy vz v30] in E; qlra.
Qed.
Lemma parallel_multiple u d : d <> v30 -> vcross u d = v30 -> exists k, u = vscale k d.
Proof.
  intros N C. apply vdot_pos in N. assert (NZ : vdot d d <> 0) by (intros E; rewrite E in N; discriminate N).
  exists (vdot u d / vdot d d). set (k := vdot u d / vdot d d).
  assert (K : k * vdot d d = vdot u d) by (unfold k; field; exact NZ). clearbody k.
  pose proof (f_equal vx C) as C1. pose proof (f_equal vy C) as C2. pose proof (f_equal vz C) as C3.
  destruct u as [u1 u2 u3], d as [d1 d2 d3]. unfold vcross, vdot, vscale in *. cbn [vx vy vz v30] in *.
  assert (M : forall x y, (d1 * d1 + d2 * d2 + d3 * d3) * x = (d1 * d1 + d2 * d2 + d3 * d3) * y -> x = y).
  { intros x y H. assert (Z : (d1 * d1 + d2 * d2 + d3 * d3) * (x - y) = 0) by (replace ((d1 * d1 + d2 * d2 + d3 * d3) * (x - y)) with ((d1 * d1 + d2 * d2 + d3 * d3) * x - (d1 * d1 + d2 * d2 + d3 * d3) * y) by ring; rewrite H; ring).
    apply Qcmult_integral in Z. destruct Z as [Z|Z]; [contradiction|qlra]. }
  assert (A1 : u2 * d3 = u3 * d2) by qlra. assert (A2 : u3 * d1 = u1 * d3) by qlra. assert (A3 : u1 * d2 = u2 * d1) by qlra.
  f_equal; apply M.
  - replace ((d1 * d1 + d2 * d2 + d3 * d3) * (k * d1)) with (k * (d1 * d1 + d2 * d2 + d3 * d3) * d1) by ring. rewrite K.
    replace ((d1 * d1 + d2 * d2 + d3 * d3) * u1) with (u1 * d1 * d1 + u1 * d2 * d2 + u1 * d3 * d3) by ring. rewrite A3, <- A2. ring.
  - replace ((d1 * d1 + d2 * d2 + d3 * d3) * (k * d2)) with (k * (d1 * d1 + d2 * d2 + d3 * d3) * d2) by ring. rewrite K.
    replace ((d1 * d1 + d2 * d2 + d3 * d3) * u2) with (u2 * d1 * d1 + u2 * d2 * d2 + u2 * d3 * d3) by ring. rewrite <- A3, A1. ring.
  - replace ((d1 * d1 + d2 * d2 + d3 * d3) * (k * d3)) with (k * (d1 * d1 + d2 * d2 + d3 * d3) * d3) by ring. rewrite K.
    replace ((d1 * d1 + d2 * d2 + d3 * d3) * u3) with (u3 * d1 * d1 + u3 * d2 * d2 + u3 * d3 * d3) by ring. rewrite A2, <- A1. ring.
Qed.
Lemma vdot_0r n : vdot n v30 = 0.
Proof. unfold vdot, v30. cbn [vx vy vz]. ring. Qed.
Lemma plane_line_moved p a b c d q : plane_x_line p (line_set (line_segment a b) c d) = Some q ->
  on_plane p q /\ (on_line (line_set (line_segment a b) c d) q <-> vcross (vsub a c) (vsub d c) = v30).
Proof.
  unfold plane_x_line, plane_is_parallel_line. set (n := pl_n (ap_array p)). cbn [line_set line_segment line_direction line_origin].
  destruct (v3_is_perpendicular n (vsub d c)) eqn:E; cbn [negb]; [discriminate|].
  assert (NZ : vdot n (vsub d c) <> 0) by (intros C; rewrite (perp_true _ _ C) in E; discriminate E).
  cbv zeta. set (t := - vdot n (vsub a (ap_origin p)) / vdot n (vsub d c)).
  destruct (qle 0 t && qle t 1); [|discriminate]. intros H. apply (f_equal (fun o => match o with Some x => x | None => q end)) in H. cbn in H. subst q. split.
  - unfold on_plane. fold n. rewrite dot_shift. unfold t. field. exact NZ.
  - unfold on_line. cbn [line_start line_end]. split.
    + intros (s & H). assert (K : vsub a c = vscale (s - t) (vsub d c)).
      { apply v3_ext; [apply (f_equal vx) in H|apply (f_equal vy) in H|apply (f_equal vz) in H]; unfold vadd, vscale, vsub in *; cbn [vx vy vz] in *.
        - set (e := vx d - vx c) in *. clearbody e. replace ((s - t) * e) with (s * e - t * e) by ring. qlra.
        - set (e := vy d - vy c) in *. clearbody e. replace ((s - t) * e) with (s * e - t * e) by ring. qlra.
        - set (e := vz d - vz c) in *. clearbody e. replace ((s - t) * e) with (s * e - t * e) by ring. qlra. }
      rewrite K. unfold vcross, vscale, v30. cbn [vx vy vz]. f_equal; ring.
    + intros H. destruct (parallel_multiple (vsub a c) (vsub d c)) as (k & K); [|exact H|].
      * intros Z. apply NZ. rewrite Z. apply vdot_0r.
      * exists (k + t). apply v3_ext; [apply (f_equal vx) in K|apply (f_equal vy) in K|apply (f_equal vz) in K]; unfold vadd, vscale, vsub in *; cbn [vx vy vz] in *.
        -- set (e := vx d - vx c) in *. clearbody e. replace ((k + t) * e) with (k * e + t * e) by ring. qlra.
        -- set (e := vy d - vy c) in *. clearbody e. replace ((k + t) * e) with (k * e + t * e) by ring. qlra.
        -- set (e := vz d - vz c) in *. clearbody e. replace ((k + t) * e) with (k * e + t * e) by ring. qlra.
Qed.
Lemma plane_plane p q l : plane_x_plane p q = Some l ->
  ((forall t, on_plane p (line_at l t) /\ on_plane q (line_at l t)) <-> on_plane p v30 /\ on_plane q v30) /\
  vdot (line_direction l) (pl_n (ap_array p)) = 0 /\ vdot (line_direction l) (pl_n (ap_array q)) = 0.
Proof.
  unfold plane_x_plane. destruct (plane_is_parallel p q); cbn [negb]; [discriminate|]. intros E.
  apply (f_equal (fun o => match o with Some x => x | None => l end)) in E. cbn in E. subst l.
  set (n := pl_n (ap_array p)). set (k := pl_n (ap_array q)). cbn [line_direction infinite_line].
  assert (D1 : vdot (vcross n k) n = 0) by (unfold vdot, vcross; cbn [vx vy vz]; ring).
  assert (D2 : vdot (vcross n k) k = 0) by (unfold vdot, vcross; cbn [vx vy vz]; ring).
  split; [|split; assumption].
  assert (A : forall t, line_at (infinite_line (mkv 0 0 0) (vcross n k)) t = vadd v30 (vscale t (vcross n k))) by (intros t; rewrite <- call_at; reflexivity).
  assert (S1 : forall t, vdot n (vsub (vadd v30 (vscale t (vcross n k))) (ap_origin p)) = vdot n (vsub v30 (ap_origin p))) by
    (intros t; rewrite dot_shift; unfold vdot, vcross; cbn [vx vy vz]; ring).
  assert (S2 : forall t, vdot k (vsub (vadd v30 (vscale t (vcross n k))) (ap_origin q)) = vdot k (vsub v30 (ap_origin q))) by
    (intros t; rewrite dot_shift; unfold vdot, vcross; cbn [vx vy vz]; ring).
  unfold on_plane. fold n k. split.
  - intros H. destruct (H 0) as (H1 & H2). rewrite A in H1, H2. rewrite S1 in H1. rewrite S2 in H2. split; assumption.
  - intros (H1 & H2) t. rewrite A, S1, S2. split; assumption.
Qed.
Lemma coplanar_bound p q : plane_is_coplanar p q = true <-> fabs (vdot (pl_n (ap_array p)) (vsub (ap_origin q) (ap_origin p))) < tol10.
Proof.
  unfold plane_is_coplanar. rewrite qlt_true. set (n := pl_n (ap_array p)).
  replace (vdot (ap_origin q) n - vdot (ap_origin p) n) with (vdot n (vsub (ap_origin q) (ap_origin p))) by (unfold vdot, vsub; cbn [vx vy vz]; ring). reflexivity.
Qed.
Lemma coplanar_true p q : on_plane p (ap_origin q) -> plane_is_coplanar p q = true.
Proof. intros H. apply coplanar_bound. unfold on_plane in H. rewrite H. reflexivity. Qed.
Lemma coplanar_same_origin p q : ap_origin p = ap_origin q -> plane_is_coplanar p q = true.
Proof. intros H. apply coplanar_true. unfold on_plane. rewrite H. unfold vdot, vsub. cbn [vx vy vz]. ring. Qed.
Lemma set_origin_keeps p o uvh : plane_evaluate (plane_set_origin p o) uvh = plane_evaluate p uvh.
Proof. reflexivity. Qed.
Lemma set_origin_zero p o : plane_evaluate (plane_set_origin p o) v30 = o <-> o = pl_o (ap_array p).
Proof.
  assert (E : plane_evaluate (plane_set_origin p o) v30 = pl_o (ap_array p)).
  { unfold plane_evaluate, evaluate_plane, plane_set_origin. cbn [ap_array]. destruct (ap_array p) as [a x y n]. cbn [pl_o pl_x pl_y pl_n].
    apply v3_ext; unfold vadd, vscale, v30; cbn [vx vy vz]; ring. }
  rewrite E. split; intros H; symmetry; exact H.
Qed.

(* ---- two lines ---- *)

Lemma line_line_params a b s t : allclose0 (vcross (line_direction a) (line_direction b)) = false ->
  line_at a s = line_at b t -> line_line_intersection a b = (true, Some (- s, - t)).
Proof.
  unfold line_line_intersection, line_at. rewrite !direction_ends.
  set (v := vsub (line_end a) (line_start a)). set (w := vsub (line_end b) (line_start b)). intros NC M. rewrite NC. cbv zeta.
  set (c := vcross v w) in *.
  assert (NZ : vdot c c <> 0).
  { intros Z. apply vdot_self0 in Z. rewrite Z in NC. discriminate NC. }
  assert (K : vsub (line_start a) (line_start b) = vsub (vscale t w) (vscale s v)).
  { apply v3_ext; [apply (f_equal vx) in M|apply (f_equal vy) in M|apply (f_equal vz) in M]; unfold vadd, vsub, vscale in *; cbn [vx vy vz] in *.
    - set (e := t * vx w) in *. set (g := s * vx v) in *. clearbody e g. qlra.
    - set (e := t * vy w) in *. set (g := s * vy v) in *. clearbody e g. qlra.
    - set (e := t * vz w) in *. set (g := s * vz v) in *. clearbody e g. qlra. }
  rewrite K. do 3 f_equal.
  - replace (vdot (vcross (vsub (vscale t w) (vscale s v)) w) c) with (- s * vdot c c) by (unfold c, vdot, vcross, vsub, vscale; cbn [vx vy vz]; ring). field. exact NZ.
  - replace (vdot (vcross (vsub (vscale t w) (vscale s v)) v) c) with (- t * vdot c c) by (unfold c, vdot, vcross, vsub, vscale; cbn [vx vy vz]; ring). field. exact NZ.
Qed.
Lemma line_line_parallel a b : vcross (line_direction a) (line_direction b) = v30 -> line_line_intersection a b = (false, None).
Proof. intros E. unfold line_line_intersection. rewrite <- !direction_ends, E. reflexivity. Qed.

Lemma tsz_t p1 p2 p3 p4 : let c := (vx p2 - vx p1) * (vy p4 - vy p3) - (vy p2 - vy p1) * (vx p4 - vx p3) in
  fst (fst (line_line_tsz p1 p2 p3 p4)) = quo ((vx p3 - vx p1) * (vy p2 - vy p1) - (vy p3 - vy p1) * (vx p2 - vx p1)) c /\
  snd (fst (line_line_tsz p1 p2 p3 p4)) = quo ((vx p3 - vx p1) * (vy p4 - vy p3) - (vy p3 - vy p1) * (vx p4 - vx p3)) c.
Proof. cbv zeta. unfold line_line_tsz. cbn [fst snd]. split; apply f_equal2; ring. Qed.
Lemma quo_some a b : b <> 0 -> quo a b = Some (a / b).
Proof. intros N. unfold quo. rewrite (proj2 (qeq_false b 0) N). reflexivity. Qed.
Lemma quo_none a : quo a 0 = None.
Proof. unfold quo. rewrite (proj2 (qeq_true 0 0) eq_refl). reflexivity. Qed.
Lemma some_inj {A} (x y : A) : Some x = Some y -> x = y.
Proof. intros E. apply (f_equal (fun o => match o with Some z => z | None => x end)) in E. exact E. Qed.
Lemma mul_cancel (c x y : Qc) : c <> 0 -> x * c = y * c -> x = y.
Proof.
  intros N E. assert (Z : (x - y) * c = 0) by (replace ((x - y) * c) with (x * c - y * c) by ring; rewrite E; ring).
  apply Qcmult_integral in Z. destruct Z as [Z|Z]; [qlra|contradiction].
Qed.
Lemma div_eq (n c x : Qc) : c <> 0 -> (n / c = x <-> x * c = n).
Proof. intros N. split; [intros <-; field; exact N|intros <-; field; exact N]. Qed.

(* the two parameters, when the projections are not parallel *)
Lemma tsz_params a b u v h : flat_cross a b <> 0 -> at_height a h -> at_height b h ->
  (fst (fst (line_line_tsz (line_start a) (line_end a) (line_start b) (line_end b))) = Some v /\
   snd (fst (line_line_tsz (line_start a) (line_end a) (line_start b) (line_end b))) = Some u <-> line_at a u = line_at b v).
Proof.
  intros NZ (A1 & A2) (B1 & B2). destruct (tsz_t (line_start a) (line_end a) (line_start b) (line_end b)) as (T & U). cbv zeta in T, U. rewrite T, U.
  unfold flat_cross in NZ. unfold line_at.
  destruct (line_start a) as [x1 y1 z1], (line_end a) as [x2 y2 z2], (line_start b) as [x3 y3 z3], (line_end b) as [x4 y4 z4]. cbn [vx vy vz] in *. subst z1 z2 z3 z4.
  rewrite !quo_some by exact NZ. clear T U. split.
  - intros (E1 & E2). apply some_inj in E1. apply some_inj in E2. apply (div_eq _ _ _ NZ) in E1. apply (div_eq _ _ _ NZ) in E2.
    unfold vadd, vscale, vsub. cbn [vx vy vz]. f_equal; [| |ring].
    + apply (mul_cancel _ _ _ NZ). rewrite !Qcmult_plus_distr_l. rewrite <- !Qcmult_assoc.
      replace (u * ((x2 - x1) * ((x2 - x1) * (y4 - y3) - (y2 - y1) * (x4 - x3)))) with ((x2 - x1) * (u * ((x2 - x1) * (y4 - y3) - (y2 - y1) * (x4 - x3)))) by ring.
      replace (v * ((x4 - x3) * ((x2 - x1) * (y4 - y3) - (y2 - y1) * (x4 - x3)))) with ((x4 - x3) * (v * ((x2 - x1) * (y4 - y3) - (y2 - y1) * (x4 - x3)))) by ring.
      rewrite E1, E2. ring.
    + apply (mul_cancel _ _ _ NZ). rewrite !Qcmult_plus_distr_l. rewrite <- !Qcmult_assoc.
      replace (u * ((y2 - y1) * ((x2 - x1) * (y4 - y3) - (y2 - y1) * (x4 - x3)))) with ((y2 - y1) * (u * ((x2 - x1) * (y4 - y3) - (y2 - y1) * (x4 - x3)))) by ring.
      replace (v * ((y4 - y3) * ((x2 - x1) * (y4 - y3) - (y2 - y1) * (x4 - x3)))) with ((y4 - y3) * (v * ((x2 - x1) * (y4 - y3) - (y2 - y1) * (x4 - x3)))) by ring.
      rewrite E1, E2. ring.
  - intros E. pose proof (f_equal vx E) as X. pose proof (f_equal vy E) as Y. unfold vadd, vscale, vsub in X, Y. cbn [vx vy vz] in X, Y.
    assert (X' : x3 - x1 = u * (x2 - x1) - v * (x4 - x3)) by (set (e := u * (x2 - x1)) in *; set (g := v * (x4 - x3)) in *; clearbody e g; qlra).
    assert (Y' : y3 - y1 = u * (y2 - y1) - v * (y4 - y3)) by (set (e := u * (y2 - y1)) in *; set (g := v * (y4 - y3)) in *; clearbody e g; qlra).
    split; f_equal; apply (div_eq _ _ _ NZ); rewrite X', Y'; ring.
Qed.
Lemma tsz_height a b h : area2 (line_end a) (line_start b) (line_end b) <> 0 -> at_height a h -> at_height b h ->
  snd (line_line_tsz (line_start a) (line_end a) (line_start b) (line_end b)) = Some h.
Proof.
  intros NZ (A1 & A2) (B1 & B2). unfold area2 in NZ. unfold line_line_tsz.
  destruct (line_start a) as [x1 y1 z1], (line_end a) as [x2 y2 z2], (line_start b) as [x3 y3 z3], (line_end b) as [x4 y4 z4]. cbn [vx vy vz] in *. subst z1 z2 z3 z4. cbn [snd].
  rewrite quo_some.
  - f_equal. field. intros C. apply NZ. rewrite <- C. ring.
  - intros C. apply NZ. rewrite <- C. ring.
Qed.
Lemma in01_true t : in01 t = true <-> exists x, t = Some x /\ 0 <= x /\ x <= 1.
Proof.
  unfold in01. destruct t as [x|].
  - rewrite andb_true_iff, !qle_true. split; [intros (A & B); exists x; auto|intros (y & E & A & B); apply some_inj in E; subst y; auto].
  - split; [discriminate|intros (x & E & _); discriminate E].
Qed.
Lemma tsz_defined a b : flat_cross a b <> 0 -> exists v u,
  fst (fst (line_line_tsz (line_start a) (line_end a) (line_start b) (line_end b))) = Some v /\
  snd (fst (line_line_tsz (line_start a) (line_end a) (line_start b) (line_end b))) = Some u.
Proof.
  intros NZ. destruct (tsz_t (line_start a) (line_end a) (line_start b) (line_end b)) as (T & U). cbv zeta in T, U. rewrite T, U. fold (flat_cross a b).
  rewrite !quo_some by exact NZ. eexists. eexists. split; reflexivity.
Qed.
Lemma tsz_undefined a b : flat_cross a b = 0 ->
  fst (fst (line_line_tsz (line_start a) (line_end a) (line_start b) (line_end b))) = None.
Proof. intros Z. destruct (tsz_t (line_start a) (line_end a) (line_start b) (line_end b)) as (T & U). cbv zeta in T, U. rewrite T. fold (flat_cross a b). rewrite Z. apply quo_none. Qed.

(* segments of a plane z = h near zero *)
Lemma cross_flat a b h ok t1 t2 : line_x_line (line_segment (fst a) (snd a)) (line_segment (fst b) (snd b)) = (ok, t1, t2) ->
  vz (fst a) = h -> vz (snd a) = h -> vz (fst b) = h -> vz (snd b) = h -> fabs h <= rtol ->
  area2 (snd a) (fst b) (snd b) <> 0 ->
  (ok = true <-> flat_cross (line_segment (fst a) (snd a)) (line_segment (fst b) (snd b)) <> 0 /\
     exists u v, 0 <= u /\ u <= 1 /\ 0 <= v /\ v <= 1 /\
       line_at (line_segment (fst a) (snd a)) u = line_at (line_segment (fst b) (snd b)) v) /\
  (ok = true -> exists u v, t1 = Some v /\ t2 = Some u /\
       line_at (line_segment (fst a) (snd a)) u = line_at (line_segment (fst b) (snd b)) v).
Proof.
  intros E A1 A2 B1 B2 HT NZ. set (l := line_segment (fst a) (snd a)) in *. set (m := line_segment (fst b) (snd b)) in *.
  assert (HL : at_height l h) by (split; assumption). assert (HM : at_height m h) by (split; assumption).
  pose proof (tsz_height l m h NZ HL HM) as Z. unfold line_x_line in E.
  destruct (line_line_tsz (line_start l) (line_end l) (line_start m) (line_end m)) as [[t s] z] eqn:TS. cbn [fst snd] in Z. subst z.
  change (match m with Infinite _ _ => (near0 (Some h) && in01 t, t, s) | Segment _ _ _ => (near0 (Some h) && (in01 t && in01 s), t, s) end) with (near0 (Some h) && (in01 t && in01 s), t, s) in E.
  assert (NN : near0 (Some h) = true) by (unfold near0; apply qle_true; exact HT). rewrite NN in E. cbn [andb] in E.
  assert (E0 : ok = in01 t && in01 s) by (apply (f_equal (fun q => fst (fst q))) in E; cbn [fst] in E; rewrite <- E; reflexivity).
  assert (E1 : t1 = t) by (apply (f_equal (fun q => snd (fst q))) in E; cbn [fst snd] in E; rewrite <- E; reflexivity).
  assert (E2 : t2 = s) by (apply (f_equal (fun q => snd q)) in E; cbn [fst snd] in E; rewrite <- E; reflexivity).
  subst ok t1 t2. clear E.
  assert (P : forall u v, flat_cross l m <> 0 -> (t = Some v /\ s = Some u <-> line_at l u = line_at m v)).
  { intros u v N. pose proof (tsz_params l m u v h N HL HM) as Q. rewrite TS in Q. exact Q. }
  assert (F : flat_cross l m = 0 -> t = None) by (intros N; pose proof (tsz_undefined l m N) as Q; rewrite TS in Q; exact Q).
  split; [split|].
  - intros H. apply andb_true_iff in H. destruct H as (H1 & H2). apply in01_true in H1, H2. destruct H1 as (v & -> & V1 & V2), H2 as (u & -> & U1 & U2).
    assert (N : flat_cross l m <> 0) by (intros C; discriminate (F C)). split; [exact N|]. exists u, v. repeat (split; [assumption|]). apply (P u v N). auto.
  - intros (N & u & v & U1 & U2 & V1 & V2 & M). apply (P u v N) in M. destruct M as (-> & ->). apply andb_true_iff. split; apply in01_true; eexists; repeat split; assumption.
  - intros H. apply andb_true_iff in H. destruct H as (H1 & H2). apply in01_true in H1, H2. destruct H1 as (v & -> & V1 & V2), H2 as (u & -> & U1 & U2).
    assert (N : flat_cross l m <> 0) by (intros C; discriminate (F C)). exists u, v. repeat split. apply (P u v N). auto.
Qed.
(* lines above or below the plane z = 0 *)
Lemma cross_lifted a b h : at_height a h -> at_height b h -> rtol < fabs h -> area2 (line_end a) (line_start b) (line_end b) <> 0 ->
  fst (fst (line_x_line a b)) = false.
Proof.
  intros A B H NZ. pose proof (tsz_height a b h NZ A B) as Z. unfold line_x_line.
  destruct (line_line_tsz (line_start a) (line_end a) (line_start b) (line_end b)) as [[t s] z]. cbn [snd] in Z. subst z.
  assert (N : near0 (Some h) = false) by (unfold near0; apply qle_false; exact H).
  destruct b; cbn [fst]; rewrite N; reflexivity.
Qed.
(* an infinite line: the parameter that is compared is the one of the infinite line *)
Lemma cross_infinite a o d u v : at_height a 0 -> at_height (Infinite o d) 0 -> area2 (line_end a) o (vadd o d) <> 0 -> flat_cross a (Infinite o d) <> 0 ->
  line_at a u = line_at (Infinite o d) v ->
  (fst (fst (line_x_line a (Infinite o d))) = true <-> 0 <= v /\ v <= 1).
Proof.
  intros A B NZ NF M. apply (tsz_params a (Infinite o d) u v 0 NF A B) in M. destruct M as (M & _).
  pose proof (tsz_height a (Infinite o d) 0 NZ A B) as Z. unfold line_x_line.
  destruct (line_line_tsz (line_start a) (line_end a) (line_start (Infinite o d)) (line_end (Infinite o d))) as [[t s] z]. cbn [fst snd] in *. subst z t.
  change (near0 (Some 0)) with true. cbn [andb]. rewrite in01_true. split; [intros (x & E & X); apply some_inj in E; subst x; exact X|intros X; exists v; auto].
Qed.

(* ---- collinear lines ---- *)

Lemma colinear_shifted a b w : unit3 (vsub b a) -> line_is_colinear (line_segment a b) (line_segment (vadd a w) (vadd b w)) = true.
Proof.
  intros U. unfold line_is_colinear, v3_is_parallel. cbn [line_direction line_segment].
  replace (vsub (vadd b w) (vadd a w)) with (vsub b a) by (apply v3_ext; unfold vsub, vadd; cbn [vx vy vz]; ring).
  unfold unit3 in U. rewrite U. reflexivity.
Qed.
Lemma colinear_itself a b : line_is_colinear (line_segment a b) (line_segment a b) = true <->
  1 - (atol + rtol) <= vdot (vsub b a) (vsub b a) /\ vdot (vsub b a) (vsub b a) <= 1 + (atol + rtol).
Proof.
  unfold line_is_colinear, v3_is_parallel. cbn [line_direction line_segment]. rewrite isclose_1. fold eps.
  set (d := vsub b a). assert (N : 0 <= vdot d d) by (pose proof (square_nonneg (vx d)); pose proof (square_nonneg (vy d)); pose proof (square_nonneg (vz d)); unfold vdot; qlra).
  destruct (fabs_cases (vdot d d)) as [(H & ->)|(H & ->)]; [reflexivity|exfalso; qlra].
Qed.

(* ---- circles ---- *)

Lemma circle_3pt sqrt a b c k :
  rooted sqrt (dist2 a b * dist2 a c * dist2 b c) ->
  circle2_by_3pt sqrt a b c = Ok k ->
  0 <= c2_radius k /\
  dist2 (c2_center k) a = c2_radius k * c2_radius k /\ dist2 (c2_center k) b = c2_radius k * c2_radius k /\ dist2 (c2_center k) c = c2_radius k * c2_radius k.
Proof.
  intros (R0 & R). unfold circle2_by_3pt, circle2d_from_3pt. destruct a as [x1 y1], b as [x2 y2], c as [x3 y3]. cbn [fst snd] in *.
  destruct (qeq _ 0) eqn:D; [discriminate|]. apply qeq_false in D. cbn [bind]. intros E.
  apply (f_equal (fun r => match r with Ok v => v | Err _ => k end)) in E. cbn [fst snd] in E. subst k. cbn [c2_center c2_radius fst snd].
  match goal with |- context [sqrt ?r] => replace r with (dist2 (x1, y1) (x2, y2) * dist2 (x1, y1) (x3, y3) * dist2 (x2, y2) (x3, y3)) by (unfold dist2; cbn [fst snd]; ring) end.
  set (s := sqrt _) in *. split; [apply fabs_nonneg|].
  match goal with |- context [fabs ?r] => assert (F : fabs r * fabs r = r * r) by (destruct (fabs_cases r) as [(_ & ->)|(_ & ->)]; ring) end.
  rewrite !F.
  assert (Q : half * s / (x1 * y2 - x1 * y3 - x2 * y1 + x2 * y3 + x3 * y1 - x3 * y2) * (half * s / (x1 * y2 - x1 * y3 - x2 * y1 + x2 * y3 + x3 * y1 - x3 * y2)) =
              half * half * (s * s) / ((x1 * y2 - x1 * y3 - x2 * y1 + x2 * y3 + x3 * y1 - x3 * y2) * (x1 * y2 - x1 * y3 - x2 * y1 + x2 * y3 + x3 * y1 - x3 * y2))) by (unfold half; field; split; [discriminate|exact D]).
  rewrite Q, R. unfold dist2, half. cbn [fst snd].
  split; [|split]; field; (split; [discriminate|exact D]) || (split; [exact D|discriminate]).
Qed.
Lemma circle_3pt_some sqrt a b c : area2 (mkv (fst a) (snd a) 0) (mkv (fst b) (snd b) 0) (mkv (fst c) (snd c) 0) <> 0 <->
  exists k, circle2_by_3pt sqrt a b c = Ok k.
Proof.
  unfold circle2_by_3pt, circle2d_from_3pt, area2. cbn [vx vy]. destruct a as [x1 y1], b as [x2 y2], c as [x3 y3]. cbn [fst snd].
  replace ((x2 - x1) * (y3 - y1) - (x3 - x1) * (y2 - y1)) with (x1 * y2 - x1 * y3 - x2 * y1 + x2 * y3 + x3 * y1 - x3 * y2) by ring.
  destruct (qeq _ 0) eqn:D.
  - apply qeq_true in D. split; [intros N; contradiction|intros (k & E); discriminate E].
  - apply qeq_false in D. split; [intros _; eexists; reflexivity|intros _; exact D].
Qed.
Lemma circle_evaluate_center c : (forall t, is_angle t -> dist2 (vx (circle2_evaluate c t), vy (circle2_evaluate c t)) (c2_center c) = c2_radius c * c2_radius c) <->
  c2_center c = (0, 0).
Proof.
  destruct c as [[x y] r]. unfold circle2_evaluate, dist2, is_angle. cbn [c2_center c2_radius vx vy fst snd]. split.
  - intros H. pose proof (H (1, 0)) as H1. pose proof (H (- (1), 0)) as H2. cbn [fst snd] in H1, H2.
    assert (A : 1 * 1 + 0 * 0 = 1) by ring. assert (B : - (1) * - (1) + 0 * 0 = 1) by ring. specialize (H1 A). specialize (H2 B).
    assert (S0 : x * x + y * y = 0).
    { assert (E : (1 + 1) * (x * x + y * y) = 0).
      { transitivity (((r * 1 - x) * (r * 1 - x) + (r * 0 - y) * (r * 0 - y)) + ((r * - (1) - x) * (r * - (1) - x) + (r * 0 - y) * (r * 0 - y)) - (1 + 1) * (r * r)); [ring|rewrite H1, H2; ring]. }
      apply Qcmult_integral in E. destruct E as [E|E]; [discriminate E|exact E]. }
    pose proof (square_nonneg x). pose proof (square_nonneg y). assert (X : x * x = 0) by qlra. assert (Y : y * y = 0) by qlra.
    apply Qcmult_integral in X. apply Qcmult_integral in Y. f_equal; tauto.
  - intros E [c s] T. cbn [fst snd] in *. pose proof (f_equal fst E) as E1. pose proof (f_equal snd E) as E2. cbn [fst snd] in E1, E2. subst.
    transitivity (r * r * (c * c + s * s)); [ring|rewrite T; ring].
Qed.
