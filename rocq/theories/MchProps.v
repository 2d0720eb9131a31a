(* Marching and separation: the properties C441-C448. *)
From Coq Require Import List Arith ZArith Bool QArith Qcanon Lia Lra.
From Verif Require Import Common QcLib ListLib RtModel RtProofs1 NcsModel MchModel MchSpec MchProofs MchProofs2.
Import ListNotations.
Local Open Scope Qc_scope.

(* C441: marching along an implicit curve always answers; the points start at the corrected first point, each is the corrected step from the one before,
   the last is the corrected end point; if there are fewer points than allowed, the last step came within half a step of it, and no earlier one did *)
Theorem C441_march_implicit (norm : list Qc -> Qc) (cpoint tangent : list Qc -> list Qc) (step : Qc) (v0 : list Qc) (v1 : option (list Qc)) (m fuel : nat) :
  (m <= fuel)%nat -> let e := cpoint (match v1 with Some v => v | None => v0 end) in
  exists l, march_implicit norm cpoint tangent step fuel v0 v1 m = Ok (l ++ [e]) /\ hd [] l = cpoint v0 /\
    chain (fun x y => y = cpoint (nadd x (nscale step (tangent x)))) l /\ (2 <= length l <= Nat.max m 2)%nat /\
    (0 < step -> (length l < m)%nat -> norm (nsub (last l []) e) <= step * Q2Qc (1 # 2)) /\
    Forall (fun x => step * Q2Qc (1 # 2) < norm (nsub x e)) (removelast (skipn 2 l)).
Proof.
  intros Hf e. destruct (mi_loop_total norm cpoint tangent step m e fuel (mstep cpoint tangent step (cpoint v0)) step [cpoint v0; mstep cpoint tangent step (cpoint v0)] ltac:(cbn [length]; lia)) as [r E].
  assert (M : march_implicit norm cpoint tangent step fuel v0 v1 m = Ok r) by exact E.
  destruct (march_implicit_ok _ _ _ _ _ _ _ _ _ M) as (l1 & -> & C1 & C2 & C3 & C4).
  eexists. split; [exact M|]. split; [reflexivity|]. split; [exact C1|]. split; [cbn [length] in *; lia|]. split; [exact C3|exact C4].
Qed.
Print Assumptions C441_march_implicit.

(* C441: a property of all corrected points holds of all the points *)
Theorem C441_points_on_curve (norm : list Qc -> Qc) (cpoint tangent : list Qc -> list Qc) (step : Qc) (v0 : list Qc) (v1 : option (list Qc)) (m fuel : nat) (P : list Qc -> Prop) r :
  (forall x, P (cpoint x)) -> march_implicit norm cpoint tangent step fuel v0 v1 m = Ok r -> Forall P r.
Proof.
  intros HP E. destruct (march_implicit_ok _ _ _ _ _ _ _ _ _ E) as (l1 & -> & C1 & _).
  apply Forall_forall. intros x Hx. apply in_app_iff in Hx as [Hx|[<-|[]]]; [|apply HP].
  apply in_split in Hx as (a & b & Hab). destruct a as [|a0 a] using rev_ind.
  - injection Hab as <- _. apply HP.
  - clear IHa. rewrite <- app_assoc in Hab. cbn [app] in Hab. rewrite (C1 _ _ _ _ Hab). apply HP.
Qed.
Print Assumptions C441_points_on_curve.

(* the circle of radius one in the maximum norm, marched with the identity as correction *)
Definition id_point (x : list Qc) : list Qc := x.
Definition right (x : list Qc) : list Qc := [1; 0].
Definition first_abs (x : list Qc) : Qc := match x with a :: _ => if qlt a 0 then - a else a | [] => 0 end.
Example C441_case : march_implicit first_abs id_point right 1 9 [0; 0] (Some [Q2Qc (3 # 1); 0]) 9 = Ok [[0; 0]; [1; 0]; [Q2Qc (2 # 1); 0]; [Q2Qc (3 # 1); 0]; [Q2Qc (3 # 1); 0]].
Proof. vm_compute. reflexivity. Qed.

(* C442 "at most max_points points": a march that never comes near the end point has one point more than allowed, and always at least three *)
Theorem C442_point_limit_refuted (norm : list Qc -> Qc) (cpoint tangent : list Qc -> list Qc) (step : Qc) (v0 : list Qc) (v1 : option (list Qc)) (m fuel : nat) :
  (m <= fuel)%nat -> 0 < step -> (forall x y, step < norm (nsub (cpoint x) y)) ->
  exists r, march_implicit norm cpoint tangent step fuel v0 v1 m = Ok r /\ length r = S (Nat.max m 2) /\ (m < length r)%nat.
Proof.
  intros Hf Hs Hn. destruct (C441_march_implicit norm cpoint tangent step v0 v1 m fuel Hf) as (l & E & Hh & C1 & C2 & C3 & _).
  assert (length l = Nat.max m 2) as L.
  { destruct (Nat.lt_ge_cases (length l) m) as [Hm|Hm]; [|lia]. exfalso. specialize (C3 Hs Hm).
    assert (exists x, last l [] = cpoint x) as [x Hx].
    { destruct l as [|a l _] using rev_ind; [cbn [length] in C2; lia|]. rewrite last_last. destruct l as [|b l _] using rev_ind; [cbn [length app] in C2; lia|].
      rewrite <- app_assoc in C1. cbn [app] in C1. exists (nadd b (nscale step (tangent b))). apply (C1 l b a []). reflexivity. }
    rewrite Hx in C3. specialize (Hn x (cpoint (match v1 with Some v => v | None => v0 end))). qlra. }
  eexists. split; [exact E|]. rewrite app_length. cbn [length]. lia.
Qed.
Print Assumptions C442_point_limit_refuted.
Example C442_case : match march_implicit (fun _ => Q2Qc (7 # 1)) id_point right 1 9 [0; 0] None 2 with Ok r => length r = 3%nat | Err _ => False end.
Proof. reflexivity. Qed.

(* C443: marching along an intersection curve always answers with at least one and at most max_points points; the first is the corrected start, each next one
   is the corrected step forwards or backwards along the unit tangent of the one before, none after the first is within half a step of the end, and only the last may be outside *)
Theorem C443_march_intersection (norm : list Qc -> Qc) (cross : list Qc -> list Qc -> list Qc) (ipoint : list Qc -> list Qc * list Qc * list Qc) (step : Qc) (outside : list Qc -> bool)
    (start : list Qc) (e : option (list Qc)) (m fuel : nat) :
  (m <= fuel)%nat ->
  exists l, march_intersection norm cross ipoint step outside fuel start e m = Ok (fst (fst (ipoint start)) :: l) /\ (S (length l) <= Nat.max m 1)%nat /\
    chain (marched ipoint (fun g1 g2 => nscale (/ norm (cross g1 g2)) (cross g1 g2)) (fun s u x => nadd x (nscale s u)) step) (fst (fst (ipoint start)) :: l) /\
    Forall (fun x => step * Q2Qc (1 # 2) <= norm (nsub x (match e with Some p => p | None => fst (fst (ipoint start)) end))) l /\
    Forall (fun x => outside x = false) (removelast (fst (fst (ipoint start)) :: l)).
Proof.
  intros Hf. unfold march_intersection. destruct (ipoint start) as [[p g1] g2] eqn:I. cbn [fst snd].
  destruct (mx_loop_total norm cross ipoint step outside m (match e with Some p => p | None => p end) fuel p g1 g2 [p] ltac:(cbn [length]; lia)) as [r E].
  pose proof E as E'. apply mx_loop_ok in E'; [|now exists []|now exists start|constructor|].
  - destruct E' as (l1 & -> & C1 & C2 & C3 & C4). exists l1. split; [exact E|]. split; [cbn [length app] in *; lia|]. split; [exact C2|]. split; [exact C3|exact C4].
  - intros pre x y post H. destruct pre as [|a [|b pre]]; discriminate.
Qed.
Print Assumptions C443_march_intersection.

(* C443: with vanishing tangent at the start, or a start outside, only the start is answered *)
Theorem C443_stops (norm : list Qc -> Qc) (cross : list Qc -> list Qc -> list Qc) (ipoint : list Qc -> list Qc * list Qc * list Qc) (step : Qc) (outside : list Qc -> bool)
    (start : list Qc) (e : option (list Qc)) (m fuel : nat) :
  (m <= fuel)%nat -> (let c := cross (snd (fst (ipoint start))) (snd (ipoint start)) in ndot c c = 0) \/ outside (fst (fst (ipoint start))) = true ->
  march_intersection norm cross ipoint step outside fuel start e m = Ok [fst (fst (ipoint start))].
Proof.
  intros Hf H. unfold march_intersection. destruct (ipoint start) as [[p g1] g2]. cbn [fst snd] in *. destruct fuel as [|fuel]; cbn [mx_loop length].
  - replace (1 <? m)%nat with false by (symmetry; apply Nat.ltb_ge; lia). reflexivity.
  - destruct (1 <? m)%nat; [|reflexivity]. destruct (outside p); [reflexivity|]. destruct H as [H|H]; [|discriminate]. cbn zeta in H. rewrite H.
    replace (qeq 0 0) with true by (symmetry; now apply qeq_true). reflexivity.
Qed.
Print Assumptions C443_stops.
Definition east (x : list Qc) : list Qc * list Qc * list Qc := (x, [1], [1]).
Definition east_cross (a b : list Qc) : list Qc := [Q2Qc (2 # 1); 0].
Example C443_case : march_intersection first_abs east_cross east 1 (fun x => qlt (Q2Qc (2 # 1)) (first_abs x)) 9 [0; 0] None 9 = Ok [[0; 0]; [1; 0]; [Q2Qc (2 # 1); 0]; [Q2Qc (3 # 1); 0]].
Proof. vm_compute. reflexivity. Qed.

(* C444: with a gradient, the raster answers exactly the corrected points of the grid whose first-order distance to the curve is below gamma times the size of a cell *)
Theorem C444_raster (f : list Qc -> res Qc) (norm : Qc * Qc -> Qc) (cpoint : Qc * Qc -> Qc * Qc) (h x0 x1 y0 y1 : Qc) (nx ny : nat) (gamma : Qc) (grad : Qc * Qc -> res (Qc * Qc)) :
  (0 < nx)%nat -> (0 < ny)%nat -> (forall x y, (exists v, f [x; y] = Ok v) /\ exists g, grad (x, y) = Ok g) ->
  let a := (x1 - x0) / qn nx in let b := (y1 - y0) / qn ny in
  exists r, raster f norm cpoint h x0 x1 y0 y1 nx ny gamma (Some grad) true = Ok r /\
    forall q, In q r <-> exists x y v g, In x (linspace x0 x1 nx) /\ In y (linspace y0 y1 ny) /\ q = cpoint (x, y) /\ f [x; y] = Ok v /\ grad (x, y) = Ok g /\
      norm g <> 0 /\ exists s d, (s = v \/ s = - v) /\ 0 <= s /\ (d = a \/ d = b) /\ a <= d /\ b <= d /\ s / norm g < gamma * d.
Proof.
  intros Hx Hy Hf a b. unfold raster, mdiv.
  assert (forall n, (0 < n)%nat -> qeq (qn n) 0 = false) as Z.
  { intros n Hn. apply qeq_false. pose proof (qn_pos n Hn) as P. intros E. rewrite E in P. now apply (Qclt_not_eq 0 0 P). }
  rewrite (Z nx Hx), (Z ny Hy). cbn [bind]. fold a b.
  set (d := if qlt a b then b else a).
  assert (Hd : (d = a \/ d = b) /\ a <= d /\ b <= d).
  { subst d. destruct (qlt a b) eqn:B; [apply qlt_true in B|apply qlt_false in B]; (split; [auto|split; qlra]). }
  destruct (raster_loop_total f norm cpoint grad gamma d (grid (linspace x0 x1 nx) (linspace y0 y1 ny)) []) as [r E].
  { intros [x y] _. apply Hf. }
  exists r. split; [exact E|]. apply raster_loop_ok in E as (l1 & -> & C). cbn [app]. intros q. rewrite C. split.
  - intros ([x y] & v & g & Hp & <- & Ev & Eg & Hn & Hlt). apply grid_in in Hp as [P1 P2]. exists x, y, v, g. cbn [fst snd] in *.
    repeat (split; [assumption || reflexivity|]). exists (if qlt v 0 then - v else v), d. destruct Hd as (D1 & D2 & D3).
    split; [destruct (qlt v 0); auto|]. split; [destruct (qlt v 0) eqn:B; [apply qlt_true in B|apply qlt_false in B]; qlra|]. auto.
  - intros (x & y & v & g & P1 & P2 & -> & Ev & Eg & Hn & s & d' & Hs & Hs0 & Hd' & D2' & D3' & Hlt). exists (x, y), v, g.
    split; [apply grid_in; auto|]. split; [reflexivity|]. split; [exact Ev|]. split; [exact Eg|]. split; [exact Hn|].
    destruct Hd as (D1 & D2 & D3). assert (d' = d) as <-. { apply Qcle_antisym; [destruct Hd' as [->| ->]; assumption|destruct D1 as [D1|D1]; rewrite D1; assumption]. }
    replace (if qlt v 0 then - v else v) with s; [exact Hlt|]. destruct (qlt v 0) eqn:B; [apply qlt_true in B|apply qlt_false in B];
      (destruct Hs as [->| ->]; [|]); try reflexivity; apply Qcle_antisym; qlra.
Qed.
Print Assumptions C444_raster.
Definition circle_f (l : list Qc) : res Qc := match l with [x; y] => Ok (x * x + y * y - 1) | _ => Err ValueError end.
Definition circle_g (p : Qc * Qc) : res (Qc * Qc) := Ok (Q2Qc (2 # 1) * fst p, Q2Qc (2 # 1) * snd p).
Definition max_norm (p : Qc * Qc) : Qc := let a := if qlt (fst p) 0 then - fst p else fst p in let b := if qlt (snd p) 0 then - snd p else snd p in if qlt a b then b else a.
Example C444_case : raster circle_f max_norm (fun p => p) 1 (- (1)) 1 (- (1)) 1 3 3 (Q2Qc (1 # 2)) (Some circle_g) true = Ok [(- (1), 0); (0, - (1)); (0, 1); (1, 0)].
Proof. vm_compute. reflexivity. Qed.

(* C445 "the raster works without a gradient": the default gradient calls the function with three coordinates, so a function of two coordinates always fails *)
Theorem C445_default_gradient_refuted (f : list Qc -> res Qc) (norm : Qc * Qc -> Qc) (cpoint : Qc * Qc -> Qc * Qc) (h x0 x1 y0 y1 : Qc) (nx ny : nat) (gamma : Qc) (general : bool) :
  (0 < nx)%nat -> (0 < ny)%nat -> (forall a b c, exists err, f [a; b; c] = Err err) ->
  exists err, raster f norm cpoint h x0 x1 y0 y1 nx ny gamma None general = Err err.
Proof.
  intros Hx Hy Hf. unfold raster. destruct (mdiv _ (qn nx)) as [a|]; [|cbn [bind]; eauto]. destruct (mdiv _ (qn ny)) as [b|]; [|cbn [bind]; eauto]. cbn [bind].
  destruct (grid (linspace x0 x1 nx) (linspace y0 y1 ny)) as [|[x y] l] eqn:G.
  - exfalso. assert (In (nth 0 (linspace x0 x1 nx) 0, nth 0 (linspace y0 y1 ny) 0) (grid (linspace x0 x1 nx) (linspace y0 y1 ny))) as I.
    { apply grid_in. cbn [fst snd]. split; apply nth_In; rewrite linspace_length; assumption. }
    rewrite G in I. exact I.
  - cbn [raster_loop fst snd]. destruct (f [x; y]) as [v|]; [|cbn [bind]; eauto]. cbn [bind default_grad].
    destruct (f [x + h; y]) as [v1|]; [|cbn [bind]; eauto]. cbn [bind]. destruct (Hf x (- h) y) as [err ->]. cbn [bind]. eauto.
Qed.
Print Assumptions C445_default_gradient_refuted.

(* C445: without general_implicit no point is ever answered: the raster is empty or fails *)
Theorem C445_not_general_refuted (f : list Qc -> res Qc) (norm : Qc * Qc -> Qc) (cpoint : Qc * Qc -> Qc * Qc) (h x0 x1 y0 y1 : Qc) (nx ny : nat) (gamma : Qc) grad r :
  raster f norm cpoint h x0 x1 y0 y1 nx ny gamma grad false = Ok r -> r = [].
Proof.
  unfold raster. destruct (mdiv _ (qn nx)) as [a|]; [|discriminate]. destruct (mdiv _ (qn ny)) as [b|]; [|discriminate]. cbn [bind]. apply raster_loop_plain.
Qed.
Print Assumptions C445_not_general_refuted.
Example C445_case : raster circle_f max_norm (fun p => p) 1 (- (1)) 1 (- (1)) 1 3 3 (Q2Qc (1 # 2)) None true = Err ValueError /\
  raster circle_f max_norm (fun p => p) 1 (- (1)) 1 (- (1)) 1 3 3 (Q2Qc (1 # 2)) (Some circle_g) false = Err TypeError /\
  raster circle_f max_norm (fun p => p) 1 (- (1)) 1 (- (1)) 1 3 3 0 (Some circle_g) false = Ok [].
Proof. vm_compute. auto. Qed.

(* C446: the test with the plane of a surface succeeds exactly when the first points lie in one plane with that normal and the second points on its negative side *)
Theorem C446_plane_test (n : Qc * Qc * Qc) (l1 l2 : list (Qc * Qc * Qc)) : l1 <> [] ->
  plane_separates n l1 l2 = true <-> exists c, Forall (fun p => form n p = c) l1 /\ Forall (fun p => form n p <= c) l2.
Proof. apply plane_separates_iff. Qed.
Print Assumptions C446_plane_test.

(* C446 "a plane with that normal between the two sets is found": not if two of the first points differ in that direction, however far apart the sets are *)
Theorem C446_finds_plane_refuted (n : Qc * Qc * Qc) (l1 l2 : list (Qc * Qc * Qc)) p q :
  In p l1 -> In q l1 -> form n p <> form n q -> plane_separates n l1 l2 = false.
Proof.
  intros Hp Hq H. destruct (plane_separates n l1 l2) eqn:E; [|reflexivity]. exfalso.
  apply plane_separates_iff in E; [|intros ->; exact Hp]. destruct E as (c & E & _). rewrite Forall_forall in E. apply H. now rewrite (E p Hp), (E q Hq).
Qed.
Print Assumptions C446_finds_plane_refuted.
Example C446_case : plane_separates (0, 0, 1) [(0, 0, 1); (1, 0, 1)] [(0, 0, 0)] = true /\
  plane_separates (0, 0, 1) [(0, 0, Q2Qc (5 # 1)); (1, 0, Q2Qc (6 # 1))] [(0, 0, 0)] = false.
Proof. vm_compute. auto. Qed.

(* C447: a plane found by the linear program leaves the two sets on its two sides up to epsilon *)
Theorem C447_found_plane (norm : Qc * Qc * Qc -> Qc) sol (eps : Qc) (l1 l2 : list (Qc * Qc * Qc)) :
  fst (separating_plane_test norm sol eps l1 l2) = true ->
  exists m d e n, separating_plane_test norm sol eps l1 l2 = (true, Some (m, d, e)) /\ plane_between eps (- d) m l1 l2 /\
    sol = Some (n, d, e) /\ eps <= norm n /\ forall p, form m p = / norm n * form n p.
Proof.
  intros H. destruct (plane_test_shape norm sol eps l1 l2) as [[[[m d] e] E]|E]; [|rewrite E in H; discriminate].
  destruct (plane_test_ok _ _ _ _ _ _ _ _ E) as [P (n & S & N & ->)]. exists (scale3 (/ norm n) n), d, e, n.
  split; [exact E|]. split; [exact P|]. split; [exact S|]. split; [exact N|]. intros p.
  destruct n as [[n1 n2] n3], p as [[p1 p2] p3]. unfold form, scale3. cbn [fst snd]. ring.
Qed.
Print Assumptions C447_found_plane.

(* C447 "the linear program finds a separating plane if there is one": zero is always an optimal solution of it, and from it no plane is found *)
Theorem C447_zero_solution_refuted (norm : Qc * Qc * Qc -> Qc) (eps : Qc) (l1 l2 : list (Qc * Qc * Qc)) :
  norm (0, 0, 0) = 0 -> 0 < eps ->
  exists x, minimum (fun y => lp_bounds y && lp_constraints l1 l2 y) lp_objective x /\ separating_plane_test norm (Some x) eps l1 l2 = (false, None).
Proof.
  intros Hn He. exists ((0, 0, 0), 0, 0). split.
  - split; [rewrite zero_feasible; vm_compute; reflexivity|]. intros [[n d] e] H. unfold lp_bounds in H. rewrite !andb_true_iff in H. unfold lp_objective. cbn [snd].
    apply qle_true. apply H.
  - unfold separating_plane_test. rewrite Hn. replace (qlt 0 eps) with true by (symmetry; now apply qlt_true). reflexivity.
Qed.
Print Assumptions C447_zero_solution_refuted.
Definition max_abs3 (p : Qc * Qc * Qc) : Qc := Q2Qc (2 # 1).
Example C447_case : fst (separating_plane_test max_abs3 (Some ((0, 0, Q2Qc (2 # 1)), - (1), 0)) 0 [(0, 0, 1)] [(0, 0, 0)]) = true.
Proof. vm_compute. reflexivity. Qed.

(* C448: the fast test answers True exactly when the two sets are apart along a coordinate or the support-point test finds them disjoint *)
Theorem C448_spatial_separability (gjk : list (Qc * Qc * Qc) -> list (Qc * Qc * Qc) -> bool) (l1 l2 : list (Qc * Qc * Qc)) :
  l1 <> [] -> l2 <> [] ->
  exists b, spatial_separability gjk l1 l2 = Ok b /\ (b = true <-> (exists c, In c [cx; cy; cz] /\ coordinate_gap c l1 l2) \/ gjk l1 l2 = false).
Proof.
  intros H1 H2. destruct (boxes_meet_total l1 l2 H1 H2) as [b E]. unfold spatial_separability. rewrite E. cbn [bind].
  pose proof (boxes_meet_ok l1 l2 b E) as B. destruct b; cbn [negb].
  - destruct (gjk l1 l2); cbn [negb]; eexists; (split; [reflexivity|]); split; auto; intros [H|H]; try discriminate; apply B in H; discriminate.
  - exists true. split; [reflexivity|]. split; [intros _; left; now apply B|auto].
Qed.
Print Assumptions C448_spatial_separability.

(* C448: the full test; each reason comes with its plane *)
Theorem C448_are_separable (norm : Qc * Qc * Qc -> Qc) sol (eps : Qc) normals (l1 l2 : list (Qc * Qc * Qc)) why :
  l1 <> [] -> l2 <> [] -> are_separable norm sol eps normals l1 l2 = Ok (true, why) ->
  match why with
  | BoundingBox => exists c, In c [cx; cy; cz] /\ coordinate_gap c l1 l2
  | BoundingPlane => exists n1 n2 n c, normals = Some (n1, n2) /\ ((n = n1 /\ plane_between 0 c n l1 l2) \/ (n = n2 /\ plane_between 0 c n l2 l1))
  | SeparatingPlane => exists m d, plane_between eps (- d) m l1 l2
  | AllTests => False
  end.
Proof.
  intros H1 H2. destruct (boxes_meet_total l1 l2 H1 H2) as [b E]. unfold are_separable. rewrite E. cbn [bind].
  pose proof (boxes_meet_ok l1 l2 b E) as B. destruct b; cbn [negb].
  - assert (W : forall n a b, a <> [] -> plane_separates n a b = true -> exists c, plane_between 0 c n a b).
    { intros n a b Ha P. apply plane_separates_iff in P as (c & P1 & P2); [|exact Ha]. exists c. rewrite Forall_forall in P1, P2.
      split; apply Forall_forall; intros p Hp; [rewrite (P1 p Hp)|specialize (P2 p Hp)]; qlra. }
    destruct (match normals with Some (n1, n2) => _ | None => false end) eqn:P.
    + intros E'. injection E' as <-. destruct normals as [[n1 n2]|]; [|discriminate]. apply orb_true_iff in P as [P|P].
      * destruct (W _ _ _ H1 P) as [c Hc]. exists n1, n2, n1, c. auto.
      * destruct (W _ _ _ H2 P) as [c Hc]. exists n1, n2, n2, c. auto.
    + destruct (fst (separating_plane_test norm sol eps l1 l2)) eqn:S; [|discriminate]. intros E'. injection E' as <-.
      destruct (C447_found_plane _ _ _ _ _ S) as (m & d & e & n & _ & P' & _). eauto.
  - intros E'. injection E' as <-. now apply B.
Qed.
Print Assumptions C448_are_separable.
Example C448_case : spatial_separability (fun _ _ => true) [(0, 0, 0); (1, 0, 0)] [(Q2Qc (2 # 1), 0, 0)] = Ok true /\
  spatial_separability (fun _ _ => true) [(0, 0, 0); (1, 0, 0)] [(1, 0, 0)] = Ok false /\
  are_separable max_abs3 None 0 (Some ((0, 0, 1), (0, 0, 1))) [(0, 0, 1); (1, 0, 1)] [(0, 0, 0); (1, 0, 1)] = Ok (true, BoundingPlane).
Proof. vm_compute. auto. Qed.
