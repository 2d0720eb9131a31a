(* Newton with a constraint, colours, segments, shapes: the properties. *)
From Coq Require Import List Arith ZArith Bool QArith Qcanon Qround Lia.
From Verif Require Import Common QcLib ListLib RtModel NcsModel NcsSpec RtProofs1 NcsProofs.
Import ListNotations.
Local Open Scope Qc_scope.

Definition nz (k : Z) : Qc := Q2Qc (inject_Z k).
(* matrices of one row for the examples *)
Definition inv1 (m : list (list Qc)) : option (list (list Qc)) := match m with [[a]] => if qeq a 0 then None else Some [[/ a]] | _ => None end.
Definition abs1 (v : list Qc) : Qc := match v with [x] => if qlt x 0 then - x else x | _ => 0 end.

(* C433: the iteration *)
Theorem C433_converged_partial inv norm gradient hessian f g p0 tol mi nw full df h lam p gF hF hi k :
  newton_constrained inv norm gradient hessian f g p0 tol mi nw full (Some df) (Some h) lam = Ok (NFull (Some p) gF hF hi k) ->
  let x := iterate inv df (gradient g) h lam in let s := newton_step inv df (gradient g) h lam in
  (k < mi)%nat /\ p = x (S k) p0 /\ small norm tol (s (x k p0)) (x k p0) (x (S k) p0) /\ (forall i, (i < k)%nat -> ~ small norm tol (s (x i p0)) (x i p0) (x (S i) p0)).
Proof.
  intros E x s. unfold newton_constrained in E. change p0 with (iterate inv df (gradient g) h lam 0 p0) in E. apply loop_full in E. cbn [Nat.add] in E. destruct E as (A & B & C & D). split; [lia|]. split; [exact B|]. split; [exact C|]. intros i Hi. apply D. lia.
Qed.
Print Assumptions C433_converged_partial.
Theorem C433_first_small_step_partial inv norm gradient hessian f g p0 tol mi nw df h lam k : let x := iterate inv df (gradient g) h lam in let s := newton_step inv df (gradient g) h lam in
  (k < mi)%nat -> (forall i, (i <= k)%nat -> inv (h (x i p0)) <> None /\ inv (hessian g (x i p0)) <> None) -> (forall i, (i < k)%nat -> ~ small norm tol (s (x i p0)) (x i p0) (x (S i) p0)) -> small norm tol (s (x k p0)) (x k p0) (x (S k) p0) ->
  newton_constrained inv norm gradient hessian f g p0 tol mi nw false (Some df) (Some h) lam = Ok (NPoint (x (S k) p0)).
Proof. intros x s A B C D. unfold newton_constrained. change p0 with (x 0%nat p0) at 1. apply loop_reaches; auto; try lia; intros i Hi; [apply B|apply C]; lia. Qed.
Print Assumptions C433_first_small_step_partial.
Theorem C433_constraint_value_refuted inv norm gradient hessian f g1 g2 p0 tol mi nw full df h lam : (forall x, gradient g1 x = gradient g2 x) -> (forall x, hessian g1 x = hessian g2 x) ->
  newton_constrained inv norm gradient hessian f g1 p0 tol mi nw full df h lam = newton_constrained inv norm gradient hessian f g2 p0 tol mi nw full df h lam.
Proof.
  intros G H. unfold newton_constrained. generalize (match df with Some d => d | None => gradient f end) (match h with Some d => d | None => hessian f end). intros a b. generalize mi at 2 4. intro n. generalize 0%nat p0 (@None (list Qc * list Qc * list (list Qc))) (@None (list (list Qc))).
  induction n as [|n IH]; intros k p bd hi; cbn [nloop]; [reflexivity|]. cbv zeta. rewrite G, H. destruct (inv (b p)) as [m|]; [|reflexivity]. destruct (inv (hessian g2 p)) as [m2|]; [|reflexivity]. destruct (qlt _ tol); [reflexivity|]. destruct (qlt (norm _) tol); [reflexivity|]. apply IH.
Qed.
Print Assumptions C433_constraint_value_refuted.
Example C433_case : newton_constrained inv1 abs1 (fun _ _ => [0]) (fun _ _ => [[1]]) (fun _ => 0) (fun _ => 1) [nz 3] (nz 1) 10 true false (Some (fun x => x)) (Some (fun _ => [[1]])) 0 = Ok (NPoint [0]).
Proof. vm_compute. repeat f_equal; apply Qc_is_canon; reflexivity. Qed.

(* C434: a singular Hessian of the constraint at the start, for instance a linear constraint *)
Theorem C434_linear_constraint_refuted inv norm gradient hessian f g p0 tol mi nw full df h lam : (forall x, inv (hessian g x) = None) ->
  newton_constrained inv norm gradient hessian f g p0 tol mi nw full df h lam = if nw && negb full then Ok (NPoint p0) else Err NameError.
Proof.
  intro S. unfold newton_constrained. generalize (match df with Some d => d | None => gradient f end) (match h with Some d => d | None => hessian f end). intros a b. destruct mi as [|n]; cbn [nloop]; cbv zeta.
  - destruct nw, full; reflexivity.
  - destruct (inv (b p0)) as [m|]; [rewrite S|]; destruct nw, full; reflexivity.
Qed.
Print Assumptions C434_linear_constraint_refuted.
Theorem C434_iteration_limit_refuted inv norm gradient hessian f g p0 tol mi nw df h lam : let x := iterate inv df (gradient g) h lam in let s := newton_step inv df (gradient g) h lam in
  (1 <= mi)%nat -> (forall i, (i < mi)%nat -> inv (h (x i p0)) <> None /\ inv (hessian g (x i p0)) <> None /\ ~ small norm tol (s (x i p0)) (x i p0) (x (S i) p0)) ->
  newton_constrained inv norm gradient hessian f g p0 tol mi nw false (Some df) (Some h) lam = Ok (NPoint (x mi p0)).
Proof. intros x s A B. unfold newton_constrained. change p0 with (x 0%nat p0) at 1. rewrite (loop_limit inv norm gradient hessian df h g tol lam nw false mi p0 mi 0); auto. intros i Hi. apply B. lia. Qed.
Print Assumptions C434_iteration_limit_refuted.
Example C434_case : newton_constrained inv1 abs1 (fun _ _ => [nz 1]) (fun _ _ => [[0]]) (fun _ => 0) (fun _ => 1) [nz 3] (nz 1) 10 true false (Some (fun x => x)) (Some (fun _ => [[1]])) 0 = Ok (NPoint [nz 3]) /\
  newton_constrained inv1 abs1 (fun _ _ => [0]) (fun _ _ => [[1]]) (fun _ => 0) (fun _ => 1) [nz 3] 0 2 true false (Some (fun x => [nz (-1)])) (Some (fun _ => [[1]])) 0 = Ok (NPoint [nz 5]).
Proof. split; vm_compute; repeat f_equal; apply Qc_is_canon; reflexivity. Qed.

(* C435: colours from floats *)
Theorem C435_float_colour x y z : exists c, color_new [CF x; CF y; CF z] = Ok c /\ nearest (x * nz 255) (c_r c) /\ nearest (y * nz 255) (c_g c) /\ nearest (z * nz 255) (c_b c) /\ c_tuple c = [c_r c; c_g c; c_b c] /\
  (0 <= x -> x <= 1 -> (0 <= c_r c <= 255)%Z) /\ (0 <= y -> y <= 1 -> (0 <= c_g c <= 255)%Z) /\ (0 <= z -> z <= 1 -> (0 <= c_b c <= 255)%Z).
Proof.
  eexists. split; [reflexivity|]. cbn [c_r c_g c_b c_tuple cfloat].
  assert (R : forall a, 0 <= a -> a <= 1 -> (0 <= round_even (a * nz 255) <= 255)%Z).
  { intros a A B. apply (nearest_range (a * nz 255)); [| |apply round_nearest]; change (nz 255) with (Q2Qc (255 # 1)); change (Q2Qc (inject_Z 255)) with (Q2Qc (255 # 1)); qlra. }
  repeat split; try (apply round_nearest); try (apply R; auto).
Qed.
Print Assumptions C435_float_colour.
Theorem C435_round_trip c : exists c', color_new (map CF (rgb_0to1 c)) = Ok c' /\ (c_r c', c_g c', c_b c') = (c_r c, c_g c, c_b c).
Proof.
  unfold rgb_0to1. cbn [map]. eexists. split; [reflexivity|]. cbn [c_r c_g c_b cfloat].
  assert (E : forall k, round_even (Q2Qc (inject_Z k) / Q2Qc (inject_Z 255) * Q2Qc (inject_Z 255)) = k).
  { intro k. replace (Q2Qc (inject_Z k) / Q2Qc (inject_Z 255) * Q2Qc (inject_Z 255)) with (Q2Qc (inject_Z k)) by (field; discriminate). apply round_int. }
  rewrite !E. reflexivity.
Qed.
Print Assumptions C435_round_trip.
Example C435_case : color_new [CF (Q2Qc (1 # 2)); CF (Q2Qc (1 # 2)); CF (Q2Qc (1 # 2))] = Ok {| c_tuple := [128; 128; 128]; c_r := 128; c_g := 128; c_b := 128 |}%Z.
Proof. vm_compute. reflexivity. Qed.

(* C436: components beyond the third *)
Theorem C436_int_components_partial r g b rest : color_new (CI r :: CI g :: CI b :: map CI rest) = Ok {| c_tuple := r :: g :: b :: rest; c_r := r; c_g := g; c_b := b |}.
Proof. unfold color_new. cbn [all_ints]. assert (E : all_ints (map CI rest) = Some rest) by (induction rest as [|x l IH]; [reflexivity|]; cbn; rewrite IH; reflexivity). rewrite E. reflexivity. Qed.
Print Assumptions C436_int_components_partial.
Theorem C436_float_components_refuted args x : In (CF x) args -> length args <> 3%nat -> color_new args = Err ValueError.
Proof.
  intros I L. unfold color_new. assert (E : all_ints args = None). { clear L. induction args as [|a r IH]; [destruct I|]. destruct I as [->|I]; [reflexivity|]. cbn. rewrite (IH I). destruct a; reflexivity. }
  rewrite E. destruct args as [|a [|b [|c [|d l]]]]; try reflexivity. cbn in L. congruence.
Qed.
Print Assumptions C436_float_components_refuted.
Example C436_case : color_new [CI 1; CI 2; CI 3; CI 255] = Ok {| c_tuple := [1; 2; 3; 255]; c_r := 1; c_g := 2; c_b := 3 |}%Z /\ color_new [CF 1; CF 0; CF 0; CF 1] = Err ValueError.
Proof. split; reflexivity. Qed.

(* C437: hexadecimal form *)
Theorem C437_hex_round_trip_partial r g b : (r < 256)%nat -> (g < 256)%nat -> (b < 256)%nat -> from_hex (hex r g b) = Ok (r, g, b) /\ decimal r g b = Ok (256 * (256 * r + g) + b)%nat.
Proof.
  intros R G B. unfold decimal, from_hex, hex. rewrite !hex2_small by auto. cbn [app firstn skipn from_digits fold_left bind].
  assert (D : forall n, n = (16 * (n / 16) + n mod 16)%nat) by (intro n; apply Nat.div_mod; lia). assert (Dr := D r). assert (Dg := D g). assert (Db := D b).
  set (r1 := (r / 16)%nat) in *. set (r0 := (r mod 16)%nat) in *. set (g1 := (g / 16)%nat) in *. set (g0 := (g mod 16)%nat) in *. set (b1 := (b / 16)%nat) in *. set (b0 := (b mod 16)%nat) in *. clearbody r1 r0 g1 g0 b1 b0.
  split; [apply f_equal; apply f_equal2; [apply f_equal2|]; lia|apply f_equal; lia].
Qed.
Print Assumptions C437_hex_round_trip_partial.
Theorem C437_large_components_refuted r g b : (256 <= r)%nat \/ (256 <= g)%nat \/ (256 <= b)%nat -> from_hex (hex r g b) <> Ok (r, g, b).
Proof.
  intros H E. unfold from_hex in E. assert (F : Forall (fun d => d < 16)%nat (hex r g b)) by (unfold hex; rewrite !Forall_app; repeat split; apply hex2_bound).
  destruct (from_digits (firstn 2 (hex r g b))) as [r'|] eqn:E1; [|discriminate]. cbn [bind] in E. destruct (from_digits (firstn 2 (skipn 2 (hex r g b)))) as [g'|] eqn:E2; [|discriminate]. cbn [bind] in E. destruct (from_digits (firstn 2 (skipn 4 (hex r g b)))) as [b'|] eqn:E3; [|discriminate]. cbn [bind] in E. injection E as -> -> ->.
  apply two_digits in E1; [|apply Forall_firstn; auto|rewrite firstn_length; lia]. apply two_digits in E2; [|apply Forall_firstn, Forall_skipn; auto|rewrite firstn_length; lia]. apply two_digits in E3; [|apply Forall_firstn, Forall_skipn; auto|rewrite firstn_length; lia]. lia.
Qed.
Print Assumptions C437_large_components_refuted.
Example C437_case : hex 128 7 255 = [8; 0; 0; 7; 15; 15]%nat /\ from_hex (hex 256 0 0) = Ok (16, 0, 0)%nat.
Proof. split; reflexivity. Qed.

(* C438: the segments of a spline *)
Theorem C438_segments P (curve : Qc -> P) lo hi degree count l : spline_segments curve lo hi degree count = Ok l ->
  Z.of_nat (length l) = match count with Some k => k | None => (Qceiling (this (hi - lo)) * degree)%Z end /\
  (forall i s, nth_error l i = Some s -> let a := lo + qn i * ((hi - lo) / qn (length l)) in let b := lo + qn (i + 1) * ((hi - lo) / qn (length l)) in s = ((curve a, curve b), (a, b))).
Proof.
  unfold spline_segments. set (n := match count with Some k => k | None => _ end). destruct (Z.ltb_spec n 0) as [|H]; [discriminate|]. cbv zeta. intro E. injection E as <-. rewrite map_length, seq_length. split; [apply Z2Nat.id, H|].
  intros i s Hs. set (k := Z.to_nat n) in *. assert (Hi : (i < k)%nat). { destruct (lt_dec i k) as [|G]; [auto|]. exfalso. rewrite (proj2 (nth_error_None _ i)) in Hs; [discriminate|]. rewrite map_length, seq_length. lia. }
  rewrite (map_nth_error _ i (seq 0 k) (d := i)) in Hs by (rewrite (nth_error_nth' _ 0%nat) by (rewrite seq_length; auto); rewrite seq_nth by auto; reflexivity). injection Hs as <-. rewrite !(map_nth curve).
  assert (N : forall j, (j < k + 1)%nat -> nth j (linspace lo hi (k + 1)) lo = lo + qn j * ((hi - lo) / qn k)).
  { intros j Hj. rewrite (nth_indep _ lo 0) by (rewrite linspace_length; auto). rewrite linspace_nth by lia. replace (k + 1 - 1)%nat with k by lia. reflexivity. }
  rewrite !N by lia. reflexivity.
Qed.
Print Assumptions C438_segments.
Theorem C438_cover P (curve : Qc -> P) lo hi degree count l d : spline_segments curve lo hi degree count = Ok l -> l <> [] -> fst (snd (nth 0 l d)) = lo /\ snd (snd (nth (length l - 1) l d)) = hi /\
  (forall i, (i + 1 < length l)%nat -> snd (snd (nth i l d)) = fst (snd (nth (i + 1) l d)) /\ snd (fst (nth i l d)) = fst (fst (nth (i + 1) l d))).
Proof.
  intros E N. destruct (C438_segments _ _ _ _ _ _ _ E) as (_ & S). assert (L : (0 < length l)%nat) by (destruct l; [congruence|cbn; lia]). assert (P0 := qn_pos (length l) L).
  assert (G : forall i, (i < length l)%nat -> nth i l d = ((curve (lo + qn i * ((hi - lo) / qn (length l))), curve (lo + qn (i + 1) * ((hi - lo) / qn (length l)))), (lo + qn i * ((hi - lo) / qn (length l)), lo + qn (i + 1) * ((hi - lo) / qn (length l))))) by (intros i Hi; apply (S i); apply nth_error_nth'; auto).
  split; [rewrite G by lia; cbn [fst snd]; rewrite qn_0; ring|]. split.
  - rewrite G by lia. cbn [fst snd]. replace (length l - 1 + 1)%nat with (length l) by lia. field. intro K. rewrite K in P0. discriminate P0.
  - intros i Hi. rewrite !G by lia. cbn [fst snd]. auto.
Qed.
Print Assumptions C438_cover.
Example C438_case : match spline_segments (fun t => this t) (nz 0) (nz 2) 2 None with Ok l => map (fun s => (fst s, (this (fst (snd s)), this (snd (snd s))))) l = [((0, 1 # 2), (0, 1 # 2)); ((1 # 2, 1), (1 # 2, 1)); ((1, 3 # 2), (1, 3 # 2)); ((3 # 2, 2), (3 # 2, 2))]%Q | _ => False end.
Proof. vm_compute. reflexivity. Qed.

(* C439: the shape of the grid of control points *)
Theorem C439_shape nu nv du dv n u v : grid_shape nu nv du dv n = Ok (u, v) <-> (nu = u + du + 1 /\ nv = v + dv + 1 /\ u * v = n)%Z.
Proof.
  unfold grid_shape. cbv zeta. destruct (Z.eqb_spec ((nu - du - 1) * (nv - dv - 1)) n) as [E|E].
  - split; [intro H; injection H as <- <-; lia|]. intros (A & B & C). f_equal. f_equal; lia.
  - split; [discriminate|]. intros (A & B & C). exfalso. apply E. replace (nu - du - 1)%Z with u by lia. replace (nv - dv - 1)%Z with v by lia. exact C.
Qed.
Print Assumptions C439_shape.
Theorem C439_too_few_knots_refuted nu nv du dv : (nu <= du)%Z -> (nv <= dv)%Z -> exists n u v, (0 < n)%Z /\ grid_shape nu nv du dv n = Ok (u, v) /\ (u < 0)%Z /\ (v < 0)%Z.
Proof.
  intros A B. exists ((nu - du - 1) * (nv - dv - 1))%Z, (nu - du - 1)%Z, (nv - dv - 1)%Z. split; [nia|]. split; [|lia]. unfold grid_shape. cbv zeta. rewrite Z.eqb_refl. reflexivity.
Qed.
Print Assumptions C439_too_few_knots_refuted.
Example C439_case : grid_shape 8 6 3 2 12 = Ok (4, 3)%Z /\ grid_shape 2 2 3 3 4 = Ok (-2, -2)%Z.
Proof. split; reflexivity. Qed.

(* C440: the implicit form of a curve *)
Theorem C440_implicit_curve norm inversion curve lo hi xyz : exists ix, (ix < 100)%nat /\
  let d := fun i => ndot (nsub xyz (curve (nth i (linspace lo hi 100) lo))) (nsub xyz (curve (nth i (linspace lo hi 100) lo))) in
  let t := inversion xyz (nth ix (linspace lo hi 100) lo) in
  (forall i, (i < 100)%nat -> d ix <= d i) /\ (forall i, (i < ix)%nat -> d ix < d i) /\
  implicit_curve norm inversion curve lo hi xyz = Ok (norm (nsub (curve t) xyz), nsub (curve t) xyz, t).
Proof.
  unfold implicit_curve. cbv zeta. set (T := linspace lo hi 100). assert (LT : length T = 100%nat) by apply linspace_length. rewrite map_map. set (e := fun x => ndot (nsub xyz (curve x)) (nsub xyz (curve x))).
  destruct (argmin (map e T)) as [ix|] eqn:E; [|destruct T; [discriminate LT|discriminate E]]. destruct (argmin_spec _ _ E) as (A & B & C). rewrite map_length, LT in A, B.
  assert (G : forall i, (i < 100)%nat -> nth i (map e T) 0 = e (nth i T lo)) by (intros i Hi; rewrite (nth_indep _ 0 (e lo)) by (rewrite map_length, LT; auto); apply map_nth).
  exists ix. split; [exact A|]. split; [|split; [|reflexivity]].
  - intros i Hi. specialize (B i Hi). rewrite !G in B by auto. exact B.
  - intros i Hi. specialize (C i Hi). rewrite !G in C by lia. exact C.
Qed.
Print Assumptions C440_implicit_curve.
Example C440_case : match implicit_curve abs1 (fun x t => t) (fun t => [t]) (nz 0) (nz 99) [nz 7] with Ok (d, g, t) => (this d, map this g, this t) = (0, [0], 7)%Q | _ => False end.
Proof. vm_compute. reflexivity. Qed.
