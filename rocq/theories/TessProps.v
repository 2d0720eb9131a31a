(* Tessellation parameters: the properties. *)
From Coq Require Import String List Arith ZArith Bool QArith Qcanon Lia.
From Verif Require Import Common QcLib ListLib LuModel RtModel TessModel TessSpec RtSpec RtProofs1 LuProofs1 TessProofs1 TessProofs2.
Import ListNotations.
Local Open Scope list_scope.
Local Open Scope Qc_scope.

Definition tz (k : Z) : Qc := Q2Qc (inject_Z k).
Definition zpt (a b : Z) : pt := (tz a, tz b).
Definition tshow (l : list pt) : list (Q * Q) := map (fun p => (this (fst p), this (snd p))) l.
(* equality of points as the test of closeness *)
Definition same (p q : pt) : bool := qeq (fst p) (fst q) && qeq (snd p) (snd q).
(* points (k, 2k) *)
Definition diagonal : trim := {| t_curve := fun t => (t, t + t); t_lo := 0; t_hi := 1; t_length := 1 |}.

(* C423: the surface itself is unpacked *)
Theorem C423_any_surface_refuted junk density ts u v bc : exists e, tess_params junk None density ts u v bc = Err e.
Proof.
  unfold tess_params. destruct (counts density u v) as [[u' v']|e]; [|exists e; reflexivity]. cbn [bind]. destruct (trims_density density bc u' ts) as [ks|e]; [|exists e; reflexivity]. exists TypeError. reflexivity.
Qed.
Print Assumptions C423_any_surface_refuted.
Theorem C423_corner_points_partial junk b ts nu nv bc : (1 <= nu)%nat -> (1 <= nv)%nat -> (0 <= bc)%Z -> length junk = ((nu - 1) * (nv - 1))%nat ->
  exists vs segs, tess_params junk (Some b) None ts (Some (Z.of_nat nu)) (Some (Z.of_nat nv)) bc = Ok (vs, segs) /\
  length vs = (2 * (nu + nv) + length ts * Z.to_nat bc + (nu - 1) * (nv - 1))%nat.
Proof.
  intros HU HV HB L. destruct b as [[u0 v0] [u1 v1]]. unfold tess_params. cbn [counts bind].
  assert (D : trims_density None bc (Some (Z.of_nat nu)) ts = Ok (repeat bc (length ts))) by (induction ts as [|t r IH]; [reflexivity|]; cbn [trims_density bind]; rewrite IH; reflexivity).
  rewrite D. cbn [bind]. rewrite !count_nat. cbn [bind]. cbv zeta.
  assert (C : map fst (combine ts (repeat bc (length ts))) = ts) by (clear; induction ts as [|t r IH]; [reflexivity|]; cbn; rewrite IH; reflexivity).
  assert (C2 : map snd (combine ts (repeat bc (length ts))) = repeat bc (length ts)) by (clear; induction ts as [|t r IH]; [reflexivity|]; cbn; rewrite IH; reflexivity).
  set (vs0 := rectangle _ nu nv). set (segs0 := map _ _). set (mx := length vs0).
  destruct (trim_loop_ok (combine ts (repeat bc (length ts))) (repeat (Z.to_nat bc) (length ts))) with (vs := vs0) (segs := segs0) (mx := mx) as (r & E).
  { rewrite C2. generalize (length ts). intro n. induction n as [|n IH]; [reflexivity|]. cbn. rewrite IH, Z2Nat.id by auto. reflexivity. }
  rewrite E. destruct (trim_loop_inv _ _ _ _ _ E) as (ks & A & ->). cbn [bind]. rewrite interior_ok by auto. cbn [bind]. eexists. eexists. split; [reflexivity|].
  rewrite C, C2 in *. rewrite !app_length, pairs_length, !linspace_length. unfold vs0. rewrite rectangle_length. f_equal. f_equal.
  clear - A HB. revert ks A. induction ts as [|t r IH]; intros ks A; [reflexivity|]. destruct ks as [|k ks]; [discriminate|]. cbn in A. injection A as -> A. cbn [length combine map concat fst snd Nat.mul]. rewrite app_length, (IH ks A). unfold polygon_of. rewrite map_length, linspace_length. lia.
Qed.
Print Assumptions C423_corner_points_partial.
Example C423_case : match tess_params [zpt 9 9; zpt 9 9] (Some (zpt 0 0, zpt 2 3)) None [diagonal] (Some 2%Z) (Some 3%Z) 2 with
  Ok (vs, segs) => length vs = 14%nat /\ segs = [(0, 1); (1, 2); (2, 3); (3, 4); (4, 5); (5, 6); (6, 7); (7, 8); (8, 9); (9, 0); (10, 11); (11, 10)]%nat | _ => False end.
Proof. vm_compute. auto. Qed.

(* C424: the counts *)
Theorem C424_default_counts_refuted density u : counts density None None = (match density with None => Ok (None, None) | Some _ => Err TypeError end) /\ counts None (Some u) None = Ok (Some 25%Z, Some 25%Z) /\
  (forall junk surface ts bc, exists e, tess_params junk surface density ts None None bc = Err e).
Proof.
  split; [destruct density as [[r lu]|]; reflexivity|]. split; [reflexivity|]. intros junk surface ts bc. unfold tess_params. destruct density as [[r lu]|]; cbn [counts bind]; [eexists; reflexivity|].
  destruct (trims_density None bc None ts) as [ks|e]; [|exists e; reflexivity]. cbn [bind]. destruct surface; eexists; reflexivity.
Qed.
Print Assumptions C424_default_counts_refuted.
Theorem C424_given_counts_partial density u v : counts density (Some u) (Some v) = Ok (Some u, Some v) /\ counts None None (Some v) = Ok (Some v, Some v).
Proof. destruct density as [[r lu]|]; auto. Qed.
Print Assumptions C424_given_counts_partial.
Theorem C424_density_ignores_u ratio lu u : counts (Some (ratio, lu)) (Some u) None = counts (Some (ratio, lu)) (Some 25%Z) None.
Proof. reflexivity. Qed.
Print Assumptions C424_density_ignores_u.
Example C424_case : counts (Some (tz 2, tz 1)) (Some 10%Z) None = Ok (Some 25%Z, Some 50%Z) /\ counts (Some (tz 2, tz 1)) None (Some 9%Z) = Ok (Some 4%Z, Some 9%Z).
Proof. split; vm_compute; reflexivity. Qed.

(* C425: loops and segments of a successful call *)
Theorem C425_segments junk b density ts u v bc vs segs : tess_params junk (Some b) density ts u v bc = Ok (vs, segs) -> exists nu nv ks inner,
  let scaled := map (fun p : Qc * Qc => (fst p, snd p * match density with Some (ratio, _) => ratio | None => 1 end)) in
  let loops := rectangle b nu nv :: map (fun x => polygon_of (fst x) (snd x)) (combine ts ks) in
  counts density u v = Ok (Some (Z.of_nat nu), Some (Z.of_nat nv)) /\ length ks = length ts /\
  vs = concat (map scaled loops) ++ scaled inner /\ loops_closed_up (map scaled loops) vs segs /\ indices_exist vs segs.
Proof.
  unfold tess_params. destruct (counts density u v) as [[u' v']|] eqn:EC; [|discriminate]. cbn [bind]. destruct (trims_density density bc u' ts) as [ds|] eqn:ED; [|discriminate]. cbn [bind].
  destruct (count u') as [nu|] eqn:EU; [|discriminate]. cbn [bind]. destruct (count v') as [nv|] eqn:EV; [|discriminate]. cbn [bind]. cbv zeta.
  destruct (trim_loop _ _ _ _) as [[vs0 segs0]|] eqn:ET; [|discriminate]. cbn [bind]. destruct (interior junk b nu nv) as [uv|]; [|discriminate]. cbn [bind]. intro E.
  apply count_inv in EU. apply count_inv in EV. subst u' v'. destruct (trim_loop_inv _ _ _ _ _ ET) as (ks & A & B). injection B as -> ->.
  assert (LD : length ds = length ts) by (clear - ED; revert ds ED; induction ts as [|t r IH]; intros ds ED; cbn [trims_density] in ED; [injection ED as <-; reflexivity|]; destruct (match density with Some _ => _ | None => _ end); [|discriminate]; cbn [bind] in ED; destruct (trims_density _ _ _ r) as [d'|]; [|discriminate]; cbn in ED; injection ED as <-; cbn; rewrite (IH _ eq_refl); reflexivity).
  assert (C : map fst (combine ts ds) = ts) by (clear - LD; revert ds LD; induction ts as [|t r IH]; intros [|d ds] L; try discriminate; [reflexivity|]; cbn in *; rewrite IH by lia; reflexivity).
  assert (C2 : map snd (combine ts ds) = ds) by (clear - LD; revert ds LD; induction ts as [|t r IH]; intros [|d ds] L; try discriminate; [reflexivity|]; cbn in *; rewrite IH by lia; reflexivity).
  rewrite C in E. rewrite C2 in A. exists nu, nv, ks, uv. cbv zeta. set (ps := map _ (combine ts ks)) in *. set (f := fun p : Qc * Qc => _).
  assert (LK : length ks = length ts) by (rewrite <- LD, A, map_length; reflexivity).
  assert (EV' : vs = concat (map (map f) (rectangle b nu nv :: ps)) ++ map f uv).
  { rewrite <- concat_map, <- map_app. cbn [concat]. destruct density as [[ratio lu]|]; injection E as <- _.
    - unfold f. reflexivity.
    - rewrite <- (map_id ((rectangle b nu nv ++ concat ps) ++ uv)) at 1. apply map_ext. intros [x y]. unfold f. cbn. f_equal. ring. }
  assert (ES : segs = place 0 (map (map f) (rectangle b nu nv :: ps))).
  { rewrite (place_same_lengths _ (rectangle b nu nv :: ps)) by (rewrite map_map; apply map_ext; intro; apply map_length). cbn [place Nat.add]. injection E as _ <-. f_equal. unfold segments_by_loop. apply map_ext. intro i. rewrite !Nat.add_0_r. reflexivity. }
  split; [reflexivity|]. split; [exact LK|]. split; [exact EV'|]. split.
  - rewrite ES, EV'. apply place_closed_up.
  - rewrite ES. intros x y H. apply place_in in H. rewrite EV', app_length. lia.
Qed.
Print Assumptions C425_segments.

(* C426: the boundary *)
Theorem C426_on_the_boundary_partial u0 v0 u1 v1 nu nv : u0 <= u1 -> v0 <= v1 -> length (rectangle ((u0, v0), (u1, v1)) nu nv) = (2 * (nu + nv))%nat /\
  Forall (on_rectangle ((u0, v0), (u1, v1))) (rectangle ((u0, v0), (u1, v1)) nu nv).
Proof. intros A B. split; [apply rectangle_length|]. apply Forall_forall. intros p. apply rectangle_on; auto. Qed.
Print Assumptions C426_on_the_boundary_partial.
Theorem C426_distinct_points_refuted u0 v0 u1 v1 nu nv : (2 <= nu)%nat -> (2 <= nv)%nat -> let r := rectangle ((u0, v0), (u1, v1)) nu nv in
  nth_error r (nu - 1) = nth_error r nu /\ nth_error r (nu + nv - 1) = nth_error r (nu + nv) /\ nth_error r (2 * nu + nv - 1) = nth_error r (2 * nu + nv) /\ nth_error r (length r - 1) = nth_error r 0 /\ ~ NoDup r.
Proof.
  intros A B r. destruct (rectangle_at u0 v0 u1 v1 nu nv A B) as (H0 & H1 & H2 & H3 & H4 & H5 & H6 & H7). fold r in H0, H1, H2, H3, H4, H5, H6, H7. assert (L : length r = (2 * (nu + nv))%nat) by apply rectangle_length.
  replace (length r - 1)%nat with (2 * nu + 2 * nv - 1)%nat by lia. repeat split; try congruence. intro N. rewrite NoDup_nth_error in N. assert (K : (nu - 1)%nat = nu) by (apply N; [lia|congruence]). lia.
Qed.
Print Assumptions C426_distinct_points_refuted.
Example C426_case : tshow (rectangle (zpt 0 0, zpt 2 3) 3 2) = [(0, 0); (1, 0); (2, 0); (2, 0); (2, 3); (2, 3); (1, 3); (0, 3); (0, 3); (0, 0)]%Q.
Proof. vm_compute. reflexivity. Qed.

(* C427: the inner points *)
Theorem C427_inner_grid_partial junk u0 v0 u1 v1 nu nv : (1 <= nu)%nat -> (1 <= nv)%nat -> length junk = ((nu - 1) * (nv - 1))%nat ->
  v0 + (v1 - v0) / qn nv = u1 - (u1 - u0) / qn nu ->
  interior junk ((u0, v0), (u1, v1)) nu nv = Ok (pairs (linspace (u0 + (u1 - u0) / qn nu) (u1 - (u1 - u0) / qn nu) (nu - 1)) (linspace (v0 + (v1 - v0) / qn nv) (v1 - (v1 - v0) / qn nv) (nv - 1))).
Proof. intros A B L E. rewrite interior_ok by auto. rewrite E. reflexivity. Qed.
Print Assumptions C427_inner_grid_partial.
Theorem C427_one_point_refuted junk a b n g : (1 <= n)%nat -> length junk = ((n - 1) * (n - 1))%nat -> interior junk ((a, a), (b, b)) n n = Ok g ->
  length g = ((n - 1) * (n - 1))%nat /\ forall p, In p g -> p = (a + (b - a) / qn n, b - (b - a) / qn n).
Proof.
  intros A L E. rewrite interior_ok in E by auto. injection E as <-. split; [rewrite pairs_length, !linspace_length; reflexivity|]. intros [x y] H. apply pairs_in in H. cbn [fst snd] in H. destruct H as (H1 & H2). apply linspace_const in H1. apply linspace_const in H2. congruence.
Qed.
Print Assumptions C427_one_point_refuted.
Example C427_case : match interior (repeat (zpt 9 9) 4) (zpt 0 0, zpt 3 3) 3 3 with Ok g => tshow g = [(1, 2); (1, 2); (1, 2); (1, 2)]%Q | _ => False end /\
  match interior (repeat (zpt 9 9) 4) (zpt 0 1, zpt 3 4) 3 3 with Ok g => tshow g = [(1, 2); (1, 3); (2, 2); (2, 3)]%Q | _ => False end.
Proof. split; vm_compute; reflexivity. Qed.

(* C428: polygons with holes *)
Theorem C428_open_loops_partial close boundaries holes : boundaries ++ holes <> [] -> Forall (open_loop close) boundaries -> Forall (fun h => open_loop close (rev h)) holes ->
  exists d, prepare_args close boundaries holes = Ok d /\ d_vertices d = concat (boundaries ++ holes) /\ loops_closed_up (boundaries ++ holes) (d_vertices d) (d_segments d) /\ length (d_holes d) = length holes.
Proof.
  intros N HB HH. assert (EH : drop_all close (map (@rev pt) holes) = Ok (map (@rev pt) holes)) by (apply drop_all_open, Forall_map, HH).
  rewrite (prepare_ok close _ _ _ _ N (drop_all_open close _ HB) EH). eexists. split; [reflexivity|]. cbn [d_vertices d_segments d_holes]. split; [reflexivity|]. split; [|rewrite !map_length; reflexivity].
  rewrite (place_same_lengths _ (boundaries ++ holes)) by (rewrite !map_app, map_map; f_equal; apply map_ext; intro; apply rev_length).
  rewrite <- (app_nil_r (concat (boundaries ++ holes))). apply place_closed_up.
Qed.
Print Assumptions C428_open_loops_partial.
Theorem C428_indices_exist close boundaries holes d : prepare_args close boundaries holes = Ok d -> indices_exist (d_vertices d) (d_segments d).
Proof.
  intro E. assert (N : boundaries ++ holes <> []) by (intro Z; unfold prepare_args in E; rewrite Z in E; discriminate E).
  assert (D : exists lb, drop_all close boundaries = Ok lb).
  { unfold prepare_args in E. destruct (boundaries ++ holes); [congruence|]. destruct (bnd_loop close boundaries [] 0) as [[x y]|] eqn:EB; [|discriminate]. clear - EB. revert EB. generalize (@nil (nat * nat)) as es. generalize 0%nat as m.
    induction boundaries as [|b r IH]; intros m es EB; [exists []; reflexivity|]. cbn [bnd_loop] in EB. cbn [drop_all]. destruct (drop_end close b) as [b'|]; [|discriminate]. cbn [bind] in *. destruct (IH _ _ EB) as (lb & ->). cbn. eauto. }
  destruct D as (lb & EB). assert (D : exists lh, drop_all close (map (@rev pt) holes) = Ok lh).
  { unfold prepare_args in E. destruct (boundaries ++ holes); [congruence|]. rewrite (bnd_loop_ok close _ _ _ _ EB) in E. cbn [bind] in E. destruct (hole_loop close holes _ _ _) as [[x y]|] eqn:EH; [|discriminate]. clear - EH. revert EH. generalize (@nil (option pt)) as cs. generalize ([] ++ place 0 lb) as es. generalize (0 + length (concat lb))%nat as m.
    induction holes as [|b r IH]; intros m es cs EH; [exists []; reflexivity|]. cbn [hole_loop] in EH. cbn [drop_all map]. destruct (drop_end close (rev b)) as [b'|]; [|discriminate]. cbn [bind] in *. destruct (IH _ _ _ EH) as (lb' & ->). cbn. eauto. }
  destruct D as (lh & EH). rewrite (prepare_ok close _ _ _ _ N EB EH) in E. injection E as <-. intros x y H. cbn [d_segments d_vertices] in *. apply place_in in H.
  assert (A := drop_all_length close _ _ EB). assert (B := drop_all_length close _ _ EH). rewrite concat_app in *. rewrite !app_length in *.
  assert (R : length (concat (map (@rev pt) holes)) = length (concat holes)) by (clear; induction holes as [|h r IH]; [reflexivity|]; cbn; rewrite !app_length, rev_length, IH; reflexivity). lia.
Qed.
Print Assumptions C428_indices_exist.
Theorem C428_closed_loops_refuted close b1 x y b2 rest : ends b1 x y -> close x y = true -> (2 <= length b1)%nat -> open_loop close b2 -> Forall (open_loop close) rest ->
  exists d, prepare_args close (b1 :: b2 :: rest) [] = Ok d /\
  (* the first segment of the second loop starts at the last point of the first loop *)
  (exists q, nth_error (d_segments d) (length b1 - 1) = Some ((length b1 - 1)%nat, q) /\ nth_error (d_vertices d) (length b1 - 1) = Some y) /\
  (* and the last vertex of all is on no segment *)
  (forall a c, In (a, c) (d_segments d) -> (a < length (d_vertices d) - 1)%nat /\ (c < length (d_vertices d) - 1)%nat).
Proof.
  intros E1 C L O2 OR. assert (D : drop_all close (b1 :: b2 :: rest) = Ok (removelast b1 :: b2 :: rest)).
  { assert (F : drop_all close (b2 :: rest) = Ok (b2 :: rest)) by (apply drop_all_open; constructor; auto). change (drop_all close (b1 :: b2 :: rest)) with (do l' <- drop_end close b1 ; do r' <- drop_all close (b2 :: rest) ; Ok (l' :: r')). rewrite (drop_end_closed close _ _ _ E1 C), F. reflexivity. }
  assert (P2 : (1 <= length b2)%nat) by (destruct O2 as (p & q & (A & _) & _); destruct b2; [discriminate|cbn; lia]).
  rewrite (prepare_ok close (b1 :: b2 :: rest) [] _ [] ltac:(discriminate) D eq_refl). eexists. split; [reflexivity|]. cbn [d_segments d_vertices]. rewrite !app_nil_r.
  assert (R := removelast_length b1). split.
  - exists (length b1 - 1 + (if (0 =? length b2 - 1)%nat then 0 else 0 + 1))%nat. split.
    + assert (G := place_nth [removelast b1] b2 rest 0 ltac:(lia)). cbn [concat app] in G. rewrite app_nil_r, R, Nat.add_0_r in G. exact G.
    + cbn [concat]. rewrite nth_error_app1 by lia. exact (proj2 E1).
  - intros a c H. apply place_in in H. cbn [concat] in *. rewrite !app_length in *. rewrite R in H. lia.
Qed.
Print Assumptions C428_closed_loops_refuted.
Example C428_case : match prepare_args same [[zpt 0 0; zpt 4 0; zpt 0 4; zpt 0 0]; [zpt 9 9; zpt 9 8; zpt 8 9]] [[zpt 1 1; zpt 2 1; zpt 1 2]] with
  Ok d => d_segments d = [(0, 1); (1, 2); (2, 0); (3, 4); (4, 5); (5, 3); (6, 7); (7, 8); (8, 6)]%nat /\ length (d_vertices d) = 10%nat | _ => False end.
Proof. vm_compute. auto. Qed.

(* C429: the hole points *)
Theorem C429_hole_point close boundaries holes d i h : Forall (fun h => open_loop close (rev h)) holes -> prepare_args close boundaries holes = Ok d -> nth_error holes i = Some h ->
  exists c, nth_error (d_holes d) i = Some (Some c) /\ qn (length h) * fst c = fold_right (fun p s => fst p + s) 0 h /\ qn (length h) * snd c = fold_right (fun p s => snd p + s) 0 h /\
  (forall a b e, Forall (half_plane a b e) h -> half_plane a b e c).
Proof.
  intros HH E HI. assert (EH : drop_all close (map (@rev pt) holes) = Ok (map (@rev pt) holes)) by (apply drop_all_open, Forall_map, HH).
  assert (K : d_holes d = map average (map (@rev pt) holes)).
  { unfold prepare_args in E. destruct (boundaries ++ holes); [discriminate|]. destruct (bnd_loop close boundaries [] 0) as [[x y]|]; [|discriminate]. cbn [bind] in E. rewrite (hole_loop_ok close _ _ _ _ _ EH) in E. cbn in E. injection E as <-. reflexivity. }
  assert (N : rev h <> []) by (apply nth_error_In in HI; rewrite Forall_forall in HH; destruct (HH _ HI) as (p & q & (A & _) & _); intro Z; rewrite Z in A; discriminate).
  destruct (average (rev h)) as [c|] eqn:EA; [|destruct (rev h); [congruence|discriminate]]. exists c. split.
  - rewrite K, map_map. rewrite (map_nth_error (fun x => average (rev x)) _ _ HI). rewrite EA. reflexivity.
  - destruct (average_times _ _ EA) as (A & B). rewrite rev_length in A, B. rewrite sum_perm in A, B. split; [exact A|]. split; [exact B|]. intros a b e H. eapply average_half_plane; [|exact EA]. apply Forall_rev, H.
Qed.
Print Assumptions C429_hole_point.
Example C429_case : match prepare_args same [] [[zpt 0 0; zpt 4 0; zpt 4 4; zpt 0 4]] with Ok d => map (option_map (fun p => (this (fst p), this (snd p)))) (d_holes d) = [Some (2, 2)]%Q | _ => False end.
Proof. vm_compute. reflexivity. Qed.

(* C430: the names *)
Theorem C430_names_round_trip A (d d' : list (string * A)) : rename translate_inv d = Ok d' -> rename translate_frw d' = Ok d.
Proof.
  assert (R : forall k k', translate_inv k = Ok k' -> translate_frw k' = Ok k).
  { intros k k'. unfold translate_inv. cbn [map terms dict_get fst snd].
    repeat match goal with |- context [String.eqb ?a k] => destruct (String.eqb_spec a k); [subst k; intro E; vm_compute in E; injection E as <-; reflexivity|] end. discriminate. }
  revert d'. induction d as [|[k x] r IH]; intros d' E; cbn [rename] in E; [injection E as <-; reflexivity|]. destruct (translate_inv k) as [k'|] eqn:EK; [|discriminate]. cbn [bind] in E. destruct (rename translate_inv r) as [r'|] eqn:ER; [|discriminate]. cbn [bind] in E. injection E as <-. cbn [rename]. rewrite (R _ _ EK). cbn [bind]. rewrite (IH _ eq_refl). reflexivity.
Qed.
Print Assumptions C430_names_round_trip.
Theorem C430_names_forward A (d d' : list (string * A)) : rename translate_frw d = Ok d' -> rename translate_inv d' = Ok d.
Proof.
  assert (R : forall k k', translate_frw k = Ok k' -> translate_inv k' = Ok k).
  { intros k k'. unfold translate_frw. cbn [map terms dict_get fst snd].
    repeat match goal with |- context [String.eqb ?a k] => destruct (String.eqb_spec a k); [subst k; intro E; vm_compute in E; injection E as <-; reflexivity|] end. discriminate. }
  revert d'. induction d as [|[k x] r IH]; intros d' E; cbn [rename] in E; [injection E as <-; reflexivity|]. destruct (translate_frw k) as [k'|] eqn:EK; [|discriminate]. cbn [bind] in E. destruct (rename translate_frw r) as [r'|] eqn:ER; [|discriminate]. cbn [bind] in E. injection E as <-. cbn [rename]. rewrite (R _ _ EK). cbn [bind]. rewrite (IH _ eq_refl). reflexivity.
Qed.
Print Assumptions C430_names_forward.
Theorem C430_unknown_name A (d : list (string * A)) : (exists k x, In (k, x) d /\ ~ In k (map snd terms)) <-> rename translate_inv d = Err KeyError.
Proof.
  assert (R : forall k, (In k (map snd terms) /\ exists k', translate_inv k = Ok k') \/ (~ In k (map snd terms) /\ translate_inv k = Err KeyError)).
  { intro k. unfold translate_inv. cbn [map terms dict_get fst snd In]. 
    repeat match goal with |- context [String.eqb ?a k] => destruct (String.eqb_spec a k); [subst k; left; split; [tauto|eexists; reflexivity]|] end. right. split; [intuition congruence|reflexivity]. }
  induction d as [|[k x] r IH]; cbn [rename].
  - split; [intros (k & x & [] & _)|discriminate].
  - destruct (R k) as [(I & k' & E)|(I & E)]; rewrite E; cbn [bind].
    + split.
      * intros (j & y & [H|H] & N); [injection H as -> ->; contradiction|]. assert (G : rename translate_inv r = Err KeyError) by (apply IH; eauto). rewrite G. reflexivity.
      * destruct (rename translate_inv r) as [r'|e] eqn:ER; [discriminate|]. cbn. intro H. injection H as ->. destruct (proj2 IH eq_refl) as (j & y & A1 & A2). exists j, y. cbn. auto.
    + split; [reflexivity|]. intros _. exists k, x. cbn. auto.
Qed.
Print Assumptions C430_unknown_name.
Example C430_case : rename translate_inv [("vertices", 1%nat); ("segments", 2%nat)]%string = Ok [("pointlist", 1%nat); ("segmentlist", 2%nat)]%string /\ rename translate_inv [("points", 1%nat)]%string = Err KeyError.
Proof. split; reflexivity. Qed.

(* C431: finite edges and rays *)
Theorem C431_voronoi (e : list (Z * Z)) (n : list pt) edges ro rd : length n = length e -> voronoi_split e n = (edges, ro, rd) ->
  edges = filter (fun p => negb (snd p =? -1)%Z) e /\ combine ro rd = map (fun x => (fst (fst x), snd x)) (filter (fun x => (snd (fst x) =? -1)%Z) (combine e n)) /\ length ro = length rd /\ (length edges + length ro = length e)%nat.
Proof.
  unfold voronoi_split. cbv zeta. intros L E. injection E as <- <- <-. revert n L. induction e as [|[a b] e IH]; intros [|p n] L; try discriminate; [cbn; auto|]. injection L as L. specialize (IH n L). destruct IH as (I1 & I2 & I3 & I4). cbn [map combine filter fst snd].
  destruct (b =? -1)%Z; cbn [negb map filter fst snd combine length].
  - rewrite I1, I2. repeat split; auto. rewrite <- I1. lia.
  - rewrite I1, I2. repeat split; auto. rewrite <- I1. lia.
Qed.
Print Assumptions C431_voronoi.
Example C431_case : voronoi_split [(0, 2); (1, -1); (3, 1)]%Z [zpt 0 0; zpt 5 6; zpt 0 0] = ([(0, 2); (3, 1)]%Z, [1%Z], [zpt 5 6]).
Proof. reflexivity. Qed.

(* C432: trims that end on the boundary *)
Theorem C432_edge_cases close p r b tol : let l := p :: r in let q := last l p in
  match_edge_cases close l b tol = Ok (Some l) /\ (close q p = true \/ same_side tol b p q) \/ match_edge_cases close l b tol = Ok None /\ close q p = false /\ ~ same_side tol b p q.
Proof.
  intros l q. unfold match_edge_cases, l. fold l. fold q. destruct (close q p) eqn:C; [left; auto|]. destruct b as [[u0 v0] [u1 v1]].
  assert (K : forall x y, is_close_0 (x - y) tol = true <-> near tol x y).
  { intros x y. unfold is_close_0, near. split.
    - intro H. apply qle_true in H. destruct (fabs_cases (x - y)) as [(A & B)|(A & B)]; rewrite B in H; split; qlra.
    - intros (A & B). destruct (qle (fabs (x - y)) tol) eqn:E; [reflexivity|]. apply qle_false in E. destruct (fabs_cases (x - y)) as [(A1 & B1)|(A1 & B1)]; rewrite B1 in E; exfalso; qlra. }
  match goal with |- context [if ?c then _ else _] => destruct c eqn:E end; [left|right]; (split; [reflexivity|]).
  - right. unfold same_side. rewrite !orb_true_iff, !andb_true_iff, !K in E. tauto.
  - split; [reflexivity|]. intro S. apply not_true_iff_false in E. apply E. unfold same_side in S. rewrite !orb_true_iff, !andb_true_iff, !K. tauto.
Qed.
Print Assumptions C432_edge_cases.
Example C432_case : match_edge_cases same [zpt 0 1; zpt 1 1; zpt 0 2] (zpt 0 0, zpt 3 3) (tz 0) = Ok (Some [zpt 0 1; zpt 1 1; zpt 0 2]) /\ match_edge_cases same [zpt 0 1; zpt 1 1; zpt 1 3] (zpt 0 0, zpt 3 3) (tz 0) = Ok None.
Proof. split; vm_compute; reflexivity. Qed.
