(* Theorems about triangles, segments and rays. *)
From Coq Require Import List ZArith Lia Bool QArith Qcanon Permutation Sorted.
From Verif Require Import Common ListLib QcLib ArrZ RtreeModel AabbModel AabbSpec BvhModel BvhSpec MolModel MolSpec MolProofs1 MolProofs2 MolProofs3 MolProofs4 MolProofs5 MolProofs6.
Import ListNotations.
Local Open Scope Z_scope.
Local Open Scope Qc_scope.

(* concrete data for the cases *)
Definition zq (a : Z) : Qc := Q2Qc (a # 1).
Definition c3 (a b c : Z) : v3 := (zq a, zq b, zq c).
Ltac p3q := apply p3_eq; apply Qc_is_canon; vm_compute; reflexivity.
Definition t0 : tri := (c3 0 0 0, c3 4 0 0, c3 0 4 0).
Definition t1 : tri := (c3 0 0 5, c3 4 0 6, c3 0 4 7).
Definition up : v3 * v3 := (c3 1 1 (-1), c3 1 1 1).
Definition up9 : v3 * v3 := (c3 1 1 (-1), c3 1 1 9).

(* ---- C246: the points returned are on both ---- *)
Theorem C246_triangle_sound : forall t s e p, tri_segment t s e = Some p ->
  (exists r, - eps8 <= r /\ r <= 1 + eps8 /\ p = seg_at (s, e) r) /\ near_tri eps8 t p /\ big (span6 t s e).
Proof. exact tri_sound. Qed.
Print Assumptions C246_triangle_sound.
Example C246_case : tri_segment t0 (fst up) (snd up) = Some (c3 1 1 0) /\ intersect_triangle_segment t0 (fst up) (snd up) (c3 7 7 7) = (1%Z, c3 1 1 0) /\
  intersect_triangle_segment t1 (fst up) (snd up) (c3 7 7 7) = (0%Z, c3 7 7 7).
Proof. repeat split; vm_compute; reflexivity. Qed.

(* ---- C247: a common point is found ---- *)
Theorem C247_triangle_complete_partial : forall t s e r u w, big (span6 t s e) -> - eps8 <= r -> r <= 1 + eps8 ->
  - eps8 <= u -> u <= 1 + eps8 -> - eps8 <= w -> u + w <= 1 + eps8 -> seg_at (s, e) r = tri_at t u w ->
  tri_segment t s e = Some (seg_at (s, e) r).
Proof. exact tri_found. Qed.
Print Assumptions C247_triangle_complete_partial.
Theorem C247_triangle_complete_refuted :
  (forall t s e, exists k, 0 < k /\ forall k', 0 < k' -> k' <= k -> tri_segment (scaled_tri k' t) (scaled k' s) (scaled k' e) = None) /\
  (forall t s e, span6 t s e = 0 -> tri_segment t s e = None) /\
  (exists t s e, in_tri t (seg_at (s, e) half) /\ forall k, in_tri (scaled_tri k t) (seg_at (scaled k s, scaled k e) half)).
Proof.
  split; [exact tri_scaled_none|]. split.
  - intros t s e Z0. pose proof eps8_pos as E0. apply tri_small; rewrite Z0; qlra.
  - exists t0, (fst up), (snd up).
    assert (G : forall k, in_tri (scaled_tri k t0) (seg_at (scaled k (fst up), scaled k (snd up)) half)).
    { intros k. exists (Q2Qc (1 # 4)), (Q2Qc (1 # 4)). split; [now vm_compute|]. split; [now vm_compute|]. split; [now vm_compute|].
      unfold scaled_tri, scaled, t0, up, c3, tri_at, seg_at, vx, vy, vz. cbn [fst snd].
      assert (Hh : 1 - half = half) by (apply Qc_is_canon; vm_compute; reflexivity). rewrite Hh.
      assert (Z1 : zq (-1) = - zq 1) by (apply Qc_is_canon; vm_compute; reflexivity). assert (Z0 : zq 0 = 0) by (apply Qc_is_canon; vm_compute; reflexivity).
      assert (Z4 : Q2Qc (1 # 4) * zq 4 = 1) by (apply Qc_is_canon; vm_compute; reflexivity). assert (Zo : zq 1 = 1) by (apply Qc_is_canon; vm_compute; reflexivity).
      assert (H2 : half + half = 1) by (apply Qc_is_canon; vm_compute; reflexivity).
      rewrite Z1, Z0, Zo. apply p3_eq.
      - transitivity (k * (half + half)); [ring|]. rewrite H2. transitivity (k * (Q2Qc (1 # 4) * zq 4)); [rewrite Z4; ring|ring].
      - transitivity (k * (half + half)); [ring|]. rewrite H2. transitivity (k * (Q2Qc (1 # 4) * zq 4)); [rewrite Z4; ring|ring].
      - ring. }
    split; [|exact G]. exists (Q2Qc (1 # 4)), (Q2Qc (1 # 4)). split; [now vm_compute|]. split; [now vm_compute|]. split; [now vm_compute|]. p3q.
Qed.
Print Assumptions C247_triangle_complete_refuted.
Example C247_partial_case : big (span6 t0 (fst up) (snd up)) /\ seg_at up half = tri_at t0 (Q2Qc (1 # 4)) (Q2Qc (1 # 4)).
Proof. split; [right; now vm_compute|p3q]. Qed.
Example C247_case : tri_segment (scaled_tri (Q2Qc (1 # 1000)) t0) (scaled (Q2Qc (1 # 1000)) (fst up)) (scaled (Q2Qc (1 # 1000)) (snd up)) <> None /\
  tri_segment (scaled_tri (Q2Qc (1 # 2000)) t0) (scaled (Q2Qc (1 # 2000)) (fst up)) (scaled (Q2Qc (1 # 2000)) (snd up)) = None.
Proof. split; [vm_compute; discriminate|vm_compute; reflexivity]. Qed.

(* ---- C248: the direction of the segment ---- *)
Theorem C248_direction : forall t s e, tri_segment t e s = tri_segment t s e.
Proof. exact tri_rev. Qed.
Print Assumptions C248_direction.
Example C248_case : tri_segment t1 (c3 1 1 9) (c3 1 1 0) = tri_segment t1 (c3 1 1 0) (c3 1 1 9) /\ tri_segment t1 (c3 1 1 9) (c3 1 1 0) <> None.
Proof. split; [vm_compute; reflexivity|vm_compute; discriminate]. Qed.

(* ---- C249: corner, side or inside ---- *)
Theorem C249_classes_partial : forall p t,
  (classify p t = 2%Z <-> near_corner eps8 t p) /\
  (on_side t p -> ~ near_corner eps8 t p -> classify p t = 3%Z) /\
  (classify p t = 1%Z -> ~ on_side t p /\ ~ near_corner eps8 t p) /\
  (classify p t = 1%Z \/ classify p t = 2%Z \/ classify p t = 3%Z).
Proof. intros p t. split; [apply classify_2|]. split; [apply classify_side|]. split; [apply classify_1|apply classify_range]. Qed.
Print Assumptions C249_classes_partial.
Theorem C249_classes_refuted : 
  (forall p t, exists k, 0 < k /\ forall k', 0 < k' -> k' <= k -> classify (scaled k' p) (scaled_tri k' t) = 2%Z) /\
  (exists p t, in_tri t p /\ ~ on_side t p /\ ~ near_corner eps8 t p /\ classify p t = 3%Z).
Proof.
  split; [intros; apply classify_scaled|].
  set (m := Q2Qc (1 # 10000)). set (tt := ((0, 0, 0), (m, 0, 0), (0, m, 0)) : tri). set (p := (Q2Qc (1 # 40000), Q2Qc (1 # 40000), 0) : v3).
  exists p, tt. split; [|split; [|split]].
  - exists (Q2Qc (1 # 4)), (Q2Qc (1 # 4)). split; [now vm_compute|]. split; [now vm_compute|]. split; [now vm_compute|]. p3q.
  - intros [[r [R0 [R1 E]]] | [[r [R0 [R1 E]]] | [r [R0 [R1 E]]]]]; unfold seg_at, vx, vy, vz, p in E; cbn [fst snd] in E; apply p3_inv in E; destruct E as [E1 [E2 _]].
    + assert (X : Q2Qc (1 # 40000) = 0) by (rewrite E2; ring). vm_compute in X. discriminate.
    + assert (X : Q2Qc (1 # 40000) + Q2Qc (1 # 40000) = m) by (rewrite E1 at 1; rewrite E2; ring). vm_compute in X. discriminate.
    + assert (X : Q2Qc (1 # 40000) = 0) by (rewrite E1; ring). vm_compute in X. discriminate.
  - rewrite <- classify_2. intros X. vm_compute in X. discriminate.
  - vm_compute. reflexivity.
Qed.
Print Assumptions C249_classes_refuted.
Example C249_case : classify (c3 1 1 0) t0 = 1%Z /\ classify (c3 4 0 0) t0 = 2%Z /\ classify (c3 2 0 0) t0 = 3%Z /\ classify (c3 2 2 0) t0 = 3%Z.
Proof. repeat split; vm_compute; reflexivity. Qed.

(* ---- C250: the first triangle of a list ---- *)
Theorem C250_first_triangle : forall s e ts, match intersect_triangles_segment_one ts s e with
  | (Some p, f) => f = 1%Z /\ exists l1 t l2, ts = l1 ++ t :: l2 /\ Forall (fun t => tri_segment t s e = None) l1 /\ tri_segment t s e = Some p
  | (None, f) => f = 0%Z /\ Forall (fun t => tri_segment t s e = None) ts end.
Proof. exact one_ok. Qed.
Print Assumptions C250_first_triangle.
Example C250_case : intersect_triangles_segment_one [t1; t0] (fst up) (snd up) = (Some (c3 1 1 0), 1%Z) /\ intersect_triangles_segment_one [t1] (fst up) (snd up) = (None, 0%Z).
Proof. split; vm_compute; reflexivity. Qed.

(* ---- C251: the documented flags of the first triangle: 1 corner, 2 side, 4 inside ---- *)
Theorem C251_flag_refuted : forall s e t, (exists p, tri_segment t s e = Some p /\ ~ near_corner eps8 t p) ->
  snd (intersect_triangles_segment_one [t] s e) = 1%Z.
Proof. intros s e t [p [E _]]. cbn. rewrite E. reflexivity. Qed.
Print Assumptions C251_flag_refuted.
Example C251_case : tri_segment t0 (fst up) (snd up) = Some (c3 1 1 0) /\ ~ near_corner eps8 t0 (c3 1 1 0).
Proof. split; [vm_compute; reflexivity|]. rewrite <- classify_2. vm_compute. discriminate. Qed.

(* ---- C252: the batch version works row by row ---- *)
Theorem C252_batch : forall s e ts outs flags, (lenZ ts <= lenZ outs)%Z -> (lenZ ts <= lenZ flags)%Z ->
  exists o f, intersect_triangles_segment ts s e outs flags = Ok (o, f) /\ rows_done s e ts (fun i => (i < lenZ ts)%Z) outs flags o f.
Proof. exact batch_ok. Qed.
Print Assumptions C252_batch.
Example C252_case : intersect_triangles_segment [t1; t0] (fst up) (snd up) [c3 7 7 7; c3 8 8 8; c3 9 9 9] [5; 5; 5]%Z = Ok ([c3 7 7 7; c3 1 1 0; c3 9 9 9], [0; 1; 5]%Z).
Proof. vm_compute. reflexivity. Qed.

(* ---- C253: the parallel version ---- *)
Theorem C253_parallel_partial : forall s e ts cs sched m, whole s e ts cs sched -> Permutation (concat cs) (map Z.of_nat (seq 0 (length ts))) ->
  (lenZ ts <= lenZ (souts m))%Z -> (lenZ ts <= lenZ (sflags m))%Z ->
  exists m' hs', run_threads s e ts sched m (start_threads cs) = Ok (m', hs') /\ Forall (fun h => todo h = []) hs' /\
    intersect_triangles_segment ts s e (souts m) (sflags m) = Ok (souts m', sflags m').
Proof.
  intros s e ts cs sched m W P Lo Lf.
  assert (R : forall i, In i (concat cs) <-> (0 <= i < lenZ ts)%Z).
  { intros i. split.
    - intros I. apply (Permutation_in _ P), in_map_iff in I. destruct I as [n [<- I]]. apply in_seq in I. unfold lenZ. lia.
    - intros I. apply (Permutation_in _ (Permutation_sym P)), in_map_iff. exists (Z.to_nat i). unfold lenZ in I. split; [lia|]. apply in_seq. lia. }
  assert (ND : NoDup (concat cs)).
  { apply (Permutation_NoDup (Permutation_sym P)). apply FinFun.Injective_map_NoDup; [|apply seq_NoDup]. intros a b E. lia. }
  set (tz := ((0, 0, 0), (0, 0, 0), (0, 0, 0))%Qc : tri).
  assert (Rd : forall i, (0 <= i < lenZ ts)%Z -> exists t oi, rdZ ts i = Ok t /\ rdZ (souts m) i = Ok oi).
  { intros i I. exists (atZ tz ts i), (atZ ((0, 0, 0)%Qc : v3) (souts m) i). split; apply rdZ_ok; lia. }
  destruct (whole_ok s e ts cs sched W m (fun _ => False) (souts m) (sflags m)) as [m' [hs' [E [D RD]]]].
  - apply rows_start.
  - exact ND.
  - intros i I. split; [tauto|]. apply R in I. destruct (Rd i I) as [t [oi [T O]]]. exists t, oi. repeat split; auto; lia.
  - exists m', hs'. split; [exact E|]. split; [exact D|].
    destruct (batch_ok s e ts (souts m) (sflags m) Lo Lf) as [o [f [Eb RB]]]. rewrite Eb.
    assert (Q : rows_done s e ts (fun i => (0 <= i < lenZ ts)%Z) (souts m) (sflags m) (souts m') (sflags m')).
    { eapply rows_ext; [|exact RD]. intros i I. cbv beta. rewrite R. tauto. }
    assert (Q' : rows_done s e ts (fun i => (0 <= i < lenZ ts)%Z) (souts m) (sflags m) o f).
    { eapply rows_ext; [|exact RB]. intros i I. cbv beta. lia. }
    assert (DD : forall i, (0 <= i)%Z -> (0 <= i < lenZ ts)%Z \/ ~ (0 <= i < lenZ ts)%Z) by (intros; lia).
    destruct (rows_unique s e ts _ _ _ _ _ _ _ DD (fun i _ I => Rd i I) Q' Q) as [-> ->]. reflexivity.
Qed.
Print Assumptions C253_parallel_partial.
Theorem C253_parallel_refuted : forall s e a b p m f0 f1 o0 o1, tri_segment a s e = Some p -> tri_segment b s e = None ->
  souts m = [o0; o1] -> sflags m = [f0; f1] ->
  intersect_triangles_segment [a; b] s e (souts m) (sflags m) = Ok ([p; o1], [classify p a; 0%Z]) /\
  (exists sched m' hs', run_threads s e [a; b] sched m (start_threads [[0%Z]; [1%Z]]) = Ok (m', hs') /\ Forall (fun h => todo h = []) hs' /\ sflags m' = [0; 0]%Z) /\
  (exists sched m' hs', run_threads s e [a; b] sched m (start_threads [[0%Z]; [1%Z]]) = Ok (m', hs') /\ Forall (fun h => todo h = []) hs' /\
     sflags m' = [classify p a; classify p a] /\ souts m' = [p; p]).
Proof.
  intros s e a b p m f0 f1 o0 o1 Ha Hb Eo Ef. split; [|exact (race s e a b p m f0 f1 o0 o1 Ha Hb Eo Ef)].
  rewrite Eo, Ef. unfold intersect_triangles_segment. change (lenZ [a; b]) with 2%Z.
  assert (B0 : batch_body s e [a; b] 0 ([o0; o1], [f0; f1]) = Ok ([p; o1], [classify p a; f1])) by (unfold batch_body; change (rdZ [a; b] 0%Z) with (@Ok tri a); cbn [bind]; rewrite Ha; reflexivity).
  assert (B1 : batch_body s e [a; b] 1 ([p; o1], [classify p a; f1]) = Ok ([p; o1], [classify p a; 0%Z])) by (unfold batch_body; change (rdZ [a; b] 1%Z) with (@Ok tri b); cbn [bind]; rewrite Hb; reflexivity).
  unfold forZ. change (Z.to_nat (2 - 0)) with 2%nat. cbn [for_n]. rewrite B0. cbn [bind]. change (0 + 1)%Z with 1%Z. rewrite B1. reflexivity.
Qed.
Print Assumptions C253_parallel_refuted.
Example C253_case : tri_segment t0 (fst up) (snd up) = Some (c3 1 1 0) /\ tri_segment t1 (fst up) (snd up) = None /\ classify (c3 1 1 0) t0 <> 0%Z.
Proof. split; [vm_compute; reflexivity|]. split; [vm_compute; reflexivity|vm_compute; discriminate]. Qed.
Example C253_partial_case : exists sched, whole (fst up) (snd up) [t1; t0] [[1%Z]; [0%Z]] sched /\ length sched = 25%nat.
Proof.
  eexists. split.
  - apply (whole_iter _ _ _ _ 1%Z 0%Z [] [[1%Z]; []]); [reflexivity|reflexivity|].
    apply (whole_iter _ _ _ _ 0%Z 1%Z [] [[]; []]); [reflexivity|reflexivity|]. apply whole_end. repeat constructor.
  - vm_compute. reflexivity.
Qed.

(* ---- C254: what every interleaving keeps ---- *)
Theorem C254_interleavings : forall s e ts (D : Z -> Prop) cs sched m, Forall (fun h => 0 <= h < lenZ cs)%Z sched ->
  (forall i, In i (concat cs) -> D i /\ (0 <= i < lenZ ts)%Z /\ (i < lenZ (souts m))%Z /\ (i < lenZ (sflags m))%Z) ->
  exists m' hs', run_threads s e ts sched m (start_threads cs) = Ok (m', hs') /\ kept D (souts m) (souts m') (sflags m) (sflags m').
Proof.
  intros s e ts D cs sched m F B. apply all_kept.
  - unfold lenZ, start_threads in *. rewrite map_length. exact F.
  - split; [reflexivity|]. split; [reflexivity|]. intros i _. split; [auto|]. intros _. left. reflexivity.
  - intros h i Ih Ii. unfold start_threads in Ih. apply in_map_iff in Ih. destruct Ih as [c [<- Ic]]. cbn [todo] in Ii. apply B. apply in_concat. exists c. auto.
Qed.
Print Assumptions C254_interleavings.
Example C254_case : forall i, In i (concat [[0%Z]; [1%Z]]) -> (i < 2)%Z /\ (0 <= i < lenZ [t0; t1])%Z.
Proof. intros i [<- | [<- | []]]; vm_compute; repeat split; congruence. Qed.

(* concrete trees *)
Lemma built_of ts l n fuel t s : triangles ts = Ok l -> ts <> [] -> (1 <= n)%Z -> build_bvh fuel l n = Ok (t, s) -> built t l n.
Proof.
  intros Ht N Hn B. destruct (triangles_ok ts) as [l' [Et [Ev Bx]]]. rewrite Ht in Et. injection Et as <-. split; [exact Hn|]. split; [intros ->; cbn in Ev; congruence|].
  split; [|eauto]. eapply Forall_impl; [|exact Bx]. intros o [M _]. exact M.
Qed.
Definition mesh : list tri := [t1; (c3 9 0 0, c3 9 4 1, c3 8 0 4)].
Definition flat_mesh : list tri := [t0; (c3 9 0 0, c3 9 4 0, c3 8 0 0)].
Definition tree_of (ts : list tri) (n : Z) : bvh tri := match build_triangles 9 ts n with Ok t => t | Err _ => BLeaf (mkbox (c3 0 0 0) (c3 0 0 0)) (Many (mkbox (c3 0 0 0) (c3 0 0 0)) []) end.
Definition objs_of (ts : list tri) : list (obj tri) := match triangles ts with Ok l => l | Err _ => [] end.
Lemma tree_built ts n : ts <> [] -> (1 <= n)%Z -> (length ts < 9)%nat -> triangles ts = Ok (objs_of ts) /\ built (tree_of ts n) (objs_of ts) n.
Proof.
  intros N Hn L. destruct (triangles_ok ts) as [l [Et [Ev Bx]]]. unfold objs_of. rewrite Et. split; [reflexivity|].
  assert (Ll : length l = length ts) by (rewrite <- Ev; now rewrite map_length).
  destruct (BvhProofs.build_ok n Hn 9 l) as [t [s [B _]]]; [intros ->; cbn in Ll; destruct ts; [congruence|discriminate]| |lia|].
  - eapply Forall_impl; [|exact Bx]. intros o [M _]. exact M.
  - unfold tree_of, build_triangles. rewrite Et. cbn [bind]. rewrite B. cbn [bind]. eapply built_of; eauto.
Qed.

(* ---- C255: the answer for a segment and a mesh ---- *)
Theorem C255_mesh_sound : forall t l n seg, built t l n -> plain3 (vsub (snd seg) (fst seg)) -> exists k, forall fuel, (k < fuel)%nat ->
  exists a, mesh_segment_one fuel t n seg = Ok a /\ forall p o, a = Some (p, o) ->
    exists x, In x (held o) /\ In x l /\ near_tri eps8 (value x) p /\ exists r, - eps8 <= r /\ r <= 1 + eps8 /\ p = seg_at seg r.
Proof. exact mesh_one_sound. Qed.
Print Assumptions C255_mesh_sound.
Example C255_case : match mesh_segment_one 20 (tree_of mesh 1) 1 up9 with Ok (Some (p, One x)) => p = (1, 1, Q2Qc (23 # 4)) /\ value x = t1 | _ => False end.
Proof. vm_compute. split; reflexivity. Qed.

(* ---- C256: no triangle is overlooked ---- *)
Theorem C256_mesh_complete_partial : forall ts t l n seg, triangles ts = Ok l -> built t l n -> plain3 (vsub (snd seg) (fst seg)) -> exists k, forall fuel, (k < fuel)%nat ->
  (exists x r, In x l /\ 0 <= r /\ r <= 1 /\ in_tri (value x) (seg_at seg r) /\ big_in (obox x) (value x) seg) ->
  exists p o, mesh_segment_one fuel t n seg = Ok (Some (p, o)).
Proof. exact mesh_one_complete. Qed.
Print Assumptions C256_mesh_complete_partial.
Theorem C256_mesh_complete_refuted :
  (forall ts t l seg, triangles ts = Ok l -> Forall axis_flat ts -> built t l 1 -> plain3 (vsub (snd seg) (fst seg)) -> exists k, forall fuel, (k < fuel)%nat ->
     mesh_segment_one fuel t 1 seg = Ok None) /\
  exists ts t l seg x r, triangles ts = Ok l /\ Forall axis_flat ts /\ built t l 1 /\ plain3 (vsub (snd seg) (fst seg)) /\
    In x l /\ 0 <= r /\ r <= 1 /\ in_tri (value x) (seg_at seg r) /\ big (span6 (value x) (fst seg) (snd seg)).
Proof.
  split; [exact mesh_one_flat|]. destruct (tree_built flat_mesh 1) as [Et Hb]; [discriminate|lia|cbn; lia|].
  exists flat_mesh, (tree_of flat_mesh 1), (objs_of flat_mesh), up, (hd {| obox := mkbox (c3 0 0 0) (c3 0 0 0); value := t1 |} (objs_of flat_mesh)), half.
  split; [exact Et|]. split; [repeat constructor; exists 2%nat; split; [lia|repeat split|lia|repeat split]|]. split; [exact Hb|].
  assert (Ev : value (hd {| obox := mkbox (c3 0 0 0) (c3 0 0 0); value := t1 |} (objs_of flat_mesh)) = t0) by (vm_compute; reflexivity). rewrite Ev.
  split; [unfold plain3, plain; repeat split; first [left; apply Qc_is_canon; vm_compute; reflexivity | right; left; vm_compute; discriminate]|].
  split; [|split; [now vm_compute|split; [now vm_compute|split]]].
  - vm_compute. left. reflexivity.
  - exists (Q2Qc (1 # 4)), (Q2Qc (1 # 4)). split; [now vm_compute|]. split; [now vm_compute|]. split; [now vm_compute|]. p3q.
  - right. now vm_compute.
Qed.
Print Assumptions C256_mesh_complete_refuted.
Example C256_case : mesh_segment_one 20 (tree_of flat_mesh 1) 1 up = Ok None /\ tri_segment t0 (fst up) (snd up) = Some (c3 1 1 0) /\
  match mesh_segment_one 20 (tree_of mesh 2) 2 up9 with Ok (Some (p, Many _ _)) => p = (1, 1, Q2Qc (23 # 4)) | _ => False end.
Proof. split; [vm_compute; reflexivity|]. split; vm_compute; reflexivity. Qed.

(* ---- C257: the triangles met by a ray ---- *)
Theorem C257_ray_partial : forall ts t l ray, triangles ts = Ok l -> built t l 1 -> plain3 (vsub (snd ray) (fst ray)) ->
  (forall cut, segment_aabb_clip (corners (node_box t)) ray = Some cut -> plain3 (vsub (snd cut) (fst cut))) ->
  exists k, forall fuel, (k < fuel)%nat -> exists r, mesh_ray fuel t ray = Ok r /\
  (forall p x key, In (p, x, key) r -> In x l /\ near_tri eps8 (value x) p /\ exists u, - eps8 <= u /\ u <= 1 + eps8 /\ p = seg_at ray u) /\
  (forall x u, In x l -> 0 <= u -> u <= 1 -> in_tri (value x) (seg_at ray u) -> big_in (node_box t) (value x) ray -> exists key, In (seg_at ray u, x, key) r) /\
  StronglySorted (not_after ray) r.
Proof. exact ray_ok. Qed.
Print Assumptions C257_ray_partial.
Theorem C257_ray_refuted : forall ts t l ray i c, triangles ts = Ok l -> built t l 1 -> plain3 (vsub (snd ray) (fst ray)) ->
  (forall cut, segment_aabb_clip (corners (node_box t)) ray = Some cut -> plain3 (vsub (snd cut) (fst cut))) ->
  (i < 3)%nat -> Forall (fun a => flat_along i a /\ comp (fst (fst a)) i = c) ts ->
  exists k, forall fuel, (k < fuel)%nat -> mesh_ray fuel t ray = Ok [].
Proof. intros. eapply ray_flat; eassumption. Qed.
Print Assumptions C257_ray_refuted.
Example C257_case : mesh_ray 20 (tree_of flat_mesh 1) up9 = Ok [] /\ tri_segment t0 (fst up9) (snd up9) = Some (c3 1 1 0) /\
  Forall (fun a => flat_along 2 a /\ comp (fst (fst a)) 2 = 0) flat_mesh.
Proof. split; [vm_compute; reflexivity|]. split; [vm_compute; reflexivity|]. repeat constructor. Qed.
Definition stack2 : list tri := [(c3 0 0 7, c3 4 0 8, c3 0 4 9); t1].
Example C257_partial_case : match mesh_ray 20 (tree_of stack2 1) up9 with Ok [(p, x, _); (q, y, _)] => p = (1, 1, Q2Qc (23 # 4)) /\ q = (1, 1, Q2Qc (31 # 4)) /\ value x = t1 | _ => False end.
Proof. vm_compute. repeat split; reflexivity. Qed.

(* ---- C258: the number with a point of a ray ---- *)
Theorem C258_ray_distance_refuted : forall ts t l ray, triangles ts = Ok l -> built t l 1 -> plain3 (vsub (snd ray) (fst ray)) ->
  (forall cut, segment_aabb_clip (corners (node_box t)) ray = Some cut -> plain3 (vsub (snd cut) (fst cut))) ->
  exists k, forall fuel, (k < fuel)%nat -> exists r, mesh_ray fuel t ray = Ok r /\ forall p x key, In (p, x, key) r ->
    exists cut, segment_aabb_clip (corners (node_box t)) ray = Some cut /\ key * key = sqdist (fst cut) (snd cut) * sqdist (fst ray) p /\
      (p <> fst ray -> sqdist (fst cut) (snd cut) <> 1 -> key * key <> sqdist (fst ray) p).
Proof.
  intros ts t l ray Ht H Pl Pc. destruct (ray_keys t l ray H Pl Pc) as [k G]. exists k. intros fuel F. destruct (G fuel F) as [r [E R]]. exists r. split; [exact E|].
  intros p x key I. destruct (R p x key I) as [cut [Ec K]]. exists cut. split; [exact Ec|]. split; [exact K|]. intros Np N1 X. rewrite X in K.
  assert (D : (sqdist (fst cut) (snd cut) - 1) * sqdist (fst ray) p = 0) by (transitivity (sqdist (fst cut) (snd cut) * sqdist (fst ray) p - sqdist (fst ray) p); [ring|rewrite <- K; ring]).
  apply Qcmult_integral in D. destruct D as [D|D]; [apply N1; qlra|]. apply Np.
  unfold sqdist in D. destruct (fst ray) as [[a b] c], p as [[a' b'] c']. unfold vx, vy, vz in D. cbn [fst snd] in D.
  pose proof (sqs (a - a')) as X1. pose proof (sqs (b - b')) as X2. pose proof (sqs (c - c')) as X3.
  assert (Q : forall z : Qc, z * z = 0 -> z = 0) by (intros z Hz; destruct (Qcmult_integral _ _ Hz); assumption).
  assert (Y1 : a - a' = 0) by (apply Q; qlra). assert (Y2 : b - b' = 0) by (apply Q; qlra). assert (Y3 : c - c' = 0) by (apply Q; qlra). apply p3_eq; qlra.
Qed.
Print Assumptions C258_ray_distance_refuted.
Example C258_case : match mesh_ray 20 (tree_of stack2 1) up9 with Ok [(p, _, k); _] => p = (1, 1, Q2Qc (23 # 4)) /\ k = Q2Qc (27 # 1) | _ => False end.
Proof. vm_compute. split; reflexivity. Qed.

(* ---- C259: rays and leaves with several triangles ---- *)
Theorem C259_ray_leaves_refuted : forall ts t l n ray, triangles ts = Ok l -> built t l n -> (1 < n)%Z -> plain3 (vsub (snd ray) (fst ray)) ->
  (forall cut, segment_aabb_clip (corners (node_box t)) ray = Some cut -> plain3 (vsub (snd cut) (fst cut))) ->
  (exists x u, In x l /\ 0 <= u /\ u <= 1 /\ in_tri (value x) (seg_at ray u)) ->
  exists k, forall fuel, (k < fuel)%nat -> mesh_ray fuel t ray = Err AttributeError.
Proof. exact ray_compound. Qed.
Print Assumptions C259_ray_leaves_refuted.
Example C259_case : mesh_ray 20 (tree_of stack2 2) up9 = Err AttributeError /\ tri_segment t1 (fst up9) (snd up9) <> None.
Proof. split; [vm_compute; reflexivity|vm_compute; discriminate]. Qed.
