(* The boundary representation and boundary intersections: theorems and concrete cases. *)
From Coq Require Import List ZArith Lia Bool QArith Qcanon Permutation.
From Verif Require Import Common QcLib ArrZ NurbsModel NurbsSpec SurfModel SurfSpec BrepModel BrepSpec BrepProofs1 BrepProofs2 BrepProofs3 BrepProofs4.
Import ListNotations.
Local Open Scope Z_scope.
Local Open Scope Qc_scope.

Definition q (a : Z) (b : positive) : Qc := Q2Qc (a # b).
Definition p3 (x y z : Z) : tri := (q x 1, q y 1, q z 1).
Ltac canon := apply Qc_is_canon; vm_compute; reflexivity.
Ltac ne := let E := fresh in intro E; vm_compute in E; discriminate E.
(* a hash for the cases: mixes the numerators of the content *)
Definition mix (l : list Z) : Z := fold_left (fun a x => (a * 31 + x)%Z) l 7%Z.
Definition h0 (k : hkey) : Z :=
  match k with
  | KP c => mix (map (fun x : Z * bool => (2 * fst x + if snd x then 1 else 0)%Z) c)
  | KC d u p _ => mix (d :: map (fun x : Qc => Qnum (this x)) u ++ map (fun x : pt => Qnum (this (px x))) p)
  | KS d e u v p _ => mix (d :: e :: map (fun x : Qc => Qnum (this x)) u)
  end.
Definition pnt (x y z : Z) : geom := GPoint [q x 1; q y 1; q z 1].

(* C338: adding geometry *)
Theorem C338_store_positions : forall h ops, let '(s, rs) := adds h empty_store ops in
  positions_right s /\ length rs = length ops /\
  forall n g c r, nth_error ops n = Some (g, c) -> nth_error rs n = Some r ->
    nth_error (bucket s (kind_of g)) (Z.to_nat (r_index r)) = Some r /\ (0 <= r_index r)%Z /\
    code h r = code h (mkrep 0 g) /\ (c = false -> r_value r = g).
Proof. exact store_positions. Qed.
Print Assumptions C338_store_positions.
Theorem C338_store_grows : forall h ops s k, exists t, bucket (fst (adds h s ops)) k = bucket s k ++ t.
Proof. exact adds_grow. Qed.
Print Assumptions C338_store_grows.
Theorem C338_store_merges : forall h ops s rs, adds h empty_store ops = (s, rs) -> (forall g c, In (g, c) ops -> c = true) ->
  forall k i j a b, nth_error (bucket s k) i = Some a -> nth_error (bucket s k) j = Some b -> code h a = code h b -> i = j.
Proof. exact store_merged. Qed.
Print Assumptions C338_store_merges.
Example C338_case : map r_index (snd (adds h0 empty_store [(pnt 1 2 3, true); (pnt 4 5 6, true); (pnt 1 2 3, true); (pnt 1 2 3, false)])) = [0; 1; 0; 2]%Z.
Proof. vm_compute. reflexivity. Qed.

(* C339: points at the same place are one point *)
Theorem C339_close_points_refuted : forall eps, 0 < eps -> exists x, 0 < - x /\ - x < eps /\
  forall h, no_clash h (GPoint [x; x; x]) (GPoint [0; 0; 0]) ->
  ~ exists r, snd (adds h empty_store [(GPoint [x; x; x], true); (GPoint [0; 0; 0], true)]) = [r; r].
Proof. exact close_not_merged. Qed.
Print Assumptions C339_close_points_refuted.
Theorem C339_merged_points_partial : forall h p p', no_clash h (GPoint p) (GPoint p') ->
  ((exists r, snd (adds h empty_store [(GPoint p, true); (GPoint p', true)]) = [r; r]) <-> map round8 p = map round8 p') /\
  (map round8 p = map round8 p' -> near grid8 p p').
Proof. exact (fun h p p' H => conj (merge_iff h p p' H) (merged_near p p')). Qed.
Print Assumptions C339_merged_points_partial.
Example C339_case :
  map r_index (snd (adds h0 empty_store [(GPoint [q (-1) 1000000000], true); (GPoint [0], true); (GPoint [q 1 1000000000], true)])) = [0; 1; 1]%Z /\
  no_clash h0 (GPoint [q (-1) 1000000000]) (GPoint [0]) /\ round8 (q 3 200000000) = (2%Z, false) /\ round8 (q 5 200000000) = (2%Z, false).
Proof. split; [vm_compute; reflexivity|]. split; [intro E; vm_compute in E; discriminate E|]. split; vm_compute; reflexivity. Qed.

(* C340: adding vertices *)
Theorem C340_vertices : forall h rs vs, NoDup (map (fun v => code h (v_rep v)) vs) ->
  let '(vs', xs) := add_vertices h vs rs in
  NoDup (map (fun v => code h (v_rep v)) vs') /\ (exists t, vs' = vs ++ t) /\ (forall v, In v xs -> In v vs') /\
  Forall2 (fun r v => code h (v_rep v) = code h r) rs xs.
Proof. exact add_vertices_spec. Qed.
Print Assumptions C340_vertices.
Theorem C340_unchecked : forall h vs r, let '(vs', v) := add_vertex h vs r false in v_rep v = r /\ vs' = vs ++ [v].
Proof. intros. reflexivity || (pose proof (add_vertex_spec h vs r false) as A; destruct (add_vertex h vs r false) as [vs' v]; exact (proj2 (proj2 (proj2 (proj2 A))) eq_refl)). Qed.
Print Assumptions C340_unchecked.
Example C340_case : let r k n := mkrep n (pnt k 0 0) in
  length (fst (add_vertices h0 [] [r 1 0; r 2 1; r 1 2]%Z)) = 2%nat /\ map (fun v => r_index (v_rep v)) (snd (add_vertices h0 [] [r 1 0; r 2 1; r 1 2]%Z)) = [0; 1; 0]%Z.
Proof. vm_compute. split; reflexivity. Qed.

(* C341: adding edges *)
Theorem C341_edge_ends_refuted : forall h r a b, code h (v_rep a) <> code h (v_rep b) ->
  add_edge h [mke r a b] r a a true = ([mke r a b], mke r a b).
Proof. exact add_edge_refuted. Qed.
Print Assumptions C341_edge_ends_refuted.
Theorem C341_edge_ends_partial : forall h es r a b c, code h (v_rep a) <> code h (v_rep b) -> let '(es', e) := add_edge h es r a b c in
  In e es' /\ code h (e_rep e) = code h r /\
  (code h (v_rep (e_start e)) = code h (v_rep a) /\ code h (v_rep (e_end e)) = code h (v_rep b) \/
   code h (v_rep (e_start e)) = code h (v_rep b) /\ code h (v_rep (e_end e)) = code h (v_rep a)) /\
  (es' = es \/ es' = es ++ [e] /\ (c = true -> forall x, In x es -> code h (e_rep x) = code h r ->
     ~ (code h (v_rep (e_start x)) = code h (v_rep a) /\ code h (v_rep (e_end x)) = code h (v_rep b)) /\
     ~ (code h (v_rep (e_start x)) = code h (v_rep b) /\ code h (v_rep (e_end x)) = code h (v_rep a)))).
Proof. exact add_edge_distinct. Qed.
Print Assumptions C341_edge_ends_partial.
Definition line (x : Z) : curve := mkcurve [mkpt 0 0 0 1; mkpt (q x 1) 0 0 1] 1 [0; 0; 1; 1] false (0, 1) [0; 1].
Definition rl : rep := mkrep 0 (GCurve (line 5)).
Definition va : vertex := mkv0 (mkrep 0 (pnt 0 0 0)).
Definition vb : vertex := mkv0 (mkrep 1 (pnt 5 0 0)).
Example C341_case : code h0 (v_rep va) <> code h0 (v_rep vb) /\ length (fst (add_edge h0 [mke rl va vb] rl va va true)) = 1%nat /\
  length (fst (add_edge h0 [mke rl va vb] rl vb va true)) = 1%nat /\ length (fst (add_edge h0 [mke rl va vb] (mkrep 1 (GCurve (line 6))) va vb true)) = 2%nat.
Proof. split; [ne|]. vm_compute. auto. Qed.

(* C342: adding faces *)
Theorem C342_face_holes_refuted : forall h hc f r l fs, code h (f_rep f) = code h r -> hd_error (f_loops f) = Some l ->
  add_face h hc (f :: fs) r [l] true = Ok (f :: fs, f) /\
  forall hole holes, add_face h hc (f :: fs) r (l :: hole :: holes) true = Err TypeError.
Proof. exact (fun h hc f r l fs C E => conj (face_holes_dropped h hc f r l C E fs) (fun hole holes => face_holes_raise h hc f r l hole holes C E fs)). Qed.
Print Assumptions C342_face_holes_refuted.
Theorem C342_face_outer_partial : forall h hc fs r l, (forall f, In f fs -> f_loops f <> []) ->
  exists f fs', add_face h hc fs r [l] true = Ok (fs', f) /\ In f fs' /\ code h (f_rep f) = code h r /\
    (exists k, hd_error (f_loops f) = Some k /\ l_id k = l_id l) /\
    (fs' = fs \/ fs' = fs ++ [f] /\ f = mkf r [l]).
Proof. exact face_single. Qed.
Print Assumptions C342_face_outer_partial.
Theorem C342_face_new_partial : forall h hc fs r ls,
  (forall f l k, In f fs -> code h (f_rep f) = code h r -> hd_error ls = Some l -> hd_error (f_loops f) = Some k -> l_id l <> l_id k) ->
  (ls <> [] /\ forall f, In f fs -> f_loops f <> []) -> forall c, add_face h hc fs r ls c = Ok (fs ++ [mkf r ls], mkf r ls).
Proof. exact face_new. Qed.
Print Assumptions C342_face_new_partial.
Definition sq : surface := mksurf [[mkpt 0 0 0 1; mkpt 0 1 0 1]; [mkpt 1 0 0 1; mkpt 1 1 0 1]] 1 1 [0; 0; 1; 1] [0; 0; 1; 1] ((0, 1), (0, 1)).
Definition rs : rep := mkrep 0 (GSurf sq).
Definition outer : loop := mkl 1 [mke rl va vb].
Definition inner : loop := mkl 2 [mke rl vb va].
Example C342_case : code h0 (f_rep (mkf rs [outer; inner])) = code h0 rs /\ hd_error (f_loops (mkf rs [outer; inner])) = Some outer /\
  option_map (fun x => length (f_loops (snd x))) (match add_face h0 mix [mkf rs [outer; inner]] rs [outer] true with Ok x => Some x | Err _ => None end) = Some 2%nat.
Proof. split; [reflexivity|]. split; [reflexivity|]. vm_compute. reflexivity. Qed.

(* C343: shells and solids *)
Theorem C343_shells_refuted : forall (A : Type) (l : list A) x, add_group l x true = Err TypeError /\ add_group l x false = Ok (l ++ [x], x).
Proof. intros. split; reflexivity. Qed.
Print Assumptions C343_shells_refuted.
Example C343_case : add_group [1; 2]%Z 3%Z false = Ok ([1; 2; 3], 3)%Z /\ add_group [1; 2]%Z 3%Z true = Err TypeError.
Proof. split; reflexivity. Qed.

(* C344: hashing topology *)
Theorem C344_hash_refuted : forall h hc, (forall e, pyhash h hc (py_edge e) = Err TypeError) /\ (forall l, pyhash h hc (py_loop l) = Err TypeError) /\
  (forall f, pyhash h hc (py_face f) = Err TypeError) /\
  (forall v, pyhash h hc (py_vertex v) = Ok (hc [code h (v_rep v)])) /\
  forall search c a b, ends_parameters h hc search c a b = Err TypeError.
Proof.
  exact (fun h hc => let '(conj a (conj b c)) := no_hash h hc in conj a (conj b (conj c (conj (vertex_hash h hc) (ends_raise h hc))))).
Qed.
Print Assumptions C344_hash_refuted.
Example C344_case : pyhash h0 mix (py_edge (mke rl va vb)) = Err TypeError /\ pyhash h0 mix (py_vertex va) = pyhash h0 mix (py_vertex (mkv0 (mkrep 9 (pnt 0 0 0)))) /\
  pyhash h0 mix (py_vertex va) <> pyhash h0 mix (py_vertex vb) /\ pyhash h0 mix (PyTuple [PyGeom (GCurve (line 5))]) <> Err TypeError.
Proof. split; [reflexivity|]. split; [reflexivity|]. split; ne. Qed.

(* C345: the symmetric table *)
Theorem C345_table_reads : forall ops a b,
  sp_get (writes ops) a b = match last_write ops a b with Some v => Ok v | None => Err KeyError end /\
  sp_get (writes ops) a b = sp_get (writes ops) b a.
Proof. exact sp_reads. Qed.
Print Assumptions C345_table_reads.
Theorem C345_table_rows : forall ops a,
  NoDup (map fst (sp_row (writes ops) a)) /\
  (forall k, In k (map fst (sp_row (writes ops) a)) <-> exists w, In w ops /\ (k = fst (fst w) \/ k = snd (fst w))) /\
  forall k o, In (k, o) (sp_row (writes ops) a) -> o = last_write ops a k.
Proof.
  intros ops a. destruct (sp_row_spec ops a) as [A B]. rewrite A. destruct (writes_keys ops) as [C D]. exact (conj C (conj D B)).
Qed.
Print Assumptions C345_table_rows.
Theorem C345_table_neighbours : forall ops a n, rget (sp_rc (writes ops)) a = Some n ->
  NoDup n /\ forall b, In b n <-> exists w, In w ops /\ touches a b w = true.
Proof. exact writes_neighbours. Qed.
Print Assumptions C345_table_neighbours.
Example C345_case : let t := writes [((1, 2), 10); ((2, 3), 20); ((2, 1), 30)]%Z in
  sp_get t 1 2 = Ok 30%Z /\ sp_get t 3 2 = Ok 20%Z /\ sp_get t 1 3 = Err KeyError /\ sp_row t 1 = [(1, None); (2, Some 30); (3, None)]%Z /\
  rget (sp_rc t) 2 = Some [1; 3]%Z.
Proof. vm_compute. auto. Qed.

(* C346: deleting from the table *)
Theorem C346_delete_refuted : forall ops a b v, last_write ops a b = Some v -> a <> b -> exists s', sp_del (writes ops) a b = Ok s' /\
  sp_get s' a b = Err KeyError /\ sp_get s' b a = Ok v.
Proof. exact sp_del_one_way. Qed.
Print Assumptions C346_delete_refuted.
Theorem C346_delete_partial : forall ops a b v s', last_write ops a b = Some v -> sp_del (writes ops) a b = Ok s' -> forall c d, (c, d) <> (a, b) ->
  sp_get s' c d = sp_get (writes ops) c d.
Proof. exact sp_del_again. Qed.
Print Assumptions C346_delete_partial.
Example C346_case : last_write [((1, 2), 10)]%Z 1 2 = Some 10%Z /\ (do t <- sp_del (writes [((1, 2), 10)]%Z) 1 2 ; sp_get t 2 1) = Ok 10%Z.
Proof. vm_compute. auto. Qed.

(* C347: the loop of a surface *)
Theorem C347_loop_vertices_partial : forall s pts es, surf_to_brep s = Ok (pts, es) -> exists bs ends,
  surface_boundaries s = Ok bs /\ mapR curve_ends bs = Ok ends /\ NoDup pts /\
  (forall x, In x pts -> exists e, In e ends /\ (x = fst e \/ x = snd e)) /\
  Forall2 (fun e ij => nth_error pts (fst ij) = Some (fst e) /\ nth_error pts (snd ij) = Some (snd e)) ends es.
Proof.
  intros s pts es. unfold surf_to_brep. destruct (surface_boundaries s) as [bs|]; [|discriminate]. cbn [bind].
  destruct (mapR curve_ends bs) as [ends|] eqn:M; [|discriminate]. cbn [bind]. intro E. exists bs, ends.
  pose proof (to_brep_spec ends [] (NoDup_nil _)) as H. injection E as E. rewrite E in H. destruct H as [A [_ [B C]]].
  split; [reflexivity|]. split; [exact M|]. split; [exact A|]. split; [|exact C]. intros x I. destruct (B x I) as [[]|X]. exact X.
Qed.
Print Assumptions C347_loop_vertices_partial.
Theorem C347_loop_chain_refuted : forall s A B C D, regular s -> weight_all s 1 ->
  evaluate_surface s (u_lo s) (v_lo s) = Ok A -> evaluate_surface s (u_lo s) (v_hi s) = Ok B ->
  evaluate_surface s (u_hi s) (v_lo s) = Ok C -> evaluate_surface s (u_hi s) (v_hi s) = Ok D -> NoDup [A; B; C; D] ->
  surf_to_brep s = Ok ([A; B; C; D], [(0, 1); (2, 3); (0, 2); (1, 3)]%nat) /\ ~ meet (0, 1)%nat (2, 3)%nat /\ ~ meet (0, 2)%nat (1, 3)%nat.
Proof.
  intros s A B C D G W a b c d N. split; [exact (surf_to_brep_corners s A B C D G W a b c d N)|].
  unfold meet. cbn [fst snd]. split; lia.
Qed.
Print Assumptions C347_loop_chain_refuted.
Lemma two_knots : valid_knots 1 1 [0; 0; 1; 1].
Proof.
  split; [lia|]. split; [reflexivity|]. split; [|reflexivity]. intros i j A B C. unfold lenZ in C. cbn in C.
  assert (I : i = 0%Z \/ i = 1%Z \/ i = 2%Z \/ i = 3%Z) by lia. assert (J : j = 0%Z \/ j = 1%Z \/ j = 2%Z \/ j = 3%Z) by lia.
  destruct I as [->|[->|[->| ->]]], J as [->|[->|[->| ->]]]; try lia; vm_compute; discriminate.
Qed.
Lemma two_clamped : clamped 1 1 [0; 0; 1; 1].
Proof.
  split; intros i Hi; [assert (I : i = 0%Z \/ i = 1%Z) by lia|assert (I : i = 2%Z \/ i = 3%Z) by lia]; destruct I as [->| ->]; reflexivity.
Qed.
(* a square patch with all weights w *)
Definition patch (w : Z) (z : Z) : surface :=
  mksurf [[mkpt 0 0 (q (w * z) 1) (q w 1); mkpt 0 (q (2 * w) 1) (q (w * z) 1) (q w 1)];
          [mkpt (q (2 * w) 1) 0 (q (w * z) 1) (q w 1); mkpt (q (2 * w) 1) (q (2 * w) 1) (q (w * z) 1) (q w 1)]] 1 1 [0; 0; 1; 1] [0; 0; 1; 1] ((0, 1), (0, 1)).
Lemma patch_valid w z : valid_surface (patch w z).
Proof. split; [split; [reflexivity|repeat constructor]|]. split; exact two_knots. Qed.
Lemma patch_regular w z : regular (patch w z).
Proof. split; [apply patch_valid|]. split; [reflexivity|]. split; [reflexivity|]. split; [reflexivity|]. split; exact two_clamped. Qed.
Lemma patch_weight w z : weight_all (patch w z) (q w 1).
Proof. repeat constructor. Qed.
Definition out (r : res tri) : option (Q * Q * Q) := match r with Ok (x, y, z) => Some (this x, this y, this z) | Err _ => None end.
Example C347_case : regular (patch 1 5) /\ weight_all (patch 1 5) 1 /\
  match surf_to_brep (patch 1 5) with Ok (pts, es) => length pts = 4%nat /\ es = [(0, 1); (2, 3); (0, 2); (1, 3)]%nat | Err _ => False end.
Proof.
  split; [apply patch_regular|]. split; [replace 1 with (q 1 1) by canon; apply patch_weight|]. vm_compute. auto.
Qed.

(* C348: iso curves *)
Theorem C348_isocurve_refuted : forall s w u v, valid_surface s -> (1 <= s_du s)%Z -> (1 <= s_dv s)%Z -> 0 < w -> weight_all s w ->
  range_u s u -> range_v s v -> in_dom s u v ->
  exists c d p, isocurve_u s u = Ok c /\ isocurve_v s v = Ok d /\ evaluate_surface s u v = Ok p /\
    evaluate c v = Ok (tscale w p) /\ evaluate d u = Ok (tscale w p) /\ (tscale w p = p -> w = 1 \/ p = (0, 0, 0)).
Proof.
  intros s w u v V Du Dv P W Ru Rv D. destruct (iso_u_eval s w u v V Dv P W Ru D) as [c [p [A [_ [B C]]]]].
  destruct (iso_v_eval s w u v V Du P W Rv D) as [d [p' [A' [_ [B' C']]]]]. rewrite B in B'. injection B' as <-.
  exact (ex_intro _ c (ex_intro _ d (ex_intro _ p (conj A (conj A' (conj B (conj C (conj C' (tscale_eq w p))))))))).
Qed.
Print Assumptions C348_isocurve_refuted.
Theorem C348_isocurve_partial : forall s u v, valid_surface s -> (1 <= s_du s)%Z -> (1 <= s_dv s)%Z -> weight_all s 1 ->
  range_u s u -> range_v s v -> in_dom s u v ->
  exists c d, isocurve_u s u = Ok c /\ isocurve_v s v = Ok d /\
    evaluate c v = evaluate_surface s u v /\ evaluate d u = evaluate_surface s u v.
Proof.
  intros s u v V Du Dv W Ru Rv D. destruct (iso_u_eval s 1 u v V Dv ltac:(reflexivity) W Ru D) as [c [p [A [_ [B C]]]]].
  destruct (iso_v_eval s 1 u v V Du ltac:(reflexivity) W Rv D) as [d [p' [A' [_ [B' C']]]]]. rewrite tscale_1 in C, C'.
  exists c, d. rewrite C, C'. rewrite B in B'. injection B' as <-. auto.
Qed.
Print Assumptions C348_isocurve_partial.
Theorem C348_isocurve_range : forall s t, (t < fst (fst (s_int s)) \/ snd (fst (s_int s)) < t -> isocurve_u s t = Err ValueError) /\
  (t < fst (snd (s_int s)) \/ snd (snd (s_int s)) < t -> isocurve_v s t = Err ValueError).
Proof. exact (fun s t => conj (iso_range_u s t) (iso_range_v s t)). Qed.
Print Assumptions C348_isocurve_range.
Theorem C348_isocurve_parts : forall s u, valid_surface s -> (1 <= s_dv s)%Z -> range_u s u -> knot (s_ku s) (s_du s) <= u ->
  exists c, isocurve_u s u = Ok c /\ c_deg c = s_dv s /\ c_knots c = s_kv s /\ c_per c = false /\ last_ix c = (s_nv s - 1)%Z /\
    c_int c = (knot (s_kv s) 0, knot (s_kv s) (s_nv s + s_dv s)).
Proof.
  intros s u V D R H. destruct (iso_u_parts s u V D R H) as [c [A [B [C [E [F [G _]]]]]]].
  exact (ex_intro _ c (conj A (conj B (conj C (conj E (conj F G)))))).
Qed.
Print Assumptions C348_isocurve_parts.
Example C348_case : valid_surface (patch 3 5) /\ weight_all (patch 3 5) (q 3 1) /\
  out (evaluate_surface (patch 3 5) (q 1 2) (q 1 4)) = Some (1 # 1, 1 # 2, 5 # 1)%Q /\
  out (do c <- isocurve_u (patch 3 5) (q 1 2) ; evaluate c (q 1 4)) = Some (3 # 1, 3 # 2, 15 # 1)%Q /\
  out (do c <- isocurve_v (patch 1 5) (q 1 4) ; evaluate c (q 1 2)) = Some (1 # 1, 1 # 2, 5 # 1)%Q.
Proof. split; [apply patch_valid|]. split; [apply patch_weight|]. vm_compute. auto. Qed.

(* C349: merging boundary points *)
Theorem C349_unique_points : forall csx s1 s2 tol b1 b2, 0 < tol -> surface_boundaries s1 = Ok b1 -> surface_boundaries s2 = Ok b2 ->
  exists ps, find_boundary_intersections csx s1 s2 tol = Ok ps /\
    pairwise (fun a b => tol * tol <= dist2 (ip_point a) (ip_point b)) ps /\
    (forall p, In p ps -> exists c s x, (In c b1 /\ s = s2 \/ In c b2 /\ s = s1) /\ In x (csx c s) /\ ip_point p = fst (fst x)) /\
    (forall c x, In c b1 -> In x (csx c s2) -> exists p, In p ps /\ (ip_point p = fst (fst x) \/ dist2 (fst (fst x)) (ip_point p) < tol * tol)) /\
    (forall c x, In c b2 -> In x (csx c s1) -> exists p, In p ps /\ (ip_point p = fst (fst x) \/ dist2 (fst (fst x)) (ip_point p) < tol * tol)).
Proof. exact found_all. Qed.
Print Assumptions C349_unique_points.
Theorem C349_unique_order : forall tol ps, 0 < tol -> subseq (unique_points tol ps) ps.
Proof. exact (fun tol ps H => proj1 (unique_spec tol ps H)). Qed.
Print Assumptions C349_unique_order.
Definition ip (x y z : Z) : ipoint := mkip (p3 x y z) 0 (0, 0) 0 true ((0, 1), (0, 1)).
Example C349_case : map (fun p => Qnum (this (fst (fst (ip_point p))))) (unique_points (q 3 1) [ip 0 0 0; ip 2 0 0; ip 4 0 0; ip 9 0 0; ip 7 0 0]) = [0; 4; 9]%Z.
Proof. vm_compute. reflexivity. Qed.

(* C350: boundary points in pairs *)
Theorem C350_pairs : forall order ps, walks order -> exists ss, sort_points order ps = Ok ss /\ Permutation (concat ss) ps /\ greedy ss.
Proof. exact sort_spec. Qed.
Print Assumptions C350_pairs.
Theorem C350_two_points : forall ss, greedy ss -> forall a b, ss = a ++ b -> b <> [] -> Forall (fun s => length s = 2%nat) a.
Proof. exact greedy_lengths. Qed.
Print Assumptions C350_two_points.
Example C350_case : walks (fun _ l => l) /\
  match sort_points (fun _ l => l) [ip 0 0 0; ip 9 0 0; ip 1 0 0; ip 8 0 0; ip 20 0 0] with
  | Ok ss => map (map (fun p => Qnum (this (fst (fst (ip_point p)))))) ss = [[0; 1]; [9; 8]; [20]]%Z
  | Err _ => False end.
Proof. split; [intros k l; apply Permutation_refl|]. vm_compute. reflexivity. Qed.

(* C351: the parameters of boundary points *)
Theorem C351_boundary_parameters_partial : forall csx s1 s2 tol ps, sound csx -> regular s1 -> regular s2 -> weight_all s1 1 -> weight_all s2 1 ->
  find_boundary_intersections csx s1 s2 tol = Ok ps -> forall p, In p ps ->
  evaluate_surface s1 (fst (params1 p)) (snd (params1 p)) = Ok (ip_point p) /\
  evaluate_surface s2 (fst (params2 p)) (snd (params2 p)) = Ok (ip_point p) /\
  start_params p = (params1 p, params2 p) /\
  (if ip_first p then on_side (s_int s1) (ip_index p) (ip_param p) (params1 p) else on_side (s_int s2) (ip_index p) (ip_param p) (params2 p)).
Proof. exact found_points. Qed.
Print Assumptions C351_boundary_parameters_partial.
(* with weights, a sound intersection routine still gives parameters of another point *)
Theorem C351_boundary_parameters_refuted : forall s w v bs, regular s -> 0 < w -> weight_all s w -> surface_boundaries s = Ok bs -> v_lo s <= v <= v_hi s ->
  exists c p, nth_error bs 0 = Some c /\ evaluate c v = Ok (tscale w p) /\
    let uv := index_to_params 0 v (s_int s) in evaluate_surface s (fst uv) (snd uv) = Ok p.
Proof.
  intros s w v bs G P W E H. destruct (boundaries_eval s w G P W) as [c0 [c1 [c2 [c3 [E' [_ [_ [_ [_ [F _]]]]]]]]]].
  rewrite E in E'. injection E' as ->. destruct (F v H) as [[p [A B]] _]. exists c0, p. split; [reflexivity|]. split; [exact B|].
  destruct G as [_ [_ [_ [I _]]]]. rewrite I. exact A.
Qed.
Print Assumptions C351_boundary_parameters_refuted.
(* a routine for the case: it finds the start of the curve when that is a corner of the surface *)
Definition at_corner (c : curve) (s : surface) : list (tri * Qc * (Qc * Qc)) :=
  let t := fst (c_int c) in
  match evaluate c t, evaluate_surface s (u_lo s) (v_lo s) with
  | Ok a, Ok b => if (qle t (snd (c_int c)) && tri_eqb a b)%bool then [(a, t, (u_lo s, v_lo s))] else []
  | _, _ => []
  end.
Lemma at_corner_sound : sound at_corner.
Proof.
  intros c s x. unfold at_corner. destruct (evaluate c (fst (c_int c))) as [a|] eqn:A; [|intros []].
  destruct (evaluate_surface s (u_lo s) (v_lo s)) as [b|] eqn:B; [|intros []].
  destruct (qle (fst (c_int c)) (snd (c_int c)) && tri_eqb a b)%bool eqn:E; [|intros []].
  apply andb_true_iff in E. destruct E as [E F]. apply qle_true in E. apply tri_eqb_true in F. subst b.
  intros [<-|[]]. cbn [fst snd]. split; [split; [apply Qcle_refl|exact E]|]. auto.
Qed.
Definition corner_row (p : ipoint) : Z * bool * Q * Q := (ip_index p, ip_first p, this (fst (params1 p)), this (snd (params1 p))).
Definition corner_rows (r : res (list ipoint)) : list (Z * bool * Q * Q) := match r with Ok ps => map corner_row ps | Err _ => nil end.
Example C351_case : sound at_corner /\ regular (patch 1 5) /\ v_lo (patch 3 5) <= q 1 4 <= v_hi (patch 3 5) /\
  corner_rows (find_boundary_intersections at_corner (patch 1 5) (patch 1 5) (q 1 10)) = [((0%Z, true), 0%Q, 0%Q)].
Proof.
  split; [exact at_corner_sound|]. split; [apply patch_regular|]. split; [split; vm_compute; discriminate|]. vm_compute. reflexivity.
Qed.

(* C352: the points kept for tracing *)
Theorem C352_kept_points : forall ps,
  subseq (keep_points ps) (map triple ps) /\
  pairwise (fun a b => fst (fst a) <> fst (fst b) /\ snd (fst a) <> snd (fst b) /\ snd a <> snd b) (keep_points ps) /\
  forall p, In p ps -> exists e, In e (keep_points ps) /\ (fst (fst e) = ip_point p \/ snd (fst e) = params1 p \/ snd e = params2 p).
Proof. exact keep_points_spec. Qed.
Print Assumptions C352_kept_points.
Theorem C352_none_lost : forall s1 s2 ps, (forall p, In p ps -> evaluate_surface s1 (fst (params1 p)) (snd (params1 p)) = Ok (ip_point p) /\
    evaluate_surface s2 (fst (params2 p)) (snd (params2 p)) = Ok (ip_point p)) ->
  forall p, In p ps -> exists e, In e (keep_points ps) /\ fst (fst e) = ip_point p /\
    evaluate_surface s1 (fst (snd (fst e))) (snd (snd (fst e))) = Ok (ip_point p) /\ evaluate_surface s2 (fst (snd e)) (snd (snd e)) = Ok (ip_point p).
Proof. exact keep_points_sound. Qed.
Print Assumptions C352_none_lost.
Definition ipp (x : Z) (a b : Qc * Qc) : ipoint := mkip (p3 x 0 5) (snd a) b 0 true ((fst a, fst a), (0, 1)).
Example C352_case : map (fun e => Qnum (this (fst (fst (fst (fst e)))))) (keep_points [ipp 0 (0, 0) (0, 0); ipp 1 (0, 1) (1, 0); ipp 1 (0, q 1 2) (1, 1); ipp 3 (0, q 1 3) (1, 0)]) = [0; 1]%Z.
Proof. vm_compute. reflexivity. Qed.

(* C353: taking the points one by one *)
Theorem C353_pop_order : forall xyz uv1 uv2, length uv1 = length xyz -> length uv2 = length xyz ->
  pop_all (length xyz) (new_term xyz uv1 uv2) = Ok (zip3 xyz uv1 uv2).
Proof. exact pop_new. Qed.
Print Assumptions C353_pop_order.
Example C353_case : match pop_all 2 (new_term [p3 1 2 3; p3 4 5 6] [(0, 0); (0, 1)] [(1, 0); (1, 1)]) with Ok l => length l | Err _ => O end = 2%nat /\
  term_pop (new_term [] [] []) = Err IndexError.
Proof. vm_compute. auto. Qed.

(* C354: removing points *)
Theorem C354_remove_refuted : forall query xyz uv1 uv2 p, exact_query query -> (3 <= lenZ xyz)%Z -> length uv1 = length xyz -> length uv2 = length xyz -> In p xyz ->
  (exists t a b, term_remove (new_term xyz uv1 uv2) p = Ok t /\ get_closest query t p = Ok (p, a, b)) /\
  (exists t, removes (new_term xyz uv1 uv2) [p; p] = Ok t /\ t_xyz t = xyz /\ t_size t = (lenZ xyz - 2)%Z).
Proof. exact (fun query xyz uv1 uv2 p Q L A B I => conj (removed_closest query xyz uv1 uv2 p Q L A B I) (remove_twice xyz uv1 uv2 p L I)). Qed.
Print Assumptions C354_remove_refuted.
Theorem C354_remove_pair_refuted : forall a1 a2 b1 b2 p p', tol6 * tol6 <= dist2 p p' ->
  removes (new_term [p; p'] [a1; a2] [b1; b2]) [p; p'] = Err ValueError /\
  exists t, removes (new_term [p; p'] [a1; a2] [b1; b2]) [p'; p] = Ok t /\ t_size t = 0%Z.
Proof. exact remove_pair. Qed.
Print Assumptions C354_remove_pair_refuted.
Theorem C354_delete_partial : forall t key t', term_del t key = Ok t' ->
  t_xyz t' = t_xyz t /\ t_uv1 t' = t_uv1 t /\ t_uv2 t' = t_uv2 t /\ t_size t' = (t_size t - 1)%Z.
Proof. exact del_keeps. Qed.
Print Assumptions C354_delete_partial.
(* a query for the cases: walk the rows *)
Fixpoint best_row (l : list tri) (p : tri) (i k : nat) (m : Qc) : nat :=
  match l with [] => k | x :: r => if qlt (dist2 x p) m then best_row r p (S i) i (dist2 x p) else best_row r p (S i) k m end.
Definition walk (l : list tri) (p : tri) : nat := match l with [] => O | x :: r => best_row r p 1 0 (dist2 x p) end.
Lemma best_row_ok p l : forall pre x m k, nth_error pre k = Some x -> m = dist2 x p -> (forall y, In y pre -> m <= dist2 y p) ->
  exists z, nth_error (pre ++ l) (best_row l p (length pre) k m) = Some z /\ forall y, In y (pre ++ l) -> dist2 z p <= dist2 y p.
Proof.
  induction l as [|a l IH]; intros pre x m k E -> M; cbn [best_row]. { rewrite app_nil_r. exists x. auto. }
  assert (X : forall y, pre ++ y :: l = (pre ++ [y]) ++ l) by (intro; now rewrite <- app_assoc).
  rewrite X. replace (S (length pre)) with (length (pre ++ [a])) by (rewrite app_length; cbn; lia).
  destruct (qlt (dist2 a p) (dist2 x p)) eqn:Q; [apply qlt_true in Q|apply qlt_false in Q].
  - apply (IH (pre ++ [a]) a); auto.
    + rewrite nth_error_app2 by lia. now rewrite Nat.sub_diag.
    + intros y I. apply in_app_or in I. destruct I as [I|[<-|[]]]; [|apply Qcle_refl]. specialize (M y I). qlra.
  - apply (IH (pre ++ [a]) x); auto.
    + rewrite nth_error_app1; auto. apply nth_error_Some. congruence.
    + intros y I. apply in_app_or in I. destruct I as [I|[<-|[]]]; auto.
Qed.
Lemma walk_exact : exact_query walk.
Proof.
  intros l p N. destruct l as [|x l]; [congruence|]. unfold walk. apply (best_row_ok p l [x] x); auto. intros y [<-|[]]. apply Qcle_refl.
Qed.
Example C354_case : exact_query walk /\ tol6 * tol6 <= dist2 (p3 0 0 0) (p3 1 0 0) /\
  (exists t, removes (new_term [p3 0 0 0; p3 1 0 0; p3 2 0 0] [(0, 0); (0, 0); (0, 0)] [(0, 0); (0, 0); (0, 0)]) [p3 1 0 0; p3 1 0 0] = Ok t /\ t_size t = 1%Z) /\
  removes (new_term [p3 0 0 0; p3 1 0 0] [(0, 0); (0, 0)] [(0, 0); (0, 0)]) [p3 0 0 0; p3 1 0 0] = Err ValueError.
Proof.
  split; [exact walk_exact|]. split; [vm_compute; discriminate|]. split; [eexists; split; vm_compute; reflexivity|]. vm_compute. reflexivity.
Qed.
