(* C45, C46, C114-C124: polygons in the plane. *)
From Coq Require Import List Arith ZArith Bool QArith Qcanon Lia.
From Verif Require Import Common QcLib AabbModel ImplModel PolyModel PolySpec PolyProofs PolyProofs2 PolyProofs3 PolyProofs4 PolyProofs5 PolyProofs6 PolyProofs7 PolyProofs8 PolyProofs9 PolyProofs10.
Import ListNotations.
Local Open Scope Qc_scope.

Definition qz (k : Z) : Qc := Q2Qc (inject_Z k).
Definition pt (x y : Z) : p2 := (qz x, qz y).
Definition shown (p : p2) : Q * Q := (this (fst p), this (snd p)).
Definition shown_polys (r : res (list (list p2))) : option (list (list (Q * Q))) := match r with Ok l => Some (map (map shown) l) | Err _ => None end.
Definition shown_poly (r : res (list p2)) : option (list (Q * Q)) := match r with Ok l => Some (map shown l) | Err _ => None end.
(* an arrowhead and two overlapping squares *)
Definition arrow : list p2 := [pt 0 0; pt 8 0; pt 4 2; pt 4 8].
Definition sq1 : list p2 := [pt 0 0; pt 4 0; pt 4 4; pt 0 4].
Definition sq2 : list p2 := [pt 2 2; pt 6 2; pt 6 6; pt 2 6].

(* ---- C45 ---- *)
Theorem C45_accelerated : forall poly q, poly <> [] -> exists n, forall fuel, (n < fuel)%nat -> is_point_in_polygon_bvh fuel poly q = is_point_in_polygon q poly.
Proof. exact bvh_agrees. Qed.
Print Assumptions C45_accelerated.
Example C45_case : is_point_in_polygon_bvh 20 arrow (pt 4 1) = Ok true /\ is_point_in_polygon (pt 4 1) arrow = Ok true /\ is_point_in_polygon_bvh 20 arrow (pt 5 4) = Ok false /\ is_point_in_polygon (pt 5 4) arrow = Ok false.
Proof. repeat split; vm_compute; reflexivity. Qed.

(* ---- C46 ---- *)
Theorem C46_rotation : forall q l m, is_point_in_polygon q (l ++ m) = is_point_in_polygon q (m ++ l).
Proof. exact rotate_same. Qed.
Print Assumptions C46_rotation.
Theorem C46_reversal : forall q l, is_point_in_polygon q (rev l) = is_point_in_polygon q l.
Proof. exact reverse_same. Qed.
Print Assumptions C46_reversal.
Theorem C46_extra_vertex : forall q u a b v t, 0 <= t -> t <= 1 -> is_point_in_polygon q (u ++ a :: lerp t a b :: b :: v) = is_point_in_polygon q (u ++ a :: b :: v).
Proof. exact insert_same. Qed.
Print Assumptions C46_extra_vertex.
Example C46_case : is_point_in_polygon (pt 4 1) ([pt 8 0; pt 4 2; pt 4 8] ++ [pt 0 0]) = Ok true /\ is_point_in_polygon (pt 4 1) (rev arrow) = Ok true /\
  is_point_in_polygon (pt 4 1) ([] ++ pt 0 0 :: lerp (Q2Qc (1 # 2)) (pt 0 0) (pt 8 0) :: pt 8 0 :: [pt 4 2; pt 4 8]) = Ok true.
Proof. repeat split; vm_compute; reflexivity. Qed.

(* ---- C114: the even-odd rule ---- *)
Theorem C114_even_odd : forall q poly, poly <> [] -> generic q poly -> exists b, is_point_in_polygon q poly = Ok b /\ (b = true <-> even_odd_inside q poly).
Proof. exact scan_even_odd. Qed.
Print Assumptions C114_even_odd.
Example C114_case_generic : generic (pt 3 2) arrow /\ is_point_in_polygon (pt 3 2) arrow = Ok true /\ is_point_in_polygon (pt 5 4) arrow = Ok false.
Proof. split; [|split; vm_compute; reflexivity]. unfold generic, triangles, fan, arrow. repeat (apply Forall_cons; [cbn [fst snd]; repeat split; right; apply qeq_false; vm_compute; reflexivity|]). constructor. Qed.

(* ---- C115: area ---- *)
Theorem C115_area : forall poly, poly <> [] -> area poly = Ok (fabs (signed_area2 poly) / two).
Proof. exact area_is. Qed.
Print Assumptions C115_area.
Theorem C115_rotation : forall l m, area (l ++ m) = area (m ++ l).
Proof. exact area_rotate. Qed.
Print Assumptions C115_rotation.
Theorem C115_reversal : forall l, area (rev l) = area l.
Proof. exact area_reverse. Qed.
Print Assumptions C115_reversal.
Theorem C115_translation : forall d l, area (map (moved d) l) = area l.
Proof. exact area_move. Qed.
Print Assumptions C115_translation.
Theorem C115_linear_map : forall m l, l <> [] -> exists v, area l = Ok v /\ area (map (mapped m) l) = Ok (fabs (det m) * v).
Proof. exact area_map. Qed.
Print Assumptions C115_linear_map.
Definition shown_q (r : res Qc) := match r with Ok v => Some (this v) | Err _ => None end.
Example C115_case : shown_q (area arrow) = Some (20 # 1)%Q /\ shown_q (area (map (mapped {| la := qz 2; lb := qz 1; lc := 0; ld := qz (-3) |}) arrow)) = Some (120 # 1)%Q.
Proof. split; vm_compute; reflexivity. Qed.

(* ---- C116: crossing of two edges ---- *)
Theorem C116_found : forall s1 s2 c1 c2, cross_properly s1 s2 c1 c2 -> exists r, intersect s1 s2 c1 c2 = Some r.
Proof. exact intersect_proper. Qed.
Print Assumptions C116_found.
Theorem C116_exact : forall s1 s2 c1 c2 p us uc, intersect s1 s2 c1 c2 = Some (p, us, uc) ->
  cross_properly s1 s2 c1 c2 /\ (0 < us /\ us < 1) /\ (0 < uc /\ uc < 1) /\ p = lerp us s1 s2 /\ p = lerp uc c1 c2.
Proof. exact intersect_some. Qed.
Print Assumptions C116_exact.
Example C116_case : match intersect (pt 0 0) (pt 4 4) (pt 0 2) (pt 2 0) with Some (p, us, uc) => (shown p, this us, this uc) = ((1, 1), (1 # 4), (1 # 2))%Q | None => False end.
Proof. vm_compute. reflexivity. Qed.

(* ---- C117: clipping against a convex polygon ---- *)
Theorem C117_sound : forall subject clipper out, clip subject clipper = Ok out ->
  Forall (fun p => hull (fun v => In v subject) p /\ forall a b, edge clipper a b -> 0 <= orient a b p) out.
Proof. exact clip_sound. Qed.
Print Assumptions C117_sound.
Theorem C117_unclipped : forall subject clipper, subject <> [] -> clipper <> [] -> (forall a b p, edge clipper a b -> In p subject -> 0 < orient a b p) -> clip subject clipper = Ok subject.
Proof. exact clip_inside. Qed.
Print Assumptions C117_unclipped.
Theorem C117_boundary : forall subject clipper q x y, clipper <> [] -> edge subject x y -> on_segment q x y -> (forall a b, edge clipper a b -> 0 < orient a b q) ->
  exists out a b, clip subject clipper = Ok out /\ edge out a b /\ on_segment q a b.
Proof. exact clip_boundary. Qed.
Print Assumptions C117_boundary.
Theorem C117_errors : forall subject clipper e, clip subject clipper = Err e -> e = IndexError.
Proof. exact clip_errors. Qed.
Print Assumptions C117_errors.
Example C117_case : shown_poly (clip sq2 sq1) = Some [(2, 4); (2, 2); (4, 2); (4, 4)]%Q.
Proof. vm_compute. reflexivity. Qed.
Example C117_case_unclipped : shown_poly (clip [pt 1 1; pt 3 1; pt 2 2] sq1) = Some [(1, 1); (3, 1); (2, 2)]%Q.
Proof. vm_compute. reflexivity. Qed.

(* ---- C118: clipping a polygon that lies outside ---- *)
Theorem C118_disjoint_refuted : forall subject clipper u a b v, clipper = u ++ b :: v -> v <> [] -> (u = [] /\ (exists w, clipper = w ++ [a]) \/ exists w, u = w ++ [a]) ->
  Forall (fun p => orient a b p <= 0) subject -> clip subject clipper = Err IndexError.
Proof. exact clip_outside. Qed.
Print Assumptions C118_disjoint_refuted.
Example C118_case : clip (map (moved (pt 10 0)) sq2) sq1 = Err IndexError /\ Forall (fun p => orient (pt 4 0) (pt 4 4) p <= 0) (map (moved (pt 10 0)) sq2).
Proof. split; [vm_compute; reflexivity|]. cbn [map sq2]. repeat (apply Forall_cons; [apply qle_true; vm_compute; reflexivity|]). constructor. Qed.

(* ---- C119: boolean operations end and invent no vertices ---- *)
Theorem C119_total : forall s c se ce, s <> [] -> c <> [] -> exists n, forall fuel, (n < fuel)%nat -> exists ps, poly_clip fuel s c se ce = Ok ps /\
  Forall (Forall (fun p => In p s \/ In p c \/ crossing_point (outline s) (outline c) p)) ps /\ ps <> [] /\
  ((exists e f, In e (outline s) /\ In f (outline c) /\ crosses (e, f)) -> Forall (fun l => (2 <= length l)%nat) ps).
Proof. exact clip_total. Qed.
Print Assumptions C119_total.
Example C119_case : shown_polys (poly_intersection 20 sq1 sq2) = Some [[(4, 2); (4, 4); (2, 4); (2, 2); (4, 2)]]%Q /\
  shown_polys (poly_difference 20 sq1 sq2) = Some [[(4, 2); (4, 0); (0, 0); (0, 4); (2, 4); (2, 2); (4, 2)]]%Q.
Proof. split; vm_compute; reflexivity. Qed.

(* ---- C120: boolean operations without a crossing ---- *)
Theorem C120_no_crossing_refuted : forall s c, s <> [] -> c <> [] -> (forall e f, In e (outline s) -> In f (outline c) -> ~ crosses (e, f)) ->
  forall fuel, (0 < fuel)%nat -> poly_union fuel s c = Ok [s] /\ poly_intersection fuel s c = Ok [s] /\ poly_difference fuel s c = Ok [s].
Proof. intros s c S C H fuel L. split; [|split]; apply no_crossing; assumption. Qed.
Print Assumptions C120_no_crossing_refuted.
Theorem C120_separated_refuted : forall s c a b, s <> [] -> c <> [] -> Forall (fun p => 0 < orient a b p) s -> Forall (fun p => orient a b p < 0) c ->
  forall fuel, (0 < fuel)%nat -> poly_union fuel s c = Ok [s] /\ poly_intersection fuel s c = Ok [s].
Proof. intros s c a b S C Hs Hc fuel L. split; apply no_crossing; try assumption; exact (separated_no_crossing s c a b Hs Hc). Qed.
Print Assumptions C120_separated_refuted.
Example C120_case : Forall (fun p => 0 < orient (pt 8 0) (pt 8 1) p) sq1 /\ Forall (fun p => orient (pt 8 0) (pt 8 1) p < 0) (map (moved (pt 8 0)) sq2).
Proof. split; [unfold sq1|cbn [map sq2]]; repeat (apply Forall_cons; [apply qlt_true; vm_compute; reflexivity|]); constructor. Qed.
Example C120_case_inside : poly_union 20 [pt 1 1; pt 2 1; pt 1 2] sq1 = Ok [[pt 1 1; pt 2 1; pt 1 2]] /\ poly_difference 20 [pt 1 1; pt 2 1; pt 1 2] sq1 = Ok [[pt 1 1; pt 2 1; pt 1 2]].
Proof. split; vm_compute; reflexivity. Qed.

(* ---- C121: the | operator ---- *)
Theorem C121_or_refuted : exists s c q, exists n, forall fuel, (n < fuel)%nat -> exists l, poly_or fuel s c = Ok [l] /\ even_odd_inside q s /\ ~ even_odd_inside q l.
Proof.
  exists sq1, sq2, (pt 1 2), 8%nat. intros fuel L. replace fuel with (9 + (fuel - 9))%nat by lia. set (f := (fuel - 9)%nat).
  exists [pt 4 2; pt 4 4; pt 2 4; pt 2 2; pt 4 2]. split; [|split].
  - unfold poly_or, poly_intersection, poly_clip. vm_compute. reflexivity.
  - exists 1%nat. split; [|reflexivity]. unfold triangles, fan, sq1. apply counted_no; [unfold in_triangle; cbn [fst snd]; intros [[H [K M]]|[H [K M]]]; [revert M|revert H]; apply Qcle_not_lt, qle_true; vm_compute; reflexivity|].
    apply counted_yes; [|constructor]. left. cbn [fst snd]. repeat split; apply qlt_true; vm_compute; reflexivity.
  - intros [k [C O]]. assert (k = 0%nat) as ->; [|discriminate].
    apply (counted_fun _ _ _ _ C). unfold triangles, fan. repeat (apply counted_no; [unfold in_triangle; cbn [fst snd]; intros [[H [K M]]|[H [K M]]]; first [revert H; apply Qcle_not_lt, qle_true; vm_compute; reflexivity|revert K; apply Qcle_not_lt, qle_true; vm_compute; reflexivity|revert M; apply Qcle_not_lt, qle_true; vm_compute; reflexivity]|]). constructor.
Qed.
Print Assumptions C121_or_refuted.
Example C121_case : poly_or 20 sq1 sq2 = poly_intersection 20 sq1 sq2 /\ shown_polys (poly_add 20 sq1 sq2) <> shown_polys (poly_or 20 sq1 sq2).
Proof. split; [reflexivity|]. vm_compute. discriminate. Qed.

(* ---- C122: point_in_polygon ---- *)
Theorem C122_open_partial : forall z q lo hi v0 r vn, let vs := v0 :: r ++ [vn] in apart v0 vn -> bounding vs lo hi -> generic q vs ->
  Forall (fun ab => off_line q (fst ab) (snd ab)) (outline vs) ->
  (forall v, In v vs -> orient q (moved (fst hi - fst lo, snd hi - snd lo) q) v <> 0) ->
  exists b, point_in_polygon 3 (map (row3 z) vs) (row3 z q) = Ok b /\ (b = true <-> even_odd_inside q vs).
Proof. exact pip_open. Qed.
Print Assumptions C122_open_partial.
Theorem C122_closed_partial : forall z q lo hi v0 r, let vs := v0 :: r in bounding vs lo hi -> generic q vs ->
  Forall (fun ab => off_line q (fst ab) (snd ab)) (outline vs) ->
  (forall v, In v vs -> orient q (moved (fst hi - fst lo, snd hi - snd lo) q) v <> 0) ->
  exists b, point_in_polygon 3 (map (row3 z) (vs ++ [v0])) (row3 z q) = Ok b /\ (b = true <-> even_odd_inside q vs).
Proof. exact pip_closed. Qed.
Print Assumptions C122_closed_partial.
Theorem C122_two_columns_refuted : forall vs q, vs <> [] ->
  (point_in_polygon 2 (map row2 vs) (row2 q) = Ok false \/ point_in_polygon 2 (map row2 vs) (row2 q) = Err IndexError) /\
  (even_odd_inside q vs -> point_in_polygon 2 (map row2 vs) (row2 q) = Err IndexError).
Proof. exact pip_flat. Qed.
Print Assumptions C122_two_columns_refuted.
Example C122_case : point_in_polygon 3 (map (row3 (qz 5)) arrow) (row3 (qz 5) (pt 3 2)) = Ok true /\ point_in_polygon 3 (map (row3 (qz 5)) (arrow ++ [pt 0 0])) (row3 (qz 5) (pt 5 4)) = Ok false /\
  point_in_polygon 2 (map row2 arrow) (row2 (pt 3 2)) = Err IndexError.
Proof. repeat split; vm_compute; reflexivity. Qed.
Example C122_case_hypotheses : apart (pt 0 0) (pt 4 8) /\ bounding arrow (pt 0 0) (pt 8 8) /\ generic (pt 3 2) arrow /\ Forall (fun ab => off_line (pt 3 2) (fst ab) (snd ab)) (outline arrow) /\
  (forall v, In v arrow -> orient (pt 3 2) (moved (fst (pt 8 8) - fst (pt 0 0), snd (pt 8 8) - snd (pt 0 0)) (pt 3 2)) v <> 0).
Proof.
  split; [left; apply qlt_true; vm_compute; reflexivity|]. split.
  { split; [intros v [<-|[<-|[<-|[<-|[]]]]]; repeat split; apply qle_true; vm_compute; reflexivity|].
    split; [exists (pt 0 0); split; [left; reflexivity|reflexivity]|]. split; [exists (pt 8 0); split; [right; left; reflexivity|reflexivity]|]. split; [exists (pt 0 0); split; [left; reflexivity|reflexivity]|exists (pt 4 8); split; [right; right; right; left; reflexivity|reflexivity]]. }
  split; [apply C114_case_generic|]. split.
  - unfold outline, arrow. cbn [app combine]. repeat (apply Forall_cons; [right; apply qeq_false; vm_compute; reflexivity|]). constructor.
  - intros v [<-|[<-|[<-|[<-|[]]]]]; apply qeq_false; vm_compute; reflexivity.
Qed.

(* ---- C123: segments ---- *)
Theorem C123_segments_partial : forall z a b c d, orient a b c <> 0 -> orient a b d <> 0 -> orient c d a <> 0 -> orient c d b <> 0 ->
  exists r, intersects_segments 3 (row3 z a, row3 z b) (row3 z c, row3 z d) None None = Ok r /\ (r = true <-> cross_properly a b c d).
Proof. exact segments_exact. Qed.
Print Assumptions C123_segments_partial.
Example C123_case : intersects_segments 3 (row3 0 (pt 0 0), row3 0 (pt 4 4)) (row3 0 (pt 0 2), row3 0 (pt 3 0)) None None = Ok true /\
  intersects_segments 3 (row3 0 (pt 0 0), row3 0 (pt 4 4)) (row3 0 (pt 0 2), row3 0 (pt 1 3)) None None = Ok false.
Proof. split; vm_compute; reflexivity. Qed.

(* ---- C124: convex hull ---- *)
Theorem C124_hull_partial : forall points, (3 <= length points)%nat -> coarse points -> exists o r, convex_hull2d points = o :: r /\
  (forall v, In v points -> lower_left o v) /\
  (forall s, In s (convex_hull2d points) -> In s points) /\
  (forall a b v, In (a, b) (outline (convex_hull2d points)) -> In v points -> 0 <= orient a b v) /\
  ((3 <= length (convex_hull2d points))%nat -> forall a b c, In (a, b, c) (corners (convex_hull2d points)) -> 0 < orient a b c).
Proof. exact hull_ok. Qed.
Print Assumptions C124_hull_partial.
Theorem C124_small_refuted : forall d, eps9 <= d -> d * d < eps9 -> convex_hull2d [(0, 0); (d, 0); (0, d)] = [(0, 0); (0, d)].
Proof. exact hull_small. Qed.
Print Assumptions C124_small_refuted.
Example C124_case : map shown (convex_hull2d [pt 2 1; pt 0 0; pt 4 0; pt 2 0; pt 4 4; pt 0 4; pt 1 1; pt 0 2; pt 0 0; pt 3 3]) = [(0, 0); (4, 0); (4, 4); (0, 4)]%Q.
Proof. vm_compute. reflexivity. Qed.
Example C124_case_coarse : coarse [pt 0 0; pt 4 0; pt 1 1; pt 0 3].
Proof.
  split.
  - intros a b Ia Ib. cbn [In] in Ia, Ib. repeat match goal with H : _ \/ _ |- _ => destruct H as [<-|H] | H : False |- _ => destruct H end; first [left; apply Qc_is_canon; vm_compute; reflexivity|right; apply qle_true; vm_compute; reflexivity].
  - intros a b c Ia Ib Ic. cbn [In] in Ia, Ib, Ic. repeat match goal with H : _ \/ _ |- _ => destruct H as [<-|H] | H : False |- _ => destruct H end; first [left; apply Qc_is_canon; vm_compute; reflexivity|right; apply qle_true; vm_compute; reflexivity].
Qed.
Example C124_case_small : eps9 <= Q2Qc (1 # 100000) /\ Q2Qc (1 # 100000) * Q2Qc (1 # 100000) < eps9.
Proof. split; [apply qle_true|apply qlt_true]; vm_compute; reflexivity. Qed.
