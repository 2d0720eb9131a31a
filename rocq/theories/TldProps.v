(* The files of the triangulation program: the properties C458-C463. *)
From Coq Require Import List Arith ZArith Bool QArith Qcanon Lia.
From Verif Require Import Common QcLib TldModel TldSpec TldProofs.
Import ListNotations.
Local Open Scope Qc_scope.

(* C458: the vertices of a .node file are read as written, with their attributes and markers, whatever the first number; the rest of the tokens is left *)
Theorem C458_vertices_round_trip (z : bool) (base : Z) (vs attrs : list (list Qc)) (marks : list (list Z)) (na nb : nat) (rest : list Qc) :
  vs <> [] -> length attrs = length vs -> length marks = length vs -> width 2 vs -> width na attrs -> width nb marks ->
  load_vertices z (section [ntok (length vs); ntok 2; ntok na; ntok nb] base (beside vs (beside attrs (toks marks))) ++ rest) =
    Ok ((base =? 0)%Z, Some (vs, unless_empty na attrs, unless_empty nb marks), rest).
Proof.
  intros Hn L1 L2 W1 W2 W3. unfold load_vertices, section. rewrite <- app_assoc, split_header by reflexivity.
  cbn [map_all bind]. rewrite !to_count_ntok. cbn [bind]. replace (length vs =? 0)%nat with false by (symmetry; apply Nat.eqb_neq; destruct vs; [congruence|discriminate]).
  assert (LT : length (toks marks) = length vs) by (unfold toks; now rewrite map_length).
  assert (W : width (2 + (na + nb)) (beside vs (beside attrs (toks marks)))).
  { apply beside_width; [rewrite beside_length; congruence|exact W1|]. apply beside_width; [congruence|exact W2|now apply toks_width]. }
  apply (numbered_width base) in W.
  assert (LN : length (numbered base (beside vs (beside attrs (toks marks)))) = length vs).
  { rewrite numbered_length, beside_length; [reflexivity|]. rewrite beside_length; congruence. }
  replace (1 + 2 + na + nb)%nat with (S (2 + (na + nb)))%nat by lia. rewrite <- LN at 1. rewrite (split_concat _ _ rest W).
  rewrite reshape_concat; [|lia|exact W]. cbn [bind].
  rewrite !columns_numbered by lia.
  destruct (numbered base (beside vs (beside attrs (toks marks)))) as [|[|f r] t] eqn:E.
  - destruct vs; [congruence|]. cbn in LN. discriminate.
  - destruct vs; [congruence|]. destruct attrs; [discriminate|]. destruct marks; [discriminate|]. discriminate.
  - assert (f = tok base) as ->. { destruct vs; [congruence|]. destruct attrs; [discriminate|]. destruct marks; [discriminate|]. cbn in E. congruence. }
    rewrite tok_zero. change (3 - 1)%nat with 2%nat. change (1 - 1)%nat with 0%nat.
    rewrite columns_left by (auto; rewrite beside_length; congruence).
    assert (LB : length vs = length (beside attrs (toks marks))) by (rewrite beside_length; congruence).
    rewrite (columns_right 2 vs _ 2 _ LB W1) by lia. rewrite (columns_right 2 vs _ (3 + na - 1) _ LB W1) by lia.
    change (2 - 2)%nat with 0%nat. replace (3 + na - 1 - 2)%nat with na by lia. replace (3 + na + nb - 1 - 2)%nat with (na + nb)%nat by lia.
    rewrite columns_left by (auto; congruence). rewrite (columns_right na) by (auto; try lia; congruence). rewrite Nat.sub_diag. replace (na + nb - na)%nat with nb by lia.
    rewrite (columns_all nb) by (auto using toks_width). rewrite int_rows_toks. cbn [bind]. destruct na, nb; reflexivity.
Qed.
Print Assumptions C458_vertices_round_trip.
Example C458_case : load_vertices true (section [ntok 2; ntok 2; ntok 0; ntok 1] 1 [[1; 1; tok 5]; [0; 1; tok 7]]) = Ok (false, Some ([[1; 1]; [0; 1]], None, Some [[5%Z]; [7%Z]]), []).
Proof. vm_compute. reflexivity. Qed.

(* C459: the triangles of an .ele file are read as written, counted from zero, with their attributes *)
Theorem C459_triangles_round_trip (base first : Z) (ts : list (list Z)) (attrs : list (list Qc)) (nn na : nat) (rest : list Qc) :
  base = 0%Z \/ base = 1%Z -> ts <> [] -> length attrs = length ts -> width nn ts -> width na attrs ->
  load_ele (base =? 0)%Z (section [ntok (length ts); ntok nn; ntok na] first (beside (toks (based base ts)) attrs) ++ rest) = Ok (Some (ts, unless_empty na attrs), rest).
Proof.
  intros Hb Hn L W1 W2. unfold load_ele, section. rewrite <- app_assoc, split_header by reflexivity.
  cbn [map_all bind]. rewrite !to_count_ntok. cbn [bind]. replace (length ts =? 0)%nat with false by (symmetry; apply Nat.eqb_neq; destruct ts; [congruence|discriminate]).
  assert (LT : length (toks (based base ts)) = length ts) by (unfold toks, based; now rewrite !map_length).
  assert (WT : width nn (toks (based base ts))) by (apply toks_width; now apply based_width).
  assert (W : width (nn + na) (beside (toks (based base ts)) attrs)) by (apply beside_width; auto; congruence).
  apply (numbered_width first) in W.
  assert (LN : length (numbered first (beside (toks (based base ts)) attrs)) = length ts) by (rewrite numbered_length, beside_length; congruence).
  change (1 + nn + na)%nat with (S (nn + na)). rewrite <- LN at 1. rewrite (split_concat _ _ rest W). rewrite reshape_concat; [|lia|exact W]. cbn [bind].
  rewrite !columns_numbered by lia. change (1 - 1)%nat with 0%nat. replace (nn + 1 - 1)%nat with nn by lia.
  rewrite columns_left by (auto; congruence). rewrite (columns_right nn) by (auto; try lia; congruence). rewrite int_rows_toks. cbn [bind]. rewrite from_zero_based by exact Hb.
  rewrite Nat.sub_diag. replace (nn + 1 + na - 1 - nn)%nat with na by lia. rewrite (columns_all na) by auto. destruct na; reflexivity.
Qed.
Print Assumptions C459_triangles_round_trip.
Example C459_case : load_ele false (section [ntok 1; ntok 3; ntok 0] 1 [[tok 1; tok 2; tok 3]]) = Ok (Some ([[0; 1; 2]%Z], None), []).
Proof. vm_compute. reflexivity. Qed.

(* C460: the segments and the holes of a .poly file are read as written *)
Theorem C460_segments_round_trip (base first : Z) (ss marks : list (list Z)) (nb : nat) (rest : list Qc) :
  base = 0%Z \/ base = 1%Z -> ss <> [] -> length marks = length ss -> width 2 ss -> width nb marks ->
  load_segments (base =? 0)%Z (section [ntok (length ss); ntok nb] first (beside (toks (based base ss)) (toks marks)) ++ rest) = Ok (Some (ss, unless_empty nb marks), rest).
Proof.
  intros Hb Hn L W1 W2. unfold load_segments, section. rewrite <- app_assoc, split_header by reflexivity.
  cbn [map_all bind]. rewrite !to_count_ntok. cbn [bind]. replace (length ss =? 0)%nat with false by (symmetry; apply Nat.eqb_neq; destruct ss; [congruence|discriminate]).
  assert (LT : length (toks (based base ss)) = length ss) by (unfold toks, based; now rewrite !map_length).
  assert (LM : length (toks marks) = length ss) by (unfold toks; now rewrite map_length).
  assert (WT : width 2 (toks (based base ss))) by (apply toks_width; now apply based_width).
  assert (WM : width nb (toks marks)) by now apply toks_width.
  assert (W : width (2 + nb) (beside (toks (based base ss)) (toks marks))) by (apply beside_width; auto; congruence).
  apply (numbered_width first) in W.
  assert (LN : length (numbered first (beside (toks (based base ss)) (toks marks))) = length ss) by (rewrite numbered_length, beside_length; congruence).
  change (3 + nb)%nat with (S (2 + nb)). rewrite <- LN at 1. rewrite (split_concat _ _ rest W). rewrite reshape_concat; [|lia|exact W]. cbn [bind].
  rewrite !columns_numbered by lia. change (1 - 1)%nat with 0%nat. change (3 - 1)%nat with 2%nat.
  rewrite columns_left by (auto; congruence). rewrite (columns_right 2) by (auto; try lia; congruence). rewrite int_rows_toks. cbn [bind]. rewrite from_zero_based by exact Hb.
  replace (S (2 + nb) - 1 - 2)%nat with nb by lia. rewrite Nat.sub_diag, (columns_all nb) by auto. rewrite int_rows_toks. cbn [bind]. destruct nb; reflexivity.
Qed.
Print Assumptions C460_segments_round_trip.
Theorem C460_holes_round_trip (first : Z) (hs : list (list Qc)) (rest : list Qc) : width 2 hs ->
  load_holes (section [ntok (length hs)] first hs ++ rest) = Ok (match hs with [] => None | _ => Some hs end, rest).
Proof.
  intros W. unfold load_holes, section. rewrite <- app_assoc, split_header by reflexivity. rewrite to_count_ntok. cbn [bind].
  destruct hs as [|h hs]; [reflexivity|]. set (l := h :: hs) in *. change (length l =? 0)%nat with false. cbv iota.
  pose proof (numbered_width first l 2 W) as W'. rewrite <- (numbered_length first l) at 1. rewrite (split_concat 3 _ rest W'). rewrite reshape_concat; [|lia|exact W']. cbn [bind].
  rewrite columns_numbered by lia. change (1 - 1)%nat with 0%nat. change (3 - 1)%nat with 2%nat. rewrite (columns_all 2) by auto. reflexivity.
Qed.
Print Assumptions C460_holes_round_trip.

(* C460: the whole .poly file up to the regions; with no vertices in it the counting of the .node file is kept *)
Theorem C460_poly_file (z : bool) (base f2 f3 : Z) (vs attrs : list (list Qc)) (marks ss smarks : list (list Z)) (hs : list (list Qc)) (na nb sb : nat) (rest : list Qc) :
  base = 0%Z \/ base = 1%Z -> vs <> [] -> length attrs = length vs -> length marks = length vs -> width 2 vs -> width na attrs -> width nb marks ->
  ss <> [] -> length smarks = length ss -> width 2 ss -> width sb smarks -> width 2 hs ->
  load_poly z (section [ntok (length vs); ntok 2; ntok na; ntok nb] base (beside vs (beside attrs (toks marks))) ++
    section [ntok (length ss); ntok sb] f2 (beside (toks (based base ss)) (toks smarks)) ++ section [ntok (length hs)] f3 hs ++ rest) =
  Ok ((base =? 0)%Z, Some (vs, unless_empty na attrs, unless_empty nb marks), Some (ss, unless_empty sb smarks), match hs with [] => None | _ => Some hs end, rest).
Proof.
  intros Hb Hn L1 L2 W1 W2 W3 Hs L3 W4 W5 W6. unfold load_poly. rewrite C458_vertices_round_trip by assumption. cbn [bind fst snd].
  rewrite C460_segments_round_trip by assumption. cbn [bind]. rewrite C460_holes_round_trip by assumption. reflexivity.
Qed.
Print Assumptions C460_poly_file.
Example C460_case : load_segments false (section [ntok 1; ntok 1] 1 [[tok 1; tok 2; tok 9]]) = Ok (Some ([[0; 1]%Z], Some [[9%Z]]), []) /\ load_holes [ntok 1; 1; tok 5; tok 6] = Ok (Some [[tok 5; tok 6]], []).
Proof. vm_compute. auto. Qed.

(* C461 "an .edge file of a triangulation is read": without rays it is an error, however many edges it has *)
Theorem C461_edge_file_refuted (z : bool) (n nb : nat) (lines : list (list Qc)) : (0 < n)%nat -> Forall (fun l => length l <> (5 + nb)%nat) lines ->
  exists e, load_edge z ([ntok n; ntok nb] :: lines) = Err e.
Proof.
  intros Hn H. unfold load_edge. cbn [map_all bind]. rewrite !to_count_ntok. cbn [bind]. replace (n =? 0)%nat with false by (symmetry; apply Nat.eqb_neq; lia).
  assert (filter (fun x : list Qc => (length x =? 5 + nb)%nat) lines = []) as ->.
  { induction H as [|l ls Hl _ IH]; [reflexivity|]. cbn [filter]. rewrite (proj2 (Nat.eqb_neq _ _) Hl). exact IH. }
  destruct (slice2 1 3 _) as [e|]; [|cbn [bind]; eauto]. cbn [bind]. destruct (int_rows e); cbn [bind slice2]; eauto.
Qed.
Print Assumptions C461_edge_file_refuted.

(* C461: with at least one edge and one ray, the edges, the origins and the directions are read as written, counted from zero; the directions have the markers of the rays behind *)
Theorem C461_voronoi_file_partial (base : Z) (es os : list (list Z)) (ds marks : list (list Qc)) (nb n : nat) (num : Qc) :
  base = 0%Z \/ base = 1%Z -> es <> [] -> os <> [] -> (0 < n)%nat -> width 2 es -> width 1 os -> length ds = length os -> width 2 ds -> length marks = length os -> width nb marks ->
  load_edge (base =? 0)%Z ([ntok n; ntok nb] :: numbered 0 (beside (toks (based base es)) (map (fun _ => repeat num nb) es)) ++
     numbered 0 (beside (toks (based base os)) (beside (map (fun _ => [tok (-1)]) os) (beside ds marks)))) = Ok (Some (es, os, beside ds marks)).
Proof.
  intros Hb He Ho Hn W1 W2 L3 W3 L4 W4. unfold load_edge. cbn [map_all bind]. rewrite !to_count_ntok. cbn [bind]. replace (n =? 0)%nat with false by (symmetry; apply Nat.eqb_neq; lia).
  set (E := numbered 0 (beside (toks (based base es)) _)). set (R := numbered 0 (beside (toks (based base os)) _)).
  assert (LE : length (toks (based base es)) = length es) by (unfold toks, based; now rewrite !map_length).
  assert (LO : length (toks (based base os)) = length os) by (unfold toks, based; now rewrite !map_length).
  assert (WE1 : width 2 (toks (based base es))) by (apply toks_width; now apply based_width).
  assert (WO1 : width 1 (toks (based base os))) by (apply toks_width; now apply based_width).
  assert (WN : width nb (map (fun _ : list Z => repeat num nb) es)) by (apply Forall_map, Forall_forall; intros; apply repeat_length).
  assert (WU : width 1 (map (fun _ : list Z => [tok (-1)]) os)) by (apply Forall_map, Forall_forall; reflexivity).
  assert (WD : width (2 + nb) (beside ds marks)) by (apply beside_width; auto; congruence).
  assert (LD : length (beside ds marks) = length os) by (rewrite beside_length; congruence).
  assert (LU : length (map (fun _ : list Z => [tok (-1)]) os) = length os) by apply map_length.
  assert (LUD : length (beside (map (fun _ : list Z => [tok (-1)]) os) (beside ds marks)) = length os) by (rewrite beside_length; congruence).
  assert (WE : width (3 + nb) E) by (apply numbered_width; apply (beside_width 2 nb); auto; rewrite map_length; exact LE).
  assert (WR : width (5 + nb) R) by (apply numbered_width; apply (beside_width 1 (3 + nb)); auto; [congruence|]; apply (beside_width 1 (2 + nb)); auto; congruence).
  assert (F : forall w w' (a : list (list Qc)), width w a -> filter (fun x => (length x =? w')%nat) a = if (w =? w')%nat then a else []).
  { intros w w' a Wa. induction Wa as [|r t Hr _ IH]; cbn [filter]; [destruct (w =? w')%nat; reflexivity|]. rewrite IH, Hr. destruct (w =? w')%nat; reflexivity. }
  rewrite !filter_app, (F _ (3 + nb)%nat E WE), (F _ (5 + nb)%nat E WE), (F _ (3 + nb)%nat R WR), (F _ (5 + nb)%nat R WR), !Nat.eqb_refl.
  replace (5 + nb =? 3 + nb)%nat with false by (symmetry; apply Nat.eqb_neq; lia). replace (3 + nb =? 5 + nb)%nat with false by (symmetry; apply Nat.eqb_neq; lia).
  rewrite app_nil_r. cbn [app].
  assert (SE : forall a b, slice2 a b E = Ok (columns_of a b E)).
  { intros a b. unfold slice2. destruct E eqn:Q; [|reflexivity]. exfalso. assert (X : length E = length es) by (unfold E; rewrite numbered_length, beside_length; [exact LE|rewrite map_length; exact LE]). rewrite Q in X. destruct es; [congruence|discriminate]. }
  assert (SR : forall a b, slice2 a b R = Ok (columns_of a b R)).
  { intros a b. unfold slice2. destruct R eqn:Q; [|reflexivity]. exfalso. assert (X : length R = length os) by (unfold R; rewrite numbered_length, beside_length; congruence). rewrite Q in X. destruct os; [congruence|discriminate]. }
  rewrite SE, !SR. cbn [bind]. unfold E, R. rewrite !columns_numbered by lia. change (1 - 1)%nat with 0%nat. change (3 - 1)%nat with 2%nat. change (2 - 1)%nat with 1%nat.
  rewrite columns_left by (auto; rewrite map_length; exact LE). rewrite int_rows_toks. cbn [bind].
  rewrite columns_left by (auto; congruence). rewrite int_rows_toks. cbn [bind]. rewrite !from_zero_based by exact Hb.
  rewrite (columns_right 1) by (auto; try lia; congruence). rewrite (columns_right 1) by (auto; try lia; congruence).
  rewrite (columns_all (2 + nb)) by (auto; lia). reflexivity.
Qed.
Print Assumptions C461_voronoi_file_partial.
Example C461_case : load_edge true [[ntok 1; ntok 0]; [0; 0; 1]] = Err IndexError /\
  load_edge true [[ntok 2; ntok 0]; [0; 0; 1]; [1; 1; tok (-1); tok 3; tok 4]] = Ok (Some ([[0; 1]%Z], [[1%Z]], [[tok 3; tok 4]])).
Proof. vm_compute. auto. Qed.

(* C462: the neighbours of a file counted from zero are read as written *)
Theorem C462_neighbours_round_trip_partial (first : Z) (ns : list (list Z)) (k : nat) : ns <> [] -> width k ns ->
  load_neigh true (section [ntok (length ns); ntok k] first (toks ns)) = Ok (Some ns).
Proof.
  intros Hn W. unfold load_neigh, section. rewrite split_header by reflexivity. cbn [map_all bind]. rewrite !to_count_ntok. cbn [bind].
  replace (length ns =? 0)%nat with false by (symmetry; apply Nat.eqb_neq; destruct ns; [congruence|discriminate]).
  pose proof (numbered_width first _ _ (toks_width ns k W)) as W'.
  assert (LN : length (numbered first (toks ns)) = length ns) by (rewrite numbered_length; unfold toks; apply map_length).
  change (1 + k)%nat with (S k). rewrite <- LN at 1. rewrite <- (app_nil_r (concat _)). rewrite (split_concat _ _ [] W'). rewrite reshape_concat; [|lia|exact W']. cbn [bind].
  rewrite columns_numbered by lia. change (1 - 1)%nat with 0%nat. replace (S k - 1)%nat with k by lia. rewrite (columns_all k) by (auto using toks_width). rewrite int_rows_toks. reflexivity.
Qed.
Print Assumptions C462_neighbours_round_trip_partial.

(* C462 "no neighbour is -1, as in the files": in a file counted from one it becomes -2 *)
Theorem C462_no_neighbour_refuted (first : Z) (ns : list (list Z)) (k : nat) : ns <> [] -> width k ns ->
  load_neigh false (section [ntok (length ns); ntok k] first (toks ns)) = Ok (Some (map (map (fun z => z - 1)%Z) ns)) /\
  (forall r, In r ns -> In (-1)%Z r -> exists r', In r' (map (map (fun z => z - 1)%Z) ns) /\ In (-2)%Z r').
Proof.
  intros Hn W. split.
  - pose proof (C462_neighbours_round_trip_partial first ns k Hn W) as E. unfold load_neigh in *. revert E. destruct (split_at _ 2) as [h t]. destruct (map_all to_count h) as [[|a [|b [|? ?]]]|]; cbn [bind]; try discriminate.
    destruct (a =? 0)%nat; [discriminate|]. destruct (split_at t _) as [h' t']. destruct (reshape_rows _ _) as [v|]; cbn [bind]; [|discriminate].
    destruct (int_rows _) as [x|]; cbn [bind]; [|discriminate]. cbn [from_zero]. intros E. congruence.
  - intros r Hr I. exists (map (fun z => z - 1)%Z r). split; [now apply in_map|]. apply in_map_iff. exists (-1)%Z. auto.
Qed.
Print Assumptions C462_no_neighbour_refuted.
Example C462_case : load_neigh false [ntok 1; ntok 3; 1; tok 2; tok (-1); tok 3] = Ok (Some [[1; -2; 2]%Z]).
Proof. vm_compute. reflexivity. Qed.

(* C463: the largest areas of the triangles are read as written, and so are regions of a point and one number *)
Theorem C463_areas_round_trip (first : Z) (areas : list Qc) (rest : list Qc) : areas <> [] ->
  load_area (section [ntok (length areas)] first (map (fun a => [a]) areas) ++ rest) = Ok (Some (map (fun a => [a]) areas)).
Proof.
  intros Hn. unfold load_area, section. rewrite <- app_assoc, split_header by reflexivity. rewrite to_count_ntok. cbn [bind].
  replace (length areas =? 0)%nat with false by (symmetry; apply Nat.eqb_neq; destruct areas; [congruence|discriminate]).
  assert (W : width 1 (map (fun a : Qc => [a]) areas)) by (apply Forall_map, Forall_forall; reflexivity).
  pose proof (numbered_width first _ 1 W) as W'. rewrite <- (map_length (fun a : Qc => [a]) areas) at 1. rewrite <- (numbered_length first (map _ areas)) at 1.
  rewrite (split_concat 2 _ rest W'). rewrite reshape_concat; [|lia|exact W']. cbn [bind].
  rewrite columns_numbered by lia. change (1 - 1)%nat with 0%nat. change (2 - 1)%nat with 1%nat. rewrite (columns_all 1) by auto. reflexivity.
Qed.
Print Assumptions C463_areas_round_trip.
Theorem C463_regions_partial (first : Z) (regions : list (Qc * Qc * Qc)) (rest : list Qc) : regions <> [] ->
  load_regions (section [ntok (length regions)] first (map (fun r => [fst (fst r); snd (fst r); snd r]) regions) ++ rest) =
    Ok (Some (map (fun r => [fst (fst r); snd (fst r); 0; snd r]) regions)).
Proof.
  intros Hn. unfold load_regions, section. rewrite <- app_assoc, split_header by reflexivity. rewrite to_count_ntok. cbn [bind].
  replace (length regions =? 0)%nat with false by (symmetry; apply Nat.eqb_neq; destruct regions; [congruence|discriminate]).
  set (f := fun r : Qc * Qc * Qc => [fst (fst r); snd (fst r); snd r]).
  assert (W : width 3 (map f regions)) by (apply Forall_map, Forall_forall; reflexivity).
  pose proof (numbered_width first _ 3 W) as W'. rewrite <- (map_length f regions) at 1. rewrite <- (numbered_length first (map f regions)) at 1.
  rewrite (split_concat 4 _ rest W'). rewrite reshape_concat; [|lia|exact W']. cbn [bind].
  rewrite columns_numbered by lia. change (1 - 1)%nat with 0%nat. change (4 - 1)%nat with 3%nat. rewrite (columns_all 3) by auto. rewrite map_map. reflexivity.
Qed.
Print Assumptions C463_regions_partial.

(* C463 "the attribute and the largest area of a region are read": of a region with both, the attribute is put in the place of the area and the area is lost *)
Theorem C463_regions_refuted (num x y attribute area : Qc) :
  load_regions [ntok 1; num; x; y; attribute; area] = Ok (Some [[x; y; 0; attribute]]).
Proof. unfold load_regions, split_at. cbn [firstn skipn]. rewrite to_count_ntok. reflexivity. Qed.
Print Assumptions C463_regions_refuted.
Example C463_case : load_area [ntok 2; 0; tok 3; 1; tok 4] = Ok (Some [[tok 3]; [tok 4]]) /\ load_regions [ntok 1; 0; tok 5; tok 6; tok 7] = Ok (Some [[tok 5; tok 6; 0; tok 7]]).
Proof. vm_compute. auto. Qed.
