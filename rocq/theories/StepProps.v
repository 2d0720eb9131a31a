(* STEP text and the STEP writer: C47-C49, C126-C133. *)
From Coq Require Import List Arith ZArith Bool QArith Qcanon Ascii String Lia.
From Verif Require Import Common QcLib StepModel StepSpec StepModel2 StepSpec2 StepProofs StepProofs2 StepProofs3.
Import ListNotations.
Local Open Scope Qc_scope.
Local Open Scope list_scope.

Definition tx (s : string) : text := list_ascii_of_string s.

(* C47: not covered are strings containing their own quotation mark, and nested strings with
   parentheses; both are wrong, see below *)
Theorem C47_arguments_partial : forall l t, denotes_all false l t -> parse_arguments t = Ok l.
Proof. exact arguments_ok. Qed.
Theorem C47_nested_string_refuted : forall w x, Forall (fun c => ~ special c) w -> Forall (fun c => ~ special c) x ->
  exists a b, parse_arguments (["("; "'"]%char ++ w ++ [")"%char] ++ x ++ ["'"; ")"]%char) = Ok [VTuple [a]; b].
Proof. exact nested_string. Qed.
Theorem C47_typed_refuted : forall name l t, name <> [] -> Forall (fun c => ~ special c /\ is_space c = false) name -> denotes_all true l t ->
  parse_arguments (name ++ "("%char :: t ++ [")"%char]) = Ok [VTuple l; process_token name].
Proof. intros name l t N F D. apply StepProofs2.typed; [eapply Forall_impl; [|exact F]; intros c [H _]; exact H|apply solid_nosp; [exact N|eapply Forall_impl; [|exact F]; intros c [_ H]; exact H]|exact D]. Qed.
Theorem C47_doubled_refuted : forall u v, ~ In "'"%char u -> ~ In "'"%char v ->
  parse_arguments ("'"%char :: u ++ "'"%char :: "'"%char :: v ++ ["'"%char]) = Ok [VStr (u ++ "'"%char :: "'"%char :: v)].
Proof. exact doubled. Qed.
Print Assumptions C47_arguments_partial.
Print Assumptions C47_nested_string_refuted.
Print Assumptions C47_typed_refuted.
Print Assumptions C47_doubled_refuted.
(* a number, a string with commas and parentheses, a nested tuple of a reference and a number *)
Example C47_case : denotes_all false [VInt 12; VStr (tx "a,(b"); VTuple [VStr (tx "#7"); VInt (-3)]] (tx "12, 'a,(b',(#7,-3)").
Proof.
  change (tx "12, 'a,(b',(#7,-3)") with ([] ++ tx "12" ++ [] ++ ","%char :: ([" "%char] ++ ("'"%char :: tx "a,(b" ++ ["'"%char]) ++ [] ++ ","%char :: ([] ++ ("("%char :: ([] ++ tx "#7" ++ [] ++ ","%char :: ([] ++ ("-"%char :: tx "3") ++ [])) ++ [")"%char]) ++ []))).
  apply d_next; [constructor|apply d_int; apply (integer_plus 12 2); exact (decimal_more 1 1 _ 2 (decimal_one 1 ltac:(lia)) ltac:(lia))|constructor| |discriminate].
  apply d_next; [constructor; [vm_compute; tauto|constructor]|apply d_quoted; [left; reflexivity|cbn; intuition discriminate|discriminate]|constructor| |discriminate].
  apply d_last; [constructor| |constructor]. apply d_tuple. apply d_next; [constructor| |constructor| |discriminate].
  - apply d_word. split; [|cbn; tauto]. repeat constructor; unfold special; intuition discriminate.
  - apply d_last; [constructor| |constructor]. apply d_int. exact (integer_minus 3 1 _ (decimal_one 3 ltac:(lia))).
Qed.
Example C47_refuted_case : parse_arguments (tx "('f(x)','y')") = Ok [VTuple [VStr (tx "f(x)"); VStr (tx "y")]] /\ parse_arguments (tx "('a)b')") = Ok [VTuple [VStr (tx "'a")]; VStr (tx "b')")].
Proof. split; vm_compute; reflexivity. Qed.

(* C48 *)
Theorem C48_counts : forall l u m, get_knot_multiplicities l = (u, m) -> List.length u = List.length m /\ Forall (fun c => 0 < c)%nat m /\ list_sum m = List.length l /\ incl u l.
Proof. exact multiplicities_basic. Qed.
Theorem C48_expand : forall l u m, get_knot_multiplicities l = (u, m) -> Forall2 (fun a b => a - b < eps8 /\ b - a < eps8) l (expand u m).
Proof. exact multiplicities_close. Qed.
Theorem C48_exact : forall l u m, (forall x y, In x l -> In y l -> x - y < eps8 -> y - x < eps8 -> x = y) -> get_knot_multiplicities l = (u, m) -> expand u m = l.
Proof. exact multiplicities_exact. Qed.
Theorem C48_apart : forall l u m, get_knot_multiplicities l = (u, m) -> forall i, (S i < List.length u)%nat -> eps8 <= nth (S i) u 0 - nth i u 0 \/ eps8 <= nth i u 0 - nth (S i) u 0.
Proof. exact multiplicities_apart. Qed.
Theorem C48_order : forall l u m, (forall i, (S i < List.length l)%nat -> nth i l 0 <= nth (S i) l 0) -> get_knot_multiplicities l = (u, m) -> forall i, (S i < List.length u)%nat -> nth i u 0 < nth (S i) u 0.
Proof. exact multiplicities_up. Qed.
Print Assumptions C48_counts.
Print Assumptions C48_expand.
Print Assumptions C48_exact.
Print Assumptions C48_apart.
Print Assumptions C48_order.
Definition knots_case : list Qc := [0; 0; 0; Q2Qc (1 # 2); 1; 1; 1].
Example C48_case : snd (get_knot_multiplicities knots_case) = [3; 1; 3]%nat /\ (forall i, (S i < List.length knots_case)%nat -> nth i knots_case 0 <= nth (S i) knots_case 0) /\
  (forall x y, In x knots_case -> In y knots_case -> x - y < eps8 -> y - x < eps8 -> x = y).
Proof.
  split; [vm_compute; reflexivity|]. split.
  - intros i H. cbn [knots_case List.length] in H. do 6 (destruct i as [|i]; [apply qle_true; vm_compute; reflexivity|]). lia.
  - assert (B : forall a b, qlt a b = true -> a < b) by (intros a b; apply qlt_true). assert (N : forall a b, qlt a b = false -> a < b -> False) by (intros a b F L; apply qlt_true in L; congruence).
    intros x y X Y L1 L2. cbn [knots_case In] in X, Y.
    repeat match goal with H : _ \/ _ |- _ => destruct H as [H|H] end; try contradiction; subst x y; try reflexivity; exfalso; first [eapply N; [|exact L1]; vm_compute; reflexivity | eapply N; [|exact L2]; vm_compute; reflexivity].
Qed.

(* C49 *)
Theorem C49_fresh : forall s c, used true s -> Forall (present s) (cmd_refs c) ->
  (exists l, insts (fst (exec c s)) = insts s ++ l) /\ NoDup (map fst (insts (fst (exec c s)))) /\
  match snd (exec c s) with Ok rs => Forall (present (fst (exec c s))) rs | Err e => e = ValueError end.
Proof.
  intros s c U F. destruct (used_exec true s c U F ltac:(discriminate)) as [I [E H]]. split; [apply E|]. split; [apply keys_nodup, I|]. destruct (snd (exec c s)) as [rs|e]; [|exact H]. eapply Forall_impl; [|exact H]. intros r. apply known_present, I.
Qed.
Theorem C49_no_dangling : forall s r e, used true s -> In (r, e) (insts s) -> forall x, In x (ent_refs e) -> (x < r)%nat /\ present s x.
Proof.
  intros s r e U H x X. destruct (used_inv true s U) as [I _]. pose proof I as [[K R] _]. specialize (R _ _ H). rewrite Forall_forall in R. specialize (R x X). split; [lia|]. apply known_present; [apply I|]. split; [lia|]. assert (In r (map fst (insts s))) as P by (apply in_map_iff; exists (r, e); auto). rewrite K, in_seq in P. lia.
Qed.
Print Assumptions C49_fresh.
Print Assumptions C49_no_dangling.
Definition start : st := fst (init (1) [0; 0; 0] [1; 0; 0] [0; 1; 0]).
Definition line_case : curve := {| c_degree := 1; c_knots := [0; 0; 1; 1]; c_points := [[0; 0; 0]; [1; 1; 0]]; c_weights := [1; 1]; c_start := [0; 0; 0]; c_end := [1; 1; 0] |}.
Definition after (cs : list cmd) : st := fold_left (fun s c => fst (exec c s)) cs start.
(* the curve gives edge 18+8; the loop of a placement raises, the loop of the edge does not *)
Definition history_case : list cmd := [CCurve line_case; CLoop [Some 26%nat; Some 17%nat] "bad"; CLoop [Some 25%nat; Some 26%nat] "loop"].
Lemma start_ok : init (1) [0; 0; 0] [1; 0; 0] [0; 1; 0] = (start, Ok tt).
Proof. unfold start. assert (E : snd (init (1) [0; 0; 0] [1; 0; 0] [0; 1; 0]) = Ok tt) by reflexivity. destruct (init _ _ _ _) as [s r]. cbn in *. congruence. Qed.
Example C49_case : used false (after history_case) /\ last_ref (after history_case) = 28%nat /\ map (fun c => snd (exec c (after [CCurve line_case]))) [CLoop [Some 26%nat; Some 17%nat] "bad"; CLoop [Some 25%nat; Some 26%nat] "loop"] = [Err ValueError; Ok [28%nat]].
Proof.
  split; [|split; vm_compute; reflexivity]. unfold after, history_case. cbn [fold_left].
  apply used_more; [|repeat (apply Forall_cons; [vm_compute; tauto|]); apply Forall_nil|intros _; exact I].
  apply used_more; [|repeat (apply Forall_cons; [vm_compute; tauto|]); apply Forall_nil|intros _; exact I].
  apply used_more; [|apply Forall_nil|intros _; exact I]. eapply used_new. exact start_ok.
Qed.

(* C126 *)
Theorem C126_total : forall t, (exists l, parse_arguments t = Ok l) \/ parse_arguments t = Err ValueError.
Proof. exact arguments_total. Qed.
Theorem C126_unclosed : forall u v, Forall (fun c => ~ special c \/ c = ","%char) u -> Forall (fun c => c <> ")"%char) v -> parse_arguments (u ++ "("%char :: v) = Err ValueError.
Proof. exact unclosed. Qed.
Print Assumptions C126_total.
Print Assumptions C126_unclosed.
Example C126_case : parse_arguments (tx "1,2(3,(4") = Err ValueError /\ Forall (fun c => ~ special c \/ c = ","%char) (tx "1,2") /\ Forall (fun c => c <> ")"%char) (tx "3,(4").
Proof. split; [vm_compute; reflexivity|]. split; [repeat (apply Forall_cons; [unfold special; first [right; reflexivity|left; intuition discriminate]|]); apply Forall_nil|repeat (apply Forall_cons; [discriminate|]); apply Forall_nil]. Qed.

(* C127 *)
Theorem C127_stray_refuted : forall t, Forall (fun c => ~ special c \/ c = ")"%char) t -> parse_arguments t = Ok (push t []).
Proof. exact stray. Qed.
Print Assumptions C127_stray_refuted.
Example C127_case : parse_arguments (tx "1)2") = Ok [VStr (tx "1)2")] /\ Forall (fun c => ~ special c \/ c = ")"%char) (tx "1)2").
Proof. split; [vm_compute; reflexivity|]. repeat (apply Forall_cons; [unfold special; first [right; reflexivity|left; intuition discriminate]|]). apply Forall_nil. Qed.

(* C128: names of capital letters and underscores *)
Theorem C128_assignment_partial : forall pre ds a b name d args l post, blank pre -> ds <> [] -> Forall (fun c => is_digit c = true) ds -> blank a -> blank b ->
  name <> [] -> Forall (fun c => is_name c = true) name -> blank d -> denotes_all false l args -> ~ In "010"%char args -> ~ In ")"%char post ->
  parse_assignment (pre ++ ("#"%char :: ds ++ a ++ "="%char :: b) ++ name ++ d ++ "("%char :: args ++ ")"%char :: post) = Ok (name, l).
Proof. exact assignment_ok. Qed.
Theorem C128_digit_refuted : forall ds a b n1 c r, ds <> [] -> Forall (fun c => is_digit c = true) ds -> blank a -> blank b -> Forall (fun c => is_name c = true) n1 -> is_digit c = true ->
  parse_assignment (("#"%char :: ds ++ a ++ "="%char :: b) ++ n1 ++ c :: r) = Err ValueError.
Proof. exact digit_name. Qed.
Print Assumptions C128_assignment_partial.
Print Assumptions C128_digit_refuted.
Example C128_case : parse_assignment (tx " #12 = VERTEX_POINT('',#7); ") = Ok (tx "VERTEX_POINT", [VStr []; VStr (tx "#7")]) /\ parse_assignment (tx "#17=AXIS2_PLACEMENT_3D('',#14,#15,#16);") = Err ValueError.
Proof. split; vm_compute; reflexivity. Qed.

(* C129 *)
Theorem C129_typed : forall s r n l, used false s -> In (r, Simple n l) (insts s) -> well_typed s n l.
Proof. intros s r n l U H. destruct (used_inv false s U) as [[_ [T _]] _]. exact (T eq_refl r n l H). Qed.
Print Assumptions C129_typed.
Example C129_case : used false (after history_case) /\ is_a (after history_case) 28 "EDGE_LOOP" /\ is_a (after history_case) 25 "EDGE_CURVE" /\ is_a (after history_case) 23 "VERTEX_POINT".
Proof. split; [apply C49_case|]. split; [|split]; eexists; apply dict_get_in; vm_compute; reflexivity. Qed.

(* C130 *)
Theorem C130_curve : forall raw s c r, used raw s -> snd (exec (CCurve c) s) = Ok [r] -> exists a b, edge_along (fst (exec (CCurve c) s)) r a b c.
Proof.
  intros raw s c r U H. destruct (used_inv raw s U) as [I _]. pose proof (safe_curve_edge raw s c I) as S. cbn [exec] in *. unfold one, add_nurbs_curve, andthen in *. unfold safe in S. destruct (curve_edge c s) as [s1 [x|e]]; cbn [fst snd ret] in *; [|discriminate]. injection H as ->. destruct S as [_ [_ [_ [_ [a [b [A _]]]]]]]. eauto.
Qed.
Theorem C130_surface : forall raw s f bs col n m, used raw s -> snd (exec (CSurface f bs col n) s) = Ok [m] ->
  exists es vs, List.length vs = List.length bs /\ model_of (fst (exec (CSurface f bs col n) s)) m f es /\ Forall2 (fun r vc => edge_along (fst (exec (CSurface f bs col n) s)) r (fst (fst vc)) (snd (fst vc)) (snd vc)) es (combine vs bs).
Proof.
  intros raw s f bs col n m U H. destruct (used_inv raw s U) as [I R]. pose proof (safe_surface raw s f bs col n I R) as S. cbn [exec] in *. unfold one in *. unfold andthen at 1 in H. unfold andthen. unfold safe in S. destruct (add_nurbs_surface f bs col n s) as [s1 [x|e]]; cbn [fst snd ret] in *; [|discriminate]. injection H as ->. destruct S as [_ [_ [_ [es [vs [L [M [A _]]]]]]]]. eauto.
Qed.
Print Assumptions C130_curve.
Print Assumptions C130_surface.
Definition square_case : surface := {| s_degree_u := 1; s_degree_v := 1; s_knots_u := [0; 0; 1; 1]; s_knots_v := [0; 0; 1; 1]; s_points := [[[0; 0; 0]; [0; 1; 0]]; [[1; 0; 0]; [1; 1; 0]]]; s_weights := [[1; 1]; [1; 1]] |}.
Definition side (a b : list Qc) : curve := {| c_degree := 1; c_knots := [0; 0; 1; 1]; c_points := [a; b]; c_weights := [1; 1]; c_start := a; c_end := b |}.
Definition sides_case : list curve := [side [0; 0; 0] [1; 0; 0]; side [1; 0; 0] [1; 1; 0]; side [1; 1; 0] [0; 1; 0]; side [0; 1; 0] [0; 0; 0]].
Example C130_case : used false start /\ snd (exec (CCurve line_case) start) = Ok [26%nat] /\ snd (exec (CSurface square_case sides_case [1; 0; 0] "s") start) = Ok [63%nat].
Proof. split; [eapply used_new; exact start_ok|]. split; vm_compute; reflexivity. Qed.

(* C131: curves and surfaces that differ in weights are written alike *)
Theorem C131_weights_refuted : forall s c d, c_degree c = c_degree d -> c_knots c = c_knots d -> c_points c = c_points d -> c_start c = c_start d -> c_end c = c_end d -> exec (CCurve c) s = exec (CCurve d) s.
Proof.
  intros s [] [] H1 H2 H3 H4 H5. cbn in *. subst. reflexivity.
Qed.
Theorem C131_surface_weights_refuted : forall s f g bs col n, s_degree_u f = s_degree_u g -> s_degree_v f = s_degree_v g -> s_knots_u f = s_knots_u g -> s_knots_v f = s_knots_v g -> s_points f = s_points g -> exec (CSurface f bs col n) s = exec (CSurface g bs col n) s.
Proof.
  intros s [] [] bs col n H1 H2 H3 H4 H5. cbn in *. subst. reflexivity.
Qed.
Print Assumptions C131_weights_refuted.
Print Assumptions C131_surface_weights_refuted.
(* a quarter of a circle and a parabola with the same points *)
Definition arc_case (w : Qc) : curve := {| c_degree := 2; c_knots := [0; 0; 0; 1; 1; 1]; c_points := [[1; 0; 0]; [1; 1; 0]; [0; 1; 0]]; c_weights := [1; w; 1]; c_start := [1; 0; 0]; c_end := [0; 1; 0] |}.
Example C131_case : arc_case 1 <> arc_case (Q2Qc (7 # 10)) /\ snd (exec (CCurve (arc_case 1)) start) = Ok [27%nat].
Proof. split; [|vm_compute; reflexivity]. intros H. apply (f_equal c_weights) in H. cbn in H. injection H as H. vm_compute in H. discriminate H. Qed.

(* C132: no two edges of an exported loop share a vertex *)
Theorem C132_loop_refuted : forall raw s f bs col n m, used raw s -> snd (exec (CSurface f bs col n) s) = Ok [m] ->
  exists es vs, List.length vs = List.length bs /\ model_of (fst (exec (CSurface f bs col n) s)) m f es /\ Forall2 (fun r vc => edge_along (fst (exec (CSurface f bs col n) s)) r (fst (fst vc)) (snd (fst vc)) (snd vc)) es (combine vs bs) /\
  NoDup (flat_map (fun v => [fst v; snd v]) vs).
Proof.
  intros raw s f bs col n m U H. destruct (used_inv raw s U) as [I R]. pose proof (safe_surface raw s f bs col n I R) as S. cbn [exec] in *. unfold one in *. unfold andthen at 1 in H. unfold andthen. unfold safe in S. destruct (add_nurbs_surface f bs col n s) as [s1 [x|e]]; cbn [fst snd ret] in *; [|discriminate]. injection H as ->. apply S.
Qed.
Print Assumptions C132_loop_refuted.
Example C132_case : used false start /\ snd (exec (CSurface square_case sides_case [1; 0; 0] "s") start) = Ok [63%nat] /\ map c_end sides_case = tl (map c_start sides_case) ++ [c_start (hd line_case sides_case)].
Proof. split; [apply C130_case|]. split; [apply C130_case|reflexivity]. Qed.

(* C133: a vertex made from coordinates has no name *)
Theorem C133_name_refuted : forall raw s p n r, used raw s -> snd (exec (CVertex (Coords p) n) s) = Ok [r] -> exists q, In (r, Simple "VERTEX_POINT" [AStr ""; ARef q]) (insts (fst (exec (CVertex (Coords p) n) s))).
Proof.
  intros raw s p n r U H. destruct (used_inv raw s U) as [I _].
  assert (S : safe raw s (add_vertex_point (Coords p) n) (fun r s' => exists q, In (r, Simple "VERTEX_POINT" [AStr ""; ARef q]) (insts s'))).
  { cbn [add_vertex_point]. eapply safe_bind; [apply safe_point, I|]. intros q s1 I1 E1 [_ [_ [K [J _]]]]. eapply safe_impl; [apply safe_vertex_new; [exact I1|exact K|eexists; exact J]|]. intros x s2 [_ [_ [_ [X _]]]] _. exists q. exact X. }
  cbn [exec] in *. unfold one in *. unfold andthen at 1 in H. unfold andthen. unfold safe in S. destruct (add_vertex_point (Coords p) n s) as [s1 [x|e]]; cbn [fst snd ret] in *; [|discriminate]. injection H as ->. apply S.
Qed.
Theorem C133_name_partial : forall raw s p n r, used raw s -> is_a s p "CARTESIAN_POINT" -> snd (exec (CVertex (Ref p) n) s) = Ok [r] -> In (r, Simple "VERTEX_POINT" [AStr n; ARef p]) (insts (fst (exec (CVertex (Ref p) n) s))).
Proof.
  intros raw s p n r U T H. destruct (used_inv raw s U) as [I _]. assert (K : known s p) by (apply known_present; [apply I|]; destruct T as [l T]; apply in_map_iff; exists (p, Simple "CARTESIAN_POINT" l); auto). pose proof (safe_vertex_new raw s p n I K T) as S.
  cbn [exec add_vertex_point] in *. unfold one in *. unfold andthen at 1 in H. unfold andthen at 1. unfold safe in S. destruct (vertex_of_ref p n s) as [s1 [x|e]]; cbn [fst snd ret] in *; [|discriminate]. injection H as ->. apply S.
Qed.
Print Assumptions C133_name_refuted.
Print Assumptions C133_name_partial.
Example C133_case : used false start /\ snd (exec (CVertex (Coords [1; 0; 1]) "corner") start) = Ok [19%nat] /\ snd (exec (CVertex (Ref 14) "corner") start) = Ok [18%nat] /\ is_a start 14 "CARTESIAN_POINT".
Proof. split; [apply C130_case|]. split; [vm_compute; reflexivity|]. split; [vm_compute; reflexivity|]. eexists. apply dict_get_in. vm_compute. reflexivity. Qed.
