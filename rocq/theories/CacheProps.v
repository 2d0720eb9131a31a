(* Properties of the evaluation cache. *)
From Coq Require Import List Arith ZArith Bool QArith Qcanon Lia.
From Verif Require Import Common QcLib ListLib ArrZ SumLib NurbsModel NurbsEditModel CacheModel CacheSpec CacheProofs.
Import ListNotations.
Local Open Scope Qc_scope.

Definition q2 (a b : Z) : Qc := Q2Qc (Qmake a (Z.to_pos b)).
Definition arch : list pt := [mkpt 0 0 0 1; mkpt (zq 1) (zq 3) 0 1; mkpt (zq 2) (- zq 1) 0 1; mkpt (zq 4) 0 0 1].
Definition arch_knots : list Qc := [0; 0; 0; 0; zq 2; zq 2; zq 2; zq 2].
Definition half : Qc := q2 1 2.
Definition make_arch : cmd := New arch 3 (Some (KFresh arch_knots)) false.
Definition value (r : res out) : option (list Q) := match r with Ok (Point (Ok (x, y, z))) => Some [this x; this y; this z] | _ => None end.
Definition fresh (i : nat) (s : st) (t : Qc) : option (list Q) := match nth_error (objs s) i with Some o => value (Ok (Point (evaluate (curve_of s o) t))) | None => None end.

(* C39: evaluation agrees with the present state of the curve *)
Theorem C39_fresh_partial : forall l i o t, Forall clean l -> nth_error (objs (run l start)) i = Some o ->
  snd (exec (Eval i t) (run l start)) = Ok (Point (evaluate (curve_of (run l start) o) t)).
Proof. intros l i o t L. apply eval_fresh, run_inv; [exact L|apply start_inv]. Qed.
(* the degree setter keeps the cache *)
Theorem C39_degree_refuted : forall s i t v d, snd (exec (Eval i t) s) = Ok (Point v) -> snd (exec (Eval i t) (run [Eval i t; SetDegree i d] s)) = Ok (Point v).
Proof. exact stale_degree. Qed.
(* a copy is evaluated with the points of the original *)
Theorem C39_copy_refuted : forall l i o P t, Forall clean l -> nth_error (objs (run l start)) i = Some o ->
  let s := run l start in let j := length (objs s) in
  snd (exec (Eval j t) (run [Copy i; SetPoints j P] s)) = Ok (Point (evaluate (curve_of s o) t)).
Proof. intros l i o P t L E. apply copy_stale; [apply run_inv; [exact L|apply start_inv]|exact E]. Qed.
(* curves that were given the same knot array: normalising one changes the knots of the other *)
Theorem C39_shared_refuted : forall s a b oa ob t v m M, a <> b -> nth_error (objs s) a = Some oa -> nth_error (objs s) b = Some ob -> o_knots oa = o_knots ob -> (o_knots ob < length (karr s))%nat ->
  list_min (c_knots (curve_of s ob)) = Ok m -> list_max (c_knots (curve_of s ob)) = Ok M -> M <> m -> snd (exec (Eval b t) s) = Ok (Point v) ->
  snd (exec (Eval b t) (run [Eval b t; Normalize a] s)) = Ok (Point v) /\ exists o, nth_error (objs (run [Eval b t; Normalize a] s)) b = Some o /\ c_knots (curve_of (run [Eval b t; Normalize a] s) o) = map (fun k => (k - m) / (M - m)) (c_knots (curve_of s ob)).
Proof. exact shared_stale. Qed.
(* the array that evaluation returns is the one in the cache *)
Theorem C39_result_refuted : forall s i t v w, snd (exec (Eval i t) s) = Ok (Point v) -> snd (exec (Eval i t) (run [Eval i t; WriteResult i t w] s)) = Ok (Point (Ok w)).
Proof. exact stale_result. Qed.
Print Assumptions C39_fresh_partial.
Print Assumptions C39_degree_refuted.
Print Assumptions C39_copy_refuted.
Print Assumptions C39_shared_refuted.
Print Assumptions C39_result_refuted.
Definition busy : list cmd := [make_arch; Eval 0 half; SetWeights 0 [1; zq 2; 1; 1]; Eval 0 half; Normalize 0; DeepCopy 0; Insert 1 half 1 []; SetPoints 0 (rev arch)].
Example C39_fresh_case : Forall clean busy /\ length (objs (run busy start)) = 2%nat /\
  fresh 0 (run busy start) half = Some [13 # 8; 3 # 4; 0]%Q /\ fresh 1 (run busy start) half = fresh 0 (run [make_arch; SetWeights 0 [1; zq 2; 1; 1]] start) 1.
Proof. split; [repeat constructor; try discriminate|]. vm_compute. repeat split; reflexivity. Qed.
Example C39_degree_case : value (snd (exec (Eval 0 half) (run [make_arch; Eval 0 half; SetDegree 0 2] start))) = Some [49 # 64; 9 # 8; 0]%Q /\ fresh 0 (run [make_arch; Eval 0 half; SetDegree 0 2] start) half = Some [25 # 16; 21 # 16; 0]%Q.
Proof. vm_compute. split; reflexivity. Qed.
Definition moved : list pt := map (fun p => mkpt (px p) (py p) (pz p + 1) (pw p)) arch.
Example C39_copy_case : Forall clean [make_arch] /\ value (snd (exec (Eval 1 half) (run [make_arch; Copy 0; SetPoints 1 moved] start))) = Some [49 # 64; 9 # 8; 0]%Q /\ fresh 1 (run [make_arch; Copy 0; SetPoints 1 moved] start) half = Some [49 # 64; 9 # 8; 1]%Q.
Proof. split; [repeat constructor; discriminate|]. vm_compute. split; reflexivity. Qed.
Definition two_arches : st := run [make_arch; New moved 3 (Some (KShared 1)) false] start.
Example C39_shared_case : map o_knots (objs two_arches) = [1; 1]%nat /\ (1 < length (karr two_arches))%nat /\ option_map this (match list_max arch_knots with Ok M => Some M | _ => None end) = Some 2%Q /\
  value (snd (exec (Eval 1 half) (run [Eval 1 half; Normalize 0] two_arches))) = Some [49 # 64; 9 # 8; 1]%Q /\ fresh 1 (run [Eval 1 half; Normalize 0] two_arches) half = Some [13 # 8; 3 # 4; 1]%Q.
Proof. vm_compute. repeat split; try reflexivity; lia. Qed.
Example C39_result_case : value (snd (exec (Eval 0 half) (run [make_arch; Eval 0 half; WriteResult 0 half (0, 0, 0)] start))) = Some [0; 0; 0]%Q /\ fresh 0 (run [make_arch; Eval 0 half; WriteResult 0 half (0, 0, 0)] start) half = Some [49 # 64; 9 # 8; 0]%Q.
Proof. vm_compute. split; reflexivity. Qed.

(* C141: an operation changes the curve it is called on and no other *)
Theorem C141_independent_partial : forall l c j o, Forall clean l -> clean c -> let s := run l start in j <> target c s -> nth_error (objs s) j = Some o ->
  nth_error (objs (fst (exec c s))) j = Some o /\ curve_of (fst (exec c s)) o = curve_of s o.
Proof. intros l c j o L C s N E. apply (others_weak (target c s)); [|exact N|exact E]. apply exec_good; [exact C|]. apply run_inv; [exact L|apply start_inv]. Qed.
Theorem C141_shared_refuted : forall s a b oa ob m M, a <> b -> nth_error (objs s) a = Some oa -> nth_error (objs s) b = Some ob -> o_knots oa = o_knots ob -> (o_knots ob < length (karr s))%nat ->
  list_min (c_knots (curve_of s ob)) = Ok m -> list_max (c_knots (curve_of s ob)) = Ok M -> M <> m ->
  exists o, nth_error (objs (fst (exec (Normalize a) s))) b = Some o /\ c_knots (curve_of (fst (exec (Normalize a) s)) o) = map (fun k => (k - m) / (M - m)) (c_knots (curve_of s ob)).
Proof. exact shared_write. Qed.
Print Assumptions C141_independent_partial.
Print Assumptions C141_shared_refuted.
Example C141_case : Forall clean busy /\ clean (Normalize 1) /\ target (Normalize 1) (run busy start) <> 0%nat /\ length (objs (run busy start)) = 2%nat /\
  map o_knots (objs two_arches) = [1; 1]%nat /\ map (map this) (karr (fst (exec (Normalize 0) two_arches))) = [[]; [0; 0; 0; 0; 1; 1; 1; 1]; []]%Q.
Proof. split; [repeat constructor; try discriminate|]. split; [exact I|]. split; [discriminate|]. vm_compute. repeat split; reflexivity. Qed.

(* C142: a deep copy is a new curve with the same control points, weights, knots, degree and interval *)
Theorem C142_deepcopy : forall l i o, Forall clean l -> let s := run l start in let s' := fst (exec (DeepCopy i) s) in nth_error (objs s) i = Some o ->
  snd (exec (DeepCopy i) s) = Ok (Curve (length (objs s))) /\ (exists p, nth_error (objs s') (length (objs s)) = Some p /\ curve_of s' p = curve_of s o) /\ nth_error (objs s') i = Some o /\ curve_of s' o = curve_of s o.
Proof.
  intros l i o L s s' E. assert (I : inv s) by (apply run_inv; [exact L|apply start_inv]). destruct (deepcopy_same s i o I E) as [A B]. split; [exact A|]. split; [exact B|].
  apply (others_weak (length (objs s)) s s'); [|pose proof (nth_error_lt _ _ _ E); lia|exact E]. apply (exec_good (DeepCopy i) s); [exact Logic.I|exact I].
Qed.
Print Assumptions C142_deepcopy.
Example C142_case : Forall clean busy /\ length (objs (run busy start)) = 2%nat /\ fresh 2 (run (busy ++ [DeepCopy 1]) start) half = fresh 1 (run busy start) half /\ fresh 1 (run busy start) half <> fresh 0 (run busy start) half.
Proof. split; [repeat constructor; try discriminate|]. vm_compute. repeat split; try reflexivity. discriminate. Qed.
