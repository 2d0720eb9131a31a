(* Adaptive Runge-Kutta integration: the properties. *)
From Coq Require Import List Arith ZArith Bool QArith Qcanon Lia.
From Verif Require Import Common QcLib ListLib SumLib LuModel RkModel RkSpec RkProofs2 RkProofs1 RkProofs3.
Import ListNotations.
Local Open Scope Qc_scope.

(* numbers and norm of the cases *)
Definition kz (k : Z) : Qc := Q2Qc (inject_Z k).
Definition one_norm (l : list Qc) : Qc := fold_right (fun x r => fabs x + r) 0 l.

(* C412: polynomials under one step *)
Theorem C412_exact_for_polynomials ps t y h : length ps = length y ->
  (Forall (fun p => length p <= 4)%nat ps -> fst (rk_step (poly_rhs ps) t y h) = exact_solution ps t y (t + h)) /\
  (Forall (fun p => length p <= 5)%nat ps -> snd (rk_step (poly_rhs ps) t y h) = exact_solution ps t y (t + h)).
Proof. intro L. split; intro F; [apply poly_exact4|apply poly_exact5]; auto. Qed.
Print Assumptions C412_exact_for_polynomials.
Theorem C412_error_estimate ps t y h : length ps = length y -> Forall (fun p => length p <= 5)%nat ps ->
  vsub (snd (rk_step (poly_rhs ps) t y h)) (fst (rk_step (poly_rhs ps) t y h)) = map (fun p => fr 1 2080 * nth 4 p 0 * (h * h * h * h * h)) ps.
Proof. exact (poly_error ps t y h). Qed.
Print Assumptions C412_error_estimate.
Example C412_case : let s := rk_step (poly_rhs [[kz 1; kz 2]; [kz 0; kz 0; kz 0; kz 0; kz 5]]) (kz 1) [kz 7; kz 0] (kz 2) in (map this (snd s), map this (exact_solution [[kz 1; kz 2]; [kz 0; kz 0; kz 0; kz 0; kz 5]] (kz 1) [kz 7; kz 0] (kz 3))) = ([17; 242], [17; 242])%Q /\
  map this (fst s) = [17; 3145 # 13]%Q.
Proof. vm_compute. auto. Qed.

(* C413: linear systems under one step *)
Theorem C413_linear_systems n A t y h : linear n A -> length y = n -> rk_step (fun _ x => A x) t y h =
  (series A [1; h; h * h * fr 1 2; h * h * h * fr 1 6; h * h * h * h * fr 1 24; h * h * h * h * h * fr 1 104] y,
   series A [1; h; h * h * fr 1 2; h * h * h * fr 1 6; h * h * h * h * fr 1 24; h * h * h * h * h * fr 1 120; h * h * h * h * h * h * fr 1 2080] y).
Proof. exact (linear_step n A t y h). Qed.
Print Assumptions C413_linear_systems.
(* the oscillator of the file *)
Definition oscillator (v : list Qc) : list Qc := match v with [x; y] => [y; - x] | _ => v end.
Example C413_case : linear 2 oscillator /\ map this (snd (rk_step (fun _ x => oscillator x) 0 [1; 0] 1)) = [3377 # 6240; -101 # 120]%Q.
Proof.
  split; [|vm_compute; reflexivity]. split; [|split].
  - intros [|a [|b [|c x]]] L; cbn in L; try discriminate; reflexivity.
  - intros [|a [|b [|c x]]] [|d [|e [|g y]]] L M; cbn in L, M; try discriminate. cbn. apply f_equal2; [reflexivity|]. apply f_equal2; [ring|reflexivity].
  - intros k [|a [|b [|c x]]] L; cbn in L; try discriminate. cbn. apply f_equal2; [reflexivity|]. apply f_equal2; [ring|reflexivity].
Qed.

(* C414: the times and values returned *)
Theorem C414_trace f norm root4 t1 tol hmax hmin fuel t0 y0 vt vy : 0 < hmax -> 0 < hmin -> t0 <= t1 -> rk45_vector f norm root4 t1 tol hmax hmin fuel t0 y0 = Ok (vt, vy) ->
  steps hmax t1 t0 vt /\ accepted f norm tol t0 y0 vt vy /\ last vt t0 = t1.
Proof. exact (trace_ok f norm root4 t1 tol hmax hmin fuel t0 y0 vt vy). Qed.
Print Assumptions C414_trace.
Theorem C414_backward f norm root4 t1 tol hmax hmin fuel t0 y0 : t1 <= t0 -> rk45_vector f norm root4 t1 tol hmax hmin (S fuel) t0 y0 = Ok ([], []).
Proof. intro H. apply loop_end. exact H. Qed.
Print Assumptions C414_backward.
Example C414_case : match rk45_vector (fun _ x => oscillator x) one_norm (fun x => x) (kz 1) (fr 1 100) (fr 1 2) (fr 1 8) 9 0 [1; 0] with Ok (vt, vy) => map this vt = [1 # 2; 1]%Q /\ length vy = 2%nat | _ => False end.
Proof. vm_compute. auto. Qed.

(* C415: the integration ends *)
Theorem C415_ends_partial f norm root4 t1 tol hmax hmin t0 y0 : 0 < hmax -> 0 < hmin -> (forall t y h, 0 < h -> h <= hmax -> norm (vsub (snd (rk_step f t y h)) (fst (rk_step f t y h))) <= tol) ->
  exists N r, forall fuel, (N <= fuel)%nat -> rk45_vector f norm root4 t1 tol hmax hmin fuel t0 y0 = Ok r.
Proof. exact (finishes f norm root4 t1 tol hmax hmin t0 y0). Qed.
Print Assumptions C415_ends_partial.
Theorem C415_ends_refuted f norm root4 t1 tol hmax hmin t0 y0 : 0 < hmax -> 0 < hmin -> t0 < t1 ->
  (forall h, (hmax <= h \/ hmin <= h \/ t1 - t0 <= h) -> h <= hmax -> tol < norm (vsub (snd (rk_step f t0 y0 h)) (fst (rk_step f t0 y0 h)))) ->
  forall fuel, rk45_vector f norm root4 t1 tol hmax hmin fuel t0 y0 = Err OutOfFuel.
Proof. exact (never f norm root4 t1 tol hmax hmin t0 y0). Qed.
Print Assumptions C415_ends_refuted.
Example C415_case root4 fuel : rk45_vector (poly_rhs [[0; 0; 0; 0; kz 1000000000]]) one_norm root4 1 1 1 (fr 1 10) fuel 0 [0] = Err OutOfFuel.
Proof.
  apply C415_ends_refuted; try (unfold fr; qlra). intros h H0 _. rewrite poly_error by (auto; repeat constructor). cbn [map nth one_norm fold_right]. unfold kz, fr.
  assert (H : Q2Qc (1 # 10) <= h) by (unfold fr in H0; destruct H0 as [H | [H | H]]; qlra). set (c := Q2Qc (1 # 10)) in *. assert (C : 0 < c) by (unfold c; qlra).
  assert (M : forall a b, 0 < a -> a <= b -> a * c <= b * h). { intros a b A B. pose proof (qc_mul_nonneg (b - a) h) as X. pose proof (qc_mul_nonneg a (h - c)) as Y. assert (0 <= (b - a) * h) by (apply X; qlra). assert (0 <= a * (h - c)) by (apply Y; qlra). qlra. }
  assert (P : forall a, 0 < a -> 0 < a * c) by (intros a A; apply qc_mul_pos; auto).
  assert (B : c * c * c * c * c <= h * h * h * h * h) by (repeat (apply M; [auto|]); exact H). unfold c in B. clearbody c. clear M P. set (z := h * h * h * h * h) in *. clearbody z. clear H H0 C.
  unfold fabs. change (inject_Z 1000000000) with (1000000000 # 1)%Q; destruct (qlt _ 0) eqn:E; [apply qlt_true in E|apply qlt_false in E]; qlra.
Qed.

(* C416: polynomials under the whole integration *)
Theorem C416_polynomial_values ps norm root4 t1 tol hmax hmin fuel t0 y0 vt vy : length ps = length y0 -> Forall (fun p => length p <= 5)%nat ps -> 0 < hmax -> 0 < hmin -> t0 <= t1 ->
  rk45_vector (poly_rhs ps) norm root4 t1 tol hmax hmin fuel t0 y0 = Ok (vt, vy) -> vy = map (exact_solution ps t0 y0) vt.
Proof. exact (poly_values ps norm root4 t1 tol hmax hmin fuel t0 y0 vt vy). Qed.
Print Assumptions C416_polynomial_values.
Theorem C416_cubics_integrated ps norm root4 t1 tol hmax hmin t0 y0 : length ps = length y0 -> Forall (fun p => length p <= 4)%nat ps -> 0 < hmax -> 0 < hmin -> t0 <= t1 -> 0 <= tol -> (forall n, norm (repeat 0 n) = 0) ->
  exists N vt, steps hmax t1 t0 vt /\ last vt t0 = t1 /\ forall fuel, (N <= fuel)%nat -> rk45_vector (poly_rhs ps) norm root4 t1 tol hmax hmin fuel t0 y0 = Ok (vt, map (exact_solution ps t0 y0) vt).
Proof. exact (cubics ps norm root4 t1 tol hmax hmin t0 y0). Qed.
Print Assumptions C416_cubics_integrated.
Example C416_case : match rk45_vector (poly_rhs [[kz 1; kz 2]; [kz 0; kz 0; kz 3]]) one_norm (fun x => x) (kz 5) (fr 1 100) (kz 2) (fr 1 8) 9 0 [kz 1; kz 4] with
  Ok (vt, vy) => map this vt = [2; 4; 5]%Q /\ map (map this) vy = [[7; 12]; [21; 68]; [31; 129]]%Q | _ => False end.
Proof. vm_compute. auto. Qed.
