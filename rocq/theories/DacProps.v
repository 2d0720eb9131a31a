(* C27-C28, C87-C93: divide-and-conquer searches, scans and bisection. *)
From Coq Require Import List Arith ZArith Bool QArith Qcanon Lia Lqa.
From Verif Require Import Common QcLib SumLib BezModel DacModel DacSpec DacProofs DacProofs2 DacProofs3 DacProofs4.
Import ListNotations.
Open Scope Qc_scope.

Definition shown1 (r : res (Qc * Qc)) : option (Q * Q) := match r with Ok (a, b) => Some (this a, this b) | Err _ => None end.
Definition shownl (r : res (list Qc)) : option (list Q) := match r with Ok l => Some (map this l) | Err _ => None end.

(* C27 *)
Theorem C27_recursive_min : forall f low high tol, 0 < tol -> low <= high -> exists x n, low <= x /\ x <= high /\
  (forall fuel, (n < fuel)%nat -> recursive_min fuel f low high tol = Ok (x, f x)) /\ (forall s, valley f low high s -> within (tol / q2) x s).
Proof. exact recursive_min_thm. Qed.
Print Assumptions C27_recursive_min.
Theorem C27_iterative_min : forall f low high tol, 0 < tol -> low <= high -> exists x n, low <= x /\ x <= high /\
  (forall fuel, (n < fuel)%nat -> iterative_min fuel f low high tol = Ok (x, f x)) /\ (forall s, valley f low high s -> within (tol / q2) x s).
Proof. exact iterative_min_thm. Qed.
Print Assumptions C27_iterative_min.
Theorem C27_recursive_max : forall f low high tol, 0 < tol -> low <= high -> exists x n, low <= x /\ x <= high /\
  (forall fuel, (n < fuel)%nat -> recursive_max fuel f low high tol = Ok (x, f x)) /\ (forall s, peak f low high s -> within (tol / q2) x s).
Proof. exact recursive_max_thm. Qed.
Print Assumptions C27_recursive_max.
Example C27_case : valley steep 0 1 (Q2Qc (9 # 20)) /\ shown1 (iterative_min 50 steep 0 1 (Q2Qc (1 # 4))) = Some (693 # 2048, 1143 # 10240)%Q.
Proof. split; [exact steep_valley|vm_compute; reflexivity]. Qed.

(* C28: whatever the function, the answer is at the right end of the interval *)
Theorem C28_roots_at_right_end_refuted : forall f low high tol s, 0 < tol -> low <= s -> s + tol <= high -> exists n, forall fuel, (n < fuel)%nat ->
  exists x, recursive_roots fuel f low high tol = Ok [(x, f x)] /\ s + tol / q2 < x.
Proof. exact roots_right_end. Qed.
Print Assumptions C28_roots_at_right_end_refuted.
Theorem C28_one_value_in_range_partial : forall f low high tol, 0 < tol -> low <= high -> exists n, forall fuel, (n < fuel)%nat ->
  exists x, recursive_roots fuel f low high tol = Ok [(x, f x)] /\ x <= high /\ high - tol / q2 < x.
Proof. exact roots_in_range. Qed.
Print Assumptions C28_one_value_in_range_partial.
Example C28_case : (match recursive_roots 50 (fun x => x - Q2Qc (1 # 4)) 0 1 (Q2Qc (1 # 8)) with Ok l => Some (map (fun p => this (fst p)) l) | Err _ => None end) = Some [31 # 32]%Q.
Proof. vm_compute. reflexivity. Qed.

(* C87 *)
Theorem C87_min_2d_in_range : forall f range tol, 0 < tol -> proper_box range -> length range = 2%nat ->
  exists n, forall fuel, (n < fuel)%nat -> exists x, min_2d fuel f range tol = Ok x /\ in_box x range.
Proof. intros f range tol H P L. apply search_in_range; auto. rewrite L. apply good_2d. Qed.
Print Assumptions C87_min_2d_in_range.
Theorem C87_min_2d_bowl : forall f x0 x1 y0 y1 tol a b, 0 < tol -> x0 <= a -> a <= x1 -> y0 <= b -> b <= y1 -> bowl f a b ->
  exists n, forall fuel, (n < fuel)%nat -> exists x y, min_2d fuel f [(x0, x1); (y0, y1)] tol = Ok [x; y] /\
    a - tol / q2 <= x /\ x <= a + tol / q2 /\ b - tol / q2 <= y /\ y <= b + tol / q2.
Proof. exact min_2d_bowl. Qed.
Print Assumptions C87_min_2d_bowl.
Definition round_bowl (a b : Qc) (p : list Qc) : Qc := match p with [x; y] => (x - a) * (x - a) + (y - b) * (y - b) | _ => 0 end.
Example C87_case : (forall a b, bowl (round_bowl a b) a b) /\
  shownl (min_2d 50 (round_bowl (Q2Qc (1 # 3)) (Q2Qc (3 # 4))) [(0, 1); (0, 1)] (Q2Qc (1 # 8))) = Some [3 # 8; 3 # 4]%Q.
Proof.
  split; [|vm_compute; reflexivity]. intros a b. unfold bowl, nearer, round_bowl. split; intros x y z H; qlra.
Qed.

(* C88 *)
Theorem C88_separable_valley_missed_refuted : forall tol, 0 < tol -> tol < 1 -> exists n, forall fuel, (n < fuel)%nat ->
  exists x y, min_2d fuel missed_2d (unit_box 2) tol = Ok [x; y] /\ x <= Q2Qc (3 # 8).
Proof. exact min_2d_misses. Qed.
Print Assumptions C88_separable_valley_missed_refuted.
(* the function is a sum of a valley in x with bottom 9/20 and one in y *)
Theorem C88_is_separable_partial : (forall x y, missed_2d [x; y] = steep x + y * y) /\ valley steep 0 1 (Q2Qc (9 # 20)) /\ valley (fun y => y * y) 0 1 0.
Proof. split; [reflexivity|]. split; [exact steep_valley|exact square_valley]. Qed.
Print Assumptions C88_is_separable_partial.
Example C88_case : shownl (min_2d 50 missed_2d (unit_box 2) (Q2Qc (1 # 16))) = Some [(5 # 16); 1 # 128]%Q.
Proof. vm_compute. reflexivity. Qed.

(* C89 *)
Theorem C89_quadratic_missed_refuted : forall tol, 0 < tol -> tol < 1 -> exists n, forall fuel, (n < fuel)%nat ->
  exists x y z, min_3d fuel missed_3d (unit_box 3) tol = Ok [x; y; z] /\ x <= Q2Qc (3 # 8).
Proof. exact min_3d_misses. Qed.
Print Assumptions C89_quadratic_missed_refuted.
Theorem C89_min_3d_in_range_partial : forall f range tol, 0 < tol -> proper_box range -> length range = 3%nat ->
  exists n, forall fuel, (n < fuel)%nat -> exists x, min_3d fuel f range tol = Ok x /\ in_box x range.
Proof. intros f range tol H P L. apply search_in_range; auto. rewrite L. apply good_3d. Qed.
Print Assumptions C89_min_3d_in_range_partial.
Example C89_case : missed_3d [Q2Qc (7 # 16); 0; 1] = 0 /\ proper_box (unit_box 3) /\
  shownl (min_3d 50 missed_3d (unit_box 3) (Q2Qc (1 # 4))) = Some [1 # 8; 1 # 8; 7 # 8]%Q.
Proof. split; [apply Qc_is_canon; vm_compute; reflexivity|]. split; [|vm_compute; reflexivity]. repeat constructor; apply qle_true; vm_compute; reflexivity. Qed.

(* C90 *)
Theorem C90_middle_never_reached_refuted : forall f range tol, 0 < tol -> proper_box range -> length range <> 2%nat -> Exists (fun lh => tol < snd lh - fst lh) range ->
  exists n, forall fuel, (n < fuel)%nat -> exists x, min_nd fuel f range tol = Ok x /\
    Forall2 (fun v rr => v <= fst rr + (snd rr - fst rr) * Q2Qc (3 # 8) \/ snd rr - (snd rr - fst rr) * Q2Qc (3 # 8) <= v) x range.
Proof. exact min_nd_misses. Qed.
Print Assumptions C90_middle_never_reached_refuted.
Theorem C90_plane_misses_refuted : forall f x0 x1 y0 y1 tol, 0 < tol -> x0 <= x1 -> y0 <= y1 -> (tol < x1 - x0 \/ tol < y1 - y0) ->
  exists n, forall fuel, (n < fuel)%nat -> exists x y, min_nd fuel f [(x0, x1); (y0, y1)] tol = Ok [x; y] /\ (x <= x0 + (x1 - x0) / q4 \/ y <= y0 + (y1 - y0) / q4).
Proof. exact min_nd2_misses. Qed.
Print Assumptions C90_plane_misses_refuted.
Theorem C90_min_nd_in_range_partial : forall f range tol, 0 < tol -> proper_box range ->
  exists n, forall fuel, (n < fuel)%nat -> exists x, min_nd fuel f range tol = Ok x /\ in_box x range.
Proof. intros f range tol H P. apply search_in_range; auto. apply good_nd. Qed.
Print Assumptions C90_min_nd_in_range_partial.
Example C90_case : shownl (min_nd 50 (fun p => match p with [x] => (x - Q2Qc (1 # 2)) * (x - Q2Qc (1 # 2)) | _ => 0 end) [(0, 1)] (Q2Qc (1 # 8))) = Some [1 # 4]%Q /\
  shownl (min_nd 50 (round_bowl 1 1) [(0, 1); (0, 1)] (Q2Qc (1 # 8))) = Some [1 # 2; 1 # 128]%Q.
Proof. split; vm_compute; reflexivity. Qed.

(* C91 *)
Theorem C91_scan_reports_crossings : forall f step start stop, 0 < step -> exists N n roots mn,
  (forall k, (k < N)%nat <-> sample start step k <= stop) /\ (forall fuel, (n < fuel)%nat -> bisection1d fuel f step start stop = Ok (roots, mn)) /\
  (forall x v, In (x, v) roots <-> exists k, (k < N)%nat /\ x = sample start step k /\ v = f x /\ crossing f start step k) /\ NoDup roots /\
  match mn with None => N = 0%nat | Some m => (exists k, (k < N)%nat /\ m = f (sample start step k)) /\ forall k, (k < N)%nat -> m <= f (sample start step k) end.
Proof. exact bisection1d_ok. Qed.
Print Assumptions C91_scan_reports_crossings.
Example C91_case : (match bisection1d 50 (fun x => x * x - Q2Qc 2) (Q2Qc (1 # 2)) (- (Q2Qc 2)) (Q2Qc 2) with Ok (l, m) => Some (map (fun p => this (fst p)) l, option_map this m) | Err _ => None end)
  = Some ([-1 # 1; 3 # 2], Some (-2 # 1))%Q.
Proof. vm_compute. reflexivity. Qed.

(* C92 *)
Theorem C92_root_reported_twice_refuted : forall f step start stop k, 0 < step -> sample start step (S k) <= stop -> f (sample start step k) = 0 -> 0 < f (sample start step (S k)) ->
  exists n, forall fuel, (n < fuel)%nat -> exists roots mn, bisection1d fuel f step start stop = Ok (roots, mn) /\
    In (sample start step k, f (sample start step k)) roots /\ In (sample start step (S k), f (sample start step (S k))) roots.
Proof. exact bisection1d_twice. Qed.
Print Assumptions C92_root_reported_twice_refuted.
Example C92_case : sample 0 1 2 <= 1 + 1 /\ (fun x => x - 1) (sample 0 1 1) = 0 /\
  (match bisection1d 50 (fun x => x - 1) 1 0 (Q2Qc 2) with Ok (l, m) => Some (map (fun p => this (fst p)) l) | Err _ => None end) = Some [1; 2]%Q.
Proof. split; [apply qle_true; vm_compute; reflexivity|]. split; [apply Qc_is_canon|]; vm_compute; reflexivity. Qed.

(* C93 *)
Theorem C93_zero_lost_refuted : forall tol, 0 < tol -> tol < Q2Qc (1 # 2) -> exists n, forall fuel, (n < fuel)%nat ->
  exists x y, bisection_2d fuel lost (- (1), 1) (- (1), 1) tol = Ok (Some (x, y)) /\ Q2Qc (1 # 2) <= x /\ 0 <= y.
Proof. exact bisection_2d_lost. Qed.
Print Assumptions C93_zero_lost_refuted.
(* every zero of that function in the box is on the line x + y = 0 *)
Theorem C93_zeros_of_it_partial : forall u v, u <= 1 -> lost u v = 0 -> u + v = 0.
Proof. exact lost_zeros. Qed.
Print Assumptions C93_zeros_of_it_partial.
Theorem C93_sign_change_nearby_partial : forall f x0 x1 y0 y1 tol, 0 < tol -> x0 <= x1 -> y0 <= y1 ->
  exists n r, (forall fuel, (n < fuel)%nat -> bisection_2d fuel f (x0, x1) (y0, y1) tol = Ok r) /\
  match r with
  | None => 0 < f x0 y0 * f x1 y1
  | Some (x, y) => x0 <= x /\ x <= x1 /\ y0 <= y /\ y <= y1 /\
      ((forall u v, x0 <= u -> u <= x1 -> y0 <= v -> v <= y1 -> f u v <> 0) ->
       exists px py qx qy, x0 <= px /\ px <= x1 /\ y0 <= py /\ py <= y1 /\ x0 <= qx /\ qx <= x1 /\ y0 <= qy /\ qy <= y1 /\ x - tol <= px /\ px <= x + tol /\ y - tol <= py /\ py <= y + tol /\ x - tol <= qx /\ qx <= x + tol /\ y - tol <= qy /\ qy <= y + tol /\ f px py * f qx qy < 0)
  end.
Proof. exact bisection_2d_ok. Qed.
Print Assumptions C93_sign_change_nearby_partial.
Example C93_case : (match bisection_2d 50 lost (- (1), 1) (- (1), 1) (Q2Qc (1 # 8)) with Ok (Some p) => shown1 (Ok p) | _ => None end) = Some (7 # 8, 1 # 8)%Q /\
  (match bisection_2d 50 (fun x y => x * x + y - Q2Qc (3 # 10)) (0, 1) (0, 1) (Q2Qc (1 # 8)) with Ok (Some p) => shown1 (Ok p) | _ => None end) = Some (1 # 8, 1 # 8)%Q.
Proof. split; vm_compute; reflexivity. Qed.

(* C94 *)
Theorem C94_smallest_at_the_end_refuted : forall f a b step n fuel, (2 <= n)%nat -> step * zq (Z.of_nat (n - 1)) < b - a ->
  (forall k, (k < n - 1)%nat -> Q2Qc (1 # 100000000) + Q2Qc (1 # 100000) * q_abs (f b) < f (lin a b n k) - f b) ->
  scalar_min_1d (S fuel) f a b step n = Err IndexError.
Proof. exact scalar_min_last2. Qed.
Print Assumptions C94_smallest_at_the_end_refuted.
(* a minimum at the first sample is left out of the next window *)
Theorem C94_smallest_at_the_start_refuted : forall f a b step n, (4 <= n)%nat -> 0 < step -> step * zq (Z.of_nat (n - 1)) < b - a ->
  (forall k, (k < n)%nat -> f a <= f (lin a b n k)) -> exists K,
  (exists x, (forall fuel, (K < fuel)%nat -> scalar_min_1d fuel f a b step n = Ok x) /\ lin a b n 1 <= x /\ x <= b) \/
  (forall fuel, (K < fuel)%nat -> scalar_min_1d fuel f a b step n = Err IndexError).
Proof. exact scalar_min_first. Qed.
Print Assumptions C94_smallest_at_the_start_refuted.
Theorem C94_stops_in_range_partial : forall f a b step n, (4 <= n)%nat -> 0 < step -> a <= b -> exists k,
  (exists x, (forall fuel, (k < fuel)%nat -> scalar_min_1d fuel f a b step n = Ok x) /\ a <= x /\ x <= b) \/
  (forall fuel, (k < fuel)%nat -> scalar_min_1d fuel f a b step n = Err IndexError).
Proof. exact scalar_min_ok. Qed.
Print Assumptions C94_stops_in_range_partial.
Example C94_start_case : (forall k, (k < 5)%nat -> (fun x => x) 0 <= lin 0 1 5 k) /\
  scalar_min_1d 50 (fun x => x) 0 1 (Q2Qc (1 # 10)) 5 = Err IndexError /\
  (match scalar_min_1d 50 (fun x => x) 0 1 (Q2Qc (2 # 10)) 5 with Ok x => Some (this x) | _ => None end) = Some (1 # 4)%Q.
Proof. split; [|split; vm_compute; reflexivity]. intros k L. destruct k as [|[|[|[|[|k]]]]]; try lia; apply qle_true; vm_compute; reflexivity. Qed.
Example C94_case : scalar_min_1d 50 (fun x => - x) 0 1 (Q2Qc (1 # 100)) 32 = Err IndexError /\
  (forall k, (k < 4 - 1)%nat -> Q2Qc (1 # 100000000) + Q2Qc (1 # 100000) * q_abs (- (1)) < - lin 0 1 4 k - - (1)) /\
  (match scalar_min_1d 50 (fun x => (x - Q2Qc (1 # 3)) * (x - Q2Qc (1 # 3))) 0 1 (Q2Qc (1 # 10)) 5 with Ok x => Some (this x) | _ => None end) = Some (5 # 16)%Q.
Proof.
  split; [vm_compute; reflexivity|]. split; [|vm_compute; reflexivity].
  intros k L. destruct k as [|[|[|k]]]; try lia; apply qlt_true; vm_compute; reflexivity.
Qed.
