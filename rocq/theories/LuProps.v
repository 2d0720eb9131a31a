(* Linear systems: theorems and concrete cases. *)
From Coq Require Import List Arith ZArith Bool QArith Qcanon Permutation Sorted Lia.
From Verif Require Import Common QcLib SumLib LuModel LuSpec LuProofs1 LuProofs2 LuProofs3 LuProofs4.
Import ListNotations.
Local Open Scope Qc_scope.
Local Notation q a b := (Q2Qc (a # b)).
(* the numbers as fractions, for the concrete cases *)
Definition shown {A B} (f : A -> B) (r : res A) : res B := do a <- r ; Ok (f a).
Definition nums (l : list Qc) : list Q := map this l.

(* C366: the packed factors *)
Theorem C366_lu_factors : forall n A P0 LU P, square n A -> length P0 = n -> lu_decomposition A P0 = Ok (LU, P) ->
  square n LU /\ is_perm n P /\
  (forall r c, (r < n)%nat -> (c < n)%nat -> ent A (nth r P 0%nat) c = mulm n (low (ent LU)) (upp (ent LU)) r c) /\
  (forall r k, (r < n)%nat -> (k < r)%nat -> - (1) <= ent LU r k /\ ent LU r k <= 1).
Proof. exact lu_factors. Qed.
Print Assumptions C366_lu_factors.
Definition demo3 : mtx := mkM [q 0 1; q 2 1; q 1 1; q 4 1; q 2 1; q 0 1; q 2 1; q 5 1; q 3 1] 3 3.
Definition demo3_lu : res (mtx * list nat) := lu_decomposition demo3 [7%nat; 7%nat; 7%nat].
Example C366_case : square 3 demo3 /\
  shown (fun '(m, P) => (nums (mdata m), P)) demo3_lu = Ok ([4; 2; 0; 1 # 2; 4; 3; 0; 1 # 2; -1 # 2]%Q, [1%nat; 2%nat; 0%nat]).
Proof. split; [repeat split|vm_compute; reflexivity]. Qed.

(* C367: solving with the factors *)
Theorem C367_lu_solve : forall n A P0 b y0 x0, square n A -> length P0 = n -> length b = n -> length y0 = n -> length x0 = n -> nonsingular n (ent A) ->
  exists LU P x, lu_decomposition A P0 = Ok (LU, P) /\ lu_solve LU P b y0 x0 = Ok x /\ length x = n /\
    forall r, (r < n)%nat -> mulv n (ent A) (fun c => nth c x 0) r = nth r b 0.
Proof. exact lu_solve_spec. Qed.
Print Assumptions C367_lu_solve.
Definition demo2 : mtx := mkM [q 0 1; q 1 1; q 2 1; q 3 1] 2 2.
Lemma demo2_nonsingular : nonsingular 2 (ent demo2).
Proof.
  intros x H r Hr. assert (H0 := H 0%nat ltac:(lia)). assert (H1 := H 1%nat ltac:(lia)). unfold mulv, ent in H0, H1. cbn in H0, H1.
  assert (E1 : x 1%nat = 0) by (clear - H0; qlra). assert (E0 : x 0%nat = 0) by (clear - H1 E1; qlra).
  destruct r as [|[|r]]; auto; lia.
Qed.
Definition demo2_x : res (list Qc) := do (LU, P) <- lu_decomposition demo2 [0%nat; 0%nat] ; lu_solve LU P [q 3 1; q 13 1] [q 9 1; q 9 1] [q 8 1; q 8 1].
Example C367_case : square 2 demo2 /\ nonsingular 2 (ent demo2) /\ shown nums demo2_x = Ok [2; 3]%Q.
Proof. split; [repeat split|]. split; [exact demo2_nonsingular|]. vm_compute. reflexivity. Qed.

(* C368: the inverse *)
Theorem C368_invert : forall n A R0 P0 b0 x0 y0, square n A -> square n R0 -> length P0 = n -> length b0 = n -> length x0 = n -> length y0 = n -> (0 < n)%nat ->
  (nonsingular n (ent A) -> exists LU R, invert_matrix A R0 P0 b0 x0 y0 = Ok (LU, R) /\ square n R /\
     forall r c, (r < n)%nat -> (c < n)%nat -> mulm n (ent A) (ent R) r c = ident r c /\ mulm n (ent R) (ent A) r c = ident r c) /\
  (~ nonsingular n (ent A) -> invert_matrix A R0 P0 b0 x0 y0 = Err ZeroDivision).
Proof. exact invert_spec. Qed.
Print Assumptions C368_invert.
Definition junk2 : list Qc := [q 9 1; q 9 1].
Definition sing2 : mtx := mkM [q 1 1; q 2 1; q 2 1; q 4 1] 2 2.
Lemma sing2_singular : ~ nonsingular 2 (ent sing2).
Proof.
  intro N. assert (E := N (fun c => if (c =? 0)%nat then q 2 1 else q (-1) 1)). discriminate (E ltac:(intros [|[|r]] Hr; [vm_compute; reflexivity|vm_compute; reflexivity|lia]) 0%nat ltac:(lia)).
Qed.
Definition inverse_of (m : mtx) : res (list Qc) := do (_, R) <- inv m [0%nat; 0%nat] junk2 junk2 junk2 ; Ok (mdata R).
Example C368_case : nonsingular 2 (ent demo2) /\ shown nums (inverse_of demo2) = Ok [-3 # 2; 1 # 2; 1; 0]%Q /\ ~ nonsingular 2 (ent sing2) /\ inverse_of sing2 = Err ZeroDivision.
Proof. split; [exact demo2_nonsingular|]. split; [vm_compute; reflexivity|]. split; [exact sing2_singular|]. vm_compute. reflexivity. Qed.

(* C369: the argument of inv *)
Theorem C369_inv_keeps_argument_refuted : exists arr arr' R, square 2 arr /\ nonsingular 2 (ent arr) /\
  inv arr [0%nat; 0%nat] junk2 junk2 junk2 = Ok (arr', R) /\ ent arr' 0 0 <> ent arr 0 0.
Proof.
  assert (H : shown (fun '(m, _) => this (ent m 0 0)) (inv demo2 [0%nat; 0%nat] junk2 junk2 junk2) = Ok 2%Q) by (vm_compute; reflexivity).
  destruct (inv demo2 [0%nat; 0%nat] junk2 junk2 junk2) as [(arr', R)|e] eqn:E; [|discriminate H]. cbn in H.
  exists demo2, arr', R. split; [repeat split|]. split; [exact demo2_nonsingular|]. split; [exact E|]. intro E2. rewrite E2 in H. vm_compute in H. discriminate H.
Qed.
Theorem C369_inv_argument_partial : forall n arr P0 b0 x0 y0 arr' R, square n arr -> length P0 = n -> length b0 = n -> length x0 = n -> length y0 = n -> (0 < n)%nat ->
  inv arr P0 b0 x0 y0 = Ok (arr', R) ->
  exists P, is_perm n P /\ (forall r c, (r < n)%nat -> (c < n)%nat -> ent arr (nth r P 0%nat) c = mulm n (low (ent arr')) (upp (ent arr')) r c) /\
    forall r c, (r < n)%nat -> (c < n)%nat -> mulm n (ent arr) (ent R) r c = ident r c.
Proof. exact inv_argument. Qed.
Print Assumptions C369_inv_keeps_argument_refuted.
Print Assumptions C369_inv_argument_partial.
Example C369_case : shown (fun '(m, R) => (nums (mdata m), nums (mdata R))) (inv demo2 [0%nat; 0%nat] junk2 junk2 junk2) = Ok ([2; 3; 0; 1]%Q, [-3 # 2; 1 # 2; 1; 0]%Q).
Proof. vm_compute. reflexivity. Qed.

(* C370: the reduced Hessian *)
Theorem C370_reduced_hessian : forall n active H fr, length active = n -> rsquare n H -> zeros_of active fr ->
  exists R, form_reduced_hessian active H = Ok R /\ rsquare (length fr) R /\
    forall a b, (a < length fr)%nat -> (b < length fr)%nat -> rent R a b = rent H (nth a fr 0%nat) (nth b fr 0%nat).
Proof. exact reduced_hessian_spec. Qed.
Print Assumptions C370_reduced_hessian.
Example C370_case : zeros_of [0; 1; 0]%Z [0%nat; 2%nat] /\
  form_reduced_hessian [0; 1; 0]%Z [[q 1 1; q 2 1; q 3 1]; [q 4 1; q 5 1; q 6 1]; [q 7 1; q 8 1; q 9 1]] = Ok [[q 1 1; q 3 1]; [q 7 1; q 9 1]].
Proof.
  split; [|vm_compute; reflexivity]. split; [repeat constructor|]. intros [|[|[|i]]]; cbn; split; intros; repeat match goal with H : _ \/ _ |- _ => destruct H | H : _ /\ _ |- _ => destruct H end; try lia; try tauto.
Qed.

(* C371: the triangular system *)
Theorem C371_reduce_and_back_solve : forall n A b, rsquare n A -> length b = n ->
  exists U x, row_reduce n A = Ok U /\ back_solve U b = Ok x /\
    (forall r c, (r < n)%nat -> (c < r)%nat -> rent U r c = 0) /\ (forall k, (k < n)%nat -> away (rent U k k)) /\
    length x = n /\ forall r, (r < n)%nat -> mulv n (rent U) (fun c => nth c x 0) r = nth r b 0.
Proof. exact reduce_and_solve_spec. Qed.
Print Assumptions C371_reduce_and_back_solve.
Definition demoR : rowsT := [[q 0 1; q 2 1; q 1 1]; [q 4 1; q 2 1; q 0 1]; [q 2 1; q 3 1; q 1 1]].
Definition demoU : rowsT := [[q 4 1; q 2 1; q 0 1]; [q 0 1; q 2 1; q 1 1]; [q 0 1; q 0 1; q 1 (10 ^ 12)]].
Example C371_case : rsquare 3 demoR /\ shown (map nums) (row_reduce 3 demoR) = Ok (map nums demoU) /\
  shown nums (back_solve demoU [q 8 1; q 5 1; q 3 (10 ^ 12)]) = Ok [3 # 2; 1; 3]%Q.
Proof. split; [split; [reflexivity|repeat constructor]|]. split; vm_compute; reflexivity. Qed.

(* C372: the right-hand side is not transformed *)
Theorem C372_linear_solve_refuted : forall a b c d b0 b1, within_mag c a -> away a -> away (d - c / a * b) ->
  exists U x0 x1, row_reduce 2 [[a; b]; [c; d]] = Ok U /\ back_solve U [b0; b1] = Ok [x0; x1] /\
    a * x0 + b * x1 = b0 /\ (c * x0 + d * x1 = b1 <-> c = 0 \/ b0 = 0).
Proof. exact solve_2x2_wrong. Qed.
Print Assumptions C372_linear_solve_refuted.
Definition demoB : res (list Qc) := do U <- row_reduce 2 [[q 2 1; q 1 1]; [q 1 1; q 3 1]] ; back_solve U [q 4 1; q 5 1].
Example C372_case : within_mag (q 1 1) (q 2 1) /\ away (q 2 1) /\ away (q 3 1 - q 1 1 / q 2 1 * q 1 1) /\ shown nums demoB = Ok [1; 2]%Q /\ q 1 1 * q 1 1 + q 3 1 * q 2 1 <> q 5 1.
Proof.
  split; [left; split; apply qle_true; reflexivity|]. split; [right; apply qle_true; reflexivity|]. split; [right; apply qle_true; vm_compute; reflexivity|].
  split; [vm_compute; reflexivity|]. intro E. vm_compute in E. discriminate E.
Qed.
