(* C09-C12, C66, C67: mmcore/ds/bkdtree.py *)
From Coq Require Import List ZArith Bool QArith Qcanon Permutation Sorted Lia.
From Verif Require Import Common QcLib KdModel KdSpec KdProofs KdProofs2 KdProofs3.
Import ListNotations.
Local Open Scope nat_scope.

Definition qz (k : Z) : Qc := Q2Qc (inject_Z k).
Definition P (x y : Z) : point := [qz x; qz y].
(* ties on both axes *)
Definition sample : list point := [P 3 1; P 1 2; P 3 5; P 2 2; P 3 1; P 0 4; P 5 5].
Definition shown (p : point) : list Q := map this p.

Lemma sample_dims : dims 2 sample.
Proof. intros p H. cbn in H. repeat (destruct H as [<-|H]; [reflexivity|]). destruct H. Qed.

(* ---- C09 ---- *)
Theorem C09_build : forall k pts, dims k pts ->
  exists t l, kd_new pts = Ok (t, l) /\ Permutation (collect t) pts /\ split_ok k 0 t /\
    (pts <> [] -> height t <= Nat.log2 (length pts) + 1).
Proof. intros k pts D. destruct (kd_new_ok k pts D) as [t [E [Pm [S [_ H]]]]]. exists t, (sort_key (0 mod k) pts). auto. Qed.
Print Assumptions C09_build.

(* points of different dimension are rejected *)
Theorem C09_mixed : forall pts p q, In p pts -> In q pts -> length p <> length q -> kd_new pts = Err ValueError.
Proof. exact kd_new_mixed. Qed.
Print Assumptions C09_mixed.

Example C09_case : dims 2 sample /\ height (build sample 0) = 3 /\
  map shown (collect (build sample 0)) = map shown [P 3 1; P 2 2; P 1 2; P 0 4; P 3 5; P 3 1; P 5 5].
Proof. split; [exact sample_dims|]. split; vm_compute; reflexivity. Qed.
Example C09_mixed_case : kd_new [P 1 2; [qz 1]] = Err ValueError.
Proof. vm_compute. reflexivity. Qed.

(* ---- C10 ---- *)
Theorem C10_nearest : forall k pts os q, 0 < k -> dims k pts -> only_inserts os -> dims k (inserted os) ->
  length q = k -> pts ++ inserted os <> [] ->
  exists t0 l t p, kd_new pts = Ok (t0, l) /\ kd_run t0 os = Ok t /\
    Permutation (collect t) (pts ++ inserted os) /\
    nearest t q = Some p /\ is_nearest q p (pts ++ inserted os).
Proof.
  intros k pts os q Hk D O Di Lq N. destruct (kd_new_ok k pts D) as [t0 [E [Pm [S _]]]].
  assert (D0 : dims k (collect t0)) by (apply (dims_perm _ _ _ (Permutation_sym Pm)); auto).
  destruct (kd_inserts k Hk os t0 O Di D0 S) as [t [E' [Pm' S']]].
  assert (PP : Permutation (collect t) (pts ++ inserted os)) by (rewrite Pm'; now apply Permutation_app_tail).
  assert (Dt : dims k (collect t)) by (apply (dims_perm _ _ _ (Permutation_sym PP)); apply dims_app; auto).
  assert (Nt : t <> Empty) by (intros ->; apply N, Permutation_nil; exact PP).
  destruct (nearest_ok k q t Hk Lq Dt S' Nt) as [p [En [In1 In2]]].
  exists t0, (sort_key (0 mod k) pts), t, p. repeat (split; [assumption|]). split.
  - eapply Permutation_in; eauto.
  - intros x Hx. apply In2. eapply Permutation_in; [symmetry; exact PP|auto].
Qed.
Print Assumptions C10_nearest.

Definition run_nearest (pts : list point) (os : list kop) (q : point) : option (list Q) :=
  match kd_new pts with
  | Ok (t, _) => match kd_run t os with Ok t' => option_map shown (nearest t' q) | Err _ => None end
  | Err _ => None
  end.
Example C10_case : dims 2 sample /\ only_inserts [OpInsert (P 3 3); OpInsert (P 4 3); OpInsert (P 4 4)] /\
  run_nearest sample [OpInsert (P 3 3); OpInsert (P 4 3); OpInsert (P 4 4)] [qz 3; Q2Qc (7 # 2)] = Some (shown (P 3 3)).
Proof. split; [exact sample_dims|]. split; [repeat constructor|]. vm_compute. reflexivity. Qed.

(* ---- C11 ---- *)
(* what holds: the answer is a sub-multiset of the stored points, ordered by
   distance, neither empty nor longer than k *)
Theorem C11_knn_partial : forall t q k, 0 < k -> t <> Empty ->
  1 <= length (knn t q k) <= k /\ by_distance q (knn t q k) /\
  exists rest, Permutation (knn t q k ++ rest) (collect t).
Proof. exact knn_ok. Qed.
Print Assumptions C11_knn_partial.

Theorem C11_knn_one_partial : forall k t q, 0 < k -> dims k (collect t) -> split_ok k 0 t -> length q = k -> t <> Empty ->
  exists p, knn t q 1 = [p] /\ is_nearest q p (collect t).
Proof.
  intros k t q Hk D S Lq N. destruct (nearest_ok k q t Hk Lq D S N) as [p [E I]].
  exists p. rewrite (knn_1 t q N), E. auto.
Qed.
Print Assumptions C11_knn_one_partial.

(* two points stored, two asked for, one returned: for every two numbers
   inserted in increasing order and every target not above them *)
Theorem C11_knn_refuted : forall p q t : Qc, (p < q)%Qc -> (t <= p)%Qc ->
  exists tr, kd_run Empty [OpInsert [p]; OpInsert [q]] = Ok tr /\
    Permutation (collect tr) [[p]; [q]] /\ knn tr [t] 2 = [[p]].
Proof. exact knn_refuted. Qed.
Print Assumptions C11_knn_refuted.

Example C11_case : map shown (knn (build sample 0) (P 2 3) 2) = map shown [P 2 2; P 1 2]
  /\ length (knn (build sample 0) (P 6 6) 5) = 5 /\ build sample 0 <> Empty.
Proof. split; [|split]; [vm_compute; reflexivity|vm_compute; reflexivity|vm_compute; discriminate]. Qed.
Example C11_refuted_case : (qz 1 < qz 2)%Qc /\ (qz 0 <= qz 1)%Qc.
Proof. split; vm_compute; [reflexivity|discriminate]. Qed.

(* ---- C12 ---- *)
(* points that pairwise differ on every axis, tree with intact split order *)
Theorem C12_delete_partial : forall k t q, 0 < k -> length q = k -> dims k (collect t) -> split_ok k 0 t ->
  distinct_coords k (collect t) ->
  exists t', kd_delete t q = Ok t' /\
    (In q (collect t) -> Permutation (q :: collect t') (collect t)) /\
    (~ In q (collect t) -> Permutation (collect t') (collect t)).
Proof. exact kd_delete_distinct. Qed.
Print Assumptions C12_delete_partial.

(* a missing point: nothing is lost, ties or not, and the order stays *)
Theorem C12_delete_missing_partial : forall k t q, length q = k -> dims k (collect t) -> split_ok k 0 t -> ~ In q (collect t) ->
  exists t', kd_delete t q = Ok t' /\ Permutation (collect t') (collect t) /\ split_ok k 0 t'.
Proof. exact kd_delete_absent. Qed.
Print Assumptions C12_delete_missing_partial.

(* with a shared coordinate the point may stay: deleting the third point of
   any three on a vertical line returns the tree unchanged *)
Theorem C12_delete_tie_refuted : forall x a b c : Qc, a <> c -> b <> c ->
  exists t l, kd_new [[x; a]; [x; b]; [x; c]] = Ok (t, l) /\ In [x; c] (collect t) /\ kd_delete t [x; c] = Ok t.
Proof. exact delete_tie_refuted. Qed.
Print Assumptions C12_delete_tie_refuted.

Definition distinctb (l : list point) : bool :=
  forallb (fun p => forallb (fun q => point_eqb p q || (negb (qeq (coord p 0) (coord q 0)) && negb (qeq (coord p 1) (coord q 1)))) l) l.
Example C12_case : distinct_coords 2 (collect (build [P 3 1; P 1 2; P 4 5; P 2 7; P 0 4] 0)) /\
  map shown (collect (delete_rec (build [P 3 1; P 1 2; P 4 5; P 2 7; P 0 4] 0) (P 2 7) 0)) = map shown [P 3 1; P 0 4; P 1 2; P 4 5].
Proof.
  split; [|vm_compute; reflexivity]. split.
  - repeat constructor; intro H; vm_compute in H; repeat (destruct H as [H|H]; [discriminate|]); destruct H.
  - assert (C : distinctb (collect (build [P 3 1; P 1 2; P 4 5; P 2 7; P 0 4] 0)) = true) by (vm_compute; reflexivity).
    intros p q a Hp Hq Ha E. unfold distinctb in C. rewrite forallb_forall in C. specialize (C p Hp).
    rewrite forallb_forall in C. specialize (C q Hq). apply orb_prop in C. destruct C as [C|C]; [now apply point_eqb_eq|].
    apply andb_prop in C. destruct C as [C0 C1]. destruct a as [|[|a]]; [| |lia]; rewrite E in *;
    [rewrite (proj2 (qeq_true _ _) eq_refl) in C0|rewrite (proj2 (qeq_true _ _) eq_refl) in C1]; discriminate.
Qed.
Example C12_tie_case : qz 1 <> qz 3 /\ qz 2 <> qz 3.
Proof. split; intro H; discriminate. Qed.

(* ---- C66 ---- *)
(* after any history of insertions and deletions the recorded size is the
   number of stored points and the height is at most log_{10/7} of it plus one *)
Theorem C66_depth : forall k pts os, dims k pts -> Forall (op_dim k) os ->
  exists t0 l0 t, kd_new pts = Ok (t0, l0) /\ kd_run t0 os = Ok t /\
    size_of t = length (collect t) /\
    (t <> Empty -> 10 ^ (height t - 1) <= length (collect t) * 7 ^ (height t - 1)).
Proof. exact reachable_depth. Qed.
Print Assumptions C66_depth.

Definition ladder : list kop := map (fun i => OpInsert (P i (2 * i))) [1; 2; 3; 4; 5; 6; 7; 8; 9; 10]%Z.
Example C66_case : dims 2 sample /\ Forall (op_dim 2) (ladder ++ [OpDelete (P 3 6); OpDelete (P 3 3)]) /\
  match kd_run Empty (ladder ++ [OpDelete (P 3 6); OpDelete (P 3 3)]) with Ok t => height t = 5 /\ size_of t = 9 | Err _ => False end.
Proof. split; [exact sample_dims|]. split; [repeat constructor|]. vm_compute. auto. Qed.

(* ---- C67 ---- *)
(* nearest neighbour after a deletion: missed, for every three numbers *)
Theorem C67_nearest_after_delete_refuted : forall a b c : Qc, (a < b)%Qc -> (b < c)%Qc ->
  exists t, kd_run Empty [OpInsert [c]; OpInsert [b]; OpInsert [a]; OpDelete [c]] = Ok t /\
    Permutation (collect t) [[a]; [b]] /\ nearest t [b] = Some [a].
Proof. exact delete_breaks_nearest. Qed.
Print Assumptions C67_nearest_after_delete_refuted.

(* deleting a missing point is harmless for later queries *)
Theorem C67_nearest_after_missing_delete_partial : forall k t q r, 0 < k -> dims k (collect t) -> split_ok k 0 t ->
  length q = k -> length r = k -> ~ In r (collect t) -> t <> Empty ->
  exists t' p, kd_delete t r = Ok t' /\ nearest t' q = Some p /\ is_nearest q p (collect t).
Proof.
  intros k t q r Hk D S Lq Lr N Nt. destruct (kd_delete_absent k t r Lr D S N) as [t' [E [Pm S']]].
  assert (D' : dims k (collect t')) by (apply (dims_perm _ _ _ (Permutation_sym Pm)); auto).
  assert (Nt' : t' <> Empty). { intros ->. apply Permutation_nil in Pm. destruct t; [congruence|discriminate]. }
  destruct (nearest_ok k q t' Hk Lq D' S' Nt') as [p [En [I1 I2]]]. exists t', p. split; auto. split; auto. split.
  - eapply Permutation_in; eauto.
  - intros x Hx. apply I2. eapply Permutation_in; [symmetry; exact Pm|auto].
Qed.
Print Assumptions C67_nearest_after_missing_delete_partial.

(* one deletion from a freshly built tree of points that pairwise differ on
   every axis: the nearest remaining point is found *)
Theorem C67_nearest_after_one_delete_partial : forall k pts r q, 0 < k -> dims k pts -> distinct_coords k pts ->
  In r pts -> length q = k -> 2 <= length pts ->
  exists t0 l t p rest, kd_new pts = Ok (t0, l) /\ kd_delete t0 r = Ok t /\ Permutation (r :: rest) pts /\
    Permutation (collect t) rest /\ nearest t q = Some p /\ is_nearest q p rest.
Proof. exact nearest_after_one_delete. Qed.
Print Assumptions C67_nearest_after_one_delete_partial.

Example C67_case : (qz 1 < qz 2)%Qc /\ (qz 2 < qz 3)%Qc.
Proof. split; vm_compute; reflexivity. Qed.

(* ---- C68 ---- *)
(* the caller's list is left sorted by the first axis, so it is changed
   whenever it was not sorted *)
Theorem C68_build_mutates_argument_refuted : forall k pts, dims k pts -> ~ StronglySorted (key_le (0 mod k)) pts ->
  exists t l, kd_new pts = Ok (t, l) /\ l <> pts.
Proof. exact new_mutates. Qed.
Print Assumptions C68_build_mutates_argument_refuted.

Theorem C68_argument_reordered_partial : forall k pts, dims k pts ->
  exists t l, kd_new pts = Ok (t, l) /\ Permutation l pts /\ StronglySorted (key_le (0 mod k)) l.
Proof.
  intros k pts D. destruct (kd_new_ok k pts D) as [t [E _]]. exists t, (sort_key (0 mod k) pts). split; auto.
  split; [apply sort_key_perm|apply sort_key_sorted].
Qed.
Print Assumptions C68_argument_reordered_partial.

Example C68_case : dims 2 sample /\ ~ StronglySorted (key_le (0 mod 2)) sample.
Proof.
  split; [exact sample_dims|]. intro H. inversion H as [|? ? _ F]. inversion F as [|? ? L _].
  vm_compute in L. apply L. reflexivity.
Qed.
