(* C01, C02, C52: mmcore/ds/union_find.py *)
From Coq Require Import List Arith ZArith Relations Permutation Sorted.
From Verif Require Import Common UnionFindModel UnionFindSpec UnionFindProofs UnionFindGroup.
Import ListNotations.

(* C01: every history runs without error or non-termination, and afterwards
   find a = find b exactly when the unions link a and b. *)
Theorem C01_union_find_connectivity : forall n ops,
  Forall (op_ok n) ops ->
  exists u, uf_run (uf_init n) ops = Ok u /\
  forall a b, a < n -> b < n ->
    exists u1 ra u2 rb, uf_find u a = Ok (u1, ra) /\ uf_find u1 b = Ok (u2, rb) /\
      (ra = rb <-> linked (pairs ops) a b).
Proof. exact uf_history_spec. Qed.
Print Assumptions C01_union_find_connectivity.

Example C01_case :
  Forall (op_ok 6) [OpUnion 0 1; OpUnion 2 3; OpFind 3; OpUnion 1 3; OpUnion 4 4] /\
  (match uf_run (uf_init 6) [OpUnion 0 1; OpUnion 2 3; OpFind 3; OpUnion 1 3; OpUnion 4 4] with
   | Ok u => match uf_find u 3, uf_find u 5 with
             | Ok (_, r3), Ok (_, r5) => (r3, r5) = (0, 5) | _, _ => False end
   | Err _ => False end).
Proof. split; [repeat constructor|vm_compute; reflexivity]. Qed.

(* C02 *)
Theorem C02_group_tuples_components : forall ts,
  exists idx : list (list nat),
    group_tuples ts = Ok (map (map (fun i => nth i ts [])) idx) /\
    Permutation (concat idx) (seq 0 (length ts)) /\
    (forall g, In g idx -> g <> [] /\ StronglySorted lt g) /\
    (forall i j, i < length ts -> j < length ts ->
       ((exists g, In g idx /\ In i g /\ In j g) <-> clos_refl_sym_trans nat (share ts) i j)).
Proof. exact group_tuples_spec. Qed.
Print Assumptions C02_group_tuples_components.

Example C02_case :
  group_tuples [[0; 1]; [1; 2]; [3; 4; 5]; [3; 6]; [2; 7]]%Z =
  Ok [[[0; 1]; [1; 2]; [2; 7]]; [[3; 4; 5]; [3; 6]]]%Z.
Proof. vm_compute. reflexivity. Qed.

(* C52: union by rank keeps find's recursion depth logarithmic *)
Theorem C52_find_depth_logarithmic : forall n ops u x,
  Forall (op_ok n) ops -> uf_run (uf_init n) ops = Ok u -> x < n ->
  exists u' r, find (S (Nat.log2 n)) u x = Ok (u', r).
Proof. exact uf_find_log. Qed.
Print Assumptions C52_find_depth_logarithmic.

(* the bound is attained: depth 3 = S (log2 4) is needed here, 2 is not enough *)
Example C52_case :
  match uf_run (uf_init 4) [OpUnion 0 1; OpUnion 2 3; OpUnion 0 2] with
  | Ok u => find 3 u 3 <> Err OutOfFuel /\ find 2 u 3 = Err OutOfFuel
  | Err _ => False
  end.
Proof. vm_compute. split; [discriminate|reflexivity]. Qed.
