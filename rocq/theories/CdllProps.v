(* C06, C07, C08, C54-C56: mmcore/ds/cdll/cdll.py *)
From Coq Require Import List Arith ZArith Bool Lia.
From Verif Require Import Common CdllModel CdllSpec CdllProofs.
Import ListNotations.

Definition sample : list (cdll_op Z) :=
  [Append (Some 1%Z); Append (Some 2%Z); Insert (Some 3%Z) 1; AppendNode (Some 4%Z); RemoveAt 0;
   Insert (Some 5%Z) 3; SetItem 1 (Some 6%Z); Remove (Some 3%Z)].

(* C06 (and, for the operation Remove within `legal`, the true part of C08) *)
Theorem C06_cdll_ring : forall (V : Type) (veq : V -> V -> bool) (ops : list (cdll_op V)),
  legal_run veq [] ops ->
  exists s addrs, cdll_run veq cdll_new ops = Ok s /\
    let xs := seq_run veq [] ops in
    is_ring s addrs xs /\ (xs <> [] -> iter s = Ok xs) /\
    forall i, (0 <= i < Z.of_nat (length xs))%Z ->
      exists x, get s i = Ok x /\ nth_error xs (Z.to_nat i) = Some x.
Proof. exact @cdll_history. Qed.
Print Assumptions C06_cdll_ring.

Example C06_case : legal_run Z.eqb [] sample /\
  seq_run Z.eqb [] sample = [Some 6%Z; Some 4%Z; Some 5%Z].
Proof.
  split; [|reflexivity]. cbn.
  assert (E : exists x, In x [Some 3%Z; Some 6%Z; Some 4%Z; Some 5%Z] /\ deq Z.eqb x (Some 3%Z) = true)
    by (exists (Some 3%Z); simpl; auto).
  repeat split; try (vm_compute; discriminate); try exact E; right; vm_compute; split; discriminate.
Qed.

(* out-of-range indices raise ValueError; nothing is modified *)
Theorem C06_cdll_out_of_range : forall (V : Type) (veq : V -> V -> bool) (ops : list (cdll_op V)) i d,
  legal_run veq [] ops ->
  exists s, cdll_run veq cdll_new ops = Ok s /\
    let n := Z.of_nat (length (seq_run veq [] ops)) in
    ((i < 0 \/ n <= i)%Z -> remove_by_index s i = Err ValueError /\ setitem s i d = Err ValueError) /\
    ((i < 0 \/ n < i)%Z -> insert s d i = Err ValueError) /\
    ((n <= i)%Z -> get s i = Err ValueError).
Proof. exact @cdll_range. Qed.
Print Assumptions C06_cdll_out_of_range.

(* C07, false of the code for every list of at least two items: the item that was
   first ends up last instead of second *)
Theorem C07_insert_front_refuted : forall (V : Type) (veq : V -> V -> bool) (ops : list (cdll_op V)) x xs d,
  legal_run veq [] ops -> seq_run veq [] ops = x :: xs ->
  exists s s', cdll_run veq cdll_new ops = Ok s /\ insert s d 0 = Ok s' /\ iter s' = Ok (d :: xs ++ [x]).
Proof. exact @cdll_front. Qed.
Print Assumptions C07_insert_front_refuted.

Example C07_case : exists s s', cdll_run Z.eqb cdll_new sample = Ok s /\ insert s (Some 9%Z) 0 = Ok s' /\
  iter s' = Ok [Some 9%Z; Some 4%Z; Some 5%Z; Some 6%Z].
Proof. do 2 eexists. vm_compute. repeat split. Qed.

(* C08, false of the code: removing the only item leaves a list that can no longer be used *)
Theorem C08_remove_last_refuted : exists s,
  cdll_run Z.eqb cdll_new [Append (Some 1%Z); Remove (Some 1%Z)] = Ok s /\
  count s = 0 /\ append s (Some 2%Z) = Err AttributeError.
Proof. eexists. vm_compute. repeat split. Qed.
Print Assumptions C08_remove_last_refuted.

(* C08, false of the code: removing an absent value destroys the ring *)
Theorem C08_remove_absent_refuted : exists s,
  cdll_run Z.eqb cdll_new [Append (Some 1%Z); Append (Some 2%Z); Remove (Some 3%Z)] = Ok s /\
  count s = 2 /\ iter s = Err AttributeError /\ get s 1 = Err AttributeError.
Proof. eexists. vm_compute. repeat split. Qed.
Print Assumptions C08_remove_absent_refuted.

(* C08, what holds: a present value of a list of two or more items is removed once *)
Theorem C08_remove_present_partial : forall (V : Type) (veq : V -> V -> bool) (ops : list (cdll_op V)) d,
  legal_run veq [] ops -> 2 <= length (seq_run veq [] ops) ->
  (exists x, In x (seq_run veq [] ops) /\ deq veq x d = true) ->
  exists s s', cdll_run veq cdll_new ops = Ok s /\ remove veq s d = Ok s' /\
    exists addrs, is_ring s' addrs (remove_first (deq veq) d (seq_run veq [] ops)).
Proof. exact @cdll_remove_present. Qed.
Print Assumptions C08_remove_present_partial.

Example C08_case : 2 <= length (seq_run Z.eqb [] sample) /\
  (exists x, In x (seq_run Z.eqb [] sample) /\ deq Z.eqb x (Some 4%Z) = true).
Proof. split; [simpl; lia|]. exists (Some 4%Z). simpl. auto. Qed.

(* C54, false of the code: after replace_node the new node's previous pointer is wrong,
   and a later removal of the replaced item does not take it out of the ring *)
Theorem C54_replace_node_refuted : exists s s' s'',
  cdll_run Z.eqb cdll_new [Append (Some 1%Z); Append (Some 2%Z); Append (Some 3%Z)] = Ok s /\
  replace_node s 1 (Some 9%Z) = Ok s' /\ iter s' = Ok [Some 1%Z; Some 9%Z; Some 3%Z] /\
  remove_by_index s' 1 = Ok s'' /\ iter s'' = Ok [Some 1%Z; Some 9%Z; Some 3%Z] /\ count s'' = 2.
Proof. do 3 eexists. vm_compute. repeat split. Qed.
Print Assumptions C54_replace_node_refuted.

(* C55, false of the code: iterating an empty list yields one None *)
Theorem C55_iter_empty_refuted : iter (@cdll_new Z) = Ok [None].
Proof. reflexivity. Qed.
Print Assumptions C55_iter_empty_refuted.

(* C56: index(d) is the position of the first equal item, and negative indices down to
   -len count from the end *)
Theorem C56_cdll_index_negative_partial : forall (V : Type) (veq : V -> V -> bool) (ops : list (cdll_op V)),
  legal_run veq [] ops ->
  exists s, cdll_run veq cdll_new ops = Ok s /\
    let xs := seq_run veq [] ops in
    (forall d, index veq s d = Ok (first_index (deq veq) d xs 0)) /\
    (forall k, (1 <= k <= Z.of_nat (length xs))%Z ->
        exists x, get s (- k) = Ok x /\ nth_error xs (length xs - Z.to_nat k) = Some x).
Proof. exact @cdll_observe. Qed.
Print Assumptions C56_cdll_index_negative_partial.

Example C56_case : exists s, cdll_run Z.eqb cdll_new sample = Ok s /\
  index Z.eqb s (Some 5%Z) = Ok (Some 2) /\ get s (-1) = Ok (Some 5%Z).
Proof. eexists. vm_compute. repeat split. Qed.

(* C56, false of the code beyond -len: the head item is returned instead of an error *)
Theorem C56_get_too_negative_refuted : exists s,
  cdll_run Z.eqb cdll_new sample = Ok s /\ count s = 3 /\ get s (-17) = Ok (Some 6%Z).
Proof. eexists. vm_compute. repeat split. Qed.
Print Assumptions C56_get_too_negative_refuted.
