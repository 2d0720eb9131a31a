(* Specification vocabulary for C06-C08: plain sequences *)
From Coq Require Import List Arith ZArith Bool.
From Verif Require Import CdllModel.
Import ListNotations.

Fixpoint remove_first {A} (eqb : A -> A -> bool) (x : A) (l : list A) : list A :=
  match l with
  | [] => []
  | y :: t => if eqb y x then t else y :: remove_first eqb x t
  end.

(* what each operation should do to the sequence of stored items *)
Definition seq_step {V} (veq : V -> V -> bool) (xs : list (option V)) (o : cdll_op V) : list (option V) :=
  match o with
  | Append d | AppendNode d => xs ++ [d]
  | Insert d i => firstn (Z.to_nat i) xs ++ d :: skipn (Z.to_nat i) xs
  | RemoveAt i => firstn (Z.to_nat i) xs ++ skipn (S (Z.to_nat i)) xs
  | Remove d => remove_first (deq veq) d xs
  | SetItem i d => firstn (Z.to_nat i) xs ++ d :: skipn (S (Z.to_nat i)) xs
  end.

(* operations covered: in-range indices; insertion at 0 only into an empty list;
   removal by value only of a present value from a list of at least two items *)
Definition legal {V} (veq : V -> V -> bool) (xs : list (option V)) (o : cdll_op V) : Prop :=
  let n := Z.of_nat (length xs) in
  match o with
  | Append _ | AppendNode _ => True
  | Insert _ i => (xs = [] /\ i = 0%Z) \/ (1 <= i <= n)%Z
  | RemoveAt i | SetItem i _ => (0 <= i < n)%Z
  | Remove d => (2 <= n)%Z /\ exists x, In x xs /\ deq veq x d = true
  end.

Fixpoint legal_run {V} (veq : V -> V -> bool) (xs : list (option V)) (ops : list (cdll_op V)) : Prop :=
  match ops with
  | [] => True
  | o :: t => legal veq xs o /\ legal_run veq (seq_step veq xs o) t
  end.

Definition seq_run {V} (veq : V -> V -> bool) (xs : list (option V)) (ops : list (cdll_op V)) :=
  fold_left (seq_step veq) ops xs.

(* the nodes at addresses addrs form one ring carrying the sequence xs *)
Definition is_ring {V} (s : cdll V) (addrs : list nat) (xs : list (option V)) : Prop :=
  NoDup addrs /\ length addrs = length xs /\ count s = length xs /\
  head s = nth_error addrs 0 /\
  forall i a x, nth_error addrs i = Some a -> nth_error xs i = Some x ->
    let n := length addrs in
    exists nd, nth_error (heap s) a = Some nd /\ data nd = x /\
      nxt nd = nth_error addrs ((i + 1) mod n) /\
      prv nd = nth_error addrs ((i + n - 1) mod n).

(* position of the first equal item, counting from i *)
Fixpoint first_index {A} (eqb : A -> A -> bool) (d : A) (xs : list A) (i : nat) : option nat :=
  match xs with [] => None | x :: t => if eqb x d then Some i else first_index eqb d t (S i) end.
