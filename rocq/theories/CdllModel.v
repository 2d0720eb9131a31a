(* Model of /repo/mmcore/ds/cdll/cdll.py and node.py.

   Node objects live in a heap; a node's address is its position in the heap list.
   node.next / node.previous are addresses, None after `del`.  Data values are
   `option V`, None standing for Python's None.  insert_hook and remove_hook do
   nothing (cdll.py:74-96). *)
From Coq Require Import List Arith ZArith Bool.
From Verif Require Import Common.
Import ListNotations.

Section Cdll.
Context {V : Type} (veq : V -> V -> bool).

(* node.py:1-5 *)
Record node := mkNode { data : option V; nxt : option nat; prv : option nat }.

(* cdll.py:54-56 *)
Record cdll := mkCdll { heap : list node; head : option nat; count : nat }.

(* cdll.py:54-56 *)
Definition cdll_new : cdll := mkCdll [] None 0.

(* attribute reads; a deleted attribute or None receiver raises AttributeError  [for get_next, cdll.py:142-160] *)
Definition node_at (h : list node) (a : nat) : res node :=
  match nth_error h a with Some n => Ok n | None => Err AttributeError end.
(* for get_next, cdll.py:142-160 *)
Definition attr {A} (o : option A) : res A :=
  match o with Some a => Ok a | None => Err AttributeError end.
(* for walk, cdll.py:142-160 *)
Definition get_next (h : list node) (a : nat) : res nat :=
  do n <- node_at h a; attr (nxt n).
(* for append_node, cdll.py:128-140 *)
Definition get_prev (h : list node) (a : nat) : res nat :=
  do n <- node_at h a; attr (prv n).
(* for insert, cdll.py:142-160 *)
Definition set_next (h : list node) (a : nat) (b : option nat) : res (list node) :=
  do n <- node_at h a; Ok (upd h a (mkNode (data n) b (prv n))).
(* for insert, cdll.py:142-160 *)
Definition set_prev (h : list node) (a : nat) (b : option nat) : res (list node) :=
  do n <- node_at h a; Ok (upd h a (mkNode (data n) (nxt n) b)).
(* for setitem, cdll.py:235-242 *)
Definition set_data (h : list node) (a : nat) (d : option V) : res (list node) :=
  do n <- node_at h a; Ok (upd h a (mkNode d (nxt n) (prv n))).

(* node.py:2-5  Node(data): next and previous point to the node itself *)
Definition alloc (h : list node) (d : option V) : list node * nat :=
  (h ++ [mkNode d (Some (length h)) (Some (length h))], length h).

(* for _ in range(k): temp = temp.next  [for insert, cdll.py:142-160] *)
Fixpoint walk (h : list node) (a : nat) (k : nat) : res nat :=
  match k with
  | 0 => Ok a
  | S k' => do b <- get_next h a; walk h b k'
  end.

(* cdll.py:142-160  insert (index < 0 is excluded by the index type of the model's callers) *)
Definition insert (s : cdll) (d : option V) (index : Z) : res cdll :=
  if (Z.of_nat (count s) <? index)%Z || (index <? 0)%Z then Err ValueError
  else
    let (h, n) := alloc (heap s) d in
    match head s with
    | None =>
        do h1 <- set_next h n (Some n);
        do h2 <- set_prev h1 n (Some n);
        Ok (mkCdll h2 (Some n) (S (count s)))
    | Some a =>
        do temp <- walk h a (Z.to_nat (index - 1));
        do tn <- get_next h temp;
        do h1 <- set_prev h tn (Some n);
        do tn' <- get_next h1 temp;
        do h2 <- set_next h1 n (Some tn');
        do h3 <- set_prev h2 n (Some temp);
        do h4 <- set_next h3 temp (Some n);
        Ok (mkCdll h4 (if (index =? 0)%Z then Some n else Some a) (S (count s)))
    end.

(* cdll.py:97-99  append *)
Definition append (s : cdll) (d : option V) : res cdll := insert s d (Z.of_nat (count s)).

(* cdll.py:128-140  append_node, called with a freshly created Node *)
Definition append_node (s : cdll) (d : option V) : res cdll :=
  let (h, n) := alloc (heap s) d in
  match head s with
  | None => Ok (mkCdll h (Some n) 1)
  | Some a =>
      do p <- get_prev h a;
      do h1 <- set_prev h n (Some p);
      do p' <- get_prev h1 a;
      do h2 <- set_next h1 p' (Some n);
      do h3 <- set_prev h2 a (Some n);
      do h4 <- set_next h3 n (Some a);
      Ok (mkCdll h4 (Some a) (S (count s)))
  end.

(* for remove_by_index, cdll.py:171-188 *)
Definition in_range (s : cdll) (index : Z) : bool :=
  negb ((Z.of_nat (count s) <=? index)%Z || (index <? 0)%Z).

(* cdll.py:171-188  remove_by_index.  Line 186 is a tuple assignment: the right-hand
   sides are read first, then target.previous.next is written, then
   target.next.previous (whose receiver target.next is read after the first write). *)
Definition remove_by_index (s : cdll) (index : Z) : res cdll :=
  if negb (in_range s index) then Err ValueError
  else if count s =? 1 then Ok (mkCdll (heap s) None 0)
  else
    do a <- attr (head s);
    let h := heap s in
    do target <- walk h a (Z.to_nat index);
    do hd <- (if target =? a then get_next h a else Ok a);
    do tn <- get_next h target;
    do tp <- get_prev h target;
    do h1 <- set_next h tp (Some tn);
    do tn1 <- get_next h1 target;
    do h2 <- set_prev h1 tn1 (Some tp);
    Ok (mkCdll h2 (Some hd) (count s - 1)).

(* temp.data == data  [for remove_loop, cdll.py:194-204] *)
Definition deq (a b : option V) : bool :=
  match a, b with Some x, Some y => veq x y | None, None => true | _, _ => false end.

(* cdll.py:194-204  the loop of remove: k iterations left, current node temp.
   Returns the state and the final temp. *)
Fixpoint remove_loop (s : cdll) (temp : nat) (d : option V) (k : nat) : res (cdll * nat) :=
  match k with
  | 0 => Ok (s, temp)
  | S k' =>
      do n <- node_at (heap s) temp;
      if deq (data n) d then
        do a <- attr (head s);
        let h := heap s in
        do hd <- (if temp =? a then get_next h a else Ok a);
        do tn <- get_next h temp;
        do tp <- get_prev h temp;
        do h1 <- set_next h tp (Some tn);
        do tn1 <- get_next h1 temp;
        do h2 <- set_prev h1 tn1 (Some tp);
        Ok (mkCdll h2 (Some hd) (count s - 1), temp)
      else do t' <- get_next (heap s) temp; remove_loop s t' d k'
  end.

(* cdll.py:192-209  remove.  `del temp.next` raises AttributeError when temp is None or
   the attribute is gone. *)
Definition remove (s : cdll) (d : option V) : res cdll :=
  do a <- attr (head s);
  do (s1, temp) <- remove_loop s a d (count s);
  do _ <- get_next (heap s1) temp;
  do h1 <- set_next (heap s1) temp None;
  do _ <- get_prev h1 temp;
  do h2 <- set_prev h1 temp None;
  Ok (mkCdll h2 (head s1) (count s1)).

(* cdll.py:211-216  index: None when absent *)
Fixpoint index_loop (h : list node) (temp : nat) (d : option V) (i k : nat) : res (option nat) :=
  match k with
  | 0 => Ok None
  | S k' =>
      do n <- node_at h temp;
      if deq (data n) d then Ok (Some i)
      else do t' <- get_next h temp; index_loop h t' d (S i) k'
  end.
(* cdll.py:211-216 *)
Definition index (s : cdll) (d : option V) : res (option nat) :=
  match count s with
  | 0 => Ok None
  | _ => do a <- attr (head s); index_loop (heap s) a d 0 (count s)
  end.

(* cdll.py:218-227  get *)
Definition get (s : cdll) (index : Z) : res (option V) :=
  if (index <? 0)%Z || (index <? Z.of_nat (count s))%Z then
    let i := if (index <? 0)%Z then (Z.of_nat (count s) + index)%Z else index in
    do a <- attr (head s);
    do t <- walk (heap s) a (Z.to_nat i);
    do n <- node_at (heap s) t;
    Ok (data n)
  else Err ValueError.

(* cdll.py:235-242  get_node; 104-105  __setitem__ *)
Definition get_node (s : cdll) (index : Z) : res nat :=
  if negb (in_range s index) then Err ValueError
  else do a <- attr (head s); walk (heap s) a (Z.to_nat index).
(* cdll.py:235-242 *)
Definition setitem (s : cdll) (index : Z) (d : option V) : res cdll :=
  do t <- get_node s index;
  do h <- set_data (heap s) t d;
  Ok (mkCdll h (head s) (count s)).

(* cdll.py:244-267  replace_node, called with a freshly created Node.  The attribute
   written on the new node is `prev`, which nothing reads: it is not in the model. *)
Definition replace_node (s : cdll) (index : Z) (d : option V) : res cdll :=
  if negb (in_range s index) then Err ValueError
  else
    let (h, n) := alloc (heap s) d in
    if count s =? 1 then Ok (mkCdll h (Some n) (count s))
    else
      do a <- attr (head s);
      do target <- walk h a (Z.to_nat index);
      do (h3, hd) <- (if target =? a then
           do an <- get_next h a;
           do h1 <- set_next h n (Some an);
           do ap <- get_prev h1 a;
           do h2 <- set_next h1 ap (Some n);
           do an2 <- get_next h2 a;
           do h3 <- set_prev h2 an2 (Some n);
           Ok (h3, n)
         else Ok (h, a));
      do tn <- get_next h3 target;
      do h4 <- set_next h3 n (Some tn);
      do tp <- get_prev h4 target;
      do h5 <- set_next h4 tp (Some n);
      do tn5 <- get_next h5 target;
      do h6 <- set_prev h5 tn5 (Some n);
      do tp6 <- get_prev h6 target;
      do h7 <- set_next h6 tp6 (Some n);
      Ok (mkCdll h7 (Some hd) (count s)).

(* cdll.py:110-120  __iter__ (collected); the loop is unbounded in Python *)
Fixpoint iter_loop (fuel : nat) (h : list node) (hd temp : nat) : res (list (option V)) :=
  match fuel with
  | 0 => Err OutOfFuel
  | S f =>
      if temp =? hd then Ok []
      else do n <- node_at h temp;
           do t' <- get_next h temp;
           do rest <- iter_loop f h hd t';
           Ok (data n :: rest)
  end.
(* cdll.py:110-120 *)
Definition iter (s : cdll) : res (list (option V)) :=
  match head s with
  | None => Ok [None]
  | Some a =>
      do n <- node_at (heap s) a;
      do t <- get_next (heap s) a;
      do rest <- iter_loop (S (length (heap s))) (heap s) a t;
      Ok (data n :: rest)
  end.

(* histories  [a call in a history of calls of the functions above] *)
Inductive cdll_op :=
| Append (d : option V) | AppendNode (d : option V) | Insert (d : option V) (i : Z)
| RemoveAt (i : Z) | Remove (d : option V) | SetItem (i : Z) (d : option V).

(* calls of the functions above, one after another *)
Definition cdll_step (s : cdll) (o : cdll_op) : res cdll :=
  match o with
  | Append d => append s d
  | AppendNode d => append_node s d
  | Insert d i => insert s d i
  | RemoveAt i => remove_by_index s i
  | Remove d => remove s d
  | SetItem i d => setitem s i d
  end.

(* calls of the functions above, one after another *)
Fixpoint cdll_run (s : cdll) (ops : list cdll_op) : res cdll :=
  match ops with
  | [] => Ok s
  | o :: t => do s' <- cdll_step s o; cdll_run s' t
  end.
End Cdll.
Arguments node : clear implicits.
Arguments cdll : clear implicits.
Arguments cdll_op : clear implicits.
