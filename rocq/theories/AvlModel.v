(* Model of /repo/mmcore/ds/tree/avl.py (class AVL, lines 109-378).

   A Python AVL object is a wrapper with fields node, height, balance; an AVLNode has
   key, data and two wrappers left, right.  Every wrapper is owned by exactly one
   AVLNode (or is the root), so the object graph is a tree of wrappers.  Rotations
   re-attach nodes to wrappers and leave the wrappers' stored height and balance
   where they were; the model keeps those stored (possibly stale) fields.
   Keys are integers (any totally ordered keys behave alike). *)
From Coq Require Import List ZArith Bool.
From Verif Require Import Common.
Import ListNotations.
Local Open Scope Z_scope.

Section Avl.
Context {V : Type}.

(* avl.py:114-122  a wrapper: Emp = node is None, Nd = node is an AVLNode *)
Inductive avl :=
| Emp (h b : Z)
| Nd (h b : Z) (l : avl) (k : Z) (v : option V) (r : avl).

(* avl.py:114-122 *)
Definition height (t : avl) : Z := match t with Emp h _ => h | Nd h _ _ _ _ _ => h end.
(* avl.py:114-122 *)
Definition balance (t : avl) : Z := match t with Emp _ b => b | Nd _ b _ _ _ _ => b end.

(* avl.py:114-122  AVL() *)
Definition avl_new : avl := Emp (-1) 0.

(* avl.py:211-227  update_heights *)
Fixpoint update_heights (recursive : bool) (t : avl) : avl :=
  match t with
  | Emp _ b => Emp (-1) b
  | Nd h b l k v r =>
      let l' := if recursive then update_heights true l else l in
      let r' := if recursive then update_heights true r else r in
      Nd (1 + Z.max (height l') (height r')) b l' k v r'
  end.

(* avl.py:229-246  update_balances *)
Fixpoint update_balances (recursive : bool) (t : avl) : avl :=
  match t with
  | Emp h _ => Emp h 0
  | Nd h b l k v r =>
      let l' := if recursive then update_balances true l else l in
      let r' := if recursive then update_balances true r else r in
      Nd h (height l' - height r') l' k v r'
  end.

(* replacing the node of a wrapper keeps the wrapper's own fields  [for rotate_right, avl.py:248-259] *)
Definition set_node (h b : Z) (src : avl) : avl :=
  match src with Emp _ _ => Emp h b | Nd _ _ l k v r => Nd h b l k v r end.

(* avl.py:248-259  rotate_right; a missing node raises AttributeError *)
Definition rotate_right (t : avl) : res avl :=
  match t with
  | Emp _ _ => Err AttributeError
  | Nd h b l k v r =>
      match l with
      | Emp _ _ => Err AttributeError
      | Nd h1 b1 ll k1 v1 lr =>
          (* old_root.left keeps its wrapper fields h1,b1 and receives lr's node;
             lr's wrapper keeps its fields and receives old_root *)
          Ok (Nd h b ll k1 v1 (Nd (height lr) (balance lr) (set_node h1 b1 lr) k v r))
      end
  end.

(* avl.py:261-272  rotate_left *)
Definition rotate_left (t : avl) : res avl :=
  match t with
  | Emp _ _ => Err AttributeError
  | Nd h b l k v r =>
      match r with
      | Emp _ _ => Err AttributeError
      | Nd h1 b1 rl k1 v1 rr =>
          Ok (Nd h b (Nd (height rl) (balance rl) l k v (set_node h1 b1 rl)) k1 v1 rr)
      end
  end.

(* for fix_left, avl.py:164-185 *)
Definition update_all (t : avl) : avl := update_balances true (update_heights true t).

(* self.node.left.balance etc.; AttributeError when self.node is None  [for fix_left, avl.py:164-185] *)
Definition left_of (t : avl) : res avl :=
  match t with Emp _ _ => Err AttributeError | Nd _ _ l _ _ _ => Ok l end.
(* for fix_right, avl.py:188-209 *)
Definition right_of (t : avl) : res avl :=
  match t with Emp _ _ => Err AttributeError | Nd _ _ _ _ _ r => Ok r end.
(* for fix_left, avl.py:164-185 *)
Definition set_left (t l' : avl) : avl :=
  match t with Emp h b => Emp h b | Nd h b _ k v r => Nd h b l' k v r end.
(* for fix_right, avl.py:188-209 *)
Definition set_right (t r' : avl) : avl :=
  match t with Emp h b => Emp h b | Nd h b l k v _ => Nd h b l k v r' end.

(* avl.py:164-185  body of the loop when the left subtree is larger *)
Definition fix_left (t : avl) : res avl :=
  if 1 <? balance t then
    do l <- left_of t;
    do t1 <- (if balance l <? 0
              then do l' <- rotate_left l; Ok (update_all (set_left t l'))
              else Ok t);
    do t2 <- rotate_right t1;
    Ok (update_all t2)
  else Ok t.

(* avl.py:188-209  body of the loop when the right subtree is larger *)
Definition fix_right (t : avl) : res avl :=
  if balance t <? -1 then
    do r <- right_of t;
    do t1 <- (if 0 <? balance r
              then do r' <- rotate_right r; Ok (update_all (set_right t r'))
              else Ok t);
    do t2 <- rotate_left t1;
    Ok (update_all t2)
  else Ok t.

(* avl.py:162-209  the while loop of rebalance *)
Fixpoint rebalance_loop (fuel : nat) (t : avl) : res avl :=
  match fuel with
  | O => Err OutOfFuel
  | S f =>
      if (balance t <? -1) || (1 <? balance t) then
        do t1 <- fix_left t;
        do t2 <- fix_right t1;
        rebalance_loop f t2
      else Ok t
  end.

(* avl.py:147-209  rebalance.  The Python loop is unbounded; two tests of the
   loop condition are proved to be enough for every reachable tree. *)
Definition rebalance (t : avl) : res avl :=
  rebalance_loop 2 (update_balances false (update_heights false t)).

(* avl.py:125-142  insert *)
Fixpoint insert (t : avl) (key : Z) (data : option V) : res avl :=
  match t with
  | Emp h b => rebalance (Nd h b avl_new key data avl_new)
  | Nd h b l k v r =>
      if key <? k then do l' <- insert l key data; rebalance (Nd h b l' k v r)
      else if k <? key then do r' <- insert r key data; rebalance (Nd h b l k v r')
      else rebalance t
  end.

(* avl.py:144-145  append *)
Definition append (t : avl) (data : option V) : res avl := insert t (height t + 1) data.

(* avl.py:274-284  search *)
Fixpoint search (t : avl) (key : Z) : option (Z * option V) :=
  match t with
  | Emp _ _ => None
  | Nd _ _ l k v r =>
      if key <? k then search l key
      else if k <? key then search r key
      else Some (k, v)
  end.

(* avl.py:323-326  leftmost node of the right subtree: its key *)
Fixpoint leftmost (t : avl) (dflt : Z) : Z :=
  match t with
  | Emp _ _ => dflt
  | Nd _ _ l k _ _ => leftmost l k
  end.

(* avl.py:286-343  delete.  With two children only the successor's key is copied
   into the node; its data field is not. *)
Fixpoint delete (t : avl) (key : Z) : res avl :=
  match t with
  | Emp _ _ => Ok t
  | Nd h b l k v r =>
      if k =? key then
        match l, r with
        | Emp _ _, Emp _ _ => rebalance (Emp h b)
        | Emp _ _, Nd _ _ _ _ _ _ => rebalance (set_node h b r)
        | Nd _ _ _ _ _ _, Emp _ _ => rebalance (set_node h b l)
        | Nd _ _ _ _ _ _, Nd _ _ rl rk _ _ =>
            let s := leftmost rl rk in
            do r' <- delete r s;
            rebalance (Nd h b l s v r')
        end
      else if key <? k then do l' <- delete l key; rebalance (Nd h b l' k v r)
      else if k <? key then do r' <- delete r key; rebalance (Nd h b l k v r')
      else rebalance t
  end.

(* avl.py:345-360  inorder_traverse: (key, data) of the nodes *)
Fixpoint inorder (t : avl) : list (Z * option V) :=
  match t with
  | Emp _ _ => []
  | Nd _ _ l k v r => inorder l ++ (k, v) :: inorder r
  end.

(* avl.py:368-369  __getitem__: search(item).data *)
Definition getitem (t : avl) (key : Z) : res (option V) :=
  match search t key with None => Err AttributeError | Some (_, v) => Ok v end.

(* histories  [a call in a history of calls of the functions above] *)
Inductive avl_op := Insert (k : Z) (v : option V) | Delete (k : Z).

(* calls of the functions above, one after another *)
Definition avl_step (t : avl) (o : avl_op) : res avl :=
  match o with
  | Insert k v => insert t k v
  | Delete k => delete t k
  end.

(* calls of the functions above, one after another *)
Fixpoint avl_run (t : avl) (ops : list avl_op) : res avl :=
  match ops with
  | [] => Ok t
  | o :: rest => do t' <- avl_step t o; avl_run t' rest
  end.

End Avl.
Arguments avl : clear implicits.
Arguments avl_op : clear implicits.

(* a run of append calls (avl.py:144-145) *)
Fixpoint append_all {V} (t : avl V) (vs : list (option V)) : res (avl V) :=
  match vs with
  | [] => Ok t
  | v :: rest => do t' <- append t v; append_all t' rest
  end.
