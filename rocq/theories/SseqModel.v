(* Sorted sequences: Model of /repo/mmcore/numeric/algorithms/sweep_line/sortseq.py (class SortSeq) on top of the skip list.
   Nodes are addresses in the heap of SkipModel; `==` of nodes is identity.  key, inf of a node are the fields of the node. *)
From Coq Require Import List Arith ZArith Bool.
From Verif Require Import Common SkipModel.
Import ListNotations.

Section Sseq.
Context {V : Type}.

(* item access on prev, sortseq.py:38-41 *)
Definition get_prev (h : list (node V)) (a l : nat) : res nat := do n <- node_at h a ; getR (prev n) l.
(* node.data = inf, sortseq.py:14, 42-47 changeInf *)
Definition change_inf (s : skip V) (a : nat) (v : option V) : res (skip V) :=
  do n <- node_at (heap s) a ; Ok (mkSkip (upd (heap s) a (mkNode (key n) v (succ n) (prev n))) (size s)).
(* sortseq.py:5-18 insert; the height is the next random number; the new node is the last one of the heap *)
Definition seq_insert (s : skip V) (k : Z) (v : option V) (ht : nat) : res (nat * skip V) :=
  do (found, _) <- scan (heap s) k ;
  match found with
  | Some a => do s' <- change_inf s a v ; Ok (a, s')
  | None => do s' <- insert s k v ht ; Ok (length (heap s), s')
  end.
(* sortseq.py:20-29 succ *)
Definition seq_succ (s : skip V) (a : nat) : res (option nat) :=
  do b <- get_succ (heap s) a 0 ; Ok (if b =? TAIL then None else Some b).
(* sortseq.py:31-40 pred *)
Definition seq_pred (s : skip V) (a : nat) : res (option nat) :=
  do b <- get_prev (heap s) a 0 ; Ok (if b =? HEAD then None else Some b).
(* sortseq.py:49-54 lookup *)
Definition lookup (s : skip V) (k : Z) : res (option nat) := do (found, _) <- scan (heap s) k ; Ok found.
(* sortseq.py:56-62 locate; the tail is a node like the others *)
Definition locate (s : skip V) (k : Z) : res nat :=
  do (_, update) <- scan (heap s) k ; do u <- getR update 0 ; get_succ (heap s) u 0.
(* sortseq.py:87-88 empty *)
Definition seq_empty (s : skip V) : bool := (size s =? 0)%Z.
(* sortseq.py:90-94 min *)
Definition seq_min (s : skip V) : res (option nat) :=
  if seq_empty s then Ok None else do a <- get_succ (heap s) HEAD 0 ; Ok (Some a).

(* key > node.key: int > None raises, int > NIL asks NIL.__lt__, sortseq.py:115 *)
Definition key_gt (x : skey) (k : Z) : res bool :=
  match x with KHead => Err TypeError | KTail => Ok false | Key z => Ok (z <? k)%Z end.
(* [s for s in l if s == x], sortseq.py:117-118, 155-156 *)
Definition same (x : nat) (l : list nat) : list nat := filter (fun s => s =? x) l.
(* sortseq.py:101-121 insertAt *)
Definition insert_at (s : skip V) (a : nat) (k : Z) (v : option V) : res (nat * skip V) :=
  let h := heap s in
  do n <- node_at h a ;
  if key_eq (key n) k then do s' <- change_inf s a v ; Ok (a, s')
  else
    do g <- key_gt (key n) k ;
    do p <- (if g : bool then Ok a else get_prev h a 0) ;
    do c <- get_succ h p 0 ;
    do np <- node_at h p ; do nc <- node_at h c ;
    do h' <- new_node h (Key k) v (same c (succ np)) (same p (prev nc)) ;
    Ok (length h, mkSkip h' (size s + 1)).

(* sortseq.py:128-130 the loop of delItem over the levels l .. l+c-1 *)
Fixpoint bypass (c l : nat) (h : list (node V)) (a : nat) : res (list (node V)) :=
  match c with
  | 0 => Ok h
  | S c' =>
      do p <- get_prev h a l ; do s <- get_succ h a l ; do h1 <- set_succ h p l s ;
      do s' <- get_succ h1 a l ; do p' <- get_prev h1 a l ; do h2 <- set_prev h1 s' l p' ;
      bypass c' (S l) h2 a
  end.
(* sortseq.py:123-139 delItem *)
Definition del_item (s : skip V) (a : nat) : res (skip V) :=
  let h := heap s in
  do n <- node_at h a ;
  do h1 <- bypass (length (succ n)) 0 h a ;
  do H <- height h1 ;
  do h2 <- trim H h1 ;
  Ok (mkSkip h2 (size s - 1)).
(* sortseq.py:152-159 insert c after b *)
Definition put_after (s : skip V) (c b : nat) : res (skip V) :=
  let h := heap s in
  do nb <- node_at h b ;
  do sn <- get_succ h b 0 ;
  do ns <- node_at h sn ;
  do nc <- node_at h c ;
  let ss := same sn (succ nb) in let ps := same b (prev ns) in
  do h' <- link (length ps) 0 (upd h c (mkNode (key nc) (data nc) ss ps)) c ss ps ;
  Ok (mkSkip h' (size s + 1)).
(* sortseq.py:141-159 reverseItems *)
Fixpoint reverse_items (fuel : nat) (s : skip V) (a b : nat) : res (skip V) :=
  if a =? b then Ok s
  else match fuel with
       | 0 => Err OutOfFuel
       | S f =>
           do a' <- get_succ (heap s) a 0 ;
           do s1 <- del_item s a ;
           do s2 <- put_after s1 a b ;
           reverse_items f s2 a' b
       end.

(* a call in a history of calls of the functions above; the node returned by insert and insertAt is shown *)
Inductive sop := SIns (k : Z) (v : option V) (ht : nat) | SInsAt (a : nat) (k : Z) (v : option V) | SDel (a : nat) | SRev (a b : nat) | SInf (a : nat) (v : option V).
(* one call *)
Definition seq_step (s : skip V) (o : sop) : res (option nat * skip V) :=
  match o with
  | SIns k v ht => do (a, s') <- seq_insert s k v ht ; Ok (Some a, s')
  | SInsAt a k v => do (b, s') <- insert_at s a k v ; Ok (Some b, s')
  | SDel a => do s' <- del_item s a ; Ok (None, s')
  | SRev a b => do s' <- reverse_items (length (heap s)) s a b ; Ok (None, s')
  | SInf a v => do s' <- change_inf s a v ; Ok (None, s')
  end.
(* calls one after another *)
Fixpoint seq_run (s : skip V) (os : list sop) : res (list (option nat) * skip V) :=
  match os with
  | [] => Ok ([], s)
  | o :: r => do (x, s') <- seq_step s o ; do (xs, s'') <- seq_run s' r ; Ok (x :: xs, s'')
  end.
End Sseq.
Arguments sop : clear implicits.
