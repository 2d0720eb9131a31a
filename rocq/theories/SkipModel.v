(* Model of mmcore/numeric/algorithms/sweep_line/skiplist.py (class SkipList).

   Node objects live in a heap; an address is a position in the heap list, the
   head is node 0 and the tail node 1.  Keys are integers (None, the key of the
   head, is not used as a key by callers).  The random tower height is an
   argument of the insertion.  `del head_node`, `del node` only drop names.
   __repr__ and the
   data string of the head are not modelled. *)
From Coq Require Import List Arith ZArith Bool.
From Verif Require Import Common.
Import ListNotations.

Section Skip.
Context {V : Type}.

(* key of the head (None), of the tail (NIL instance), of an entry  [for node, skiplist.py:36-44] *)
Inductive skey := KHead | KTail | Key (z : Z).
(* skiplist.py:36-44 *)
Record node := mkNode { key : skey; data : option V; succ : list nat; prev : list nat }.
(* skiplist.py:36-44 *)
Record skip := mkSkip { heap : list node; size : Z }.
(* for skip_new, skiplist.py:48-53 *)
Definition HEAD := 0.
(* for skip_new, skiplist.py:48-53 *)
Definition TAIL := 1.

(* attribute access and item assignment on the lists succ, prev  [skiplist.py:36-44] *)
Definition node_at (h : list node) (a : nat) : res node :=
  match nth_error h a with Some n => Ok n | None => Err AttributeError end.
(* skiplist.py:36-44 *)
Definition get_succ (h : list node) (a l : nat) : res nat :=
  do n <- node_at h a ; getR (succ n) l.
(* for set_succ, skiplist.py:36-44 *)
Definition set_item (l : list nat) (i v : nat) : res (list nat) :=
  if i <? length l then Ok (upd l i v) else Err IndexError.
(* skiplist.py:36-44 *)
Definition set_succ (h : list node) (a l v : nat) : res (list node) :=
  do n <- node_at h a ; do s <- set_item (succ n) l v ; Ok (upd h a (mkNode (key n) (data n) s (prev n))).
(* skiplist.py:36-44 *)
Definition set_prev (h : list node) (a l v : nat) : res (list node) :=
  do n <- node_at h a ; do p <- set_item (prev n) l v ; Ok (upd h a (mkNode (key n) (data n) (succ n) p)).

(* node.key <= key: NIL.__le__ is False; None <= int raises  [for goes_on, skiplist.py:83] *)
Definition key_le (x : skey) (k : Z) : res bool :=
  match x with KTail => Ok false | KHead => Err TypeError | Key z => Ok (z <=? k)%Z end.
(* node.key == key  [for scan_loop, skiplist.py:80-90] *)
Definition key_eq (x : skey) (k : Z) : bool := match x with Key z => (z =? k)%Z | _ => false end.

(* skiplist.py:48-53 __init__ without keyword arguments; the constructor loops run over the
   empty prev lists *)
Definition skip_new : skip :=
  mkSkip [mkNode KHead None [TAIL] []; mkNode KTail None [] [HEAD]] 0.

(* skiplist.py:69-73 _level *)
Fixpoint level_from (fuel : nat) (h : list node) (a l : nat) : res (list nat) :=
  match fuel with
  | 0 => Err OutOfFuel
  | S f => if a =? TAIL then Ok [] else do b <- get_succ h a l ; do r <- level_from f h b l ; Ok (a :: r)
  end.

(* skiplist.py:83: node_.succ[level].key <= key *)
Definition goes_on (h : list node) (l : nat) (k : Z) (a : nat) : res bool :=
  do b <- get_succ h a l ; do n <- node_at h b ; key_le (key n) k.
(* skiplist.py:81-86: next(dropwhile(goes_on, self._level(a, l))) *)
Fixpoint drop_from (fuel : nat) (h : list node) (l : nat) (k : Z) (a : nat) : res nat :=
  match fuel with
  | 0 => Err OutOfFuel
  | S f =>
      if a =? TAIL then Err StopIteration
      else do g <- goes_on h l k a ;
           if g : bool then do b <- get_succ h a l ; drop_from f h l k b else Ok a
  end.
(* skiplist.py:81-86: next(dropwhile(goes_on, chain([self.head], self._level(a, l)))) *)
Definition drop (h : list node) (l : nat) (k : Z) (a : nat) : res nat :=
  do g <- goes_on h l k HEAD ;
  if g : bool then drop_from (length h) h l k a else Ok HEAD.

(* skiplist.py:80-90: the loop for level in reversed(range(height)) *)
Fixpoint scan_loop (lv : nat) (h : list node) (k : Z) (a : nat) (rv : option nat) (prevs : list nat)
  : res (option nat * list nat) :=
  match lv with
  | 0 => Ok (rv, prevs)
  | S l =>
      do b <- drop h l k a ;
      do n <- node_at h b ;
      if key_eq (key n) k then scan_loop l h k b (Some b) prevs
      else scan_loop l h k b rv (upd prevs l b)
  end.
(* for scan, skiplist.py:75-92 *)
Definition height (h : list node) : res nat := do n <- node_at h HEAD ; Ok (length (succ n)).
(* skiplist.py:75-92 _scan *)
Definition scan (h : list node) (k : Z) : res (option nat * list nat) :=
  do ht <- height h ;
  do top <- (if ht =? 0 then Err IndexError else get_succ h HEAD (ht - 1)) ;   (* head.succ[-1] *)
  scan_loop ht h k top None (repeat HEAD ht).

(* skiplist.py:43-44: prev[level].succ[level] = self.succ[level].prev[level] = self, for
   the levels l .. l+c-1 of the new node n *)
Fixpoint link (c l : nat) (h : list node) (n : nat) (ss ps : list nat) : res (list node) :=
  match c with
  | 0 => Ok h
  | S c' =>
      do p <- getR ps l ; do h1 <- set_succ h p l n ;
      do s <- getR ss l ; do h2 <- set_prev h1 s l n ;
      link c' (S l) h2 n ss ps
  end.
(* skiplist.py:43-44 *)
Definition new_node (h : list node) (k : skey) (d : option V) (ss ps : list nat) : res (list node) :=
  link (length ps) 0 (h ++ [mkNode k d ss ps]) (length h) ss ps.

(* [f(l) for l in range(l, l+c)]  [for insert, skiplist.py:94-117] *)
Fixpoint collect {A} (c l : nat) (f : nat -> res A) : res (list A) :=
  match c with 0 => Ok [] | S c' => do x <- f l ; do r <- collect c' (S l) f ; Ok (x :: r) end.

(* skiplist.py:94-117 _insert; ht is next(distribution) *)
Definition insert (s : skip) (k : Z) (v : option V) (ht : nat) : res skip :=
  let h := heap s in
  do (found, update) <- scan h k ;
  match found with
  | Some a =>
      do n <- node_at h a ;
      Ok (mkSkip (upd h a (mkNode (key n) v (succ n) (prev n))) (size s))
  | None =>
      let nh := ht + 1 in
      do H <- height h ;
      let update := update ++ repeat HEAD (nh - H) in
      do hd <- node_at h HEAD ;
      let h1 := upd h HEAD (mkNode (key hd) (data hd) (succ hd ++ repeat TAIL (nh - H)) (prev hd)) in
      do tl <- node_at h1 TAIL ;
      let h2 := upd h1 TAIL (mkNode (key tl) (data tl) (succ tl) (prev tl ++ repeat HEAD (nh - H))) in
      do ss <- collect nh 0 (fun l => do u <- getR update l ; get_succ h2 u l) ;
      do ps <- collect nh 0 (fun l => getR update l) ;
      do h3 <- new_node h2 (Key k) v ss ps ;
      Ok (mkSkip h3 (size s + 1))
  end.

(* skiplist.py:126-127: for level in range(len(node.succ)): update[level].succ[level] = node.succ[level] *)
Fixpoint unlink (c l : nat) (h : list node) (a : nat) (update : list nat) : res (list node) :=
  match c with
  | 0 => Ok h
  | S c' =>
      do s <- get_succ h a l ; do u <- getR update l ; do h1 <- set_succ h u l s ;
      unlink c' (S l) h1 a update
  end.
(* skiplist.py:130-135: drop unused head pointers, i = c-1, c-2, ... *)
Fixpoint trim (c : nat) (h : list node) : res (list node) :=
  match c with
  | 0 => Ok h
  | S i =>
      do s <- get_succ h HEAD i ;
      if negb (s =? TAIL) then Ok h
      else if 0 <? i then
        do n <- node_at h HEAD ;
        trim i (upd h HEAD (mkNode (key n) (data n) (removelast (succ n)) (prev n)))
      else trim i h
  end.
(* skiplist.py:119-138 _remove *)
Definition remove (s : skip) (k : Z) : res skip :=
  let h := heap s in
  do (found, update) <- scan h k ;
  match found with
  | None => Ok s
  | Some a =>
      do n <- node_at h a ;
      do h1 <- unlink (length (succ n)) 0 h a update ;
      do H <- height h1 ;
      do h2 <- trim H h1 ;
      Ok (mkSkip h2 (size s - 1))
  end.

(* skiplist.py:140-141 __len__, 148-153 __getitem__ *)
Definition len (s : skip) : Z := size s.
(* skiplist.py:148-153 *)
Definition get (s : skip) (k : Z) : res (option V) :=
  do (found, _) <- scan (heap s) k ;
  match found with None => Ok None | Some a => do n <- node_at (heap s) a ; Ok (data n) end.

(* skiplist.py:161-166 __iter__, iteritems (level 0, starting at head.succ[0]) *)
Definition level_nodes (s : skip) (l : nat) : res (list nat) :=
  do a <- get_succ (heap s) HEAD l ; level_from (S (length (heap s))) (heap s) a l.
(* skiplist.py:161-166 *)
Definition iteritems (s : skip) : res (list (skey * option V)) :=
  do ns <- level_nodes s 0 ;
  collect (length ns) 0 (fun i => do a <- getR ns i ; do n <- node_at (heap s) a ; Ok (key n, data n)).

(* a sequence of operations on one list  [a call in a history of calls of the functions above] *)
Inductive op := Set_ (k : Z) (v : option V) (ht : nat) | Del (k : Z).
(* calls of the functions above, one after another *)
Definition step (s : skip) (o : op) : res skip :=
  match o with Set_ k v ht => insert s k v ht | Del k => remove s k end.
(* calls of the functions above, one after another *)
Fixpoint run (s : skip) (os : list op) : res skip :=
  match os with [] => Ok s | o :: r => do s' <- step s o ; run s' r end.
End Skip.
Arguments node : clear implicits.
Arguments skip : clear implicits.
Arguments op : clear implicits.
