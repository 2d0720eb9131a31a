(* Specification vocabulary for sorted sequences: a plain list of nodes with key and value. *)
From Coq Require Import List Arith ZArith Bool Sorted.
From Verif Require Import Common SkipModel SkipSpec SseqModel.
Import ListNotations.

Section Sseq.
Context {V : Type}.
(* a node: its address, key and value *)
Definition item : Type := (nat * (Z * option V))%type.
Definition sorted_items (l : list item) : Prop := strict (map snd l).
(* the first node m goes after all smaller keys: l = X ++ Y around the key k *)
Definition around (k : Z) (X Y : list item) : Prop := Forall (fun i => (fst (snd i) < k)%Z) X /\ Forall (fun i => (k < fst (snd i))%Z) Y.

(* what a call does to the list; n is the address of the next new node *)
Inductive does : nat * list item -> sop V -> option nat -> nat * list item -> Prop :=
| d_ins_old n X Y a k w v ht : sorted_items (X ++ (a, (k, w)) :: Y) ->
    does (n, X ++ (a, (k, w)) :: Y) (SIns k v ht) (Some a) (n, X ++ (a, (k, v)) :: Y)
| d_ins_new n X Y k v ht : sorted_items (X ++ Y) -> around k X Y ->
    does (n, X ++ Y) (SIns k v ht) (Some n) (S n, X ++ (n, (k, v)) :: Y)
| d_at_old n X Y a k w v : does (n, X ++ (a, (k, w)) :: Y) (SInsAt a k v) (Some a) (n, X ++ (a, (k, v)) :: Y)
| d_at_after n X Y a k ka w v : (ka < k)%Z ->
    does (n, X ++ (a, (ka, w)) :: Y) (SInsAt a k v) (Some n) (S n, X ++ (a, (ka, w)) :: (n, (k, v)) :: Y)
| d_at_before n X Y a k ka w v : (k < ka)%Z ->
    does (n, X ++ (a, (ka, w)) :: Y) (SInsAt a k v) (Some n) (S n, X ++ (n, (k, v)) :: (a, (ka, w)) :: Y)
| d_del n X Y a kw : does (n, X ++ (a, kw) :: Y) (SDel a) None (n, X ++ Y)
| d_rev n X M Y a b : hd_error (map fst M) = Some a -> hd_error (map fst (rev M)) = Some b ->
    does (n, X ++ M ++ Y) (SRev a b) None (n, X ++ rev M ++ Y)
| d_inf n X Y a k w v : does (n, X ++ (a, (k, w)) :: Y) (SInf a v) None (n, X ++ (a, (k, v)) :: Y).
(* calls one after another *)
Inductive does_all : nat * list item -> list (sop V) -> list (option nat) -> nat * list item -> Prop :=
| da_nil s : does_all s [] [] s
| da_cons s o x s' os xs s'' : does s o x s' -> does_all s' os xs s'' -> does_all s (o :: os) (x :: xs) s''.

(* what a caller sees of the list *)
Record shows (s : skip V) (l : list item) : Prop := {
  sh_items : iteritems s = Ok (entries (map snd l));
  sh_len : len s = Z.of_nat (length l);
  sh_min : seq_min s = Ok (hd_error (map fst l));
  sh_succ : forall X i Y, l = X ++ i :: Y -> seq_succ s (fst i) = Ok (hd_error (map fst Y));
  sh_pred : forall X i Y, l = X ++ i :: Y -> seq_pred s (fst i) = Ok (hd_error (map fst (rev X)));
  sh_lookup : sorted_items l -> forall k, exists o, lookup s k = Ok o /\ forall a, o = Some a <-> exists v, In (a, (k, v)) l }.
End Sseq.

(* a sequence that calls on an empty one can give: the plain list beside it *)
Definition reached {V} (s : skip V) (l : list (@item V)) : Prop := exists os xs n, does_all (2, []) os xs (n, l) /\ seq_run skip_new os = Ok (xs, s).
(* the node that the documentation of locate promises: the first one with a key not below k *)
Definition first_not_below {V} (k : Z) (l : list (@item V)) : option nat := option_map fst (find (fun i => (k <=? fst (snd i))%Z) l).
