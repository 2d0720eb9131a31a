(* Serialization of NURBSCurve (mmcore/geom/nurbs.pyx).  A double is the 64-bit word that stores it,
   a byte is an integer in [0, 256); integers are little-endian. *)
From Coq Require Import List ZArith Bool.
From Verif Require Import Common.
Import ListNotations.
Local Open Scope Z_scope.

(* for doubles, nurbs.pyx:1801-1861 *)
Fixpoint le (n : nat) (z : Z) : list Z := match n with O => [] | S m => z mod 256 :: le m (z / 256) end.
(* for word_at, nurbs.pyx:1893-1949 *)
Fixpoint unle (l : list Z) : Z := match l with [] => 0 | b :: r => b + 256 * unle r end.

(* memoryviews double[:] and double[:, :]: a place in a block of memory and the steps between items  [for scurve, nurbs.pxd:435-441] *)
Record view1 := { b1 : list Z; off1 : Z; step1 : Z; n1 : Z }.
(* for scurve, nurbs.pxd:435-441 *)
Record view2 := { b2 : list Z; off2 : Z; step_row : Z; step_col : Z; n2 : Z; dim2 : Z }.
(* for hook, nurbs.pyx:1353-1357 *)
Definition item (b : list Z) (i : Z) : Z := nth (Z.to_nat i) b 0.
(* the doubles of a memoryview in order; not in the code *)
Definition items1 (v : view1) : list Z := map (fun i => item (b1 v) (off1 v + Z.of_nat i * step1 v)) (seq 0 (Z.to_nat (n1 v))).
(* the doubles of a row in order; not in the code *)
Definition row2 (v : view2) (i : nat) : list Z := map (fun j => item (b2 v) (off2 v + Z.of_nat i * step_row v + Z.of_nat j * step_col v)) (seq 0 (Z.to_nat (dim2 v))).
(* the rows in order; not in the code *)
Definition rows2 (v : view2) : list (list Z) := map (row2 v) (seq 0 (Z.to_nat (n2 v))).
(* nurbs.pxd:435-441; the interval holds the first and last knot *)
Record scurve := { s_pts : view2; s_deg : Z; s_knots : view1; s_per : bool; s_int : Z * Z }.

(* memcpy of n doubles: consecutive memory; outside the block nothing is known  [for serialize, nurbs.pyx:1801-1861] *)
Definition block (b : list Z) (off n : Z) : res (list Z) :=
  if (0 <=? off) && (0 <=? n) && (off + n <=? Z.of_nat (length b)) then Ok (firstn (Z.to_nat n) (skipn (Z.to_nat off) b)) else Err IndexError.
(* for serialize, nurbs.pyx:1801-1861 *)
Definition doubles (l : list Z) : list Z := concat (map (le 8) l).

(* nurbs.pyx:1115-1117 *)
Definition magic : list Z := [78; 82; 66; 67].
(* for serialize, nurbs.pyx:1801-1861 *)
Definition version : Z := 1.
(* for serialize, nurbs.pyx:1801-1861 *)
Definition uint32 (z : Z) : Z := z mod 2 ^ 32.
(* for cdeserialize, nurbs.pyx:1893-1949 *)
Definition int32 (z : Z) : Z := if z <? 2 ^ 31 then z else z - 2 ^ 32.

(* nurbs.pyx:1801-1861 cserialize.  MAGIC_BYTES is a char pointer, so total_size counts 8 bytes for it and 4 are
   written: the last 4 bytes of the buffer keep what malloc gave (junk). *)
Definition serialize (c : scurve) (junk : list Z) : res (list Z) :=
  do p <- block (b2 (s_pts c)) (off2 (s_pts c)) (n2 (s_pts c) * dim2 (s_pts c)) ;
  do k <- block (b1 (s_knots c)) (off1 (s_knots c)) (n1 (s_knots c)) ;
  Ok (magic ++ le 4 version ++ le 4 (uint32 (s_deg c)) ++ le 4 (if s_per c then 1 else 0) ++ le 4 (uint32 (n2 (s_pts c))) ++ le 4 (uint32 (n1 (s_knots c)))
      ++ doubles p ++ doubles k ++ junk).

(* reading n bytes at offset o; bounds are not checked, what lies behind the data is read on  [for word_at, nurbs.pyx:1893-1949] *)
Definition bytes_at (m : list Z) (o n : Z) : res (list Z) := block m o n.
(* for cdeserialize, nurbs.pyx:1893-1949 *)
Definition word_at (m : list Z) (o : Z) : res Z := do b <- bytes_at m o 4 ; Ok (unle b).
(* for cdeserialize, nurbs.pyx:1893-1949 *)
Fixpoint doubles_at (m : list Z) (o : Z) (n : nat) : res (list Z) :=
  match n with O => Ok [] | S k => do b <- bytes_at m o 8 ; do r <- doubles_at m (o + 8) k ; Ok (unle b :: r) end.
(* for cdeserialize, nurbs.pyx:1893-1949 *)
Fixpoint beq (a b : list Z) : bool := match a, b with [] , [] => true | x :: r, y :: s => (x =? y) && beq r s | _, _ => false end.
(* nurbs.pyx:1353-1357 knots_update_hook: the interval (1371-1373); np.empty of the Greville abscissae
   (2073-2075) raises for a negative count.  The abscissae themselves are left out. *)
Definition hook (p : view2) (deg : Z) (k : view1) (per : bool) : res scurve :=
  if n1 k <=? 0 then Err IndexError
  else if n1 k - deg - 1 <? 0 then Err ValueError
  else Ok {| s_pts := p; s_deg := deg; s_knots := k; s_per := per; s_int := (item (b1 k) (off1 k), item (b1 k) (off1 k + (n1 k - 1) * step1 k)) |}.
(* nurbs.pyx:1893-1949 cdeserialize; `after` is the memory behind the data.  The casts to
   memoryviews raise ValueError for an empty array; a failing malloc (MemoryError, also for counts
   from 2^31 on) is a ValueError here. *)
Definition cdeserialize (data after : list Z) : res scurve :=
  let m := data ++ after in
  do g <- bytes_at m 0 4 ;
  if negb (beq g magic) then Err ValueError
  else
    do v <- word_at m 4 ;
    if negb (v =? version) then Err ValueError
    else
      do d <- word_at m 8 ; do per <- word_at m 12 ; do np <- word_at m 16 ; do nk <- word_at m 20 ;
      let n := int32 np in let k := int32 nk in
      if (n <=? 0) || (k <=? 0) then Err ValueError else
      do p <- doubles_at m 24 (Z.to_nat (4 * n)) ;
      do u <- doubles_at m (24 + 32 * n) (Z.to_nat k) ;
      hook {| b2 := p; off2 := 0; step_row := 4; step_col := 1; n2 := n; dim2 := 4 |} (int32 d) {| b1 := u; off1 := 0; step1 := 1; n1 := k |} (negb (per =? 0)).
(* nurbs.pyx:1951-1955 deserialize *)
Inductive pyval := Bytes (l : list Z) | ByteArray (l : list Z) | OtherValue.
(* nurbs.pyx:1951-1955 *)
Definition deserialize (v : pyval) (after : list Z) : res scurve :=
  match v with Bytes l | ByteArray l => cdeserialize l after | OtherValue => Err TypeError end.
