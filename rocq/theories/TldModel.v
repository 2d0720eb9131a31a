(* The files of the triangulation program: Model of /repo/mmcore/topo/mesh/triangle/data.py, lines 11-192.

   A token is the number it stands for; `v[0, 0] == '0'` is the test for the number zero.  Comments and the split into tokens and lines are left out:
   the functions get the tokens, _edge the tokens of each line.  Negative counts are errors here. *)
From Coq Require Import List Arith ZArith Bool QArith Qcanon.
From Verif Require Import Common QcLib.
Import ListNotations.
Local Open Scope Qc_scope.

(* data.py:11-12 split *)
Definition split_at {A} (l : list A) (n : nat) : list A * list A := (firstn n l, skipn n l).
(* int(token), data.py:33 *)
Definition to_int (q : Qc) : res Z := match Qden (this q) with 1%positive => Ok (Qnum (this q)) | _ => Err ValueError end.
(* a count, data.py:33 *)
Definition to_count (q : Qc) : res nat := do z <- to_int q ; if (z <? 0)%Z then Err ValueError else Ok (Z.to_nat z).
(* list(map(f, l)), data.py:33 *)
Fixpoint map_all {A B} (f : A -> res B) (l : list A) : res (list B) :=
  match l with [] => Ok [] | x :: r => do y <- f x ; do s <- map_all f r ; Ok (y :: s) end.
(* the rows of np.array(head).reshape(-1, w), data.py:41; fuel is the length *)
Fixpoint rows_of {A} (fuel w : nat) (l : list A) : res (list (list A)) :=
  match l with
  | [] => Ok []
  | _ => match fuel with
         | O => Err OutOfFuel
         | S f => if (length l <? w)%nat then Err ValueError else do r <- rows_of f w (skipn w l) ; Ok (firstn w l :: r)
         end
  end.
(* data.py:41 *)
Definition reshape_rows {A} (w : nat) (l : list A) : res (list (list A)) := rows_of (length l) w l.
(* v[:, a:b], data.py:45 *)
Definition columns_of {A} (a b : nat) (v : list (list A)) : list (list A) := map (fun r => firstn (b - a) (skipn a r)) v.
(* np.array(_, dtype='intc'), data.py:52-55 *)
Definition int_rows (v : list (list Qc)) : res (list (list Z)) := map_all (map_all to_int) v.
(* indices from zero, data.py:68-69, 87-88, 167-168 *)
Definition from_zero (start_at_zero : bool) (v : list (list Z)) : list (list Z) := if start_at_zero then v else map (map (fun z => z - 1)%Z) v.

(* data['vertices'], data['vertex_attributes'], data['vertex_markers'] *)
Definition vertex_data := (list (list Qc) * option (list (list Qc)) * option (list (list Z)))%type.
(* data.py:31-57 _vertices; start_at_zero, the data and the rest of the tokens *)
Definition load_vertices (z : bool) (tokens : list Qc) : res (bool * option vertex_data * list Qc) :=
  let (head, tokens) := split_at tokens 4 in
  do h <- map_all to_count head ;
  match h with
  | [n; dim; na; nb] =>
      if (n =? 0)%nat then Ok (z, None, tokens)
      else
        let w := (1 + dim + na + nb)%nat in
        let (head, tokens) := split_at tokens (n * w) in
        do v <- reshape_rows w head ;
        match v with
        | (first :: _) :: _ =>
            do m <- (if (0 <? nb)%nat then do x <- int_rows (columns_of (3 + na) (3 + na + nb) v) ; Ok (Some x) else Ok None) ;
            Ok (qeq first 0, Some (columns_of 1 3 v, if (0 <? na)%nat then Some (columns_of 3 (3 + na) v) else None, m), tokens)
        | _ => Err IndexError
        end
  | _ => Err ValueError
  end.
(* data['triangles'] and data['triangle_attributes'] *)
Definition triangle_data := (list (list Z) * option (list (list Qc)))%type.
(* data.py:59-76 _ele *)
Definition load_ele (z : bool) (tokens : list Qc) : res (option triangle_data * list Qc) :=
  let (head, tokens) := split_at tokens 3 in
  do h <- map_all to_count head ;
  match h with
  | [n; nn; na] =>
      if (n =? 0)%nat then Ok (None, tokens)
      else
        let (head, tokens) := split_at tokens (n * (1 + nn + na)) in
        do v <- reshape_rows (1 + nn + na) head ;
        do t <- int_rows (columns_of 1 (nn + 1) v) ;
        Ok (Some (from_zero z t, if (0 <? na)%nat then Some (columns_of (nn + 1) (nn + 1 + na) v) else None), tokens)
  | _ => Err ValueError
  end.
(* data['segments'] and data['segment_markers'] *)
Definition segment_data := (list (list Z) * option (list (list Z)))%type.
(* data.py:78-95 _segments *)
Definition load_segments (z : bool) (tokens : list Qc) : res (option segment_data * list Qc) :=
  let (head, tokens) := split_at tokens 2 in
  do h <- map_all to_count head ;
  match h with
  | [n; nb] =>
      if (n =? 0)%nat then Ok (None, tokens)
      else
        let (head, tokens) := split_at tokens (n * (3 + nb)) in
        do v <- reshape_rows (3 + nb) head ;
        do s <- int_rows (columns_of 1 3 v) ;
        do m <- (if (0 <? nb)%nat then do x <- int_rows (columns_of 3 (3 + nb) v) ; Ok (Some x) else Ok None) ;
        Ok (Some (from_zero z s, m), tokens)
  | _ => Err ValueError
  end.
(* data.py:97-107 _holes *)
Definition load_holes (tokens : list Qc) : res (option (list (list Qc)) * list Qc) :=
  let (head, tokens) := split_at tokens 1 in
  match head with
  | [h] =>
      do n <- to_count h ;
      if (n =? 0)%nat then Ok (None, tokens)
      else let (head, tokens) := split_at tokens (n * 3) in do v <- reshape_rows 3 head ; Ok (Some (columns_of 1 3 v), tokens)
  | _ => Err IndexError
  end.
(* data.py:158-168 _neigh *)
Definition load_neigh (z : bool) (tokens : list Qc) : res (option (list (list Z))) :=
  let (head, tokens) := split_at tokens 2 in
  do h <- map_all to_count head ;
  match h with
  | [n; k] =>
      if (n =? 0)%nat then Ok None
      else let (head, tokens) := split_at tokens (n * (1 + k)) in
           do v <- reshape_rows (1 + k) head ; do t <- int_rows (columns_of 1 (1 + k) v) ; Ok (Some (from_zero z t))
  | _ => Err ValueError
  end.
(* v[:, a:b] of np.array of a list of rows; an empty array has one dimension only, data.py:129-133 *)
Definition slice2 {A} (a b : nat) (v : list (list A)) : res (list (list A)) := match v with [] => Err IndexError | _ => Ok (columns_of a b v) end.
(* data.py:119-137 _edge; edges, ray origins and ray directions *)
Definition load_edge (z : bool) (lines : list (list Qc)) : res (option (list (list Z) * list (list Z) * list (list Qc))) :=
  match lines with
  | [] => Err IndexError
  | head :: tokens =>
      do h <- map_all to_count head ;
      match h with
      | [n; nb] =>
          if (n =? 0)%nat then Ok None
          else
            let edges := filter (fun x => (length x =? 3 + nb)%nat) tokens in
            let rays := filter (fun x => (length x =? 5 + nb)%nat) tokens in
            do e <- slice2 1 3 edges ; do ei <- int_rows e ;
            do o <- slice2 1 2 rays ; do oi <- int_rows o ;
            do d <- slice2 3 (5 + nb) rays ;
            Ok (Some (from_zero z ei, from_zero z oi, d))
      | _ => Err ValueError
      end
  end.
(* data.py:176-180 the .poly file, up to the regions *)
Definition load_poly (z : bool) (tokens : list Qc) : res (bool * option vertex_data * option segment_data * option (list (list Qc)) * list Qc) :=
  do (a, tokens) <- load_vertices z tokens ;
  do (s, tokens) <- load_segments (fst a) tokens ;
  do (h, tokens) <- load_holes tokens ;
  Ok (fst a, snd a, s, h, tokens).
(* data.py:109-117 _area; data['triangle_max_area'] *)
Definition load_area (tokens : list Qc) : res (option (list (list Qc))) :=
  let (head, tokens) := split_at tokens 1 in
  match head with
  | [h] =>
      do n <- to_count h ;
      if (n =? 0)%nat then Ok None
      else let (head, _) := split_at tokens (n * 2) in do v <- reshape_rows 2 head ; Ok (Some (columns_of 1 2 v))
  | _ => Err IndexError
  end.
(* np.hstack of the columns with a column of zeros, data.py:151-155 *)
Definition with_zero (r : list Qc) : list Qc := firstn 2 r ++ 0 :: firstn 1 (skipn 2 r).
(* data.py:139-156 _regions *)
Definition load_regions (tokens : list Qc) : res (option (list (list Qc))) :=
  let (head, tokens) := split_at tokens 1 in
  match head with
  | [h] =>
      do n <- to_count h ;
      if (n =? 0)%nat then Ok None
      else let (head, _) := split_at tokens (n * 4) in do v <- reshape_rows 4 head ; Ok (Some (map with_zero (columns_of 1 4 v)))
  | _ => Err IndexError
  end.
