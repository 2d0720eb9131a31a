(* Model of mmcore/compat/step/step_writer.py. *)
From Coq Require Import List Arith ZArith Bool QArith Qcanon Ascii Lia.
From Verif Require Import Common QcLib.
Import ListNotations.
Local Open Scope Qc_scope.

(* Text is a list of Latin-1 characters; other code points are not modelled.  [for drop_while, step_writer.py:97-107] *)
Definition text := list ascii.
(* for is_space, step_writer.py:97-107 *)
Definition code (c : ascii) : nat := nat_of_ascii c.
(* str.isspace, which is also \s  [for strip, step_writer.py:97-107] *)
Definition is_space (c : ascii) : bool :=
  let n := code c in (9 <=? n)%nat && (n <=? 13)%nat || (28 <=? n)%nat && (n <=? 32)%nat || (n =? 133)%nat || (n =? 160)%nat.
(* for digits, step_writer.py:113-139 *)
Definition is_digit (c : ascii) : bool := (48 <=? code c)%nat && (code c <=? 57)%nat.
(* for lower, step_writer.py:113-139 *)
Definition is_upper (c : ascii) : bool := (65 <=? code c)%nat && (code c <=? 90)%nat.
(* for digits, step_writer.py:113-139 *)
Definition digit (c : ascii) : Z := Z.of_nat (code c - 48).
(* for parse, step_writer.py:44-110 *)
Definition is_quote (c : ascii) : bool := Ascii.eqb c "'" || Ascii.eqb c """".
(* str.lstrip, str.rstrip, str.strip  [for drop_end, step_writer.py:97-107] *)
Fixpoint drop_while (f : ascii -> bool) (t : text) : text := match t with [] => [] | c :: r => if f c then drop_while f r else t end.
(* for strip, step_writer.py:97-107 *)
Definition drop_end (f : ascii -> bool) (t : text) : text := rev (drop_while f (rev t)).
(* for push, step_writer.py:97-107 *)
Definition strip (t : text) : text := drop_end is_space (drop_while is_space t).

(* parsed arguments; a float is its decimal value, not rounded to binary  [for val, step_writer.py:113-139] *)
Inductive float := FNum (q : Qc) | FInf (negative : bool) | FNan.
(* for process_token, step_writer.py:113-139 *)
Inductive val := VStr (s : text) | VInt (z : Z) | VFloat (f : float) | VTuple (l : list val).

(* int(token), float(token) of the standard library: value, number of digits and what is left;
   one underscore is allowed between two digits  [for to_int, step_writer.py:113-139] *)
Fixpoint digits (acc : Z) (n : nat) (t : text) : Z * nat * text :=
  match t with
  | [] => (acc, n, [])
  | c :: r =>
    if is_digit c then digits (10 * acc + digit c) (S n) r
    else match r with
         | d :: r' => if Ascii.eqb c "_" && (0 <? n)%nat && is_digit d then digits (10 * acc + digit d) (S n) r' else (acc, n, t)
         | [] => (acc, n, t)
         end
  end.
(* for to_int, step_writer.py:113-139 *)
Definition sign (t : text) : bool * text :=
  match t with c :: r => if Ascii.eqb c "-" then (true, r) else if Ascii.eqb c "+" then (false, r) else (false, t) | [] => (false, []) end.
(* for process_token, step_writer.py:113-139 *)
Definition to_int (t : text) : option Z :=
  let '(neg, r) := sign t in
  match digits 0 0 r with (z, S _, []) => Some (if neg then - z else z)%Z | _ => None end.
(* for to_float, step_writer.py:113-139 *)
Definition lower (c : ascii) : ascii := if is_upper c then ascii_of_nat (code c + 32) else c.
(* for to_float, step_writer.py:113-139 *)
Definition text_eqb (a b : text) : bool := if list_eq_dec ascii_dec a b then true else false.
(* for to_float, step_writer.py:113-139 *)
Definition ten_to (e : Z) : Qc := if (0 <=? e)%Z then Q2Qc (inject_Z (10 ^ e)) else / Q2Qc (inject_Z (10 ^ (- e))).
(* for process_token, step_writer.py:113-139 *)
Definition to_float (t : text) : option float :=
  let '(neg, r) := sign t in
  let l := map lower r in
  if text_eqb l ["i";"n";"f"]%char || text_eqb l ["i";"n";"f";"i";"n";"i";"t";"y"]%char then Some (FInf neg)
  else if text_eqb l ["n";"a";"n"]%char then Some FNan
  else
    let '(a, n1, r1) := digits 0 0 r in
    let '(b, n2, r2) := match r1 with c :: r' => if Ascii.eqb c "." then digits a 0 r' else (a, 0%nat, r1) | [] => (a, 0%nat, []) end in
    let m e := Some (FNum ((if neg then - (1) else 1) * Q2Qc (inject_Z b) * ten_to (e - Z.of_nat n2))) in
    if (n1 + n2 =? 0)%nat then None
    else match r2 with
         | [] => m 0%Z
         | c :: r3 => if Ascii.eqb (lower c) "e" then
                        let '(eneg, r4) := sign r3 in
                        match digits 0 0 r4 with (z, S _, []) => m (if eneg then - z else z)%Z | _ => None end
                      else None
         end.

(* step_writer.py:113-139 process_token *)
Definition ends (q : ascii) (t : text) : bool := match t with [] => false | c :: _ => Ascii.eqb c q && Ascii.eqb (last t c) q end.
(* step_writer.py:113-139 *)
Definition process_token (t : text) : val :=
  if ends "'" t || ends """" t then VStr (removelast (tl t))
  else match to_int t with
       | Some z => VInt z
       | None => match to_float t with Some f => VFloat f | None => VStr t end
       end.

(* step_writer.py:83-95: the text up to the parenthesis that closes the n open ones, and what follows *)
Fixpoint close (n : nat) (t : text) : option (text * text) :=
  match t with
  | [] => None
  | c :: r =>
    if Ascii.eqb c "(" then match close (S n) r with Some (a, b) => Some (c :: a, b) | None => None end
    else if Ascii.eqb c ")" then match n with S (S m) => match close (S m) r with Some (a, b) => Some (c :: a, b) | None => None end | _ => Some ([], r) end
    else match close n r with Some (a, b) => Some (c :: a, b) | None => None end
  end.
(* step_writer.py:97-107: a token that is not blank is an argument *)
Definition push (cur : text) (args : list val) : list val := match strip cur with [] => args | t => args ++ [process_token t] end.
(* step_writer.py:44-110 parse_arguments; fuel counts characters *)
Fixpoint parse (fuel : nat) (t cur : text) (q : option ascii) (args : list val) : res (list val) :=
  match fuel with
  | O => Err OutOfFuel
  | S f =>
    match t with
    | [] => Ok (push cur args)
    | c :: r =>
      match q with
      | Some qc => parse f r (cur ++ [c]) (if Ascii.eqb c qc then None else q) args
      | None =>
        if is_quote c then parse f r (cur ++ [c]) (Some c) args
        else if Ascii.eqb c "(" then
          match close 1 r with
          | None => Err ValueError
          | Some (inner, rest) => do l <- parse f inner [] None [] ; parse f rest cur None (args ++ [VTuple l])
          end
        else if Ascii.eqb c "," then parse f r (match strip cur with [] => cur | _ => [] end) None (push cur args)
        else parse f r (cur ++ [c]) None args
      end
    end
  end.
(* step_writer.py:44-110 *)
Definition parse_arguments (t : text) : res (list val) := parse (S (length t)) t [] None [].

(* step_writer.py:18-41 parse_assignment: the regular expression at the start of the text is # and digits, =,
   upper case letters and underscores, an opening parenthesis (spaces allowed between), any
   characters but newlines and a closing parenthesis.  The parts before the arguments start with
   different characters, so the match needs no backtracking there; the last part is greedy and
   takes all up to the last parenthesis of the line. *)
Definition is_name (c : ascii) : bool := is_upper c || Ascii.eqb c "_".
(* for line, step_writer.py:18-41 *)
Fixpoint take_while (f : ascii -> bool) (t : text) : text := match t with [] => [] | c :: r => if f c then c :: take_while f r else [] end.
(* for match_assignment, step_writer.py:18-41 *)
Definition expect (c : ascii) (t : text) : option text := match t with d :: r => if Ascii.eqb c d then Some r else None | [] => None end.
(* for match_assignment, step_writer.py:18-41 *)
Definition line (t : text) : text := take_while (fun c => negb (Ascii.eqb c "010")) t.
(* all before the last closing parenthesis  [for match_assignment, step_writer.py:18-41] *)
Definition up_to_last (t : text) : option text :=
  match drop_end (fun c => negb (Ascii.eqb c ")")) t with [] => None | u => Some (removelast u) end.
(* step_writer.py:18-41 *)
Definition match_assignment (t : text) : option (text * text) :=
  match expect "#" t with
  | None => None
  | Some r =>
    match take_while is_digit r with
    | [] => None
    | _ =>
      match expect "=" (drop_while is_space (drop_while is_digit r)) with
      | None => None
      | Some r =>
        let r := drop_while is_space r in
        match take_while is_name r with
        | [] => None
        | name => match expect "(" (drop_while is_space (drop_while is_name r)) with
                  | None => None
                  | Some r => match up_to_last (line r) with Some a => Some (name, a) | None => None end
                  end
        end
      end
    end
  end.
(* step_writer.py:18-41 *)
Definition parse_assignment (t : text) : res (text * list val) :=
  match match_assignment (drop_end (fun c => Ascii.eqb c ";") (strip t)) with
  | None => Err ValueError
  | Some (name, a) => do l <- parse_arguments a ; Ok (name, l)
  end.

(* step_writer.py:155-175 get_knot_multiplicities *)
Definition eps8 : Qc := Q2Qc (1 # 100000000).
(* step_writer.py:155-175 *)
Definition near (a b : Qc) : bool := qlt (if qlt (a - b) 0 then - (a - b) else a - b) eps8.
(* step_writer.py:155-175 *)
Fixpoint group (last : Qc) (count : nat) (l : list Qc) : list Qc * list nat :=
  match l with
  | [] => ([last], [count])
  | x :: r => if near x last then group last (S count) r
              else let '(u, m) := group x 1 r in (last :: u, count :: m)
  end.
(* step_writer.py:155-175 *)
Definition get_knot_multiplicities (knots : list Qc) : list Qc * list nat := match knots with [] => ([], []) | x :: r => group x 1 r end.
