(* What STEP argument text means, independently of the parser. *)
From Coq Require Import List Arith ZArith Bool QArith Qcanon Ascii Lia.
From Verif Require Import Common QcLib StepModel.
Import ListNotations.
Local Open Scope Qc_scope.

Definition special (c : ascii) : Prop := c = "("%char \/ c = ")"%char \/ c = ","%char \/ c = "'"%char \/ c = """"%char.
Definition paren (c : ascii) : Prop := c = "("%char \/ c = ")"%char.
(* tabs, line breaks, separators, space, next line, no-break space *)
Definition white (c : ascii) : Prop := In (nat_of_ascii c) [9; 10; 11; 12; 13; 28; 29; 30; 31; 32; 133; 160]%nat.
Definition blank (t : text) : Prop := Forall white t.
(* decimal digits, most significant first: value and number of digits *)
Inductive decimal : nat -> nat -> text -> Prop :=
| decimal_one d : (d < 10)%nat -> decimal d 1 [ascii_of_nat (48 + d)]
| decimal_more n k t d : decimal n k t -> (d < 10)%nat -> decimal (10 * n + d) (S k) (t ++ [ascii_of_nat (48 + d)]).
Inductive integer : Z -> text -> Prop :=
| integer_plus n k t : decimal n k t -> integer (Z.of_nat n) t
| integer_minus n k t : decimal n k t -> integer (- Z.of_nat n) ("-"%char :: t).
(* a real: digits, a point, more digits or none, an exponent or none *)
Inductive fraction : Qc -> text -> Prop :=
| fraction_none : fraction 0 []
| fraction_some n k t : decimal n k t -> fraction (Q2Qc (inject_Z (Z.of_nat n)) / Q2Qc (inject_Z (10 ^ Z.of_nat k))) t.
Inductive exponent : Z -> text -> Prop :=
| exponent_none : exponent 0 []
| exponent_some e t : integer e t -> exponent e ("E"%char :: t).
Inductive real : Qc -> text -> Prop :=
| real_plus n k t f u e v : decimal n k t -> fraction f u -> exponent e v -> real ((Q2Qc (inject_Z (Z.of_nat n)) + f) * ten_to e) (t ++ "."%char :: u ++ v)
| real_minus n k t f u e v : decimal n k t -> fraction f u -> exponent e v -> real (- ((Q2Qc (inject_Z (Z.of_nat n)) + f) * ten_to e)) ("-"%char :: t ++ "."%char :: u ++ v).
(* a reference #12, an enumeration .T., $ or * *)
Definition word (t : text) : Prop :=
  Forall (fun c => ~ special c /\ is_space c = false) t /\
  match t with
  | c :: r => c = "#"%char \/ c = "$"%char \/ c = "*"%char \/ (c = "."%char /\ match r with d :: _ => is_upper d = true | [] => False end)
  | [] => False
  end.
(* deep: inside a nested tuple.  Strings there must be free of parentheses. *)
Inductive denotes (deep : bool) : val -> text -> Prop :=
| d_quoted q s : q = "'"%char \/ q = """"%char -> ~ In q s -> (deep = true -> Forall (fun c => ~ paren c) s) -> denotes deep (VStr s) (q :: s ++ [q])
| d_word t : word t -> denotes deep (VStr t) t
| d_int z t : integer z t -> denotes deep (VInt z) t
| d_real x t : real x t -> denotes deep (VFloat (FNum x)) t
| d_tuple l t : denotes_all true l t -> denotes deep (VTuple l) ("("%char :: t ++ [")"%char])
with denotes_all (deep : bool) : list val -> text -> Prop :=
| d_none t : blank t -> denotes_all deep [] t
| d_last v a t b : blank a -> denotes deep v t -> blank b -> denotes_all deep [v] (a ++ t ++ b)
| d_next v l a t b r : blank a -> denotes deep v t -> blank b -> denotes_all deep l r -> l <> [] -> denotes_all deep (v :: l) (a ++ t ++ b ++ ","%char :: r).

(* the knots again from values and counts *)
Definition expand (u : list Qc) (m : list nat) : list Qc := concat (map (fun km => repeat (fst km) (snd km)) (combine u m)).
