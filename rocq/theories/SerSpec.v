(* What a stored curve is, apart from where its numbers lie in memory. *)
From Coq Require Import List ZArith Bool.
From Verif Require Import Common SerModel.
Import ListNotations.
Local Open Scope Z_scope.

Definition is_word (w : Z) : Prop := 0 <= w < 2 ^ 64.
Definition is_byte (b : Z) : Prop := 0 <= b < 256.
(* sizes that a C int can count, numbers that are doubles *)
Record sized (c : scurve) : Prop := {
  z_pts : 0 < n2 (s_pts c) < 2 ^ 29; z_dim : dim2 (s_pts c) = 4; z_knots : 0 < n1 (s_knots c) < 2 ^ 29;
  z_deg : - 2 ^ 31 <= s_deg c < n1 (s_knots c);
  z_wp : Forall is_word (b2 (s_pts c)); z_wk : Forall is_word (b1 (s_knots c));
  z_inp : 0 <= off2 (s_pts c) /\ off2 (s_pts c) + n2 (s_pts c) * 4 <= Z.of_nat (length (b2 (s_pts c)));
  z_ink : 0 <= off1 (s_knots c) /\ off1 (s_knots c) + n1 (s_knots c) <= Z.of_nat (length (b1 (s_knots c))) }.
(* the arrays lie in one piece, row after row *)
Definition packed_points (c : scurve) : Prop := step_row (s_pts c) = 4 /\ step_col (s_pts c) = 1.
Definition packed_knots (c : scurve) : Prop := step1 (s_knots c) = 1.
Definition same (c d : scurve) : Prop := rows2 (s_pts d) = rows2 (s_pts c) /\ s_deg d = s_deg c /\ items1 (s_knots d) = items1 (s_knots c) /\ s_per d = s_per c.
