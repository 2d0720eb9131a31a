(* Vocabulary for integration: trapezoidal rule, Romberg's table, polynomials. *)
From Coq Require Import List ZArith QArith Qcanon.
From Verif Require Import Common QcLib SumLib.
Import ListNotations.
Local Open Scope Qc_scope.

(* the trapezoidal rule with n panels on [a, b] *)
Definition trapezoid (f : Qc -> Qc) (a b : Qc) (n : nat) : Qc :=
  let h := (b - a) / zq (Z.of_nat n) in
  sumn n (fun j => h * ((f (a + zq (Z.of_nat j) * h) + f (a + zq (Z.of_nat (S j)) * h)) / zq 2)).

(* Romberg's table over a sequence of approximations *)
Fixpoint extrapolate (T : nat -> Qc) (j i : nat) : Qc :=
  match j with
  | O => T i
  | S j' => (zq (4 ^ Z.of_nat j) * extrapolate T j' i - extrapolate T j' (i - 1)) / (zq (4 ^ Z.of_nat j) - 1)
  end.

(* entry (i, i) of the table of f on [a, b] *)
Definition romberg_value (f : Qc -> Qc) (a b : Qc) (i : nat) : Qc :=
  extrapolate (fun i => trapezoid f a b (2 ^ i)) i i.

(* the polynomial with coefficients cs, lowest first, and its integral *)
Fixpoint poly_at (cs : list Qc) (x : Qc) : Qc := match cs with [] => 0 | c :: r => c + x * poly_at r x end.
Fixpoint poly_prim (cs : list Qc) (k : nat) (x : Qc) : Qc :=
  match cs with [] => 0 | c :: r => c / zq (Z.of_nat (S k)) * x ^ S k + poly_prim r (S k) x end.
Definition poly_integral (cs : list Qc) (a b : Qc) : Qc := poly_prim cs 0 b - poly_prim cs 0 a.
