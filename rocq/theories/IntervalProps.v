(* C16-C18, C69-C73: mmcore/numeric/interval/_interval.py *)
From Coq Require Import List ZArith Bool QArith Qcanon Lia.
From Verif Require Import Common QcLib IntervalModel IntervalSpec IntervalProofs.
Import ListNotations.
Local Open Scope Qc_scope.

Definition qz (k : Z) : Qc := Q2Qc (inject_Z k).
Definition I (a b : Z) : iv := mk_iv (qz a) (qz b).
Definition show (X : iv) : Q * Q := (this (low X), this (upp X)).
Ltac in_iv := unfold mem, wf, low, upp, I, qz; cbn; split; vm_compute; discriminate.
Lemma wf_23 : wf (I (-2) 3). Proof. vm_compute. discriminate. Qed.
Lemma wf_14 : wf (I (-1) 4). Proof. vm_compute. discriminate. Qed.
Lemma wf_12 : wf (I 1 2). Proof. vm_compute. discriminate. Qed.

(* ---- C16 ---- *)
Theorem C16_sum : forall X Y, wf X -> wf Y -> tight2 Qcplus X Y (add X (IvOp Y)).
Proof. exact add_tight. Qed.
Print Assumptions C16_sum.
Theorem C16_sum_scalar : forall X c z, mem z (add X (NumOp c)) <-> exists x, mem x X /\ z = x + c.
Proof. exact add_scalar. Qed.
Print Assumptions C16_sum_scalar.
Theorem C16_product : forall X Y, wf X -> wf Y -> tight2 Qcmult X Y (mul X (IvOp Y)).
Proof. exact mul_tight. Qed.
Print Assumptions C16_product.
Theorem C16_intersection : forall X Y x, mem x (meet X (IvOp Y)) <-> mem x X /\ mem x Y.
Proof. exact meet_exact. Qed.
Print Assumptions C16_intersection.
Theorem C16_intersection_scalar : forall X c x, mem x (meet X (NumOp c)) <-> mem x X /\ x = c.
Proof. exact meet_scalar. Qed.
Print Assumptions C16_intersection_scalar.
Theorem C16_hull : forall X Y, wf X -> wf Y ->
  merge X Y = join X (IvOp Y) /\
  subset X (join X (IvOp Y)) /\ subset Y (join X (IvOp Y)) /\
  forall Z, subset X Z -> subset Y Z -> subset (join X (IvOp Y)) Z.
Proof. intros X Y WX WY. split; [exact (merge_join X Y)|exact (join_least X Y WX WY)]. Qed.
Print Assumptions C16_hull.
Theorem C16_hull_scalar : forall X c, wf X -> subset X (join X (NumOp c)) /\ mem c (join X (NumOp c)) /\
  forall Z, subset X Z -> mem c Z -> subset (join X (NumOp c)) Z.
Proof. exact join_scalar. Qed.
Print Assumptions C16_hull_scalar.
Theorem C16_contains : forall X Y, wf Y -> (contains X (IvOp Y) = true <-> subset Y X).
Proof. exact contains_iv. Qed.
Print Assumptions C16_contains.
Theorem C16_contains_scalar : forall X c, contains X (NumOp c) = true <-> mem c X.
Proof. exact contains_num. Qed.
Print Assumptions C16_contains_scalar.

Example C16_case : wf (I (-2) 3) /\ wf (I (-1) 4) /\ mem (qz (-2)) (I (-2) 3) /\
  show (add (I (-2) 3) (IvOp (I (-1) 4))) = (-3 # 1, 7 # 1)%Q /\
  show (mul (I (-2) 3) (IvOp (I (-1) 4))) = (-8 # 1, 12 # 1)%Q /\
  show (meet (I (-2) 3) (IvOp (I (-1) 4))) = (-1 # 1, 3 # 1)%Q /\
  show (join (I (-2) 3) (NumOp (qz 9))) = (-2 # 1, 9 # 1)%Q /\
  contains (I (-2) 4) (IvOp (I (-1) 4)) = true.
Proof. split; [exact wf_23|]. split; [exact wf_14|]. split; [in_iv|]. repeat split. Qed.

(* ---- C17 ---- *)
(* X - Y encloses the differences only when Y is a single number *)
Theorem C17_difference_refuted : forall X Y, wf X -> wf Y ->
  (encloses2 Qcminus X Y (sub X (IvOp Y)) <-> degenerate Y).
Proof. exact sub_exact. Qed.
Print Assumptions C17_difference_refuted.
Theorem C17_difference_scalar_partial : forall X c z, mem z (sub X (NumOp c)) <-> exists x, mem x X /\ z = x - c.
Proof. exact sub_scalar. Qed.
Print Assumptions C17_difference_scalar_partial.
(* a negative factor swaps nothing, so X * c is right only for c >= 0 *)
Theorem C17_scale_refuted : forall X c, wf X ->
  (encloses1 (fun x => x * c) X (mul X (NumOp c)) <-> 0 <= c \/ degenerate X).
Proof. exact mul_scalar_exact. Qed.
Print Assumptions C17_scale_refuted.
Theorem C17_scale_div_refuted : forall X c, wf X -> c <> 0 ->
  exists R, div X (NumOp c) = Ok R /\ (encloses1 (fun x => x / c) X R <-> 0 < c \/ degenerate X).
Proof. exact div_scalar_exact. Qed.
Print Assumptions C17_scale_div_refuted.
Theorem C17_quotient_partial : forall X Y, wf X -> wf Y -> ~ mem 0 Y ->
  exists R, div X (IvOp Y) = Ok R /\ tight2 Qcdiv X Y R.
Proof. exact div_sound. Qed.
Print Assumptions C17_quotient_partial.
(* an even power of an interval that crosses zero loses zero *)
Theorem C17_even_power_refuted : forall X n, low X < 0 -> 0 < upp X -> Nat.even n = true -> (0 < n)%nat ->
  mem 0 X /\ 0 ^ n = 0 /\ ~ mem 0 (pow X n).
Proof. exact pow_even_refuted. Qed.
Print Assumptions C17_even_power_refuted.
Theorem C17_power_partial : forall X n, wf X -> Nat.even n = false \/ ~ (low X < 0 /\ 0 < upp X) \/ n = 0%nat ->
  encloses1 (fun x => x ^ n) X (pow X n).
Proof. exact pow_sound. Qed.
Print Assumptions C17_power_partial.

Example C17_difference_case : wf (I (-2) 3) /\ wf (I (-1) 4) /\ ~ degenerate (I (-1) 4) /\
  show (sub (I (-2) 3) (IvOp (I (-1) 4))) = (-1 # 1, -1 # 1)%Q.
Proof. split; [exact wf_23|]. split; [exact wf_14|]. split; [intro H; vm_compute in H; discriminate|reflexivity]. Qed.
Example C17_scale_case : wf (I 1 2) /\ ~ 0 <= qz (-3) /\ show (mul (I 1 2) (NumOp (qz (-3)))) = (-3 # 1, -6 # 1)%Q.
Proof. split; [exact wf_12|]. split; [intro H; apply H; reflexivity|reflexivity]. Qed.
Example C17_scale_div_case : wf (I 1 2) /\ qz (-3) <> 0 /\
  match div (I 1 2) (NumOp (qz (-3))) with Ok R => show R = (-1 # 3, -2 # 3)%Q | Err _ => False end.
Proof. split; [exact wf_12|]. split; [intro H; discriminate|reflexivity]. Qed.
Example C17_quotient_case : ~ mem 0 (I (-4) (-2)) /\
  match div (I (-2) 3) (IvOp (I (-4) (-2))) with Ok R => show R = (-3 # 2, 1 # 1)%Q | Err _ => False end.
Proof. split; [intros [_ H]; apply H; reflexivity|reflexivity]. Qed.
Example C17_power_case : low (I (-2) 3) < 0 /\ 0 < upp (I (-2) 3) /\
  show (pow (I (-2) 3) 2) = (4 # 1, 9 # 1)%Q /\ show (pow (I (-2) 3) 3) = (-8 # 1, 27 # 1)%Q.
Proof. repeat split. Qed.

(* ---- C18 ---- *)
Theorem C18_compare : forall X Y, wf X -> wf Y ->
  (compare X (IvOp Y) = CTrue <-> forall x y, mem x X -> mem y Y -> x < y) /\
  (compare X (IvOp Y) = CFalse <-> forall x y, mem x X -> mem y Y -> y < x) /\
  (compare X (IvOp Y) = CMaybe <-> exists z, mem z X /\ mem z Y).
Proof. exact compare_exact. Qed.
Print Assumptions C18_compare.
Theorem C18_strict : forall X Y, wf X -> wf Y ->
  (lt X (IvOp Y) = true <-> forall x y, mem x X -> mem y Y -> x < y) /\
  (gt X (IvOp Y) = true <-> forall x y, mem x X -> mem y Y -> y < x).
Proof. intros X Y A B. split; [exact (lt_exact X Y A B)|exact (gt_exact X Y A B)]. Qed.
Print Assumptions C18_strict.
Theorem C18_weak : forall X Y, wf X -> wf Y ->
  (le X (IvOp Y) = true <-> exists x y, mem x X /\ mem y Y /\ x <= y) /\
  (ge X (IvOp Y) = true <-> exists x y, mem x X /\ mem y Y /\ y <= x).
Proof. intros X Y A B. split; [exact (le_exact X Y A B)|exact (ge_exact X Y A B)]. Qed.
Print Assumptions C18_weak.
Example C18_case : wf (I (-2) 3) /\ wf (I 1 2) /\ compare (I (-2) 3) (IvOp (I 1 2)) = CMaybe /\
  lt (I 1 2) (IvOp (I 3 4)) = true /\ gt (I 3 4) (IvOp (I 1 2)) = true /\ lt (I 1 2) (IvOp (I 2 4)) = false /\
  le (I 3 4) (IvOp (I 1 2)) = false /\ ge (I 1 3) (IvOp (I 2 5)) = true.
Proof. split; [exact wf_23|]. split; [exact wf_12|]. repeat split. Qed.

(* ---- C69: comparison with a number ---- *)
Theorem C69_less_partial : forall X c, wf X -> (lt X (NumOp c) = true <-> forall x, mem x X -> x < c).
Proof. exact lt_num. Qed.
Print Assumptions C69_less_partial.
Theorem C69_greater_partial : forall X c, c < low X -> wf X -> gt X (NumOp c) = true /\ forall x, mem x X -> c < x.
Proof. exact gt_num_partial. Qed.
Print Assumptions C69_greater_partial.
(* X > c is reported for every c inside X *)
Theorem C69_greater_refuted : forall X c, low X <= c -> c <= upp X -> gt X (NumOp c) = true /\ mem c X /\ ~ c < c.
Proof. exact gt_num_refuted. Qed.
Print Assumptions C69_greater_refuted.
Example C69_case : low (I 1 5) <= qz 3 /\ qz 3 <= upp (I 1 5) /\ gt (I 1 5) (NumOp (qz 3)) = true /\ lt (I 1 5) (NumOp (qz 6)) = true.
Proof. repeat split; vm_compute; discriminate. Qed.
Example C69_greater_case : qz 0 < low (I 1 5).
Proof. reflexivity. Qed.

(* ---- C70: subdivision and evaluation ---- *)
Theorem C70_subdivide : forall X n, wf X ->
  length (subdivide X n) = (2 ^ n)%nat /\
  (forall P, In P (subdivide X n) -> wf P /\ width P = width X * Q2Qc (1 # 2) ^ n) /\
  (forall x, mem x X <-> exists P, In P (subdivide X n) /\ mem x P).
Proof. exact subdivide_ok. Qed.
Print Assumptions C70_subdivide.
Theorem C70_evaluate : forall X, wf X -> (forall t, 0 <= t -> t <= 1 -> mem (evaluate X t) X) /\ evaluate X 0 = low X /\ evaluate X 1 = upp X /\
  forall x, mem x X -> exists t, 0 <= t /\ t <= 1 /\ evaluate X t = x.
Proof. exact evaluate_ok. Qed.
Print Assumptions C70_evaluate.
Theorem C70_float : forall X, wf X -> mem (to_float X) X /\ to_float X - low X = upp X - to_float X.
Proof. exact to_float_ok. Qed.
Print Assumptions C70_float.
Example C70_case : wf (I (-2) 3) /\ map show (subdivide (I (-2) 3) 2) = [(-2 # 1, -3 # 4); (-3 # 4, 1 # 2); (1 # 2, 7 # 4); (7 # 4, 3 # 1)]%Q /\
  this (evaluate (I (-2) 3) (Q2Qc (1 # 5))) = (-1 # 1)%Q /\ this (to_float (I (-2) 3)) = (1 # 2)%Q.
Proof. split; [exact wf_23|]. repeat split. Qed.

(* ---- C71: reciprocal ---- *)
Theorem C71_invert : forall X R x, wf X -> invert X = Ok (Some R) -> mem x X -> x <> 0 /\ mem (/ x) R.
Proof. exact invert_sound. Qed.
Print Assumptions C71_invert.
Theorem C71_zero : forall X, wf X -> (low X = 0 \/ upp X = 0 <-> invert X = Err ZeroDivision) /\
  (low X < 0 /\ 0 < upp X <-> invert X = Ok None).
Proof. exact invert_zero. Qed.
Print Assumptions C71_zero.
Theorem C71_zero_end : forall X Y, low Y = 0 \/ upp Y = 0 -> div X (IvOp Y) = Err ZeroDivision.
Proof. exact div_zero_end. Qed.
Print Assumptions C71_zero_end.
Example C71_case : wf (I 1 2) /\ match invert (I 1 2) with Ok (Some R) => show R = (1 # 2, 1 # 1)%Q | _ => False end /\
  invert (I (-1) 2) = Ok None /\ invert (I 0 2) = Err ZeroDivision.
Proof. split; [exact wf_12|]. repeat split. Qed.

(* ---- C72: division by an interval with zero inside ---- *)
Theorem C72_division_refuted : forall X Y x, wf X -> mem x X -> x <> 0 -> low Y < 0 -> 0 < upp Y ->
  exists R y, div X (IvOp Y) = Ok R /\ mem y Y /\ y <> 0 /\ ~ mem (x / y) R.
Proof. exact div_cross_refuted. Qed.
Print Assumptions C72_division_refuted.
Example C72_case : wf (I 1 2) /\ mem (qz 1) (I 1 2) /\ qz 1 <> 0 /\ low (I (-1) 4) < 0 /\ 0 < upp (I (-1) 4) /\
  match div (I 1 2) (IvOp (I (-1) 4)) with Ok R => show R = (-2 # 1, 1 # 2)%Q | Err _ => False end.
Proof. split; [exact wf_12|]. split; [in_iv|]. split; [intro H; discriminate|]. repeat split. Qed.

(* ---- C73: largest and smallest argument ---- *)
Theorem C73_max : forall l, l <> [] -> Forall wf l ->
  exists m, max_args l = Ok m /\ In m l /\ forall y, In y l -> exists a b, mem a y /\ mem b m /\ a <= b.
Proof. exact max_args_ok. Qed.
Print Assumptions C73_max.
Theorem C73_min : forall l, l <> [] -> Forall wf l ->
  exists m, min_args l = Ok m /\ In m l /\ forall y, In y l -> exists a b, mem a y /\ mem b m /\ b <= a.
Proof. exact min_args_ok. Qed.
Print Assumptions C73_min.
Example C73_case : [I 1 2; I 0 5; I 6 7; I 4 9] <> [] /\ Forall wf [I 1 2; I 0 5; I 6 7; I 4 9] /\
  match max_args [I 1 2; I 0 5; I 6 7; I 4 9], min_args [I 1 2; I 0 5; I 6 7; I 4 9] with
  | Ok a, Ok b => show a = (6 # 1, 7 # 1)%Q /\ show b = (1 # 1, 2 # 1)%Q | _, _ => False end.
Proof. split; [discriminate|]. split; [repeat constructor; vm_compute; discriminate|split; reflexivity]. Qed.

(* ---- C74: conversion from a tuple ---- *)
Theorem C74_from_tuple_refuted : forall X, exists e, from_tuple (to_tuple X) = Err e.
Proof. intro X. exact (from_tuple_fails (to_tuple X)). Qed.
Print Assumptions C74_from_tuple_refuted.
Theorem C74_never_refuted : forall t, exists e, from_tuple t = Err e.
Proof. exact from_tuple_fails. Qed.
Print Assumptions C74_never_refuted.
Example C74_case : from_tuple (to_tuple (I 1 2)) = Err TypeError.
Proof. reflexivity. Qed.
