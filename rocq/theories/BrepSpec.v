(* Specification vocabulary for the boundary representation, iso curves and
   boundary points. *)
From Coq Require Import List ZArith Bool QArith Qcanon Permutation.
From Verif Require Import Common QcLib ArrZ NurbsModel NurbsSpec SurfModel SurfSpec BrepModel.
Import ListNotations.
Local Open Scope Z_scope.
Local Open Scope Qc_scope.

(* ---- geometry ---- *)

Inductive kind : Type := KindP | KindC | KindS.
Definition kind_of (g : geom) : kind := match g with GPoint _ => KindP | GCurve _ => KindC | GSurf _ => KindS end.
Definition bucket (s : store) (k : kind) : list rep :=
  match k with KindP => st_points s | KindC => st_curves s | KindS => st_surfs s end.
(* a run of calls of add: the final store and the results *)
Fixpoint adds (h : hkey -> Z) (s : store) (ops : list (geom * bool)) : store * list rep :=
  match ops with
  | [] => (s, [])
  | (g, c) :: r => let '(s1, x) := add h s g c in let '(s2, xs) := adds h s1 r in (s2, x :: xs)
  end.
(* the entry at position i has index i and the kind of its list *)
Definition positions_right (s : store) : Prop :=
  forall k i r, nth_error (bucket s k) i = Some r -> r_index r = Z.of_nat i /\ kind_of (r_value r) = k.
(* what equality of representations looks at *)
Definition code (h : hkey -> Z) (r : rep) : Z := h (key_of (r_value r)).
(* different contents of these two have different hashes *)
Definition no_clash (h : hkey -> Z) (a b : geom) : Prop := h (key_of a) = h (key_of b) -> key_of a = key_of b.
(* a run of checked calls of add_vertex *)
Fixpoint add_vertices (h : hkey -> Z) (vs : list vertex) (rs : list rep) : list vertex * list vertex :=
  match rs with
  | [] => (vs, [])
  | r :: rest => let '(v1, x) := add_vertex h vs r true in let '(v2, xs) := add_vertices h v1 rest in (v2, x :: xs)
  end.
(* distance in one coordinate *)
Definition gap (x y : Qc) : Qc := if qlt x y then y - x else x - y.
(* points with equal numbers of coordinates, each within d *)
Definition near (d : Qc) (p q : list Qc) : Prop := Forall2 (fun x y => gap x y <= d) p q.
(* 1e-8 *)
Definition grid8 : Qc := 1 / ten8.

(* ---- Sparce ---- *)

(* the value written last between two nodes, in either direction *)
Definition touches (a b : Z) (w : (Z * Z) * Z) : bool :=
  (Z.eqb (fst (fst w)) a && Z.eqb (snd (fst w)) b) || (Z.eqb (fst (fst w)) b && Z.eqb (snd (fst w)) a).
Fixpoint last_write (ops : list ((Z * Z) * Z)) (a b : Z) : option Z :=
  match ops with
  | [] => None
  | w :: r => match last_write r a b with
              | Some v => Some v
              | None => if touches a b w then Some (snd w) else None
              end
  end.
(* a table after a sequence of assignments *)
Definition writes (ops : list ((Z * Z) * Z)) : sparce Z :=
  fold_left (fun s w => sp_set s (fst (fst w)) (snd (fst w)) (snd w)) ops sp_new.

(* ---- boundaries ---- *)

(* all weights are w *)
Definition weight_all (s : surface) (w : Qc) : Prop := Forall (Forall (fun q => pw q = w)) (s_pts s).
Definition tscale (k : Qc) (p : tri) : tri := (k * fst (fst p), k * snd (fst p), k * snd p).
(* the ends of the parameter ranges of a clamped surface *)
Definition u_lo (s : surface) : Qc := knot (s_ku s) (s_du s).
Definition u_hi (s : surface) : Qc := knot (s_ku s) (s_nu s).
Definition v_lo (s : surface) : Qc := knot (s_kv s) (s_dv s).
Definition v_hi (s : surface) : Qc := knot (s_kv s) (s_nv s).
(* a surface whose stored interval is the domain, with degrees at least 1 *)
Definition regular (s : surface) : Prop :=
  valid_surface s /\ (1 <= s_du s)%Z /\ (1 <= s_dv s)%Z /\ s_int s = ((u_lo s, u_hi s), (v_lo s, v_hi s)) /\
  clamped_u s /\ clamped_v s.
(* consecutive edges of a closed chain share a vertex *)
Definition meet (a b : nat * nat) : Prop := fst a = fst b \/ fst a = snd b \/ snd a = fst b \/ snd a = snd b.

(* ---- boundary points ---- *)

Definition dist2 (a b : tri) : Qc :=
  (fst (fst a) - fst (fst b)) * (fst (fst a) - fst (fst b)) + (snd (fst a) - snd (fst b)) * (snd (fst a) - snd (fst b))
  + (snd a - snd b) * (snd a - snd b).
(* l is a subsequence of m *)
Inductive subseq {A} : list A -> list A -> Prop :=
| sub_nil : subseq [] []
| sub_skip x l m : subseq l m -> subseq l (x :: m)
| sub_take x l m : subseq l m -> subseq (x :: l) (x :: m).
(* elements pairwise in a relation, earlier first *)
Definition pairwise {A} (R : A -> A -> Prop) (l : list A) : Prop := ForallOrdPairs R l.
(* an order of walking a set: some order of its elements *)
Definition walks (order : nat -> list nat -> list nat) : Prop := forall k l, Permutation (order k l) l.
(* pairs made greedily: every sequence has one or two points, one only at the end, and the second point of a
   sequence is nearest to the first among the points of the sequence and of all later sequences *)
Fixpoint greedy (ss : list (list ipoint)) : Prop :=
  match ss with
  | [] => True
  | [a] :: r => r = []
  | [a; b] :: r => (forall c, In c (concat r) -> dist2 (ip_point a) (ip_point b) <= dist2 (ip_point a) (ip_point c)) /\ greedy r
  | _ :: _ => False
  end.
(* the ith boundary in the order u = low, u = high, v = low, v = high *)
Definition on_side (iv : (Qc * Qc) * (Qc * Qc)) (i : Z) (t : Qc) (uv : Qc * Qc) : Prop :=
  (i = 0%Z /\ uv = (fst (fst iv), t)) \/ (i = 1%Z /\ uv = (snd (fst iv), t)) \/
  (i = 2%Z /\ uv = (t, fst (snd iv))) \/ (i = 3%Z /\ uv = (t, snd (snd iv))).
(* rows of a terminator with as many parameters as points *)
Definition term_shaped (t : term) : Prop :=
  length (t_uv1 t) = length (t_xyz t) /\ length (t_uv2 t) = length (t_xyz t).
(* removing several points one after the other *)
Fixpoint removes (t : term) (ps : list tri) : res term :=
  match ps with [] => Ok t | p :: r => do t1 <- term_remove t p ; removes t1 r end.
(* rows put side by side *)
Fixpoint zip3 {A B C} (a : list A) (b : list B) (c : list C) : list (A * B * C) :=
  match a, b, c with x :: a', y :: b', z :: c' => (x, y, z) :: zip3 a' b' c' | _, _, _ => [] end.
(* a parameter in the stored range *)
Definition range_u (s : surface) (u : Qc) : Prop := fst (fst (s_int s)) <= u <= snd (fst (s_int s)).
Definition range_v (s : surface) (v : Qc) : Prop := fst (snd (s_int s)) <= v <= snd (snd (s_int s)).
(* an intersection routine all of whose answers are on the curve and on the surface *)
Definition sound (csx : curve -> surface -> list (tri * Qc * (Qc * Qc))) : Prop := forall c s x, In x (csx c s) ->
  fst (c_int c) <= snd (fst x) <= snd (c_int c) /\ evaluate c (snd (fst x)) = Ok (fst (fst x)) /\
  evaluate_surface s (fst (snd x)) (snd (snd x)) = Ok (fst (fst x)).
(* a query that answers with a nearest row *)
Definition exact_query (query : list tri -> tri -> nat) : Prop := forall l p, l <> [] ->
  exists x, nth_error l (query l p) = Some x /\ forall y, In y l -> dist2 x p <= dist2 y p.
(* position and both parameters *)
Definition triple (p : ipoint) : tri * (Qc * Qc) * (Qc * Qc) := (ip_point p, params1 p, params2 p).
