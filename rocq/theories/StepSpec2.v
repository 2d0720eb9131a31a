(* What a STEP writer must guarantee about references. *)
From Coq Require Import List Arith ZArith Bool QArith Qcanon String Lia.
From Verif Require Import Common QcLib StepModel StepModel2.
Import ListNotations.
Local Open Scope string_scope.
Local Open Scope list_scope.

(* the references inside a value, an entity, the arguments of a command *)
Fixpoint arg_refs (a : arg) : list nat :=
  match a with ARef r => [r] | AList l | AEnt _ l => flat_map arg_refs l | _ => [] end.
Definition ent_refs (e : ent) : list nat :=
  match e with Simple _ l => flat_map arg_refs l | Complex p => flat_map (fun nl => flat_map arg_refs (snd nl)) p end.
Definition point_refs (p : point) : list nat := match p with Ref r => [r] | Coords _ => [] end.
Definition some (o : option nat) : list nat := match o with Some r => [r] | None => [] end.
Definition cmd_refs (c : cmd) : list nat :=
  match c with
  | CEntity _ l => flat_map arg_refs l | CComplex p => ent_refs (Complex p)
  | CEdgeCurve a b g _ _ => point_refs a ++ point_refs b ++ [g] | CVertex p _ => point_refs p
  | COriented e a b _ _ => e :: some a ++ some b | CLoop l _ => flat_map some l | CBound l _ _ => [l]
  | CShell l _ => l | CFace l g _ _ => g :: l | CModel l _ => l | CManifold l c _ => some c ++ l
  | CPlacement o x y _ => [o; x; y] | CShape l c _ => some c ++ l | CRelation a b _ _ => [a; b] | CStyle m _ => [m]
  | _ => []
  end.
Definition present (s : st) (r : nat) : Prop := In r (map fst (insts s)).
(* a writer that was constructed and then used, commands that raise included; plain histories do
   not build edge curves, vertices or loops with the raw add_entity *)
Definition plain (c : cmd) : Prop := match c with CEntity n _ => n <> "EDGE_CURVE" /\ n <> "VERTEX_POINT" /\ n <> "EDGE_LOOP" | _ => True end.
Inductive used (raw : bool) : st -> Prop :=
| used_new tol w0 w1 w2 s : init tol w0 w1 w2 = (s, Ok tt) -> used raw s
| used_more s c : used raw s -> Forall (present s) (cmd_refs c) -> (raw = false -> plain c) -> used raw (fst (exec c s)).

Definition is_a (s : st) (r : nat) (name : string) : Prop := exists l, In (r, Simple name l) (insts s).
(* what the arguments of topological entities must refer to *)
Definition well_typed (s : st) (name : string) (l : list arg) : Prop :=
  (name = "VERTEX_POINT" -> exists n p, l = [AStr n; ARef p] /\ is_a s p "CARTESIAN_POINT") /\
  (name = "EDGE_CURVE" -> exists n a b g f, l = [AStr n; ARef a; ARef b; ARef g; f] /\ is_a s a "VERTEX_POINT" /\ is_a s b "VERTEX_POINT") /\
  (name = "EDGE_LOOP" -> exists n es, l = [AStr n; AList (map ARef es)] /\ Forall (fun e => is_a s e "ORIENTED_EDGE") es).
(* the point entity with these coordinates *)
Definition point_at (s : st) (r : nat) (p : list Qc) : Prop := exists n, In (r, Simple "CARTESIAN_POINT" [AStr n; AList (map ANum p)]) (insts s).
(* the entity of a B-spline curve: degree, points and knots can be read back *)
Definition bspline_of (s : st) (r : nat) (c : curve) : Prop :=
  exists n x1 x2 x3 x4 pts m u, In (r, Simple "B_SPLINE_CURVE_WITH_KNOTS" [AStr n; AInt (c_degree c); AList (map ARef pts); x1; x2; x3; AList (map (fun k => AInt (Z.of_nat k)) m); AList (map ANum u); x4]) (insts s) /\
  Forall2 (fun r p => point_at s r p) pts (c_points c) /\ get_knot_multiplicities (c_knots c) = (u, m).
Definition surface_of (s : st) (r : nat) (f : surface) : Prop :=
  exists n x1 x2 x3 x4 x5 rows mu mv uu uv, In (r, Simple "B_SPLINE_SURFACE_WITH_KNOTS" [AStr n; AInt (s_degree_u f); AInt (s_degree_v f); AList (map (fun l => AList (map ARef l)) rows); x1; x2; x3; x4; AList (map (fun k => AInt (Z.of_nat k)) mu); AList (map (fun k => AInt (Z.of_nat k)) mv); AList (map ANum uu); AList (map ANum uv); x5]) (insts s) /\
  Forall2 (Forall2 (fun r p => point_at s r p)) rows (s_points f) /\ get_knot_multiplicities (s_knots_u f) = (uu, mu) /\ get_knot_multiplicities (s_knots_v f) = (uv, mv).
(* a vertex at these coordinates *)
Definition vertex_at (s : st) (r : nat) (p : list Qc) : Prop := exists n q, In (r, Simple "VERTEX_POINT" [AStr n; ARef q]) (insts s) /\ point_at s q p.
(* an oriented edge along the curve from its start to its end *)
Definition edge_along (s : st) (r a b : nat) (c : curve) : Prop :=
  exists n x y e f, In (r, Simple "ORIENTED_EDGE" [n; x; y; ARef e; f]) (insts s) /\
  exists n' g f', In (e, Simple "EDGE_CURVE" [n'; ARef a; ARef b; ARef g; f']) (insts s) /\
  vertex_at s a (c_start c) /\ vertex_at s b (c_end c) /\ bspline_of s g c.
(* a surface model of one face over the surface, bounded by one loop of these edges *)
Definition model_of (s : st) (m : nat) (f : surface) (edges : list nat) : Prop :=
  exists n1 n2 n3 n4 n5 x1 x2 shell face bound loop g,
  In (m, Simple "SHELL_BASED_SURFACE_MODEL" [n1; AList [ARef shell]]) (insts s) /\
  In (shell, Simple "OPEN_SHELL" [n2; AList [ARef face]]) (insts s) /\
  In (face, Simple "ADVANCED_FACE" [n3; AList [ARef bound]; ARef g; x1]) (insts s) /\
  In (bound, Simple "FACE_BOUND" [n4; ARef loop; x2]) (insts s) /\
  In (loop, Simple "EDGE_LOOP" [n5; AList (map ARef edges)]) (insts s) /\
  surface_of s g f.
