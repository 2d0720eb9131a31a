(* Separation on the sphere and constrained problems: the properties C449-C457. *)
From Coq Require Import List Arith ZArith Bool QArith Qcanon Lia Lra.
From Verif Require Import Common QcLib ListLib SortModel NcsModel MchModel MchProofs2 SphModel SphSpec SphProofs SphProofs2.
Import ListNotations.
Local Open Scope Qc_scope.

(* C449: hulls without repeated vertices are called separable exactly when a line normal or parallel to one of the sides has them on its two sides *)
Theorem C449_separable_hulls (norm : Qc * Qc -> Qc) (h1 h2 : list (Qc * Qc)) :
  (forall v, v <> (0, 0) -> 0 < norm v) -> h1 <> [] -> h2 <> [] -> no_repeats h1 -> no_repeats h2 ->
  exists b, hulls_separable norm h1 h2 = Ok b /\ (b = true <-> exists d, (side_direction h1 d \/ side_direction h2 d) /\ weakly_apart d h1 h2).
Proof. apply hulls_separable_iff. Qed.
Print Assumptions C449_separable_hulls.

(* C449: then some non-zero direction has them apart *)
Theorem C449_sound (norm : Qc * Qc -> Qc) (h1 h2 : list (Qc * Qc)) :
  (forall v, v <> (0, 0) -> 0 < norm v) -> no_repeats h1 -> no_repeats h2 -> hulls_separable norm h1 h2 = Ok true -> exists d, d <> (0, 0) /\ weakly_apart d h1 h2.
Proof.
  intros Hn N1 N2 E. destruct h1 as [|a h1]; [discriminate|]. destruct h2 as [|b h2]; [discriminate|].
  destruct (hulls_separable_iff norm (a :: h1) (b :: h2) Hn ltac:(discriminate) ltac:(discriminate) N1 N2) as (x & E' & I).
  rewrite E in E'. injection E' as <-. destruct (proj1 I eq_refl) as (d & S & W). exists d. split; [|exact W].
  destruct S as [S|S]; [exact (side_nonzero _ _ N1 S)|exact (side_nonzero _ _ N2 S)].
Qed.
Print Assumptions C449_sound.
Definition sum_norm (v : Qc * Qc) : Qc := (if qlt (fst v) 0 then - fst v else fst v) + (if qlt (snd v) 0 then - snd v else snd v).
Definition tri (x : Qc) : list (Qc * Qc) := [(x, 0); (x + 1, 0); (x, 1)].
Example C449_case : hulls_separable sum_norm (tri 0) (tri 1) = Ok true /\ hulls_separable sum_norm (tri 0) (tri (Q2Qc (1 # 3))) = Ok false.
Proof. vm_compute. auto. Qed.

(* C450 "hulls with a common point in their interior are not separable": a repeated vertex makes any two hulls separable, also equal ones *)
Theorem C450_repeated_vertex_refuted (norm : Qc * Qc -> Qc) (h1 h2 : list (Qc * Qc)) a :
  h1 <> [] -> h2 <> [] -> neighbours h1 a a \/ neighbours h2 a a -> hulls_separable norm h1 h2 = Ok true.
Proof. apply repeated_vertex. Qed.
Print Assumptions C450_repeated_vertex_refuted.

(* C450: so a single point is separable from everything *)
Theorem C450_single_point_refuted (norm : Qc * Qc -> Qc) (p : Qc * Qc) (h : list (Qc * Qc)) : h <> [] -> hulls_separable norm [p] h = Ok true /\ hulls_separable norm h [p] = Ok true.
Proof. intros H. split; apply (repeated_vertex norm _ _ p); try discriminate; auto; [left|right]; exists 0%nat; cbn; auto. Qed.
Print Assumptions C450_single_point_refuted.

(* C450: a hull without repeated vertices that has some width along and across each side is not separable from itself *)
Theorem C450_self_partial (norm : Qc * Qc -> Qc) (h : list (Qc * Qc)) :
  (forall v, v <> (0, 0) -> 0 < norm v) -> h <> [] -> no_repeats h -> (forall d, side_direction h d -> exists p q, In p h /\ In q h /\ form2 d p <> form2 d q) ->
  hulls_separable norm h h = Ok false.
Proof.
  intros Hn H N W. destruct (hulls_separable_iff norm h h Hn H H N N) as (b & E & I). rewrite E. destruct b; [|reflexivity]. exfalso.
  destruct (proj1 I eq_refl) as (d & S & A). destruct (W d ltac:(tauto)) as (p & q & Hp & Hq & D). apply D. destruct A as [A|A]; apply Qcle_antisym; auto.
Qed.
Print Assumptions C450_self_partial.
Example C450_case : hulls_separable sum_norm ((0, 0) :: tri 0) ((0, 0) :: tri 0) = Ok true /\ hulls_separable sum_norm (tri 0) (tri 0) = Ok false.
Proof. vm_compute. auto. Qed.

(* C451 "the separating circles test finds a separating circle": the linear program always has zero as a solution, so with a solver that succeeds when
   there is a minimum the test always answers False, and the whole test is the test with the wedges *)
Theorem C451_circles_test_refuted two_pi succeeds axes (points1 points2 : list (Qc * Qc * Qc)) :
  (forall (P : Qc * Qc * Qc * Qc -> bool) f, (exists x, P x = true /\ forall y, P y = true -> f x <= f y) -> succeeds P f = true) ->
  circles_test succeeds points1 points2 = false /\ spherical_separability two_pi succeeds axes points1 points2 = box_test two_pi axes.
Proof.
  intros H. assert (E : circles_test succeeds points1 points2 = false).
  { unfold circles_test. rewrite H; [reflexivity|]. exists ((0, 0, 0), 0). split.
    - apply andb_true_iff. split; [vm_compute; reflexivity|]. unfold circle_constraints. rewrite andb_true_iff, !forallb_forall. split; intros [[a b] c] _; apply qle_true; cbn [dot3 fst snd]; qlra.
    - intros y Hy. apply andb_true_iff in Hy as [Hy _]. unfold circle_bounds in Hy. rewrite !andb_true_iff in Hy. cbn [snd]. apply qle_true. apply Hy. }
  split; [exact E|]. unfold spherical_separability. rewrite E. destruct (box_test two_pi axes) as [[]|]; reflexivity.
Qed.
Print Assumptions C451_circles_test_refuted.
Example C451_case : spherical_separability 1 (fun _ _ => true) [] [(0, 0, 1)] [(0, 0, - (1))] = Ok false.
Proof. reflexivity. Qed.

(* C452: the two angles answered are those around the largest gap between neighbouring angles, where the gap around the back counts as well *)
Theorem C452_largest_gap (two_pi : Qc) (angles : list Qc) : angles <> [] ->
  exists st en, wedge two_pi angles = Ok (st, en) /\ In st angles /\ In en angles /\ exists gap,
  (forall a b, In a angles -> In b angles -> a < b -> (forall c, In c angles -> c <= a \/ b <= c) -> b - a <= gap) /\
  (forall a b, (forall c, In c angles -> a <= c /\ c <= b) -> two_pi - (b - a) <= gap) /\
  ((gap = two_pi - (st - en) /\ forall a, In a angles -> en <= a /\ a <= st) \/ (gap = en - st /\ st <= en /\ forall a, In a angles -> a <= st \/ en <= a)).
Proof. apply wedge_spec. Qed.
Print Assumptions C452_largest_gap.

(* C452 "the wedge from start to end contains the points": if start is below end, no other angle is between them *)
Theorem C452_wedge_contains_refuted (two_pi : Qc) (angles : list Qc) st en a :
  wedge two_pi angles = Ok (st, en) -> st < en -> In a angles -> a <> st -> a <> en -> ~ (st <= a /\ a <= en).
Proof.
  intros E L Ha N1 N2 [A1 A2]. assert (angles <> []) as H by (intros ->; destruct Ha). destruct (wedge_spec two_pi angles H) as (s & e & E' & _ & _ & gap & _ & _ & W).
  rewrite E in E'. injection E' as <- <-. destruct W as [[_ W]|(_ & _ & W)].
  - destruct (W a Ha) as [B1 B2]. apply N1. apply Qcle_antisym; [exact B2|exact A1].
  - destruct (W a Ha) as [B|B]; [apply N1|apply N2]; apply Qcle_antisym; assumption.
Qed.
Print Assumptions C452_wedge_contains_refuted.
Example C452_case : wedge (Q2Qc (6 # 1)) [Q2Qc (2 # 1); - Q2Qc (2 # 1); Q2Qc (3 # 1)] = Ok (- Q2Qc (2 # 1), Q2Qc (2 # 1)) /\ wedge (Q2Qc (6 # 1)) [1; 0; Q2Qc (2 # 1)] = Ok (Q2Qc (2 # 1), 0).
Proof. vm_compute. auto. Qed.

(* C453 "wedges called apart are disjoint": the points at a and b, more than half a turn apart, have their wedge around the back, and a third point in that wedge is called apart from them *)
Theorem C453_wedges_apart_refuted (two_pi a b c : Qc) : two_pi < (b - a) + (b - a) -> 0 < two_pi -> b < c -> c < a + two_pi ->
  exists w1 w2, wedge two_pi [a; b] = Ok w1 /\ wedge two_pi [c] = Ok w2 /\ wedges_apart w1 w2 = true.
Proof.
  intros H P Hbc Hc. assert (Hab : a < b) by qlra.
  exists (a, b), (c, c). split; [|split].
  - unfold wedge. cbn [qsort fold_right insert_sorted]. replace (qle a b) with true by (symmetry; apply qle_true; qlra). cbn [diffs app last hd map argmin argmin_from length].
    replace (qlt (- (two_pi - b + a)) (- (b - a))) with false by (symmetry; apply qlt_false; qlra). reflexivity.
  - reflexivity.
  - unfold wedges_apart. replace (qlt b c) with true by (symmetry; now apply qlt_true). replace (qlt a c) with true by (symmetry; apply qlt_true; qlra). reflexivity.
Qed.
Print Assumptions C453_wedges_apart_refuted.

(* C453: if both largest gaps are around the back, the wedges are apart exactly when all angles of one set are below all of the other *)
Theorem C453_plain_wedges_partial (two_pi : Qc) (a1 a2 : list Qc) s1 e1 s2 e2 :
  a1 <> [] -> a2 <> [] -> wedge two_pi a1 = Ok (s1, e1) -> wedge two_pi a2 = Ok (s2, e2) -> e1 < s1 -> e2 < s2 ->
  wedges_apart (s1, e1) (s2, e2) = true <-> (forall x y, In x a1 -> In y a2 -> x < y) \/ (forall x y, In x a1 -> In y a2 -> y < x).
Proof.
  intros H1 H2 W1 W2 L1 L2.
  destruct (wedge_spec two_pi a1 H1) as (s & e & E' & I1 & I2 & g1 & _ & _ & V1). rewrite W1 in E'. injection E' as <- <-.
  destruct (wedge_spec two_pi a2 H2) as (s & e & E' & I3 & I4 & g2 & _ & _ & V2). rewrite W2 in E'. injection E' as <- <-.
  destruct V1 as [[_ V1]|(_ & V & _)]; [|exfalso; now apply (Qclt_not_le _ _ L1)]. destruct V2 as [[_ V2]|(_ & V & _)]; [|exfalso; now apply (Qclt_not_le _ _ L2)].
  unfold wedges_apart. rewrite orb_true_iff, !andb_true_iff, !qlt_true. split.
  - intros [[A B]|[A B]]; [left|right]; intros x y Hx Hy; destruct (V1 x Hx), (V2 y Hy); qlra.
  - intros [H|H]; [left|right].
    + pose proof (H s1 e2 I1 I4). split; qlra.
    + pose proof (H e1 s2 I2 I3). split; qlra.
Qed.
Print Assumptions C453_plain_wedges_partial.
Example C453_case : box_test (Q2Qc (6 # 1)) [([- Q2Qc (2 # 1); Q2Qc (2 # 1)], [Q2Qc (5 # 2)])] = Ok true.
Proof. vm_compute. reflexivity. Qed.

(* C454: the central projection is the point with height zero on the line through origin and point, if the line is not horizontal *)
Theorem C454_center_projection (origin point : Qc * Qc * Qc) : snd origin <> snd point ->
  on_line origin point (center_projection origin point) /\ forall q, on_line origin point q -> q = center_projection origin point.
Proof.
  intros H. unfold center_projection, cz, cx, cy. replace (qeq (snd origin) (snd point)) with false by (symmetry; now apply qeq_false).
  assert (D : snd point - snd origin <> 0). { intros E. apply H. apply Qcle_antisym; qlra. }
  split.
  - exists (- snd origin / (snd point - snd origin)). cbn [fst snd]. split; [reflexivity|]. split; [reflexivity|]. field. exact D.
  - intros [x y] (t & E1 & E2 & E3). cbn [fst snd] in *. assert (t = - snd origin / (snd point - snd origin)) as <-.
    { apply (mult_cancel t _ (snd point - snd origin) D). transitivity (- snd origin); [|field; exact D]. transitivity (snd origin + t * (snd point - snd origin) - snd origin); [ring|]. rewrite <- E3. ring. }
    now subst.
Qed.
Print Assumptions C454_center_projection.

(* C454: from the north pole, different points of the unit sphere other than the pole have different projections *)
Theorem C454_stereographic_injective (p q : Qc * Qc * Qc) : on_sphere p -> on_sphere q -> snd p <> 1 -> snd q <> 1 ->
  center_projection (0, 0, 1) p = center_projection (0, 0, 1) q -> p = q.
Proof.
  destruct p as [[x y] z], q as [[u v] w]. unfold on_sphere, center_projection, cz, cx, cy. cbn [fst snd]. intros S1 S2 N1 N2.
  replace (qeq 1 z) with false by (symmetry; apply qeq_false; congruence). replace (qeq 1 w) with false by (symmetry; apply qeq_false; congruence).
  assert (D1 : z - 1 <> 0). { intros E. apply N1. apply Qcle_antisym; qlra. } assert (D2 : w - 1 <> 0). { intros E. apply N2. apply Qcle_antisym; qlra. }
  intros E. pose proof (f_equal fst E) as E1. pose proof (f_equal snd E) as E2. cbn [fst snd] in E1, E2. clear E.
  assert (F1 : x * (w - 1) = u * (z - 1)).
  { transitivity (- (0 + - (1) / (z - 1) * (x - 0)) * ((z - 1) * (w - 1))); [field; exact D1|]. rewrite E1. field. exact D2. }
  assert (F2 : y * (w - 1) = v * (z - 1)).
  { transitivity (- (0 + - (1) / (z - 1) * (y - 0)) * ((z - 1) * (w - 1))); [field; exact D1|]. rewrite E2. field. exact D2. }
  assert (G : (1 - z * z) * ((w - 1) * (w - 1)) = (1 - w * w) * ((z - 1) * (z - 1))).
  { replace (1 - z * z) with (x * x + y * y) by (rewrite <- S1; ring). replace (1 - w * w) with (u * u + v * v) by (rewrite <- S2; ring).
    transitivity (x * (w - 1) * (x * (w - 1)) + y * (w - 1) * (y * (w - 1))); [ring|]. rewrite F1, F2. ring. }
  assert (Z : z = w).
  { assert (M : (z - 1) * (w - 1) * (z - w) * Q2Qc (2 # 1) = 0).
    { transitivity ((1 - z * z) * ((w - 1) * (w - 1)) - (1 - w * w) * ((z - 1) * (z - 1))); [|rewrite G; ring].
      replace (Q2Qc (2 # 1)) with (1 + 1) by reflexivity. ring. }
    apply Qcmult_integral in M as [M|M]; [|discriminate]. apply Qcmult_integral in M as [M|M]; [|apply Qcle_antisym; qlra].
    exfalso. apply Qcmult_integral in M as [M|M]; auto. }
  subst w. pose proof (mult_cancel x u (z - 1) D1 F1). pose proof (mult_cancel y v (z - 1) D1 F2). congruence.
Qed.
Print Assumptions C454_stereographic_injective.
Example C454_case : center_projection (0, 0, 1) (Q2Qc (3 # 5), 0, - Q2Qc (4 # 5)) = (Q2Qc (1 # 3), 0) /\ on_sphere (Q2Qc (3 # 5), 0, - Q2Qc (4 # 5)).
Proof. split; [|apply Qc_is_canon; vm_compute; reflexivity]. unfold center_projection. replace (qeq _ _) with false by (vm_compute; reflexivity). f_equal; apply Qc_is_canon; vm_compute; reflexivity. Qed.

(* C455: the projection on a non-zero vector is the multiple of it given by the parameter, and the rest is orthogonal to it *)
Theorem C455_projection (a b : Qc * Qc) : b <> (0, 0) ->
  exists t q, projection_param a b = Some t /\ projection2 a b = Some q /\ q = (t * fst b, t * snd b) /\ form2 (fst a - fst q, snd a - snd q) b = 0.
Proof.
  intros H. pose proof (pos_neq _ (dot2_pos b H)) as D. unfold projection_param, projection2. replace (qeq (dot2 b b) 0) with false by (symmetry; now apply qeq_false).
  eexists _, _. split; [reflexivity|]. split; [reflexivity|]. destruct a as [a1 a2], b as [b1 b2]. unfold dot2, form2 in *. cbn [fst snd] in *.
  split; [f_equal; field; exact D|field; exact D].
Qed.
Print Assumptions C455_projection.
Example C455_case : projection_param (Q2Qc (3 # 1), Q2Qc (4 # 1)) (1, 0) = Some (Q2Qc (3 # 1)).
Proof. vm_compute. reflexivity. Qed.

(* C456: Newton's method for a system answers the end of a sequence of Newton steps from the initial point, at most max_iter of them; with fewer, the last step
   was below the tolerance or the Jacobian there was singular *)
Theorem C456_newton_steps solve norm F JF (k : nat) tol x :
  exists l r, newton22 solve norm F JF k tol x = r /\ hd [] (l ++ [r]) = x /\ (length l <= k)%nat /\
    (forall pre a b post, l ++ [r] = pre ++ a :: b :: post -> exists d, solve (JF a) (nscale (- (1)) (F a)) = Some d /\ b = nadd a d) /\
    ((length l < k)%nat -> (exists pre a, l = pre ++ [a] /\ norm (nsub r a) < tol) \/ solve (JF r) (nscale (- (1)) (F r)) = None).
Proof. destruct (newton22_run solve norm F JF tol k x) as (l & C). exists l, (newton22 solve norm F JF k tol x). split; [reflexivity|exact C]. Qed.
Print Assumptions C456_newton_steps.

(* C456: a linear system is solved exactly, whatever the tolerance *)
Theorem C456_linear_system solve norm F (J : list (list Qc)) (n k : nat) tol x :
  solves solve -> (forall b, solve J b <> None) -> length J = n -> (forall y, length y = n -> length (F y) = n) ->
  (forall y d, length y = n -> length d = n -> F (nadd y d) = vplus (F y) (matvec J d)) -> (0 < k)%nat -> length x = n ->
  F (newton22 solve norm F (fun _ => J) k tol x) = repeat 0 n.
Proof.
  intros Hs Hn HJ HF Ha Hk Hx.
  assert (S : forall y, length y = n -> exists d, solve J (nscale (- (1)) (F y)) = Some d /\ length (nadd y d) = n /\ F (nadd y d) = repeat 0 n).
  { intros y Hy. destruct (solve J (nscale (- (1)) (F y))) as [d|] eqn:E; [|exfalso; exact (Hn _ E)]. exists d. split; [reflexivity|].
    destruct (Hs _ _ _ E) as [L M]. split; [rewrite nadd_length; congruence|]. rewrite Ha by congruence. rewrite M.
    change (vplus (F y) (nscale (- (1)) (F y))) with (nadd (F y) (nscale (- (1)) (F y))). rewrite (nadd_cancel _ (F y)) by reflexivity. now rewrite HF. }
  assert (G : forall k y, length y = n -> F y = repeat 0 n \/ (0 < k)%nat -> F (newton22 solve norm F (fun _ => J) k tol y) = repeat 0 n).
  { clear k Hk. induction k as [|k IH]; intros y Hy Hyp; cbn [newton22]; [destruct Hyp; [assumption|lia]|].
    destruct (S y Hy) as (d & -> & L & Z). destruct (qlt _ _); [exact Z|]. apply IH; auto. }
  apply G; auto.
Qed.
Print Assumptions C456_linear_system.
Definition halve (A : list (list Qc)) (b : list Qc) : option (list Qc) := Some (nscale (Q2Qc (1 # 2)) b).
Definition first_of (x : list Qc) : Qc := match x with a :: _ => if qlt a 0 then - a else a | [] => 0 end.
Example C456_case : newton22 halve first_of (fun x => nadd (nscale (Q2Qc (2 # 1)) x) [Q2Qc (6 # 1)]) (fun _ => [[Q2Qc (2 # 1)]]) 5 1 [0] = [- Q2Qc (3 # 1)].
Proof. vm_compute. reflexivity. Qed.

(* C457: for a quadratic objective with linear constraints every answer of the method satisfies the constraints exactly and the gradient there is a combination
   of the gradients of the constraints; whatever tolerance, multipliers and number of iterations above zero *)
Theorem C457_quadratic_program solve norm grad_f constr hess_l grad_c (n m : nat) (H A : list (list Qc)) tol (max_iter : nat) x lam :
  solves solve -> matrix n n H -> matrix m n A -> (forall y, length y = n -> length (grad_f y) = n) -> (forall y, length y = n -> length (constr y) = m) ->
  (forall y p, length y = n -> length p = n -> grad_f (nadd y p) = vplus (grad_f y) (matvec H p)) ->
  (forall y p, length y = n -> length p = n -> constr (nadd y p) = vplus (constr y) (matvec A p)) ->
  (forall y l, hess_l y l = H) -> (forall y, grad_c y = A) -> (forall b, solve (kkt n H A) b <> None) -> length x = n -> (0 < max_iter)%nat ->
  let r := sqp solve norm grad_f constr hess_l grad_c max_iter tol x lam in
  constr r = repeat 0 m /\ exists nu, length nu = m /\ grad_f r = nscale (- (1)) (vecmat n nu A).
Proof.
  intros Hs HH HA Hg Hc Hq Ha EH EA Hk Hx Hm r.
  destruct (sqp_quadratic solve norm grad_f constr n m H A Hs HH HA Hg Hc Hq Ha tol hess_l grad_c EH EA max_iter x lam Hx) as [R1 R2]; [right; auto|].
  split; [exact R2|exact R1].
Qed.
Print Assumptions C457_quadratic_program.

(* C457: the system solved in each step *)
Theorem C457_system (n m : nat) (H A : list (list Qc)) p nu : matrix n n H -> matrix m n A -> length p = n -> length nu = m ->
  matvec (kkt n H A) (p ++ nu) = vplus (matvec H p) (vecmat n nu A) ++ matvec A p.
Proof.
  intros [H1 H2] [A1 A2] Lp Ln. unfold kkt. rewrite matvec_app, kkt_top, kkt_bottom, transpose_matvec; [reflexivity|rewrite Lp; exact A2|rewrite Lp; exact H2|].
  unfold transpose. rewrite map_length, seq_length. lia.
Qed.
Print Assumptions C457_system.
(* minimise x^2 + y^2 with x + y = 2 *)
Definition ex_solve (K : list (list Qc)) (b : list Qc) : option (list Qc) :=
  match b with
  | [b1; b2; b3] => let nu := (b1 + b2 - b3 - b3) * Q2Qc (1 # 2) in Some [(b1 - nu) * Q2Qc (1 # 2); (b2 - nu) * Q2Qc (1 # 2); nu]
  | _ => None
  end.
Example C457_case : sqp ex_solve first_of (nscale (Q2Qc (2 # 1))) (fun x => [fold_right Qcplus 0 x - Q2Qc (2 # 1)]) (fun _ _ => [[Q2Qc (2 # 1); 0]; [0; Q2Qc (2 # 1)]]) (fun _ => [[1; 1]]) 3 0 [Q2Qc (5 # 1); 0] [0] = [1; 1].
Proof. vm_compute. reflexivity. Qed.
