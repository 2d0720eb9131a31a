(* Lemmas for PolyProps.v: area, segment intersection, Sutherland-Hodgman clipping. *)
From Coq Require Import List Arith ZArith Bool QArith Qcanon Lia Permutation.
From Verif Require Import Common QcLib ListLib ArrZ AabbModel AabbSpec AabbProofs ImplModel ImplProofs3 RtreeModel RtreeProofs Dyadic PolyModel PolySpec PolyProofs PolyProofs2.
Import ListNotations.
Local Open Scope Qc_scope.

(* ---- area ---- *)
Definition crs (a b : p2) : Qc := px a * py b - py a * px b.
Fixpoint qsum {A} (f : A -> Qc) (l : list A) : Qc := match l with [] => 0 | a :: r => f a + qsum f r end.
Lemma qsum_app {A} (f : A -> Qc) l m : qsum f (l ++ m) = qsum f l + qsum f m.
Proof. induction l as [|a l IH]; cbn [app qsum]; [ring|]. rewrite IH. ring. Qed.
Lemma qsum_perm {A} (f : A -> Qc) l m : Permutation l m -> qsum f l = qsum f m.
Proof. induction 1; cbn [qsum]; [reflexivity|congruence|ring|congruence]. Qed.
Lemma qsum_map {A B} (f : B -> Qc) (g : A -> B) l : qsum f (map g l) = qsum (fun a => f (g a)) l.
Proof. induction l as [|a l IH]; cbn [map qsum]; [reflexivity|]. rewrite IH. reflexivity. Qed.
Lemma qsum_scale {A} (f g : A -> Qc) k l : (forall a, f a = k * g a) -> qsum f l = k * qsum g l.
Proof. intros H. induction l as [|a l IH]; cbn [qsum]; [ring|]. rewrite IH, H. ring. Qed.

Lemma dots_steps l : doty l - dotx l = - qsum (fun e => crs (fst e) (snd e)) (steps l).
Proof.
  induction l as [|a l IH]; [cbn; ring|]. destruct l as [|b l]; [cbn; ring|].
  change (doty (a :: b :: l)) with (py a * px b + doty (b :: l)). change (dotx (a :: b :: l)) with (px a * py b + dotx (b :: l)). change (steps (a :: b :: l)) with ((a, b) :: steps (b :: l)). cbn [qsum fst snd].
  replace (py a * px b + doty (b :: l) - (px a * py b + dotx (b :: l))) with (py a * px b - px a * py b + (doty (b :: l) - dotx (b :: l))) by ring. rewrite IH. unfold crs. ring.
Qed.
Lemma fan_crs o a l : crs o a + qsum (fun e => crs (fst e) (snd e)) (steps (a :: l ++ [o])) = total (fan o (a :: l)).
Proof.
  revert a. induction l as [|b l IH]; intros a.
  - cbn [app steps fan total qsum fst snd]. unfold crs. ring.
  - cbn [app]. change (steps (a :: b :: l ++ [o])) with ((a, b) :: steps (b :: l ++ [o])). change (fan o (a :: b :: l)) with ((o, a, b) :: fan o (b :: l)). cbn [qsum total fst snd]. rewrite <- IH. unfold crs, orient, px, py. ring.
Qed.
Lemma edges_area poly : qsum (fun e => crs (fst e) (snd e)) (edges_of poly) = signed_area2 poly.
Proof.
  unfold signed_area2. destruct poly as [|o [|a l]]; [reflexivity|cbn; unfold crs; ring|]. rewrite edges_steps. cbn [app]. change (steps (o :: a :: l ++ [o])) with ((o, a) :: steps (a :: l ++ [o])). cbn [triangles qsum fst snd]. apply fan_crs.
Qed.
Lemma fabs_opp x : fabs (- x) = fabs x.
Proof. unfold fabs. destruct (qlt x 0) eqn:A, (qlt (- x) 0) eqn:B; bsplit; qlra. Qed.
Lemma fabs_mul x y : fabs (x * y) = fabs x * fabs y.
Proof.
  unfold fabs. destruct (qlt x 0) eqn:A, (qlt y 0) eqn:B, (qlt (x * y) 0) eqn:C; bsplit; try ring.
  - exfalso. assert (0 < (- x) * (- y)) by (apply qc_mul_pos; qlra). qlra.
  - assert (E : x * y = 0) by (assert (0 <= (- x) * y) by (apply qc_mul_nonneg; qlra); qlra). replace (- x * y) with (- (x * y)) by ring. rewrite E. ring.
  - assert (E : x * y = 0) by (assert (0 <= x * (- y)) by (apply qc_mul_nonneg; qlra); qlra). replace (x * - y) with (- (x * y)) by ring. rewrite E. ring.
  - exfalso. assert (0 <= x * y) by (apply qc_mul_nonneg; assumption). qlra.
Qed.
Lemma area_is poly : poly <> [] -> area poly = Ok (fabs (signed_area2 poly) / two).
Proof.
  destruct poly as [|o r]; [congruence|]. intros _. unfold area, to_polygon_area. cbn [bind]. f_equal. unfold polygon_area. f_equal.
  rewrite dots_steps, fabs_opp, <- edges_area, edges_steps. reflexivity.
Qed.
Lemma signed_rotate l m : signed_area2 (l ++ m) = signed_area2 (m ++ l).
Proof. rewrite <- !edges_area. apply qsum_perm, edges_rotate. Qed.
Lemma signed_reverse l : signed_area2 (rev l) = - signed_area2 l.
Proof.
  destruct l as [|a l]; [cbn; unfold signed_area2; cbn; ring|]. cbn [rev]. rewrite signed_rotate. cbn [app]. rewrite <- !edges_area, !edges_steps.
  replace (a :: rev l ++ [a]) with (rev (a :: l ++ [a])) by (cbn [rev]; rewrite rev_app_distr; reflexivity). rewrite steps_rev.
  rewrite (qsum_perm _ _ _ (Permutation_sym (Permutation_rev _))), qsum_map. cbn [fst snd]. rewrite (qsum_scale _ (fun e => crs (fst e) (snd e)) (- (1))); [ring|]. intros e. unfold crs. ring.
Qed.
Lemma fan_map (f : p2 -> p2) o l : fan (f o) (map f l) = map (fun t => (f (fst (fst t)), f (snd (fst t)), f (snd t))) (fan o l).
Proof. induction l as [|a l IH]; [reflexivity|]. destruct l as [|b l]; [reflexivity|]. cbn [map] in *. change (fan (f o) (f a :: f b :: map f l)) with ((f o, f a, f b) :: fan (f o) (f b :: map f l)). rewrite IH. reflexivity. Qed.
Lemma total_map (f : p2 -> p2) k l : (forall o a b, orient (f o) (f a) (f b) = k * orient o a b) -> total (map (fun t => (f (fst (fst t)), f (snd (fst t)), f (snd t))) l) = k * total l.
Proof. intros H. induction l as [|[[o a] b] l IH]; cbn [map total fst snd]; [ring|]. rewrite IH, H. ring. Qed.
Lemma signed_map f k poly : (forall o a b, orient (f o) (f a) (f b) = k * orient o a b) -> signed_area2 (map f poly) = k * signed_area2 poly.
Proof. intros H. unfold signed_area2. destruct poly as [|o l]; [cbn; ring|]. cbn [map triangles]. rewrite fan_map. apply total_map, H. Qed.

Lemma area_rotate l m : area (l ++ m) = area (m ++ l).
Proof.
  destruct (l ++ m) as [|p r] eqn:E; [apply app_eq_nil in E; destruct E; subst; reflexivity|]. rewrite (area_is (p :: r)) by congruence. rewrite area_is by (intro K; apply app_eq_nil in K; destruct K; subst; discriminate).
  rewrite <- E, signed_rotate. reflexivity.
Qed.
Lemma area_reverse l : area (rev l) = area l.
Proof.
  destruct l as [|a l]; [reflexivity|]. rewrite !area_is; [rewrite signed_reverse, fabs_opp; reflexivity|congruence|]. cbn [rev]. intro K. apply app_eq_nil in K. destruct K; discriminate.
Qed.
Lemma area_move d l : area (map (moved d) l) = area l.
Proof.
  destruct l as [|a l]; [reflexivity|]. rewrite !area_is by (cbn; congruence). rewrite (signed_map (moved d) 1); [f_equal; f_equal; f_equal; ring|]. intros o x y. unfold orient, moved. cbn [fst snd]. ring.
Qed.
Lemma area_map m l : l <> [] -> exists v, area l = Ok v /\ area (map (mapped m) l) = Ok (fabs (det m) * v).
Proof.
  intros H. rewrite !area_is; [|intro K; apply map_eq_nil in K; contradiction|assumption]. eexists. split; [reflexivity|]. rewrite (signed_map (mapped m) (det m)), fabs_mul; [f_equal; unfold Qcdiv; ring|]. intros o x y. unfold orient, mapped, det. cbn [fst snd]. ring.
Qed.

(* ---- crossing of two segments ---- *)
Lemma opp_den x y : opposite x y -> x - y <> 0.
Proof. intros [[H K]|[H K]] E; qlra. Qed.
Lemma frac_range x y : x - y <> 0 -> (0 < x / (x - y) /\ x / (x - y) < 1 <-> opposite x y).
Proof.
  intros N. assert (E : x / (x - y) * (x - y) = x) by (unfold Qcdiv; rewrite <- Qcmult_assoc, (Qcmult_comm (/ _)), Qcmult_inv_r, Qcmult_1_r by assumption; reflexivity). set (t := x / (x - y)) in *. clearbody t. unfold opposite. split.
  - intros [A B]. destruct (sgn3 (x - y)) as [S|[S|S]]; [left|contradiction|right].
    + assert (0 < t * (y - x)) by (apply qc_mul_pos; qlra). assert (0 < (1 - t) * (y - x)) by (apply qc_mul_pos; qlra). split; qlra.
    + assert (0 < t * (x - y)) by (apply qc_mul_pos; qlra). assert (0 < (1 - t) * (x - y)) by (apply qc_mul_pos; qlra). split; qlra.
  - intros [[A B]|[A B]].
    + split; [destruct (Qclt_le_dec 0 t) as [D|D]; [exact D|]; exfalso; assert (0 <= (- t) * (y - x)) by (apply qc_mul_nonneg; qlra); qlra|]. destruct (Qclt_le_dec t 1) as [D|D]; [exact D|]. exfalso. assert (0 <= (t - 1) * (y - x)) by (apply qc_mul_nonneg; qlra). qlra.
    + split; [destruct (Qclt_le_dec 0 t) as [D|D]; [exact D|]; exfalso; assert (0 <= (- t) * (x - y)) by (apply qc_mul_nonneg; qlra); qlra|]. destruct (Qclt_le_dec t 1) as [D|D]; [exact D|]. exfalso. assert (0 <= (t - 1) * (x - y)) by (apply qc_mul_nonneg; qlra). qlra.
Qed.
Lemma intersect_eq s1 s2 c1 c2 :
  let A := orient c1 c2 s1 in let B := orient c1 c2 s2 in let C := orient s1 s2 c1 in let D := orient s1 s2 c2 in
  intersect s1 s2 c1 c2 =
    if qeq (A - B) 0 then None else
    let us := A / (A - B) in let uc := C / (C - D) in
    if (qeq us 0 || qeq us 1) && (qle 0 uc && qle uc 1) || (qeq uc 0 || qeq uc 1) && (qle 0 us && qle us 1) then None
    else if (qlt 0 us && qlt us 1) && (qlt 0 uc && qlt uc 1) then Some (lerp us s1 s2, us, uc) else None.
Proof.
  cbv zeta. unfold intersect. set (den := (py c2 - py c1) * (px s2 - px s1) - (px c2 - px c1) * (py s2 - py s1)).
  assert (E : orient c1 c2 s1 - orient c1 c2 s2 = den) by (unfold den, orient, px, py; ring). assert (F : orient s1 s2 c1 - orient s1 s2 c2 = - den) by (unfold den, orient, px, py; ring). rewrite E, F.
  destruct (qeq den 0) eqn:Z; [reflexivity|]. apply qeq_false in Z.
  assert (U : ((px c2 - px c1) * (py s1 - py c1) - (py c2 - py c1) * (px s1 - px c1)) / den = orient c1 c2 s1 / den) by (unfold orient, px, py; reflexivity).
  assert (V : ((px s2 - px s1) * (py s1 - py c1) - (py s2 - py s1) * (px s1 - px c1)) / den = orient s1 s2 c1 / (- den)).
  { clearbody den. unfold orient, px, py. field. split; [intro K; apply Z; qlra|exact Z]. }
  rewrite U, V. reflexivity.
Qed.
Lemma intersect_some s1 s2 c1 c2 p us uc : intersect s1 s2 c1 c2 = Some (p, us, uc) ->
  cross_properly s1 s2 c1 c2 /\ (0 < us /\ us < 1) /\ (0 < uc /\ uc < 1) /\ p = lerp us s1 s2 /\ p = lerp uc c1 c2.
Proof.
  rewrite intersect_eq. cbv zeta. set (A := orient c1 c2 s1) in *. set (B := orient c1 c2 s2) in *. set (C := orient s1 s2 c1) in *. set (D := orient s1 s2 c2) in *.
  assert (R : A - B = - (C - D)) by (unfold A, B, C, D, orient; ring).
  destruct (qeq (A - B) 0) eqn:Z; [discriminate|]. apply qeq_false in Z. assert (Z' : C - D <> 0) by (intro K; apply Z; rewrite R, K; ring).
  destruct (_ || _); [discriminate|]. destruct (qlt 0 (A / (A - B))) eqn:P1; [|discriminate]. destruct (qlt (A / (A - B)) 1) eqn:P2; [|discriminate]. destruct (qlt 0 (C / (C - D))) eqn:P3; [|discriminate]. destruct (qlt (C / (C - D)) 1) eqn:P4; [|discriminate]. cbn [andb]. bsplit.
  intros H. injection H as <- <- <-.
  split. { split; [apply (frac_range A B Z)|apply (frac_range C D Z')]; split; assumption. }
  split; [split; assumption|]. split; [split; assumption|]. split; [reflexivity|].
  clear P1 P2 P3 P4.
  assert (X1 : A / (A - B) * (A - B) = A) by (unfold Qcdiv; rewrite <- Qcmult_assoc, (Qcmult_comm (/ _)), Qcmult_inv_r, Qcmult_1_r by assumption; reflexivity).
  assert (X2 : C / (C - D) * (C - D) = C) by (unfold Qcdiv; rewrite <- Qcmult_assoc, (Qcmult_comm (/ _)), Qcmult_inv_r, Qcmult_1_r by assumption; reflexivity).
  set (t := A / (A - B)) in *. set (u := C / (C - D)) in *. clearbody t u.
  assert (W : forall w w', w * (A - B) = w' * (A - B) -> w = w').
  { intros w w' H. assert (K : (w - w') * (A - B) = 0) by qlra. apply Qcmult_integral in K. destruct K as [K|K]; [qlra|contradiction]. }
  unfold lerp. f_equal; apply W.
  - replace ((fst s1 + t * (fst s2 - fst s1)) * (A - B)) with (fst s1 * (A - B) + (t * (A - B)) * (fst s2 - fst s1)) by ring. rewrite X1.
    replace ((fst c1 + u * (fst c2 - fst c1)) * (A - B)) with (fst c1 * (A - B) - (u * (C - D)) * (fst c2 - fst c1)) by (rewrite R; ring). rewrite X2. unfold A, B, C, orient. ring.
  - replace ((snd s1 + t * (snd s2 - snd s1)) * (A - B)) with (snd s1 * (A - B) + (t * (A - B)) * (snd s2 - snd s1)) by ring. rewrite X1.
    replace ((snd c1 + u * (snd c2 - snd c1)) * (A - B)) with (snd c1 * (A - B) - (u * (C - D)) * (snd c2 - snd c1)) by (rewrite R; ring). rewrite X2. unfold A, B, C, orient. ring.
Qed.
Lemma intersect_proper s1 s2 c1 c2 : cross_properly s1 s2 c1 c2 -> exists r, intersect s1 s2 c1 c2 = Some r.
Proof.
  intros [H K]. rewrite intersect_eq. cbv zeta. pose proof (opp_den _ _ H) as Z. pose proof (opp_den _ _ K) as Z'. apply (frac_range _ _ Z) in H. apply (frac_range _ _ Z') in K. destruct H as [H1 H2], K as [K1 K2].
  rewrite (proj2 (qeq_false _ _) Z). set (t := orient c1 c2 s1 / _) in *. set (u := orient s1 s2 c1 / _) in *. clearbody t u.
  assert (qeq t 0 = false) as -> by (apply qeq_false; intro; qlra). assert (qeq t 1 = false) as -> by (apply qeq_false; intro; qlra). assert (qeq u 0 = false) as -> by (apply qeq_false; intro; qlra). assert (qeq u 1 = false) as -> by (apply qeq_false; intro; qlra). cbn [orb andb].
  rewrite (proj2 (qlt_true _ _) H1), (proj2 (qlt_true _ _) H2), (proj2 (qlt_true _ _) K1), (proj2 (qlt_true _ _) K2). cbn [andb]. eauto.
Qed.
Lemma intersect_none s1 s2 c1 c2 : ~ cross_properly s1 s2 c1 c2 -> intersect s1 s2 c1 c2 = None.
Proof. intros H. destruct (intersect s1 s2 c1 c2) as [[[p us] uc]|] eqn:E; [|reflexivity]. exfalso. apply H. apply (intersect_some _ _ _ _ _ _ _ E). Qed.
