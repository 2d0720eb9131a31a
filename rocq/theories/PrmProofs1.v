(* Spheres and the gradient of the base class. *)
From Coq Require Import List ZArith Lia Bool QArith Qcanon.
From Verif Require Import Common ListLib QcLib ArrZ SumLib NurbsModel DerModel PlnModel PlnSpec PlnProofs2 PlnProofs4 PrmModel PrmSpec.
Import ListNotations.
Local Open Scope Z_scope.
Local Open Scope Qc_scope.

Lemma sq_le a b : 0 <= b -> a * a <= b * b -> - b <= a <= b.
Proof. intros H L. split; qnra. Qed.
Lemma sq_eq a b : 0 <= a -> 0 <= b -> a * a = b * b -> a = b.
Proof. intros. apply (is_sqrt_unique _ _ (b * b)); split; auto. Qed.
Lemma sq_lt a b : 0 <= a -> 0 <= b -> (a < b <-> a * a < b * b).
Proof. intros. split; intro; qnra. Qed.
Lemma sq_le2 a b : 0 <= a -> 0 <= b -> (a <= b <-> a * a <= b * b).
Proof. intros. split; intro; qnra. Qed.
Lemma sq_eq2 a b : 0 <= a -> 0 <= b -> (a = b <-> a * a = b * b).
Proof. intros. split; [intros ->; auto|apply sq_eq; auto]. Qed.
Lemma dist_nonneg a b : 0 <= dist2 a b.
Proof. apply dot_self_nonneg. Qed.

Lemma div3_ok v n : n <> 0 -> div3 v n = Ok (mkv (vx v / n) (vy v / n) (vz v / n)).
Proof. intro H. unfold div3. rewrite !divR_ok_ by auto. reflexivity. Qed.
Lemma div3_zero v : div3 v 0 = Err ZeroDivision.
Proof. reflexivity. Qed.
Lemma two_nz : two <> 0.
Proof. intro H. apply (f_equal (fun x => qeq x 0)) in H. vm_compute in H. discriminate. Qed.
Lemma h3_nz : h3 <> 0.
Proof. intro H. apply (f_equal (fun x => qeq x 0)) in H. vm_compute in H. discriminate. Qed.
Lemma h3_pos : 0 < h3.
Proof. reflexivity. Qed.
Lemma two_eq : two = 1 + 1.
Proof. apply Qc_is_canon. reflexivity. Qed.

Section P.
Variable sqrt : Qc -> Qc.

Lemma norm3d_eq v : norm3d sqrt v = sqrt (dot3 v v).
Proof. reflexivity. Qed.

(* the distance a vector makes unit *)
Lemma unit_ok v : v <> zero3 -> is_sqrt (sqrt (dot3 v v)) (dot3 v v) ->
  exists g, div3 v (norm3d sqrt v) = Ok g /\ dot3 g g = 1 /\ norm3d sqrt v <> 0 /\
    vx v = norm3d sqrt v * vx g /\ vy v = norm3d sqrt v * vy g /\ vz v = norm3d sqrt v * vz g.
Proof.
  intros N [P Q]. rewrite norm3d_eq. set (s := sqrt (dot3 v v)) in *.
  assert (S0 : s <> 0). { intro K. apply N, dot_self_zero. rewrite <- Q, K. ring. }
  rewrite div3_ok by auto. eexists. split; [reflexivity|]. cbn [vx vy vz].
  assert (SS : s * s <> 0) by (intro K; apply S0, sq_zero; auto).
  repeat split; auto; try (field; auto).
  unfold dot3; cbn [vx vy vz]. transitivity (dot3 v v / (s * s)).
  - unfold dot3. field. auto.
  - rewrite Q. field. rewrite <- Q. auto.
Qed.
Lemma unit_zero_ : is_sqrt (sqrt 0) 0 -> div3 zero3 (norm3d sqrt zero3) = Err ZeroDivision.
Proof.
  intro H. rewrite norm3d_eq. replace (dot3 zero3 zero3) with 0 by (unfold dot3, zero3; cbn [vx vy vz]; ring).
  rewrite (sqrt_zero _ H). apply div3_zero.
Qed.

(* ---- spheres ---- *)
Lemma sphere_implicit_eq s p : sphere_implicit sqrt s p = sqrt (dist2 p (s_o s)) - s_r s.
Proof. reflexivity. Qed.

Lemma sphere_distance s p : 0 <= s_r s -> exact_sqrt sqrt (dist2 p (s_o s)) ->
  is_sqrt (sphere_implicit sqrt s p + s_r s) (dist2 p (s_o s)) /\
  (sphere_implicit sqrt s p = 0 <-> dist2 p (s_o s) = s_r s * s_r s) /\
  (sphere_implicit sqrt s p < 0 <-> dist2 p (s_o s) < s_r s * s_r s) /\
  (0 < sphere_implicit sqrt s p <-> s_r s * s_r s < dist2 p (s_o s)).
Proof.
  intros R [P Q]. rewrite sphere_implicit_eq. set (n := sqrt (dist2 p (s_o s))) in *. set (r := s_r s) in *.
  rewrite <- Q. split; [split; [qlra|ring]|].
  split; [|split].
  - rewrite <- (sq_eq2 n r) by auto. split; intro; qlra.
  - rewrite <- (sq_lt n r) by auto. split; intro; qlra.
  - rewrite <- (sq_lt r n) by auto. split; intro; qlra.
Qed.

Lemma run_sphere_eq l : forall o r, run_sphere (sphere_init o r) l = sphere_init (last_o o l) (last_r r l).
Proof.
  unfold run_sphere, last_o, last_r. induction l as [|op l IH]; intros o r; [reflexivity|].
  cbn [fold_left]. destruct op as [r'|o']; [apply (IH o r')|apply (IH o' r)].
Qed.

Lemma ball_tight o r : 0 <= r -> tight (sphere_bounds o r) (ball o r).
Proof.
  intro R. unfold sphere_bounds. split.
  - intros p B. unfold ball, dist2 in B. v3d.
    pose proof (sq_nonneg (vx p - vx o)). pose proof (sq_nonneg (vy p - vy o)). pose proof (sq_nonneg (vz p - vz o)).
    assert (X : (vx p - vx o) * (vx p - vx o) <= r * r) by qlra.
    assert (Y : (vy p - vy o) * (vy p - vy o) <= r * r) by qlra.
    assert (Z : (vz p - vz o) * (vz p - vz o) <= r * r) by qlra.
    apply sq_le in X; auto. apply sq_le in Y; auto. apply sq_le in Z; auto. clear B H H0 H1.
    destruct X, Y, Z.
    unfold in_box. cbn [fst snd vx vy vz]. repeat split; qlra.
  - unfold ball, dist2. cbn [fst snd vx vy vz].
    assert (E : forall x y z, x * x + y * y + z * z = r * r -> 
      dot3 (minus3 (mkv (vx o + x) (vy o + y) (vz o + z)) o) (minus3 (mkv (vx o + x) (vy o + y) (vz o + z)) o) <= r * r).
    { intros x y z H. v3d. rewrite <- H. 
      match goal with |- ?a <= ?b => replace a with b by ring end. apply Qcle_refl. }
    repeat split.
    + exists (mkv (vx o + - r) (vy o + 0) (vz o + 0)). split; [apply E; ring|cbn [vx]; ring].
    + exists (mkv (vx o + r) (vy o + 0) (vz o + 0)). split; [apply E; ring|cbn [vx]; ring].
    + exists (mkv (vx o + 0) (vy o + - r) (vz o + 0)). split; [apply E; ring|cbn [vy]; ring].
    + exists (mkv (vx o + 0) (vy o + r) (vz o + 0)). split; [apply E; ring|cbn [vy]; ring].
    + exists (mkv (vx o + 0) (vy o + 0) (vz o + - r)). split; [apply E; ring|cbn [vz]; ring].
    + exists (mkv (vx o + 0) (vy o + 0) (vz o + r)). split; [apply E; ring|cbn [vz]; ring].
Qed.

Lemma sphere_history o r l : let s := run_sphere (sphere_init o r) l in
  s_o s = last_o o l /\ s_r s = last_r r l /\ (0 <= last_r r l -> tight (s_b s) (ball (last_o o l) (last_r r l))).
Proof.
  cbv zeta. rewrite run_sphere_eq. cbn [sphere_init s_o s_r s_b]. split; [auto|]. split; [auto|]. apply ball_tight.
Qed.

Lemma sphere_gradient_spec s p : exact_sqrt sqrt (dist2 p (s_o s)) -> p <> s_o s ->
  exists g, sphere_gradient sqrt s p = Ok g /\ dot3 g g = 1 /\
    dist2 (along p (- sphere_implicit sqrt s p) g) (s_o s) = s_r s * s_r s /\
    (exists k, 0 < k /\ minus3 p (s_o s) = along zero3 k g).
Proof.
  intros H N. unfold sphere_gradient.
  change (mkv (vx p - vx (s_o s)) (vy p - vy (s_o s)) (vz p - vz (s_o s))) with (minus3 p (s_o s)).
  assert (N' : minus3 p (s_o s) <> zero3).
  { intro K. apply N. apply v3_inv in K. v3d. destruct K as (A & B & C). apply v3_ext; qlra. }
  destruct (unit_ok (minus3 p (s_o s)) N' H) as (g & G & U & S0 & X & Y & Z).
  exists g. split; [exact G|]. split; [exact U|].
  rewrite sphere_implicit_eq. rewrite norm3d_eq in *. unfold exact_sqrt, dist2 in *. set (n := sqrt _) in *. clearbody n.
  split.
  - transitivity (s_r s * s_r s * dot3 g g); [|rewrite U; ring].
    cbn [minus3 vx vy vz] in X, Y, Z. unfold dot3, minus3, along; cbn [vx vy vz].
    replace (vx p) with (vx (s_o s) + n * vx g) by (rewrite <- X; ring).
    replace (vy p) with (vy (s_o s) + n * vy g) by (rewrite <- Y; ring).
    replace (vz p) with (vz (s_o s) + n * vz g) by (rewrite <- Z; ring). ring.
  - exists n. destruct H as [Hp Hq]. split; [destruct (Qclt_le_dec 0 n); auto; exfalso; apply S0; qlra|].
    apply v3_ext; unfold along, zero3; cbn [vx vy vz]; [rewrite X|rewrite Y|rewrite Z]; ring.
Qed.
Lemma sphere_gradient_centre s : is_sqrt (sqrt 0) 0 -> sphere_gradient sqrt s (s_o s) = Err ZeroDivision.
Proof.
  intro H. unfold sphere_gradient.
  change (mkv (vx (s_o s) - vx (s_o s)) (vy (s_o s) - vy (s_o s)) (vz (s_o s) - vz (s_o s))) with (minus3 (s_o s) (s_o s)).
  replace (minus3 (s_o s) (s_o s)) with zero3 by (apply v3_ext; unfold minus3, zero3; cbn [vx vy vz]; ring).
  apply unit_zero_; auto.
Qed.

(* ---- distances do not change faster than the point moves ---- *)
Lemma triangle (a b : v3) na nb : is_sqrt na (dot3 a a) -> is_sqrt nb (dot3 b b) ->
  (na - nb) * (na - nb) <= dot3 (minus3 a b) (minus3 a b).
Proof.
  intros [P Q] [P' Q']. pose proof (cauchy a b) as C. rewrite <- Q, <- Q' in C.
  assert (E : dot3 (minus3 a b) (minus3 a b) = na * na + nb * nb - (1 + 1) * dot3 a b).
  { rewrite Q, Q'. v3d. ring. }
  rewrite E. assert (L : dot3 a b <= na * nb).
  { destruct (Qclt_le_dec (na * nb) (dot3 a b)) as [L|L]; auto. exfalso.
    assert (0 <= na * nb) by (apply qc_mul_nonneg; auto).
    assert (M : (na * nb) * (na * nb) < dot3 a b * dot3 a b) by (apply (proj1 (sq_lt (na * nb) (dot3 a b) H ltac:(clear C E; qlra))); auto).
    assert (F : na * nb * (na * nb) = na * na * (nb * nb)) by ring. rewrite F in M. qlra. }
  replace ((na - nb) * (na - nb)) with (na * na + nb * nb - (1 + 1) * (na * nb)) by ring. qlra.
Qed.
Lemma sphere_lipschitz s p q : exact_sqrt sqrt (dist2 p (s_o s)) -> exact_sqrt sqrt (dist2 q (s_o s)) ->
  (sphere_implicit sqrt s p - sphere_implicit sqrt s q) * (sphere_implicit sqrt s p - sphere_implicit sqrt s q) <= dist2 p q.
Proof.
  intros Hp Hq. rewrite !sphere_implicit_eq. unfold exact_sqrt, dist2 in Hp, Hq.
  pose proof (triangle _ _ _ _ Hp Hq) as T. unfold dist2 in *.
  match goal with |- ?x <= _ => replace x with
   ((sqrt (dot3 (minus3 p (s_o s)) (minus3 p (s_o s))) - sqrt (dot3 (minus3 q (s_o s)) (minus3 q (s_o s)))) *
    (sqrt (dot3 (minus3 p (s_o s)) (minus3 p (s_o s))) - sqrt (dot3 (minus3 q (s_o s)) (minus3 q (s_o s))))) by ring end.
  replace (minus3 p q) with (minus3 (minus3 p (s_o s)) (minus3 q (s_o s))); [exact T|].
  apply v3_ext; unfold minus3; cbn [vx vy vz]; ring.
Qed.

(* ---- the base class ---- *)
Lemma base_gradient_of f p gx gy gz : 
  central f p (mkv h3 0 0) = Ok gx -> central f p (mkv 0 h3 0) = Ok gy -> central f p (mkv 0 0 h3) = Ok gz ->
  exact_sqrt sqrt (dot3 (mkv gx gy gz) (mkv gx gy gz)) ->
  exists g, base_gradient sqrt f p = Ok g /\
    (mkv gx gy gz = zero3 -> g = zero3) /\
    (mkv gx gy gz <> zero3 -> dot3 g g = 1 /\ exists k, 0 < k /\ mkv gx gy gz = along zero3 k g).
Proof.
  intros X Y Z H. unfold base_gradient. rewrite X, Y, Z. cbn [bind]. set (v := mkv gx gy gz) in *. rewrite norm3d_eq.
  destruct (qlt 0 (sqrt (dot3 v v))) eqn:L.
  - apply qlt_true in L. assert (N : v <> zero3).
    { intro K. destruct H as [P Q]. rewrite K in Q, L. replace (dot3 zero3 zero3) with 0 in * by (unfold dot3, zero3; cbn [vx vy vz]; ring).
      apply sq_zero in Q. rewrite Q in L. qlra. }
    destruct (unit_ok v N H) as (g & G & U & S0 & A & B & C). rewrite norm3d_eq in *. exists g. split; [exact G|].
    split; [contradiction|]. intros _. split; [exact U|]. exists (sqrt (dot3 v v)). split; [exact L|].
    apply v3_ext; unfold along, zero3; cbn [vx vy vz]; [rewrite A|rewrite B|rewrite C]; ring.
  - apply qlt_false in L. destruct H as [P Q]. assert (Z0 : v = zero3).
    { apply dot_self_zero. rewrite <- Q. replace (sqrt (dot3 v v)) with 0 by qlra. ring. }
    exists v. split; [reflexivity|]. split; [auto|contradiction].
Qed.
Lemma base_default p : exact_sqrt sqrt 0 -> base_gradient sqrt base_implicit p = Ok zero3.
Proof.
  intro H. assert (E : forall e, central base_implicit p e = Ok 0).
  { intro e. unfold central, base_implicit. cbn [bind]. f_equal. }
  destruct (base_gradient_of base_implicit p 0 0 0) as (g & G & Z & _); auto.
  rewrite G, Z; reflexivity.
Qed.
End P.
