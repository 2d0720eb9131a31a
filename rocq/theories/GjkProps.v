(* Theorems about the collision test and the triangle distance. *)
From Coq Require Import List ZArith Lia Bool QArith Qcanon.
From Verif Require Import Common ListLib QcLib ArrZ SumLib NurbsModel DerModel PlnModel PlnSpec PlnProofs2 PlnProofs4 PlnProofs5 PlnProps GjkModel GjkSpec GjkProofs1 GjkProofs2 GjkProofs3 GjkProofs4.
Import ListNotations.
Local Open Scope Z_scope.
Local Open Scope Qc_scope.

(* concrete data for the cases *)
Definition s0 : Qc -> Qc := fun _ => 0.
Lemma s0_ok : is_sqrt (s0 0) 0.
Proof. split; [apply Qcle_refl|]. unfold s0. ring. Qed.
Definition th (a b c : Z) : v3 := mkv (Q2Qc (a # 1000)) (Q2Qc (b # 1000)) (Q2Qc (c # 1000)).
(* a plane between concrete shapes *)
Definition sepb (d : v3) (A B : list v3) : bool := forallb (fun a => forallb (fun b => qlt (dot3 a d) (dot3 b d)) B) A.
Lemma sepb_ok d A B : sepb d A B = true -> separated A B.
Proof.
  intro H. exists d. intros a b Ha Hb. unfold sepb in H. rewrite forallb_forall in H. specialize (H a Ha).
  rewrite forallb_forall in H. apply qlt_true. now apply H.
Qed.
(* two tetrahedra with common points, and the second one far away *)
Definition tetra : list v3 := [v 0 0 0; v 4 0 0; v 0 4 0; v 0 0 4].
Definition tetra2 : list v3 := [v 1 1 1; v (-3) 1 1; v 1 (-3) 1; v 1 1 (-3)].
Definition tetra3 : list v3 := [v 11 1 1; v 7 1 1; v 11 (-3) 1; v 11 1 (-3)].

(* ---- C236: the test always gives an answer ---- *)
Theorem C236_gjk_answers : forall sqrt A B tol n, A <> [] -> B <> [] ->
  (exists b k, gjk_passes sqrt A B tol n = Ok (b, k) /\ (0 <= k <= Z.max 0 n)%Z /\ (b = true -> (3 <= k)%Z)) /\
  ((0 <= n)%Z -> exists b k, cgjk_passes sqrt A B tol n = Ok (b, k) /\
     (0 <= k <= if Z.eqb n 0 then lenZ A * lenZ B else n)%Z /\ (b = true -> (3 <= k)%Z)).
Proof.
  intros sqrt A B tol n NA NB. rewrite gjk_run, cgjk_run by auto. split.
  - destruct (run_total sqrt (fun s d => handle_simplex s d tol) A B tol (Z.to_nat n) (handle_good tol) NA NB) as [b [k [H1 [H2 H3]]]].
    exists b, k. split; [exact H1|]. split; [lia|exact H3].
  - intro N. destruct (run_total sqrt (fun s d => chandle_simplex s d tol) A B tol (Z.to_nat (passes A B n)) (chandle_good tol) NA NB) as [b [k [H1 [H2 H3]]]].
    exists b, k. split; [exact H1|]. split; [|exact H3]. unfold passes in H2. destruct (n =? 0)%Z; unfold lenZ in *; lia.
Qed.
Print Assumptions C236_gjk_answers.
Example C236_case : gjk_passes s0 tetra tetra2 tol6 50 = Ok (true, 3%Z) /\ gjk s0 tetra tetra3 tol6 50 = Ok false /\
  gjk s0 [] tetra tol6 50 = Err IndexError.
Proof. repeat split; vm_compute; reflexivity. Qed.

(* ---- C237: no means that the shapes have no common point ---- *)
Theorem C237_no_refuted : forall sqrt x tol n, is_sqrt (sqrt 0) 0 -> 0 <= tol ->
  gjk sqrt [x] [x] tol n = Ok false /\ cgjk sqrt [x] [x] tol n = Ok false /\ meet [x] [x].
Proof. exact gjk_same. Qed.
Print Assumptions C237_no_refuted.
Example C237_case : is_sqrt (s0 0) 0 /\ gjk s0 [v 1 2 3] [v 1 2 3] tol6 50 = Ok false /\
  cgjk s0 [v 0 1 0; v 0 0 0] [v 0 1 0; v 1 0 0] tol6 25 = Ok false.
Proof. split; [exact s0_ok|]. split; vm_compute; reflexivity. Qed.
(* a no before the passes are used up is right *)
Theorem C237_no_partial : forall sqrt A B tol n k, is_sqrt (sqrt 0) 0 -> 0 <= tol ->
  (gjk_passes sqrt A B tol n = Ok (false, k) -> k <> Z.max 0 n -> separated A B /\ ~ meet A B) /\
  ((0 <= n)%Z -> cgjk_passes sqrt A B tol n = Ok (false, k) -> k <> (if Z.eqb n 0 then lenZ A * lenZ B else n)%Z -> separated A B /\ ~ meet A B).
Proof.
  intros sqrt A B tol n k SQ T.
  assert (F : separated A B -> separated A B /\ ~ meet A B) by (intro H; split; [exact H|now apply separated_apart]).
  split.
  - intros H K. assert (NA : A <> []) by (intro Q; subst; discriminate). assert (NB : B <> []) by (intro Q; subst; destruct A; discriminate).
    rewrite gjk_run in H by auto. apply run_false in H; auto; [|apply handle_good]. destruct H as [H|H]; [exfalso; lia|auto].
  - intros N H K. assert (NA : A <> []) by (intro Q; subst; discriminate). assert (NB : B <> []) by (intro Q; subst; destruct A; discriminate).
    rewrite cgjk_run in H by auto. apply run_false in H; auto; [|apply chandle_good]. destruct H as [H|H]; [exfalso|auto].
    apply K. rewrite H. unfold passes. destruct (n =? 0)%Z; unfold lenZ; lia.
Qed.
Print Assumptions C237_no_partial.
Example C237_partial_case : gjk_passes s0 tetra tetra3 tol6 50 = Ok (false, 1%Z) /\ cgjk_passes s0 tetra tetra3 tol6 25 = Ok (false, 1%Z).
Proof. split; vm_compute; reflexivity. Qed.

(* ---- C238: yes of the Python version means that the shapes have a common point ---- *)
Definition flat1 : list v3 := [v 2 (-1) (-1); v 0 (-1) 2; v (-1) (-1) (-1)].
Definition flat2 : list v3 := [v (-1) (-1) 0; v (-2) (-1) 2].
Definition solid1 : list v3 := [v 0 0 0; v 1 (-1) 1; v (-1) (-1) (-1)].
Definition solid2 : list v3 := [v 0 (-1) 1; v (-1) 1 1; v 1 0 1].
Theorem C238_yes_refuted : forall sqrt, is_sqrt (sqrt 0) 0 ->
  (gjk sqrt flat1 flat2 tol6 50 = Ok true /\ separated flat1 flat2 /\ ~ meet flat1 flat2) /\
  (gjk sqrt solid1 solid2 tol6 50 = Ok true /\ separated solid1 solid2 /\ ~ meet solid1 solid2).
Proof.
  intros sqrt SQ. rewrite !(proj1 (gjk_sqrt sqrt s0 _ _ _ _ SQ s0_ok)).
  assert (S1 : separated flat1 flat2) by (apply (sepb_ok (v (-3) 0 1)); vm_compute; reflexivity).
  assert (S2 : separated solid1 solid2) by (apply (sepb_ok (v (-1) 1 2)); vm_compute; reflexivity).
  split; (split; [vm_compute; reflexivity|]); (split; [assumption|]); now apply separated_apart.
Qed.
Print Assumptions C238_yes_refuted.
(* four differences of vertices surround the origin on three sides, and if they do so on the fourth the shapes meet *)
Theorem C238_yes_partial : forall sqrt A B tol n k, gjk_passes sqrt A B tol n = Ok (true, k) ->
  exists a b c e, diffs A B a /\ diffs A B b /\ diffs A B c /\ diffs A B e /\ around a b c e /\
    (0 <= det3 b e c -> 0 < det3 b e c + det3 a c e + det3 a e b + det3 a b c -> meet A B).
Proof. exact gjk_true. Qed.
Print Assumptions C238_yes_partial.

(* three points kept with a direction across their plane are in the order that turns about this direction *)
Theorem C238_winding : forall c b a tol d,
  let ab := vsub b a in let ac := vsub c a in let n := vcross ab ac in
  vdot (vcross n ac) (vneg a) <= tol -> vdot (vcross ab n) (vneg a) <= tol ->
  exists p q answer, handle_simplex [c; b; a] d tol = Ok (answer, [p; q; a], vcross (vsub q a) (vsub p a)).
Proof.
  intros c b a tol d ab ac n H1 H2.
  assert (N : forall x, x <= tol -> qlt tol x = false). { intros x L. destruct (qlt tol x) eqn:E; [|reflexivity]. apply qlt_true in E. exfalso. exact (Qclt_not_le _ _ E L). }
  unfold handle_simplex, handle3. fold ab ac. fold n. rewrite (N _ H1), (N _ H2).
  destruct (qlt tol (vdot n (vneg a))); cbn [fst snd].
  - exists c, b, false. reflexivity.
  - exists b, c, false. do 3 f_equal. unfold n, vneg, vcross, vscale. cbn. f_equal; ring.
Qed.
Print Assumptions C238_winding.
Example C238_winding_case : let c := mkv 1 0 1 in let b := mkv 0 1 1 in let a := mkv (- (1)) (- (1)) 1 in
  let ab := vsub b a in let ac := vsub c a in let n := vcross ab ac in
  qle (vdot (vcross n ac) (vneg a)) tol6 = true /\ qle (vdot (vcross ab n) (vneg a)) tol6 = true /\ n <> zero3.
Proof. split; [vm_compute; reflexivity|]. split; [vm_compute; reflexivity|]. intro E. apply (f_equal (fun p => qeq (vz p) 0)) in E. vm_compute in E. discriminate. Qed.
Example C238_case : gjk_passes s0 tetra tetra2 tol6 50 = Ok (true, 3%Z) /\ gjk s0 solid1 solid2 tol6 50 = Ok true.
Proof. split; vm_compute; reflexivity. Qed.

(* ---- C239: yes of the compiled version means that the shapes have a common point ---- *)
Definition small1 : list v3 := [th (-1) 0 1; th 0 (-1) 0].
Definition small2 : list v3 := [th (-1) (-1) 0; th (-1) 1 0].
Theorem C239_compiled_yes_refuted : forall sqrt, is_sqrt (sqrt 0) 0 ->
  cgjk sqrt small1 small2 tol6 25 = Ok true /\ separated small1 small2 /\ ~ meet small1 small2.
Proof.
  intros sqrt SQ. rewrite !(proj2 (gjk_sqrt sqrt s0 _ _ _ _ SQ s0_ok)).
  assert (S1 : separated small1 small2) by (apply (sepb_ok (v (-1) 0 (-2))); vm_compute; reflexivity).
  split; [vm_compute; reflexivity|]. split; [assumption|]. now apply separated_apart.
Qed.
Print Assumptions C239_compiled_yes_refuted.
(* with tol = 0 it does, for all shapes and numbers of passes *)
Theorem C239_compiled_yes_partial : forall sqrt A B n, cgjk sqrt A B 0 n = Ok true -> meet A B.
Proof.
  intros sqrt A B n H. unfold cgjk in H. destruct (cgjk_passes sqrt A B 0 n) as [[b k]|e] eqn:E; [|discriminate].
  cbn [bind] in H. injection H as ->. eapply cgjk_sound; eauto.
Qed.
Print Assumptions C239_compiled_yes_partial.
Example C239_case : cgjk s0 tetra tetra2 0 25 = Ok true /\ cgjk s0 solid1 solid2 0 25 = Ok false /\
  cgjk s0 [v (-1) 0 1; v 0 (-1) 0] [v (-1) (-1) 0; v (-1) 1 0] tol6 25 = Ok false.
Proof. repeat split; vm_compute; reflexivity. Qed.

(* ---- C240: the order of the shapes ---- *)
Theorem C240_order_refuted : forall sqrt, is_sqrt (sqrt 0) 0 ->
  (gjk sqrt [v 1 (-2) 2; v 1 2 1] [v 1 (-2) 2; v (-2) 0 1] tol6 50 = Ok true /\
   gjk sqrt [v 1 (-2) 2; v (-2) 0 1] [v 1 (-2) 2; v 1 2 1] tol6 50 = Ok false) /\
  (cgjk sqrt [v 0 1 0; v 0 0 0] [v 0 1 0; v 1 0 0] tol6 25 = Ok false /\
   cgjk sqrt [v 0 1 0; v 1 0 0] [v 0 1 0; v 0 0 0] tol6 25 = Ok true).
Proof.
  intros sqrt SQ. rewrite !(proj1 (gjk_sqrt sqrt s0 _ _ _ _ SQ s0_ok)), !(proj2 (gjk_sqrt sqrt s0 _ _ _ _ SQ s0_ok)).
  repeat split; vm_compute; reflexivity.
Qed.
Print Assumptions C240_order_refuted.

(* ---- C241: moving both shapes by the same vector ---- *)
Theorem C241_moved : forall sqrt t A B tol n, gjk sqrt (moved t A) (moved t B) tol n = gjk sqrt A B tol n /\ cgjk sqrt (moved t A) (moved t B) tol n = cgjk sqrt A B tol n.
Proof. exact gjk_moved. Qed.
Print Assumptions C241_moved.
Example C241_case : gjk s0 (moved (v 5 (-7) 9) tetra) (moved (v 5 (-7) 9) tetra2) tol6 50 = Ok true /\ gjk s0 (moved (v 5 (-7) 9) tetra) (moved (v 5 (-7) 9) tetra3) tol6 50 = Ok false.
Proof. split; vm_compute; reflexivity. Qed.

(* ---- C242: more passes do not take back a yes ---- *)
Theorem C242_more_passes : forall sqrt A B tol n n' k, (n <= n')%Z ->
  (gjk_passes sqrt A B tol n = Ok (true, k) -> gjk_passes sqrt A B tol n' = Ok (true, k)) /\ ((0 < n)%Z -> cgjk_passes sqrt A B tol n = Ok (true, k) -> cgjk_passes sqrt A B tol n' = Ok (true, k)).
Proof.
  intros sqrt A B tol n n' k L. split.
  - intro H. assert (NA : A <> []) by (intro Q; subst; discriminate). assert (NB : B <> []) by (intro Q; subst; destruct A; discriminate).
    rewrite gjk_run in * by auto. eapply run_more; [|exact H]. lia.
  - intros N H. assert (NA : A <> []) by (intro Q; subst; discriminate). assert (NB : B <> []) by (intro Q; subst; destruct A; discriminate).
    rewrite cgjk_run in * by auto. eapply run_more; [|exact H]. unfold passes.
    replace (n =? 0)%Z with false by (symmetry; apply Z.eqb_neq; lia). replace (n' =? 0)%Z with false by (symmetry; apply Z.eqb_neq; lia). lia.
Qed.
Print Assumptions C242_more_passes.
Example C242_case : gjk_passes s0 tetra tetra2 tol6 2 = Ok (false, 2%Z) /\ gjk_passes s0 tetra tetra2 tol6 3 = Ok (true, 3%Z) /\ gjk_passes s0 tetra tetra2 tol6 1000 = Ok (true, 3%Z).
Proof. repeat split; vm_compute; reflexivity. Qed.

(* ---- C243: the support point ---- *)
Theorem C243_support : forall vs d,
  (vs <> [] -> exists p i, support_vector vs d = (p, i) /\ (0 <= i < lenZ vs)%Z /\ rdZ vs i = Ok p /\
    (forall x, In x vs -> dot3 x d <= dot3 p d) /\
    (forall j x, (0 <= j < i)%Z -> rdZ vs j = Ok x -> dot3 x d < dot3 p d)) /\
  (vs = [] -> support_vector vs d = (zero3, (-1)%Z)).
Proof. intros vs d. split; [apply support_vector_ok|]. intros ->. apply support_empty. Qed.
Print Assumptions C243_support.
Example C243_case : snd (support_vector tetra (v 1 2 2)) = 2%Z /\ qv (fst (support_vector tetra (v 1 2 2))) = [0%Q; 4%Q; 0%Q].
Proof. split; vm_compute; reflexivity. Qed.

(* ---- C244: the distance to a triangle ---- *)
Theorem C244_triangle_distance : forall sqrt p a b c,
  (a <> b -> b <> c -> c <> a -> exists D, ud_triangle sqrt p a b c = Ok (sqrt D) /\ nearest2 p a b c D) /\
  (a = b \/ b = c \/ c = a -> ud_triangle sqrt p a b c = Err ZeroDivision).
Proof. intros sqrt p a b c. split; [apply ud_ok|apply ud_flat]. Qed.
Print Assumptions C244_triangle_distance.
(* above the inside, beside an edge, beside a corner, a triangle without area; the identity in place of the square root *)
Example C244_case :
  match ud_triangle (fun x => x) (v 1 1 5) (v 0 0 0) (v 4 0 0) (v 0 4 0) with Ok D => this D | Err _ => 0%Q end = 25%Q /\ match ud_triangle (fun x => x) (v 2 (-3) 4) (v 0 0 0) (v 4 0 0) (v 0 4 0) with Ok D => this D | Err _ => 0%Q end = 25%Q /\ match ud_triangle (fun x => x) (v (-3) (-4) 0) (v 0 0 0) (v 4 0 0) (v 0 4 0) with Ok D => this D | Err _ => 0%Q end = 25%Q /\ match ud_triangle (fun x => x) (v 3 2 0) (v 0 0 0) (v 2 0 0) (v 4 0 0) with Ok D => this D | Err _ => 0%Q end = 4%Q.
Proof. repeat split; vm_compute; reflexivity. Qed.

(* ---- C245: the two versions give the same answer ---- *)
Theorem C245_versions_refuted : forall sqrt, is_sqrt (sqrt 0) 0 ->
  gjk sqrt solid1 solid2 tol6 25 = Ok true /\ cgjk sqrt solid1 solid2 tol6 25 = Ok false.
Proof.
  intros sqrt SQ. rewrite !(proj1 (gjk_sqrt sqrt s0 _ _ _ _ SQ s0_ok)), !(proj2 (gjk_sqrt sqrt s0 _ _ _ _ SQ s0_ok)).
  split; vm_compute; reflexivity.
Qed.
Print Assumptions C245_versions_refuted.
