(* Bounded minimisation: theorems C373-C379. *)
From Coq Require Import List Arith ZArith Bool QArith Qcanon Lia.
From Verif Require Import Common QcLib SumLib BndModel BndSpec BndProofs.
Import ListNotations.
Local Open Scope Qc_scope.

Definition q (a : Z) (b : positive) : Qc := Q2Qc (a # b).
Definition nums (l : vec) : list Q := map this l.
Ltac qdec := apply Qclt_alt || apply Qcle_alt; vm_compute; (reflexivity || discriminate).
(* a paraboloid with its gradient, Hessian and the inverse of that Hessian *)
Definition bowl (v : vec) : Qc := vdot v v.
Definition bowl_grad (v : vec) : vec := map (fun x => x + x) v.
Definition bowl_hess (v : vec) : list vec := map (map (fun x => x + x)) (eye (length v)).
Definition bowl_inv (m : list vec) : option (list vec) := Some (map (map (fun x => x * half)) (eye (length m))).
Definition one_norm (v : vec) : Qc := fold_left Qcplus (map qabs v) 0.
Definition lo2 : vec := [q 1 1; q (-1) 1].
Definition hi2 : vec := [q 5 1; q 5 1].

(* C373 *)
Theorem C373_projection : forall n lower upper x, box n lower upper -> length x = n ->
  in_box n lower upper (project_to_bounds x lower upper) /\
  (forall i, (i < n)%nat -> nearest (co lower i) (co upper i) (co x i) (co (project_to_bounds x lower upper) i)) /\
  (in_box n lower upper x -> project_to_bounds x lower upper = x).
Proof.
  intros n lower upper x B L. destruct (project_ok n lower upper x B L) as (P & N). split; auto. split; auto.
  intro. apply (project_inside n); auto; apply B.
Qed.
Print Assumptions C373_projection.
Theorem C373_closest : forall n lower upper x p, box n lower upper -> length x = n -> in_box n lower upper p ->
  let y := project_to_bounds x lower upper in
  sumn n (fun i => (co x i - co y i) * (co x i - co y i)) <= sumn n (fun i => (co x i - co p i) * (co x i - co p i)).
Proof. intros n lower upper x p B L P. exact (project_closest n lower upper x p B L P). Qed.
Print Assumptions C373_closest.
Lemma box2 : box 2 lo2 hi2.
Proof. split; auto. split; auto. intros i Hi. destruct i as [|[|i]]; [| |lia]; cbn; qdec. Qed.
Example C373_case : box 2 lo2 hi2 /\ nums (project_to_bounds [q 7 1; q (-3) 2] lo2 hi2) = [5; -1]%Q.
Proof. split; [exact box2|vm_compute; reflexivity]. Qed.

(* C374 *)
Theorem C374_line_search : forall n f grad x d lower upper c1 c2 k a p, box n lower upper -> length x = n -> length d = n ->
  (forall y, length y = n -> length (grad y) = n) -> line_search f grad x d lower upper c1 c2 k = (a, p, true) ->
  0 < a /\ inner n d (grad x) < 0 /\ is_projected n lower upper x a d p /\ in_box n lower upper p /\
  armijo n f grad c1 x d a p /\ curvature n grad c2 x d p /\ (0 < c1 -> f p < f x).
Proof. exact line_search_ok. Qed.
Print Assumptions C374_line_search.
Definition ls_demo := line_search bowl bowl_grad [q 3 1; q 4 1] [q (-3) 1; q (-4) 1] lo2 hi2 c1_default c2_default 20.
Example C374_case : box 2 lo2 hi2 /\ (forall y, length y = 2%nat -> length (bowl_grad y) = 2%nat) /\
  (let '(a, p, ok) := ls_demo in (this a, nums p, ok)) = (1%Q, [1; 0]%Q, true).
Proof. split; [exact box2|]. split; [intros y H; unfold bowl_grad; now rewrite map_length|vm_compute; reflexivity]. Qed.

(* C375 *)
Theorem C375_strong_wolfe : forall n f grad x d c1 c2 k a p, length x = n -> length d = n ->
  (forall y, length y = n -> length (grad y) = n) -> line_search_strong_wolfe f grad x d c1 c2 k = (a, p, true) ->
  0 < a /\ inner n d (grad x) < 0 /\ is_moved n x a d p /\ armijo n f grad c1 x d a p /\ curvature n grad c2 x d p /\ (0 < c1 -> f p < f x).
Proof. exact strong_wolfe_ok. Qed.
Print Assumptions C375_strong_wolfe.
Definition sw_demo := line_search_strong_wolfe bowl bowl_grad [q 3 1; q 4 1] [q (-12) 1; q (-16) 1] c1_default c2_default 20.
Example C375_case : (forall y, length y = 2%nat -> length (bowl_grad y) = 2%nat) /\
  (let '(a, p, ok) := sw_demo in (this a, nums p, ok)) = (1 # 4, [0; 0]%Q, true)%Q.
Proof. split; [intros y H; unfold bowl_grad; now rewrite map_length|vm_compute; reflexivity]. Qed.

(* C376 *)
Theorem C376_backtrack : forall n f grad x dx alpha k p ok, length x = n -> length dx = n -> length (grad x) = n ->
  line_search_backtrack f grad x dx alpha k = (p, ok) ->
  let enough j y := f y <= f x + Q2Qc (1 # 10000) * (alpha * Q2Qc (1 # 2) ^ j) * inner n dx (grad x) in
  (ok = true -> exists j, (j < k)%nat /\ is_moved n x (alpha * Q2Qc (1 # 2) ^ j) dx p /\ enough j p /\
     (forall i y, (i < j)%nat -> is_moved n x (alpha * Q2Qc (1 # 2) ^ i) dx y -> ~ enough i y)) /\
  (ok = false -> p = x /\ forall i y, (i < k)%nat -> is_moved n x (alpha * Q2Qc (1 # 2) ^ i) dx y -> ~ enough i y).
Proof. exact backtrack_all. Qed.
Print Assumptions C376_backtrack.
Example C376_case : (let '(p, ok) := line_search_backtrack bowl bowl_grad [q 3 1; q 4 1] [q (-12) 1; q (-16) 1] 1 20 in (nums p, ok)) = ([0; 0]%Q, true) /\
  (let '(p, ok) := line_search_backtrack bowl bowl_grad [q 3 1; q 4 1] [q 3 1; q 4 1] 1 20 in (nums p, ok)) = ([3; 4]%Q, false).
Proof. split; vm_compute; reflexivity. Qed.

(* C377 *)
Theorem C377_bounded_descent : forall f initial bounds grad hess norm inverse tol step_tol gtol max_iter mv r,
  (forall b, In b bounds -> fst b <= snd b) -> length initial = length bounds ->
  (forall y, length y = length bounds -> length (grad y) = length bounds) -> (forall y, length y = length bounds -> length (hess y) = length bounds) ->
  (forall m m', inverse m = Some m' -> length m' = length m) ->
  bounded_newtons_method f initial bounds grad hess norm inverse tol step_tol gtol max_iter mv = Ok (Some r) ->
  exists p, in_box (length bounds) (map fst bounds) (map snd bounds) p /\
    (forall i, (i < length bounds)%nat -> nearest (co (map fst bounds) i) (co (map snd bounds) i) (co initial i) (co p i)) /\
    in_box (length bounds) (map fst bounds) (map snd bounds) r /\ (r = p \/ f r < f p).
Proof. exact bounded_ok. Qed.
Print Assumptions C377_bounded_descent.
Definition bounds2 : list (Qc * Qc) := combine lo2 hi2.
Lemma bounds2_ok : forall b, In b bounds2 -> fst b <= snd b.
Proof. intros b [<-|[<-|[]]]; cbn; qdec. Qed.
Lemma bowl_inv_ok : forall m m', bowl_inv m = Some m' -> length m' = length m.
Proof. intros m m' E. unfold bowl_inv in E. injection E as <-. unfold eye. now rewrite !map_length, seq_length. Qed.
Lemma bowl_hess_ok : forall y, length y = length bounds2 -> length (bowl_hess y) = length bounds2.
Proof. intros y H. unfold bowl_hess, eye. now rewrite !map_length, seq_length. Qed.
Definition newton_demo (start : vec) := bounded_newtons_method bowl start bounds2 bowl_grad bowl_hess one_norm bowl_inv (q 1 100) (q 1 100) (q 1 100) 5 None.
Example C377_case : (forall b, In b bounds2 -> fst b <= snd b) /\ (forall m m', bowl_inv m = Some m' -> length m' = length m) /\
  (forall y, length y = length bounds2 -> length (bowl_hess y) = length bounds2) /\
  (do o <- newton_demo [q 3 1; q 7 1] ; Ok (option_map nums o)) = Ok (Some [1; 0]%Q).
Proof. split; [exact bounds2_ok|]. split; [exact bowl_inv_ok|]. split; [exact bowl_hess_ok|]. vm_compute. reflexivity. Qed.

(* C378 *)
Theorem C378_minimiser_stays : forall f initial bounds grad hess norm inverse tol step_tol gtol k mv,
  (forall b, In b bounds -> fst b <= snd b) -> bounds <> [] ->
  (forall y, length y = length bounds -> length (grad y) = length bounds) -> (forall y, length y = length bounds -> length (hess y) = length bounds) ->
  (forall m m', inverse m = Some m' -> length m' = length m) ->
  in_box (length bounds) (map fst bounds) (map snd bounds) initial ->
  (forall p, in_box (length bounds) (map fst bounds) (map snd bounds) p -> f initial <= f p) ->
  bounded_newtons_method f initial bounds grad hess norm inverse tol step_tol gtol (S k) mv = Ok (Some initial).
Proof. exact bounded_min. Qed.
Print Assumptions C378_minimiser_stays.
Example C378_case : in_box 2 (map fst bounds2) (map snd bounds2) [q 1 1; q 0 1] /\
  (forall p, in_box 2 (map fst bounds2) (map snd bounds2) p -> bowl [q 1 1; q 0 1] <= bowl p) /\
  (do o <- newton_demo [q 1 1; q 0 1] ; Ok (option_map nums o)) = Ok (Some [1; 0]%Q).
Proof.
  split; [|split].
  - split; auto. intros i Hi. destruct i as [|[|i]]; [| |lia]; cbn; split; qdec.
  - intros p (L & P). destruct p as [|x [|y [|z p]]]; try discriminate L. destruct (P 0%nat ltac:(lia)) as (X & _). unfold co in X. cbn in X.
    assert (E : bowl [x; y] = x * x + y * y) by (unfold bowl, vdot; cbn; ring). rewrite E.
    replace (bowl [q 1 1; q 0 1]) with 1 by (apply Qc_is_canon; vm_compute; reflexivity). change (q 1 1) with 1 in X.
    assert (K1 := mul_nonneg (x - 1) (x + 1) ltac:(qlra) ltac:(qlra)).
    assert (K2 : 0 <= y * y). { destruct (Qclt_le_dec y 0); [replace (y * y) with ((- y) * (- y)) by ring|]; apply mul_nonneg; qlra. }
    replace ((x - 1) * (x + 1)) with (x * x - 1) in K1 by ring. set (u := x * x) in *. set (v := y * y) in *. clearbody u v. qlra.
  - vm_compute. reflexivity.
Qed.

(* C379 *)
Theorem C379_linear_not_minimised_refuted : forall f initial bounds grad hess norm inverse tol step_tol gtol k mv g,
  (forall b, In b bounds -> fst b <= snd b) -> bounds <> [] -> length g = length bounds ->
  (forall y, length y = length bounds -> grad y = g) -> (forall y, length y = length bounds -> length (hess y) = length bounds) ->
  (forall m m', inverse m = Some m' -> length m' = length m) ->
  in_box (length bounds) (map fst bounds) (map snd bounds) initial ->
  bounded_newtons_method f initial bounds grad hess norm inverse tol step_tol gtol (S k) mv = Ok (Some initial).
Proof. exact bounded_const. Qed.
Print Assumptions C379_linear_not_minimised_refuted.
Definition slope (v : vec) : Qc := vdot v [q 1 1; q 2 1].
Definition slope_demo := bounded_newtons_method slope [q 3 1; q 4 1] bounds2 (fun _ => [q 1 1; q 2 1]) bowl_hess one_norm bowl_inv (q 1 100) (q 1 100) (q 1 100) 5 None.
Example C379_case : (do o <- slope_demo ; Ok (option_map nums o)) = Ok (Some [3; 4]%Q) /\ slope lo2 < slope [q 3 1; q 4 1].
Proof. split; [vm_compute; reflexivity|qdec]. Qed.
