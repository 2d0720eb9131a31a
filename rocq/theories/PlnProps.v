(* Theorems about planes. *)
From Coq Require Import List ZArith Lia Bool QArith Qcanon.
From Verif Require Import Common ListLib QcLib ArrZ SumLib NurbsModel DerModel PlnModel PlnSpec PlnProofs1 PlnProofs2 PlnProofs3 PlnProofs4 PlnProofs5.
Import ListNotations.
Local Open Scope Z_scope.
Local Open Scope Qc_scope.

(* concrete vectors and planes for the cases *)
Definition v (a b c : Z) : v3 := mkv (zq a) (zq b) (zq c).
Definition vq (a b c : Q) : v3 := mkv (Q2Qc a) (Q2Qc b) (Q2Qc c).
Definition qv (p : v3) : list Q := [this (vx p); this (vy p); this (vz p)].
Definition qrv (r : res v3) : list Q := match r with Ok p => qv p | Err _ => [] end.
Definition qrl (r : res line) : list Q := match r with Ok l => qv (ln_p l) ++ qv (ln_d l) | Err _ => [] end.
Definition qro (r : res (option v3)) : list Q := match r with Ok (Some p) => qv p | Ok None => [7%Q] | Err _ => [] end.
Definition tilted : plane := mkpl (v 1 2 3) (vq (3 # 5) (4 # 5) 0) (vq (- (4 # 5)) (3 # 5) 0) (v 0 0 1).
Definition flat (o n : v3) : plane := mkpl o (v 1 0 0) (v 0 1 0) n.
Definition junk3 : v3 := v 7 7 7.
Definition junk5 : list Qc := map zq [7; 7; 7; 7; 7].
Ltac canon := apply Qc_is_canon; vm_compute; reflexivity.
Ltac canon3 := apply v3_ext; canon.
Lemma tilted_frame : frame tilted.
Proof. split; [canon|]. split; [canon|]. split; [canon|]. split; [canon|]. split; canon. Qed.
(* a function that is the square root on the numbers of the cases *)
Definition sq (x : Qc) : Qc := if qeq x (zq 4) then zq 2 else if qeq x (zq 9) then zq 3 else if qeq x (zq 81) then zq 9 else x.
Ltac sqrt_case := split; [apply qle_true; vm_compute; reflexivity|canon].

(* ---- C176: plane coordinates ---- *)
Theorem C176_coordinates : forall pln, frame pln ->
  (forall p, inverse_evaluate_plane pln (evaluate_plane pln p) = p) /\
  (forall p, evaluate_plane pln (inverse_evaluate_plane pln p) = p) /\
  (forall p q, dist2 (evaluate_plane pln p) (evaluate_plane pln q) = dist2 p q) /\
  (forall ps, inverse_evaluate_plane_arr pln (evaluate_plane_arr pln ps) = ps /\
              evaluate_plane_arr pln (inverse_evaluate_plane_arr pln ps) = ps).
Proof.
  intros pln F. split; [intro p; apply inv_eval; auto|]. split; [intro p; apply eval_inv; auto|].
  split; [intros p q; apply eval_dist; auto|]. intro ps. apply arr_round; auto.
Qed.
Print Assumptions C176_coordinates.
Example C176_case : frame tilted /\ qv (evaluate_plane tilted (v 5 10 4)) = [(-4)%Q; 12%Q; 7%Q] /\
  qv (inverse_evaluate_plane tilted (v (-4) 12 7)) = [5%Q; 10%Q; 4%Q].
Proof. split; [exact tilted_frame|]. split; vm_compute; reflexivity. Qed.
(* the frame is needed: a plane whose axes are not orthonormal has no such round trip *)
Example C176_skew : exists pln, ~ frame pln /\ inverse_evaluate_plane pln (evaluate_plane pln (v 1 1 1)) <> v 1 1 1.
Proof.
  exists (mkpl (v 0 0 0) (v 1 1 0) (v 0 1 0) (v 0 0 1)). split.
  - intros [H _]. apply (f_equal this) in H. vm_compute in H. discriminate H.
  - intro H. apply (f_equal (fun p => this (vx p))) in H. vm_compute in H. discriminate H.
Qed.

(* ---- C177: the point of three planes ---- *)
Theorem C177_three_planes : forall junk a b c x, plane_plane_plane_intersect junk a b c = Ok x ->
  (on_plane (pl_o a) (pl_n a) x /\ on_plane (pl_o b) (pl_n b) x /\ on_plane (pl_o c) (pl_n c) x) /\
  (forall y, on_plane (pl_o a) (pl_n a) y -> on_plane (pl_o b) (pl_n b) y -> on_plane (pl_o c) (pl_n c) y -> y = x).
Proof. intros junk a b c x. apply ppp_sound. Qed.
Print Assumptions C177_three_planes.
Example C177_case : qrv (plane_plane_plane_intersect junk3 (flat (v 1 0 0) (v 1 1 0)) (flat (v 0 2 0) (v 1 0 2)) (flat (v 0 0 3) (v 2 (-1) 1)))
  = [8 # 5; - (3 # 5); - (4 # 5)]%Q.
Proof. vm_compute. reflexivity. Qed.

(* ---- C178: three independent planes always have a point ---- *)
Theorem C178_three_planes_defined_refuted : forall junk a b c, vx (pl_n b) = 0 -> vx (pl_n c) = 0 ->
  plane_plane_plane_intersect junk a b c = Err ZeroDivision.
Proof. intros junk a b c. apply ppp_fails. Qed.
Print Assumptions C178_three_planes_defined_refuted.
(* the three coordinate planes *)
Example C178_case : exists p, on_plane (v 1 0 0) (v 1 0 0) p /\ on_plane (v 0 2 0) (v 0 1 0) p /\ on_plane (v 0 0 3) (v 0 0 1) p /\
  det3 (v 1 0 0) (v 0 1 0) (v 0 0 1) <> 0 /\
  plane_plane_plane_intersect junk3 (flat (v 1 0 0) (v 1 0 0)) (flat (v 0 2 0) (v 0 1 0)) (flat (v 0 0 3) (v 0 0 1)) = Err ZeroDivision.
Proof.
  exists (v 1 2 3). split; [canon|]. split; [canon|]. split; [canon|]. split.
  - intro H. apply (f_equal this) in H. vm_compute in H. discriminate H.
  - vm_compute. reflexivity.
Qed.
Theorem C178_three_planes_defined_partial : forall junk a b c, det3 (pl_n a) (pl_n b) (pl_n c) <> 0 ->
  (exists x, plane_plane_plane_intersect junk a b c = Ok x) <-> (vx (pl_n b) <> 0 \/ vx (pl_n c) <> 0).
Proof.
  intros junk a b c H. split.
  - intros [x E]. destruct (Qc_eq_dec (vx (pl_n b)) 0) as [B|B]; [|auto]. destruct (Qc_eq_dec (vx (pl_n c)) 0) as [C|C]; [|auto].
    unfold plane_plane_plane_intersect in E. rewrite ppp_fails in E by auto. discriminate E.
  - intro K. apply ppp_complete; auto.
Qed.
Print Assumptions C178_three_planes_defined_partial.
(* and nothing else can happen *)
Theorem C178_three_planes_total_partial : forall junk a b c,
  (exists x, plane_plane_plane_intersect junk a b c = Ok x) \/ plane_plane_plane_intersect junk a b c = Err ZeroDivision.
Proof. intros. apply ppp_total. Qed.
Print Assumptions C178_three_planes_total_partial.
Example C178_partial_case : qrv (plane_plane_plane_intersect junk3 (flat (v 0 2 0) (v 0 1 0)) (flat (v 0 0 3) (v 0 0 1)) (flat (v 1 0 0) (v 1 0 0))) = [1%Q; 2%Q; 3%Q].
Proof. vm_compute. reflexivity. Qed.

(* ---- C179: the line of two planes ---- *)
Theorem C179_two_planes : forall junk a b l, lenZ junk = 5%Z -> plane_plane_intersect junk a b = Ok l ->
  ln_d l = cross3 (pl_n a) (pl_n b) /\ ln_d l <> zero3 /\
  (forall q, (on_plane (pl_o a) (pl_n a) q /\ on_plane (pl_o b) (pl_n b) q) <-> exists s, q = along (ln_p l) s (ln_d l)) /\
  (forall q, on_plane (pl_o a) (pl_n a) q -> on_plane (pl_o b) (pl_n b) q ->
     dist2 (along zero3 (Q2Qc (1 # 2)) (pl_o a)) (ln_p l) <= dist2 (along zero3 (Q2Qc (1 # 2)) (pl_o a)) q).
Proof. exact pp_line. Qed.
Print Assumptions C179_two_planes.
Example C179_case : lenZ junk5 = 5%Z /\
  qrl (plane_plane_intersect junk5 (flat (v 1 2 3) (v 1 2 (-1))) (flat (v 0 1 0) (v 3 (-1) 1))) = [- (5 # 33); 53 # 33; 35 # 33; 1; -4; -7]%Q.
Proof. split; vm_compute; reflexivity. Qed.

(* ---- C180: two planes that are not parallel always have a line ---- *)
Theorem C180_two_planes_defined_refuted : forall junk a b c, lenZ junk = 5%Z -> (0 <= c < 3)%Z ->
  coord c (pl_n a) = 0 -> coord c (pl_n b) = 0 -> plane_plane_intersect junk a b = Err ZeroDivision.
Proof. intros junk a b c. apply pp_fails. Qed.
Print Assumptions C180_two_planes_defined_refuted.
Example C180_case : on_plane (v 0 0 3) (v 0 0 1) (v 0 2 3) /\ on_plane (v 0 2 0) (v 0 1 0) (v 0 2 3) /\
  cross3 (v 0 0 1) (v 0 1 0) <> zero3 /\
  plane_plane_intersect junk5 (flat (v 0 0 3) (v 0 0 1)) (flat (v 0 2 0) (v 0 1 0)) = Err ZeroDivision /\
  coord 1 (v 3 0 1) = 0 /\ plane_plane_intersect junk5 (flat (v 0 0 3) (v 3 0 1)) (flat (v 0 2 0) (v 1 0 2)) = Err ZeroDivision.
Proof.
  split; [canon|]. split; [canon|]. split.
  - intro H. apply (f_equal (fun p => this (vx p))) in H. vm_compute in H. discriminate H.
  - split; [vm_compute; reflexivity|]. split; [canon|vm_compute; reflexivity].
Qed.
Theorem C180_two_planes_total_partial : forall junk a b, lenZ junk = 5%Z ->
  (exists l, plane_plane_intersect junk a b = Ok l) \/ plane_plane_intersect junk a b = Err ZeroDivision.
Proof. intros junk a b H. apply pp_total. exact H. Qed.
Print Assumptions C180_two_planes_total_partial.

(* ---- C181: stacks of planes ---- *)
Theorem C181_stacks_refuted : forall junk p qs, lenZ junk = 5%Z -> exists ls,
  plane_plane_intersection junk (One p) (Many qs) = ManyL ls /\ length ls = length qs /\
  forall i q l, nth_error qs i = Some q -> nth_error ls i = Some (Ok l) ->
    ln_d l = neg3 (cross3 (pl_n p) (pl_n q)) /\
    forall l', plane_plane_intersect junk p q = Ok l' -> ln_d l <> ln_d l'.
Proof. exact dispatch_swapped. Qed.
Print Assumptions C181_stacks_refuted.
Theorem C181_planes_planes_refuted : forall junk ps qs ls, planes_planes_intersect junk ps qs <> Ok ls.
Proof. exact ppi_none. Qed.
Print Assumptions C181_planes_planes_refuted.
Theorem C181_stacks_partial : forall junk,
  (forall p q, plane_plane_intersection junk (One p) (One q) = OneL (plane_plane_intersect junk p q)) /\
  (forall ps q, plane_plane_intersection junk (Many ps) (One q) = ManyL (map (fun p => plane_plane_intersect junk p q) ps)) /\
  (forall ps qs, length ps = length qs -> plane_plane_intersection junk (Many ps) (Many qs) =
     ManyL (map (fun pq => plane_plane_intersect junk (fst pq) (snd pq)) (combine ps qs))).
Proof. exact dispatch_ok. Qed.
Print Assumptions C181_stacks_partial.
Definition qls (l : lines) : list (list Q) := match l with OneL r => [qrl r] | ManyL rs => map qrl rs end.
Definition pa : plane := flat (v 1 2 3) (v 1 2 (-1)).
Definition pb : plane := flat (v 0 1 0) (v 3 (-1) 1).
Example C181_case : map (fun r => skipn 3 r) (qls (plane_plane_intersection junk5 (One pa) (Many [pb]))) = [[-1; 4; 7]]%Q.
Proof. vm_compute. reflexivity. Qed.
Example C181_partial_case : map (fun r => skipn 3 r) (qls (plane_plane_intersection junk5 (Many [pa; pb]) (Many [pb; pa]))) = [[1; -4; -7]; [-1; 4; 7]]%Q.
Proof. vm_compute. reflexivity. Qed.

(* ---- C182: a ray or a line and a plane ---- *)
Theorem C182_ray_plane : forall pln ray, exists h, ray_plane_intersection [pl_o pln; pl_n pln] ray = Ok h /\
  forall p, h = Some p <-> (Q2Qc (1 # 10 ^ 15) <= fabs (dot3 (pl_n pln) (ln_d ray)) /\
    exists t, 0 <= t /\ p = along (ln_p ray) t (ln_d ray) /\ on_plane (pl_o pln) (pl_n pln) p).
Proof. exact ray_spec. Qed.
Print Assumptions C182_ray_plane.
Theorem C182_line_plane : forall pln ln tol, 0 < tol -> exists h, plane_line_intersection pln ln tol = Ok h /\
  forall w s p, h = Some (w, s, p) <-> (tol <= fabs (dot3 (pl_n pln) (ln_d ln)) /\
    w = minus3 (ln_p ln) (pl_o pln) /\ p = along (ln_p ln) s (ln_d ln) /\ on_plane (pl_o pln) (pl_n pln) p).
Proof. exact line_spec. Qed.
Print Assumptions C182_line_plane.
Example C182_case :
  qro (ray_plane_intersection [v 0 0 1; v 1 1 1] (mkln (v 3 0 0) (v (-1) 0 0))) = [1; 0; 0]%Q /\
  qro (ray_plane_intersection [v 0 0 1; v 1 1 1] (mkln (v 3 0 0) (v 1 0 0))) = [7]%Q /\
  qro (ray_plane_intersection [v 0 0 1; v 1 1 1] (mkln (v 3 0 0) (v 1 (-1) 0))) = [7]%Q /\
  match plane_line_intersection (flat (v 0 0 1) (v 1 1 1)) (mkln (v 3 0 0) (v 1 0 0)) tol5 with
  | Ok (Some (w, s, p)) => (qv w, this s, qv p) | _ => ([], 0%Q, []) end = ([3; 0; -1], (-2), [1; 0; 0])%Q.
Proof. split; [vm_compute; reflexivity|]. split; [vm_compute; reflexivity|]. split; vm_compute; reflexivity. Qed.

(* ---- C183: plane_ray_intersection ---- *)
Theorem C183_plane_ray_refuted : forall o n ray, plane_ray_intersection [o; n] ray = Err AttributeError (* UnboundLocalError *).
Proof. reflexivity. Qed.
Print Assumptions C183_plane_ray_refuted.
Theorem C183_plane_ray_partial : forall pln ray, exists h,
  plane_ray_intersection [pl_o pln; pl_x pln; pl_y pln; pl_n pln] ray = Ok h /\
  forall p, h = Some p <-> (Q2Qc (1 # 10 ^ 15) <= fabs (dot3 (pl_n pln) (ln_d ray)) /\
    exists t, 0 <= t /\ p = along (ln_p ray) t (ln_d ray) /\ on_plane (pl_o pln) (pl_n pln) p).
Proof. exact ray_spec. Qed.
Print Assumptions C183_plane_ray_partial.
Example C183_case : qro (plane_ray_intersection [v 0 0 1; v 1 (-1) 0; v 0 1 (-1); v 1 1 1] (mkln (v 3 0 0) (v (-1) 0 0))) = [1; 0; 0]%Q.
Proof. vm_compute. reflexivity. Qed.

(* ---- C184: the parametric intersection ---- *)
Theorem C184_parametric : forall pln ray,
  dot3 (pl_x pln) (pl_n pln) = 0 -> dot3 (pl_y pln) (pl_n pln) = 0 ->
  exists h, ray_plane_parametric pln ray = Ok h /\
  (forall p u v, h = Some (p, (u, v)) ->
     p = mkv (vx (pl_o pln) + u * vx (pl_x pln) + v * vx (pl_y pln))
             (vy (pl_o pln) + u * vy (pl_x pln) + v * vy (pl_y pln))
             (vz (pl_o pln) + u * vz (pl_x pln) + v * vz (pl_y pln)) /\
     ray_plane_intersection [pl_o pln; pl_n pln] ray = Ok (Some p)) /\
  (Q2Qc (1 # 10 ^ 15) <= dot3 (pl_x pln) (pl_x pln) * dot3 (pl_y pln) (pl_y pln) - dot3 (pl_x pln) (pl_y pln) * dot3 (pl_x pln) (pl_y pln) ->
     h = None -> ray_plane_intersection [pl_o pln; pl_n pln] ray = Ok None).
Proof. exact parametric_spec. Qed.
Print Assumptions C184_parametric.
Example C184_case :
  let pln := mkpl (v 1 1 1) (v 2 0 0) (v 1 3 0) (v 0 0 2) in
  dot3 (pl_x pln) (pl_n pln) = 0 /\ dot3 (pl_y pln) (pl_n pln) = 0 /\
  match ray_plane_parametric pln (mkln (v 4 7 3) (v 0 0 (-1))) with Ok (Some (p, (a, b))) => (qv p, this a, this b) | _ => ([], 0%Q, 0%Q) end = ([4; 7; 1], (1 # 2), 2)%Q.
Proof. cbv zeta. split; [canon|]. split; [canon|]. vm_compute. reflexivity. Qed.

(* ---- C185: the equation through three points ---- *)
Theorem C185_plane_equation : forall p0 p1 p2, let e := plane_eq_from_pts p0 p1 p2 in
  coefs e = cross3 (minus3 p1 p0) (minus3 p2 p0) /\
  (satisfies e p0 /\ satisfies e p1 /\ satisfies e p2) /\
  (forall p, satisfies e p <-> on_plane p0 (cross3 (minus3 p1 p0) (minus3 p2 p0)) p).
Proof. intros p0 p1 p2 e. split; [apply eq_coefs|]. split; [apply eq_pts|]. intro p. apply eq_plane. Qed.
Print Assumptions C185_plane_equation.
Theorem C185_signed_distance : forall e pts, Forall (satisfies e) pts <-> plane_signed_distance e pts = map (fun _ => 0) pts.
Proof. exact signed_zero. Qed.
Print Assumptions C185_signed_distance.
Theorem C185_signed_value : forall p0 p1 p2 pts,
  plane_signed_distance (plane_eq_from_pts p0 p1 p2) pts =
  map (fun p => dot3 (cross3 (minus3 p1 p0) (minus3 p2 p0)) (minus3 p p0)) pts.
Proof. exact signed_value. Qed.
Print Assumptions C185_signed_value.
Example C185_case : let e := plane_eq_from_pts (v 1 0 0) (v 0 2 0) (v 0 0 3) in
  (qv (coefs e), this (pe_d e)) = ([6; 3; 2], (-6))%Q /\
  map this (plane_signed_distance e [v 1 0 0; v 0 2 0; v 0 0 3; v 1 1 1; v 0 0 0]) = [0; 0; 0; 5; -6]%Q.
Proof. cbv zeta. split; vm_compute; reflexivity. Qed.

(* ---- C186: a plane from its equation ---- *)
Theorem C186_from_equation_refuted : forall sqrt e, coefs e <> zero3 ->
  is_sqrt (sqrt (dot3 (coefs e) (coefs e))) (dot3 (coefs e) (coefs e)) -> pe_d e <> 0 ->
  exists o N, plane_from_eq sqrt e = Ok (o, N) /\ ~ satisfies e o.
Proof.
  intros sqrt e H1 H2 H3. destruct (from_eq sqrt e H1 H2) as [o [N [E [_ [_ [_ K]]]]]]. exists o, N. split; auto. rewrite K. auto.
Qed.
Print Assumptions C186_from_equation_refuted.
Theorem C186_from_equation_partial : forall sqrt e, coefs e <> zero3 ->
  is_sqrt (sqrt (dot3 (coefs e) (coefs e))) (dot3 (coefs e) (coefs e)) ->
  exists o N, plane_from_eq sqrt e = Ok (o, N) /\ dot3 N N = 1 /\ cross3 N (coefs e) = zero3 /\ 0 < dot3 N (coefs e) /\
  (satisfies e o <-> pe_d e = 0).
Proof. exact from_eq. Qed.
Print Assumptions C186_from_equation_partial.
Example C186_case : let e := mkpe (zq 1) (zq 2) (zq 2) (zq 6) in
  coefs e <> zero3 /\ is_sqrt (sq (dot3 (coefs e) (coefs e))) (dot3 (coefs e) (coefs e)) /\ pe_d e <> 0 /\
  match plane_from_eq sq e with Ok (o, n) => (qv o, qv n) | Err _ => ([], []) end = ([2; 4; 4], [1 # 3; 2 # 3; 2 # 3])%Q.
Proof.
  cbv zeta. split; [intro H; apply (f_equal (fun p => this (vx p))) in H; vm_compute in H; discriminate H|].
  split; [sqrt_case|]. split; [intro H; apply (f_equal this) in H; vm_compute in H; discriminate H|]. vm_compute. reflexivity.
Qed.

(* ---- C187: a plane from three points ---- *)
Theorem C187_from_points : forall sqrt p0 p1 p2, let c := cross3 (minus3 p1 p0) (minus3 p2 p0) in c <> zero3 ->
  is_sqrt (sqrt (dot3 c c)) (dot3 c c) -> is_sqrt (sqrt (dist2 p1 p0)) (dist2 p1 p0) ->
  exists pl, plane_from_3pt sqrt p0 p1 p2 = Ok (pl, plane_eq_from_pts p0 p1 p2) /\
  frame pl /\ cross3 (pl_x pl) (pl_y pl) = pl_n pl /\ pl_o pl = p0 /\
  on_plane (pl_o pl) (pl_n pl) p1 /\ on_plane (pl_o pl) (pl_n pl) p2 /\
  (exists s, 0 < s /\ p1 = along (pl_o pl) s (pl_x pl)) /\
  0 < dot3 (pl_y pl) (minus3 p2 p0).
Proof. exact from_3pt. Qed.
Print Assumptions C187_from_points.
Example C187_case : let c := cross3 (minus3 (v 3 4 3) (v 1 3 1)) (minus3 (v 3 1 0) (v 1 3 1)) in
  c <> zero3 /\ is_sqrt (sq (dot3 c c)) (dot3 c c) /\ is_sqrt (sq (dist2 (v 3 4 3) (v 1 3 1))) (dist2 (v 3 4 3) (v 1 3 1)) /\
  match plane_from_3pt sq (v 1 3 1) (v 3 4 3) (v 3 1 0) with Ok (pl, _) => [qv (pl_o pl); qv (pl_x pl); qv (pl_y pl); qv (pl_n pl)] | Err _ => [] end
  = [[1; 3; 1]; [2 # 3; 1 # 3; 2 # 3]; [2 # 3; - (2 # 3); - (1 # 3)]; [1 # 3; 2 # 3; - (2 # 3)]]%Q.
Proof.
  cbv zeta. split; [intro H; apply (f_equal (fun p => this (vx p))) in H; vm_compute in H; discriminate H|].
  split; [sqrt_case|]. split; [sqrt_case|]. vm_compute. reflexivity.
Qed.

(* ---- C188: a plane from an origin and a normal ---- *)
Theorem C188_from_normal_refuted : forall sqrt o n u w, Q2Qc (1 # 10 ^ 5) < dot3 n n ->
  is_sqrt (sqrt (dot3 n n)) (dot3 n n) -> n = along zero3 (sqrt (dot3 n n)) u ->
  is_side u w -> is_sqrt (sqrt (dot3 w w)) (dot3 w w) -> is_sqrt (sqrt 1) 1 ->
  exists pl, plane_from_normal2 sqrt o n tol5 = Ok pl /\ cross3 (pl_x pl) (pl_y pl) <> pl_n pl.
Proof.
  intros sqrt o n u w H1 H2 H3 H4 H5 H6. destruct (from_normal2 sqrt o n u w H1 H2 H3 H4 H5 H6) as [pl [E [_ [_ [F K]]]]].
  exists pl. split; auto. rewrite K. destruct F as [_ [_ [F _]]]. intro Q. apply v3_inv in Q. unfold neg3 in Q. cbn [vx vy vz] in Q.
  destruct Q as [Q1 [Q2 Q3]]. assert (A : vx (pl_n pl) = 0) by qlra. assert (B : vy (pl_n pl) = 0) by qlra. assert (C : vz (pl_n pl) = 0) by qlra.
  unfold dot3 in F. rewrite A, B, C in F. assert (D : (0 : Qc) = 1) by (rewrite <- F; ring). discriminate D.
Qed.
Print Assumptions C188_from_normal_refuted.
Theorem C188_from_normal_partial : forall sqrt o n u w, Q2Qc (1 # 10 ^ 5) < dot3 n n ->
  is_sqrt (sqrt (dot3 n n)) (dot3 n n) -> n = along zero3 (sqrt (dot3 n n)) u ->
  is_side u w -> is_sqrt (sqrt (dot3 w w)) (dot3 w w) -> is_sqrt (sqrt 1) 1 ->
  exists pl, plane_from_normal2 sqrt o n tol5 = Ok pl /\ pl_o pl = o /\ pl_n pl = u /\ frame pl /\
    cross3 (pl_x pl) (pl_y pl) = neg3 (pl_n pl).
Proof. exact from_normal2. Qed.
Print Assumptions C188_from_normal_partial.
(* a normal that is too short is replaced by the z axis *)
Theorem C188_short_normal_partial : forall sqrt o n, dot3 n n <= Q2Qc (1 # 10 ^ 5) -> is_sqrt (sqrt 1) 1 ->
  plane_from_normal2 sqrt o n tol5 = Ok (mkpl o (mkv 0 1 0) (mkv 1 0 0) (mkv 0 0 1)).
Proof. exact from_normal2_default. Qed.
Print Assumptions C188_short_normal_partial.
Example C188_case : let n := vq (6 # 5) (8 # 5) 0 in let u := vq (3 # 5) (4 # 5) 0 in let w := cross3 u (mkv 0 0 1) in
  Q2Qc (1 # 10 ^ 5) < dot3 n n /\ is_sqrt (sq (dot3 n n)) (dot3 n n) /\ n = along zero3 (sq (dot3 n n)) u /\
  is_side u w /\ is_sqrt (sq (dot3 w w)) (dot3 w w) /\ is_sqrt (sq 1) 1 /\
  match plane_from_normal2 sq (v 1 2 3) n tol5 with Ok pl => [qv (pl_x pl); qv (pl_y pl); qv (pl_n pl)] | Err _ => [] end
  = [[4 # 5; - (3 # 5); 0]; [0; 0; 1]; [3 # 5; 4 # 5; 0]]%Q.
Proof.
  cbv zeta. split; [apply qlt_true; vm_compute; reflexivity|]. split; [sqrt_case|]. split; [canon3|]. split.
  - right. split; [|reflexivity]. intros [[_ H] _]. apply qlt_true in H. vm_compute in H. discriminate H.
  - split; [sqrt_case|]. split; [sqrt_case|]. vm_compute. reflexivity.
Qed.

(* ---- C189: a plane from a normal and an origin ---- *)
Theorem C189_from_normal_origin_refuted : forall sqrt n k, dot3 n n = 1 -> is_sqrt (sqrt 0) 0 ->
  plane_from_normal_origin sqrt n (along zero3 k n) = Err ZeroDivision.
Proof. exact from_normal_origin_fails. Qed.
Print Assumptions C189_from_normal_origin_refuted.
Theorem C189_from_normal_origin_partial : forall sqrt n o, dot3 n n = 1 -> let w := along (neg3 o) (dot3 o n) n in
  w <> zero3 -> is_sqrt (sqrt (dot3 w w)) (dot3 w w) ->
  exists pl, plane_from_normal_origin sqrt n o = Ok pl /\ pl_o pl = o /\ pl_n pl = n /\ frame pl /\
    cross3 (pl_x pl) (pl_y pl) = pl_n pl.
Proof. exact from_normal_origin. Qed.
Print Assumptions C189_from_normal_origin_partial.
Example C189_case : dot3 (v 0 0 1) (v 0 0 1) = 1 /\ is_sqrt (sq 0) 0 /\
  plane_from_normal_origin sq (v 0 0 1) (v 0 0 5) = Err ZeroDivision /\
  (let w := along (neg3 (v 0 3 5)) (dot3 (v 0 3 5) (v 0 0 1)) (v 0 0 1) in w <> zero3 /\ is_sqrt (sq (dot3 w w)) (dot3 w w)) /\
  match plane_from_normal_origin sq (v 0 0 1) (v 0 3 5) with Ok pl => [qv (pl_o pl); qv (pl_x pl); qv (pl_y pl); qv (pl_n pl)] | Err _ => [] end
  = [[0; 3; 5]; [0; -1; 0]; [1; 0; 0]; [0; 0; 1]]%Q.
Proof.
  split; [canon|]. split; [sqrt_case|]. split; [vm_compute; reflexivity|]. split; [|vm_compute; reflexivity].
  cbv zeta. split; [intro H; apply (f_equal (fun p => this (vy p))) in H; vm_compute in H; discriminate H|]. sqrt_case.
Qed.

(* ---- C190: projection onto a plane ---- *)
Theorem C190_project : forall p n o, dot3 n n = 1 -> let q := project_point_by_normal p n o in
  on_plane o n q /\ (exists s, p = along q s n) /\ (forall q', on_plane o n q' -> dist2 p q <= dist2 p q').
Proof. exact project_spec. Qed.
Print Assumptions C190_project.
Theorem C190_project_plane : forall pln p, dot3 (pl_n pln) (pl_n pln) = 1 -> let q := project pln p in
  on_plane (pl_o pln) (pl_n pln) q /\ (exists s, p = along q s (pl_n pln)) /\
  (forall q', on_plane (pl_o pln) (pl_n pln) q' -> dist2 p q <= dist2 p q').
Proof. intros pln p H. cbv zeta. rewrite project_same. apply project_spec. exact H. Qed.
Print Assumptions C190_project_plane.
Example C190_case : dot3 (vq (3 # 5) (4 # 5) 0) (vq (3 # 5) (4 # 5) 0) = 1 /\
  qv (project_point_by_normal (v 5 5 1) (vq (3 # 5) (4 # 5) 0) (v 0 0 2)) = [4 # 5; - (3 # 5); 1]%Q.
Proof. split; [canon|vm_compute; reflexivity]. Qed.

(* ---- C191: the distance to a plane ---- *)
Theorem C191_distance : forall sqrt pln p, pl_n pln <> zero3 ->
  is_sqrt (sqrt (dot3 (pl_n pln) (pl_n pln))) (dot3 (pl_n pln) (pl_n pln)) ->
  exists d, distance sqrt pln p = Ok d /\ 0 <= d /\
  (forall q, on_plane (pl_o pln) (pl_n pln) q -> d * d <= dist2 p q) /\
  (exists q, on_plane (pl_o pln) (pl_n pln) q /\ d * d = dist2 p q).
Proof. exact distance_spec. Qed.
Print Assumptions C191_distance.
Example C191_case : let n := v 1 2 2 in n <> zero3 /\ is_sqrt (sq (dot3 n n)) (dot3 n n) /\
  match distance sq (flat (v 1 1 1) n) (v (-1) (-3) 2) with Ok d => this d | Err _ => (-7)%Q end = (8 # 3)%Q.
Proof.
  cbv zeta. split; [intro H; apply (f_equal (fun p => this (vx p))) in H; vm_compute in H; discriminate H|]. split; [sqrt_case|]. vm_compute. reflexivity.
Qed.

(* ---- C192: local and world coordinates ---- *)
Theorem C192_local_to_world_refuted : forall p, local_to_world_default p = Err AttributeError.
Proof. reflexivity. Qed.
Print Assumptions C192_local_to_world_refuted.
Theorem C192_local_world_partial : forall p pln, frame pln ->
  (exists w, local_to_world p (ObjectP pln) = Ok w /\ world_to_local w (ObjectP pln) = Ok p) /\
  (exists l, world_to_local p (ObjectP pln) = Ok l /\ local_to_world l (ObjectP pln) = Ok p).
Proof. exact local_world. Qed.
Print Assumptions C192_local_world_partial.
Example C192_case : frame tilted /\ qrv (local_to_world (v 5 10 4) (ObjectP tilted)) = [-4; 12; 7]%Q.
Proof. split; [exact tilted_frame|vm_compute; reflexivity]. Qed.
