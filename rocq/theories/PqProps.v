(* Priority queue, support vector, closest pair of curves, colour: the properties. *)
From Coq Require Import List Arith ZArith Bool QArith Qcanon Lia Permutation.
From Verif Require Import Common QcLib ListLib LuModel PqModel PqSpec PqProofs1 PqProofs2.
Import ListNotations.
Local Open Scope Qc_scope.

Definition qz (k : Z) : Qc := Q2Qc (inject_Z k).

(* C417: the queue after any program *)
Theorem C417_runs V (calls : list (call V)) : never_empty calls -> exists q out, run V [] [] calls = Ok (q, out) /\ is_heap q /\ Permutation (out ++ q) (inserted calls) /\
  length out = deletions calls /\ qsize V q = (length (inserted calls) - deletions calls)%nat.
Proof.
  intro N. destruct (run_ok calls [] [] heap_nil) as (q & out & E & H & P & L); [intro k; exact (N k)|]. exists q, out. rewrite !app_nil_r in P. split; [exact E|]. split; [exact H|]. split; [exact P|]. split; [exact L|].
  unfold qsize, node in *. pose proof (Permutation_length P) as PL. rewrite app_length in PL. cbn in L. lia.
Qed.
Print Assumptions C417_runs.
Theorem C417_min V (calls : list (call V)) q out : run V [] [] calls = Ok (q, out) -> (q <> [] -> exists x, qmin V q = Some x /\ least x q) /\ (qmin V q = None <-> q = []) /\ (qempty V q = true <-> q = []).
Proof.
  intro E. assert (H := run_states calls q out [] [] heap_nil E). destruct q as [|x r]; cbn; repeat split; try discriminate; try congruence.
  intros _. exists x. split; [reflexivity|]. apply top_least, H.
Qed.
Print Assumptions C417_min.
Example C417_case : match run nat [] [] [CInsert nat (qz 5) 1%nat; CInsert nat (qz 2) 2%nat; CInsert nat (qz 9) 3%nat; CDelMin nat; CInsert nat (qz 1) 4%nat] with
  Ok (q, out) => map (fun p => (this (fst p), snd p)) q = [(1%Q, 4); (9%Q, 3); (5%Q, 1)]%nat /\ map snd out = [2]%nat | _ => False end.
Proof. vm_compute. auto. Qed.

(* C418: one deletion *)
Theorem C418_delete_min V (q : list (Qc * V)) : is_heap q -> q <> [] -> exists x q', delMin V q = Ok (x, q') /\ qmin V q = Some x /\ least x q /\ Permutation (x :: q') q /\ is_heap q'.
Proof. intros H N. destruct (pop_ok q H N) as (x & q' & A & B & C & D & E). exists x, q'. auto. Qed.
Print Assumptions C418_delete_min.
Theorem C418_insert V (q : list (Qc * V)) k v : is_heap q -> exists q', insert V q k v = Ok (q', (k, v)) /\ Permutation q' ((k, v) :: q) /\ is_heap q'.
Proof. intro H. unfold insert. destruct (push_ok q (k, v) H) as (q' & -> & A & B). exists q'. auto. Qed.
Print Assumptions C418_insert.
Theorem C418_empty V : delMin V [] = Err IndexError.
Proof. reflexivity. Qed.
Print Assumptions C418_empty.
Example C418_case : match delMin nat [(qz 1, 4); (qz 9, 3); (qz 5, 1)]%nat with Ok (x, q) => snd x = 4%nat /\ map snd q = [1; 3]%nat | _ => False end /\ is_heap [(qz 1, 4); (qz 9, 3); (qz 5, 1)]%nat.
Proof. split; [vm_compute; auto|]. intros [|[|[|i]]] I; cbn in I; try lia; unfold Qcle; vm_compute; discriminate. Qed.

(* C419: sorting with the queue *)
Theorem C419_sorted_output V (l : list (Qc * V)) : exists s, run V [] [] (map (fun p => CInsert V (fst p) (snd p)) l ++ repeat (CDelMin V) (length l)) = Ok ([], rev s) /\ sorted_keys s /\ Permutation s l.
Proof. exact (heap_sort l). Qed.
Print Assumptions C419_sorted_output.
Theorem C419_remaining_sorted V (q : list (Qc * V)) out : is_heap q -> exists s, run V q out (repeat (CDelMin V) (length q)) = Ok ([], rev s ++ out) /\ sorted_keys s /\ Permutation s q.
Proof. intro H. exact (drain_ok (length q) q out H eq_refl). Qed.
Print Assumptions C419_remaining_sorted.
Example C419_case : match run nat [] [] (map (fun p => CInsert nat (fst p) (snd p)) [(qz 3, 1); (qz 1, 2); (qz 2, 3); (qz 0, 4)]%nat ++ repeat (CDelMin nat) 4) with Ok (q, out) => q = [] /\ map snd (rev out) = [4; 2; 3; 1]%nat | _ => False end.
Proof. vm_compute. auto. Qed.

(* C420: support vector *)
Theorem C420_support_vector_partial lowest vertices d : Exists (fun v => lowest < vdot v d) vertices -> exists pre v post, vertices = pre ++ v :: post /\ support_vector lowest vertices d = v /\
  Forall (fun w => vdot w d < vdot v d) pre /\ Forall (fun w => vdot w d <= vdot v d) post.
Proof.
  intro X. unfold support_vector. destruct (support_ok d vertices lowest (repeat 0 (length d))) as [(pre & v & post & A & B & _ & C & D) | (_ & B)]; [exists pre, v, post; auto|].
  exfalso. apply Exists_exists in X. destruct X as (w & I & L). rewrite Forall_forall in B. pose proof (B w I). qlra.
Qed.
Print Assumptions C420_support_vector_partial.
Theorem C420_empty_refuted lowest vertices d : Forall (fun v => vdot v d <= lowest) vertices -> support_vector lowest vertices d = repeat 0 (length d).
Proof.
  intro F. unfold support_vector. destruct (support_ok d vertices lowest (repeat 0 (length d))) as [(pre & v & post & A & _ & L & _) | (B & _)]; [|exact B].
  exfalso. rewrite Forall_forall in F. pose proof (F v) as Q. assert (vdot v d <= lowest) by (apply Q; rewrite A; apply in_or_app; right; left; auto). qlra.
Qed.
Print Assumptions C420_empty_refuted.
Example C420_case : map this (support_vector (qz (-1000)) [[qz 1; qz 0]; [qz (-2); qz 5]; [qz 4; qz 1]; [qz 4; qz 1]] [qz 1; qz 0]) = [4; 1]%Q /\ map this (support_vector (qz (-1000)) [] [qz 1; qz 0]) = [0; 0]%Q.
Proof. vm_compute. auto. Qed.

(* C421: closest pair of two curves *)
Theorem C421_closest_pair minima c1 c2 : (minima (ccd_fun c1 c2) <> [] -> exists pre x post, minima (ccd_fun c1 c2) = pre ++ x :: post /\ proximity_points minima c1 c2 = Ok x /\
    Forall (fun y => snd x < snd y) pre /\ Forall (fun y => snd x <= snd y) post) /\ (minima (ccd_fun c1 c2) = [] -> proximity_points minima c1 c2 = Err ValueError).
Proof.
  unfold proximity_points, ccd. destruct (minima (ccd_fun c1 c2)) as [|b l]; [split; [congruence|auto]|]. split; [|discriminate]. intros _. destruct (min_by_ok l b) as (pre & x & post & A & B & C & D). exists pre, x, post. rewrite B. auto.
Qed.
Print Assumptions C421_closest_pair.
Theorem C421_squared_distance c1 c2 t s : length (c1 t) = length (c2 s) -> 0 <= ccd_fun c1 c2 t s /\ (ccd_fun c1 c2 t s = 0 <-> c1 t = c2 s).
Proof. exact (distance_ok c1 c2 t s). Qed.
Print Assumptions C421_squared_distance.
Example C421_case : match proximity_points (fun f => [(qz 0, qz 0, f (qz 0) (qz 0)); (qz 2, qz 1, f (qz 2) (qz 1)); (qz 1, qz 1, f (qz 1) (qz 1))]) (fun t => [t; qz 0]) (fun s => [s + qz 1; qz 3]) with Ok (t, s, d) => (this t, this s, this d) = (2, 1, 9)%Q | _ => False end.
Proof. vm_compute. auto. Qed.

(* C422: colours *)
Theorem C422_color_components_refuted r g b o r' g' b' o' : (r, g, b, o) <> (0, 0, 0, 0)%Z ->
  (let '(ok, r1, g1, b1, o1) := get_color (color_create r g b o) in ok = false /\ (r1, g1, b1, o1) <> (r, g, b, o)) /\ snd (set_color (color_create r' g' b' o') r g b o) = false /\ get_color (fst (set_color (color_create r' g' b' o') r g b o)) = get_color (color_create r g b o) /\
  (forall v, get_component (set_component (color_create r g b o) v) = 0%Z).
Proof. intro N. split; [cbn; split; [reflexivity|congruence]|]. auto. Qed.
Print Assumptions C422_color_components_refuted.
Example C422_case : get_color (color_create 255 128 0 255) = (false, 0, 0, 0, 0)%Z.
Proof. reflexivity. Qed.
