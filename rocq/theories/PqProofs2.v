(* Runs of the queue, support vector, closest pair. *)
From Coq Require Import List Arith ZArith Bool QArith Qcanon Lia Permutation.
From Verif Require Import Common QcLib ListLib LuModel LuProofs1 PqModel PqSpec PqProofs1.
Import ListNotations.
Local Open Scope Qc_scope.

Section Runs.
Context {V : Type}.
Implicit Types q out : list (Qc * V).
Lemma run_ok (calls : list (call V)) : forall q out, is_heap q -> (forall k, deletions (firstn k calls) <= length q + length (inserted (firstn k calls)))%nat ->
  exists q' out', run V q out calls = Ok (q', out') /\ is_heap q' /\ Permutation (out' ++ q') (inserted calls ++ out ++ q) /\ length out' = (length out + deletions calls)%nat.
Proof.
  induction calls as [|c calls IH]; intros q out H N.
  - exists q, out. repeat split; auto.
  - destruct c as [k v|]; cbn [run].
    + unfold insert. destruct (push_ok q (k, v) H) as (q1 & -> & H1 & P1). cbn [bind]. destruct (IH q1 out H1) as (q' & out' & E & H' & P' & L').
      * intro j. specialize (N (S j)). cbn in N. rewrite (Permutation_length P1). cbn. cbn [deletions filter] in N. unfold deletions, inserted in *. lia.
      * exists q', out'. split; [exact E|]. split; [exact H'|]. split; [|exact L']. eapply perm_trans; [exact P'|]. cbn [inserted flat_map app]. fold (inserted calls). eapply perm_trans; [apply Permutation_app_head, Permutation_app_head, P1|].
        eapply perm_trans; [apply Permutation_app_head, Permutation_sym, Permutation_middle|]. apply Permutation_sym, Permutation_middle.
    + destruct q as [|t r]; [specialize (N 1%nat); cbn in N; lia|]. destruct (pop_ok (t :: r) H) as (x & q1 & E1 & H1 & P1 & _); [discriminate|]. unfold delMin. rewrite E1. cbn [bind].
      destruct (IH q1 (x :: out) H1) as (q' & out' & E & H' & P' & L').
      * intro j. specialize (N (S j)). pose proof (Permutation_length P1) as PL. cbn in PL. unfold deletions, inserted in *. cbn in N. cbn in N |- *. unfold node in *. lia.
      * exists q', out'. split; [exact E|]. split; [exact H'|]. split; [|cbn in L'; unfold deletions in *; cbn; lia]. eapply perm_trans; [exact P'|]. cbn [inserted flat_map app]. fold (inserted calls). apply Permutation_app_head. cbn [app].
        eapply perm_trans; [apply Permutation_middle|]. apply Permutation_app_head. exact P1.
Qed.
Lemma drain_ok n : forall q out, is_heap q -> length q = n -> exists s, run V q out (repeat (CDelMin V) n) = Ok ([], rev s ++ out) /\ sorted_keys s /\ Permutation s q.
Proof.
  induction n as [|n IH]; intros q out H L.
  - destruct q; [|discriminate]. exists []. repeat split; auto.
  - cbn [repeat run]. destruct (pop_ok q H) as (x & q1 & E1 & H1 & P1 & (_ & LE) & _); [destruct q; discriminate|]. unfold delMin. rewrite E1. cbn [bind]. pose proof (Permutation_length P1) as PL. cbn in PL.
    destruct (IH q1 (x :: out) H1) as (s & E & S & P); [unfold node in *; lia|]. exists (x :: s). split; [rewrite E; cbn [rev]; rewrite <- app_assoc; reflexivity|]. split; [|eapply perm_trans; [apply perm_skip, P|exact P1]].
    destruct s as [|y s]; [exact I|]. cbn [sorted_keys]. split; [|exact S]. rewrite Forall_forall in LE. apply LE. apply (Permutation_in y P1). right. apply (Permutation_in y P). left; auto.
Qed.
Lemma run_app a : forall b q out, run V q out (a ++ b) = do r <- run V q out a ; run V (fst r) (snd r) b.
Proof.
  induction a as [|c a IH]; intros b q out; [reflexivity|]. destruct c as [k v|]; cbn [app run].
  - destruct (insert V q k v) as [[q1 z]|]; cbn [bind]; auto.
  - destruct (delMin V q) as [[x q1]|]; cbn [bind]; auto.
Qed.
Lemma inserts_only l : inserted (map (fun p => CInsert V (fst p) (snd p)) l) = l /\ deletions (map (fun p => CInsert V (fst p) (snd p)) l) = 0%nat.
Proof. unfold inserted, deletions. induction l as [|[k v] l (IH1 & IH2)]; cbn; auto. rewrite IH1. auto. Qed.
Lemma firstn_inserts l k : firstn k (map (fun p => CInsert V (fst p) (snd p)) l) = map (fun p => CInsert V (fst p) (snd p)) (firstn k l).
Proof. apply firstn_map. Qed.
Lemma heap_nil : is_heap (@nil (Qc * V)).
Proof. intros i I. cbn in I. lia. Qed.
Lemma heap_sort (l : list (Qc * V)) : exists s, run V [] [] (map (fun p => CInsert V (fst p) (snd p)) l ++ repeat (CDelMin V) (length l)) = Ok ([], rev s) /\ sorted_keys s /\ Permutation s l.
Proof.
  destruct (run_ok (map (fun p => CInsert V (fst p) (snd p)) l) [] [] heap_nil) as (q & out & E & H & P & L).
  - intro k. rewrite firstn_inserts, (proj2 (inserts_only _)). lia.
  - rewrite (proj2 (inserts_only l)) in L. destruct out; [|cbn in L; lia]. rewrite (proj1 (inserts_only l)), !app_nil_r in P. cbn [app] in P. rewrite run_app. unfold node in *. rewrite E. cbn [bind fst snd].
    destruct (drain_ok (length l) q [] H (Permutation_length P)) as (s & E' & S & P'). exists s. rewrite E', app_nil_r. split; [reflexivity|]. split; [exact S|]. eapply perm_trans; eauto.
Qed.
Lemma run_states (calls : list (call V)) q' out' : forall q out, is_heap q -> run V q out calls = Ok (q', out') -> is_heap q'.
Proof.
  induction calls as [|c calls IH]; intros q out H E; cbn [run] in E; [injection E as <- <-; exact H|]. destruct c as [k v|].
  - unfold insert in E. destruct (push_ok q (k, v) H) as (q1 & E1 & H1 & _). rewrite E1 in E. cbn [bind] in E. exact (IH _ _ H1 E).
  - unfold delMin in E. destruct q as [|t r]; [discriminate|]. destruct (pop_ok (t :: r) H) as (x & q1 & E1 & H1 & _); [discriminate|]. rewrite E1 in E. cbn [bind] in E. exact (IH _ _ H1 E).
Qed.
End Runs.

Lemma support_ok d vs : forall hi s, (exists pre v post, vs = pre ++ v :: post /\ support_loop d vs hi s = v /\ hi < vdot v d /\ Forall (fun w => vdot w d < vdot v d) pre /\ Forall (fun w => vdot w d <= vdot v d) post) \/
  (support_loop d vs hi s = s /\ Forall (fun w => vdot w d <= hi) vs).
Proof.
  induction vs as [|v vs IH]; intros hi s; [right; split; auto|]. cbn [support_loop]. destruct (qlt hi (vdot v d)) eqn:C; [apply qlt_true in C|apply qlt_false in C].
  - left. destruct (IH (vdot v d) v) as [(pre & w & post & -> & -> & A & B & D) | (-> & B)].
    + exists (v :: pre), w, post. repeat split; auto. apply (Qclt_trans _ (vdot v d)); auto.
    + exists [], v, vs. repeat split; auto.
  - destruct (IH hi s) as [(pre & w & post & -> & -> & A & B & D) | (-> & B)]; [left|right; split; auto]. exists (v :: pre), w, post. repeat split; auto. constructor; auto. apply (Qcle_lt_trans _ hi); auto.
Qed.
Lemma min_by_ok l : forall b, exists pre x post, b :: l = pre ++ x :: post /\ min_by b l = x /\ Forall (fun y => snd x < snd y) pre /\ Forall (fun y => snd x <= snd y) post.
Proof.
  induction l as [|y l IH]; intro b; [exists [], b, []; repeat split; auto|]. cbn [min_by]. destruct (qlt (snd y) (snd b)) eqn:C; [apply qlt_true in C|apply qlt_false in C].
  - destruct (IH y) as (pre & x & post & E & M & A & B). exists (b :: pre), x, post. rewrite E. repeat split; auto. constructor; auto.
    destruct pre as [|z pre]; cbn in E; injection E as E1 E2; [subst y; exact C|]. subst z. inversion A; subst. apply (Qclt_trans _ (snd y)); auto.
  - destruct (IH b) as (pre & x & post & E & M & A & B). destruct pre as [|z pre]; cbn in E; injection E as E1 E2.
    + exists [], b, (y :: l). subst b. rewrite <- E2 in B. repeat split; auto. 
    + subst z. exists (b :: y :: pre), x, post. split; [rewrite E2; reflexivity|]. split; [exact M|]. split; [|exact B]. inversion A as [|? ? A1 A2]; subst. constructor; [exact A1|]. constructor; [exact (Qclt_le_trans _ _ _ A1 C)|exact A2].
Qed.
Lemma vdot_self l : 0 <= vdot l l /\ (vdot l l = 0 -> Forall (fun x => x = 0) l).
Proof.
  unfold vdot. induction l as [|x l (IH1 & IH2)]; cbn [combine map fold_right fst snd]; [split; [qlra|auto]|]. assert (S : 0 <= x * x) by qnra.
  split; [qlra|]. intro E. assert (X : x * x = 0) by (apply Qcle_antisym; qlra). constructor; [destruct (Qcmult_integral _ _ X); auto|apply IH2; qlra].
Qed.
Lemma distance_ok c1 c2 t s : length (c1 t) = length (c2 s) -> 0 <= ccd_fun c1 c2 t s /\ (ccd_fun c1 c2 t s = 0 <-> c1 t = c2 s).
Proof.
  intro L. unfold ccd_fun. split; [apply vdot_self|]. revert L. generalize (c1 t) as a. generalize (c2 s) as b. intros b a L. split.
  - intro E. apply vdot_self in E. revert b L E. induction a as [|x a IH]; intros [|y b] L E; try discriminate; auto. cbn in E, L. inversion E; subst. injection L as L. assert (x = y) by qlra. subst. f_equal. apply IH; auto.
  - intros ->. clear L. unfold vdot. induction b as [|y b IH]; auto. cbn. cbn in IH. rewrite IH. ring.
Qed.
