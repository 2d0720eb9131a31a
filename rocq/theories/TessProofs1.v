(* Tessellation parameters: loops and segments. *)
From Coq Require Import List Arith ZArith Bool QArith Qcanon Lia.
From Verif Require Import Common QcLib ListLib LuModel RtModel TessModel TessSpec RtProofs1.
Import ListNotations.
Local Open Scope list_scope.

(* the segments of a list of loops, the first starting at o *)
Fixpoint place {A} (o : nat) (loops : list (list A)) : list (nat * nat) :=
  match loops with [] => [] | l :: r => segments_by_loop l o ++ place (o + length l) r end.

Lemma sbl_length {A} (l : list A) o : length (segments_by_loop l o) = length l.
Proof. unfold segments_by_loop. rewrite map_length, seq_length. reflexivity. Qed.
Lemma next_index n i : (i < n)%nat -> ((i + 1) mod n = if (i =? n - 1)%nat then 0 else i + 1)%nat.
Proof.
  intro H. destruct (Nat.eqb_spec i (n - 1)) as [->|N].
  - replace (n - 1 + 1)%nat with n by lia. apply Nat.mod_same. lia.
  - apply Nat.mod_small. lia.
Qed.
Lemma sbl_nth {A} (l : list A) o i : (i < length l)%nat -> nth_error (segments_by_loop l o) i = Some ((o + i)%nat, (o + (if (i =? length l - 1)%nat then 0 else i + 1))%nat).
Proof.
  intro H. unfold segments_by_loop. set (f := fun i => _). rewrite (map_nth_error f i (seq 0 (length l)) (d := i)).
  - unfold f. rewrite next_index by auto. f_equal. f_equal; lia.
  - rewrite (nth_error_nth' _ 0%nat) by (rewrite seq_length; auto). rewrite seq_nth by auto. reflexivity.
Qed.
Lemma place_length {A} (loops : list (list A)) : forall o, length (place o loops) = length (concat loops).
Proof. induction loops as [|l r IH]; intro o; cbn [place concat]; [reflexivity|]. rewrite !app_length, sbl_length, IH. reflexivity. Qed.
Lemma place_app {A} (a b : list (list A)) : forall o, place o (a ++ b) = place o a ++ place (o + length (concat a)) b.
Proof.
  induction a as [|l r IH]; intro o; cbn [place concat app length].
  - f_equal. lia.
  - rewrite IH, app_length, app_assoc. f_equal. f_equal. lia.
Qed.
Lemma place_nth {A} (pre : list (list A)) l post i : (i < length l)%nat ->
  nth_error (place 0 (pre ++ l :: post)) (length (concat pre) + i) = Some ((length (concat pre) + i)%nat, (length (concat pre) + (if (i =? length l - 1)%nat then 0 else i + 1))%nat).
Proof.
  intro H. rewrite place_app. cbn [place Nat.add]. rewrite nth_error_app2 by (rewrite place_length; lia). rewrite place_length.
  replace (length (concat pre) + i - length (concat pre))%nat with i by lia. rewrite nth_error_app1 by (rewrite sbl_length; auto). apply sbl_nth, H.
Qed.
Lemma concat_nth {A} (pre : list (list A)) l post i rest : (i < length l)%nat -> nth_error (concat (pre ++ l :: post) ++ rest) (length (concat pre) + i) = nth_error l i.
Proof.
  intro H. rewrite concat_app. cbn [concat]. rewrite <- !app_assoc. rewrite nth_error_app2 by lia. replace (length (concat pre) + i - length (concat pre))%nat with i by lia.
  rewrite nth_error_app1 by auto. reflexivity.
Qed.
Lemma place_closed_up {A} (loops : list (list A)) rest : loops_closed_up loops (concat loops ++ rest) (place 0 loops).
Proof.
  split; [apply place_length|]. intros pre l post -> i H. split; [apply concat_nth, H|apply place_nth, H].
Qed.
Lemma place_in {A} (loops : list (list A)) a b : forall o, In (a, b) (place o loops) -> (o <= a < o + length (concat loops))%nat /\ (o <= b < o + length (concat loops))%nat.
Proof.
  induction loops as [|l r IH]; intros o H; cbn [place concat] in *; [destruct H|]. rewrite app_length. apply in_app_or in H. destruct H as [H|H].
  - unfold segments_by_loop in H. apply in_map_iff in H. destruct H as (i & E & Hi). apply in_seq in Hi. inversion E. assert (M := Nat.mod_upper_bound (i + 1) (length l) ltac:(lia)). lia.
  - apply IH in H. lia.
Qed.

Section Prepare.
Variable close : pt -> pt -> bool.
Lemma last_nth {A} (l : list A) x : l <> [] -> nth_error l (length l - 1) = Some (last l x).
Proof.
  intro N. destruct (exists_last N) as (l' & y & ->). rewrite last_last, app_length. cbn. rewrite nth_error_app2 by lia. replace (length l' + 1 - 1 - length l')%nat with 0%nat by lia. reflexivity.
Qed.
Lemma drop_end_open l : open_loop close l -> drop_end close l = Ok l.
Proof.
  intros (x & y & (Ex & Ey) & C). destruct l as [|a l]; [discriminate Ex|]. injection Ex as ->. unfold drop_end. rewrite (last_nth _ x) in Ey by discriminate. assert (Ey' : last (x :: l) x = y) by congruence. rewrite Ey', C. reflexivity.
Qed.
Lemma removelast_length {A} (l : list A) : length (removelast l) = (length l - 1)%nat.
Proof. destruct l as [|a r]; [reflexivity|]. assert (N : a :: r <> []) by discriminate. rewrite (app_removelast_last a N) at 2. rewrite app_length. cbn [length]. lia. Qed.
Lemma drop_end_closed l x y : ends l x y -> close x y = true -> drop_end close l = Ok (removelast l).
Proof.
  intros (Ex & Ey) C. destruct l as [|a l]; [discriminate Ex|]. injection Ex as ->. unfold drop_end. rewrite (last_nth _ x) in Ey by discriminate. assert (Ey' : last (x :: l) x = y) by congruence. rewrite Ey', C. reflexivity.
Qed.
Lemma drop_end_cases l l' : drop_end close l = Ok l' -> l' = l \/ l' = removelast l.
Proof. destruct l as [|a l]; [discriminate|]. unfold drop_end. destruct (close a _); intro E; injection E as <-; auto. Qed.
Lemma drop_end_length l l' : drop_end close l = Ok l' -> (length l' <= length l)%nat.
Proof. intro E. apply drop_end_cases in E. destruct E as [-> | ->]; [lia|]. rewrite removelast_length. lia. Qed.
(* the loops after dropping *)
Fixpoint drop_all (ls : list (list pt)) : res (list (list pt)) :=
  match ls with [] => Ok [] | l :: r => do l' <- drop_end close l ; do r' <- drop_all r ; Ok (l' :: r') end.
Lemma bnd_loop_ok bs : forall edges mx ls, drop_all bs = Ok ls -> bnd_loop close bs edges mx = Ok (edges ++ place mx ls, (mx + length (concat ls))%nat).
Proof.
  induction bs as [|b r IH]; intros edges mx ls E; cbn in E.
  - injection E as <-. cbn. rewrite app_nil_r, Nat.add_0_r. reflexivity.
  - cbn [bnd_loop]. destruct (drop_end close b) as [b'|]; [|discriminate]. cbn [bind] in *. destruct (drop_all r) as [r'|]; [|discriminate]. cbn in E. injection E as <-.
    rewrite (IH _ _ r' eq_refl). cbn [place concat]. rewrite <- app_assoc, app_length, Nat.add_assoc. reflexivity.
Qed.
Lemma hole_loop_ok hs : forall cs edges mx ls, drop_all (map (@rev pt) hs) = Ok ls -> hole_loop close hs cs edges mx = Ok (cs ++ map average ls, edges ++ place mx ls, (mx + length (concat ls))%nat).
Proof.
  induction hs as [|b r IH]; intros cs edges mx ls E; cbn in E.
  - injection E as <-. cbn. rewrite !app_nil_r, Nat.add_0_r. reflexivity.
  - cbn [hole_loop]. destruct (drop_end close (rev b)) as [b'|]; [|discriminate]. cbn [bind] in *. destruct (drop_all (map (@rev pt) r)) as [r'|]; [|discriminate]. cbn in E. injection E as <-.
    rewrite (IH _ _ _ r' eq_refl). cbn [place concat map]. rewrite <- !app_assoc, app_length, Nat.add_assoc. reflexivity.
Qed.
Lemma prepare_ok bs hs lb lh : bs ++ hs <> [] -> drop_all bs = Ok lb -> drop_all (map (@rev pt) hs) = Ok lh ->
  prepare_args close bs hs = Ok {| d_vertices := concat (bs ++ hs); d_holes := map average lh; d_segments := place 0 (lb ++ lh) |}.
Proof.
  intros N EB EH. unfold prepare_args. destruct (bs ++ hs) as [|x y] eqn:EL; [congruence|]. rewrite (bnd_loop_ok _ _ _ _ EB). cbn [bind app]. rewrite (hole_loop_ok _ _ _ _ _ EH). cbn. rewrite place_app. reflexivity.
Qed.
Lemma drop_all_open ls : Forall (open_loop close) ls -> drop_all ls = Ok ls.
Proof. induction 1 as [|l r H _ IH]; cbn; [reflexivity|]. rewrite (drop_end_open _ H). cbn. rewrite IH. reflexivity. Qed.
Lemma drop_all_length ls : forall ls', drop_all ls = Ok ls' -> (length (concat ls') <= length (concat ls))%nat.
Proof.
  induction ls as [|l r IH]; intros ls' E; cbn in E.
  - injection E as <-. auto.
  - destruct (drop_end close l) as [l'|] eqn:EL; [|discriminate]. cbn in E. destruct (drop_all r) as [r'|]; [|discriminate]. cbn in E. injection E as <-. cbn [concat]. rewrite !app_length. assert (A := drop_end_length _ _ EL). specialize (IH _ eq_refl). lia.
Qed.
Lemma drop_all_nonempty ls : Forall (fun l => l <> []) ls -> exists ls', drop_all ls = Ok ls'.
Proof.
  induction 1 as [|l r H _ (r' & IH)]; [exists []; reflexivity|]. destruct l as [|a l]; [congruence|]. cbn [drop_all drop_end bind]. rewrite IH. cbn. eauto.
Qed.
(* reversing every loop changes no segment *)
Lemma place_same_lengths {A B} (a : list (list A)) : forall (b : list (list B)) o, map (@length A) a = map (@length B) b -> place o a = place o b.
Proof.
  induction a as [|l r IH]; intros [|m s] o E; try discriminate; [reflexivity|]. cbn in *. injection E as E1 E2. unfold segments_by_loop. rewrite E1, (IH s _ E2). reflexivity.
Qed.
Lemma open_rev (l : list pt) x y : ends l x y -> ends (rev l) y x.
Proof.
  intros (A & B). destruct l as [|a l]; [discriminate|]. injection A as ->. unfold ends. rewrite rev_length. split.
  - assert (N : x :: l <> []) by discriminate. destruct (exists_last N) as (l' & z & E). rewrite E in *. rewrite rev_app_distr. cbn. rewrite app_length in B. cbn in B. rewrite nth_error_app2 in B by lia. replace (length l' + 1 - 1 - length l')%nat with 0%nat in B by lia. exact B.
  - cbn [rev length]. rewrite nth_error_app2 by (rewrite rev_length; lia). rewrite rev_length. replace (S (length l) - 1 - length l)%nat with 0%nat by lia. reflexivity.
Qed.
End Prepare.
