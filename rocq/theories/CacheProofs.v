(* Lemmas for CacheProps.v. *)
From Coq Require Import List ZArith Bool QArith Qcanon Lia.
From Verif Require Import Common QcLib ListLib ArrZ NurbsModel NurbsEditModel CacheModel CacheSpec.
Import ListNotations.
Local Open Scope Qc_scope.

Definition valid (s : st) (o : obj) : Prop := forall t v, In (t, v) (o_cache o) -> v = evaluate (curve_of s o) t.
(* curves do not share arrays *)
Record struct (s : st) : Prop := {
  s_bound : forall i o, nth_error (objs s) i = Some o -> o_bound o = i;
  s_pts : forall i o, nth_error (objs s) i = Some o -> (o_pts o < length (parr s))%nat;
  s_knots : forall i o, nth_error (objs s) i = Some o -> (o_knots o < length (karr s))%nat;
  s_sepp : forall i j o p, nth_error (objs s) i = Some o -> nth_error (objs s) j = Some p -> i <> j -> o_pts o <> o_pts p;
  s_sepk : forall i j o p, nth_error (objs s) i = Some o -> nth_error (objs s) j = Some p -> i <> j -> o_knots o <> o_knots p }.
(* the other curves are as they were *)
Definition others (i : nat) (s0 s : st) : Prop := forall j, j <> i -> nth_error (objs s) j = nth_error (objs s0) j /\ forall o, nth_error (objs s) j = Some o -> curve_of s o = curve_of s0 o.
Definition inv_but (i : nat) (s0 s : st) : Prop := struct s /\ others i s0 s.
Definition good (i : nat) (s0 s : st) : Prop := struct s /\ others i s0 s /\ forall o, nth_error (objs s) i = Some o -> valid s o.
Definition inv (s : st) : Prop := struct s /\ forall j o, nth_error (objs s) j = Some o -> valid s o.
Lemma inv_weak i s : inv s -> inv_but i s s.
Proof. intros [S V]. split; [exact S|]. intros j N. auto. Qed.
Lemma inv_good i s : inv s -> good i s s.
Proof. intros [S V]. split; [exact S|]. split; [intros j N; auto|]. intros o H. exact (V i o H). Qed.
Lemma good_weak i s0 s : good i s0 s -> inv_but i s0 s.
Proof. intros [S [O _]]. split; assumption. Qed.
Lemma good_inv i s0 s : inv s0 -> good i s0 s -> inv s.
Proof.
  intros [_ V0] [S [O V]]. split; [exact S|]. intros j o H. destruct (Nat.eq_dec j i) as [->|N]; [exact (V o H)|]. destruct (O j N) as [E C]. intros t v I. rewrite (C o H). rewrite E in H. exact (V0 j o H t v I).
Qed.

Lemma with_obj_some s i f o : nth_error (objs s) i = Some o -> with_obj s i f = set_obj s i (f o).
Proof. intros H. unfold with_obj. rewrite H. reflexivity. Qed.
Lemma with_obj_none s i f : nth_error (objs s) i = None -> with_obj s i f = s.
Proof. intros H. unfold with_obj. rewrite H. reflexivity. Qed.
Lemma get_set s i j o : nth_error (objs (set_obj s i o)) j = if Nat.eqb i j then (if Nat.ltb j (length (objs s)) then Some o else None) else nth_error (objs s) j.
Proof.
  unfold set_obj. cbn [objs]. destruct (Nat.eqb_spec i j) as [->|N].
  - destruct (Nat.ltb_spec j (length (objs s))); [apply nth_error_upd_eq; assumption|apply nth_error_None; rewrite upd_length; lia].
  - apply nth_error_upd_neq, N.
Qed.
Lemma get_set_inv s i o p j q : nth_error (objs s) i = Some p -> nth_error (objs (set_obj s i o)) j = Some q -> (j = i /\ q = o) \/ (j <> i /\ nth_error (objs s) j = Some q).
Proof.
  intros I H. rewrite get_set in H. destruct (Nat.eqb_spec i j) as [->|N]; [|right; split; [lia|exact H]]. pose proof (nth_error_lt _ _ _ I) as L. apply Nat.ltb_lt in L. rewrite L in H. injection H as <-. left. auto.
Qed.
(* a change of curve i that keeps to itself *)
Lemma change s0 s s' i o o' : inv_but i s0 s -> nth_error (objs s) i = Some o -> objs s' = upd (objs s) i o' -> o_bound o' = i ->
  (length (parr s) <= length (parr s'))%nat -> (length (karr s) <= length (karr s'))%nat ->
  (forall l, (l < length (parr s))%nat -> l <> o_pts o -> nth l (parr s') [] = nth l (parr s) []) ->
  (forall l, (l < length (karr s))%nat -> l <> o_knots o -> nth l (karr s') [] = nth l (karr s) []) ->
  (o_pts o' = o_pts o \/ (length (parr s) <= o_pts o' < length (parr s'))%nat) -> (o_knots o' = o_knots o \/ (length (karr s) <= o_knots o' < length (karr s'))%nat) -> inv_but i s0 s'.
Proof.
  intros [S V] I O B LP LK EP EK CP CK. destruct S as [S1 S2 S3 S4 S5].
  assert (G : forall j q, nth_error (objs s') j = Some q -> (j = i /\ q = o') \/ (j <> i /\ nth_error (objs s) j = Some q)) by (intros j q H; apply (get_set_inv s i o' o j q I); cbn; rewrite <- O; exact H).
  pose proof (S2 i o I) as IP. pose proof (S3 i o I) as IK.
  split; [constructor|].
  - intros j q H. destruct (G j q H) as [[-> ->]|[N H']]; [exact B|exact (S1 j q H')].
  - intros j q H. destruct (G j q H) as [[-> ->]|[N H']]; [lia|]. specialize (S2 j q H'). lia.
  - intros j q H. destruct (G j q H) as [[-> ->]|[N H']]; [lia|]. specialize (S3 j q H'). lia.
  - intros j k q r H K N. destruct (G j q H) as [[-> ->]|[Nj H']], (G k r K) as [[-> ->]|[Nk K']].
    + congruence.
    + pose proof (S4 i k o r I K' N). pose proof (S2 k r K'). lia.
    + pose proof (S4 i j o q I H' ltac:(lia)). pose proof (S2 j q H'). lia.
    + exact (S4 j k q r H' K' N).
  - intros j k q r H K N. destruct (G j q H) as [[-> ->]|[Nj H']], (G k r K) as [[-> ->]|[Nk K']].
    + congruence.
    + pose proof (S5 i k o r I K' N). pose proof (S3 k r K'). lia.
    + pose proof (S5 i j o q I H' ltac:(lia)). pose proof (S3 j q H'). lia.
    + exact (S5 j k q r H' K' N).
  - intros j N. destruct (V j N) as [V1 V2]. split; [rewrite O, nth_error_upd_neq by auto; exact V1|]. intros q H. destruct (G j q H) as [[-> _]|[_ H']]; [congruence|]. rewrite <- (V2 q H'). unfold curve_of. pose proof (S2 j q H'). pose proof (S3 j q H'). pose proof (S4 j i q o H' I N). pose proof (S5 j i q o H' I N). rewrite EP, EK by assumption. reflexivity.
Qed.
Lemma nth_app_l {A} (l m : list A) d k : (k < length l)%nat -> nth k (l ++ m) d = nth k l d.
Proof. intros H. apply app_nth1, H. Qed.
Lemma nth_upd_other {A} (l : list A) d k j v : k <> j -> nth k (upd l j v) d = nth k l d.
Proof. intros N. destruct (Nat.lt_ge_cases k (length l)) as [L|L]; [|rewrite !nth_overflow; [reflexivity|assumption|rewrite upd_length; assumption]]. apply nth_error_nth. rewrite nth_error_upd_neq by auto. apply nth_error_nth', L. Qed.

Section Keep.
Variables (i : nat) (s0 : st).
Lemma keep_none s f : inv_but i s0 s -> nth_error (objs s) i = None -> inv_but i s0 (with_obj s i f).
Proof. intros H N. rewrite with_obj_none by exact N. exact H. Qed.
Lemma keep_grow s P K : inv_but i s0 s -> nth_error (objs s) i = None -> inv_but i s0 {| parr := parr s ++ P; karr := karr s ++ K; objs := objs s |}.
Proof.
  intros [[S1 S2 S3 S4 S5] V] N. split; [constructor; cbn; try assumption|].
  - intros j o H. rewrite app_length. specialize (S2 j o H). lia.
  - intros j o H. rewrite app_length. specialize (S3 j o H). lia.
  - intros j D. destruct (V j D) as [V1 V2]. cbn. split; [exact V1|]. intros o H. rewrite <- (V2 o H). unfold curve_of. cbn. rewrite !app_nth1 by eauto. reflexivity.
Qed.
Ltac bound_of S I := let B := fresh in pose proof (s_bound _ S _ _ I) as B; cbn [o_bound]; exact B.
Lemma keep_put_pts P s : inv_but i s0 s -> inv_but i s0 (put_pts i P s).
Proof.
  intros H. unfold put_pts. destruct (nth_error (objs s) i) as [o|] eqn:E.
  - rewrite (with_obj_some _ _ _ o) by exact E. eapply (change s0 s); [exact H|exact E|reflexivity|bound_of (proj1 H) E|cbn; rewrite app_length; lia|cbn; lia|cbn; intros l L _; apply app_nth1, L|reflexivity|right; cbn; rewrite app_length; cbn; lia|left; reflexivity].
  - rewrite with_obj_none by exact E. replace (karr s) with (karr s ++ []) by apply app_nil_r. apply keep_grow; assumption.
Qed.
Lemma keep_put_knots K s : inv_but i s0 s -> inv_but i s0 (put_knots i K s).
Proof.
  intros H. unfold put_knots. destruct (nth_error (objs s) i) as [o|] eqn:E.
  - rewrite (with_obj_some _ _ _ o) by exact E. eapply (change s0 s); [exact H|exact E|reflexivity|bound_of (proj1 H) E|cbn; lia|cbn; rewrite app_length; lia|reflexivity|cbn; intros l L _; apply app_nth1, L|left; reflexivity|right; cbn; rewrite app_length; cbn; lia].
  - rewrite with_obj_none by exact E. replace (parr s) with (parr s ++ []) by apply app_nil_r. apply keep_grow; assumption.
Qed.
Ltac simple H := match goal with |- inv_but _ _ (with_obj ?s _ _) => let E := fresh in destruct (nth_error (objs s) i) as [o|] eqn:E; [rewrite (with_obj_some _ _ _ o) by exact E; eapply (change s0 s); [exact H|exact E|reflexivity|bound_of (proj1 H) E|cbn; lia|cbn; lia|reflexivity|reflexivity|left; reflexivity|left; reflexivity]|rewrite with_obj_none by exact E; exact H] end.
Lemma keep_deg d s : inv_but i s0 s -> inv_but i s0 (put_deg i d s).
Proof. intros H. unfold put_deg. simple H. Qed.
Lemma keep_per d s : inv_but i s0 s -> inv_but i s0 (put_per i d s).
Proof. intros H. unfold put_per. simple H. Qed.
Lemma keep_int d s : inv_but i s0 s -> inv_but i s0 (put_int i d s).
Proof. intros H. unfold put_int. simple H. Qed.
Lemma keep_cache d s : inv_but i s0 s -> inv_but i s0 (put_cache i d s).
Proof. intros H. unfold put_cache. simple H. Qed.
Lemma keep_write_pts P s : inv_but i s0 s -> inv_but i s0 (write_pts i P s).
Proof.
  intros H. unfold write_pts. destruct (nth_error (objs s) i) as [o|] eqn:E; [|exact H]. apply (change s0 s _ i o o); [exact H|exact E|cbn; symmetry; apply upd_same, E|exact (s_bound _ (proj1 H) _ _ E)|cbn; rewrite upd_length; lia|cbn; lia|cbn; intros l _ N; apply nth_upd_other, N|reflexivity|left; reflexivity|left; reflexivity].
Qed.
Lemma keep_write_knots K s : inv_but i s0 s -> inv_but i s0 (write_knots i K s).
Proof.
  intros H. unfold write_knots. destruct (nth_error (objs s) i) as [o|] eqn:E; [|exact H]. apply (change s0 s _ i o o); [exact H|exact E|cbn; symmetry; apply upd_same, E|exact (s_bound _ (proj1 H) _ _ E)|cbn; lia|cbn; rewrite upd_length; lia|reflexivity|cbn; intros l _ N; apply nth_upd_other, N|left; reflexivity|left; reflexivity].
Qed.
Lemma keep_assign_knots k s : own k -> inv_but i s0 s -> inv_but i s0 (assign_knots i k s).
Proof. destruct k; [intros _; apply keep_put_knots|intros []]. Qed.
Lemma cleared s : inv_but i s0 s -> good i s0 (clear i s).
Proof.
  intros H. pose proof (keep_cache [] s H) as [S V]. split; [exact S|]. split; [exact V|]. intros o G.
  unfold clear, put_cache in G. destruct (nth_error (objs s) i) as [p|] eqn:E; [|rewrite with_obj_none in G by exact E; congruence]. rewrite (with_obj_some _ _ _ p) in G by exact E. destruct (get_set_inv _ _ _ _ _ _ E G) as [[_ ->]|[C _]]; [|congruence]. intros t v [].
Qed.
End Keep.

(* what is stored where *)
Lemma get_blank s b : nth_error (objs (blank s b)) (length (objs s)) = Some {| o_pts := length (parr s); o_knots := length (karr s); o_deg := 0; o_per := false; o_int := (0, 0); o_bound := b; o_cache := [] |}.
Proof. cbn. rewrite nth_error_app2 by lia. rewrite Nat.sub_diag. reflexivity. Qed.
Lemma keep_blank s : inv s -> inv_but (length (objs s)) s (blank s (length (objs s))).
Proof.
  intros [[S1 S2 S3 S4 S5] V].
  assert (G : forall j q, nth_error (objs (blank s (length (objs s)))) j = Some q -> (j = length (objs s) /\ q = {| o_pts := length (parr s); o_knots := length (karr s); o_deg := 0; o_per := false; o_int := (0, 0); o_bound := length (objs s); o_cache := [] |}) \/ (nth_error (objs s) j = Some q)).
  { intros j q H. destruct (Nat.lt_trichotomy j (length (objs s))) as [L|[->|L]]; [right; cbn in H; rewrite nth_error_app1 in H by exact L; exact H|left; rewrite get_blank in H; injection H as <-; auto|exfalso; pose proof (nth_error_lt _ _ _ H) as X; cbn in X; rewrite app_length in X; cbn in X; lia]. }
  split; [constructor; cbn [blank parr karr]|].
  - intros j q H. destruct (G j q H) as [[-> ->]|H']; [reflexivity|exact (S1 j q H')].
  - intros j q H. rewrite app_length. cbn. destruct (G j q H) as [[-> ->]|H']; [cbn; lia|]. specialize (S2 j q H'). lia.
  - intros j q H. rewrite app_length. cbn. destruct (G j q H) as [[-> ->]|H']; [cbn; lia|]. specialize (S3 j q H'). lia.
  - intros j k q r H K N. destruct (G j q H) as [[-> ->]|H'], (G k r K) as [[-> ->]|K']; cbn; [congruence|specialize (S2 k r K'); lia|specialize (S2 j q H'); lia|exact (S4 j k q r H' K' N)].
  - intros j k q r H K N. destruct (G j q H) as [[-> ->]|H'], (G k r K) as [[-> ->]|K']; cbn; [congruence|specialize (S3 k r K'); lia|specialize (S3 j q H'); lia|exact (S5 j k q r H' K' N)].
  - intros j N. assert (E : nth_error (objs (blank s (length (objs s)))) j = nth_error (objs s) j). { cbn. destruct (Nat.lt_ge_cases j (length (objs s))) as [L|L]; [apply nth_error_app1, L|]. rewrite (proj2 (nth_error_None (objs s) j) L). apply nth_error_None. rewrite app_length. cbn. lia. }
    split; [exact E|]. intros q H. rewrite E in H. unfold curve_of. cbn. rewrite !app_nth1 by eauto. reflexivity.
Qed.
(* an empty cache is no obstacle *)
Definition no_cache (i : nat) (s : st) : Prop := forall o, nth_error (objs s) i = Some o -> o_cache o = [].
Lemma inv_strong i s0 s : inv_but i s0 s -> no_cache i s -> good i s0 s.
Proof. intros [S V] N. split; [exact S|]. split; [exact V|]. intros o H t v I. rewrite (N o H) in I. destruct I. Qed.
Lemma no_cache_with i s f : (forall o, o_cache (f o) = o_cache o) -> no_cache i s -> no_cache i (with_obj s i f).
Proof.
  intros F N o H. destruct (nth_error (objs s) i) as [p|] eqn:E; [|rewrite with_obj_none in H by exact E; apply N, H]. rewrite (with_obj_some _ _ _ p) in H by exact E. destruct (get_set_inv _ _ _ _ _ _ E H) as [[_ ->]|[C _]]; [|congruence]. rewrite F. apply N, E.
Qed.
Lemma no_cache_same i s s' : objs s' = objs s -> no_cache i s -> no_cache i s'.
Proof. intros E N o H. rewrite E in H. apply N, H. Qed.
Lemma no_cache_put_pts i P s : no_cache i s -> no_cache i (put_pts i P s).
Proof. intros N. apply no_cache_with; [reflexivity|]. apply (no_cache_same i s); [reflexivity|exact N]. Qed.
Lemma no_cache_put_knots i P s : no_cache i s -> no_cache i (put_knots i P s).
Proof. intros N. apply no_cache_with; [reflexivity|]. apply (no_cache_same i s); [reflexivity|exact N]. Qed.

Definition good_out (i : nat) (s0 : st) (r : st * res out) : Prop := good i s0 (fst r).
Lemma at_inv i j s0 s k : good j s0 s -> (forall o, nth_error (objs s) i = Some o -> good_out j s0 (k (curve_of s o))) -> good_out j s0 (at_ i s k).
Proof. intros H K. unfold at_. destruct (nth_error (objs s) i) as [o|] eqn:E; [apply K; reflexivity|exact H]. Qed.
Lemma hook_inv i s0 s k : (forall v, good_out i s0 (k (put_int i v s))) -> (forall o, nth_error (objs s) i = Some o -> nth (o_knots o) (karr s) [] <> []) -> nth_error (objs s) i <> None -> good_out i s0 (hook i s k).
Proof.
  intros K E N. unfold hook, at_. destruct (nth_error (objs s) i) as [o|] eqn:G; [|congruence]. unfold update_interval. cbn [curve_of c_knots]. specialize (E o eq_refl). set (U := nth (o_knots o) (karr s) []) in *. assert (L : (0 < lenZ U)%Z) by (destruct U; [congruence|unfold lenZ; cbn; lia]). rewrite (rdZ_ok 0 U 0) by lia. cbn [bind]. rewrite (rdZ_ok 0 U (lenZ U - 1)) by lia. cbn [bind]. apply K.
Qed.
Lemma get_put_knots i K s o : nth_error (objs (put_knots i K s)) i = Some o -> nth (o_knots o) (karr (put_knots i K s)) [] = K.
Proof.
  unfold put_knots. intros H. destruct (nth_error (objs s) i) as [p|] eqn:E.
  - rewrite (with_obj_some _ _ _ p) in * by exact E. destruct (get_set_inv _ _ _ _ _ _ E H) as [[_ ->]|[C _]]; [|congruence]. cbn. rewrite app_nth2 by lia. rewrite Nat.sub_diag. reflexivity.
  - rewrite with_obj_none in H by exact E. cbn in H. congruence.
Qed.
Lemma with_obj_in s i f : nth_error (objs s) i <> None -> nth_error (objs (with_obj s i f)) i <> None.
Proof. intros N. destruct (nth_error (objs s) i) as [p|] eqn:E; [|congruence]. rewrite (with_obj_some _ _ _ p) by exact E. rewrite get_set, Nat.eqb_refl. pose proof (nth_error_lt _ _ _ E) as L. apply Nat.ltb_lt in L. rewrite L. discriminate. Qed.
Lemma put_knots_in i K s : nth_error (objs s) i <> None -> nth_error (objs (put_knots i K s)) i <> None.
Proof. intros N. apply with_obj_in, N. Qed.
Lemma put_pts_in i K s : nth_error (objs s) i <> None -> nth_error (objs (put_pts i K s)) i <> None.
Proof. intros N. apply with_obj_in, N. Qed.
Lemma length_with s i f : length (objs (with_obj s i f)) = length (objs s).
Proof. unfold with_obj. destruct (nth_error (objs s) i); [cbn; apply upd_length|reflexivity]. Qed.

Lemma ne_repeat {A} (x : A) n l : (0 < n)%nat -> repeat x n ++ l <> [].
Proof. destruct n; [lia|discriminate]. Qed.
Lemma periodic_knots_ne P d : is_periodic P d = false -> generate_knots_periodic (lenZ (P ++ firstn (Z.to_nat d) P)) d <> [].
Proof.
  intros H. unfold generate_knots_periodic. assert (D : (0 < d)%Z). { destruct (Z.leb_spec d 0) as [L|L]; [|exact L]. unfold is_periodic in H. replace (Z.to_nat d) with O in H by lia. discriminate. }
  pose proof (lenZ_nonneg (P ++ firstn (Z.to_nat d) P)). destruct (Z.to_nat (lenZ (P ++ firstn (Z.to_nat d) P) + d + 1)) eqn:E; [lia|discriminate].
Qed.
Lemma make_periodic_inv i s0 s : good i s0 s -> good_out i s0 (make_periodic_ i s).
Proof.
  intros H. apply at_inv; [exact H|]. intros o E. destruct (is_periodic _ _) eqn:P; [exact H|]. assert (I : nth_error (objs s) i <> None) by congruence. apply hook_inv.
  - intros v. apply cleared, keep_per, keep_int, keep_put_knots, keep_put_pts, good_weak, H.
  - intros p G. rewrite (get_put_knots _ _ _ _ G). apply periodic_knots_ne, P.
  - apply put_knots_in, put_pts_in, I.
Qed.
Lemma new_inv P d k b s : match k with Some k => own k | None => True end -> inv s -> good_out (length (objs s)) s (new P d k b s).
Proof.
  intros O H. unfold new. set (i := length (objs s)). set (s1 := put_pts i P _). assert (B1 : inv_but i s s1) by (apply keep_put_pts, keep_per, keep_deg, keep_blank, H).
  assert (N1 : no_cache i s1). { apply no_cache_put_pts, no_cache_with; [reflexivity|]. apply no_cache_with; [reflexivity|]. intros o G. unfold i in G. rewrite get_blank in G. injection G as <-. reflexivity. }
  set (s2 := match k with Some k => assign_knots i k s1 | None => _ end). assert (B2 : inv_but i s s2 /\ no_cache i s2). { unfold s2. destruct k as [[K|l]|]; [split; [apply keep_put_knots, B1|apply no_cache_put_knots, N1]|destruct O|split; [apply keep_put_knots, B1|apply no_cache_put_knots, N1]]. } destruct B2 as [B2 N2]. clearbody s2.
  unfold hook, at_. destruct (nth_error (objs s2) i) as [o|]; [|apply inv_strong; assumption]. destruct (update_interval _) as [v|]; [|apply inv_strong; assumption]. assert (B3 : good i s (put_int i v s2)) by (apply inv_strong; [apply keep_int, B2|apply no_cache_with; [reflexivity|exact N2]]).
  destruct b; [|exact B3]. pose proof (make_periodic_inv i s _ B3) as M. unfold good_out in *. destruct (make_periodic_ i _) as [s4 [r|e]]; exact M.
Qed.
Lemma set_weights_inv i w s0 s : inv_but i s0 s -> (forall o, nth_error (objs s) i = Some o -> length w = length (nth (o_pts o) (parr s) []) \/ valid s o) -> good i s0 (fst (set_weights i w s)).
Proof.
  intros H V. unfold set_weights, at_. destruct (nth_error (objs s) i) as [o|] eqn:E.
  - specialize (V o eq_refl). cbn [curve_of c_pts]. destruct (negb _) eqn:L; [|cbn; apply cleared, keep_write_pts, H]. destruct V as [V|V]; [unfold lenZ in L; rewrite V, Z.eqb_refl in L; discriminate|]. cbn. destruct H as [S U]. split; [exact S|]. split; [exact U|]. intros p G. rewrite E in G. injection G as <-. exact V.
  - cbn. destruct H as [S U]. split; [exact S|]. split; [exact U|]. congruence.
Qed.
Lemma insert_inv i t n junk s0 s : good i s0 s -> good_out i s0 (insert_ i t n junk s).
Proof. intros H. apply at_inv; [exact H|]. intros o E. destruct (insert_knot _ _ _ _) as [c|]; [|exact H]. apply cleared, keep_int, keep_put_knots, keep_put_pts, good_weak, H. Qed.
Lemma ccopy_inv c s : inv s -> inv_but (length (objs s)) s (ccopy c (length (objs s)) s) /\ no_cache (length (objs s)) (ccopy c (length (objs s)) s).
Proof.
  intros H. unfold ccopy. set (j := length (objs s)). assert (N : no_cache j (blank s j)) by (intros o G; unfold j in G; rewrite get_blank in G; injection G as <-; reflexivity).
  split; [apply keep_int, keep_per, keep_deg, keep_put_knots, keep_put_pts, keep_blank, H|]. apply no_cache_with; [reflexivity|]; apply no_cache_with; [reflexivity|]; apply no_cache_with; [reflexivity|]; apply no_cache_put_knots, no_cache_put_pts, N.
Qed.
Lemma deg_nonneg c t v : evaluate c t = Ok v -> (0 <= c_deg c)%Z.
Proof.
  unfold evaluate, curve_point, find_span, find_span_fuel. intros H. destruct (rdZ (c_knots c) (c_deg c)) as [x|] eqn:E; [|discriminate]. apply (rdZ_inv 0) in E. lia.
Qed.
Lemma get_pts_put i P s o : nth_error (objs (put_pts i P s)) i = Some o -> nth (o_pts o) (parr (put_pts i P s)) [] = P.
Proof.
  unfold put_pts. intros H. destruct (nth_error (objs s) i) as [p|] eqn:E.
  - rewrite (with_obj_some _ _ _ p) in * by exact E. destruct (get_set_inv _ _ _ _ _ _ E H) as [[_ ->]|[C _]]; [|congruence]. cbn. rewrite app_nth2 by lia. rewrite Nat.sub_diag. reflexivity.
  - rewrite with_obj_none in H by exact E. cbn in H. congruence.
Qed.
(* changes that leave the points alone *)
Definition pts_of (i : nat) (s : st) (P : list pt) : Prop := forall o, nth_error (objs s) i = Some o -> nth (o_pts o) (parr s) [] = P.
Lemma pts_with i s s0 f P : (forall o, o_pts (f o) = o_pts o) -> objs s0 = objs s -> parr s0 = parr s -> pts_of i s P -> pts_of i (with_obj s0 i f) P.
Proof.
  intros F E1 E2 H o G. destruct (nth_error (objs s0) i) as [p|] eqn:E.
  - rewrite (with_obj_some _ _ _ p) in * by exact E. destruct (get_set_inv _ _ _ _ _ _ E G) as [[_ ->]|[C _]]; [|congruence]. cbn. rewrite F, E2. apply H. rewrite <- E1. exact E.
  - rewrite with_obj_none in G by exact E. congruence.
Qed.
Lemma update_ne U v : update_interval U = Ok v -> U <> [].
Proof. intros H ->. discriminate. Qed.
Lemma exec_good c s : clean c -> inv s -> good (target c s) s (fst (exec c s)).
Proof.
  intros C H0. assert (H : good (target c s) s s) by (apply inv_good, H0). destruct c; cbn [exec clean target] in *; try contradiction.
  - apply new_inv; [destruct k; [exact C|exact I]|exact H0].
  - apply (at_inv i _ s s); [exact H|]. intros o E. destruct (_ <? _)%Z; [exact H|]. destruct (negb _); [exact H|]. apply cleared, keep_put_pts, inv_weak, H0.
  - unfold set_knots. destruct k as [K|l]; [|destruct C]. cbn [assign_knots]. destruct (nth_error (objs s) i) as [o|] eqn:E.
    + apply hook_inv; [intros v; apply cleared, keep_int, keep_put_knots, inv_weak, H0|intros p G; rewrite (get_put_knots _ _ _ _ G); exact C|apply put_knots_in; congruence].
    + unfold hook, at_. assert (N : nth_error (objs (put_knots i K s)) i = None) by (unfold put_knots; rewrite with_obj_none by exact E; exact E). rewrite N. cbn. pose proof (keep_put_knots i s K s (inv_weak i s H0)) as [S V]. split; [exact S|]. split; [exact V|]. congruence.
  - apply set_weights_inv; [apply inv_weak, H0|]. intros o E. right. exact (proj2 H0 i o E).
  - apply (at_inv i _ s s); [exact H|]. intros o E. destruct p as [P|l]; [|destruct C]. apply cleared, keep_assign_knots; [exact C|]. apply keep_put_pts, inv_weak, H0.
  - apply insert_inv, H.
  - apply (at_inv i _ s s); [exact H|]. intros o E. destruct (find_multiplicity _ _); [|exact H]. destruct (_ <? _)%Z; [apply insert_inv, H|exact H].
  - apply (at_inv i _ s s); [exact H|]. intros o E. destruct (do a <- _ ; _) as [K|] eqn:N; [|exact H]. assert (KN : K <> []). { destruct (c_knots (curve_of s o)) as [|x r]; [discriminate|]. intros ->. destruct (list_min _); [|discriminate]. cbn in N. destruct (divR _ _); discriminate. }
    assert (G : objs (write_knots i K s) = objs s) by (unfold write_knots; rewrite E; reflexivity).
    apply hook_inv; [intros v; apply cleared, keep_int, keep_write_knots, inv_weak, H0| |rewrite G; congruence]. intros p Gp. rewrite G, E in Gp. injection Gp as <-. unfold write_knots. rewrite E. cbn. rewrite (nth_error_nth _ _ _ (nth_error_upd_eq _ _ _ (s_knots _ (proj1 H0) _ _ E))). exact KN.
  - apply make_periodic_inv, H.
  - apply (at_inv i _ s s); [exact H|]. intros o E. destruct (is_closed _) as [[|]|] eqn:Cl; [exact H| |exact H]. apply hook_inv.
    + intros v. apply cleared, keep_per, keep_int, keep_put_knots, keep_put_pts, inv_weak, H0.
    + intros p G. rewrite (get_put_knots _ _ _ _ G). assert (D : (0 <= c_deg (curve_of s o))%Z) by (unfold is_closed in Cl; destruct (evaluate _ (snd _)) as [v|] eqn:Ev; [exact (deg_nonneg _ _ _ Ev)|discriminate]). apply ne_repeat. lia.
    + apply put_knots_in, put_pts_in. congruence.
  - apply (at_inv i _ s s); [exact H|]. intros o E. set (c := curve_of s o). destruct (ccopy_inv c s H0) as [A B]. unfold good_out. pose proof (set_weights_inv (length (objs s)) (map pw (c_pts c)) s _ A) as W. destruct (set_weights _ _ _) as [s1 [r|e]]; cbn [fst] in *; apply W; intros p G; right; intros t v Iv; rewrite (B p G) in Iv; destruct Iv.
  - apply (at_inv i _ s s); [exact H|]. intros o E. destruct k as [K|l]; [|destruct C]. cbn [assign_knots]. set (s0 := put_per i per _). assert (B : inv_but i s s0) by (apply keep_per, keep_deg, keep_put_knots, keep_put_pts, inv_weak, H0).
    assert (PT : pts_of i s0 P) by (apply (pts_with i (put_deg i deg (put_knots i K (put_pts i P s)))); [reflexivity..|]; apply (pts_with i (put_knots i K (put_pts i P s))); [reflexivity..|]; apply (pts_with i (put_pts i P s)); [reflexivity..|]; intros p G; apply get_pts_put, G).
    pose proof (set_weights_inv i (map pw P) s s0 B) as W. unfold good_out.
    assert (W' : good i s (fst (set_weights i (map pw P) s0))) by (apply W; intros p G; left; rewrite (PT p G); apply map_length). clear W. assert (IS : nth_error (objs s0) i <> None) by (apply with_obj_in, with_obj_in, put_knots_in, put_pts_in; congruence).
    destruct (set_weights i (map pw P) s0) as [s1 [r|e]] eqn:SW; cbn [fst] in *; [|exact W']. apply inv_strong; [apply keep_int, good_weak, W'|]. apply no_cache_with; [reflexivity|].
    unfold set_weights, at_ in SW. destruct (nth_error (objs s0) i) as [q|] eqn:Q; [|congruence]. destruct (negb _); [discriminate|]. injection SW as <- _. intros q' G. unfold clear, put_cache in G. set (s9 := write_pts _ _ _) in G. destruct (nth_error (objs s9) i) as [z|] eqn:Z; [|rewrite with_obj_none in G by exact Z; congruence]. rewrite (with_obj_some _ _ _ z) in G by exact Z. destruct (get_set_inv _ _ _ _ _ _ Z G) as [[_ ->]|[X _]]; [reflexivity|congruence].
  - unfold eval_. destruct (nth_error (objs s) i) as [o|] eqn:E; [|exact H]. destruct (lookup t (o_cache o)); [exact H|]. pose proof (s_bound _ (proj1 H0) _ _ E) as B. rewrite B. unfold at_. rewrite E. cbn [fst]. pose proof (keep_cache i s ((t, evaluate (curve_of s o) t) :: o_cache o) s (inv_weak i s H0)) as [S V]. split; [exact S|]. split; [exact V|]. intros p G. unfold put_cache in *. rewrite (with_obj_some _ _ _ o) in * by exact E. destruct (get_set_inv _ _ _ _ _ _ E G) as [[_ ->]|[X _]]; [|congruence]. intros x v [Iv|Iv]; [injection Iv as <- <-; reflexivity|]. rewrite (proj2 H0 i o E x v Iv). reflexivity.
Qed.
Lemma exec_inv c s : clean c -> inv s -> inv (fst (exec c s)).
Proof. intros C H. exact (good_inv _ _ _ H (exec_good c s C H)). Qed.
Lemma start_inv : inv start.
Proof. split; [constructor; intros i; destruct i; discriminate|intros i o; destruct i; discriminate]. Qed.
Lemma run_inv l s : Forall clean l -> inv s -> inv (run l s).
Proof. intros F. revert s. induction F as [|c l C F IH]; intros s H; [exact H|]. apply IH, exec_inv; assumption. Qed.
Lemma lookup_in t l v : lookup t l = Some v -> In (t, v) l.
Proof. induction l as [|[x w] l IH]; [discriminate|]. cbn. destruct (qeq x t) eqn:E; [intros [= ->]; apply qeq_true in E; subst; left; reflexivity|intros H; right; apply IH, H]. Qed.
Lemma eval_fresh s i o t : inv s -> nth_error (objs s) i = Some o -> snd (exec (Eval i t) s) = Ok (Point (evaluate (curve_of s o) t)).
Proof.
  intros H E. cbn [exec]. unfold eval_. rewrite E. destruct (lookup t (o_cache o)) as [v|] eqn:L.
  - cbn. apply lookup_in in L. rewrite (proj2 H i o E t v L). reflexivity.
  - rewrite (s_bound _ (proj1 H) _ _ E). unfold at_. rewrite E. reflexivity.
Qed.

(* ---- what goes wrong ---- *)
Lemma with_get s i f o : nth_error (objs s) i = Some o -> nth_error (objs (with_obj s i f)) i = Some (f o).
Proof. intros E. rewrite (with_obj_some _ _ _ o) by exact E. rewrite get_set, Nat.eqb_refl. pose proof (nth_error_lt _ _ _ E) as L. apply Nat.ltb_lt in L. rewrite L. reflexivity. Qed.
Lemma eval_hit s i o t v : nth_error (objs s) i = Some o -> lookup t (o_cache o) = Some v -> exec (Eval i t) s = (s, Ok (Point v)).
Proof. intros E L. cbn [exec]. unfold eval_. rewrite E, L. reflexivity. Qed.
Lemma eval_stores s i t v : snd (exec (Eval i t) s) = Ok (Point v) -> exists o, nth_error (objs (fst (exec (Eval i t) s))) i = Some o /\ lookup t (o_cache o) = Some v.
Proof.
  cbn [exec]. unfold eval_. destruct (nth_error (objs s) i) as [o|] eqn:E; [|discriminate]. destruct (lookup t (o_cache o)) as [w|] eqn:L.
  - cbn. intros [= ->]. exists o. auto.
  - unfold at_. destruct (nth_error (objs s) (o_bound o)) as [b|]; [|discriminate]. cbn [fst snd]. intros [= <-]. unfold put_cache. rewrite (with_get _ _ _ _ E). eexists. split; [reflexivity|]. cbn. rewrite (proj2 (qeq_true t t) eq_refl). reflexivity.
Qed.
Lemma stale_degree s i t v d : snd (exec (Eval i t) s) = Ok (Point v) -> snd (exec (Eval i t) (fst (exec (SetDegree i d) (fst (exec (Eval i t) s))))) = Ok (Point v).
Proof.
  intros H. destruct (eval_stores s i t v H) as [o [E L]]. cbn [exec] in *. set (s1 := fst (eval_ i t s)) in *. unfold set_degree, at_. rewrite E. cbn [fst]. unfold put_deg. pose proof (with_get s1 i (fun o => {| o_pts := o_pts o; o_knots := o_knots o; o_deg := d; o_per := o_per o; o_int := o_int o; o_bound := o_bound o; o_cache := o_cache o |}) o E) as G.
  pose proof (eval_hit _ i _ t v G L) as X. cbn [exec] in X. rewrite X. reflexivity.
Qed.
Lemma lookup_rewrite t v w l : lookup t l = Some w -> lookup t (rewrite_entry t v l) = Some v.
Proof. induction l as [|[x y] l IH]; [discriminate|]. cbn. destruct (qeq x t) eqn:E; cbn; rewrite E; [reflexivity|exact IH]. Qed.
Lemma stale_result s i t v w : snd (exec (Eval i t) s) = Ok (Point v) -> snd (exec (Eval i t) (fst (exec (WriteResult i t w) (fst (exec (Eval i t) s))))) = Ok (Point (Ok w)).
Proof.
  intros H. destruct (eval_stores s i t v H) as [o [E L]]. set (s1 := fst (exec (Eval i t) s)) in *. cbn [exec]. rewrite E. cbn [fst]. unfold put_cache. set (f := fun o => _).
  pose proof (with_get s1 i f o E) as G. pose proof (eval_hit _ i _ t (Ok w) G) as X. cbn [exec] in X. rewrite X; [reflexivity|]. cbn. apply (lookup_rewrite t _ v), L.
Qed.
Lemma others_weak i s s' j o : others i s s' -> j <> i -> nth_error (objs s) j = Some o -> nth_error (objs s') j = Some o /\ curve_of s' o = curve_of s o.
Proof. intros H N E. destruct (H j N) as [A B]. rewrite <- A in E. auto. Qed.
Lemma length_put_pts i P s : length (objs (put_pts i P s)) = length (objs s).
Proof. apply (length_with {| parr := parr s ++ [P]; karr := karr s; objs := objs s |}). Qed.
Lemma ccopy_get c b s : exists o, nth_error (objs (ccopy c b s)) (length (objs s)) = Some o /\ o_bound o = b /\ o_cache o = [] /\ curve_of (ccopy c b s) o = mkcurve (c_pts c) (c_deg c) (c_knots c) (c_per c) (c_int c) [].
Proof.
  unfold ccopy. set (j := length (objs s)). pose proof (get_blank s b) as E. fold j in E. set (s0 := blank s b) in *.
  assert (E1 : exists o1, nth_error (objs (put_pts j (c_pts c) s0)) j = Some o1 /\ o_bound o1 = b /\ o_cache o1 = [] /\ nth (o_pts o1) (parr (put_pts j (c_pts c) s0)) [] = c_pts c).
  { unfold put_pts. set (s' := {| parr := _; karr := _; objs := _ |}). rewrite (with_get s' j _ _ E). eexists. split; [reflexivity|]. cbn. split; [reflexivity|]. split; [reflexivity|]. rewrite (with_obj_some s' _ _ _ E). cbn. rewrite app_nth2 by lia. rewrite Nat.sub_diag. reflexivity. }
  destruct E1 as [o1 [E1 [B1 [C1 P1]]]]. set (s1 := put_pts j (c_pts c) s0) in *.
  assert (E2 : exists o2, nth_error (objs (put_knots j (c_knots c) s1)) j = Some o2 /\ o_bound o2 = b /\ o_cache o2 = [] /\ nth (o_pts o2) (parr (put_knots j (c_knots c) s1)) [] = c_pts c /\ nth (o_knots o2) (karr (put_knots j (c_knots c) s1)) [] = c_knots c).
  { unfold put_knots. set (s' := {| parr := _; karr := _; objs := _ |}). rewrite (with_get s' j _ _ E1). eexists. split; [reflexivity|]. cbn. split; [exact B1|]. split; [exact C1|]. rewrite (with_obj_some s' _ _ _ E1). cbn. split; [exact P1|]. rewrite app_nth2 by lia. rewrite Nat.sub_diag. reflexivity. }
  destruct E2 as [o2 [E2 [B2 [C2 [P2 K2]]]]]. set (s2 := put_knots j (c_knots c) s1) in *. unfold put_int, put_per, put_deg. erewrite with_get; [|erewrite with_get; [|erewrite with_get; [|exact E2]; reflexivity]; reflexivity]. eexists. split; [reflexivity|]. cbn. split; [exact B2|]. split; [exact C2|]. unfold curve_of. cbn.
  assert (A : forall s f g h, nth_error (objs s) j <> None -> parr (with_obj (with_obj (with_obj s j f) j g) j h) = parr s /\ karr (with_obj (with_obj (with_obj s j f) j g) j h) = karr s).
  { intros z f g h N. assert (A : forall z f, parr (with_obj z j f) = parr z /\ karr (with_obj z j f) = karr z) by (intros y k; unfold with_obj; destruct (nth_error (objs y) j); split; reflexivity). destruct (A z f) as [X1 Y1]. destruct (A (with_obj z j f) g) as [X2 Y2]. destruct (A (with_obj (with_obj z j f) j g) h) as [X3 Y3]. split; congruence. }
  rewrite (proj1 (A s2 _ _ _ ltac:(congruence))), (proj2 (A s2 _ _ _ ltac:(congruence))), P2, K2. reflexivity.
Qed.
Definition in_range (i : nat) (s : st) : Prop := forall j o, j <> i -> nth_error (objs s) j = Some o -> (o_pts o < length (parr s))%nat /\ (o_knots o < length (karr s))%nat.
Lemma others_grow i s0 s s1 P K f : parr s1 = parr s ++ P -> karr s1 = karr s ++ K -> objs s1 = objs s -> others i s0 s /\ in_range i s -> others i s0 (with_obj s1 i f) /\ in_range i (with_obj s1 i f).
Proof.
  intros EP EK EO [O R].
  assert (G : forall j, j <> i -> nth_error (objs (with_obj s1 i f)) j = nth_error (objs s) j) by (intros j N; unfold with_obj; destruct (nth_error (objs s1) i); [cbn [set_obj objs]; rewrite EO; apply nth_error_upd_neq; auto|rewrite EO; reflexivity]).
  assert (A : parr (with_obj s1 i f) = parr s ++ P /\ karr (with_obj s1 i f) = karr s ++ K) by (unfold with_obj; destruct (nth_error (objs s1) i); auto). destruct A as [AP AK].
  split.
  - intros j N. destruct (O j N) as [A B]. rewrite (G j N). split; [exact A|]. intros o H. rewrite <- (B o H). destruct (R j o N H) as [R1 R2]. unfold curve_of. rewrite AP, AK, !app_nth1 by assumption. reflexivity.
  - intros j o N H. rewrite (G j N) in H. destruct (R j o N H). rewrite AP, AK, !app_length. lia.
Qed.
Lemma copy_others c s b : inv s -> others (length (objs s)) s (ccopy c b s) /\ in_range (length (objs s)) (ccopy c b s).
Proof.
  intros [S _]. unfold ccopy. set (j := length (objs s)).
  assert (B : others j s (blank s b) /\ in_range j (blank s b)).
  { assert (E : forall k, k <> j -> nth_error (objs (blank s b)) k = nth_error (objs s) k). { intros k N. cbn. destruct (Nat.lt_ge_cases k (length (objs s))) as [L|L]; [apply nth_error_app1, L|]. rewrite (proj2 (nth_error_None (objs s) k) L). apply nth_error_None. rewrite app_length. cbn. fold j. lia. }
    split; [intros k N; split; [apply E, N|]; intros o H; rewrite (E k N) in H; unfold curve_of; cbn; rewrite !app_nth1 by (try apply (s_pts _ S _ _ H); apply (s_knots _ S _ _ H)); reflexivity|]. intros k o N H. rewrite (E k N) in H. pose proof (s_pts _ S _ _ H). pose proof (s_knots _ S _ _ H). cbn. rewrite !app_length. lia. }
  assert (Nil : forall (x : st) (h : obj -> obj), others j s x /\ in_range j x -> others j s (with_obj x j h) /\ in_range j (with_obj x j h)) by (intros x h; apply (others_grow j s x x [] []); [rewrite app_nil_r; reflexivity|rewrite app_nil_r; reflexivity|reflexivity]).
  assert (A1 : others j s (put_pts j (c_pts c) (blank s b)) /\ in_range j (put_pts j (c_pts c) (blank s b))) by (unfold put_pts; eapply (others_grow j s (blank s b) _ [c_pts c] []); [reflexivity|rewrite app_nil_r; reflexivity|reflexivity|exact B]).
  set (s1 := put_pts j (c_pts c) (blank s b)) in *.
  assert (A2 : others j s (put_knots j (c_knots c) s1) /\ in_range j (put_knots j (c_knots c) s1)) by (unfold put_knots; eapply (others_grow j s s1 _ [] [c_knots c]); [rewrite app_nil_r; reflexivity|reflexivity|reflexivity|exact A1]).
  unfold put_int, put_per, put_deg. apply Nil, Nil, Nil, A2.
Qed.
Lemma copy_stale s i o P t : inv s -> nth_error (objs s) i = Some o ->
  snd (exec (Eval (length (objs s)) t) (fst (exec (SetPoints (length (objs s)) P) (fst (exec (Copy i) s))))) = Ok (Point (evaluate (curve_of s o) t)).
Proof.
  intros H E. pose proof (nth_error_lt _ _ _ E) as L. set (j := length (objs s)) in *. assert (N : i <> j) by lia. cbn [exec]. unfold copy_, at_ at 1. rewrite E. cbn [fst]. destruct (ccopy_get (curve_of s o) i s) as [p [G [B [C _]]]]. fold j in G. destruct (copy_others (curve_of s o) s i H) as [O Rg]. fold j in O, Rg. set (s1 := ccopy (curve_of s o) i s) in *. destruct (others_weak j s s1 i o O N E) as [E1 V1].
  assert (D : exists q, nth_error (objs (fst (set_points j P s1))) j = Some q /\ o_bound q = i /\ o_cache q = [] /\ nth_error (objs (fst (set_points j P s1))) i = Some o /\ curve_of (fst (set_points j P s1)) o = curve_of s o).
  { unfold set_points, at_. rewrite G. destruct (_ <? _)%Z; [exists p; auto|]. destruct (negb _); [exists p; auto|]. cbn [fst]. unfold clear, put_cache, put_pts. set (s2 := {| parr := parr s1 ++ [P]; karr := _; objs := _ |}). erewrite with_get; [|erewrite (with_get s2); [reflexivity|exact G]]. eexists. split; [reflexivity|]. cbn. split; [exact B|]. split; [reflexivity|].
    assert (X : forall x f, nth_error (objs (with_obj x j f)) i = nth_error (objs x) i) by (intros x f; unfold with_obj; destruct (nth_error (objs x) j); [cbn [set_obj objs]; apply nth_error_upd_neq; auto|reflexivity]). rewrite !X. split; [exact E1|]. rewrite <- V1. unfold curve_of.
    assert (Y : forall x f, parr (with_obj x j f) = parr x /\ karr (with_obj x j f) = karr x) by (intros x f; unfold with_obj; destruct (nth_error (objs x) j); split; reflexivity). rewrite !(proj1 (Y _ _)), !(proj2 (Y _ _)). cbn [s2 parr karr]. rewrite app_nth1; [reflexivity|]. apply (Rg i o N E1). }
  destruct D as [q [Q [QB [QC [QE QV]]]]]. unfold eval_. rewrite Q, QC. cbn [lookup]. rewrite QB. unfold at_. rewrite QE. cbn. rewrite QV. reflexivity.
Qed.
Lemma shared_write s a b oa ob m M : a <> b -> nth_error (objs s) a = Some oa -> nth_error (objs s) b = Some ob -> o_knots oa = o_knots ob -> (o_knots ob < length (karr s))%nat ->
  list_min (c_knots (curve_of s ob)) = Ok m -> list_max (c_knots (curve_of s ob)) = Ok M -> M <> m ->
  exists o, nth_error (objs (fst (exec (Normalize a) s))) b = Some o /\ c_knots (curve_of (fst (exec (Normalize a) s)) o) = map (fun k => (k - m) / (M - m)) (c_knots (curve_of s ob)).
Proof.
  intros N A B K L Mn Mx D. assert (CK : c_knots (curve_of s oa) = c_knots (curve_of s ob)) by (cbn; rewrite K; reflexivity). set (U := c_knots (curve_of s ob)) in *.
  exists ob. cbn [exec]. unfold normalize_, at_. rewrite A, CK, Mn. cbn [bind]. rewrite Mx. cbn [bind]. unfold divR. assert (Z : qeq (M - m) 0 = false) by (apply qeq_false; intros Z; apply D; replace M with (m + (M - m)) by ring; rewrite Z; ring). rewrite Z. cbn [bind].
  set (U' := map (fun k => (k - m) * (1 / (M - m))) U). assert (EU : U' = map (fun k => (k - m) / (M - m)) U) by (apply map_ext; intros k; unfold Qcdiv; ring). rewrite <- EU.
  assert (W : write_knots a U' s = {| parr := parr s; karr := upd (karr s) (o_knots oa) U'; objs := objs s |}) by (unfold write_knots; rewrite A; reflexivity). rewrite W. set (s2 := {| parr := parr s; karr := _; objs := objs s |}).
  assert (GK : nth (o_knots ob) (karr s2) [] = U') by (cbn; rewrite K; apply nth_error_nth, nth_error_upd_eq, L).
  unfold hook, at_. cbn [s2 objs]. rewrite A. fold s2. unfold curve_of. cbn [c_knots]. rewrite K, GK.
  assert (UN : (0 < lenZ U')%Z) by (unfold U', lenZ; rewrite map_length; destruct U; [discriminate|cbn; lia]). unfold update_interval. rewrite (rdZ_ok 0 U' 0), (rdZ_ok 0 U' (lenZ U' - 1)) by lia. cbn [bind fst]. unfold clear, put_cache, put_int.
  assert (X : forall x f, nth_error (objs (with_obj x a f)) b = nth_error (objs x) b) by (intros x f; unfold with_obj; destruct (nth_error (objs x) a); [cbn [set_obj objs]; apply nth_error_upd_neq; auto|reflexivity]).
  assert (Y : forall x f, karr (with_obj x a f) = karr x) by (intros x f; unfold with_obj; destruct (nth_error (objs x) a); reflexivity). split; [rewrite !X; exact B|rewrite !Y; exact GK].
Qed.
Lemma shared_stale s a b oa ob t v m M : a <> b -> nth_error (objs s) a = Some oa -> nth_error (objs s) b = Some ob -> o_knots oa = o_knots ob -> (o_knots ob < length (karr s))%nat ->
  list_min (c_knots (curve_of s ob)) = Ok m -> list_max (c_knots (curve_of s ob)) = Ok M -> M <> m -> snd (exec (Eval b t) s) = Ok (Point v) ->
  snd (exec (Eval b t) (run [Eval b t; Normalize a] s)) = Ok (Point v) /\ exists o, nth_error (objs (run [Eval b t; Normalize a] s)) b = Some o /\ c_knots (curve_of (run [Eval b t; Normalize a] s) o) = map (fun k => (k - m) / (M - m)) (c_knots (curve_of s ob)).
Proof.
  intros N A B K L Mn Mx D V. destruct (eval_stores s b t v V) as [q [Q LQ]].
  assert (S1 : nth_error (objs (fst (exec (Eval b t) s))) a = Some oa /\ karr (fst (exec (Eval b t) s)) = karr s /\ o_knots q = o_knots ob).
  { cbn [exec] in *. unfold eval_ in *. rewrite B in *. destruct (lookup t (o_cache ob)) as [w|] eqn:LB; [cbn in *; split; [exact A|split; [reflexivity|congruence]]|]. unfold at_ in *. destruct (nth_error (objs s) (o_bound ob)); [|discriminate]. cbn [fst] in *. unfold put_cache in *. rewrite (with_get _ _ _ _ B) in Q. injection Q as <-. rewrite (with_obj_some _ _ _ _ B). split; [cbn [set_obj objs]; rewrite nth_error_upd_neq by auto; exact A|]. split; reflexivity. }
  cbn [run]. set (s1 := fst (exec (Eval b t) s)) in *. destruct S1 as [A1 [K1 KQ]].
  assert (CK : c_knots (curve_of s1 oa) = c_knots (curve_of s ob)) by (cbn; rewrite K1, K; reflexivity). set (U := c_knots (curve_of s ob)) in *.
  assert (NE : exists s2, fst (exec (Normalize a) s1) = s2 /\ nth_error (objs s2) b = Some q /\ nth (o_knots ob) (karr s2) [] = map (fun k => (k - m) / (M - m)) U).
  { eexists. split; [reflexivity|]. cbn [exec]. unfold normalize_, at_. rewrite A1, CK, Mn. cbn [bind]. rewrite Mx. cbn [bind]. unfold divR. assert (Z : qeq (M - m) 0 = false) by (apply qeq_false; intros Z; apply D; replace M with (m + (M - m)) by ring; rewrite Z; ring). rewrite Z. cbn [bind].
    set (U' := map (fun k => (k - m) * (1 / (M - m))) U). assert (EU : U' = map (fun k => (k - m) / (M - m)) U) by (apply map_ext; intros k; unfold Qcdiv; ring). rewrite <- EU.
    assert (W : write_knots a U' s1 = {| parr := parr s1; karr := upd (karr s1) (o_knots oa) U'; objs := objs s1 |}) by (unfold write_knots; rewrite A1; reflexivity). rewrite W. set (s2 := {| parr := parr s1; karr := _; objs := objs s1 |}).
    assert (GK : nth (o_knots ob) (karr s2) [] = U') by (cbn; rewrite K, K1; apply nth_error_nth, nth_error_upd_eq, L).
    unfold hook, at_. cbn [s2 objs]. rewrite A1. fold s2. unfold curve_of at 1 2. cbn [c_knots]. rewrite K, GK.
    assert (UN : (0 < lenZ U')%Z) by (unfold U', lenZ; rewrite map_length; destruct U; [discriminate|cbn; lia]). unfold update_interval. rewrite (rdZ_ok 0 U' 0), (rdZ_ok 0 U' (lenZ U' - 1)) by lia. cbn [bind fst]. unfold clear, put_cache, put_int.
    assert (X : forall x f, nth_error (objs (with_obj x a f)) b = nth_error (objs x) b) by (intros x f; unfold with_obj; destruct (nth_error (objs x) a); [cbn [set_obj objs]; apply nth_error_upd_neq; auto|reflexivity]).
    assert (Y : forall x f, karr (with_obj x a f) = karr x) by (intros x f; unfold with_obj; destruct (nth_error (objs x) a); reflexivity). rewrite !X, !Y. split; [exact Q|exact GK]. }
  destruct NE as [s2 [-> [Q2 GK]]]. split.
  - rewrite (eval_hit s2 b q t v Q2 LQ). reflexivity.
  - exists q. split; [exact Q2|]. cbn. rewrite KQ. exact GK.
Qed.
Lemma restore_weights P : map (fun qw => mkpt (px (fst qw)) (py (fst qw)) (pz (fst qw)) (snd qw)) (combine P (map pw P)) = P.
Proof. induction P as [|[] P IH]; [reflexivity|]. cbn. rewrite IH. reflexivity. Qed.
Lemma deepcopy_same s i o : inv s -> nth_error (objs s) i = Some o ->
  snd (exec (DeepCopy i) s) = Ok (Curve (length (objs s))) /\ exists p, nth_error (objs (fst (exec (DeepCopy i) s))) (length (objs s)) = Some p /\ curve_of (fst (exec (DeepCopy i) s)) p = curve_of s o.
Proof.
  intros H E. cbn [exec]. unfold deepcopy_, at_ at 1 2 3. rewrite E. set (c := curve_of s o). set (j := length (objs s)). destruct (ccopy_get c j s) as [p [G [B [C V]]]]. fold j in G. pose proof (ccopy_inv c s H) as [[S _] _]. fold j in S. set (s1 := ccopy c j s) in *.
  assert (VP : nth (o_pts p) (parr s1) [] = c_pts c) by exact (f_equal c_pts V).
  unfold set_weights, at_. rewrite G. cbn [curve_of c_pts]. rewrite VP. assert (L : (lenZ (map pw (c_pts c)) =? lenZ (c_pts c))%Z = true) by (unfold lenZ; rewrite map_length; apply Z.eqb_refl). change (nth (o_pts o) (parr s) []) with (c_pts c). rewrite L. cbn [negb]. split; [reflexivity|]. cbn [fst]. rewrite restore_weights.
  assert (W : write_pts j (c_pts c) s1 = s1). { unfold write_pts. rewrite G. destruct s1 as [a k ob]. cbn in *. f_equal. apply upd_same. rewrite <- VP. apply nth_error_nth', (s_pts _ S _ _ G). }
  rewrite W. unfold clear, put_cache. rewrite (with_get _ _ _ _ G). eexists. split; [reflexivity|]. rewrite (with_obj_some _ _ _ _ G). exact V.
Qed.
