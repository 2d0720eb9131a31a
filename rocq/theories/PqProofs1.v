(* The heap. *)
From Coq Require Import List Arith ZArith Bool QArith Qcanon Lia Permutation.
From Verif Require Import Common QcLib ListLib LuModel LuProofs1 PqModel PqSpec.
Import ListNotations.
Local Open Scope Qc_scope.

Lemma par_spec i p : (0 < i)%nat -> ((i - 1) / 2 = p <-> (i = 2 * p + 1 \/ i = 2 * p + 2))%nat.
Proof. intro H. pose proof (Nat.div_mod (i - 1) 2). pose proof (Nat.mod_upper_bound (i - 1) 2). lia. Qed.
Lemma par_lt i : (0 < i)%nat -> ((i - 1) / 2 < i)%nat.
Proof. intro H. pose proof (Nat.div_mod (i - 1) 2). lia. Qed.
Lemma perm_mid {A} (x y : A) : forall l i, nth_error l i = Some y -> Permutation (x :: l) (y :: upd l i x).
Proof.
  induction l as [|a l IH]; intros [|i] E; cbn in E; try discriminate.
  - injection E as ->. cbn. apply perm_swap.
  - cbn [upd]. eapply perm_trans; [apply perm_swap|]. eapply perm_trans; [apply perm_skip, (IH i E)|]. apply perm_swap.
Qed.
Lemma perm_move {A} (x y : A) l : forall i j, i <> j -> nth_error l j = Some y -> (i < length l)%nat -> Permutation (upd (upd l i y) j x) (upd l i x).
Proof.
  induction l as [|a l IH]; intros [|i] [|j] N E L; cbn in E, L; try discriminate; try lia.
  - cbn [upd]. apply Permutation_sym, (perm_mid x y l j E).
  - injection E as ->. cbn [upd]. destruct (nth_error l i) as [z|] eqn:Z; [|apply nth_error_None in Z; lia].
    pose proof (perm_mid x z l i Z) as P. pose proof (perm_mid y z l i Z) as Q. apply (Permutation_cons_inv (a := z)). eapply perm_trans; [apply perm_swap|]. eapply perm_trans; [apply perm_skip, Permutation_sym, Q|].
    eapply perm_trans; [apply perm_swap|]. eapply perm_trans; [apply perm_skip, P|]. apply perm_swap.
  - cbn [upd]. apply perm_skip, IH; auto. lia.
Qed.

Section Heap.
Context {V : Type}.
Notation nd := (Qc * V)%type.
Implicit Types h : list nd.

Lemma kat_upd h i j x : (i < length h)%nat -> kat (upd h i x) j = if (j =? i)%nat then fst x else kat h j.
Proof.
  intro L. unfold kat. assert (E : map fst (upd h i x) = upd (map fst h) i (fst x)).
  { clear L. revert i. induction h as [|a h IH]; intros [|i]; cbn; auto. f_equal. apply IH. }
  rewrite E. apply nth_upd. rewrite map_length. exact L.
Qed.
Lemma kat_nth h i x : nth_error h i = Some x -> kat h i = fst x.
Proof. intro E. unfold kat. apply nth_error_nth. rewrite nth_error_map, E. reflexivity. Qed.
(* heap but for the node at pos and its parent *)
Definition hx h pos : Prop :=
  (forall i, (0 < i < length h)%nat -> i <> pos -> kat h ((i - 1) / 2) <= kat h i) /\
  ((0 < pos)%nat -> forall i, (0 < i < length h)%nat -> ((i - 1) / 2 = pos)%nat -> kat h ((pos - 1) / 2) <= kat h i).
(* heap but for the node at pos *)
Definition hole h pos : Prop :=
  (forall i, (0 < i < length h)%nat -> i <> pos -> ((i - 1) / 2)%nat <> pos -> kat h ((i - 1) / 2) <= kat h i) /\
  ((0 < pos)%nat -> forall i, (0 < i < length h)%nat -> ((i - 1) / 2 = pos)%nat -> kat h ((pos - 1) / 2) <= kat h i).

Lemma siftdown_ok fuel : forall h x pos, (pos < fuel)%nat -> (pos < length h)%nat -> hx (upd h pos x) pos ->
  exists h', siftdown V fuel h x pos = Ok h' /\ is_heap h' /\ Permutation h' (upd h pos x).
Proof.
  induction fuel as [|fuel IH]; intros h x pos F L X; [lia|]. cbn [siftdown]. unfold node. destruct (0 <? pos)%nat eqn:P0; [apply Nat.ltb_lt in P0|apply Nat.ltb_ge in P0].
  - set (pp := ((pos - 1) / 2)%nat). assert (PL : (pp < pos)%nat) by (apply par_lt; auto). destruct (nth_error h pp) as [P|] eqn:EP; [|apply nth_error_None in EP; lia].
    unfold getR at 1. rewrite EP. cbn [bind]. assert (KP : kat (upd h pos x) pp = fst P). { rewrite kat_upd by auto. rewrite (proj2 (Nat.eqb_neq _ _)) by lia. apply kat_nth, EP. }
    assert (KX : kat (upd h pos x) pos = fst x) by (rewrite kat_upd by auto; rewrite Nat.eqb_refl; reflexivity).
    destruct X as (X1 & X2). unfold node_lt. destruct (qlt (fst x) (fst P)) eqn:C; [apply qlt_true in C|apply qlt_false in C].
    + rewrite wr_ok by auto. cbn [bind]. set (h1 := upd h pos P). assert (L1 : length h1 = length h) by apply upd_length.
      assert (K : forall j, kat (upd h1 pp x) j = if (j =? pp)%nat then fst x else if (j =? pos)%nat then fst P else kat (upd h pos x) j).
      { intro j. rewrite kat_upd by lia. unfold h1. rewrite !kat_upd by auto. destruct (j =? pp)%nat, (j =? pos)%nat; auto. }
      assert (N : hx (upd h1 pp x) pp).
      { unfold hx. rewrite upd_length, L1. rewrite upd_length in X1, X2. split.
        - intros i I J. rewrite !K. rewrite (proj2 (Nat.eqb_neq i pp)) by auto. destruct (Nat.eq_dec i pos) as [-> | Ni].
          + fold pp. rewrite !Nat.eqb_refl. qlra.
          + rewrite (proj2 (Nat.eqb_neq i pos)) by auto. destruct (((i - 1) / 2 =? pp)%nat) eqn:E1; [apply Nat.eqb_eq in E1|].
            * pose proof (X1 i I Ni) as Y. rewrite E1, KP in Y. qlra.
            * destruct (((i - 1) / 2 =? pos)%nat) eqn:E2; [apply Nat.eqb_eq in E2|exact (X1 i I Ni)]. pose proof (X2 P0 i I E2) as Y. fold pp in Y. rewrite KP in Y. exact Y.
        - intros Q i I E. assert (PPL : ((pp - 1) / 2 < pp)%nat) by (apply par_lt; auto). rewrite !K. rewrite (proj2 (Nat.eqb_neq ((pp - 1) / 2) pp)), (proj2 (Nat.eqb_neq ((pp - 1) / 2) pos)) by lia.
          assert (IP : (pp < i)%nat) by (rewrite <- E; apply par_lt; lia). rewrite (proj2 (Nat.eqb_neq i pp)) by lia. assert (Y : kat (upd h pos x) ((pp - 1) / 2) <= fst P). { rewrite <- KP. apply X1; lia. }
          destruct (Nat.eq_dec i pos) as [-> | Ni]; [rewrite Nat.eqb_refl; exact Y|]. rewrite (proj2 (Nat.eqb_neq i pos)) by auto. pose proof (X1 i I Ni) as Z. rewrite E, KP in Z. qlra. }
      destruct (IH h1 x pp) as (h' & E' & H' & P'); [lia|lia|exact N|]. exists h'. split; [exact E'|]. split; [exact H'|]. eapply perm_trans; [exact P'|]. apply perm_move; auto. lia.
    + rewrite wr_ok by auto. eexists. split; [reflexivity|]. split; [|apply Permutation_refl]. intros i I. destruct (Nat.eq_dec i pos) as [-> | Ni]; [fold pp; rewrite KX, KP; exact C|]. apply X1; auto.
  - rewrite wr_ok by auto. eexists. split; [reflexivity|]. split; [|apply Permutation_refl]. intros i I. apply (proj1 X); auto. lia.
Qed.

Lemma siftup_ok fuel : forall h pos, (length h <= fuel + pos)%nat -> (pos < length h)%nat -> hole h pos ->
  exists h' pos', siftup V fuel h pos = Ok (h', pos') /\ length h' = length h /\ (pos' < length h)%nat /\ hole h' pos' /\ (length h <= 2 * pos' + 1)%nat /\
    forall x, Permutation (upd h' pos' x) (upd h pos x).
Proof.
  induction fuel as [|fuel IH]; intros h pos F L X; [lia|]. cbn [siftup]. unfold node. destruct (2 * pos + 1 <? length h)%nat eqn:C; [apply Nat.ltb_lt in C|apply Nat.ltb_ge in C].
  - (* the smaller child *)
    assert (S : exists c v, (do a <- getR h (2 * pos + 1) ; do c <- (if (2 * pos + 1 + 1 <? length h)%nat then do b <- getR h (2 * pos + 1 + 1) ; Ok (if node_lt V a b then 2 * pos + 1 else 2 * pos + 1 + 1)%nat else Ok (2 * pos + 1)%nat) ;
              do v <- getR h c ; do heap' <- wr h pos v ; siftup V fuel heap' c) = siftup V fuel (upd h pos v) c /\ nth_error h c = Some v /\ (c < length h)%nat /\ ((c - 1) / 2 = pos)%nat /\ (0 < c)%nat /\
              forall i, (0 < i < length h)%nat -> ((i - 1) / 2 = pos)%nat -> fst v <= kat h i).
    { assert (CH : forall i, (0 < i < length h)%nat -> ((i - 1) / 2 = pos)%nat -> (i = 2 * pos + 1 \/ i = 2 * pos + 1 + 1)%nat). { intros i I E. apply par_spec in E; lia. }
      destruct (nth_error h (2 * pos + 1)) as [a|] eqn:EA; [|apply nth_error_None in EA; lia]. unfold getR at 1. rewrite EA. cbn [bind].
      destruct (2 * pos + 1 + 1 <? length h)%nat eqn:R; [apply Nat.ltb_lt in R|apply Nat.ltb_ge in R].
      - destruct (nth_error h (2 * pos + 1 + 1)) as [b|] eqn:EB; [|apply nth_error_None in EB; lia]. unfold getR at 1. rewrite EB. cbn [bind]. unfold node_lt. destruct (qlt (fst a) (fst b)) eqn:Q; [apply qlt_true in Q|apply qlt_false in Q].
        + exists (2 * pos + 1)%nat, a. unfold getR. rewrite EA. cbn [bind]. rewrite wr_ok by auto. cbn [bind]. repeat split; auto; [apply par_spec; lia|lia|]. intros i I E. destruct (CH i I E) as [-> | ->]; [rewrite (kat_nth _ _ _ EA)|rewrite (kat_nth _ _ _ EB)]; qlra.
        + exists (2 * pos + 1 + 1)%nat, b. unfold getR. rewrite EB. cbn [bind]. rewrite wr_ok by auto. cbn [bind]. repeat split; auto; [apply par_spec; lia|lia|]. intros i I E. destruct (CH i I E) as [-> | ->]; [rewrite (kat_nth _ _ _ EA)|rewrite (kat_nth _ _ _ EB)]; qlra.
      - cbn [bind]. exists (2 * pos + 1)%nat, a. unfold getR. rewrite EA. cbn [bind]. rewrite wr_ok by auto. cbn [bind]. repeat split; auto; [apply par_spec; lia|lia|]. intros i I E. destruct (CH i I E) as [-> | ->]; [rewrite (kat_nth _ _ _ EA); qlra|lia]. }
    unfold node in S. destruct S as (c & v & -> & EV & CL & CP & C0 & SM). pose proof (par_lt c C0) as CLT. rewrite CP in CLT. set (h1 := upd h pos v). assert (L1 : length h1 = length h) by apply upd_length.
    assert (K : forall j, kat h1 j = if (j =? pos)%nat then fst v else kat h j) by (intro j; apply kat_upd; auto).
    destruct X as (X1 & X2). assert (N : hole h1 c).
    { unfold hole. rewrite L1. split.
      - intros i I J1 J2. rewrite !K. destruct (Nat.eq_dec i pos) as [-> | Ni].
        + rewrite Nat.eqb_refl. rewrite (proj2 (Nat.eqb_neq _ _)) by (pose proof (par_lt pos); lia). rewrite <- (kat_nth _ _ _ EV). apply X2; auto; lia.
        + rewrite (proj2 (Nat.eqb_neq i pos)) by auto. destruct ((i - 1) / 2 =? pos)%nat eqn:E; [apply Nat.eqb_eq in E; apply SM; auto|apply Nat.eqb_neq in E; apply X1; auto].
      - intros _ i I E. rewrite CP, !K, Nat.eqb_refl. assert (c < i)%nat by (rewrite <- E; apply par_lt; lia). rewrite (proj2 (Nat.eqb_neq i pos)) by lia. rewrite <- (kat_nth _ _ _ EV). rewrite <- E. apply X1; auto; lia. }
    destruct (IH h1 c) as (h' & pos' & E' & L' & P' & H' & Z' & Q'); [lia|lia|exact N|]. exists h', pos'. rewrite L1 in L', P', Z'. repeat split; auto; [apply H'|apply H'|].
    intro x. eapply perm_trans; [apply Q'|]. apply perm_move; auto. lia.
  - exists h, pos. repeat split; auto; try (apply X). 
Qed.

Lemma push_ok h x : is_heap h -> exists h', heappush V h x = Ok h' /\ is_heap h' /\ Permutation h' (x :: h).
Proof.
  intro H. unfold heappush. assert (E : upd (h ++ [x]) (length h) x = h ++ [x]) by (rewrite upd_app2, Nat.sub_diag by lia; reflexivity).
  destruct (siftdown_ok (length h + 1) (h ++ [x]) x (length h)) as (h' & E' & H' & P'); [lia|rewrite app_length; cbn; lia| |].
  - rewrite E. unfold hx. rewrite app_length. cbn [length]. assert (K : forall j, (j < length h)%nat -> kat (h ++ [x]) j = kat h j) by (intros j J; unfold kat; rewrite map_app; apply app_nth1; rewrite map_length; exact J). split.
    + intros i I J. rewrite !K by (try lia; pose proof (par_lt i); lia). apply H. lia.
    + intros _ i I J. pose proof (par_lt i). lia.
  - exists h'. split; [exact E'|]. split; [exact H'|]. rewrite E in P'. eapply perm_trans; [exact P'|]. apply Permutation_sym, Permutation_cons_append.
Qed.
Lemma heap_least h : is_heap h -> forall i, (i < length h)%nat -> kat h 0 <= kat h i.
Proof.
  intros H i. induction i as [i IH] using lt_wf_ind. intro L. destruct (Nat.eq_dec i 0) as [-> | N]; [qlra|]. pose proof (par_lt i). assert (P : ((i - 1) / 2 < i)%nat) by lia.
  pose proof (IH _ P) as Q. assert (Q' : kat h 0 <= kat h ((i - 1) / 2)) by (apply Q; lia). assert (kat h ((i - 1) / 2) <= kat h i) by (apply H; lia). qlra.
Qed.
Lemma top_least (x : nd) r : is_heap (x :: r) -> least x (x :: r).
Proof.
  intro H. split; [left; auto|]. apply Forall_forall. intros y I. destruct (In_nth_error _ _ I) as [i E]. pose proof (heap_least _ H i) as Q. rewrite (kat_nth _ _ _ E) in Q. apply Q. apply nth_error_Some. congruence.
Qed.
Lemma pop_ok h : is_heap h -> h <> [] -> exists x h', heappop V h = Ok (x, h') /\ is_heap h' /\ Permutation (x :: h') h /\ least x h /\ qmin V h = Some x.
Proof.
  intros H NE. destruct (exists_last NE) as (l & e & ->). unfold heappop, node. rewrite rev_app_distr. cbn [rev app]. rewrite removelast_last.
  destruct l as [|top r].
  - exists e, []. repeat split; auto; [intros i I; cbn in I; lia|left; auto|]. repeat constructor. cbn. qlra.
  - assert (TL := top_least top (r ++ [e]) H). rewrite wr_ok by (cbn; lia). cbn [bind upd]. set (h0 := e :: r).
    assert (X : hole h0 0).
    { split; [|lia]. intros i I J1 J2. unfold h0 in *. cbn [length] in I.
      assert (K : forall j, (0 < j < S (length r))%nat -> kat (e :: r) j = kat (top :: r ++ [e]) j). { intros [|j] J; [lia|]. unfold kat. cbn [map nth]. rewrite map_app, app_nth1 by (rewrite map_length; lia). reflexivity. }
      rewrite !K by (try lia; pose proof (par_lt i); lia). apply H. cbn [app length]. rewrite app_length. cbn. lia. }
    destruct (siftup_ok (length h0) h0 0) as (h & pos & -> & L & P & HH & LL & Q); [lia|unfold h0; cbn; lia|exact X|]. cbn [bind]. rewrite wr_ok by lia. cbn [bind].
    destruct (siftdown_ok (length (upd h pos e)) (upd h pos e) e pos) as (h2 & -> & H2 & P2).
    + rewrite upd_length. lia.
    + rewrite upd_length. lia.
    + rewrite upd_upd_eq. unfold hx. rewrite upd_length. assert (NC : forall i, (0 < i < length h)%nat -> ((i - 1) / 2)%nat <> pos). { intros i I E. apply par_spec in E; lia. } split.
      * intros i I J. rewrite !kat_upd by lia. rewrite (proj2 (Nat.eqb_neq i pos)) by auto. rewrite (proj2 (Nat.eqb_neq _ pos)) by (apply NC; auto). apply (proj1 HH); auto.
      * intros _ i I E. destruct (NC i I E).
    + cbn [bind]. exists top, h2. split; [reflexivity|]. split; [exact H2|]. split; [|split; [exact TL|reflexivity]]. cbn [app]. apply perm_skip. rewrite upd_upd_eq in P2. eapply perm_trans; [exact P2|]. eapply perm_trans; [apply Q|]. unfold h0. cbn [upd]. apply Permutation_cons_append.
Qed.
Lemma pop_empty : heappop V [] = Err IndexError.
Proof. reflexivity. Qed.
End Heap.
