(* Lemmas for PolyProps.v: Polygon.clip. *)
From Coq Require Import List Arith ZArith Bool QArith Qcanon Lia Permutation Sorting.Sorted.
From Verif Require Import Common QcLib ListLib ArrZ AabbModel AabbSpec AabbProofs ImplModel RtreeModel RtreeProofs PolyModel PolySpec PolyProofs PolyProofs2 PolyProofs3 PolyProofs4.
Import ListNotations.
Local Open Scope Qc_scope.

Lemma outline_edges l : edges_of l = outline l.
Proof.
  destruct l as [|o r]; [reflexivity|]. rewrite edges_steps. unfold outline. generalize o at 2 4. intros z. revert o. induction r as [|a r IH]; intros o; [reflexivity|].
  cbn [app]. change (steps (o :: a :: r ++ [z])) with ((o, a) :: steps (a :: r ++ [z])). rewrite IH. reflexivity.
Qed.
Lemma outline_len l : length (outline l) = length l.
Proof. destruct l as [|o r]; [reflexivity|]. unfold outline. rewrite combine_length, app_length. cbn [length]. lia. Qed.
Lemma map_fst_combine {A B} (l : list A) (m : list B) : length l = length m -> map fst (combine l m) = l.
Proof. revert m. induction l as [|a l IH]; intros [|b m] H; cbn in *; try discriminate; [reflexivity|]. f_equal. apply IH. lia. Qed.
Lemma map_snd_combine {A B} (l : list A) (m : list B) : length l = length m -> map snd (combine l m) = m.
Proof. revert m. induction l as [|a l IH]; intros [|b m] H; cbn in *; try discriminate; [reflexivity|]. f_equal. apply IH. lia. Qed.
Lemma outline_fst l : map fst (outline l) = l.
Proof. destruct l as [|o r]; [reflexivity|]. unfold outline. apply map_fst_combine. rewrite app_length. cbn. lia. Qed.

(* ---- nothing crosses ---- *)
Lemma inner_none i e j cs st : Forall (fun f => intersect (fst e) (snd e) (fst f) (snd f) = None) cs -> phase1_inner i e j cs st = st.
Proof. revert j st. induction cs as [|f cs IH]; intros j st H; [reflexivity|]. inversion H as [|? ? A B]; subst. cbn [phase1_inner]. rewrite A. destruct st as [[a b] k]. apply IH, B. Qed.
Lemma outer_none i es cs st : Forall (fun e => Forall (fun f => intersect (fst e) (snd e) (fst f) (snd f) = None) cs) es -> phase1_outer i es cs st = st.
Proof. revert i st. induction es as [|e es IH]; intros i st H; [reflexivity|]. inversion H as [|? ? A B]; subst. cbn [phase1_outer]. rewrite inner_none by exact A. apply IH, B. Qed.
Lemma flag_plain e s : flag e (of_points s) = map (fun p => {| at_ := p; xing := None |}) s.
Proof. revert e. induction s as [|p s IH]; intros e; [reflexivity|]. cbn. f_equal. apply IH. Qed.
Lemma first_plain ch s i : first_unchecked (map (fun p => {| at_ := p; xing := None |}) s) ch i = None.
Proof. revert i. induction s as [|p s IH]; intros i; [reflexivity|]. cbn. apply IH. Qed.
Lemma no_crossing s c se ce : s <> [] -> c <> [] -> (forall e f, In e (outline s) -> In f (outline c) -> ~ crosses (e, f)) ->
  forall fuel, (0 < fuel)%nat -> poly_clip fuel s c se ce = Ok [s].
Proof.
  intros S C H fuel L. unfold poly_clip. destruct s as [|hs s]; [congruence|]. destruct c as [|hc c]; [congruence|]. unfold phase1. rewrite outer_none.
  2: { apply Forall_forall. intros e I. apply Forall_forall. intros f J. apply intersect_none. rewrite outline_edges in I, J. exact (H e f I J). }
  rewrite !flag_plain. destruct fuel as [|fuel]; [lia|]. cbn [phase3]. rewrite first_plain. cbn [bind]. rewrite map_map. cbn [at_]. rewrite map_id. reflexivity.
Qed.
Lemma outline_in l e : In e (outline l) -> In (fst e) l /\ In (snd e) l.
Proof.
  destruct e as [x y]. destruct l as [|o r]; [intros []|]. unfold outline. intros H. split; [eapply in_combine_l; exact H|]. apply in_combine_r in H. apply in_app_or in H. cbn. destruct H as [H|[H|[]]]; auto.
Qed.
Lemma separated_no_crossing s c a b : Forall (fun p => 0 < orient a b p) s -> Forall (fun p => orient a b p < 0) c -> forall e f, In e (outline s) -> In f (outline c) -> ~ crosses (e, f).
Proof.
  intros S C e f I J [K L]. cbn [fst snd] in *. rewrite Forall_forall in *. apply outline_in in I, J. destruct I as [I1 I2], J as [J1 J2]. pose proof (S _ I1). pose proof (S _ I2). pose proof (C _ J1). pose proof (C _ J2).
  destruct (intersect_proper (fst e) (snd e) (fst f) (snd f) (conj K L)) as [[[p us] uc] E]. apply intersect_some in E. destruct E as [_ [[U0 U1] [[V0 V1] [E1 E2]]]].
  assert (A : orient a b p = (1 - us) * orient a b (fst e) + us * orient a b (snd e)) by (rewrite E1; apply orient_lerp). assert (B : orient a b p = (1 - uc) * orient a b (fst f) + uc * orient a b (snd f)) by (rewrite E2; apply orient_lerp).
  assert (0 < (1 - us) * orient a b (fst e)) by (apply qc_mul_pos; qlra). assert (0 < us * orient a b (snd e)) by (apply qc_mul_pos; qlra). assert (0 < (1 - uc) * - orient a b (fst f)) by (apply qc_mul_pos; qlra). assert (0 < uc * - orient a b (snd f)) by (apply qc_mul_pos; qlra). qlra.
Qed.

(* ---- phase one ---- *)
Definition cut_le (c d : cut) : Prop := cut_alpha c <= cut_alpha d.
Definition cut_on (e : p2 * p2) (c : cut) : Prop := 0 < cut_alpha c /\ cut_alpha c < 1 /\ cut_at c = lerp (cut_alpha c) (fst e) (snd e).
Definition cuts_ok (e : p2 * p2) (l : list cut) : Prop := Forall (cut_on e) l /\ StronglySorted cut_le l.
Definition sides_ok (es : list (p2 * p2)) (a : sides) : Prop := Forall2 (fun e sd => fst sd = fst e /\ cuts_ok e (snd sd)) es a.
Definition all_cuts (a : sides) : list cut := flat_map snd a.

Lemma insert_cut_perm c l : Permutation (insert_cut c l) (c :: l).
Proof. induction l as [|d l IH]; [reflexivity|]. cbn. destruct (qlt _ _); [|reflexivity]. rewrite IH. apply perm_swap. Qed.
Lemma insert_cut_ok e c l : cuts_ok e l -> cut_on e c -> cuts_ok e (insert_cut c l).
Proof.
  intros [F S] C. split; [eapply Permutation_Forall; [symmetry; apply insert_cut_perm|constructor; assumption]|].
  clear F C. induction S as [|d l S IH F]; [repeat constructor|]. cbn. destruct (qlt (cut_alpha d) (cut_alpha c)) eqn:E; bsplit.
  - constructor; [exact IH|]. eapply Permutation_Forall; [symmetry; apply insert_cut_perm|]. constructor; [unfold cut_le; qlra|exact F].
  - constructor; [constructor; assumption|]. constructor; [exact E|]. eapply Forall_impl; [|exact F]. intros x. unfold cut_le. intros. qlra.
Qed.
Lemma insert_at_ok es a i e c : sides_ok es a -> nth_error es i = Some e -> cut_on e c -> sides_ok es (insert_at i c a).
Proof.
  intros S. revert i. induction S as [|e' sd es a [A B] S IH]; intros i N C; [destruct i; discriminate|]. destruct sd as [p l]. destruct i as [|i]; cbn.
  - injection N as ->. constructor; [|exact S]. split; [exact A|]. apply insert_cut_ok; assumption.
  - constructor; [split; assumption|]. apply IH; assumption.
Qed.
Lemma insert_at_cuts i c a : (i < length a)%nat -> Permutation (all_cuts (insert_at i c a)) (c :: all_cuts a).
Proof.
  revert i. induction a as [|[p l] a IH]; intros i L; [cbn in L; lia|]. destruct i as [|i]; cbn.
  - rewrite insert_cut_perm. reflexivity.
  - unfold all_cuts in IH. rewrite IH by (cbn in L; lia). symmetry. apply Permutation_middle.
Qed.
Lemma sides_len es a : sides_ok es a -> length a = length es.
Proof. intros H. apply Forall2_length in H. auto. Qed.

(* X lists the crossing points found so far by number *)
Definition numbered (n : nat) (a : sides) : Prop := Permutation (map cut_id (all_cuts a)) (seq 0 n).
Definition marks (X : list p2) (a : sides) : Prop := Forall (fun c => nth_error X (cut_id c) = Some (cut_at c)) (all_cuts a).
Record ph1 (es cs : list (p2 * p2)) (X : list p2) (st : sides * sides * nat) : Prop := {
  p_a : sides_ok es (fst (fst st)); p_b : sides_ok cs (snd (fst st)); p_n : length X = snd st;
  p_na : numbered (snd st) (fst (fst st)); p_nb : numbered (snd st) (snd (fst st));
  p_ma : marks X (fst (fst st)); p_mb : marks X (snd (fst st)) }.
Lemma numbered_add n a i c : (i < length a)%nat -> numbered n a -> cut_id c = n -> numbered (S n) (insert_at i c a).
Proof.
  intros L H E. unfold numbered. rewrite (Permutation_map cut_id (insert_at_cuts i c a L)). cbn [map]. rewrite E, seq_S. unfold numbered in H. rewrite H. rewrite Permutation_app_comm. reflexivity.
Qed.
Lemma marks_add X a i c : (i < length a)%nat -> marks X a -> cut_id c = length X -> marks (X ++ [cut_at c]) (insert_at i c a).
Proof.
  intros L H E. unfold marks. eapply Permutation_Forall; [symmetry; apply insert_at_cuts, L|]. constructor.
  - rewrite E, nth_error_app2, Nat.sub_diag by lia. reflexivity.
  - eapply Forall_impl; [|exact H]. intros d K. rewrite nth_error_app1; [exact K|]. apply nth_error_Some. congruence.
Qed.
Lemma inner_ok es cs X i e j cs' st : ph1 es cs X st -> nth_error es i = Some e -> (forall m, nth_error cs' m = nth_error cs (j + m)) -> exists Y n,
  ph1 es cs (X ++ Y) (phase1_inner i e j cs' st) /\ counted (fun f => crosses (e, f)) cs' n /\ length Y = n /\ Forall (fun p => exists f u v, In f cs' /\ 0 < u /\ u < 1 /\ 0 < v /\ v < 1 /\ p = lerp u (fst e) (snd e) /\ p = lerp v (fst f) (snd f)) Y.
Proof.
  revert X j st. induction cs' as [|f cs' IH]; intros X j st P N J; [exists [], 0%nat; rewrite app_nil_r; split; [exact P|]; split; [constructor|]; split; [reflexivity|constructor]|].
  cbn [phase1_inner]. destruct st as [[a b] k]. assert (Jf : nth_error cs j = Some f) by (specialize (J 0%nat); rewrite Nat.add_0_r in J; symmetry; exact J).
  assert (J' : forall m, nth_error cs' m = nth_error cs (S j + m)) by (intros m; specialize (J (S m)); cbn in J; rewrite J; f_equal; lia).
  destruct (intersect (fst e) (snd e) (fst f) (snd f)) as [[[p us] uc]|] eqn:E.
  - destruct (intersect_some _ _ _ _ _ _ _ E) as [K [[U0 U1] [[V0 V1] [E1 E2]]]]. destruct P as [Pa Pb Pn Pna Pnb Pma Pmb]. cbn [fst snd] in *.
    assert (La : (i < length a)%nat) by (rewrite (sides_len _ _ Pa); apply nth_error_Some; congruence). assert (Lb : (j < length b)%nat) by (rewrite (sides_len _ _ Pb); apply nth_error_Some; congruence).
    destruct (IH (X ++ [p]) (S j) (insert_at i {| cut_at := p; cut_alpha := us; cut_id := k |} a, insert_at j {| cut_at := p; cut_alpha := uc; cut_id := k |} b, S k)) as [Y [n [Q [CN [LY FY]]]]]; [|exact N|exact J'|].
    { constructor; cbn [fst snd].
      - eapply insert_at_ok; [exact Pa|exact N|]. repeat split; assumption.
      - eapply insert_at_ok; [exact Pb|exact Jf|]. repeat split; assumption.
      - rewrite app_length, Pn. cbn. lia.
      - apply numbered_add; auto.
      - apply numbered_add; auto.
      - apply (marks_add X a i {| cut_at := p; cut_alpha := us; cut_id := k |}); auto.
      - apply (marks_add X b j {| cut_at := p; cut_alpha := uc; cut_id := k |}); auto. }
    exists (p :: Y), (S n). rewrite <- app_assoc in Q. split; [exact Q|]. split; [apply counted_yes; [exact K|exact CN]|]. split; [cbn; lia|]. constructor.
    + exists f, us, uc. repeat split; try assumption. left. reflexivity.
    + eapply Forall_impl; [|exact FY]. intros r [f' [u [v [I R]]]]. exists f', u, v. split; [right; exact I|exact R].
  - destruct (IH X (S j) (a, b, k) P N J') as [Y [n [Q [CN [LY FY]]]]]. exists Y, n. split; [exact Q|]. split; [apply counted_no; [|exact CN]|].
    { intros K. destruct (intersect_proper (fst e) (snd e) (fst f) (snd f) K) as [r R]. congruence. }
    split; [exact LY|]. eapply Forall_impl; [|exact FY]. intros r [f' [u [v [I R]]]]. exists f', u, v. split; [right; exact I|exact R].
Qed.
Lemma counted_app {A} (P : A -> Prop) l m a b : counted P l a -> counted P m b -> counted P (l ++ m) (a + b).
Proof. induction 1; cbn; [auto| |]; intros; [apply counted_yes|apply counted_no]; auto. Qed.
Lemma counted_map {A B} (f : A -> B) (P : B -> Prop) l n : counted (fun a => P (f a)) l n -> counted P (map f l) n.
Proof. induction 1; cbn; [constructor|apply counted_yes; assumption|apply counted_no; assumption]. Qed.
Lemma outer_ok es cs X i es' st : ph1 es cs X st -> (forall m, nth_error es' m = nth_error es (i + m)) -> exists Y n,
  ph1 es cs (X ++ Y) (phase1_outer i es' cs st) /\ counted crosses (list_prod es' cs) n /\ length Y = n /\ Forall (crossing_point es' cs) Y.
Proof.
  revert X i st. induction es' as [|e es' IH]; intros X i st P J; [exists [], 0%nat; rewrite app_nil_r; split; [exact P|]; split; [constructor|]; split; [reflexivity|constructor]|].
  cbn [phase1_outer]. assert (Je : nth_error es i = Some e) by (specialize (J 0%nat); rewrite Nat.add_0_r in J; symmetry; exact J).
  destruct (inner_ok es cs X i e 0 cs st P Je (fun m => eq_refl)) as [Y1 [n1 [P1 [C1 [L1 F1]]]]].
  destruct (IH (X ++ Y1) (S i) _ P1) as [Y2 [n2 [P2 [C2 [L2 F2]]]]]; [intros m; specialize (J (S m)); cbn in J; rewrite J; f_equal; lia|].
  exists (Y1 ++ Y2), (n1 + n2)%nat. rewrite app_assoc. split; [exact P2|]. split; [cbn [list_prod]; apply counted_app; [apply counted_map; exact C1|exact C2]|]. split; [rewrite app_length; lia|]. apply Forall_app. split.
  - eapply Forall_impl; [|exact F1]. intros p [f [u [v [I R]]]]. exists e, f, u, v. split; [left; reflexivity|]. split; [exact I|exact R].
  - eapply Forall_impl; [|exact F2]. intros p [e' [f [u [v [I R]]]]]. exists e', f, u, v. split; [right; exact I|exact R].
Qed.
Lemma of_points_ok es l : map fst es = l -> sides_ok es (of_points l).
Proof. intros <-. induction es as [|e es IH]; [constructor|]. cbn. constructor; [|exact IH]. split; [reflexivity|]. split; constructor. Qed.
Lemma of_points_cuts l : all_cuts (of_points l) = [].
Proof. induction l; [reflexivity|]. cbn. assumption. Qed.
Lemma phase1_ok s c : exists X, ph1 (outline s) (outline c) X (phase1 s c) /\ counted crosses (list_prod (outline s) (outline c)) (length X) /\ Forall (crossing_point (outline s) (outline c)) X.
Proof.
  unfold phase1. rewrite !outline_edges. destruct (outer_ok (outline s) (outline c) [] 0 (outline s) (of_points s, of_points c, 0%nat)) as [Y [n [P [C [L F]]]]]; [|reflexivity|].
  { constructor; cbn [fst snd]; [apply of_points_ok, outline_fst|apply of_points_ok, outline_fst|reflexivity| | | |]; unfold numbered, marks; rewrite of_points_cuts; constructor. }
  exists Y. subst n. auto.
Qed.
