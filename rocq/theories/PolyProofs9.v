(* Lemmas for PolyProps.v: convex_hull2d. *)
From Coq Require Import List Arith ZArith Bool QArith Qcanon Lia Permutation Sorting.Sorted.
From Verif Require Import Common QcLib ListLib ArrZ AabbModel AabbSpec AabbProofs ImplModel RtreeModel RtreeProofs PolyModel PolySpec PolyProofs PolyProofs2 PolyProofs3 PolyProofs5.
From Verif Require BvhProofs4.
Import ListNotations.
Local Open Scope Qc_scope.

Lemma pos_of_mul a b : 0 < a -> 0 < a * b -> 0 < b.
Proof. intros A M. destruct (Qclt_le_dec 0 b) as [K|K]; [exact K|]. exfalso. assert (0 <= a * (- b)) by (apply qc_mul_nonneg; qlra). qlra. Qed.
Lemma nn_of_mul a b : 0 < a -> 0 <= a * b -> 0 <= b.
Proof. intros A M. destruct (Qclt_le_dec b 0) as [K|K]; [|exact K]. exfalso. assert (0 < a * (- b)) by (apply qc_mul_pos; qlra). qlra. Qed.
Lemma zero_of_mul a b : 0 < a -> a * b = 0 -> b = 0.
Proof. intros A M. assert (0 <= b) by (apply (nn_of_mul a); [exact A|rewrite M; qlra]). assert (0 <= - b) by (apply (nn_of_mul a); [exact A|assert (a * - b = - (a * b)) as -> by ring; rewrite M; qlra]). qlra. Qed.
Lemma p2_eq (a b : p2) : fst a = fst b -> snd a = snd b -> a = b.
Proof. destruct a, b. cbn. congruence. Qed.

Section Hull.
Context (o : p2).
Definition upper (v : p2) : Prop := snd o < snd v \/ (snd v = snd o /\ fst o <= fst v).
(* not later in angle, and not farther when the angle is the same *)
Definition ang_le (p q : p2) : Prop := 0 <= orient o p q /\ (orient o p q = 0 -> exists u, 0 <= u /\ u <= 1 /\ p = lerp u o q).
Lemma lerp_o u : lerp u o o = o.
Proof. unfold lerp. apply p2_eq; cbn [fst snd]; ring. Qed.
Lemma ang_null v : ang_le v o -> v = o.
Proof. intros [_ H]. destruct H as [u [_ [_ ->]]]; [unfold orient; ring|]. apply lerp_o. Qed.
Lemma ang_o v : ang_le o v.
Proof. split; [|intros _; exists 0]; [assert (orient o o v = 0) as -> by (unfold orient; ring); apply Qcle_refl|]. split; [apply Qcle_refl|]. split; [apply qle_true; vm_compute; reflexivity|]. unfold lerp. apply p2_eq; cbn [fst snd]; ring. Qed.
Lemma ang_refl v : ang_le v v.
Proof. split; [assert (orient o v v = 0) as -> by (unfold orient; ring); apply Qcle_refl|]. intros _. exists 1. split; [apply qle_true; vm_compute; reflexivity|]. split; [apply Qcle_refl|]. unfold lerp. apply p2_eq; cbn [fst snd]; ring. Qed.
Definition h (v : p2) : Qc := snd v - snd o.
Definition w (v : p2) : Qc := fst v - fst o.
Lemma plucker p q r : orient o p r * h q = orient o p q * h r + orient o q r * h p.
Proof. unfold orient, h. ring. Qed.
Lemma or_hw p q : orient o p q = w p * h q - h p * w q.
Proof. unfold orient, h, w. ring. Qed.
Lemma upper_hw v : upper v <-> 0 < h v \/ (h v = 0 /\ 0 <= w v).
Proof. unfold upper, h, w. split; (intros [H|[H K]]; [left|right; split]); qlra. Qed.
Lemma null_hw v : v = o <-> h v = 0 /\ w v = 0.
Proof. unfold h, w. split; [intros ->; split; ring|]. intros [A B]. apply p2_eq; qlra. Qed.
Lemma p2_dec (a b : p2) : {a = b} + {a <> b}.
Proof. destruct a as [a1 a2], b as [b1 b2]. destruct (Qc_eq_dec a1 b1) as [->|N]; [destruct (Qc_eq_dec a2 b2) as [->|N]; [left; reflexivity|right; congruence]|right; congruence]. Defined.

Lemma upper_pos v : upper v -> v <> o -> 0 < h v \/ (h v = 0 /\ 0 < w v).
Proof. rewrite upper_hw. intros [H|[H K]] N; [left; exact H|right; split; [exact H|]]. destruct (sgn3 (w v)) as [L|[L|L]]; [qlra|exfalso; apply N, null_hw; auto|exact L]. Qed.
(* turning on *)
Lemma strict_trans p q r : upper p -> upper q -> upper r -> 0 < orient o p q -> 0 < orient o q r -> 0 < orient o p r.
Proof.
  intros Up Uq Ur H1 H2. assert (Nq : q <> o) by (intros ->; assert (orient o p o = 0) by (unfold orient; ring); qlra).
  destruct (upper_pos q Uq Nq) as [Hq|[Hq Wq]].
  - apply (pos_of_mul (h q)); [exact Hq|]. rewrite Qcmult_comm, plucker. apply upper_hw in Up. apply upper_hw in Ur.
    assert (Rp : 0 < h r). { destruct Ur as [K|[K L]]; [exact K|]. exfalso. rewrite or_hw, K in H2. assert (0 <= h q * w r) by (apply qc_mul_nonneg; qlra). qlra. }
    assert (0 < orient o p q * h r) by (apply qc_mul_pos; assumption). assert (0 <= orient o q r * h p) by (apply qc_mul_nonneg; [qlra|destruct Up as [K|[K L]]; qlra]). qlra.
  - exfalso. rewrite or_hw, Hq in H1. apply upper_hw in Up. assert (0 <= h p * w q) by (apply qc_mul_nonneg; [destruct Up as [K|[K L]]; qlra|qlra]). qlra.
Qed.
Lemma ang_trans p q r : upper p -> upper q -> upper r -> ang_le p q -> ang_le q r -> ang_le p r.
Proof.
  intros Up Uq Ur [H1 C1] [H2 C2].
  destruct (p2_dec p o) as [->|Np]; [apply ang_o|].
  destruct (p2_dec q o) as [->|Nq]. { exfalso. apply Np, ang_null. split; assumption. }
  destruct (p2_dec r o) as [->|Nr]. { exfalso. apply Nq, ang_null. split; assumption. }
  assert (FIN : orient o p q = 0 -> orient o q r = 0 -> exists u, 0 <= u /\ u <= 1 /\ p = lerp u o r).
  { intros Z1 Z2. destruct (C1 Z1) as [u [u0 [u1 ->]]]. destruct (C2 Z2) as [v [v0 [v1 ->]]]. exists (u * v). split; [apply qc_mul_nonneg; assumption|]. split; [assert (0 <= (1 - u) * v) by (apply qc_mul_nonneg; qlra); qlra|]. unfold lerp. apply p2_eq; cbn [fst snd]; ring. }
  pose proof (plucker p q r) as I.
  destruct (upper_pos q Uq Nq) as [Hq|[Hq Wq]].
  - destruct (upper_pos r Ur Nr) as [Hr|[Hr Wr]].
    2: { exfalso. rewrite or_hw, Hr in H2. assert (0 < h q * w r) by (apply qc_mul_pos; assumption). qlra. }
    assert (M1 : 0 <= orient o p q * h r) by (apply qc_mul_nonneg; qlra). assert (Hp : 0 <= h p) by (destruct (upper_pos p Up Np) as [K|[K _]]; qlra). assert (M2 : 0 <= orient o q r * h p) by (apply qc_mul_nonneg; qlra).
    split; [apply (nn_of_mul (h q)); [exact Hq|qlra]|]. intros Z. rewrite Z in I.
    assert (Z1 : orient o p q = 0) by (apply (zero_of_mul (h r)); [exact Hr|qlra]).
    destruct (upper_pos p Up Np) as [K|[K L]]; [|exfalso; rewrite or_hw, K in Z; assert (0 < w p * h r) by (apply qc_mul_pos; assumption); qlra].
    apply FIN; [exact Z1|]. apply (zero_of_mul (h p)); [exact K|qlra].
  - rewrite or_hw, Hq in H1. destruct (upper_pos p Up Np) as [K|[K L]]; [exfalso; assert (0 < h p * w q) by (apply qc_mul_pos; assumption); qlra|].
    assert (Hr : 0 <= h r) by (destruct (upper_pos r Ur Nr) as [R|[R _]]; qlra).
    assert (Z1 : orient o p q = 0) by (rewrite or_hw, Hq, K; ring).
    split; [rewrite or_hw, K; assert (0 <= w p * h r) by (apply qc_mul_nonneg; qlra); qlra|]. intros Z. apply FIN; [exact Z1|]. rewrite or_hw, K in Z. assert (h r = 0) by (apply (zero_of_mul (w p)); [exact L|qlra]). rewrite or_hw, Hq, H. ring.
Qed.

(* the sort's comparison *)
Lemma sector_upper v : upper v -> (h v = 0 /\ 0 <= w v /\ sector (vec o v) = 1%Z) \/ (0 < h v /\ sector (vec o v) = 2%Z).
Proof.
  intros U. apply upper_hw in U. unfold sector, vec, px, py. cbn [fst snd]. fold (h v). fold (w v). destruct U as [U|[U V]].
  - right. split; [exact U|]. destruct (qlt (h v) 0) eqn:E; [apply qlt_true in E; qlra|]. destruct (qlt 0 (h v)) eqn:E2; [reflexivity|apply qlt_false in E2; qlra].
  - left. split; [exact U|split; [exact V|]]. destruct (qlt (h v) 0) eqn:E; [apply qlt_true in E; qlra|]. destruct (qlt 0 (h v)) eqn:E2; [apply qlt_true in E2; qlra|]. destruct (qlt (w v) 0) eqn:E3; [apply qlt_true in E3; qlra|reflexivity].
Qed.
Lemma angle_upper p q : upper p -> upper q -> (angle_lt (vec o p) (vec o q) = true <-> (h p = 0 /\ 0 < h q) \/ (0 < h p /\ 0 < h q /\ 0 < orient o p q)).
Proof.
  intros Up Uq. unfold angle_lt. destruct (sector_upper p Up) as [[Hp [Wp ->]]|[Hp ->]]; destruct (sector_upper q Uq) as [[Hq [Wq ->]]|[Hq ->]]; cbn [Z.ltb Z.eqb Z.compare Pos.compare Pos.compare_cont Pos.eqb orb andb].
  - split; [discriminate|]. intros [[? ?]|[? ?]]; qlra.
  - split; [auto|reflexivity].
  - split; [discriminate|]. intros [[? ?]|[? [? ?]]]; qlra.
  - rewrite qlt_true. unfold vec, px, py. cbn [fst snd]. fold (h p) (h q) (w p) (w q). rewrite or_hw. split; [intros; right; repeat split; try assumption; qlra|]. intros [[? ?]|[? [? ?]]]; qlra.
Qed.
Lemma dist_hw v : dist_sq o v = w v * w v + h v * h v.
Proof. unfold dist_sq, px, py, w, h. ring. Qed.
Lemma before_le p q : upper p -> upper q -> before o p q = true -> ang_le p q.
Proof.
  intros Up Uq H. unfold before in H. apply orb_true_iff in H. destruct H as [H|H].
  - apply angle_upper in H; [|assumption|assumption]. destruct H as [[H K]|[H [K L]]].
    + apply upper_hw in Up. destruct Up as [Up|[_ Up]]; [qlra|]. split; [rewrite or_hw, H; assert (0 <= w p * h q) by (apply qc_mul_nonneg; qlra); qlra|].
      intros Z. rewrite or_hw, H in Z. assert (w p = 0) by (apply (zero_of_mul (h q)); [exact K|qlra]). assert (p = o) as -> by (apply null_hw; auto). destruct (ang_o q) as [_ C]. apply C. unfold orient. ring.
    + split; [qlra|]. intros Z. rewrite Z in L. qlra.
  - apply andb_true_iff in H. destruct H as [H D]. apply negb_true_iff in H. apply qlt_true in D.
    assert (N : ~ ((h q = 0 /\ 0 < h p) \/ (0 < h q /\ 0 < h p /\ 0 < orient o q p))) by (rewrite <- (angle_upper q p Uq Up); rewrite H; discriminate).
    rewrite !dist_hw in D. assert (S : orient o q p = - orient o p q) by (unfold orient; ring). rewrite S in N.
    apply upper_hw in Up. apply upper_hw in Uq. destruct Up as [Hp|[Hp Wp]].
    + destruct Uq as [Hq|[Hq Wq]]; [|exfalso; apply N; auto]. assert (0 <= orient o p q) by (destruct (Qclt_le_dec (orient o p q) 0) as [K|K]; [exfalso; apply N; right; repeat split; try assumption; qlra|exact K]).
      split; [assumption|]. intros Z. assert (Nq : h q <> 0) by (intros K; rewrite K in Hq; qlra). rewrite or_hw in Z.
      assert (W : w p = h p / h q * w q). { transitivity (h p * w q / h q); [|field; exact Nq]. transitivity (w p * h q / h q); [field; exact Nq|]. f_equal. qlra. }
      exists (h p / h q). split; [apply qc_div_nonneg; qlra|]. split.
      * apply qc_div_le; [exact Hq|]. destruct (Qclt_le_dec (h q) (h p)) as [K|K]; [exfalso|qlra]. set (u := h p / h q) in *. assert (E : h p = u * h q) by (unfold u; field; exact Nq). assert (U1 : 1 < u). { destruct (Qclt_le_dec 1 u) as [L|L]; [exact L|]. assert (0 <= (1 - u) * h q) by (apply qc_mul_nonneg; qlra). qlra. }
        assert (0 < (u - 1) * (u + 1)) by (apply qc_mul_pos; qlra). assert (0 <= w q * w q) by apply BvhProofs4.sq_nn. assert (0 <= h q * h q) by apply BvhProofs4.sq_nn.
        assert (0 <= (u - 1) * (u + 1) * (w q * w q + h q * h q)) by (apply qc_mul_nonneg; qlra). rewrite W, E in D. qlra.
      * unfold lerp. apply p2_eq; cbn [fst snd]; fold (w q) (h q); [rewrite <- W; unfold w; ring|]. transitivity (snd o + h p); [unfold h; ring|]. f_equal. field. exact Nq.
    + split; [rewrite or_hw, Hp; assert (0 <= w p * h q) by (apply qc_mul_nonneg; [exact Wp|destruct Uq as [K|[K _]]; qlra]); qlra|]. intros Z. rewrite or_hw, Hp in Z.
      destruct Uq as [Hq|[Hq Wq]].
      * assert (w p = 0) by (apply (zero_of_mul (h q)); [exact Hq|qlra]). assert (p = o) as -> by (apply null_hw; auto). destruct (ang_o q) as [_ C]. apply C. unfold orient. ring.
      * rewrite Hp, Hq in D. assert (L : w p < w q). { destruct (Qclt_le_dec (w p) (w q)) as [L|L]; [exact L|]. exfalso. assert (0 <= (w p - w q) * (w p + w q)) by (apply qc_mul_nonneg; qlra). qlra. }
        assert (Nq : w q <> 0) by (intros K; rewrite K in L; qlra). assert (Q : 0 < w q) by qlra.
        exists (w p / w q). split; [apply qc_div_nonneg; qlra|]. split; [apply qc_div_le; [exact Q|qlra]|]. unfold lerp. apply p2_eq; cbn [fst snd]; fold (w q) (h q); [transitivity (fst o + w p); [unfold w; ring|f_equal; field; exact Nq]|rewrite Hq; unfold h in Hp; qlra].
Qed.
Lemma before_not p q : upper p -> upper q -> before o q p = false -> ang_le p q.
Proof.
  intros Up Uq H. unfold before in H. apply orb_false_iff in H. destruct H as [H D].
  destruct (angle_lt (vec o p) (vec o q)) eqn:A.
  { apply before_le; [assumption|assumption|]. unfold before. rewrite A. reflexivity. }
  cbn [negb andb] in D. apply qlt_false in D.
  destruct (Qclt_le_dec (dist_sq o p) (dist_sq o q)) as [L|L].
  { apply before_le; [assumption|assumption|]. unfold before. rewrite A, H. cbn. apply qlt_true. exact L. }
  assert (E : dist_sq o p = dist_sq o q) by qlra. clear D L. rewrite !dist_hw in E.
  assert (N1 : ~ ((h p = 0 /\ 0 < h q) \/ (0 < h p /\ 0 < h q /\ 0 < orient o p q))) by (rewrite <- (angle_upper p q Up Uq); rewrite A; discriminate).
  assert (N2 : ~ ((h q = 0 /\ 0 < h p) \/ (0 < h q /\ 0 < h p /\ 0 < orient o q p))) by (rewrite <- (angle_upper q p Uq Up); rewrite H; discriminate).
  assert (S : orient o q p = - orient o p q) by (unfold orient; ring). rewrite S in N2.
  assert (p = q) as ->; [|apply ang_refl].
  apply upper_hw in Up. apply upper_hw in Uq. destruct Up as [Hp|[Hp Wp]]; destruct Uq as [Hq|[Hq Wq]]; try (exfalso; tauto).
  - assert (Z : orient o p q = 0). { destruct (sgn3 (orient o p q)) as [K|[K|K]]; [exfalso; apply N2; right; repeat split; try assumption; qlra|exact K|exfalso; apply N1; right; auto]. } rewrite or_hw in Z.
    assert (Nq : h q <> 0) by (intros K; rewrite K in Hq; qlra). set (u := h p / h q). assert (Eh : h p = u * h q) by (unfold u; field; exact Nq).
    assert (Ew : w p = u * w q). { transitivity (h p * w q / h q); [|unfold u; field; exact Nq]. transitivity (w p * h q / h q); [field; exact Nq|]. f_equal. qlra. }
    assert (Up : 0 < u) by (apply (pos_of_mul (h q)); [exact Hq|rewrite Qcmult_comm, <- Eh; exact Hp]).
    assert (U1 : u = 1). { assert (0 < h q * h q) by (apply qc_mul_pos; assumption). assert (0 <= w q * w q) by apply BvhProofs4.sq_nn. rewrite Eh, Ew in E. assert (M : (w q * w q + h q * h q) * ((u - 1) * (u + 1)) = 0) by qlra. apply zero_of_mul in M; [|qlra]. rewrite Qcmult_comm in M. apply zero_of_mul in M; qlra. }
    rewrite U1 in Eh, Ew. apply p2_eq; unfold h, w in *; qlra.
  - rewrite Hp, Hq in E. assert (Ew : w p = w q). { destruct (sgn3 (w p - w q)) as [K|[K|K]]; [exfalso; assert (0 < (w q - w p) * (w p + w q)) by (apply qc_mul_pos; qlra); qlra|qlra|exfalso; assert (0 < (w p - w q) * (w p + w q)) by (apply qc_mul_pos; qlra); qlra]. }
    apply p2_eq; unfold h, w in *; qlra.
Qed.
Lemma put_sorted x l : upper x -> Forall upper l -> StronglySorted ang_le l -> StronglySorted ang_le (put_pt o x l) /\ Permutation (x :: l) (put_pt o x l).
Proof.
  intros Ux. induction l as [|y r IH]; intros U S; [split; [repeat constructor|reflexivity]|]. inversion_clear U as [|? ? Uy Ur]. inversion_clear S as [|? ? Sr Fr]. cbn [put_pt]. destruct (before o y x) eqn:B.
  - destruct (IH Ur Sr) as [S' P]. split; [|rewrite perm_swap, P; reflexivity]. constructor; [exact S'|]. eapply Permutation_Forall; [exact P|]. constructor; [apply before_le; assumption|exact Fr].
  - split; [|reflexivity]. pose proof (before_not x y Ux Uy B) as L. constructor; [constructor; assumption|]. constructor; [exact L|]. rewrite Forall_forall in *. intros z I. apply (ang_trans x y z); auto.
Qed.
Lemma sort_sorted l : Forall upper l -> StronglySorted ang_le (sort_pts o l) /\ Permutation l (sort_pts o l).
Proof.
  induction l as [|x l IH]; intros U; [split; [constructor|reflexivity]|]. inversion_clear U as [|? ? Ux Ul]. destruct (IH Ul) as [S P]. cbn [sort_pts fold_right]. fold (sort_pts o l).
  destruct (put_sorted x (sort_pts o l) Ux) as [S' P']; [eapply Permutation_Forall; eassumption|exact S|]. split; [exact S'|]. rewrite <- P'. rewrite <- P. reflexivity.
Qed.
End Hull.
