(* Lemmas for PolyProps.v: clipping against the edges of another polygon. *)
From Coq Require Import List Arith ZArith Bool QArith Qcanon Lia Permutation.
From Verif Require Import Common QcLib ListLib ArrZ AabbModel AabbSpec AabbProofs ImplModel RtreeModel RtreeProofs PolyModel PolySpec PolyProofs PolyProofs2 PolyProofs3.
Import ListNotations.
Local Open Scope Qc_scope.

Lemma inside_iff a b p : inside a b p = true <-> 0 < orient a b p.
Proof. unfold inside. rewrite qlt_true. unfold orient, px, py. split; intros; qlra. Qed.
Lemma inside_not a b p : inside a b p = false <-> orient a b p <= 0.
Proof. unfold inside. rewrite qlt_false. unfold orient, px, py. split; intros; qlra. Qed.

Definition meet (cp1 cp2 s e : p2) : p2 := lerp (orient cp1 cp2 s / (orient cp1 cp2 s - orient cp1 cp2 e)) s e.
Lemma compute_meet cp1 cp2 s e : orient cp1 cp2 s - orient cp1 cp2 e <> 0 -> compute_intersection cp1 cp2 s e = Ok (meet cp1 cp2 s e).
Proof.
  intros N. unfold compute_intersection. set (den := (px cp1 - px cp2) * (py s - py e) - (py cp1 - py cp2) * (px s - px e)).
  assert (E : orient cp1 cp2 s - orient cp1 cp2 e = - den) by (unfold den, orient, px, py; ring). unfold meet. rewrite E in *. assert (Z : den <> 0) by (intro K; apply N; rewrite K; ring).
  rewrite (proj2 (qeq_false den 0) Z). f_equal. unfold lerp. f_equal.
  - assert (W : forall w w', w * den = w' * den -> w = w').
    { intros w w' H. assert (K : (w - w') * den = 0) by qlra. apply Qcmult_integral in K. destruct K as [K|K]; [qlra|contradiction]. }
    apply W. transitivity ((px cp1 * py cp2 - py cp1 * px cp2) * (px s - px e) - (px s * py e - py s * px e) * (px cp1 - px cp2)).
    + clearbody den. field. exact Z.
    + transitivity (fst s * den - orient cp1 cp2 s * (fst e - fst s)); [unfold den, orient, px, py; ring|]. clearbody den. field. exact N.
  - assert (W : forall w w', w * den = w' * den -> w = w').
    { intros w w' H. assert (K : (w - w') * den = 0) by qlra. apply Qcmult_integral in K. destruct K as [K|K]; [qlra|contradiction]. }
    apply W. transitivity ((px cp1 * py cp2 - py cp1 * px cp2) * (py s - py e) - (px s * py e - py s * px e) * (py cp1 - py cp2)).
    + clearbody den. field. exact Z.
    + transitivity (snd s * den - orient cp1 cp2 s * (snd e - snd s)); [unfold den, orient, px, py; ring|]. clearbody den. field. exact N.
Qed.
(* parameter of the meeting point when exactly one end is strictly inside *)
Definition parted (x y : Qc) : Prop := (0 < x /\ y <= 0) \/ (x <= 0 /\ 0 < y).
Lemma frac_unit x y : parted x y -> 0 <= x / (x - y) /\ x / (x - y) <= 1 /\ x / (x - y) * (x - y) = x.
Proof.
  intros P. assert (N : x - y <> 0) by (destruct P as [[A B]|[A B]]; intro; qlra). assert (E : x / (x - y) * (x - y) = x) by (unfold Qcdiv; rewrite <- Qcmult_assoc, (Qcmult_comm (/ _)), Qcmult_inv_r, Qcmult_1_r by assumption; reflexivity). set (t := x / (x - y)) in *. clearbody t.
  destruct P as [[A B]|[A B]].
  - split; [destruct (Qclt_le_dec t 0) as [D|D]; [|exact D]; exfalso; assert (0 < (- t) * (x - y)) by (apply qc_mul_pos; qlra); qlra|]. split; [|exact E]. destruct (Qclt_le_dec 1 t) as [D|D]; [|exact D]. exfalso. assert (0 < (t - 1) * (x - y)) by (apply qc_mul_pos; qlra). qlra.
  - split; [destruct (Qclt_le_dec t 0) as [D|D]; [|exact D]; exfalso; assert (0 < (- t) * (y - x)) by (apply qc_mul_pos; qlra); qlra|]. split; [|exact E]. destruct (Qclt_le_dec 1 t) as [D|D]; [|exact D]. exfalso. assert (0 < (t - 1) * (y - x)) by (apply qc_mul_pos; qlra). qlra.
Qed.
Lemma orient_lerp a b t s e : orient a b (lerp t s e) = (1 - t) * orient a b s + t * orient a b e.
Proof. unfold orient, lerp. cbn [fst snd]. ring. Qed.
Lemma meet_spec cp1 cp2 s e : parted (orient cp1 cp2 s) (orient cp1 cp2 e) -> on_segment (meet cp1 cp2 s e) s e /\ orient cp1 cp2 (meet cp1 cp2 s e) = 0.
Proof.
  intros P. destruct (frac_unit _ _ P) as [A [B C]]. unfold meet. set (t := _ / _) in *. clearbody t. split; [exists t; auto|]. rewrite orient_lerp. qlra.
Qed.

Definition block (cp1 cp2 : p2) (e : p2 * p2) : list p2 :=
  if inside cp1 cp2 (snd e) then if inside cp1 cp2 (fst e) then [snd e] else [meet cp1 cp2 (fst e) (snd e); snd e]
  else if inside cp1 cp2 (fst e) then [meet cp1 cp2 (fst e) (snd e)] else [].
Lemma clip_edge_blocks cp1 cp2 s l : clip_edge cp1 cp2 s l = Ok (flat_map (block cp1 cp2) (steps (s :: l))).
Proof.
  revert s. induction l as [|e l IH]; intros s; [reflexivity|]. cbn [clip_edge]. rewrite IH. change (steps (s :: e :: l)) with ((s, e) :: steps (e :: l)). cbn [flat_map].
  set (rest := flat_map (block cp1 cp2) (steps (e :: l))). clearbody rest. unfold block. cbn [fst snd]. destruct (inside cp1 cp2 e) eqn:A, (inside cp1 cp2 s) eqn:B; cbn [negb]; try reflexivity; apply inside_iff in A || apply inside_not in A; apply inside_iff in B || apply inside_not in B;
    rewrite compute_meet by (intro; qlra); reflexivity.
Qed.
Lemma last_of_ok l : l <> [] -> exists u s, l = u ++ [s] /\ last_of l = Ok s.
Proof.
  destruct l as [|p r]; [congruence|]. intros _. unfold last_of. destruct (@exists_last _ (p :: r)) as [u [s E]]; [congruence|]. exists u, s. split; [exact E|]. f_equal.
  destruct u as [|a u]; cbn in E; injection E as E1 E2; subst; [reflexivity|]. clear. induction u as [|b u IH]; [reflexivity|]. destruct u; [reflexivity|exact IH].
Qed.
(* pairs a vertex follows the one before it, the first the last *)
Lemma clip_step cp1 cp2 r out : out <> [] -> exists s u, out = u ++ [s] /\ clip_by cp1 (cp2 :: r) out = clip_by cp2 r (flat_map (block cp1 cp2) (steps (s :: out))).
Proof. intros H. destruct (last_of_ok out H) as [u [s [E F]]]. exists s, u. split; [exact E|]. cbn [clip_by]. rewrite F. cbn [bind]. rewrite clip_edge_blocks. reflexivity. Qed.
Lemma clip_step_nil cp1 cp2 r : clip_by cp1 (cp2 :: r) [] = Err IndexError.
Proof. reflexivity. Qed.

Lemma steps_edge l u s : l = u ++ [s] -> forall a b, In (a, b) (steps (s :: l)) <-> edge l a b.
Proof.
  intros E a b. unfold edge. assert (G : forall l, In (a, b) (steps l) <-> exists v w, l = v ++ a :: b :: w).
  { intros m. induction m as [|x m IH]; [cbn; split; [tauto|intros [v [w H]]; destruct v; discriminate]|]. destruct m as [|y m]; [cbn; split; [tauto|intros [v [w H]]; destruct v as [|? [|? ?]]; discriminate]|].
    change (steps (x :: y :: m)) with ((x, y) :: steps (y :: m)). cbn [In]. rewrite IH. split.
    - intros [H|[v [w H]]]; [injection H as -> ->; exists [], m; reflexivity|]. exists (x :: v), w. rewrite H. reflexivity.
    - intros [v [w H]]. destruct v as [|z v]; [injection H as -> -> ->; auto|]. injection H as -> H. right. exists v, w. exact H. }
  destruct l as [|c l]; [destruct u; discriminate|]. change (steps (s :: c :: l)) with ((s, c) :: steps (c :: l)). cbn [In]. rewrite G. split.
  - intros [H|H]; [right|left; exact H]. injection H as -> ->. exists l, u. split; [reflexivity|exact E].
  - intros [H|[v [w [H K]]]]; [right; exact H|left]. injection H as -> ->. rewrite K in E. apply app_inj_tail in E. destruct E as [_ ->]. reflexivity.
Qed.

(* ---- what is kept ---- *)
Definition closed_in (P : p2 -> Prop) : Prop := forall a b p, P a -> P b -> on_segment p a b -> P p.
Lemma steps_in s l e : In e (steps (s :: l)) -> (fst e = s \/ In (fst e) l) /\ In (snd e) l.
Proof.
  revert s. induction l as [|a l IH]; intros s; [intros []|]. change (steps (s :: a :: l)) with ((s, a) :: steps (a :: l)). intros [H|H]; [subst; cbn; auto|]. destruct (IH _ H) as [[A|A] B]; cbn; auto.
Qed.
Lemma blocks_closed P cp1 cp2 s l : closed_in P -> P s -> Forall P l -> Forall P (flat_map (block cp1 cp2) (steps (s :: l))).
Proof.
  intros C Ps F. rewrite Forall_forall in *. intros p H. apply in_flat_map in H. destruct H as [[x y] [H K]]. apply steps_in in H. cbn [fst snd] in H. destruct H as [[A|A] B]; [subst x|]; (assert (Py : P y) by auto).
  - unfold block in K. cbn [fst snd] in K. destruct (inside cp1 cp2 y) eqn:I1, (inside cp1 cp2 s) eqn:I2; cbn in K; apply inside_iff in I1 || apply inside_not in I1; apply inside_iff in I2 || apply inside_not in I2.
    + destruct K as [<-|[]]. exact Py.
    + destruct K as [<-|[<-|[]]]; [|exact Py]. eapply C; [exact Ps|exact Py|]. apply meet_spec. right; auto.
    + destruct K as [<-|[]]. eapply C; [exact Ps|exact Py|]. apply meet_spec. left; auto.
    + destruct K.
  - assert (Px : P x) by auto. unfold block in K. cbn [fst snd] in K. destruct (inside cp1 cp2 y) eqn:I1, (inside cp1 cp2 x) eqn:I2; cbn in K; apply inside_iff in I1 || apply inside_not in I1; apply inside_iff in I2 || apply inside_not in I2.
    + destruct K as [<-|[]]. exact Py.
    + destruct K as [<-|[<-|[]]]; [|exact Py]. eapply C; [exact Px|exact Py|]. apply meet_spec. right; auto.
    + destruct K as [<-|[]]. eapply C; [exact Px|exact Py|]. apply meet_spec. left; auto.
    + destruct K.
Qed.
Lemma blocks_inside cp1 cp2 es : Forall (fun p => 0 <= orient cp1 cp2 p) (flat_map (block cp1 cp2) es).
Proof.
  apply Forall_forall. intros p H. apply in_flat_map in H. destruct H as [[x y] [_ K]]. unfold block in K. cbn [fst snd] in K.
  destruct (inside cp1 cp2 y) eqn:I1, (inside cp1 cp2 x) eqn:I2; cbn in K; apply inside_iff in I1 || apply inside_not in I1; apply inside_iff in I2 || apply inside_not in I2.
  - destruct K as [<-|[]]. qlra.
  - destruct K as [<-|[<-|[]]]; [|qlra]. rewrite (proj2 (meet_spec cp1 cp2 x y ltac:(right; auto))). apply Qcle_refl.
  - destruct K as [<-|[]]. rewrite (proj2 (meet_spec cp1 cp2 x y ltac:(left; auto))). apply Qcle_refl.
  - destruct K.
Qed.
Lemma half_closed a b : closed_in (fun p => 0 <= orient a b p).
Proof. intros x y p X Y [t [T0 [T1 ->]]]. rewrite orient_lerp. assert (0 <= (1 - t) * orient a b x) by (apply qc_mul_nonneg; qlra). assert (0 <= t * orient a b y) by (apply qc_mul_nonneg; qlra). qlra. Qed.
Lemma out_closed a b : closed_in (fun p => orient a b p <= 0).
Proof. intros x y p X Y [t [T0 [T1 ->]]]. rewrite orient_lerp. assert (0 <= (1 - t) * - orient a b x) by (apply qc_mul_nonneg; qlra). assert (0 <= t * - orient a b y) by (apply qc_mul_nonneg; qlra). qlra. Qed.
Lemma hull_closed P : closed_in (hull P).
Proof. intros a b p A B C. apply (hull_seg P a b); assumption. Qed.
Lemma clip_by_closed P cp1 cl out res : closed_in P -> Forall P out -> clip_by cp1 cl out = Ok res -> Forall P res.
Proof.
  intros C. revert cp1 out. induction cl as [|cp2 cl IH]; intros cp1 out F H; [injection H as <-; exact F|].
  destruct out as [|o out]; [discriminate|]. destruct (clip_step cp1 cp2 cl (o :: out)) as [s [u [E G]]]; [congruence|]. rewrite G in H. eapply IH; [|exact H]. apply blocks_closed; auto.
  rewrite Forall_forall in F. apply F. rewrite E. apply in_or_app. right. left. reflexivity.
Qed.
Lemma clip_by_halves cp1 cl out res : clip_by cp1 cl out = Ok res -> forall a b, In (a, b) (steps (cp1 :: cl)) -> Forall (fun p => 0 <= orient a b p) res.
Proof.
  revert cp1 out. induction cl as [|cp2 cl IH]; intros cp1 out H a b I; [destruct I|]. destruct out as [|o out]; [discriminate|]. destruct (clip_step cp1 cp2 cl (o :: out)) as [s [u [E G]]]; [congruence|]. rewrite G in H.
  change (steps (cp1 :: cp2 :: cl)) with ((cp1, cp2) :: steps (cp2 :: cl)) in I. destruct I as [I|I]; [|eapply IH; eauto]. injection I as <- <-. eapply clip_by_closed; [apply half_closed| |exact H]. apply blocks_inside.
Qed.
Lemma clip_sound subject clipper out : clip subject clipper = Ok out -> Forall (fun p => hull (fun v => In v subject) p /\ forall a b, edge clipper a b -> 0 <= orient a b p) out.
Proof.
  intros H. unfold clip in H. destruct clipper as [|c cl]; [discriminate|]. destruct (last_of_ok (c :: cl)) as [u [s [E F]]]; [congruence|]. rewrite F in H. cbn [bind] in H.
  pose proof (clip_by_closed (hull (fun v => In v subject)) s (c :: cl) subject out (hull_closed _)) as A. pose proof (clip_by_halves s (c :: cl) subject out H) as B.
  assert (A' : Forall (hull (fun v => In v subject)) out) by (apply A; [apply Forall_forall; intros; apply hull_in; assumption|exact H]). rewrite Forall_forall in *. intros p I. split; [apply A', I|].
  intros a b K. apply (steps_edge _ _ _ E) in K. specialize (B a b K). rewrite Forall_forall in B. apply B, I.
Qed.
Lemma clip_errors subject clipper e : clip subject clipper = Err e -> e = IndexError.
Proof.
  unfold clip. destruct clipper as [|c cl]; [cbn; congruence|]. destruct (last_of_ok (c :: cl)) as [u [s [E F]]]; [congruence|]. rewrite F. cbn [bind]. clear. generalize (c :: cl) as l. intros l. revert s subject. induction l as [|cp2 l IH]; intros s out H; [discriminate|].
  destruct out as [|o out]; [cbn in H; congruence|]. destruct (clip_step s cp2 l (o :: out)) as [s' [u [E G]]]; [congruence|]. rewrite G in H. eauto.
Qed.
(* ---- subjects inside ---- *)
Lemma blocks_keep cp1 cp2 s l : Forall (fun p => 0 < orient cp1 cp2 p) (s :: l) -> flat_map (block cp1 cp2) (steps (s :: l)) = l.
Proof.
  revert s. induction l as [|a l IH]; intros s F; [reflexivity|]. change (steps (s :: a :: l)) with ((s, a) :: steps (a :: l)). cbn [flat_map]. inversion F as [|? ? A B]; subst. inversion B as [|? ? C D]; subst.
  rewrite (IH a) by assumption. unfold block. cbn [fst snd]. rewrite (proj2 (inside_iff _ _ _) A), (proj2 (inside_iff _ _ _) C). reflexivity.
Qed.
Lemma clip_inside subject clipper : subject <> [] -> clipper <> [] -> (forall a b p, edge clipper a b -> In p subject -> 0 < orient a b p) -> clip subject clipper = Ok subject.
Proof.
  intros S C H. unfold clip. destruct (last_of_ok clipper C) as [u [s [E F]]]. rewrite F. cbn [bind]. assert (G : forall a b, In (a, b) (steps (s :: clipper)) -> Forall (fun p => 0 < orient a b p) subject).
  { intros a b I. apply Forall_forall. intros p K. apply H; [|exact K]. apply (steps_edge _ _ _ E). exact I. }
  clear E F C H u. revert s G. induction clipper as [|c cl IH]; intros s G; [reflexivity|]. destruct (clip_step s c cl subject S) as [z [v [E' G']]]. rewrite G'.
  rewrite blocks_keep; [apply IH; intros a b I; apply G; right; exact I|]. assert (K : Forall (fun p => 0 < orient s c p) subject) by (apply G; left; reflexivity). constructor; [|exact K]. rewrite Forall_forall in K. apply K. rewrite E'. apply in_or_app; right; left; reflexivity.
Qed.
(* ---- subjects outside ---- *)
Lemma blocks_drop cp1 cp2 s l : Forall (fun p => orient cp1 cp2 p <= 0) (s :: l) -> flat_map (block cp1 cp2) (steps (s :: l)) = [].
Proof.
  revert s. induction l as [|a l IH]; intros s F; [reflexivity|]. change (steps (s :: a :: l)) with ((s, a) :: steps (a :: l)). cbn [flat_map]. inversion F as [|? ? A B]; subst. inversion B as [|? ? C D]; subst.
  rewrite (IH a) by assumption. unfold block. cbn [fst snd]. rewrite (proj2 (inside_not _ _ _) A), (proj2 (inside_not _ _ _) C). reflexivity.
Qed.
Lemma clip_outside_by cp1 l a b r subject : (exists v, cp1 :: l = v ++ [a]) -> r <> [] -> Forall (fun p => orient a b p <= 0) subject -> clip_by cp1 (l ++ b :: r) subject = Err IndexError.
Proof.
  revert cp1 subject. induction l as [|c l IH]; intros cp1 subject [v E] R F.
  - assert (cp1 = a) as ->. { destruct v as [|x [|y v]]; [injection E; auto|discriminate|discriminate]. }
    cbn [app]. destruct subject as [|o sub]; [reflexivity|]. destruct (clip_step a b r (o :: sub)) as [s [u [E' G]]]; [congruence|]. rewrite G, blocks_drop; [destruct r; [congruence|reflexivity]|]. constructor; [|exact F]. rewrite Forall_forall in F. apply F. rewrite E'. apply in_or_app; right; left; reflexivity.
  - cbn [app]. destruct subject as [|o sub]; [reflexivity|]. destruct (clip_step cp1 c (l ++ b :: r) (o :: sub)) as [s [u [E' G]]]; [congruence|]. rewrite G. apply IH; [|exact R|].
    + destruct v as [|x v]; [discriminate|]. injection E as _ E. exists v. exact E.
    + apply blocks_closed; [apply out_closed| |exact F]. rewrite Forall_forall in F. apply F. rewrite E'. apply in_or_app; right; left; reflexivity.
Qed.
(* an edge of the clipping polygon, other than the last one processed, with the whole subject on its outer side *)
Lemma clip_outside subject clipper u a b v : clipper = u ++ b :: v -> v <> [] -> (u = [] /\ (exists w, clipper = w ++ [a]) \/ exists w, u = w ++ [a]) ->
  Forall (fun p => orient a b p <= 0) subject -> clip subject clipper = Err IndexError.
Proof.
  intros E V A F. unfold clip. destruct (last_of_ok clipper) as [w [s [E1 F1]]]; [rewrite E; destruct u; discriminate|]. rewrite F1. cbn [bind]. rewrite E. apply (clip_outside_by s u a b v); [|exact V|exact F].
  destruct A as [[-> [w' A]]|[w' A]]; [|exists (s :: w'); rewrite A; reflexivity]. exists []. rewrite A in E1. apply app_inj_tail in E1. destruct E1 as [_ ->]. reflexivity.
Qed.
(* ---- the subject's boundary within the clipping polygon survives ---- *)
Lemma block_ends cp1 cp2 e : inside cp1 cp2 (snd e) = true -> exists u, block cp1 cp2 e = u ++ [snd e].
Proof. intros H. unfold block. rewrite H. destruct (inside cp1 cp2 (fst e)); [exists []; reflexivity|]. exists [meet cp1 cp2 (fst e) (snd e)]. reflexivity. Qed.
Lemma seg_left q s e i : on_segment q s e -> on_segment i s e -> forall a b, 0 < orient a b q -> orient a b i = 0 -> orient a b s <= 0 -> on_segment q i e.
Proof.
  intros [t [T0 [T1 ->]]] [k [K0 [K1 ->]]] a b P Z N. rewrite orient_lerp in P, Z. set (x := orient a b s) in *. set (y := orient a b e) in *. clearbody x y.
  assert (KT : k < t). { destruct (Qclt_le_dec k t) as [D|D]; [exact D|]. exfalso. assert (0 <= (k - t) * (y - x)); [|qlra]. apply qc_mul_nonneg; [qlra|]. destruct (Qclt_le_dec (y - x) 0) as [G|G]; [|exact G]. exfalso. assert (0 <= t * (x - y)) by (apply qc_mul_nonneg; qlra). qlra. }
  assert (N1 : 1 - k <> 0) by (intro; qlra). exists ((t - k) / (1 - k)). assert (P1 : 0 < 1 - k) by qlra. split; [apply qc_div_nonneg; qlra|]. split; [apply qc_div_le; qlra|]. unfold lerp. cbn [fst snd]. f_equal; field; exact N1.
Qed.
Lemma on_segment_sym q a b : on_segment q a b -> on_segment q b a.
Proof. intros [t [T0 [T1 ->]]]. exists (1 - t). repeat split; try qlra. unfold lerp. cbn [fst snd]. f_equal; ring. Qed.
(* consecutive members of a concatenation of blocks *)
Lemma adj_blocks cp1 cp2 s l x y q : In (x, y) (steps (s :: l)) -> on_segment q x y -> 0 < orient cp1 cp2 q ->
  exists a b, on_segment q a b /\ (In (a, b) (steps (flat_map (block cp1 cp2) (steps (s :: l)))) \/ (x = s /\ a = s /\ inside cp1 cp2 s = true /\ exists w, flat_map (block cp1 cp2) (steps (s :: l)) = b :: w)).
Proof.
  revert s. induction l as [|c l IH]; intros s I Q P; [destruct I|]. change (steps (s :: c :: l)) with ((s, c) :: steps (c :: l)) in *. cbn [flat_map]. destruct I as [I|I].
  - injection I as <- <-. set (rest := flat_map (block cp1 cp2) (steps (c :: l))). clearbody rest. unfold block. cbn [fst snd]. destruct (inside cp1 cp2 c) eqn:A, (inside cp1 cp2 s) eqn:B; cbn [app]; apply inside_iff in A || apply inside_not in A; apply inside_iff in B || apply inside_not in B.
    + exists s, c. split; [exact Q|]. right. repeat split; eauto.
    + exists (meet cp1 cp2 s c), c. assert (M : parted (orient cp1 cp2 s) (orient cp1 cp2 c)) by (right; auto). destruct (meet_spec _ _ _ _ M) as [M1 M2]. split; [eapply seg_left; eauto|]. left. left. reflexivity.
    + exists s, (meet cp1 cp2 s c). assert (M : parted (orient cp1 cp2 s) (orient cp1 cp2 c)) by (left; auto). destruct (meet_spec _ _ _ _ M) as [M1 M2]. split.
      { apply on_segment_sym. apply (seg_left q c s (meet cp1 cp2 s c)) with (a := cp1) (b := cp2); auto using on_segment_sym. }
      right. repeat split; eauto.
    + exfalso. destruct Q as [t [T0 [T1 ->]]]. rewrite orient_lerp in P. assert (0 <= (1 - t) * - orient cp1 cp2 s) by (apply qc_mul_nonneg; qlra). assert (0 <= t * - orient cp1 cp2 c) by (apply qc_mul_nonneg; qlra). qlra.
  - destruct (IH c I Q P) as [a [b [S D]]]. exists a, b. split; [exact S|]. left. destruct D as [D|[-> [-> [D [w E]]]]].
    + clear - D. induction (block cp1 cp2 (s, c)) as [|z m IHm]; [exact D|]. cbn [app]. set (big := flat_map (block cp1 cp2) (steps (c :: l))) in *. destruct (m ++ big) as [|z' r] eqn:E; [destruct IHm|]. change (steps (z :: z' :: r)) with ((z, z') :: steps (z' :: r)). right. exact IHm.
    + rewrite E. destruct (block_ends cp1 cp2 (s, c) D) as [m M]. rewrite M. cbn [snd]. rewrite <- app_assoc. cbn [app]. rewrite steps_app. apply in_or_app. right. left. reflexivity.
Qed.
Lemma blocks_last cp1 cp2 s l z : l = z ++ [s] -> inside cp1 cp2 s = true -> exists m, flat_map (block cp1 cp2) (steps (s :: l)) = m ++ [s].
Proof.
  intros -> I. destruct z as [|c z].
  - cbn [app steps flat_map]. rewrite app_nil_r. destruct (block_ends cp1 cp2 (s, s) I) as [m M]. exists m. exact M.
  - change (s :: (c :: z) ++ [s]) with ((s :: c :: z) ++ [s]). destruct (@exists_last _ (c :: z)) as [y [k E]]; [congruence|]. rewrite E. replace ((s :: y ++ [k]) ++ [s]) with ((s :: y) ++ k :: [s]) by (cbn; rewrite <- app_assoc; reflexivity). rewrite steps_app, flat_map_app. cbn [steps flat_map]. rewrite app_nil_r.
    destruct (block_ends cp1 cp2 (k, s) I) as [m M]. rewrite M. cbn [snd]. eexists. rewrite app_assoc. reflexivity.
Qed.
Lemma clip_one cp1 cp2 s z out q x y : out = z ++ [s] -> edge out x y -> on_segment q x y -> 0 < orient cp1 cp2 q ->
  exists a b, on_segment q a b /\ edge (flat_map (block cp1 cp2) (steps (s :: out))) a b.
Proof.
  intros E I Q P. apply (steps_edge _ _ _ E) in I. destruct (adj_blocks cp1 cp2 s out x y q I Q P) as [a [b [S D]]]. exists a, b. split; [exact S|]. destruct D as [D|[-> [-> [D [w W]]]]].
  - left. clear - D. induction (flat_map _ _) as [|u m IH]; [destruct D|]. destruct m as [|v m]; [destruct D|]. change (steps (u :: v :: m)) with ((u, v) :: steps (v :: m)) in D. destruct D as [D|D]; [injection D as -> ->; exists [], m; reflexivity|]. destruct (IH D) as [c [d G]]. exists (u :: c), d. rewrite G. reflexivity.
  - right. destruct (blocks_last cp1 cp2 s out z E D) as [m M]. exists w, m. split; assumption.
Qed.
Lemma clip_boundary subject clipper q x y : clipper <> [] -> edge subject x y -> on_segment q x y -> (forall a b, edge clipper a b -> 0 < orient a b q) ->
  exists out a b, clip subject clipper = Ok out /\ edge out a b /\ on_segment q a b.
Proof.
  intros C I Q H. unfold clip. destruct (last_of_ok clipper C) as [u [s [E F]]]. rewrite F. cbn [bind]. assert (G : forall a b, In (a, b) (steps (s :: clipper)) -> 0 < orient a b q) by (intros a b K; apply H; apply (steps_edge _ _ _ E); exact K).
  clear E F C H u. revert s subject x y I Q G. induction clipper as [|c cl IH]; intros s subject x y I Q G; [exists subject, x, y; auto|].
  assert (N : subject <> []) by (intros ->; destruct I as [[v [w I]]|[v [w [I _]]]]; [destruct v; discriminate|discriminate]).
  destruct (clip_step s c cl subject N) as [z [v [E' G']]]. rewrite G'. destruct (clip_one s c z v subject q x y E' I Q) as [a [b [S D]]]; [apply G; left; reflexivity|]. apply (IH c _ a b D S). intros a' b' K. apply G. right. exact K.
Qed.
