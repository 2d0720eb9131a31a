(* More about the de Boor chain: index shift, affine change of knots,
   reversal, continuity at a knot.  No model content. *)
From Coq Require Import List ZArith Lia Bool QArith Qcanon Permutation.
From Verif Require Import QcLib SplineTheory.
Import ListNotations.
Local Open Scope Z_scope.
Local Open Scope Qc_scope.

Lemma chain_ext2 U V s : forall ts d e,
  (forall i, (s - Z.of_nat (length ts) + 1 <= i <= s + Z.of_nat (length ts))%Z -> U i = V i) ->
  (forall i, (s - Z.of_nat (length ts) <= i <= s)%Z -> d i = e i) ->
  chain U s ts d = chain V s ts e.
Proof. intros ts d e H1 H2. rewrite (chain_ext U s ts d e H2). now apply chain_knots_ext. Qed.

Lemma chain_shift U m : forall ts s d,
  chain U (s + m) ts d = chain (fun i => U (i + m)%Z) s ts (fun i => d (i + m)%Z).
Proof.
  induction ts as [|t ts IH]; intros s d; cbn [chain]; auto.
  rewrite IH. apply chain_ext. intros i Hi. unfold D.
  replace (i + m + Z.of_nat (length (t :: ts)))%Z with (i + Z.of_nat (length (t :: ts)) + m)%Z by lia.
  replace (i + m - 1)%Z with (i - 1 + m)%Z by lia. auto.
Qed.

Lemma chain_rescale U a b : a <> 0 -> forall ts s d, ndg U s (length ts) ->
  chain (fun i => a * U i + b) s (map (fun t => a * t + b) ts) d = chain U s ts d.
Proof.
  intros Ha. induction ts as [|t ts IH]; intros s d N; cbn [chain map]; auto.
  rewrite <- IH by (apply (ndg_le _ _ (length (t :: ts))); auto; simpl; lia).
  apply chain_ext. intros i Hi. unfold D.
  cbn [length] in *. rewrite map_length in *.
  assert (U i <> U (i + Z.of_nat (S (length ts)))%Z) by (apply N; lia).
  set (x := U i) in *. set (y := U (i + Z.of_nat (S (length ts)))%Z) in *.
  assert (D1 : y - x <> 0) by (intro X; apply H; qlra).
  replace (a * y + b - (a * x + b)) with (a * (y - x)) by ring.
  field. auto.
Qed.

Lemma chain_reverse U c : forall ts M s d, 
  chain (fun i => c - U (M - i)%Z) s (map (fun t => c - t) ts) (fun i => d (M - Z.of_nat (length ts) - 1 - i)%Z)
  = chain U (M - 1 - s)%Z ts d.
Proof.
  induction ts as [|t ts IH]; intros M s d.
  - cbn. f_equal. lia.
  - cbn [chain map]. rewrite <- IH. apply chain_ext. intros i Hi. unfold D.
    cbn [length]. rewrite map_length. set (L := length ts).
    replace (M - (i + Z.of_nat (S L)))%Z with (M - Z.of_nat L - 1 - i)%Z by lia.
    replace (M - Z.of_nat (S L) - 1 - (i - 1))%Z with (M - Z.of_nat L - 1 - i)%Z by lia.
    replace (M - Z.of_nat (S L) - 1 - i)%Z with (M - Z.of_nat L - 1 - i - 1)%Z by lia.
    replace (M - Z.of_nat L - 1 - i + Z.of_nat (S L))%Z with (M - i)%Z by lia.
    unfold Qcdiv. f_equal; [ring|]. f_equal. ring.
Qed.

(* Two neighbouring polynomial pieces agree, as blossoms, on argument lists
   that contain the knot between them as often as it occurs. *)
Lemma chain_join U s m p u d ts :
  (1 <= m <= p)%nat ->
  (forall i j, (s - Z.of_nat p + 1 <= i)%Z -> (i <= j)%Z -> (j <= s + Z.of_nat m + Z.of_nat p)%Z -> U i <= U j) ->
  U s < u -> u < U (s + Z.of_nat m + 1)%Z ->
  (forall i, (s < i <= s + Z.of_nat m)%Z -> U i = u) ->
  length ts = (p - m)%nat ->
  chain U s (ts ++ repeat u m) d = chain U (s + Z.of_nat m) (ts ++ repeat u m) d.
Proof.
  intros Hm Mo H1 H2 Hk Ht.
  assert (N1 : ndg U s p).
  { apply ndg_sorted. intros; apply Mo; lia. rewrite (Hk (s+1)%Z) by lia. auto. }
  assert (N2 : ndg U (s + Z.of_nat m) p).
  { apply ndg_sorted. intros; apply Mo; lia. rewrite (Hk (s + Z.of_nat m)%Z) by lia. auto. }
  set (V := fun k => if (k <=? s)%Z then U k else U (k + Z.of_nat m)%Z).
  assert (NV : ndg V s (p - m)).
  { intros i j Hj Hi. unfold V. destruct (Z.leb_spec i s); [|lia]. destruct (Z.leb_spec (i + j) s); [lia|].
    assert (U i <= U s) by (apply Mo; lia).
    assert (U (s + Z.of_nat m + 1)%Z <= U (i + j + Z.of_nat m)%Z) by (apply Mo; lia).
    intro X. rewrite X in H3. qlra. }
  assert (K : forall i, (s - Z.of_nat (p - m) <= i <= s)%Z ->
    Permutation (kn V i (p - m) ++ repeat u m) (kn U i p)).
  { intros i Hi. set (a := Z.to_nat (s - i)).
    assert (E1 : kn V i (p - m) = kn V i a ++ kn V (i + Z.of_nat a) (p - m - a)).
    { rewrite <- kn_app. f_equal. lia. }
    assert (E2 : kn U i p = kn U i a ++ kn U (i + Z.of_nat a) m ++ kn U (i + Z.of_nat a + Z.of_nat m) (p - m - a)).
    { rewrite <- !kn_app. f_equal. lia. }
    rewrite E1, E2. rewrite (kn_const U u m).
    2:{ intros. apply Hk. lia. }
    rewrite <- app_assoc. rewrite (kn_ext V U a i i).
    2:{ intros. unfold V. destruct (Z.leb_spec (i + k) s); auto. lia. }
    rewrite (kn_ext V U (p - m - a) (i + Z.of_nat a) (i + Z.of_nat a + Z.of_nat m)).
    2:{ intros. unfold V. destruct (Z.leb_spec (i + Z.of_nat a + k) s); [lia|]. f_equal. lia. }
    apply Permutation_app_head. apply Permutation_app_comm. }
  assert (L : forall i, length (kn V i (p - m) ++ repeat u m) = p).
  { intro. rewrite app_length, kn_length, repeat_length. lia. }
  assert (A : forall s', ndg U s' p -> (s' - Z.of_nat p <= s - Z.of_nat (p - m))%Z -> (s <= s')%Z ->
     chain V s ts d = chain U s' (ts ++ repeat u m) d).
  { intros s' N' W1 W2. pose proof (chain_blossom U s' p d N') as B.
    rewrite (blossom_chain (p - m) (fun l => chain U s' (l ++ repeat u m) d) V s) with (rest := []).
    - now rewrite app_nil_r.
    - destruct B as [B1 B2]. split.
      + intros l l' Hl P. apply B1. rewrite app_length, repeat_length; lia. now apply Permutation_app_tail.
      + intros a x y l Hl. cbn [app]. destruct (Nat.eq_dec (p - m) 0) as [Z0|Z0].
        * (* empty list case: arguments have more than p entries, affine anyway *)
          rewrite chain_affine. auto.
        * apply B2. rewrite app_length, repeat_length. lia.
    - auto.
    - rewrite Ht. simpl. lia.
    - intros i Hi. rewrite Ht in *. rewrite app_nil_r.
      rewrite (chain_perm U s' _ _ (K i Hi)) by (rewrite L; auto).
      symmetry. apply chain_dual; auto. lia. }
  rewrite <- (A s) by (auto; lia). rewrite <- (A (s + Z.of_nat m)%Z) by (auto; lia). auto.
Qed.

(* hence the pieces agree at the knot *)
Lemma chain_continuous U s m p u d :
  (1 <= m <= p)%nat ->
  (forall i j, (s - Z.of_nat p + 1 <= i)%Z -> (i <= j)%Z -> (j <= s + Z.of_nat m + Z.of_nat p)%Z -> U i <= U j) ->
  U s < u -> u < U (s + Z.of_nat m + 1)%Z ->
  (forall i, (s < i <= s + Z.of_nat m)%Z -> U i = u) ->
  chain U s (repeat u p) d = chain U (s + Z.of_nat m) (repeat u p) d.
Proof.
  intros Hm Mo H1 H2 Hk.
  replace p with ((p - m) + m)%nat by lia. rewrite repeat_app.
  apply (chain_join U s m p u d); auto. now rewrite repeat_length.
Qed.
