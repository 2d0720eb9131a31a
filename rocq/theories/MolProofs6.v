(* Rays and trees of triangles. *)
From Coq Require Import List ZArith Lia Bool QArith Qcanon Permutation Sorted.
From Verif Require Import Common ListLib QcLib ArrZ RtreeModel RtreeProofs AabbModel AabbSpec AabbProofs AabbProofs2 BvhModel BvhSpec BvhProofs BvhProofs2 MolModel MolSpec MolProofs1 MolProofs2 MolProofs5.
Import ListNotations.
Local Open Scope Z_scope.
Local Open Scope Qc_scope.

Lemma put_sorted {A} (k : A -> Qc) x : forall l, StronglySorted (fun a b => k a <= k b) l -> StronglySorted (fun a b => k a <= k b) (put k x l).
Proof.
  induction l as [|y l IH]; intros H; cbn; [repeat constructor|]. inversion H as [|? ? Hl Hy]; subst. destruct (qlt (k y) (k x)) eqn:E.
  - apply qlt_true in E. constructor; [apply IH, Hl|]. apply Forall_forall. intros z Hz. apply (Permutation_in _ (put_perm k x l)) in Hz. destruct Hz as [<- | Hz]; [qlra|]. rewrite Forall_forall in Hy. apply Hy, Hz.
  - apply qlt_false in E. constructor; [exact H|]. constructor; [exact E|]. eapply Forall_impl; [|exact Hy]. intros z Hz. cbv beta in Hz. qlra.
Qed.
Lemma sort_is_sorted {A} (k : A -> Qc) l : StronglySorted (fun a b => k a <= k b) (sort_by k l).
Proof. induction l as [|x l IH]; cbn; [constructor|]. now apply put_sorted. Qed.

Definition hit_rows (start dir : v3) (sg : v3 * v3) (x : obj tri) : list (v3 * obj tri * Qc) :=
  match tri_segment (value x) (fst sg) (snd sg) with Some p => [(p, x, mdot (vsub p start) dir)] | None => [] end.
Lemma ray_hits_ones start dir sg : forall l, ray_hits start dir (map (fun o => (One o, sg)) l) = Ok (flat_map (hit_rows start dir sg) l).
Proof. induction l as [|x l IH]; [reflexivity|]. cbn [map ray_hits flat_map]. unfold hit_rows at 1. destruct (tri_segment (value x) (fst sg) (snd sg)); rewrite IH; reflexivity. Qed.

Lemma key_param (s : v3 * v3) r t0 t1 : mdot (vsub (seg_at s r) (fst s)) (vsub (seg_at s t1) (seg_at s t0)) = r * (t1 - t0) * sqdist (fst s) (snd s).
Proof. destruct s as [[[x y] z] [[x' y'] z']]. unfold mdot, seg_at, sqdist, vsub, vx, vy, vz. cbn [fst snd]. ring. Qed.
Lemma sq_param (s : v3 * v3) a b : sqdist (seg_at s a) (seg_at s b) = (b - a) * (b - a) * sqdist (fst s) (snd s).
Proof. destruct s as [[[x y] z] [[x' y'] z']]. unfold seg_at, sqdist, vx, vy, vz. cbn [fst snd]. ring. Qed.
Lemma seg_0 (s : v3 * v3) : seg_at s 0 = fst s.
Proof. destruct s as [[[x y] z] [[x' y'] z']]. unfold seg_at, vx, vy, vz. cbn [fst snd]. apply p3_eq; ring. Qed.
Lemma sqdist_pos (a b : v3) : 0 <= sqdist a b.
Proof. unfold sqdist. pose proof (sqs (vx a - vx b)). pose proof (sqs (vy a - vy b)). pose proof (sqs (vz a - vz b)). qlra. Qed.
Lemma sq_zero_dir t (s e : v3) : sqdist s e = 0 -> span6 t s e = 0.
Proof.
  intros H. unfold sqdist in H. pose proof (sqs (vx s - vx e)) as X. pose proof (sqs (vy s - vy e)) as Y. pose proof (sqs (vz s - vz e)) as Z.
  assert (forall a : Qc, a * a = 0 -> a = 0) as Q by (intros a Ha; destruct (Qcmult_integral _ _ Ha); assumption).
  assert (Ex : vx s - vx e = 0) by (apply Q; qlra). assert (Ey : vy s - vy e = 0) by (apply Q; qlra). assert (Ez : vz s - vz e = 0) by (apply Q; qlra).
  assert (vx s = vx e) by qlra. assert (vy s = vy e) by qlra. assert (vz s = vz e) by qlra.
  destruct t as [[[[a b] c] [[d f] g]] [[h j] k]], s as [[x y] z], e as [[x' y'] z']. unfold span6, vsub, vx, vy, vz in *. cbn [fst snd] in *. subst. ring.
Qed.

Section R.
Variables (ts : list tri) (t : bvh tri) (l : list (obj tri)) (ray : v3 * v3).
Hypothesis Ht : triangles ts = Ok l.
Hypothesis H : built t l 1.
Hypothesis Pl : plain3 (vsub (snd ray) (fst ray)).
Hypothesis Pc : forall cut, segment_aabb_clip (corners (node_box t)) ray = Some cut -> plain3 (vsub (snd cut) (fst cut)).

Lemma ray_form : exists k, forall fuel, (k < fuel)%nat -> exists r, mesh_ray fuel t ray = Ok r /\
  match segment_aabb_clip (corners (node_box t)) ray with
  | None => r = []
  | Some cut => exists found missed, Permutation (found ++ missed) l /\ Forall (fun o => ~ crosses cut (obox o)) missed /\
      r = sort_by snd (flat_map (hit_rows (fst ray) (vsub (snd cut) (fst cut)) cut) found)
  end.
Proof.
  unfold mesh_ray. rewrite (made_arr _ (bounded_made _ (proj1 (built_wf _ _ _ H)))).
  destruct (segment_aabb_clip (corners (node_box t)) ray) as [cut|] eqn:E; [|exists 0%nat; intros fuel _; exists []; auto].
  destruct (segment_query l t cut H (Pc cut eq_refl)) as [k G]. exists k. intros fuel F. destruct (G fuel F) as [found [missed [-> [P [_ N]]]]]. cbn [bind].
  rewrite ray_hits_ones. cbn [bind]. eexists. split; [reflexivity|]. exists found, missed. auto.
Qed.
Lemma root_made : made (node_box t). Proof. exact (bounded_made _ (proj1 (built_wf _ _ _ H))). Qed.
Lemma in_root x : In x l -> covers (node_box t) (obox x).
Proof. intros Ix. destruct (in_leaf_of _ _ _ _ H Ix) as [o [_ [_ [_ [C1 C2]]]]]. eapply covers_trans; eassumption. Qed.

Lemma ray_rows cut found p x key : segment_aabb_clip (corners (node_box t)) ray = Some cut -> In (p, x, key) (sort_by snd (flat_map (hit_rows (fst ray) (vsub (snd cut) (fst cut)) cut) found)) ->
  In x found /\ tri_segment (value x) (fst cut) (snd cut) = Some p /\ key = mdot (vsub p (fst ray)) (vsub (snd cut) (fst cut)).
Proof.
  intros _ I. apply (Permutation_in _ (sort_perm _ _)) in I. apply in_flat_map in I. destruct I as [y [Iy Hy]]. unfold hit_rows in Hy.
  destruct (tri_segment (value y) (fst cut) (snd cut)) as [q|] eqn:E; [|contradiction]. destruct Hy as [Hy|[]]. injection Hy as <- <- <-. auto.
Qed.

Lemma ray_ok : exists k, forall fuel, (k < fuel)%nat -> exists r, mesh_ray fuel t ray = Ok r /\
  (forall p x key, In (p, x, key) r -> In x l /\ near_tri eps8 (value x) p /\ exists u, - eps8 <= u /\ u <= 1 + eps8 /\ p = seg_at ray u) /\
  (forall x u, In x l -> 0 <= u -> u <= 1 -> in_tri (value x) (seg_at ray u) -> big_in (node_box t) (value x) ray -> exists key, In (seg_at ray u, x, key) r) /\
  StronglySorted (not_after ray) r.
Proof.
  destruct ray_form as [k G]. exists k. intros fuel F. destruct (G fuel F) as [r [Er R]]. exists r. split; [exact Er|].
  destruct (segment_aabb_clip (corners (node_box t)) ray) as [cut|] eqn:E.
  2:{ subst r. split; [intros ? ? ? []|]. split; [|constructor]. intros x u Ix U0 U1 T B. exfalso.
      pose proof (clip_exact _ _ (made_proper _ root_made) Pl) as X. rewrite E in X. apply (X u U0 U1). apply (in_root x Ix).
      destruct (triangles_ok ts) as [l' [Et [_ Bx]]]. rewrite Ht in Et. injection Et as <-. rewrite Forall_forall in Bx. apply (Bx x Ix). exact T. }
  destruct R as [found [missed [P [N ->]]]]. split; [|split].
  - intros p x key I. destruct (ray_rows _ _ _ _ _ E I) as [If [Ex _]]. split; [apply (Permutation_in _ P), in_or_app; auto|]. exact (hit_sound _ _ _ _ _ root_made Pl E Ex).
  - intros x u Ix U0 U1 T B. destruct (triangles_ok ts) as [l' [Et [_ Bx]]]. rewrite Ht in Et. injection Et as <-. rewrite Forall_forall in Bx. destruct (Bx x Ix) as [_ [Cx _]].
    pose proof (in_root x Ix _ (Cx _ T)) as I. pose proof (hit_found _ _ _ _ _ root_made Pl E B U0 U1 T I) as Hx.
    apply (Permutation_in _ (Permutation_sym P)) in Ix. apply in_app_or in Ix. destruct Ix as [Ix|Ix].
    + eexists. apply (Permutation_in _ (Permutation_sym (sort_perm _ _))). apply in_flat_map. exists x. split; [exact Ix|]. unfold hit_rows. rewrite Hx. left. reflexivity.
    + exfalso. rewrite Forall_forall in N. apply (N x Ix). pose proof (clip_exact _ _ (made_proper _ root_made) Pl) as X. rewrite E in X.
      destruct (proj1 (X (seg_at ray u))) as [v [V0 [V1 Ev]]]; [exists u; auto|]. exists v. rewrite <- Ev. auto.
  - pose proof (sort_is_sorted snd (flat_map (hit_rows (fst ray) (vsub (snd cut) (fst cut)) cut) found)) as S.
    assert (Q : forall h, In h (sort_by snd (flat_map (hit_rows (fst ray) (vsub (snd cut) (fst cut)) cut) found)) -> exists u c, fst (fst h) = seg_at ray u /\ snd h = u * c /\ c = (mdot (vsub (snd ray) (fst ray)) (vsub (snd cut) (fst cut))) /\ 0 < c).
    { intros [[p x] key] Ih. destruct (ray_rows _ _ _ _ _ E Ih) as [If [Ex ->]]. destruct (clip_form _ _ _ (made_proper _ root_made) Pl E) as [t0 [t1 [T0 [T1 [T2 [-> _]]]]]]. cbn [fst snd] in *.
      apply tri_sound in Ex. destruct Ex as [[v [_ [_ ->]]] [_ Bg]]. rewrite seg_sub. exists ((1 - v) * t0 + v * t1), ((t1 - t0) * sqdist (fst ray) (snd ray)). split; [reflexivity|].
      rewrite key_param. split; [ring|]. split; [destruct ray as [[[x1 y1] z1] [[x2 y2] z2]]; unfold mdot, seg_at, sqdist, vsub, vx, vy, vz; cbn [fst snd]; ring|].
      rewrite span_sub in Bg. pose proof eps8_pos as E0. pose proof (sqdist_pos (fst ray) (snd ray)) as Sq. apply qc_mul_pos.
      - destruct (Qclt_le_dec 0 (t1 - t0)) as [|X]; [assumption|]. assert (Z0 : t1 - t0 = 0) by qlra. rewrite Z0 in Bg. exfalso. destruct Bg as [Bg|Bg]; qlra.
      - destruct (Qclt_le_dec 0 (sqdist (fst ray) (snd ray))) as [|X]; [assumption|]. assert (Z0 : sqdist (fst ray) (snd ray) = 0) by qlra. rewrite (sq_zero_dir _ _ _ Z0) in Bg. exfalso. destruct Bg as [Bg|Bg]; qlra. }
    revert S Q. generalize (sort_by snd (flat_map (hit_rows (fst ray) (vsub (snd cut) (fst cut)) cut) found)). clear. intros rs S Q. induction S as [|h rs S IH Fh]; constructor.
    + apply IH. intros g Ig. apply Q. right. exact Ig.
    + rewrite Forall_forall in *. intros g Ig. destruct (Q h) as [u [c [Eu [Ku [Ec C0]]]]]; [left; reflexivity|]. destruct (Q g) as [w [d [Ew [Kw [Ed _]]]]]; [right; exact Ig|]. rewrite <- Ec in Ed. subst d.
      exists u, w. split; [exact Eu|]. split; [exact Ew|]. specialize (Fh g Ig). rewrite Ku, Kw in Fh.
      destruct (Qclt_le_dec w u) as [X|X]; [|exact X]. exfalso. assert (0 < (u - w) * c) by (apply qc_mul_pos; qlra). qlra.
Qed.
(* the number that comes with a point *)
Lemma ray_keys : exists k, forall fuel, (k < fuel)%nat -> exists r, mesh_ray fuel t ray = Ok r /\ forall p x key, In (p, x, key) r ->
  exists cut, segment_aabb_clip (corners (node_box t)) ray = Some cut /\ key * key = sqdist (fst cut) (snd cut) * sqdist (fst ray) p.
Proof.
  destruct ray_form as [k G]. exists k. intros fuel F. destruct (G fuel F) as [r [Er R]]. exists r. split; [exact Er|]. intros p x key I.
  destruct (segment_aabb_clip (corners (node_box t)) ray) as [cut|] eqn:E; [|subst r; contradiction]. destruct R as [found [missed [_ [_ ->]]]]. exists cut. split; [reflexivity|].
  destruct (ray_rows _ _ _ _ _ E I) as [_ [Ex ->]]. destruct (clip_form _ _ _ (made_proper _ root_made) Pl E) as [t0 [t1 [T0 [T1 [T2 [-> _]]]]]]. cbn [fst snd] in *.
  apply tri_sound in Ex. destruct Ex as [[v [_ [_ ->]]] _]. rewrite seg_sub, key_param. rewrite sq_param. set (w := (1 - v) * t0 + v * t1).
  assert (Es : sqdist (fst ray) (seg_at ray w) = w * w * sqdist (fst ray) (snd ray)). { rewrite <- (seg_0 ray) at 1. rewrite sq_param. ring. }
  rewrite Es. ring.
Qed.
(* a mesh in one axis-parallel plane *)
Lemma ray_flat i c : (i < 3)%nat -> Forall (fun a => flat_along i a /\ comp (fst (fst a)) i = c) ts -> exists k, forall fuel, (k < fuel)%nat -> mesh_ray fuel t ray = Ok [].
Proof.
  intros Hi Fl. destruct ray_form as [k G]. exists k. intros fuel F. destruct (G fuel F) as [r [Er R]]. rewrite Er. f_equal.
  destruct (segment_aabb_clip (corners (node_box t)) ray) as [cut|] eqn:E; [|exact R]. destruct R as [found [missed [P [_ ->]]]].
  destruct (triangles_ok ts) as [l' [Et [Ev Bx]]]. rewrite Ht in Et. injection Et as <-. rewrite Forall_forall in Bx, Fl.
  assert (Fb : comp (bmin (node_box t)) i = comp (bmax (node_box t)) i).
  { destruct (built_spec _ _ _ H) as [Pb [B [_ _]]]. pose proof (bounded_root _ B) as [M [_ Least]].
    set (lo' := with_comp (bmin (node_box t)) i c). set (hi' := with_comp (bmax (node_box t)) i c).
    assert (Cv : covers (mkbox lo' hi') (node_box t)).
    { apply Least. apply Forall_forall. intros x Ix. apply (Permutation_in _ Pb) in Ix. destruct (Bx x Ix) as [Mx [Cx Fx]]. destruct (Fl (value x)) as [Fi Ci]; [rewrite <- Ev; now apply in_map|].
      specialize (Fx i Fi). intros q Iq. pose proof (in_root x Ix q Iq) as Rq.
      assert (Ca : comp (bmin (obox x)) i = c).
      { assert (Ia : in_box3 (fst (fst (value x))) (corners (obox x))).
        { apply Cx. exists 0, 0. repeat split; try qlra. destruct (value x) as [[[[a1 a2] a3] [[b1 b2] b3]] [[c1 c2] c3]]. unfold tri_at, vx, vy, vz. cbn [fst snd]. apply p3_eq; ring. }
        destruct Ia as [[? ?] [[? ?] [? ?]]]. unfold corners in *. cbn [fst snd] in *. destruct i as [|[|]]; cbn [comp] in *; qlra. }
      unfold corners in *. cbn [bmin bmax mkbox] in *. unfold lo', hi'. destruct Rq as [[? ?] [[? ?] [? ?]]], Iq as [[? ?] [[? ?] [? ?]]]. unfold in_box3.
      destruct i as [|[|i]]; cbn [with_comp comp vx vy vz fst snd] in *; repeat split; try assumption; qlra. }
    destruct (corner_in _ (made_proper _ M)) as [C0 C1]. apply Cv in C0, C1. unfold corners in *. cbn [bmin bmax mkbox] in *. unfold lo', hi' in *.
    destruct C0 as [[? ?] [[? ?] [? ?]]], C1 as [[? ?] [[? ?] [? ?]]]. destruct i as [|[|i]]; cbn [with_comp comp vx vy vz fst snd] in *; qlra. }
  assert (N : flat_map (hit_rows (fst ray) (vsub (snd cut) (fst cut)) cut) found = []).
  { assert (Inc : forall x, In x found -> In x l) by (intros x Ix; apply (Permutation_in _ P), in_or_app; auto). clear - Inc Fl Ev E Fb Hi H Pl.
    induction found as [|x found IH]; [reflexivity|]. cbn [flat_map]. rewrite IH by (intros y Iy; apply Inc; right; exact Iy). unfold hit_rows.
    destruct (Fl (value x)) as [Fi _]; [rewrite <- Ev; apply in_map, Inc; left; reflexivity|].
    rewrite (flat_none _ _ _ _ i root_made Pl Hi Fb Fi E). reflexivity. }
  rewrite N. reflexivity.
Qed.
End R.

(* more than one triangle in a leaf *)
Lemma ray_compound ts t l n ray : triangles ts = Ok l -> built t l n -> (1 < n)%Z -> plain3 (vsub (snd ray) (fst ray)) ->
  (forall cut, segment_aabb_clip (corners (node_box t)) ray = Some cut -> plain3 (vsub (snd cut) (fst cut))) ->
  (exists x u, In x l /\ 0 <= u /\ u <= 1 /\ in_tri (value x) (seg_at ray u)) ->
  exists k, forall fuel, (k < fuel)%nat -> mesh_ray fuel t ray = Err AttributeError.
Proof.
  intros Ht H Hn Pl Pc [x [u [Ix [U0 [U1 T]]]]]. pose proof (built_wf _ _ _ H) as W. pose proof (bounded_made _ (proj1 W)) as M. unfold mesh_ray. rewrite (made_arr _ M).
  destruct (triangles_ok ts) as [l' [Et [_ Bx]]]. rewrite Ht in Et. injection Et as <-. rewrite Forall_forall in Bx. destruct (Bx x Ix) as [_ [Cx _]].
  destruct (in_leaf_of _ _ _ _ H Ix) as [o [Io [_ [Mo [C1 C2]]]]]. pose proof (C1 _ (Cx _ T)) as I. pose proof (C2 _ I) as Ir.
  destruct (clip_some _ _ _ M Pl U0 U1 Ir) as [cut E]. rewrite E. pose proof (clip_exact _ _ (made_proper _ M) Pl) as X. rewrite E in X.
  destruct (proj1 (X (seg_at ray u))) as [v [V0 [V1 Ev]]]; [exists u; auto|].
  assert (Cr : crosses cut (payload_box o)) by (exists v; rewrite <- Ev; auto). specialize (Pc cut E). apply passes_iff in Cr; [|exact Mo|exact Pc].
  exists (tsize [t]). intros fuel F. unfold bvh_segment_intersection. destruct (segment_ok cut Pc fuel [t] [] F) as [r [-> P]]; [constructor; [exact W|constructor]|]. cbn [bind].
  cbn [flat_map app] in P. rewrite app_nil_r in P.
  assert (Ne : r <> []). { intros ->. apply Permutation_nil in P. assert (In o (filter (fun q => passes cut (payload_box q)) (leaves t))) as Q by (apply filter_In; auto). destruct (filter _ (leaves t)); [exact Q|discriminate]. }
  assert (K : forall q, In q r -> exists b os, fst q = Many b os).
  { intros q Iq. apply (Permutation_in _ P) in Iq. apply in_map_iff in Iq. destruct Iq as [p [<- Ip]]. apply filter_In in Ip. pose proof (leaf_kind _ _ _ H) as L. rewrite Forall_forall in L. specialize (L p (proj1 Ip)).
    apply Z.ltb_lt in Hn. rewrite Hn in L. exact L. }
  destruct r as [|[q sg] r]; [congruence|]. destruct (K (q, sg) (or_introl eq_refl)) as [b [os Eq]]. cbn [fst] in Eq. subst q. reflexivity.
Qed.
