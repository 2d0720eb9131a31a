(* Specification vocabulary for bounding boxes and bounding volume hierarchies. *)
From Coq Require Import List Arith ZArith Bool QArith Qcanon Permutation Sorted.
From Verif Require Import Common QcLib AabbModel AabbSpec BvhModel.
Import ListNotations.
Local Open Scope Qc_scope.

(* the box a BoundingBox stands for: its min_point and max_point *)
Definition corners (b : bbox) : box3 := (bmin b, bmax b).
(* a box straight from the constructor, with min <= max *)
Definition made (b : bbox) : Prop := proper3 (corners b) /\ b = mkbox (bmin b) (bmax b).
(* b's points are all points of a *)
Definition covers (a b : bbox) : Prop := forall p, in_box3 p (corners b) -> in_box3 p (corners a).
Definition meets (a b : bbox) : Prop := exists p, in_box3 p (corners a) /\ in_box3 p (corners b).
(* strictly inside along every axis *)
Definition inside (p : v3) (b : box3) : Prop :=
  (vx (fst b) < vx p /\ vx p < vx (snd b)) /\ (vy (fst b) < vy p /\ vy p < vy (snd b)) /\ (vz (fst b) < vz p /\ vz p < vz (snd b)).
(* the boxes cover exactly b and overlap at most on their faces *)
Definition apart (a b : bbox) : Prop := forall p, inside p (corners a) -> ~ inside p (corners b).
Definition tiles (b : bbox) (bs : list bbox) : Prop :=
  (forall p, in_box3 p (corners b) <-> exists c, In c bs /\ in_box3 p (corners c)) /\ ForallOrdPairs apart bs.
(* corners, edges and faces of a box *)
Definition vertex (b : bbox) (p : v3) : Prop := forall i, (i < 3)%nat -> comp p i = comp (bmin b) i \/ comp p i = comp (bmax b) i.
Definition edge (b : bbox) (p q : v3) : Prop := vertex b p /\ vertex b q /\
  exists i, (i < 3)%nat /\ comp p i = comp (bmin b) i /\ comp q i = comp (bmax b) i /\ forall j, (j < 3)%nat -> j <> i -> comp p j = comp q j.
(* four corners in cyclic order on one side of the box *)
Definition face (b : bbox) (f : list v3) (i : nat) (side : Qc) : Prop :=
  match f with
  | [p; q; r; s] => comp p i = side /\ comp q i = side /\ comp r i = side /\ comp s i = side /\
      (edge b p q \/ edge b q p) /\ (edge b q r \/ edge b r q) /\ (edge b r s \/ edge b s r) /\ (edge b s p \/ edge b p s)
  | _ => False
  end.

Section S.
Context {A : Type}.
Definition held (o : payload A) : list (obj A) := match o with One o => [o] | Many _ os => os end.
(* leaf nodes, their payloads, and the objects below a node, left to right *)
Fixpoint leaf_nodes (t : bvh A) : list (bvh A) := match t with BLeaf _ _ => [t] | BNode _ l r => leaf_nodes l ++ leaf_nodes r end.
Fixpoint leaves (t : bvh A) : list (payload A) := match t with BLeaf _ o => [o] | BNode _ l r => leaves l ++ leaves r end.
Definition below (t : bvh A) : list (obj A) := flat_map held (leaves t).
Fixpoint nodes (t : bvh A) : list (bvh A) := t :: match t with BLeaf _ _ => [] | BNode _ l r => nodes l ++ nodes r end.
Definition is_node (t : bvh A) : Prop := match t with BLeaf _ _ => False | BNode _ _ _ => True end.
(* the least box holding the boxes of the objects *)
Definition least_box (b : bbox) (os : list (obj A)) : Prop :=
  made b /\ Forall (fun o => covers b (obox o)) os /\ (forall c, Forall (fun o => covers c (obox o)) os -> covers c b).
Definition bounded (t : bvh A) : Prop := Forall (fun n => least_box (node_box n) (below n)) (nodes t).
(* a tree made by build_bvh from these objects *)
Definition built (t : bvh A) (objects : list (obj A)) (n : Z) : Prop :=
  (1 <= n)%Z /\ objects <> [] /\ Forall (fun o => made (obox o)) objects /\ exists fuel after, build_bvh fuel objects n = Ok (t, after).
End S.

(* a segment has a point in the box *)
Definition crosses (s : v3 * v3) (b : bbox) : Prop := exists t, 0 <= t /\ t <= 1 /\ in_box3 (seg_at s t) (corners b).
(* squared distance of two points *)
Definition sqdist (p q : v3) : Qc := (vx p - vx q) * (vx p - vx q) + (vy p - vy q) * (vy p - vy q) + (vz p - vz q) * (vz p - vz q).
(* the values that the leaves' boxes have at p *)
Definition distance {A} (o : payload A) (p : v3) : Qc := sd_aabb (corners (payload_box o)) p.
(* sorted by the middle of the boxes along axis i *)
Definition middle {A} (i : nat) (o : obj A) : Qc := (comp (bmin (obox o)) i + comp (bmax (obox o)) i) / Q2Qc (2 # 1).
Definition in_order {A} (i : nat) (l : list (obj A)) : Prop := StronglySorted (fun a b => middle i a <= middle i b) l.
Definition solid (b : bbox) : Prop := exists p, inside p (corners b).
