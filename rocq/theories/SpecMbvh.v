(** * Specification: 4-wide trees and what their traversal must visit *)
Require Import List ZArith Bool Permutation.
From Verif Require Import F32 Vec RayModel AabbModel SpecGeom SpecTree MbvhModel.
Import ListNotations.

(** Corners of a box (extra fields do not matter here). *)
Definition box := (vec3 * vec3)%type.
Definition box_of (b : aabb) : box := (bmin b, bmax b).

(** What occupies a slot: nothing, a leaf ([first], [count] of [prim_indices])
    or another 4-wide node with its index; each with the box of the slot.
    A whole 4-wide BVH is an [MNode] with index 0. *)
Inductive mtree :=
| MEmpty
| MLeaf (b : box) (first count : Z)
| MNode (b : box) (i : nat) (c0 c1 c2 c3 : mtree).

(** Lane [k] of a node's data. *)
Definition lane_box (m : mnode) (k : nat) : box :=
  (V3 (wget (mn_x m) k) (wget (mn_y m) k) (wget (mn_z m) k),
   V3 (wget (mx_x m) k) (wget (mx_y m) k) (wget (mx_z m) k)).

(** Slot [k] of the node record [m] describes the root of [t]. *)
Definition slot_is (m : mnode) (k : nat) (t : mtree) : Prop :=
  match t with
  | MEmpty => (zget (m_counts m) k < 0)%Z /\ (zget (m_children m) k < 0)%Z
  | MLeaf b first count => lane_box m k = b /\ zget (m_children m) k = first /\ zget (m_counts m) k = count /\
                           (0 <= first)%Z /\ (0 <= count)%Z
  | MNode b i _ _ _ _ => lane_box m k = b /\ zget (m_children m) k = Z.of_nat i /\ (zget (m_counts m) k < 0)%Z
  end.

(** The node array stores the tree. *)
Fixpoint mrepr (ms : list mnode) (t : mtree) : Prop :=
  match t with
  | MEmpty | MLeaf _ _ _ => True
  | MNode _ i c0 c1 c2 c3 =>
      (exists m, nth_error ms i = Some m /\ slot_is m 0 c0 /\ slot_is m 1 c1 /\ slot_is m 2 c2 /\ slot_is m 3 c3) /\
      mrepr ms c0 /\ mrepr ms c1 /\ mrepr ms c2 /\ mrepr ms c3
  end.

Fixpoint m_ids (t : mtree) : list nat :=
  match t with
  | MNode _ i c0 c1 c2 c3 => i :: m_ids c0 ++ m_ids c1 ++ m_ids c2 ++ m_ids c3
  | _ => []
  end.

Fixpoint mleaves (t : mtree) : list (Z * Z) :=
  match t with
  | MEmpty => []
  | MLeaf _ f c => [(f, c)]
  | MNode _ _ c0 c1 c2 c3 => mleaves c0 ++ mleaves c1 ++ mleaves c2 ++ mleaves c3
  end.

(** Levels of 4-wide nodes on the longest path. *)
Fixpoint mlevels (t : mtree) : nat :=
  match t with
  | MNode _ _ c0 c1 c2 c3 =>
      S (Nat.max (Nat.max (mlevels c0) (mlevels c1)) (Nat.max (mlevels c2) (mlevels c3)))
  | _ => 0
  end.

(** Every leaf, left to right, with the boxes from the root to it. *)
Fixpoint mpaths (t : mtree) : list (Z * Z * list box) :=
  match t with
  | MEmpty => []
  | MLeaf b f c => [(f, c, [b])]
  | MNode b _ c0 c1 c2 c3 =>
      map (fun x => (fst x, b :: snd x)) (mpaths c0 ++ mpaths c1 ++ mpaths c2 ++ mpaths c3)
  end.
Fixpoint tpaths (t : tree) : list (Z * Z * list box) :=
  match t with
  | TLeaf _ n => [(ex2 n, ex1 n, [box_of n])]
  | TNode _ n l r => map (fun x => (fst x, box_of n :: snd x)) (tpaths l ++ tpaths r)
  end.

(** Leaves all of whose boxes strictly below [t] are hit. *)
Definition mbox (t : mtree) : box :=
  match t with MEmpty => (vsplat f0, vsplat f0) | MLeaf b _ _ => b | MNode b _ _ _ _ _ => b end.
Fixpoint mreached (hit : box -> bool) (t : mtree) : list (Z * Z) :=
  match t with
  | MEmpty => []
  | MLeaf _ f c => [(f, c)]
  | MNode _ _ c0 c1 c2 c3 =>
      (if hit (mbox c0) then mreached hit c0 else []) ++ (if hit (mbox c1) then mreached hit c1 else []) ++
      (if hit (mbox c2) then mreached hit c2 else []) ++ (if hit (mbox c3) then mreached hit c3 else [])
  end.

(** Primitive ids of a leaf given as (first, count). *)
Definition range_prims (indices : list nat) (l : Z * Z) : list nat :=
  map (fun k => nth k indices 0) (seq (Z.to_nat (fst l)) (Z.to_nat (snd l))).

(** The ids of [l] that precede the first one that is not [found]. *)
Fixpoint before_missing (found : nat -> bool) (l : list nat) : list nat :=
  match l with [] => [] | p :: l => if found p then p :: before_missing found l else [] end.

(** The box test that [MbvhNode::intersect] applies to each slot: a slab test
    with SSE minimum/maximum, closed at the far side and cut at [ray.t]. *)
Definition slab_near (b : box) (o i : vec3) : f32 :=
  let t0 := vmul (vsub (fst b) o) i in
  let t1 := vmul (vsub (snd b) o) i in
  smax (smin (vx t0) (vx t1)) (smax (smin (vy t0) (vy t1)) (smin (vz t0) (vz t1))).
Definition slab_far (b : box) (o i : vec3) : f32 :=
  let t0 := vmul (vsub (fst b) o) i in
  let t1 := vmul (vsub (snd b) o) i in
  smin (smax (vx t0) (vx t1)) (smin (smax (vy t0) (vy t1)) (smax (vz t0) (vz t1))).
Definition qhit (r : ray) (b : box) : bool :=
  fge (slab_far b (r_origin r) (r_inv r)) (slab_near b (r_origin r) (r_inv r)) &&
  flt (slab_near b (r_origin r) (r_inv r)) (r_t r).

(** The same for lane [i] of a packet ([MbvhNode::intersect4] associates the
    minimum and maximum the other way and wants a non-empty open interval). *)
Definition lane_origin (p : packet) (i : nat) : vec3 := V3 (wget (p_ox p) i) (wget (p_oy p) i) (wget (p_oz p) i).
Definition lane_inv (p : packet) (i : nat) : vec3 := V3 (wget (p_ix p) i) (wget (p_iy p) i) (wget (p_iz p) i).
Definition slab_near4 (b : box) (o i : vec3) : f32 :=
  let t0 := vmul (vsub (fst b) o) i in
  let t1 := vmul (vsub (snd b) o) i in
  smax (smax (smin (vx t0) (vx t1)) (smin (vy t0) (vy t1))) (smin (vz t0) (vz t1)).
Definition slab_far4 (b : box) (o i : vec3) : f32 :=
  let t0 := vmul (vsub (fst b) o) i in
  let t1 := vmul (vsub (snd b) o) i in
  smin (smin (smax (vx t0) (vx t1)) (smax (vy t0) (vy t1))) (smax (vz t0) (vz t1)).
Definition qhit_lane (p : packet) (i : nat) (b : box) : bool :=
  fgt (slab_far4 b (lane_origin p i) (lane_inv p i)) (slab_near4 b (lane_origin p i) (lane_inv p i)) &&
  flt (slab_near4 b (lane_origin p i) (lane_inv p i)) (wget (p_t p) i).
Definition qhit4 (p : packet) (b : box) : bool :=
  qhit_lane p 0 b || qhit_lane p 1 b || qhit_lane p 2 b || qhit_lane p 3 b.
