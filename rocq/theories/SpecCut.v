(** * Specification: how the spatial-split builder divides a node *)
Require Import List ZArith Bool Arith Permutation Sorted.
From Verif Require Import F32 Vec AabbModel SpecGeom SpecTree BinnedModel TriModel SpatialModel SpecBinned SpecPlane.
Import ListNotations.

(** ** What is assumed of [slice::sort_by] *)
Definition before (axis : nat) (a b : sref) : Prop := fle (vget (s_center a) axis) (vget (s_center b) axis) = true.
Definition by_center (axis : nat) (l : list sref) : Prop := StronglySorted (before axis) l.
(** What is used of [sort_by]: for centres that are not NaN the result is
    sorted. *)
Definition sorts (sorter : nat -> list sref -> list sref) : Prop :=
  forall axis l, Forall (fun r => fnan (vget (s_center r) axis) = false) l -> by_center axis (sorter axis l).

(** ** Cuts *)
(** The coordinate of the centre of primitive [p]. *)
Definition at_axis (centers : list vec3) (axis p : nat) : f32 := vget (nth p centers (vsplat f0)) axis.

(** The surface area heuristic for separating primitives into [l] and [r]:
    area of the union times number, summed over the two sides. *)
Definition pair_cost (aabbs : list aabb) (l r : list nat) : f32 := fadd (side_cost aabbs l) (side_cost aabbs r).

(** [l] and [r] are a cut of the primitives [held] at a plane perpendicular to
    [axis]: the centres of [l] are before those of [r]. *)
Definition cut (centers : list vec3) (held : list nat) (axis : nat) (l r : list nat) : Prop :=
  Permutation (l ++ r) held /\ l <> [] /\ r <> [] /\
  forall p q, In p l -> In q r -> flt (at_axis centers axis p) (at_axis centers axis q) = true.
(** No centre of [l] is after one of [r]. *)
Definition in_order (centers : list vec3) (axis : nat) (l r : list nat) : Prop :=
  forall p q, In p l -> In q r -> fle (at_axis centers axis p) (at_axis centers axis q) = true.

(** No cut of the same primitives, along any axis, costs less. *)
Definition cheapest (aabbs : list aabb) (centers : list vec3) (l r : list nat) : Prop :=
  forall axis l' r', axis < 3 -> cut centers (l ++ r) axis l' r' -> flt (pair_cost aabbs l' r') (pair_cost aabbs l r) = false.
(** No cut of the primitives costs less than [limit]. *)
Definition no_cut_below (aabbs : list aabb) (centers : list vec3) (limit : f32) (held : list nat) : Prop :=
  forall axis l r, axis < 3 -> cut centers held axis l r -> flt (pair_cost aabbs l r) limit = false.

(** A node with box [bounds] is divided into [l] and [r] *)
(** - by a cheapest cut, which costs less than not dividing; *)
Definition by_cut (aabbs : list aabb) (centers : list vec3) (bounds : aabb) (l r : list nat) : Prop :=
  (exists axis, axis < 3 /\ in_order centers axis l r) /\ cheapest aabbs centers l r /\
  fle (leaf_cost bounds (l ++ r)) (pair_cost aabbs l r) = false.
(** - in the middle of the longest axis, because no cut is worth it but there
      are more primitives than the leaf size [most]; *)
Definition by_half (aabbs : list aabb) (centers : list vec3) (most : nat) (bounds : aabb) (l r : list nat) : Prop :=
  no_cut_below aabbs centers (leaf_cost bounds (l ++ r)) (l ++ r) /\ most < length (l ++ r) /\
  length l = length (l ++ r) / 2 /\ in_order centers (longest_axis bounds) l r.
(** The builder's threshold for a scene in the box [scene]. *)
Definition overlap_limit (scene : aabb) : f32 := fmul (fmul f1em5 (f_of_Z 2)) (half_area scene).
(** - at a plane through the boxes; only if the two sides of a cheapest cut
      overlap by more than [threshold] (or every cut costs too much for a
      float).  The plane is a cheapest one (SpecPlane.v), its estimate is below
      the costs of all cuts and of not dividing; it separates the boxes, or all
      of them are on one side of it and [l] gets at most half of them. *)
Definition overlapping (aabbs : list aabb) (centers : list vec3) (threshold : f32) (held : list nat) : Prop :=
  no_cut_below aabbs centers fMAX held \/
  exists axis l r, axis < 3 /\ Permutation (l ++ r) held /\ in_order centers axis l r /\ cheapest aabbs centers l r /\
    fgt (area (shrink (hull aabbs l) (hull aabbs r))) threshold = true.
Definition best_plane (aabbs : list aabb) (tris : list tri) (centers : list vec3) (bounds : aabb) (held : list nat)
    (axis : nat) (position : f32) : Prop :=
  exists order cost, Permutation order held /\
    cheapest_plane bounds (map (whole_ref aabbs tris) order) axis position cost /\
    fle (leaf_cost bounds held) cost = false /\
    forall a l r, a < 3 -> cut centers held a l r -> fle (pair_cost aabbs l r) cost = false.
Definition by_plane (aabbs : list aabb) (tris : list tri) (centers : list vec3) (threshold : f32) (bounds : aabb) (l r : list nat) : Prop :=
  overlapping aabbs centers threshold (l ++ r) /\
  exists axis position, axis < 3 /\ best_plane aabbs tris centers bounds (l ++ r) axis position /\
    let before p := fle (vget (bmax (nth p aabbs aabb_new)) axis) position = true in
    let after p := fge (vget (bmin (nth p aabbs aabb_new)) axis) position = true in
    (Forall before l /\ Forall after r) \/
    ((Forall before (l ++ r) \/ Forall after (l ++ r)) /\ length l <= length (l ++ r) / 2).

(** ** The whole tree, with clipped references *)
(** What a node holds: some primitives, for each of them the box of the part of
    it that belongs to the node, and the centre of that box; and for how many
    more references there is room below the node. *)
Record holding := Hold { h_prims : list nat; h_boxes : list aabb; h_mids : list vec3; h_room : nat }.
Definition part_box (h : holding) (p : nat) : aabb := nth p (h_boxes h) aabb_new.
Definition part_mid (h : holding) (p : nat) : vec3 := nth p (h_mids h) (vsplat f0).
(** [h'] holds the same part of [p] as [h]. *)
Definition kept (h h' : holding) (p : nat) : Prop := part_box h' p = part_box h p /\ part_mid h' p = part_mid h p.
(** [h'] holds the part of [p] in the box [b]. *)
Definition only (b : aabb) (h' : holding) (p : nat) : Prop := part_box h' p = b /\ part_mid h' p = center b.

(** The primitives are distributed between [hl] and [hr] as they are.  Room is
    for the right child only. *)
Definition unclipped (h hl hr : holding) : Prop :=
  Permutation (h_prims hl ++ h_prims hr) (h_prims h) /\ h_room hl = 0 /\ h_room hr = h_room h /\
  Forall (kept h hl) (h_prims hl) /\ Forall (kept h hr) (h_prims hr).
(** The primitives are clipped at a plane.  The boxes that end before it go to
    [hl], those that start after it to [hr].  Of the others, as many as there is
    room for are clipped, and go to both; the others go to the smaller side, as
    they are. *)
Definition clipped (tris : list tri) (axis : nat) (position : f32) (h hl hr : holding) : Prop :=
  let ends_before p := fle (vget (bmax (part_box h p)) axis) position in
  let starts_after p := fge (vget (bmin (part_box h p)) axis) position in
  let sides p := tri_split (nth p tris (Tri (vsplat f0) (vsplat f0) (vsplat f0))) axis position in
  exists before both left right after,
    Permutation (before ++ both ++ left ++ right ++ after) (h_prims h) /\
    Forall (fun p => ends_before p = true) before /\
    Forall (fun p => ends_before p = false /\ starts_after p = true) after /\
    Forall (fun p => ends_before p = false /\ starts_after p = false) (both ++ left ++ right) /\
    length both = Nat.min (h_room h) (length (both ++ left ++ right)) /\
    Permutation (h_prims hl) (before ++ both ++ left) /\ Permutation (h_prims hr) (both ++ right ++ after) /\
    (left <> [] -> length (h_prims hl) <= length (h_prims hr)) /\ (right <> [] -> length (h_prims hr) <= length (h_prims hl) + 1) /\
    h_room hl = 0 /\ h_room hr = h_room h - length both /\
    Forall (kept h hl) (before ++ left) /\ Forall (kept h hr) (right ++ after) /\
    Forall (fun p => only (shrink (fst (sides p)) (part_box h p)) hl p) both /\
    Forall (fun p => only (shrink (snd (sides p)) (part_box h p)) hr p) both.
(** All boxes are on one side of the plane: some of them, at most half, go to
    [hl]. *)
Definition one_sided (axis : nat) (position : f32) (h hl hr : holding) : Prop :=
  unclipped h hl hr /\ length (h_prims hl) <= length (h_prims h) / 2 /\
  (Forall (fun p => fle (vget (bmax (part_box h p)) axis) position = true) (h_prims h) \/
   Forall (fun p => fge (vget (bmin (part_box h p)) axis) position = true) (h_prims h)).

Section Divide.
  Variables (tris : list tri) (most : nat) (threshold : f32).

  (** No plane is looked for, because there is no room or the sides of a
      cheapest cut do not overlap enough; or no plane has an estimate below
      [limit]. *)
  Definition no_plane_below (limit : f32) (h : holding) (bounds : aabb) : Prop :=
    exists order, Permutation order (h_prims h) /\
      forall a k, a < 3 -> inner k ->
        flt (estimate a (vget (bmin bounds) a) (vget (bmax bounds) a) (map (whole_ref (h_boxes h) tris) order) k) limit = false.
  Definition separate (h : holding) : Prop :=
    no_cut_below (h_boxes h) (h_mids h) fMAX (h_prims h) \/
    exists axis l r, axis < 3 /\ Permutation (l ++ r) (h_prims h) /\ in_order (h_mids h) axis l r /\
      cheapest (h_boxes h) (h_mids h) l r /\
      fgt (area (shrink (hull (h_boxes h) l) (hull (h_boxes h) r))) threshold = false.
  Definition no_better_plane (limit : f32) (h : holding) (bounds : aabb) : Prop :=
    h_room h = 0 \/ separate h \/ no_plane_below limit h bounds.

  (** A node at depth [d] with the box [bounds] that holds [h] becomes a leaf. *)
  Definition stays (d : nat) (h : holding) (bounds : aabb) : Prop :=
    length (h_prims h) <= 1 \/ 64 <= d \/
    (length (h_prims h) <= most /\ no_cut_below (h_boxes h) (h_mids h) (leaf_cost bounds (h_prims h)) (h_prims h) /\
     no_better_plane (leaf_cost bounds (h_prims h)) h bounds) \/
    (no_cut_below (h_boxes h) (h_mids h) fMAX (h_prims h) /\ no_better_plane fMAX h bounds).
  (** It is divided into two nodes that hold [hl] and [hr]. *)
  Definition splits (h : holding) (bounds : aabb) (hl hr : holding) : Prop :=
    (unclipped h hl hr /\ by_cut (h_boxes h) (h_mids h) bounds (h_prims hl) (h_prims hr) /\
     (h_room h = 0 \/
      fgt (area (shrink (hull (h_boxes h) (h_prims hl)) (hull (h_boxes h) (h_prims hr)))) threshold = false \/
      no_plane_below (pair_cost (h_boxes h) (h_prims hl) (h_prims hr)) h bounds)) \/
    (unclipped h hl hr /\ by_half (h_boxes h) (h_mids h) most bounds (h_prims hl) (h_prims hr) /\
     no_better_plane (leaf_cost bounds (h_prims h)) h bounds) \/
    (0 < h_room h /\ overlapping (h_boxes h) (h_mids h) threshold (h_prims h) /\
     exists axis position, axis < 3 /\ best_plane (h_boxes h) tris (h_mids h) bounds (h_prims h) axis position /\
       (clipped tris axis position h hl hr \/ one_sided axis position h hl hr)).

  (** [b] is the union of what [h] holds (up to the signs of zeros). *)
  Definition bounds_of (h : holding) (b : aabb) : Prop :=
    box_in b (hull (h_boxes h) (h_prims h)) /\ box_in (hull (h_boxes h) (h_prims h)) b.

  (** The stored tree, whose root is at depth [d], is what becomes of a node
      with the box [bounds] that holds [h]. *)
  Inductive divides (idx : list nat) : nat -> holding -> aabb -> tree -> Prop :=
  | Div_leaf : forall d h bounds i n,
      bmin n = bmin bounds -> bmax n = bmax bounds -> Permutation (leaf_prims idx n) (h_prims h) ->
      stays d h bounds -> divides idx d h bounds (TLeaf i n)
  | Div_node : forall d h bounds i n l r hl hr bl br,
      bmin n = bmin (with_offset bounds f1em4) -> bmax n = bmax (with_offset bounds f1em4) -> d < 64 ->
      splits h bounds hl hr -> bounds_of hl bl -> bounds_of hr br ->
      divides idx (S d) hl bl l -> divides idx (S d) hr br r ->
      divides idx d h bounds (TNode i n l r).
End Divide.
