(** * Specification: the surface area heuristic of the binned builder *)
Require Import List ZArith Bool Arith.
From Verif Require Import F32 Vec AabbModel BinnedModel.
Import ListNotations.

(** [primitives_per_leaf], by default 1. *)
Definition leaf_limit (primitives_per_leaf : option nat) : nat :=
  match primitives_per_leaf with Some p => p | None => 1 end.

(** The sixteenth of [bounds] along [axis] into which the centre of primitive
    [p] falls (as rounded by the code; what is outside counts to the first or
    last one). *)
Definition slab (centers : list vec3) (bounds : aabb) (axis p : nat) : nat :=
  compute_bin_index bounds (nth p centers (vsplat f0)) axis.

(** The union of the AABBs of some primitives. *)
Definition hull (aabbs : list aabb) (ids : list nat) : aabb :=
  fold_left grow_bb (map (fun p => nth p aabbs aabb_new) ids) aabb_new.

(** The area of the union times the number of primitives. *)
Definition side_cost (aabbs : list aabb) (ids : list nat) : f32 :=
  fmul (half_area (hull aabbs ids)) (fn (length ids)).

(** The cost of separating the primitives [ids] of a node with box [bounds]
    into those below slab [k] of [axis] and the others. *)
Definition split_cost (aabbs : list aabb) (centers : list vec3) (bounds : aabb) (ids : list nat) (axis k : nat) : f32 :=
  fadd (side_cost aabbs (filter (fun p => slab centers bounds axis p <? k) ids))
       (side_cost aabbs (filter (fun p => negb (slab centers bounds axis p <? k)) ids)).

(** The cost of not splitting (the traversal cost of a node is 1). *)
Definition leaf_cost (bounds : aabb) (ids : list nat) : f32 := fmul (half_area bounds) (fsub (fn (length ids)) f1).

(** The separation at [axis], [k] is worth it: it costs less than a leaf, and
    less than the largest float. *)
Definition worthwhile (aabbs : list aabb) (centers : list vec3) (bounds : aabb) (ids : list nat) (axis k : nat) : Prop :=
  axis < 3 /\ 0 < k /\ k < 16 /\
  flt (split_cost aabbs centers bounds ids axis k) (leaf_cost bounds ids) = true /\
  flt (split_cost aabbs centers bounds ids axis k) fMAX = true.
