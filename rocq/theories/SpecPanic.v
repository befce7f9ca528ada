(** * Specification: what a task of the spatial builder finds *)
Require Import List Arith ZArith.
From Verif Require Import F32 Vec AabbModel Base NodeModel TriModel BinnedModel SpatialModel SpecSpatial.
Import ListNotations.

Section P.
  Variables (sorter : nat -> list sref -> list sref) (ppl : option nat) (aabbs : list aabb) (tris : list tri).

  (** What task [t], whose node has the box [bounds] and which owns the
      references [w], decides. *)
  Definition decides (t : witem) (bounds : aabb) (w : per_axis (list sref)) : res (per_axis (list sref) * decision) :=
    plan_task sorter tris (max_leaf_size ppl) (spatial_threshold aabbs) t bounds w.

  (** The references [t] owns on [axis]. *)
  Definition its_refs (t : witem) (w : per_axis (list sref)) (axis : nat) : list sref := firstn (w_size t) (pick w axis).

  (** A reference with a proper box that is not inside the node's box. *)
  Definition sticks_out (bounds : aabb) (r : sref) : Prop :=
    is_valid (s_box r) = true /\
    exists axis, axis < 3 /\
      (fle (vget (bmin bounds) axis) (vget (bmin (s_box r)) axis) &&
       fle (vget (bmax (s_box r)) axis) (vget (bmax bounds) axis))%bool = false.

  (** A task sorts its references first unless its parent left them sorted. *)
  Definition sorted_refs (t : witem) (w : per_axis (list sref)) : per_axis (list sref) :=
    if w_sorted t then w else sort_refs sorter (w_size t) w.

  (** The best plane found has all references of the task on its left. *)
  Definition one_sided (t : witem) (bounds : aabb) (w : per_axis (list sref)) : Prop :=
    exists split, ss_axis split < 3 /\
      find_spatial_split tris bounds
        (its_refs t (sorted_refs t w) 0) = Ok split /\
      forall r, In r (its_refs t w (ss_axis split)) -> fle (vget (bmax (s_box r)) (ss_axis split)) (ss_pos split) = true.

  (** The task divides its references, and the references of its right child
      are moved up by fewer positions than their number: the copies overwrite
      references at the old place, where the right child looks for them. *)
  Definition overwrites (t : witem) (bounds : aabb) (w : per_axis (list sref)) : Prop :=
    exists w1 c, decides t bounds w = Ok (w1, Divide c) /\
      (0 < left_split_count (w_split_end t - (w_begin t + c_right_end c)) c < Z.of_nat (c_right_end c - c_right_begin c))%Z.
End P.
