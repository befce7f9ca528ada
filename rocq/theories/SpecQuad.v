(** * Specification: which 4-wide tree stands for a binary one *)
Require Import List ZArith.
From Verif Require Import AabbModel SpecTree MbvhModel SpecMbvh.
Import ListNotations.

(** [quartered t q]: the 4-wide tree [q] holds the binary tree [t].  A leaf is
    kept as it is.  An inner node becomes a 4-wide node with the same box: its
    first two slots are for its left child, its last two for its right child. *)
Inductive quartered : tree -> mtree -> Prop :=
| q_leaf : forall i n, quartered (TLeaf i n) (MLeaf (box_of n) (ex2 n) (ex1 n))
| q_node : forall i n l r k s0 s1 s2 s3,
    two_slots (box_of n) l s0 s1 -> two_slots (box_of n) r s2 s3 ->
    quartered (TNode i n l r) (MNode (box_of n) k s0 s1 s2 s3)
(** The slots of one child [c] of a node with box [b]: the two children of [c],
    each quartered in turn, if [c] is inner (so that the box of [c] is gone); if
    [c] is a leaf, the leaf itself, with [b] in place of its own box, and an
    empty slot. *)
with two_slots : box -> tree -> mtree -> mtree -> Prop :=
| two_leaf : forall b i n, two_slots b (TLeaf i n) (MLeaf b (ex2 n) (ex1 n)) MEmpty
| two_node : forall b i n x y sx sy, quartered x sx -> quartered y sy -> two_slots b (TNode i n x y) sx sy.

(** The same for a whole BVH: a lone leaf is put in the first slot of a node. *)
Definition quartered_root (t : tree) (q : mtree) : Prop :=
  match t with
  | TLeaf _ n => q = MNode (box_of n) 0 (MLeaf (box_of n) (ex2 n) (ex1 n)) MEmpty MEmpty MEmpty
  | TNode _ _ _ _ => quartered t q
  end.

(** Number of inner nodes of [t] at an even distance from its root
    ([inner_at true t]) or at an odd one ([inner_at false t]). *)
Fixpoint inner_at (even : bool) (t : tree) : nat :=
  match t with
  | TLeaf _ _ => 0
  | TNode _ _ l r => (if even then 1 else 0) + inner_at (negb even) l + inner_at (negb even) r
  end.

(** [construct_from_raw] copies up to four nodes, one per slot: a lone leaf, or
    a root and its two leaves.  The slot of the root leads to the node record 1,
    all of whose slots are empty. *)
Definition copied_root (t : tree) (q : mtree) : Prop :=
  match t with
  | TNode _ n (TLeaf _ l) (TLeaf _ r) =>
      q = MNode (box_of n) 0 (MNode (box_of n) 1 MEmpty MEmpty MEmpty MEmpty)
            (MLeaf (box_of l) (ex2 l) (ex1 l)) (MLeaf (box_of r) (ex2 r) (ex1 r)) MEmpty
  | _ => quartered_root t q
  end.
