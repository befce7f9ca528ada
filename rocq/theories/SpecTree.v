(** * Specification: what it means for node and index arrays to be a BVH

    [tree] is an ordinary binary tree.  [repr nodes t] says that the node array
    stores [t] (children of a node side by side, as users of [nodes()] and the
    FFI rely on); each tree node carries its index and its stored record. *)
Require Import List ZArith Bool Permutation.
From Verif Require Import F32 Vec AabbModel SpecGeom.
Import ListNotations.

Inductive tree :=
| TLeaf (i : nat) (n : aabb)
| TNode (i : nat) (n : aabb) (l r : tree).

Definition t_idx (t : tree) : nat := match t with TLeaf i _ => i | TNode i _ _ _ => i end.
Definition t_rec (t : tree) : aabb := match t with TLeaf _ n => n | TNode _ n _ _ => n end.

(** [extra1] is the primitive count of a leaf (negative for inner nodes),
    [extra2] the first index (of [prim_indices], or of the left child). *)
Fixpoint repr (nodes : list aabb) (t : tree) : Prop :=
  match t with
  | TLeaf i n => nth_error nodes i = Some n /\ (0 <= ex1 n)%Z /\ (0 <= ex2 n)%Z
  | TNode i n l r =>
      nth_error nodes i = Some n /\ (ex1 n < 0)%Z /\
      ex2 n = Z.of_nat (t_idx l) /\ t_idx r = S (t_idx l) /\
      repr nodes l /\ repr nodes r
  end.

(** All node indices used by the tree. *)
Fixpoint t_ids (t : tree) : list nat :=
  match t with TLeaf i _ => [i] | TNode i _ l r => i :: t_ids l ++ t_ids r end.

(** Depth of the deepest leaf; a lone leaf has depth 0. *)
Fixpoint depth (t : tree) : nat :=
  match t with TLeaf _ _ => 0 | TNode _ _ l r => S (Nat.max (depth l) (depth r)) end.

(** Number of nodes and leaves. *)
Fixpoint t_size (t : tree) : nat :=
  match t with TLeaf _ _ => 1 | TNode _ _ l r => S (t_size l + t_size r) end.
Fixpoint t_leaves (t : tree) : nat :=
  match t with TLeaf _ _ => 1 | TNode _ _ l r => t_leaves l + t_leaves r end.

(** Positions of [prim_indices] that a leaf record covers. *)
Definition leaf_positions (n : aabb) : list nat := seq (Z.to_nat (ex2 n)) (Z.to_nat (ex1 n)).
Fixpoint positions (t : tree) : list nat :=
  match t with TLeaf _ n => leaf_positions n | TNode _ _ l r => positions l ++ positions r end.

(** Primitive ids of a leaf / below a node. *)
Definition leaf_prims (indices : list nat) (n : aabb) : list nat :=
  map (fun k => nth k indices 0) (leaf_positions n).
Definition prims (indices : list nat) (t : tree) : list nat :=
  map (fun k => nth k indices 0) (positions t).

(** The leaves, left to right. *)
Fixpoint leaf_recs (t : tree) : list aabb :=
  match t with TLeaf _ n => [n] | TNode _ _ l r => leaf_recs l ++ leaf_recs r end.

(** A BVH over [n] primitives: the node array is a binary tree rooted at node
    0 in which each array slot is used exactly once, the leaf ranges tile
    [prim_indices] and [prim_indices] is a permutation of [0..n). *)
Definition valid_bvh (nodes : list aabb) (indices : list nat) (n : nat) : Prop :=
  exists t, repr nodes t /\ t_idx t = 0 /\
            Permutation (t_ids t) (seq 0 (length nodes)) /\
            Permutation (positions t) (seq 0 (length indices)) /\
            Permutation indices (seq 0 n).

(** Shape of a tree: forget the numbering of the nodes. *)
Inductive shape :=
| SLeaf (mn mx : vec3) (first count : Z)
| SNode (mn mx : vec3) (l r : shape).
Fixpoint shape_of (t : tree) : shape :=
  match t with
  | TLeaf _ n => SLeaf (bmin n) (bmax n) (ex2 n) (ex1 n)
  | TNode _ n l r => SNode (bmin n) (bmax n) (shape_of l) (shape_of r)
  end.

(** Every box contains the given AABBs of all primitives below it. *)
Fixpoint encloses (aabbs : list aabb) (indices : list nat) (t : tree) : Prop :=
  Forall (fun p => forall b, nth_error aabbs p = Some b -> box_in b (t_rec t)) (prims indices t) /\
  match t with
  | TLeaf _ _ => True
  | TNode _ _ l r => encloses aabbs indices l /\ encloses aabbs indices r
  end.

(** Parents are stored before their children. *)
Fixpoint children_after (t : tree) : Prop :=
  match t with
  | TLeaf _ _ => True
  | TNode i _ l r => i < t_idx l /\ i < t_idx r /\ children_after l /\ children_after r
  end.

(** [s] is [t] or a subtree of it. *)
Inductive subtree : tree -> tree -> Prop :=
| st_self : forall t, subtree t t
| st_left : forall s i n l r, subtree s l -> subtree s (TNode i n l r)
| st_right : forall s i n l r, subtree s r -> subtree s (TNode i n l r).

(** Every node record of the tree has property [P]. *)
Fixpoint all_recs (P : aabb -> Prop) (t : tree) : Prop :=
  P (t_rec t) /\ match t with TLeaf _ _ => True | TNode _ _ l r => all_recs P l /\ all_recs P r end.

(** [leaf_at d n t]: [n] is the record of a leaf of [t] at depth [d]. *)
Inductive leaf_at : nat -> aabb -> tree -> Prop :=
| la_leaf : forall i n, leaf_at 0 n (TLeaf i n)
| la_left : forall d n i m l r, leaf_at d n l -> leaf_at (S d) n (TNode i m l r)
| la_right : forall d n i m l r, leaf_at d n r -> leaf_at (S d) n (TNode i m l r).
