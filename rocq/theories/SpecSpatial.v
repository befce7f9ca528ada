(** * The spatial-split builder, read sequentially

    What the tasks of a spatial build compute when they are run one after the
    other, each on its own part of the reference arrays: an abstract tree whose
    leaves list primitives.  Used to state what the parallel build returns. *)
Require Import List ZArith Bool Arith.
From Verif Require Import F32 Vec AabbModel SpecGeom Base BinnedModel TriModel SpatialModel SpecTree.
Import ListNotations.

(** [shift] and [moved] of an inner node: by how many positions the references
    of its right child were moved, and how many they are. *)
Inductive atree :=
| ALeaf (box : aabb) (ids : list nat)
| ANode (box : aabb) (shift : Z) (moved : nat) (l r : atree).

Fixpoint a_prims (t : atree) : list nat :=
  match t with ALeaf _ ids => ids | ANode _ _ _ l r => a_prims l ++ a_prims r end.
Fixpoint a_size (t : atree) : nat :=
  match t with ALeaf _ _ => 1 | ANode _ _ _ l r => S (a_size l + a_size r) end.
Fixpoint a_depth (t : atree) : nat :=
  match t with ALeaf _ _ => 0 | ANode _ _ _ l r => S (Nat.max (a_depth l) (a_depth r)) end.

(** Whenever references were moved, they were moved by at least their number,
    so the right child still finds them at the old place. *)
Fixpoint harmless (t : atree) : Prop :=
  match t with
  | ALeaf _ _ => True
  | ANode _ shift moved l r => ((shift <= 0)%Z \/ (Z.of_nat moved <= shift)%Z) /\ harmless l /\ harmless r
  end.

(** The stored tree [t], with indices [idx], is the abstract tree [a]: same
    boxes, and each leaf lists the same primitives in the same order. *)
Fixpoint stores (idx : list nat) (t : tree) (a : atree) : Prop :=
  match t, a with
  | TLeaf _ n, ALeaf box ids => bmin n = bmin box /\ bmax n = bmax box /\ leaf_prims idx n = ids
  | TNode _ n l r, ANode box _ _ al ar => bmin n = bmin box /\ bmax n = bmax box /\ stores idx l al /\ stores idx r ar
  | _, _ => False
  end.

(** Two stored trees are the same up to the numbering of nodes and the
    positions in the index arrays: same shape, same boxes, and the leaves list
    the same primitives in the same order. *)
Fixpoint same_tree (idx1 : list nat) (t1 : tree) (idx2 : list nat) (t2 : tree) : Prop :=
  match t1, t2 with
  | TLeaf _ n1, TLeaf _ n2 => bmin n1 = bmin n2 /\ bmax n1 = bmax n2 /\ leaf_prims idx1 n1 = leaf_prims idx2 n2
  | TNode _ n1 l1 r1, TNode _ n2 l2 r2 =>
      bmin n1 = bmin n2 /\ bmax n1 = bmax n2 /\ same_tree idx1 l1 idx2 l2 /\ same_tree idx1 r1 idx2 r2
  | _, _ => False
  end.

(** The boxes of the children of every node lie inside the node's box. *)
Fixpoint nested (t : tree) : Prop :=
  match t with
  | TLeaf _ _ => True
  | TNode _ n l r => box_in (t_rec l) n /\ box_in (t_rec r) n /\ nested l /\ nested r
  end.
(** A traversal towards the point [v] can find primitive [p]: some leaf lists
    [p], and the boxes of this leaf and of all nodes above it contain [v]. *)
Fixpoint found_at (idx : list nat) (p : nat) (v : vec3) (t : tree) : Prop :=
  match t with
  | TLeaf _ n => In p (leaf_prims idx n) /\ in_box n v
  | TNode _ n l r => in_box n v /\ (found_at idx p v l \/ found_at idx p v r)
  end.

(** ** What a task may touch while it runs
    [None] is a task that waits on a stack.  The slots of the node array: its
    own node and, while it writes its children, the pair it was given by the
    atomic counter.  The positions of the index array: the ones it was given by
    the atomic counter, while it writes its leaf.  The positions of the three
    reference arrays: from its first reference to the end of its free space. *)
Definition foot_nodes (t : witem) (p : option pprog) : list nat :=
  match p with Some (QChildren _ _ lft) => [w_node t; lft; S lft] | _ => [w_node t] end.
Definition foot_idx (p : option pprog) : list nat :=
  match p with Some (QLeafAt t first) => seq first (w_size t) | _ => [] end.
Definition owned (t : witem) : list nat := seq (w_begin t) (w_split_end t - w_begin t).
(** Two lists have no element in common. *)
Definition apart (a b : list nat) : Prop := forall i, In i a -> ~ In i b.
(** [m2] is [m1] as far as the listed positions can tell, and has the same
    atomic counters and array lengths. *)
Record agree_on (nodes refs idx : list nat) (m1 m2 : pmem) : Prop := Agree_on {
  ao_nodes_len : length (p_nodes m2) = length (p_nodes m1);
  ao_idx_len : length (p_idx m2) = length (p_idx m1);
  ao_refs_len : forall a, a < 3 -> length (pick (p_refs m2) a) = length (pick (p_refs m1) a);
  ao_nodes : forall i, In i nodes -> nth_error (p_nodes m2) i = nth_error (p_nodes m1) i;
  ao_idx : forall i, In i idx -> nth_error (p_idx m2) i = nth_error (p_idx m1) i;
  ao_refs : forall a i, a < 3 -> In i refs -> nth_error (pick (p_refs m2) a) i = nth_error (pick (p_refs m1) a) i;
  ao_ctr : p_ctr m2 = p_ctr m1;
  ao_count : p_count m2 = p_count m1 }.

Section Seq.
  Variables (sorter : nat -> list sref -> list sref) (prims : list tri) (leaf_size : nat) (threshold : f32).

  Fixpoint seq_tree (k : nat) (t : witem) (bounds : aabb) (w : per_axis (list sref)) : res atree :=
    do (w, d) <- plan_task sorter prims leaf_size threshold t bounds w;
    match d with
    | Leaf => Ok (ALeaf bounds (map s_prim (firstn (w_size t) (pick w 0))))
    | Divide c =>
        match k with
        | O => OutOfFuel
        | S k =>
            let rb := c_right_begin c in
            let re := c_right_end c in
            let shift := left_split_count (w_split_end t - (w_begin t + re)) c in
            do w <- move3 w rb re shift;
            do l <- seq_tree k (Wi 0 (w_begin t) (w_begin t + rb) (w_begin t + rb) (S (w_depth t)) (c_sorted c))
                      (c_left c) (map3 (firstn rb) w);
            do r <- seq_tree k (Wi 0 (w_begin t + rb) (w_begin t + re) (w_split_end t) (S (w_depth t)) (c_sorted c))
                      (c_right c) (map3 (skipn rb) w);
            Ok (ANode (with_offset bounds f1em4) shift (re - rb) l r)
        end
    end.
  (** The tasks of a build, starting from task [t0], whose node has the box
      [b0] and which owns the references [w0] (for each axis a list, ending in
      free space): [task_of t bounds w] says that the build comes to task [t]
      with the box [bounds] and the references [w].  The numbers of the nodes
      of children may be any. *)
  Inductive task_of (t0 : witem) (b0 : aabb) (w0 : per_axis (list sref)) : witem -> aabb -> per_axis (list sref) -> Prop :=
  | task_root : task_of t0 b0 w0 t0 b0 w0
  | task_left : forall t bounds w w1 c w2 i, task_of t0 b0 w0 t bounds w ->
      plan_task sorter prims leaf_size threshold t bounds w = Ok (w1, Divide c) ->
      move3 w1 (c_right_begin c) (c_right_end c) (left_split_count (w_split_end t - (w_begin t + c_right_end c)) c) = Ok w2 ->
      task_of t0 b0 w0
        (Wi i (w_begin t) (w_begin t + c_right_begin c) (w_begin t + c_right_begin c) (S (w_depth t)) (c_sorted c))
        (c_left c) (map3 (firstn (c_right_begin c)) w2)
  | task_right : forall t bounds w w1 c w2 i, task_of t0 b0 w0 t bounds w ->
      plan_task sorter prims leaf_size threshold t bounds w = Ok (w1, Divide c) ->
      move3 w1 (c_right_begin c) (c_right_end c) (left_split_count (w_split_end t - (w_begin t + c_right_end c)) c) = Ok w2 ->
      task_of t0 b0 w0
        (Wi i (w_begin t + c_right_begin c) (w_begin t + c_right_end c) (w_split_end t) (S (w_depth t)) (c_sorted c))
        (c_right c) (map3 (skipn (c_right_begin c)) w2).
End Seq.

(** The whole build. *)
Definition seq_spatial sorter (primitives_per_leaf : option nat) (aabbs : list aabb) (prims : list tri) (centers : list vec3)
    : res atree :=
  seq_tree sorter prims (max_leaf_size primitives_per_leaf) (spatial_threshold aabbs) MAX_DEPTH
    (spatial_root aabbs) (union_of_list aabbs) (p_refs (spatial_start aabbs centers)).

(** Task [t], with the box [bounds] and the references [w], is a task of the build. *)
Definition spatial_task sorter (primitives_per_leaf : option nat) (aabbs : list aabb) (prims : list tri) (centers : list vec3)
    : witem -> aabb -> per_axis (list sref) -> Prop :=
  task_of sorter prims (max_leaf_size primitives_per_leaf) (spatial_threshold aabbs)
    (spatial_root aabbs) (union_of_list aabbs) (p_refs (spatial_start aabbs centers)).
