(** * Specification: locally ordered clustering

    The textbook algorithm (Meister and Bittner, PLOC) on plain lists, without
    node arrays, distance matrices, prefix sums or threads.  Clusters stand in a
    row, at first one per primitive.  In a round every cluster looks for its
    nearest neighbour among the 14 before and the 14 after it, and each two
    clusters that are nearest to each other are replaced by their union.  The
    rounds go on until one cluster is left. *)
Require Import List ZArith Bool Arith.
From Verif Require Import F32 Vec AabbModel SpecTree.
Import ListNotations.

(** A cluster is the [shape] of a tree (SpecTree.v): boxes, leaves and children, no node numbers. *)
Definition cluster_box (s : shape) : aabb :=
  match s with SLeaf mn mx _ _ => Bb mn 0 mx 0 | SNode mn mx _ _ => Bb mn 0 mx 0 end.

(** The row before the first round: position [k] of [prim_indices] is a leaf
    with that one primitive; its box is the primitive's AABB padded by 1e-4. *)
Definition first_leaf (aabbs : list aabb) (indices : list nat) (k : nat) : shape :=
  let b := with_offset (nth (nth k indices 0) aabbs aabb_new) f1em4 in
  SLeaf (bmin b) (bmax b) (Z.of_nat k) 1.
Definition first_row (aabbs : list aabb) (indices : list nat) : list shape :=
  map (first_leaf aabbs indices) (seq 0 (length indices)).

(** [joined a b]: [a] stands before [b]. *)
Definition joined (a b : shape) : shape :=
  let u := union_of (cluster_box b) (cluster_box a) in SNode (bmin u) (bmax u) a b.

(** How far two clusters are apart: the half area of the box around both. *)
Definition at_pos (row : list shape) (i : nat) : shape := nth i row (SLeaf (vsplat f0) (vsplat f0) 0 0).
Definition apart (row : list shape) (i j : nat) : f32 :=
  half_area (union_of (cluster_box (at_pos row (Nat.min i j))) (cluster_box (at_pos row (Nat.max i j)))).

Definition window : nat := 14.
Definition in_window (row : list shape) (i j : nat) : Prop :=
  i <> j /\ j < length row /\ i <= j + window /\ j <= i + window.

(** [j] is the nearest neighbour of [i]: nothing in the window is nearer, and
    what is equally near comes later.  (Distances of at least [f32::MAX] do not count.) *)
Definition nearest_to (row : list shape) (i j : nat) : Prop :=
  in_window row i j /\ flt (apart row i j) fMAX = true /\
  forall k, in_window row i k ->
    flt (apart row i k) (apart row i j) = false /\
    (k < j -> fle (apart row i k) (apart row i j) = false).

(** What becomes of the cluster at [j]: mutually nearest clusters are joined at
    the place of the later one, all others stay. *)
Definition becomes (row : list shape) (nb : nat -> nat) (j : nat) : list shape :=
  if nb (nb j) =? j then
    if nb j <? j then [joined (at_pos row (nb j)) (at_pos row j)] else []
  else [at_pos row j].
Definition round (row row' : list shape) : Prop :=
  exists nb, (forall i, i < length row -> nearest_to row i (nb i)) /\
    row' = flat_map (becomes row nb) (seq 0 (length row)).
Inductive rounds : nat -> list shape -> list shape -> Prop :=
| no_round : forall row, rounds 0 row row
| one_round : forall k row row' row'', 2 <= length row -> round row row' -> rounds k row' row'' -> rounds (S k) row row''.
