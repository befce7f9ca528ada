(** * Specification: the cheapest plane through the triangles of a node

    The box of a node is cut into 16 slabs along an axis; the 15 inner borders
    are the candidate planes.  A triangle's box is sliced at the borders it
    crosses. *)
Require Import List ZArith Bool Arith.
From Verif Require Import F32 Vec AabbModel BinnedModel TriModel.
Import ListNotations.

(** Border [k] of the 16 slabs between [lo] and [hi]. *)
Definition thick (lo hi : f32) : f32 := fdiv (fsub hi lo) (f_of_Z 16).
Definition border (lo hi : f32) (k : nat) : f32 := fadd lo (fmul (fn k) (thick lo hi)).
(** The slab of a coordinate: how many slabs fit below it, in 0..15. *)
Definition slab (lo hi x : f32) : nat :=
  Z.to_nat (Z.min 15 (f_as_usize (fmax (fmul (fdiv f1 (thick lo hi)) (fsub x lo)) f0))).

(** A reference: a box and the triangle in it. *)
Definition item := (aabb * tri)%type.
(** Primitive [p] as a reference. *)
Definition whole_ref (aabbs : list aabb) (tris : list tri) (p : nat) : item :=
  (nth p aabbs aabb_new, nth p tris (Tri (vsplat f0) (vsplat f0) (vsplat f0))).

Section Axis.
  Variables (axis : nat) (lo hi : f32).
  Definition first_slab (r : item) : nat := slab lo hi (vget (bmin (fst r)) axis).
  Definition last_slab (r : item) : nat := slab lo hi (vget (bmax (fst r)) axis).
  (** The slices of a triangle in the slabs [j .. j + k], with the box of the
      part of the triangle before each border; [rest] is what is left of its
      box. *)
  Fixpoint slices (t : tri) (k j : nat) (rest : aabb) : list (nat * aabb) :=
    match k with
    | O => [(j, rest)]
    | S k =>
        let parts := tri_split t axis (border lo hi (S j)) in
        (j, shrink (fst parts) rest) :: slices t k (S j) (shrink rest (snd parts))
    end.
  Definition slices_of (r : item) : list (nat * aabb) :=
    slices (snd r) (last_slab r - first_slab r) (first_slab r) (fst r).

  (** References after an inverted box are not looked at. *)
  Fixpoint upright (refs : list item) : list item :=
    match refs with
    | [] => []
    | r :: refs => if is_valid (fst r) then r :: upright refs else []
    end.

  Variable refs : list item.
  (** The union of the slices in slab [j]. *)
  Definition slab_box (j : nat) : aabb :=
    fold_left grow_bb (map snd (filter (fun s => fst s =? j) (flat_map slices_of (upright refs)))) aabb_new.
  (** The union of the slabs from [j] on. *)
  Definition box_from (j : nat) : aabb := fold_right (fun i b => grow_bb b (slab_box i)) aabb_new (seq j (16 - j)).
  (** The number of references that start before border [k]. *)
  Definition starts (k : nat) : nat := length (filter (fun r => first_slab r <? k) (upright refs)).
  (** The estimated cost of cutting at border [k]: area times number on each
      side.  (The references that start before the border are charged the union
      of all slices, not of those before the border: C56_plane_refuted.) *)
  Definition estimate (k : nat) : f32 :=
    fadd (fmul (fn (starts k)) (half_area (box_from 0)))
         (fmul (fn (length refs - starts k)) (half_area (box_from k))).
End Axis.

Definition inner (k : nat) : Prop := 1 <= k <= 15.
(** [axis], [position] are the plane for a node with the box [bounds]: an inner
    border of the slabs of [bounds], or an inner border of 16 finer slabs around
    such a border; no border of the slabs of [bounds] along any axis has a lower
    estimate, nor has one of those finer slabs. *)
Definition cheapest_plane (bounds : aabb) (refs : list item) (axis : nat) (position cost : f32) : Prop :=
  let lo a := vget (bmin bounds) a in let hi a := vget (bmax bounds) a in
  (exists k, inner k /\
     let mid := border (lo axis) (hi axis) k in
     let d := thick (lo axis) (hi axis) in
     (position = mid /\ cost = estimate axis (lo axis) (hi axis) refs k \/
      exists k', inner k' /\ position = border (fsub mid d) (fadd mid d) k' /\
                 cost = estimate axis (fsub mid d) (fadd mid d) refs k') /\
     (forall k', inner k' -> flt (estimate axis (fsub mid d) (fadd mid d) refs k') cost = false)) /\
  (forall a k, a < 3 -> inner k -> flt (estimate a (lo a) (hi a) refs k) cost = false).
