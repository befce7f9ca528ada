(** * Exact measures of boxes, points on rays and mirror directions *)
Require Import ZArith Bool Reals Lra.
From Flocq Require Import Core.
From Verif Require Import F32 Vec AabbModel SpecGeom.
Local Open Scope R_scope.

(** One of the three coordinates. *)
Definition coordinate (g : vec3 -> f32) : Prop := g = vx \/ g = vy \/ g = vz.

(** Finite, with all coordinates in [-m, m]. *)
Definition sized (m : R) (v : vec3) : Prop :=
  forall g, coordinate g -> ffinite (g v) /\ Rabs (fval (g v)) <= m.

(** The exact extent of a box along a coordinate. *)
Definition extent (b : aabb) (g : vec3 -> f32) : R := fval (g (bmax b)) - fval (g (bmin b)).
(** Half its surface, and its volume. *)
Definition half_surface (b : aabb) : R :=
  extent b vx * extent b vy + extent b vy * extent b vz + extent b vx * extent b vz.
Definition box_volume (b : aabb) : R := extent b vx * extent b vy * extent b vz.

(** Exact inner product. *)
Definition inner (a b : vec3) : R :=
  fval (vx a) * fval (vx b) + fval (vy a) * fval (vy b) + fval (vz a) * fval (vz b).

(** The direction [d] mirrored at the plane with normal [n]. *)
Definition mirror (n d : vec3) (g : vec3 -> f32) : R := fval (g d) - 2 * inner n d * fval (g n).

(** For a unit normal it is the mirror image: same length, opposite component
    along [n], same remainder. *)
Lemma mirror_image : forall n d, inner n n = 1 ->
  mirror n d vx * mirror n d vx + mirror n d vy * mirror n d vy + mirror n d vz * mirror n d vz = inner d d /\
  mirror n d vx * fval (vx n) + mirror n d vy * fval (vy n) + mirror n d vz * fval (vz n) = - inner n d /\
  forall g, mirror n d g - (- inner n d) * fval (g n) = fval (g d) - inner n d * fval (g n).
Proof.
  intros n d H. unfold mirror. split; [|split].
  - transitivity (inner d d - 4 * inner n d * inner n d + 4 * (inner n d * inner n d) * inner n n); [unfold inner; ring|rewrite H; ring].
  - transitivity (inner n d - 2 * inner n d * inner n n); [unfold inner; ring|rewrite H; ring].
  - intro g. ring.
Qed.
