(** * Specification: the cells of a Morton grid *)
Require Import ZArith NArith Reals.
From Flocq Require Import Core BinarySingleNaN.
From Verif Require Import F32 Vec AabbModel SpecGeom SpecBins.
Local Open Scope R_scope.

(** The position of [c] between [lo] and [hi] in cells, [dim] of which make up
    the interval (exact real numbers). *)
Definition cells (dim : Z) (lo hi c : R) : R := IZR dim * (c - lo) / (hi - lo).
(** A position at least [e] inside cell [k] of 0..dim-1; the first cell
    extends to minus infinity and the last one to infinity. *)
Definition inside_cell (dim : Z) (e pos : R) (k : N) : Prop :=
  (Z.of_N k < dim)%Z /\ (k = 0%N \/ IZR (Z.of_N k) + e <= pos) /\
  (Z.of_N k = (dim - 1)%Z \/ pos < IZR (Z.of_N k) + 1 - e).

(** The coordinate [c] lies in cell [k] of the interval from [lo] to [hi], at
    least the rounding error away from the borders of the cell. *)
Definition in_cell (dim : Z) (lo hi c : f32) (k : N) : Prop :=
  moderate lo hi /\ nearby lo hi c /\
  inside_cell dim (IZR dim * slack lo hi c / (fval hi - fval lo)) (cells dim (fval lo) (fval hi) (fval c)) k.

(** All coordinates finite; an upright box; no coordinate larger. *)
Definition finite3 (v : vec3) : Prop := is_finite (vx v) = true /\ is_finite (vy v) = true /\ is_finite (vz v) = true.
Definition upright (b : aabb) : Prop := finite3 (bmin b) /\ finite3 (bmax b) /\
  flt (vx (bmin b)) (vx (bmax b)) = true /\ flt (vy (bmin b)) (vy (bmax b)) = true /\ flt (vz (bmin b)) (vz (bmax b)) = true.
Definition below (p q : vec3) : Prop := fle (vx p) (vx q) = true /\ fle (vy p) (vy q) = true /\ fle (vz p) (vz q) = true.
