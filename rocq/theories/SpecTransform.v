(** * Specification: affine images *)
Require Import List ZArith Reals.
From Verif Require Import F32 Vec AabbModel SpecGeom.
Import ListNotations.
Local Open Scope R_scope.

(** The coordinates of a point with the rows of a matrix that compute them. *)
Definition axes : list ((vec3 -> f32) * (vec4 -> f32)) := [(vx, wx); (vy, wy); (vz, wz)].

(** Coordinate of the exact image of the point [(x, y, z)] under the affine map
    in the first three rows of [m] (columns [mx m], [my m], [mz m], [mw m]). *)
Definition image (m : mat4) (row : vec4 -> f32) (x y z : R) : R :=
  fval (row (mx m)) * x + fval (row (my m)) * y + fval (row (mz m)) * z + fval (row (mw m)).

(** The exact point [(x, y, z)] lies in the closed box [b]. *)
Definition real_in (b : aabb) (x y z : R) : Prop :=
  fval (vx (bmin b)) <= x <= fval (vx (bmax b)) /\
  fval (vy (bmin b)) <= y <= fval (vy (bmax b)) /\
  fval (vz (bmin b)) <= z <= fval (vz (bmax b)).

(** The entries of the first three rows of [m] are finite and at most [k]. *)
Definition entries (k : R) (m : mat4) : Prop :=
  forall g row col, In (g, row) axes -> In col [mx m; my m; mz m; mw m] ->
    ffinite (row col) /\ Rabs (fval (row col)) <= k.
