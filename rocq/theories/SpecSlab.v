(** * Specification vocabulary: where an exact ray enters and leaves a box *)
Require Import List ZArith Bool Reals.
From Flocq Require Import Core BinarySingleNaN.
From Verif Require Import F32 Vec RayModel AabbModel SpecGeom.
Local Open Scope R_scope.

(** Parameters at which the line [o + t d] (real arithmetic) meets the two
    planes of one axis, smaller and larger. *)
Definition slab_in (lo hi o d : f32) : R :=
  Rmin ((fval lo - fval o) / fval d) ((fval hi - fval o) / fval d).
Definition slab_out (lo hi o d : f32) : R :=
  Rmax ((fval lo - fval o) / fval d) ((fval hi - fval o) / fval d).

(** Entry and exit parameter of the box, for a direction without zero component. *)
Definition exact_entry (b : aabb) (o d : vec3) : R :=
  Rmax (slab_in (vx (bmin b)) (vx (bmax b)) (vx o) (vx d))
  (Rmax (slab_in (vy (bmin b)) (vy (bmax b)) (vy o) (vy d))
        (slab_in (vz (bmin b)) (vz (bmax b)) (vz o) (vz d))).
Definition exact_exit (b : aabb) (o d : vec3) : R :=
  Rmin (slab_out (vx (bmin b)) (vx (bmax b)) (vx o) (vx d))
  (Rmin (slab_out (vy (bmin b)) (vy (bmax b)) (vy o) (vy d))
        (slab_out (vz (bmin b)) (vz (bmax b)) (vz o) (vz d))).

Definition dirs_normal (d : vec3) : Prop := dir_normal (vx d) /\ dir_normal (vy d) /\ dir_normal (vz d).

(** The float [x] is the real [e] up to five half-ulps, relatively
    (2^-149 is the smallest positive float). *)
Definition near (x : f32) (e : R) : Prop :=
  Rabs (fval x - e) <= 5 * / 16777216 * Rabs e + bpow radix2 (-149).

(** Lane [i] of the packet carries the ray from [o] in direction [d]. *)
Definition lane_is (p : packet) (i : nat) (o d : vec3) : Prop :=
  (i < 4)%nat /\
  o = V3 (wget (p_ox p) i) (wget (p_oy p) i) (wget (p_oz p) i) /\
  V3 (wget (p_ix p) i) (wget (p_iy p) i) (wget (p_iz p) i) =
  V3 (fdiv f1 (vx d)) (fdiv f1 (vy d)) (fdiv f1 (vz d)).
