(** * Specification vocabulary for points and boxes

    These definitions do not model code; they say in elementary terms what
    the theorems about boxes claim.  [fle]/[flt] are Rust's [<=]/[<] on f32. *)
Require Import List ZArith Bool Reals.
From Flocq Require Import Core BinarySingleNaN.
From Verif Require Import F32 Vec AabbModel.
Import ListNotations.

(** No lane is NaN. *)
Definition vok (v : vec3) : Prop :=
  fnan (vx v) = false /\ fnan (vy v) = false /\ fnan (vz v) = false.
Definition box_ok (b : aabb) : Prop := vok (bmin b) /\ vok (bmax b).

(** Componentwise [<=]. *)
Definition vle (a b : vec3) : Prop :=
  fle (vx a) (vx b) = true /\ fle (vy a) (vy b) = true /\ fle (vz a) (vz b) = true.
(** Componentwise [<]. *)
Definition vlt (a b : vec3) : Prop :=
  flt (vx a) (vx b) = true /\ flt (vy a) (vy b) = true /\ flt (vz a) (vz b) = true.

(** Point [p] lies in the closed box [b]. *)
Definition in_box (b : aabb) (p : vec3) : Prop := vle (bmin b) p /\ vle p (bmax b).

(** The box [a] lies inside the box [b]. *)
Definition box_in (a b : aabb) : Prop := vle (bmin b) (bmin a) /\ vle (bmax a) (bmax b).

(** The extra fields agree. *)
Definition same_extras (a b : aabb) : Prop := ex1 a = ex1 b /\ ex2 a = ex2 b.

(** Real value of a finite float. *)
Definition fval (x : f32) : R := B2R x.
Definition ffinite (x : f32) : Prop := is_finite x = true.
Definition vfinite (v : vec3) : Prop := ffinite (vx v) /\ ffinite (vy v) /\ ffinite (vz v).
Definition box_finite (b : aabb) : Prop := vfinite (bmin b) /\ vfinite (bmax b).

(** All coordinates lie in [-m, m]. *)
Definition vwithin (m : f32) (v : vec3) : Prop := vle (vsplat (fneg m)) v /\ vle v (vsplat m).
Definition box_within (m : f32) (b : aabb) : Prop := vwithin m (bmin b) /\ vwithin m (bmax b).

(** The exact point [o + t d] of a ray lies in the closed box [b]. *)
Definition ray_point_in (b : aabb) (o d : vec3) (t : R) : Prop :=
  (fval (vx (bmin b)) <= fval (vx o) + t * fval (vx d) <= fval (vx (bmax b)))%R /\
  (fval (vy (bmin b)) <= fval (vy o) + t * fval (vy d) <= fval (vy (bmax b)))%R /\
  (fval (vz (bmin b)) <= fval (vz o) + t * fval (vz d) <= fval (vz (bmax b)))%R.

(** A direction component whose reciprocal is a normal float. *)
Definition dir_normal (d : f32) : Prop :=
  ffinite d /\ (bpow radix2 (-126) <= Rabs (fval d) <= bpow radix2 126)%R.

(** What the slab test needs of one axis: a normal direction component, or
    positive zero with the origin strictly inside the slab. *)
Definition axis_fine (lo hi o d : f32) : Prop :=
  dir_normal d \/ (d = B754_zero false /\ flt lo o = true /\ flt o hi = true).
Definition axes_fine (b : aabb) (o d : vec3) : Prop :=
  axis_fine (vx (bmin b)) (vx (bmax b)) (vx o) (vx d) /\
  axis_fine (vy (bmin b)) (vy (bmax b)) (vy o) (vy d) /\
  axis_fine (vz (bmin b)) (vz (bmax b)) (vz o) (vz d).
