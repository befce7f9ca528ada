(** * Specification vocabulary for triangles

    Exact geometry over the reals; nothing here models code. *)
Require Import List ZArith Bool Reals.
From Flocq Require Import Core BinarySingleNaN.
From Verif Require Import F32 Vec SpecGeom TriModel.
Local Open Scope R_scope.

Definition rvec : Type := R * R * R.
Definition rx (v : rvec) : R := fst (fst v).
Definition ry (v : rvec) : R := snd (fst v).
Definition rz (v : rvec) : R := snd v.

(** The point [origin + t direction] is a convex combination of the three
    vertices. *)
Definition on_triangle (v0 v1 v2 origin direction : rvec) (t : R) : Prop :=
  exists w0 w1 w2, 0 <= w0 /\ 0 <= w1 /\ 0 <= w2 /\ w0 + w1 + w2 = 1 /\
    rx origin + t * rx direction = w0 * rx v0 + w1 * rx v1 + w2 * rx v2 /\
    ry origin + t * ry direction = w0 * ry v0 + w1 * ry v1 + w2 * ry v2 /\
    rz origin + t * rz direction = w0 * rz v0 + w1 * rz v1 + w2 * rz v2.

(** The triple product [direction . ((v2 - v0) x (v1 - v0))], whose size is
    twice the area of the triangle seen along the direction: it vanishes
    exactly if the ray runs parallel to the triangle's plane or the triangle
    is degenerate. *)
Definition facing (v0 v1 v2 direction : rvec) : R :=
  let ax := rx v1 - rx v0 in let ay := ry v1 - ry v0 in let az := rz v1 - rz v0 in
  let bx := rx v2 - rx v0 in let by_ := ry v2 - ry v0 in let bz := rz v2 - rz v0 in
  rx direction * (by_ * az - bz * ay) + ry direction * (bz * ax - bx * az) + rz direction * (bx * ay - by_ * ax).

(** Exact real arithmetic as scalars for [tri_test], with the threshold [eps]. *)
Definition real_scalars (eps : R) : scalars R :=
  Scalars R Rplus Rminus Rmult Rdiv Rlt_bool Rle_bool 0 1 eps (- eps).

(** Real value of a vector of finite floats. *)
Definition rv (v : vec3) : rvec := (fval (vx v), fval (vy v), fval (vz v)).

(** ** With rounding *)

(** The point at [t] is in the triangle's plane, and its barycentric
    coordinates are at least [- slack]: with [slack = 0] this is
    [on_triangle]; with a negative slack the point is well inside. *)
Definition near_triangle (slack : R) (v0 v1 v2 origin direction : rvec) (t : R) : Prop :=
  exists w0 w1 w2, - slack <= w0 /\ - slack <= w1 /\ - slack <= w2 /\ w0 + w1 + w2 = 1 /\
    rx origin + t * rx direction = w0 * rx v0 + w1 * rx v1 + w2 * rx v2 /\
    ry origin + t * ry direction = w0 * ry v0 + w1 * ry v1 + w2 * ry v2 /\
    rz origin + t * rz direction = w0 * rz v0 + w1 * rz v1 + w2 * rz v2.

(** Finite coordinates of size at most [b]. *)
Definition coords_within (b : R) (v : vec3) : Prop :=
  vfinite v /\ Rabs (fval (vx v)) <= b /\ Rabs (fval (vy v)) <= b /\ Rabs (fval (vz v)) <= b.

(** Half an ulp of 1 in single precision. *)
Definition half_ulp : R := / 16777216.
