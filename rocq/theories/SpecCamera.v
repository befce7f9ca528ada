(** * What the demo camera's rays should be *)
Require Import ZArith Bool Reals.
From Flocq Require Import Core.
From Verif Require Import F32 Vec SpecGeom SpecMeasure CameraModel.
Local Open Scope R_scope.

(** A camera with finite coordinates of magnitude at most [m], looking through
    a screen on which pixel (x, y) lies: 0 <= x * inv_width <= 1, 0 <= y * inv_height <= 1. *)
Definition camera_ok (c : camera) (x y : Z) (m : R) : Prop :=
  (forall g, coordinate g -> forall v, v = c_pos c \/ v = c_right c \/ v = c_up c \/ v = c_p1 c ->
     ffinite (g v) /\ Rabs (fval (g v)) <= m) /\
  (0 <= x < 2 ^ 32)%Z /\ (0 <= y < 2 ^ 32)%Z /\
  ffinite (c_inv_width c) /\ ffinite (c_inv_height c) /\
  0 <= fval (c_inv_width c) /\ 0 <= fval (c_inv_height c) /\
  IZR x * fval (c_inv_width c) <= 1 /\ IZR y * fval (c_inv_height c) <= 1.

(** The exact vector from the camera to the pixel: the screen's corner, plus
    the fractions x * inv_width and y * inv_height of its edges. *)
Definition to_pixel (c : camera) (x y : Z) (g : vec3 -> f32) : R :=
  fval (g (c_p1 c)) + (IZR x * fval (c_inv_width c)) * fval (g (c_right c))
                    + (IZR y * fval (c_inv_height c)) * fval (g (c_up c)) - fval (g (c_pos c)).
Definition pixel_distance (c : camera) (x y : Z) : R :=
  sqrt (to_pixel c x y vx * to_pixel c x y vx + to_pixel c x y vy * to_pixel c x y vy + to_pixel c x y vz * to_pixel c x y vz).

(** ** Moving the camera *)
(** Coordinate [i] of a vector; of the direction to the right of [d] (the
    cross product of [d] and the y axis); of the y axis. *)
Definition comp (v : vec3) (i : nat) : R := fval (vget v i).
Definition rightwards (d : vec3) (i : nat) : R :=
  match i with 0%nat => - fval (vz d) | 1%nat => 0 | _ => fval (vx d) end.
Definition upwards (i : nat) : R := match i with 1%nat => 1 | _ => 0 end.

(** The point at the fractions [a], [b] of a screen at distance one in front of
    [pos], [2 t aspect] wide and [2 t] high. *)
Definition screen_point (pos d : vec3) (t aspect a b : R) (i : nat) : R :=
  comp pos i + comp d i + (2 * a - 1) * (t * aspect) * rightwards d i + (1 - 2 * b) * t * upwards i.
(** The same point, according to the corner and edges stored in the camera. *)
Definition stored_point (c : camera) (a b : R) (i : nat) : R :=
  comp (c_p1 c) i + a * comp (c_right c) i + b * comp (c_up c) i.

(** The direction [d] turned by the offsets [x], [y] along the screen's edges. *)
Definition turned (d right up : vec3) (x y : R) (i : nat) : R := comp d i - x * comp right i - y * comp up i.
Definition length_of (f : nat -> R) : R := sqrt (f 0%nat * f 0%nat + f 1%nat * f 1%nat + f 2%nat * f 2%nat).
