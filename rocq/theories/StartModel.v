(** * The camera the demos start with *)
Require Import ZArith.
From Verif Require Import F32 Vec CameraModel ControlModel.

(** [f32::to_radians]: [self * (PI / 180.0)]. *)
Definition to_radians (x : f32) : f32 := fmul x (fdiv f_pi f180).

(** vec3(0.0, 1.5, -100.0) *)
Definition start_pos : vec3 := V3 f0 (fadd f1 fhalf) (fneg (f_of_Z 100)).

(** examples/visualizer.rs:97-122 and examples/benchmark.rs:74-99, for
    [WIDTH] [w] and [HEIGHT] [h] (1280 x 720 and 1000 x 1000). *)
Definition start_view (tan : f32 -> f32) (w h : nat) : view :=
  let fov := to_radians (f_of_Z 90) in
  let screen_size := tan (fdiv (fmul fov fhalf) (fdiv f180 f_pi)) in
  let up := axis_y in
  let right := vcross axis_z up in
  let pos := start_pos in
  let center := vadd pos axis_z in
  let aspect_ratio := fdiv (f_of_Z (Z.of_nat w)) (f_of_Z (Z.of_nat h)) in
  let p1 := vadd (vsub center (vscale (scalev screen_size right) aspect_ratio)) (scalev screen_size up) in
  let p2 := vadd (vadd center (vscale (scalev screen_size right) aspect_ratio)) (scalev screen_size up) in
  let p3 := vsub (vsub center (vscale (scalev screen_size right) aspect_ratio)) (scalev screen_size up) in
  let right := vsub p2 p1 in
  let up := vsub p3 p1 in
  View (Camera pos right up p1 (fdiv f1 (f_of_Z (Z.of_nat w))) (fdiv f1 (f_of_Z (Z.of_nat h)))) axis_z aspect_ratio fov.
