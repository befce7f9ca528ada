(** * The demo camera: shared/src/lib.rs *)
Require Import List ZArith Bool.
From Flocq Require Import BinarySingleNaN.
From Verif Require Import F32 Vec RayModel AabbModel TriModel.
Import ListNotations.

(** [f32::sqrt] (sqrtss, round to nearest even). *)
Definition fsqrt (a : f32) : f32 := @Bsqrt 24 128 Hp32 Hm32 mode_NE a.

(** glam [Vec3::normalize]: [self * (1.0 / self.length())], where
    [length = self.dot(self).sqrt()].  glam's debug assertion is off by default. *)
Definition vnormalize (v : vec3) : vec3 := vscale v (fdiv f1 (fsqrt (vdot v v))).

(** shared/src/lib.rs:105-116 [CameraView3D]; the fields [direction],
    [aspect_ratio] and [fov], which ray generation does not read, are in [view] below. *)
Record camera := Camera { c_pos : vec3; c_right : vec3; c_up : vec3; c_p1 : vec3;
                          c_inv_width : f32; c_inv_height : f32 }.

(** shared/src/lib.rs:157-164 [CameraView3D::generate_ray]; the [u32] pixel
    coordinates are non-negative integers below 2^32 and [x as f32] rounds to
    nearest even. *)
Definition generate_ray (c : camera) (x y : Z) : ray :=
  let u := fmul (f_of_Z x) (c_inv_width c) in
  let v := fmul (f_of_Z y) (c_inv_height c) in
  let point_on_pixel := vadd (vadd (c_p1 c) (scalev u (c_right c))) (scalev v (c_up c)) in
  let direction := vnormalize (vsub point_on_pixel (c_pos c)) in
  ray_new (c_pos c) direction.

(** shared/src/lib.rs:166-217 [CameraView3D::generate_ray4]; the pixel arrays
    are given lane by lane. *)
Definition generate_ray4 (c : camera) (x0 x1 x2 x3 y0 y1 y2 y3 : Z) : packet :=
  let x := V4 (f_of_Z x0) (f_of_Z x1) (f_of_Z x2) (f_of_Z x3) in
  let y := V4 (f_of_Z y0) (f_of_Z y1) (f_of_Z y2) (f_of_Z y3) in
  let u := wmul x (wsplat (c_inv_width c)) in
  let v := wmul y (wsplat (c_inv_height c)) in
  let p_x := wadd (wadd (wsplat (vx (c_p1 c))) (wmul u (wsplat (vx (c_right c))))) (wmul v (wsplat (vx (c_up c)))) in
  let p_y := wadd (wadd (wsplat (vy (c_p1 c))) (wmul u (wsplat (vy (c_right c))))) (wmul v (wsplat (vy (c_up c)))) in
  let p_z := wadd (wadd (wsplat (vz (c_p1 c))) (wmul u (wsplat (vz (c_right c))))) (wmul v (wsplat (vz (c_up c)))) in
  let direction_x := wsub p_x (wsplat (vx (c_pos c))) in
  let direction_y := wsub p_y (wsplat (vy (c_pos c))) in
  let direction_z := wsub p_z (wsplat (vz (c_pos c))) in
  let length_squared := wmul direction_x direction_x in
  let length_squared := wadd length_squared (wmul direction_y direction_y) in
  let length_squared := wadd length_squared (wmul direction_z direction_z) in
  let length := V4 (fsqrt (wx length_squared)) (fsqrt (wy length_squared))
                   (fsqrt (wz length_squared)) (fsqrt (ww length_squared)) in
  let inv_length := wdiv (wsplat f1) length in
  let direction_x := wmul direction_x inv_length in
  let direction_y := wmul direction_y inv_length in
  let direction_z := wmul direction_z inv_length in
  Packet (wsplat (vx (c_pos c))) (wsplat (vy (c_pos c))) (wsplat (vz (c_pos c)))
         direction_x direction_y direction_z
         (wdiv (wsplat f1) direction_x) (wdiv (wsplat f1) direction_y) (wdiv (wsplat f1) direction_z)
         (wsplat f1e34).

(** ** Moving the camera *)

(** The whole camera: the fields above and [direction], [aspect_ratio], [fov]. *)
Record view := View { v_cam : camera; v_direction : vec3; v_aspect : f32; v_fov : f32 }.

(** [std::f32::consts::PI], [180.0] and [Vec3::Y]. *)
Definition f_pi : f32 := @B754_finite 24 128 false 13176795 (-22) eq_refl.
Definition f180 : f32 := f_of_Z 180.
Definition vec_y : vec3 := V3 f0 f1 f0.

Section Tan.
  (** [f32::tan] is the platform's; nothing is assumed about it. *)
  Variable tan : f32 -> f32.

  (** shared/src/lib.rs:123, 138: the common line. *)
  Definition screen_size (v : view) : f32 := tan (fdiv (fmul (v_fov v) fhalf) (fdiv f180 f_pi)).

  (** shared/src/lib.rs:124-134, 139-151: the common end of [translate_target]
      and [translate], with [pos] and [direction] already updated; [right] is
      the one computed before. *)
  Definition set_screen (v : view) (pos direction right : vec3) : view :=
    let screen_size := screen_size v in
    let up := vec_y in
    let center := vadd pos direction in
    let p1 := vadd (vsub center (vscale (scalev screen_size right) (v_aspect v))) (scalev screen_size up) in
    let p2 := vadd (vadd center (vscale (scalev screen_size right) (v_aspect v))) (scalev screen_size up) in
    let p3 := vsub (vsub center (vscale (scalev screen_size right) (v_aspect v))) (scalev screen_size up) in
    View (Camera pos (vsub p2 p1) (vsub p3 p1) p1 (c_inv_width (v_cam v)) (c_inv_height (v_cam v)))
         direction (v_aspect v) (v_fov v).

  (** shared/src/lib.rs:120-135 [CameraView3D::translate_target]. *)
  Definition translate_target (v : view) (offset : vec3) : view :=
    let direction := vnormalize (vsub (vsub (v_direction v) (scalev (vx offset) (c_right (v_cam v))))
                                      (scalev (vy offset) (c_up (v_cam v)))) in
    set_screen v (c_pos (v_cam v)) direction (vcross direction vec_y).

  (** shared/src/lib.rs:137-152 [CameraView3D::translate]. *)
  Definition translate (v : view) (offset : vec3) : view :=
    let right := vcross (v_direction v) vec_y in
    let pos := vadd (c_pos (v_cam v)) (vadd (vadd (scalev (fneg (vx offset)) right) (scalev (vy offset) vec_y))
                                            (scalev (vz offset) (v_direction v))) in
    set_screen v pos (v_direction v) right.
End Tan.

(** ** The demo triangle *)

(** shared/src/lib.rs:5-13 [Triangle]: three [Vec4] vertices ([normal] and
    [id] are not read by the library). *)
Record demo_tri := DemoTri { dt0 : vec4; dt1 : vec4; dt2 : vec4 }.

(** glam [Vec4::xyz]. *)
Definition xyz (v : vec4) : vec3 := V3 (wx v) (wy v) (wz v).

(** The f32 value of [1.0 / 3.0]. *)
Definition f_third : f32 := fdiv f1 (f_of_Z 3).

(** shared/src/lib.rs:28-30 [Triangle::center]. *)
Definition demo_center (t : demo_tri) : vec3 :=
  vscale (vadd (vadd (xyz (dt0 t)) (xyz (dt1 t))) (xyz (dt2 t))) f_third.

(** shared/src/lib.rs:32-38 [Triangle::aabb]. *)
Definition demo_aabb (t : demo_tri) : aabb :=
  grow (grow (grow aabb_new (xyz (dt0 t))) (xyz (dt1 t))) (xyz (dt2 t)).

(** shared/src/lib.rs:41-53 [vertex0], [vertex1], [vertex2]. *)
Definition demo_vertices (t : demo_tri) : tri := Tri (xyz (dt0 t)) (xyz (dt1 t)) (xyz (dt2 t)).
