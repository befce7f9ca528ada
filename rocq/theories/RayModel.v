(** * Rays: src/ray.rs *)
Require Import List ZArith Bool.
From Verif Require Import F32 Vec Base.
Import ListNotations.

(** ray.rs:6-16  [Ray]; signs as booleans ([(d < 0.0) as u8]). *)
Record ray := Ray { r_origin : vec3; r_tmin : f32; r_dir : vec3; r_t : f32;
                    r_inv : vec3; r_sx : bool; r_sy : bool; r_sz : bool }.

(** ray.rs:163-164 [DEFAULT_T_MIN], [DEFAULT_T_MAX]. *)
Definition DEFAULT_T_MIN : f32 := f1em4.
Definition DEFAULT_T_MAX : f32 := f1e34.

(** ray.rs:166-182 [Ray::new]. *)
Definition ray_new (origin direction : vec3) : ray :=
  Ray origin DEFAULT_T_MIN direction DEFAULT_T_MAX (vdivs f1 direction)
      (flt (vx direction) f0) (flt (vy direction) f0) (flt (vz direction) f0).

(** ray.rs:18-36 [From<(Vec3, Vec3)> for Ray]. *)
Definition ray_from (vectors : vec3 * vec3) : ray :=
  Ray (fst vectors) f1em4 (snd vectors) f1e34 (vdivs f1 (snd vectors))
      (flt (vx (snd vectors)) f0) (flt (vy (snd vectors)) f0) (flt (vz (snd vectors)) f0).

(** The client's [ray.t = t] (the field is public). *)
Definition ray_set_t (r : ray) (t : f32) : ray :=
  Ray (r_origin r) (r_tmin r) (r_dir r) t (r_inv r) (r_sx r) (r_sy r) (r_sz r).

(** ray.rs:231-234 [Ray::reset]. *)
Definition ray_reset (r : ray) : ray := ray_set_t r DEFAULT_T_MAX.

(** ray.rs:184-204 [Ray::reflect]. *)
Definition ray_reflect (r : ray) (hit_point n : vec3) (epsilon : f32) : ray :=
  let tmp := vscale (vscale n (vdot n (r_dir r))) f2 in
  let direction := vsub (r_dir r) tmp in
  Ray (vadd hit_point (vscale direction epsilon)) DEFAULT_T_MIN direction DEFAULT_T_MAX
      (vdivs f1 direction)
      (flt (vx direction) f0) (flt (vy direction) f0) (flt (vz direction) f0).

(** ray.rs:206-209 [Ray::is_valid]. *)
Definition ray_is_valid (r : ray) : bool := flt (r_t r) f1e33.

(** ray.rs:211-214 [Ray::get_point_at]. *)
Definition ray_point_at (r : ray) (t : f32) : vec3 := vadd (r_origin r) (scalev t (r_dir r)).

(** ray.rs:44-61 [RayPacket4]. *)
Record packet := Packet { p_ox : vec4; p_oy : vec4; p_oz : vec4;
                          p_dx : vec4; p_dy : vec4; p_dz : vec4;
                          p_ix : vec4; p_iy : vec4; p_iz : vec4; p_t : vec4 }.

(** ray.rs:64-107 [RayPacket4::new]: transposes four origins and directions
    (the fourth component of each is ignored). *)
Definition packet_new (o0 o1 o2 o3 d0 d1 d2 d3 : vec4) : packet :=
  Packet (V4 (wx o0) (wx o1) (wx o2) (wx o3))
         (V4 (wy o0) (wy o1) (wy o2) (wy o3))
         (V4 (wz o0) (wz o1) (wz o2) (wz o3))
         (V4 (wx d0) (wx d1) (wx d2) (wx d3))
         (V4 (wy d0) (wy d1) (wy d2) (wy d3))
         (V4 (wz d0) (wz d1) (wz d2) (wz d3))
         (V4 (fdiv f1 (wx d0)) (fdiv f1 (wx d1)) (fdiv f1 (wx d2)) (fdiv f1 (wx d3)))
         (V4 (fdiv f1 (wy d0)) (fdiv f1 (wy d1)) (fdiv f1 (wy d2)) (fdiv f1 (wy d3)))
         (V4 (fdiv f1 (wz d0)) (fdiv f1 (wz d1)) (fdiv f1 (wz d2)) (fdiv f1 (wz d3)))
         (wsplat f1e34).

(** ray.rs:117-148 [RayPacket4::ray]: the Vec4 indexing panics for index > 3
    (the [debug_assert!(index <= 4)] is weaker than that). *)
Definition packet_ray (p : packet) (index : nat) : res ray :=
  if index <? 4 then
    let origin := V3 (wget (p_ox p) index) (wget (p_oy p) index) (wget (p_oz p) index) in
    let direction := V3 (wget (p_dx p) index) (wget (p_dy p) index) (wget (p_dz p) index) in
    Ok (Ray origin f1em4 direction (wget (p_t p) index) (vdivs f1 direction)
            (flt (vx direction) f0) (flt (vy direction) f0) (flt (vz direction) f0))
  else Panic.

(** ray.rs:155-158 [RayPacket4::reset]. *)
Definition packet_set_t (p : packet) (t : vec4) : packet :=
  Packet (p_ox p) (p_oy p) (p_oz p) (p_dx p) (p_dy p) (p_dz p) (p_ix p) (p_iy p) (p_iz p) t.
Definition packet_reset (p : packet) : packet := packet_set_t p (wsplat DEFAULT_T_MAX).
