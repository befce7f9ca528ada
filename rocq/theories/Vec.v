(** * Vectors (the glam types used by rtbvh) *)
Require Import List ZArith Bool.
From Verif Require Import F32.
Import ListNotations.

(** glam [Vec3] / [Vec3A] (only the three used lanes). *)
Record vec3 := V3 { vx : f32; vy : f32; vz : f32 }.
(** glam [Vec4] (SSE2). *)
Record vec4 := V4 { wx : f32; wy : f32; wz : f32; ww : f32 }.

Definition vsplat (a : f32) : vec3 := V3 a a a.
Definition vmap2 (f : f32 -> f32 -> f32) (a b : vec3) : vec3 :=
  V3 (f (vx a) (vx b)) (f (vy a) (vy b)) (f (vz a) (vz b)).

(** Componentwise [+ - *], and [f32 / Vec3], [Vec3 * f32]. *)
Definition vadd := vmap2 fadd.
Definition vsub := vmap2 fsub.
Definition vmul := vmap2 fmul.
Definition vscale (a : vec3) (k : f32) : vec3 := V3 (fmul (vx a) k) (fmul (vy a) k) (fmul (vz a) k).
(** [k * v] ([f32 * Vec3]). *)
Definition scalev (k : f32) (a : vec3) : vec3 := V3 (fmul k (vx a)) (fmul k (vy a)) (fmul k (vz a)).
Definition vdivs (k : f32) (a : vec3) : vec3 := V3 (fdiv k (vx a)) (fdiv k (vy a)) (fdiv k (vz a)).
Definition vneg (a : vec3) : vec3 := V3 (fneg (vx a)) (fneg (vy a)) (fneg (vz a)).

(** [Vec3::min], [Vec3::max]: componentwise [f32::min]/[f32::max]. *)
Definition vmin := vmap2 fmin.
Definition vmax := vmap2 fmax.

(** [v[i]]; glam panics for i > 2, which no caller of rtbvh does. *)
Definition vget (v : vec3) (axis : nat) : f32 :=
  match axis with 0 => vx v | 1 => vy v | _ => vz v end.

(** [Vec3::dot], [Vec3::cross] (glam scalar code: left-associated). *)
Definition vdot (a b : vec3) : f32 :=
  fadd (fadd (fmul (vx a) (vx b)) (fmul (vy a) (vy b))) (fmul (vz a) (vz b)).
Definition vcross (a b : vec3) : vec3 :=
  V3 (fsub (fmul (vy a) (vz b)) (fmul (vy b) (vz a)))
     (fsub (fmul (vz a) (vx b)) (fmul (vz b) (vx a)))
     (fsub (fmul (vx a) (vy b)) (fmul (vx b) (vy a))).

(** [Vec3::is_nan]: some lane is NaN. *)
Definition vnan (a : vec3) : bool := fnan (vx a) || fnan (vy a) || fnan (vz a).

(** ** Vec4 *)
Definition wsplat (a : f32) : vec4 := V4 a a a a.
Definition w2 (f : f32 -> f32 -> f32) (a b : vec4) : vec4 :=
  V4 (f (wx a) (wx b)) (f (wy a) (wy b)) (f (wz a) (wz b)) (f (ww a) (ww b)).
Definition wadd := w2 fadd.
Definition wsub := w2 fsub.
Definition wmul := w2 fmul.
Definition wdiv := w2 fdiv.
(** [Vec4::min]/[Vec4::max] are [minps]/[maxps]. *)
Definition wmin := w2 smin.
Definition wmax := w2 smax.
Definition wget (v : vec4) (i : nat) : f32 :=
  match i with 0 => wx v | 1 => wy v | 2 => wz v | _ => ww v end.
Definition wset (v : vec4) (i : nat) (a : f32) : vec4 :=
  match i with
  | 0 => V4 a (wy v) (wz v) (ww v)
  | 1 => V4 (wx v) a (wz v) (ww v)
  | 2 => V4 (wx v) (wy v) a (ww v)
  | _ => V4 (wx v) (wy v) (wz v) a
  end.
Definition wnan (a : vec4) : bool := fnan (wx a) || fnan (wy a) || fnan (wz a) || fnan (ww a).

(** Lane masks ([BVec4A]). *)
Record mask4 := M4 { m0 : bool; m1 : bool; m2 : bool; m3 : bool }.
Definition wcmp (f : f32 -> f32 -> bool) (a b : vec4) : mask4 :=
  M4 (f (wx a) (wx b)) (f (wy a) (wy b)) (f (wz a) (wz b)) (f (ww a) (ww b)).
Definition mand (a b : mask4) : mask4 :=
  M4 (m0 a && m0 b) (m1 a && m1 b) (m2 a && m2 b) (m3 a && m3 b).
Definition mor (a b : mask4) : mask4 :=
  M4 (m0 a || m0 b) (m1 a || m1 b) (m2 a || m2 b) (m3 a || m3 b).
Definition many (a : mask4) : bool := m0 a || m1 a || m2 a || m3 a.
Definition mget (m : mask4) (i : nat) : bool :=
  match i with 0 => m0 m | 1 => m1 m | 2 => m2 m | _ => m3 m end.

(** glam [Mat4]: four columns; [mat * vec4] accumulates left to right. *)
Record mat4 := Mat { mx : vec4; my : vec4; mz : vec4; mw : vec4 }.
Definition mat_mul_vec4 (m : mat4) (v : vec4) : vec4 :=
  wadd (wadd (wadd (wmul (mx m) (wsplat (wx v))) (wmul (my m) (wsplat (wy v))))
             (wmul (mz m) (wsplat (wz v)))) (wmul (mw m) (wsplat (ww v))).
