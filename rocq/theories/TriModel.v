(** * Triangles: the provided methods of [SpatialTriangle],
    src/builders/spatial_sah.rs:80-245 *)
Require Import List ZArith Bool.
From Verif Require Import F32 Vec RayModel AabbModel Base.
Import ListNotations.

(** spatial_sah.rs:81-83: what a triangle offers ([vertex0..2]). *)
Record tri := Tri { tv0 : vec3; tv1 : vec3; tv2 : vec3 }.

(** ** split *)

(** spatial_sah.rs:91-94 [split_edge]: [Vec3 / Vec3] and [Vec3 * Vec3] are
    componentwise; the code multiplies by [a] where a point on the edge would
    need [a + ...]. *)
Definition split_edge (axis : nat) (position : f32) (a b : vec3) : vec3 :=
  let t := vmap2 fdiv (vsub (vsplat position) (vsplat (vget a axis)))
                      (vsplat (fsub (vget b axis) (vget a axis))) in
  vmul (vmul a t) (vsub b a).

(** spatial_sah.rs:100-106 [grow_if]. *)
Definition grow_if (q : bool) (pos : vec3) (lr : aabb * aabb) : aabb * aabb :=
  if q then (grow (fst lr) pos, snd lr) else (fst lr, grow (snd lr) pos).

(** spatial_sah.rs:112-126: an edge that crosses the plane adds its split
    point to both sides. *)
Definition split_if (q : bool) (m : vec3) (lr : aabb * aabb) : aabb * aabb :=
  if q then (grow (fst lr) m, grow (snd lr) m) else lr.

(** spatial_sah.rs:85-129 [split]. *)
Definition tri_split (t : tri) (axis : nat) (position : f32) : aabb * aabb :=
  let q0 := fle (vget (tv0 t) axis) position in
  let q1 := fle (vget (tv1 t) axis) position in
  let q2 := fle (vget (tv2 t) axis) position in
  let lr := (aabb_new, aabb_new) in
  let lr := grow_if q0 (tv0 t) lr in
  let lr := grow_if q1 (tv1 t) lr in
  let lr := grow_if q2 (tv2 t) lr in
  let lr := split_if (xorb q0 q1) (split_edge axis position (tv0 t) (tv1 t)) lr in
  let lr := split_if (xorb q1 q2) (split_edge axis position (tv1 t) (tv2 t)) lr in
  split_if (xorb q2 q0) (split_edge axis position (tv2 t) (tv0 t)) lr.

(** ** intersect *)

(** The arithmetic of [intersect] over any type of scalars, so that the f32
    program and its exact-real counterpart are one text. *)
Record scalars (T : Type) := Scalars {
  s_add : T -> T -> T; s_sub : T -> T -> T; s_mul : T -> T -> T; s_div : T -> T -> T;
  s_lt : T -> T -> bool; s_le : T -> T -> bool;
  s_zero : T; s_one : T; s_eps : T; s_neps : T }.
Arguments s_add {T}. Arguments s_sub {T}. Arguments s_mul {T}. Arguments s_div {T}.
Arguments s_lt {T}. Arguments s_le {T}.
Arguments s_zero {T}. Arguments s_one {T}. Arguments s_eps {T}. Arguments s_neps {T}.

(** Vectors over [T] as triples, [cross] and [dot] as in glam. *)
Definition cross3 {T} (S : scalars T) (a b : T * T * T) : T * T * T :=
  let '(ax, ay, az) := a in let '(bx, by_, bz) := b in
  (s_sub S (s_mul S ay bz) (s_mul S by_ az),
   s_sub S (s_mul S az bx) (s_mul S bz ax),
   s_sub S (s_mul S ax by_) (s_mul S bx ay)).
Definition dot3 {T} (S : scalars T) (a b : T * T * T) : T :=
  let '(ax, ay, az) := a in let '(bx, by_, bz) := b in
  s_add S (s_add S (s_mul S ax bx) (s_mul S ay by_)) (s_mul S az bz).
Definition sub3 {T} (S : scalars T) (a b : T * T * T) : T * T * T :=
  let '(ax, ay, az) := a in let '(bx, by_, bz) := b in
  (s_sub S ax bx, s_sub S ay by_, s_sub S az bz).

(** spatial_sah.rs:132-163: the new value of [ray.t], if the test succeeds. *)
Definition tri_test {T} (S : scalars T) (v0 v1 v2 origin direction : T * T * T) (t_min t_max : T) : option T :=
  let edge1 := sub3 S v1 v0 in
  let edge2 := sub3 S v2 v0 in
  let h := cross3 S direction edge2 in
  let a := dot3 S edge1 h in
  if s_lt S (s_neps S) a && s_lt S a (s_eps S) then None
  else
    let f := s_div S (s_one S) a in
    let s := sub3 S origin v0 in
    let u := s_mul S f (dot3 S s h) in
    if negb (s_le S (s_zero S) u && s_le S u (s_one S)) then None
    else
      let q := cross3 S s edge1 in
      let v := s_mul S f (dot3 S direction q) in
      if s_lt S v (s_zero S) || s_lt S (s_one S) (s_add S u v) then None
      else
        let t := s_mul S f (dot3 S edge2 q) in
        if s_lt S t_min t && s_lt S t t_max then Some t else None.

(** The f32 instance ([1e-5] and [-1e-5]). *)
Definition f32_scalars : scalars f32 :=
  Scalars f32 fadd fsub fmul fdiv flt fle f0 f1 f1em5 (fneg f1em5).
Definition trip (v : vec3) : f32 * f32 * f32 := (vx v, vy v, vz v).

(** spatial_sah.rs:132-163 [SpatialTriangle::intersect]. *)
Definition tri_intersect (t : tri) (r : ray) : bool * ray :=
  match tri_test f32_scalars (trip (tv0 t)) (trip (tv1 t)) (trip (tv2 t)) (trip (r_origin r)) (trip (r_dir r))
                 (r_tmin r) (r_t r) with
  | Some t => (true, ray_set_t r t)
  | None => (false, r)
  end.

(** The same with glam's [Vec3] operations spelled out as in the source, line
    by line (proved equal to [tri_intersect] in TriProofs.v). *)
Definition tri_intersect_src (tr : tri) (r : ray) : bool * ray :=
  let v0 := tv0 tr in let v1 := tv1 tr in let v2 := tv2 tr in
  let edge1 := vsub v1 v0 in
  let edge2 := vsub v2 v0 in
  let h_val := vcross (r_dir r) edge2 in
  let a_val := vdot edge1 h_val in
  if fgt a_val (fneg f1em5) && flt a_val f1em5 then (false, r) else
  let f_val := fdiv f1 a_val in
  let s_val := vsub (r_origin r) v0 in
  let u_val := fmul f_val (vdot s_val h_val) in
  if negb (fle f0 u_val && fle u_val f1) then (false, r) else
  let q_val := vcross s_val edge1 in
  let v_val := fmul f_val (vdot (r_dir r) q_val) in
  if flt v_val f0 || fgt (fadd u_val v_val) f1 then (false, r) else
  let t := fmul f_val (vdot edge2 q_val) in
  if fgt t (r_tmin r) && flt t (r_t r) then (true, ray_set_t r t) else (false, r).

(** ** intersect4 *)

(** [Vec4::select(mask, a, b)]. *)
Definition wselect (m : mask4) (a b : vec4) : vec4 :=
  V4 (if m0 m then wx a else wx b) (if m1 m then wy a else wy b)
     (if m2 m then wz a else wz b) (if m3 m then ww a else ww b).
Definition wneg (a : vec4) : vec4 := V4 (fneg (wx a)) (fneg (wy a)) (fneg (wz a)) (fneg (ww a)).

(** spatial_sah.rs:166-244 [SpatialTriangle::intersect4]: the packet after
    the call and the returned value ([[bool; 4]] as a mask). *)
Definition tri_intersect4 (tr : tri) (p : packet) (t_min : vec4) : option mask4 * packet :=
  let zero := wsplat f0 in
  let one := wsplat f1 in
  let p0_x := wsplat (vx (tv0 tr)) in let p0_y := wsplat (vy (tv0 tr)) in let p0_z := wsplat (vz (tv0 tr)) in
  let p1_x := wsplat (vx (tv1 tr)) in let p1_y := wsplat (vy (tv1 tr)) in let p1_z := wsplat (vz (tv1 tr)) in
  let p2_x := wsplat (vx (tv2 tr)) in let p2_y := wsplat (vy (tv2 tr)) in let p2_z := wsplat (vz (tv2 tr)) in
  let edge1_x := wsub p1_x p0_x in let edge1_y := wsub p1_y p0_y in let edge1_z := wsub p1_z p0_z in
  let edge2_x := wsub p2_x p0_x in let edge2_y := wsub p2_y p0_y in let edge2_z := wsub p2_z p0_z in
  let h_x := wsub (wmul (p_dy p) edge2_z) (wmul (p_dz p) edge2_y) in
  let h_y := wsub (wmul (p_dz p) edge2_x) (wmul (p_dx p) edge2_z) in
  let h_z := wsub (wmul (p_dx p) edge2_y) (wmul (p_dy p) edge2_x) in
  let a := wadd (wadd (wmul edge1_x h_x) (wmul edge1_y h_y)) (wmul edge1_z h_z) in
  let epsilon := wsplat f1em6 in
  let mask := mor (wcmp fle a (wneg epsilon)) (wcmp fge a epsilon) in
  if negb (many mask) then (None, p) else
  let f := wdiv one a in
  let s_x := wsub (p_ox p) p0_x in let s_y := wsub (p_oy p) p0_y in let s_z := wsub (p_oz p) p0_z in
  let u := wmul f (wadd (wadd (wmul s_x h_x) (wmul s_y h_y)) (wmul s_z h_z)) in
  let mask := mand mask (mand (wcmp fge u zero) (wcmp fle u one)) in
  if negb (many mask) then (None, p) else
  let q_x := wsub (wmul s_y edge1_z) (wmul s_z edge1_y) in
  let q_y := wsub (wmul s_z edge1_x) (wmul s_x edge1_z) in
  let q_z := wsub (wmul s_x edge1_y) (wmul s_y edge1_x) in
  let v := wmul f (wadd (wadd (wmul (p_dx p) q_x) (wmul (p_dy p) q_y)) (wmul (p_dz p) q_z)) in
  let mask := mand mask (mand (wcmp fge v zero) (wcmp fle (wadd u v) one)) in
  if negb (many mask) then (None, p) else
  let t_value := wmul f (wadd (wadd (wmul edge2_x q_x) (wmul edge2_y q_y)) (wmul edge2_z q_z)) in
  let mask := mand mask (mand (wcmp fge t_value t_min) (wcmp flt t_value (p_t p))) in
  if negb (many mask) then (None, p) else
  (Some mask, packet_set_t p (wselect mask t_value (p_t p))).
