(** * Axis-aligned bounding boxes: src/aabb.rs *)
Require Import List ZArith Bool.
From Verif Require Import F32 Vec RayModel.
Import ListNotations.

(** aabb.rs:11-20 [Aabb<i32>]. *)
Record aabb := Bb { bmin : vec3; ex1 : Z; bmax : vec3; ex2 : Z }.

(** aabb.rs:48-57 [Aabb::new] (= [default], [empty], 26-33, 68-71). *)
Definition aabb_new : aabb := Bb (vsplat f1e34) 0 (vsplat (fneg f1e34)) 0.

(** aabb.rs:59-66 [Aabb::full]. *)
Definition aabb_full : aabb := Bb (vsplat (fneg f1e34)) 0 (vsplat f1e34) 0.

(** aabb.rs:73-86 [union_of]: extras from [Default]. *)
Definition union_of (a b : aabb) : aabb :=
  Bb (vmin (bmin a) (bmin b)) 0 (vmax (bmax a) (bmax b)) 0.

(** aabb.rs:88-101 [intersection]. *)
Definition intersection (a b : aabb) : aabb :=
  Bb (vmax (bmin a) (bmin b)) 0 (vmin (bmax a) (bmax b)) 0.

(** aabb.rs:252-261 [grow]. *)
Definition grow (a : aabb) (p : vec3) : aabb :=
  Bb (vmin (bmin a) p) (ex1 a) (vmax (bmax a) p) (ex2 a).

(** aabb.rs:263-273 [grow_bb]. *)
Definition grow_bb (a b : aabb) : aabb :=
  Bb (vmin (bmin a) (bmin b)) (ex1 a) (vmax (bmax a) (bmax b)) (ex2 a).

(** aabb.rs:275-286 [grow_bbs]. *)
Definition grow_bbs (a : aabb) (bs : list aabb) : aabb :=
  let '(mn, mx) := fold_left (fun '(mn, mx) b => (vmin mn (bmin b), vmax mx (bmax b))) bs
                             (bmin a, bmax a) in
  Bb mn (ex1 a) mx (ex2 a).

(** aabb.rs:288-298 [shrink]. *)
Definition shrink (a b : aabb) : aabb :=
  Bb (vmax (bmin a) (bmin b)) (ex1 a) (vmin (bmax a) (bmax b)) (ex2 a).

(** aabb.rs:300-310 [with_offset], 312-321 [offset_by]. *)
Definition with_offset (a : aabb) (delta : f32) : aabb :=
  Bb (vsub (bmin a) (vsplat delta)) (ex1 a) (vadd (bmax a) (vsplat delta)) (ex2 a).

(** aabb.rs:103-111 [from_points]. *)
Definition from_points (ps : list vec3) : aabb :=
  with_offset (fold_left grow ps aabb_new) f1em5.

(** aabb.rs:470-482 the [aabb!] macro. *)
Definition aabb_macro (ps : list vec3) : aabb :=
  with_offset (fold_left grow ps aabb_new) f1em4.

(** aabb.rs:124-131 [union_of_list]. *)
Definition union_of_list (bs : list aabb) : aabb :=
  with_offset (fold_left grow_bb bs aabb_new) f1em4.

(** aabb.rs:141-143 [is_valid]. *)
Definition is_valid (a : aabb) : bool :=
  fle (vx (bmin a)) (vx (bmax a)) && fle (vy (bmin a)) (vy (bmax a)) && fle (vz (bmin a)) (vz (bmax a)).

(** aabb.rs:246-249 [contains] (strict). *)
Definition contains (a : aabb) (p : vec3) : bool :=
  (fgt (vx p) (vx (bmin a)) && flt (vx p) (vx (bmax a))) &&
  (fgt (vy p) (vy (bmin a)) && flt (vy p) (vy (bmax a))) &&
  (fgt (vz p) (vz (bmin a)) && flt (vz p) (vz (bmax a))).

(** aabb.rs:387-390, 348-351, 397-400 [extend], [lengths], [diagonal]. *)
Definition extend (a : aabb) (axis : nat) : f32 := fsub (vget (bmax a) axis) (vget (bmin a) axis).
Definition lengths (a : aabb) : vec3 := vsub (bmax a) (bmin a).
Definition diagonal (a : aabb) : vec3 := vsub (bmax a) (bmin a).

(** aabb.rs:323-327 [volume]. *)
Definition volume (a : aabb) : f32 :=
  let l := lengths a in fmul (fmul (vx l) (vy l)) (vz l).

(** aabb.rs:329-332 [center]. *)
Definition center (a : aabb) : vec3 := vscale (vadd (bmin a) (bmax a)) fhalf.

(** aabb.rs:334-340 [area] (the sum without the factor 2). *)
Definition area (a : aabb) : f32 :=
  let e := lengths a in
  fmax f0 (fadd (fadd (fmul (vx e) (vy e)) (fmul (vx e) (vz e))) (fmul (vy e) (vz e))).

(** aabb.rs:342-346 [half_area]. *)
Definition half_area (a : aabb) : f32 :=
  let d := diagonal a in
  fadd (fmul (fadd (vx d) (vy d)) (vz d)) (fmul (vx d) (vy d)).

(** aabb.rs:353-363 [longest_axis]. *)
Definition longest_axis (a : aabb) : nat :=
  let i := if fgt (extend a 1) (extend a 0) then 1 else 0 in
  if fgt (extend a 2) (extend a i) then 2 else i.

(** aabb.rs:402-405 [longest_extent]. *)
Definition longest_extent (a : aabb) : f32 := vget (diagonal a) (longest_axis a).

(** aabb.rs:365-385 [all_corners]. *)
Definition all_corners (a : aabb) : list vec3 :=
  let l := lengths a in
  let xl := V3 (vx l) f0 f0 in
  let yl := V3 f0 (vy l) f0 in
  let zl := V3 f0 f0 (vz l) in
  let mn := bmin a in
  [mn; bmax a; vadd mn xl; vadd mn yl; vadd mn zl; vadd (vadd mn xl) yl; vadd (vadd mn xl) zl;
   vadd (vadd mn yl) zl].

(** aabb.rs:113-122 [transformed]; [transform] (133-136) assigns its result. *)
Definition transform_point (m : mat4) (c : vec3) : vec3 :=
  let w := mat_mul_vec4 m (V4 (vx c) (vy c) (vz c) f1) in V3 (wx w) (wy w) (wz w).
Definition transformed (a : aabb) (m : mat4) : aabb :=
  from_points (map (transform_point m) (all_corners a)).

(** aabb.rs:458-468 [Index<usize>]: 0 is [min], anything else [max]; the sign
    bit of the ray (0/1) is modelled as a boolean. *)
Definition bb_index (a : aabb) (s : bool) : vec3 := if s then bmax a else bmin a.

(** aabb.rs:145-181 [intersect]. *)
Definition intersect (a : aabb) (r : ray) : option f32 :=
  let o := r_origin r in
  let i := r_inv r in
  let ray_min := fmul (fsub (vx (bb_index a (r_sx r))) (vx o)) (vx i) in
  let ray_max := fmul (fsub (vx (bb_index a (negb (r_sx r)))) (vx o)) (vx i) in
  let y_min := fmul (fsub (vy (bb_index a (r_sy r))) (vy o)) (vy i) in
  let y_max := fmul (fsub (vy (bb_index a (negb (r_sy r)))) (vy o)) (vy i) in
  if fgt ray_min y_max || fgt y_min ray_max then None else
  let ray_min := if fgt y_min ray_min then y_min else ray_min in
  let ray_max := if flt y_max ray_max then y_max else ray_max in
  let z_min := fmul (fsub (vz (bb_index a (r_sz r))) (vz o)) (vz i) in
  let z_max := fmul (fsub (vz (bb_index a (negb (r_sz r)))) (vz o)) (vz i) in
  if fgt ray_min z_max || fgt z_min ray_max then None else
  let ray_max := if flt z_max ray_max then z_max else ray_max in
  if fgt ray_max (r_tmin r) then Some ray_max else None.

(** aabb.rs:183-215 [intersects]. *)
Definition intersects (a : aabb) (r : ray) : bool :=
  let o := r_origin r in
  let i := r_inv r in
  let ray_min := fmul (fsub (vx (bb_index a (r_sx r))) (vx o)) (vx i) in
  let ray_max := fmul (fsub (vx (bb_index a (negb (r_sx r)))) (vx o)) (vx i) in
  let y_min := fmul (fsub (vy (bb_index a (r_sy r))) (vy o)) (vy i) in
  let y_max := fmul (fsub (vy (bb_index a (negb (r_sy r)))) (vy o)) (vy i) in
  if fgt ray_min y_max || fgt y_min ray_max then false else
  let ray_min := if fgt y_min ray_min then y_min else ray_min in
  let ray_max := if flt y_max ray_max then y_max else ray_max in
  let z_min := fmul (fsub (vz (bb_index a (r_sz r))) (vz o)) (vz i) in
  let z_max := fmul (fsub (vz (bb_index a (negb (r_sz r)))) (vz o)) (vz i) in
  if fgt ray_min z_max || fgt z_min ray_max then false else
  let ray_max := if flt z_max ray_max then z_max else ray_max in
  fgt ray_max f0.

(** aabb.rs:217-244 [intersect4]. *)
Definition bb_slabs4 (a : aabb) (p : packet) : vec4 * vec4 :=
  let t1_x := wmul (wsub (wsplat (vx (bmin a))) (p_ox p)) (p_ix p) in
  let t1_y := wmul (wsub (wsplat (vy (bmin a))) (p_oy p)) (p_iy p) in
  let t1_z := wmul (wsub (wsplat (vz (bmin a))) (p_oz p)) (p_iz p) in
  let t2_x := wmul (wsub (wsplat (vx (bmax a))) (p_ox p)) (p_ix p) in
  let t2_y := wmul (wsub (wsplat (vy (bmax a))) (p_oy p)) (p_iy p) in
  let t2_z := wmul (wsub (wsplat (vz (bmax a))) (p_oz p)) (p_iz p) in
  let t_min := wmax (wmin t1_x t2_x) (wmax (wmin t1_y t2_y) (wmin t1_z t2_z)) in
  let t_max := wmin (wmax t1_x t2_x) (wmin (wmax t1_y t2_y) (wmax t1_z t2_z)) in
  (t_min, t_max).
Definition intersect4 (a : aabb) (p : packet) : option vec4 :=
  let '(t_min, t_max) := bb_slabs4 a p in
  let mask := mand (mand (wcmp fgt t_max (wsplat f0)) (wcmp fgt t_max t_min)) (wcmp flt t_min (p_t p)) in
  if many mask then Some t_min else None.
