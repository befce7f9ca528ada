(** * The demo renderer: examples/visualizer.rs and shared/src/lib.rs *)
Require Import List ZArith Bool Arith.
From Verif Require Import F32 Vec RayModel Base TriModel CameraModel.
Import ListNotations.

(** shared/src/lib.rs:21, the [normal] computed by [Triangle::new]. *)
Definition tri_normal (tr : tri) : vec3 :=
  vnormalize (vcross (vsub (tv1 tr) (tv0 tr)) (vsub (tv2 tr) (tv0 tr))).

(** [x as u8] for a float. *)
Definition f_as_u8 (x : f32) : Z := f_to_Z_sat 0 255 x.

(** visualizer.rs:340-350 (and 287-300 for one lane): the four bytes of a
    pixel.  glam's [clamp(lo, hi)] is [self.max(lo).min(hi)].  The remembered
    triangle is given by its position in the slice of triangles. *)
Definition pixel_bytes (tris : list tri) (found : option nat) : list Z :=
  match found with
  | Some p =>
      match nth_error tris p with
      | Some tr =>
          let normal := vmul (vmin (vmax (tri_normal tr) (vsplat f0)) (vsplat f1)) (vsplat (f_of_Z 255)) in
          [f_as_u8 (vx normal); f_as_u8 (vy normal); f_as_u8 (vz normal); 255%Z]
      | None => [0; 0; 0; 0]%Z
      end
  | None => [0; 0; 0; 0]%Z
  end.

(** rayon's [par_chunks_exact_mut(size).enumerate().for_each(f)]: [f i] is what
    the closure writes into chunk [i]; a trailing rest shorter than [size] is
    left alone.  The chunks are disjoint slices, so an execution is given by
    the order in which the chunks are finished (simplification: one chunk's
    bytes are written in one step). *)
Definition write_chunk (size : nat) (frame : list Z) (i : nat) (bytes : list Z) : list Z :=
  firstn (size * i) frame ++ bytes ++ skipn (size * i + size) frame.
Fixpoint for_chunks (size : nat) (f : nat -> res (list Z)) (order : list nat) (frame : list Z) : res (list Z) :=
  match order with
  | [] => Ok frame
  | i :: order' => do bytes <- f i; for_chunks size f order' (write_chunk size frame i bytes)
  end.

(** visualizer.rs:301-352: one pixel per chunk of 4 bytes.  [trace] is the
    traversal loop; [w] is [WIDTH] (39). *)
Definition draw_pixel (c : camera) (w : nat) (tris : list tri) (trace : ray -> res (option nat)) (i : nat) : res (list Z) :=
  let x := (as_u32 (Z.of_nat i) mod as_u32 (Z.of_nat w))%Z in
  let y := (as_u32 (Z.of_nat i) / as_u32 (Z.of_nat w))%Z in
  do found <- trace (generate_ray c x y);
  Ok (pixel_bytes tris found).

(** visualizer.rs:237-300: four pixels per chunk of 16 bytes, [i *= 4] first. *)
Definition draw_four (c : camera) (w : nat) (tris : list tri) (trace : packet -> res (nat -> option nat)) (i : nat) : res (list Z) :=
  let i := i * 4 in
  let x := (as_u32 (Z.of_nat i) mod as_u32 (Z.of_nat w))%Z in
  let y := (as_u32 (Z.of_nat i) / as_u32 (Z.of_nat w))%Z in
  do triangles <- trace (generate_ray4 c x (x + 1) (x + 2) (x + 3) y y y y);
  Ok (flat_map (fun k => pixel_bytes tris (triangles k)) [0; 1; 2; 3]).

(** ** [Averager<f32>], visualizer.rs:366-437 *)
Record averager := Averager { a_values : list f32; a_capacity : nat; a_index : nat; a_looped : bool }.

(** 388-395 [with_capacity]; [new] (379-386) is [with_capacity(100)]. *)
Definition avg_new (capacity : nat) : averager := Averager (repeat f0 capacity) capacity 0 false.

(** 398-401: the values move one place down. *)
Fixpoint shift_down (k i : nat) (values : list f32) : res (list f32) :=
  match k with
  | O => Ok values
  | S k' =>
      match nth_error values (i + 1) with
      | Some v => if i <? length values then shift_down k' (i + 1) (upd values i v) else Panic
      | None => Panic
      end
  end.

(** 397-413 [add_sample]; [capacity - 1] underflows for capacity 0 (overflow
    checks on) or wraps to [usize::MAX] and then the write is out of bounds:
    a panic both ways. *)
Definition add_sample (a : averager) (sample : f32) : res averager :=
  match a_capacity a with
  | O => Panic
  | S cap1 =>
      if a_looped a then
        do values <- shift_down cap1 0 (a_values a);
        if cap1 <? length values then Ok (Averager (upd values cap1 sample) (a_capacity a) (a_index a) true) else Panic
      else
        let looped := cap1 <=? a_index a in
        if a_index a <? length (a_values a)
        then Ok (Averager (upd (a_values a) (a_index a) sample) (a_capacity a) (a_index a + 1) looped)
        else Panic
  end.

(** 415-426 [get_average]. *)
Fixpoint sum_upto (range i : nat) (values : list f32) (avg : f32) : res f32 :=
  match range with
  | O => Ok avg
  | S k => match nth_error values i with
           | Some v => sum_upto k (i + 1) values (fadd avg v)
           | None => Panic
           end
  end.
Definition get_average (a : averager) : res f32 :=
  let range := if a_looped a then a_capacity a else a_index a in
  do avg <- sum_upto range 0 (a_values a) f0;
  Ok (fmul avg (fdiv f1 (f_of_Z (Z.of_nat range)))).

(** 428-430 [data]. *)
Definition avg_data (a : averager) : res (list f32) :=
  let e := Nat.min (a_index a) (a_capacity a) in
  if e <=? length (a_values a) then Ok (firstn e (a_values a)) else Panic.

(** A history of samples. *)
Fixpoint add_samples (a : averager) (samples : list f32) : res averager :=
  match samples with
  | [] => Ok a
  | s :: rest => do a' <- add_sample a s; add_samples a' rest
  end.
