(** * src/utils.rs and src/morton.rs *)
Require Import List ZArith Bool Arith NArith.
From Verif Require Import F32 Vec Base AabbModel.
Import ListNotations.

(** utils.rs:12-22 [round_up_log2]; the loop [while (1 << offset) < bits]
    runs with fuel 32 ([1 << offset] overflows a u32 after that, which no
    caller reaches). *)
Fixpoint log2_loop (fuel : nat) (bits offset : N) : N :=
  match fuel with
  | O => offset
  | S k => if N.ltb (N.shiftl 1 offset) bits then log2_loop k bits (offset + 1) else offset
  end.
Definition round_up_log2 (bits offset : N) : N :=
  if N.eqb bits 0 then offset else log2_loop 32 bits offset.

(** utils.rs:42-57 [prefix_sum] for an unsigned [T] without overflow.  The
    caller may pass the same memory as [first] and [output] (locb.rs:169-176);
    position [i] is read before it is written, so the model takes both. *)
Fixpoint prefix_loop (i count : nat) (first output : list nat) (sum : nat) : res (list nat * nat) :=
  match count with
  | O => Ok (output, sum)
  | S k =>
      do v <- get first i;
      let sum := sum + v in
      do output <- set output i sum;
      prefix_loop (S i) k first output sum
  end.
Definition prefix_sum (first : list nat) (count : nat) (output : list nat) : res (list nat * nat) :=
  if count =? 0 then (do v <- get first 0; Ok (output, v)) else prefix_loop 0 count first output 0.

(** utils.rs:59-72 [move_backward]: raw pointers into one array, as indices. *)
Fixpoint move_backward {T} (fuel : nat) (a : list T) (first last d_last : nat) : res (list T * nat) :=
  match fuel with
  | O => OutOfFuel
  | S k =>
      if first =? last then Ok (a, d_last) else
      match d_last, last with
      | S d, S l =>
          do v <- get_unchecked a l;
          do a <- set_unchecked a d v;
          move_backward k a first l d
      | _, _ => UB
      end
  end.

(** utils.rs:76-96 [partition] over [range = start..start+len]. *)
Fixpoint partition_loop {T} (check : T -> bool) (i len : nat) (a : list T) (count : nat) : res (list T * nat) :=
  match len with
  | O => Ok (a, count)
  | S k =>
      do v <- get a i;
      if check v then do a <- swap a i count; partition_loop check (S i) k a (S count)
      else partition_loop check (S i) k a count
  end.
Definition partition {T} (a : list T) (start stop : nat) (check : T -> bool) : res (list T * nat) :=
  partition_loop check start (stop - start) a 0.

(** utils.rs:24-40 [shuffle_prims] (both variants; the parallel one collects an
    indexed iterator, so the order is that of [indices]). *)
Fixpoint shuffle_prims {T} (prims : list T) (indices : list nat) : res (list T) :=
  match indices with
  | [] => Ok []
  | i :: is => do v <- get prims i; do r <- shuffle_prims prims is; Ok (v :: r)
  end.

(** ** morton.rs *)

(** 64-bit words. *)
Definition W64 : N := 18446744073709551616.
Definition shl64 (x n : N) : N := (N.shiftl x n) mod W64.
Definition not64 (x : N) : N := N.lxor x (W64 - 1).

(** morton.rs:10-25 [morton_split] on a 64-bit target ([usize] is 64 bits). *)
Fixpoint split_loop (i : nat) (x mask n : N) : N :=
  match i with
  | O => x
  | S k =>
      let mask := N.land (N.lor mask (shl64 mask n)) (not64 (shl64 mask (n / 2))) in
      let x := N.land (N.lor x (shl64 x n)) mask in
      split_loop k x mask (N.shiftr n 1)
  end.
Definition morton_split (int : N) : N :=
  let log_bits := round_up_log2 32 0 in
  (split_loop (N.to_nat log_bits) int (W64 - 1) (N.shiftl 1 log_bits)) mod 4294967296.

(** morton.rs:48-50 [morton_encode]; u32 shifts drop the high bits. *)
Definition morton_encode (x y z : N) : N :=
  N.lor (N.lor (morton_split x) ((N.shiftl (morton_split y) 1) mod 4294967296))
        ((N.shiftl (morton_split z) 2) mod 4294967296).

(** morton.rs:27-31, 34-46 [MortonEncoder::new]. *)
Record encoder := Enc { world_to_grid : vec3; grid_offset : vec3; grid_dim : Z }.
Definition MAX_GRID_DIM : Z := 1024.
Definition encoder_new (b : aabb) (dim : Z) : encoder :=
  let w := scalev (f_of_Z dim) (vdivs f1 (diagonal b)) in
  Enc w (vmul (vneg (bmin b)) w) dim.

(** morton.rs:52-61 [encode]. *)
Definition grid_coord (e : encoder) (g : f32) : N :=
  Z.to_N (Z.min (grid_dim e - 1) (Z.max (f_as_i32 g) 0)).
Definition encode (e : encoder) (p : vec3) : N :=
  let g := vadd (vmul p (world_to_grid e)) (grid_offset e) in
  morton_encode (grid_coord e (vx g)) (grid_coord e (vy g)) (grid_coord e (vz g)).

(** Stable sort of indices by key: what [par_sort_by] / [sort_by] (both stable)
    compute; insertion sort, inserting after equal keys. *)
Fixpoint insert_by (key : nat -> N) (x : nat) (l : list nat) : list nat :=
  match l with
  | [] => [x]
  | y :: t => if N.ltb (key x) (key y) then x :: l else y :: insert_by key x t
  end.
Definition stable_sort_by (key : nat -> N) (l : list nat) : list nat :=
  fold_left (fun acc x => insert_by key x acc) l [].

(** morton.rs:63-102 [get_sorted_indices]; [centers] are the primitives'
    [center()]s. *)
Definition get_sorted_indices (e : encoder) (centers : list vec3) : list nat * list N :=
  let codes := map (encode e) centers in
  (stable_sort_by (fun i => nth i codes 0%N) (seq 0 (length centers)), codes).
