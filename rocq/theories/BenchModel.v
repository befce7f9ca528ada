(** * The benchmark: examples/benchmark.rs, and the timer of shared/src/lib.rs *)
Require Import List ZArith Bool Arith.
From Flocq Require Import BinarySingleNaN.
From Verif Require Import F32 Vec RayModel Base TriModel CameraModel.
Import ListNotations.

(** benchmark.rs:123-130: the rays, frame by frame, row by row ([frames], [w],
    [h] are FRAMES, WIDTH, HEIGHT). *)
Definition bench_rays (c : camera) (frames w h : nat) : list ray :=
  flat_map (fun _ => flat_map (fun y => map (fun x => generate_ray c (Z.of_nat x) (Z.of_nat y)) (seq 0 w)) (seq 0 h)) (seq 0 frames).

(** benchmark.rs:132-138: the packets; [(0..WIDTH).step_by(4)] has
    ceil(WIDTH / 4) values. *)
Definition bench_packets (c : camera) (frames w h : nat) : list packet :=
  flat_map (fun _ => flat_map (fun y => map (fun k =>
      let x := Z.of_nat (4 * k) in let y := Z.of_nat y in
      generate_ray4 c x (x + 1) (x + 2) (x + 3) y y y y) (seq 0 ((w + 3) / 4))) (seq 0 h)) (seq 0 frames).

Section Loops.
  (** [trace r] is what the inner loop over the traversal makes of the ray [r]
      it holds by mutable reference (packets: the same with packets). *)
  Context {A : Type} (trace : A -> res A).

  (** benchmark.rs:33-37, 66-70: the single-threaded loop. *)
  Fixpoint each_in_turn (l : list A) : res (list A) :=
    match l with
    | [] => Ok []
    | r :: l' => do r' <- trace r; do rest <- each_in_turn l'; Ok (r' :: rest)
    end.

  (** benchmark.rs:25-32, 58-65: [par_chunks_mut(size).for_each]: every chunk is
      a sequential loop, the chunks run concurrently.  A state is the slice of
      rays and, for every chunk, the number of its rays done; one step finishes
      one ray of one chunk.  (Simplification: one ray's traversal is one step; it
      touches no other ray.) *)
  Definition par_state : Type := list A * (nat -> nat).
  Definition chunk_len (size n c : nat) : nat := Nat.min size (n - size * c).
  Inductive par_step (size : nat) : par_state -> par_state -> Prop :=
  | par_ray : forall l done c r r',
      done c < chunk_len size (length l) c ->
      nth_error l (size * c + done c) = Some r -> trace r = Ok r' ->
      par_step size (l, done) (upd l (size * c + done c) r', fun k => if k =? c then S (done c) else done k).
  Inductive par_run (size : nat) : nat -> par_state -> par_state -> Prop :=
  | par_here : forall s, par_run size 0 s s
  | par_next : forall k s s' s'', par_run size k s s' -> par_step size s' s'' -> par_run size (S k) s s''.
  Definition par_start (l : list A) : par_state := (l, fun _ => 0).
End Loops.

(** shared/src/lib.rs:90-95 [Timer::elapsed_in_millis], for an elapsed time of
    [secs] whole seconds and [micros] microseconds; [checked]: overflow checks
    are on. *)
Definition elapsed_in_millis (checked : bool) (secs micros : Z) : res f32 :=
  let secs := (secs mod 2 ^ 32)%Z in
  if (checked && (2 ^ 32 <=? secs * 1000)%Z)%bool then Panic
  else Ok (fadd (f_of_Z ((secs * 1000) mod 2 ^ 32)%Z) (fdiv (f_of_Z micros) (f_of_Z 1000))).
