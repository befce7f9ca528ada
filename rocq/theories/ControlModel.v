(** * The demo's event loop: examples/visualizer.rs:126-232 *)
Require Import List ZArith Bool Arith.
From Verif Require Import F32 Vec CameraModel.
Import ListNotations.

(** The keys the loop looks at; [Other] stands for all others. *)
Inductive key := Escape | Key1 | Key2 | Key3 | Key4 | Key5 | W | S | A | D | E | Q | Up | Down | Left | Right | LShift | Other (n : nat).
Definition key_eq_dec : forall a b : key, {a = b} + {a <> b}.
Proof. decide equality. apply Nat.eq_dec. Defined.

(** visualizer.rs:14-21 [BvhToUse]. *)
Inductive method := UseBvh | UseMbvh | UseAltBvh | UseBvhPacket | UseMbvhPacket.

(** The events: a key changes ([None]: no virtual key code), the window is
    closed or destroyed, the loop has run out of events ([millis] is what the
    timer reads, [rendered] whether presenting the frame succeeds), others. *)
Inductive event := KeyChange (k : option key) (pressed : bool) | CloseRequested | Destroyed | EventsCleared (millis : f32) (rendered : bool) | Ignored.

(** The captured variables; [keys] is a [HashMap], read as a function.
    Simplification: drawing and averaging, which do not touch these, are left
    out (C82, C83). *)
Record controls := Controls { keys : key -> option bool; use : method; eye : view; leaving : bool }.

(** [keys.get(&k).copied().unwrap_or(false)] *)
Definition down (ks : key -> option bool) (k : key) : bool := match ks k with Some b => b | None => false end.
Definition insert (ks : key -> option bool) (k : key) (b : bool) : key -> option bool :=
  fun k' => if key_eq_dec k k' then Some b else ks k'.

(** visualizer.rs:161-179 *)
Definition choose (ks : key -> option bool) (u : method) : method :=
  let u := if down ks Key1 then UseBvh else u in
  let u := if down ks Key2 then UseMbvh else u in
  let u := if down ks Key3 then UseAltBvh else u in
  let u := if down ks Key4 then UseBvhPacket else u in
  if down ks Key5 then UseMbvhPacket else u.

Definition axis_x : vec3 := V3 f1 f0 f0.
Definition axis_y : vec3 := V3 f0 f1 f0.
Definition axis_z : vec3 := V3 f0 f0 f1.

(** visualizer.rs:181-226: [offset] and [view_offset]. *)
Definition offsets (ks : key -> option bool) : vec3 * vec3 :=
  let offset := V3 f0 f0 f0 in
  let view_offset := V3 f0 f0 f0 in
  let offset := if down ks W then vadd offset axis_z else offset in
  let offset := if down ks S then vsub offset axis_z else offset in
  let offset := if down ks A then vadd offset axis_x else offset in
  let offset := if down ks D then vsub offset axis_x else offset in
  let offset := if down ks E then vadd offset axis_y else offset in
  let offset := if down ks Q then vsub offset axis_y else offset in
  let view_offset := if down ks Up then vadd view_offset axis_y else view_offset in
  let view_offset := if down ks Down then vsub view_offset axis_y else view_offset in
  let view_offset := if down ks Left then vadd view_offset axis_x else view_offset in
  let view_offset := if down ks Right then vsub view_offset axis_x else view_offset in
  if down ks LShift then (vscale offset (f_of_Z 10), vscale view_offset (f_of_Z 2)) else (offset, view_offset).

(** [v / k] *)
Definition vover (v : vec3) (k : f32) : vec3 := V3 (fdiv (vx v) k) (fdiv (vy v) k) (fdiv (vz v) k).

(** visualizer.rs:126-365: one call of the closure.  [*cf = Poll] first; the
    whole is [leaving] exactly if [*cf] ends as [Exit]. *)
Definition handle (tan : f32 -> f32) (ev : event) (s : controls) : controls :=
  match ev with
  | CloseRequested | Destroyed => Controls (keys s) (use s) (eye s) true
  | KeyChange (Some k) b => Controls (insert (keys s) k b) (use s) (eye s) false
  | EventsCleared millis rendered =>
      let elapsed := fdiv millis (f_of_Z 100) in
      if down (keys s) Escape then Controls (keys s) (use s) (eye s) true else
      let '(offset, view_offset) := offsets (keys s) in
      let eye' := translate_target tan (translate tan (eye s) (vscale offset elapsed)) (vover (vscale view_offset elapsed) (f_of_Z 10)) in
      Controls (keys s) (choose (keys s) (use s)) eye' (negb rendered)
  | KeyChange None _ | Ignored => Controls (keys s) (use s) (eye s) false
  end.

(** The loop on a history of events, from the start (visualizer.rs:122-126). *)
Definition control_start (v : view) : controls := Controls (fun _ => None) UseBvh v false.
Fixpoint control_run (tan : f32 -> f32) (history : list event) (s : controls) : controls :=
  match history with [] => s | ev :: rest => control_run tan rest (handle tan ev s) end.
