(** * Specification of concurrent use of the C interface

    The reference is a library in which every call takes effect in one
    indivisible moment between its start and its return, doing exactly what
    the sequential model [SpecFfi.api_step] says. *)
Require Import List ZArith Bool Arith.
From Verif Require Import Base FfiModel SpecFfi LockModel.
Import ListNotations.
Local Open Scope nat_scope.

(** A thread: outside; in a call that has not taken effect; in a call that has
    and will give its caller [o]. *)
Inductive athread := AIdle | ACalled (a : api) | ADone (o : out).
Inductive aprocess := ALive (st : ffi) (ts : list athread) | ADown.

Inductive astep : aprocess -> list event -> aprocess -> Prop :=
| a_call : forall st ts t a, nth_error ts t = Some AIdle ->
    astep (ALive st ts) [ECall t a] (ALive st (upd ts t (ACalled a)))
| a_effect : forall st ts t a c h st', nth_error ts t = Some (ACalled a) -> api_step st a = Ok (c, h, st') ->
    astep (ALive st ts) [] (ALive st' (upd ts t (ADone (c, h))))
| a_return : forall st ts t o, nth_error ts t = Some (ADone o) ->
    astep (ALive st ts) [EReturn t o] (ALive st (upd ts t AIdle))
| a_crash : forall st ts t a, nth_error ts t = Some (ACalled a) -> (forall x, api_step st a <> Ok x) ->
    astep (ALive st ts) [ECrash t] ADown.

Inductive arun : aprocess -> list event -> aprocess -> Prop :=
| arun_nil : forall s, arun s [] s
| arun_snoc : forall s tr s' e s'', arun s tr s' -> astep s' e s'' -> arun s (tr ++ e) s''.

Definition aprocess_new (n : nat) : aprocess := ALive ffi_new (repeat AIdle n).

(** The calls made in a trace. *)
Definition calls_of (tr : list event) : list api :=
  flat_map (fun e => match e with ECall _ a => [a] | _ => [] end) tr.

(** A step that is not the start of a new call. *)
Definition inner_step (s s' : process) : Prop :=
  exists e, cstep s e s' /\ forall t a, ~ In (ECall t a) e.

(** Every call has returned. *)
Definition quiet (s : process) : Prop :=
  match s with Live _ ts => forall i t, nth_error ts i = Some t -> t = Idle | Down => True end.

(** The least generous lock that [RwLock] may be: a reader also waits while a
    writer is waiting. *)
Definition takes_fairly (ts : list thread) (l : lock) (m : mode) : Prop :=
  can_take ts l m /\ (m = Rd -> forall j a held k, nth_error ts j <> Some (Busy a held (Acquire l Wr k))).

(** Thread [t] is in a call and is not waiting for a lock, even if readers
    wait for waiting writers. *)
Definition unblocked (ts : list thread) (t : nat) : Prop :=
  exists a held p, nth_error ts t = Some (Busy a held p) /\
    match p with Acquire l m _ => takes_fairly ts l m | _ => True end.

(** The last call that thread [t] started. *)
Definition last_call (t : nat) (tr : list event) : option api :=
  fold_left (fun acc e => match e with ECall t' a => if t' =? t then Some a else acc | _ => acc end) tr None.
(** Call [a] of thread [t] has returned [o]. *)
Definition answered (t : nat) (a : api) (o : out) (tr : list event) : Prop :=
  exists tr1 tr2, tr = tr1 ++ EReturn t o :: tr2 /\ last_call t tr1 = Some a.

(** What a traversal function reads through the handle [h] of a binary
    (4-wide) structure, which it does without taking a lock. *)
Definition reads_as (st : ffi) (h : handle) (b : LocbModel.bvh) : Prop :=
  handle_slice (f_nodes st) (h_nodes h) (h_node_count h) = Ok (LocbModel.nodes b) /\
  handle_slice (f_idx st) (h_indices h) (h_index_count h) = Ok (LocbModel.prim_indices b).
Definition reads_as_m (st : ffi) (h : handle) (m : MbvhModel.mbvh) : Prop :=
  handle_slice (f_quads st) (h_nodes h) (h_node_count h) = Ok (MbvhModel.m_nodes m) /\
  handle_slice (f_idx st) (h_indices h) (h_index_count h) = Ok (MbvhModel.mb_indices m).

(** ** Data races *)

(** Two ways to make the same access came out the same for its caller. *)
Definition same_outcome {R : Type} (x y : res (R * ffi)) : Prop :=
  match x, y with
  | Ok (r, _), Ok (r', _) => r = r'
  | Panic, Panic | UB, UB | OutOfFuel, OutOfFuel => True
  | _, _ => False
  end.
(** Every vector that exists in [st] is the same in [st1] and [st2]. *)
Definition same_vectors (st st1 st2 : ffi) : Prop :=
  (forall x, x < length (f_nodes st) -> nth_error (f_nodes st1) x = nth_error (f_nodes st2) x) /\
  (forall x, x < length (f_idx st) -> nth_error (f_idx st1) x = nth_error (f_idx st2) x) /\
  (forall x, x < length (f_quads st) -> nth_error (f_quads st1) x = nth_error (f_quads st2) x).
(** Two accesses do not conflict: neither can tell whether the other has
    happened, and the order does not matter to the vectors (a new vector's
    address may depend on it). *)
Definition no_conflict {R1 R2 : Type} (st : ffi) (f1 : ffi -> res (R1 * ffi)) (f2 : ffi -> res (R2 * ffi)) : Prop :=
  (forall r1 st1, f1 st = Ok (r1, st1) -> same_outcome (f2 st) (f2 st1)) /\
  (forall r2 st2, f2 st = Ok (r2, st2) -> same_outcome (f1 st) (f1 st2)) /\
  (forall r1 st1 r2 st2 x12 st12 x21 st21, f1 st = Ok (r1, st1) -> f2 st = Ok (r2, st2) ->
     f2 st1 = Ok (x12, st12) -> f1 st2 = Ok (x21, st21) -> same_vectors st st12 st21).
