(** * Specification of the C interface

    The library's handle table as seen by a caller: a growing list of
    structures; and what a [for] loop with [break] does.  Independent of how
    FfiModel.v represents memory. *)
Require Import List ZArith Bool.
From Verif Require Import F32 Vec AabbModel Base NodeModel LocbModel MbvhModel BvhModel FfiModel.
Import ListNotations.

(** Calls that change the table. *)
Inductive op :=
| OStore (b : bvh)
| OStoreM (m : mbvh)
| ORefit (id : Z) (new_aabbs : list aabb)
| OFree (id : Z)
| OFreeM (id : Z).

(** The model's state after a call.  A refit that panics does not return;
    nothing is said about it. *)
Definition step (st : ffi) (o : op) : option ffi :=
  match o with
  | OStore b => Some (snd (store st b))
  | OStoreM m => Some (snd (store_mbvh st m))
  | ORefit id l =>
      match manager_get st id with
      | Ok (Some b) => match BvhModel.refit b l with Ok b' => Some (manager_set_nodes st id (nodes b')) | _ => None end
      | Ok None => Some st
      | _ => None
      end
  | OFree id => Some (snd (manager_free st id))
  | OFreeM id => Some (snd (manager_free_mbvh st id))
  end.
Fixpoint run (st : ffi) (os : list op) : option ffi :=
  match os with
  | [] => Some st
  | o :: os => match step st o with Some st => run st os | None => None end
  end.

(** The table: the structures stored so far, in order of creation; a freed one
    is empty.  Second component: the 4-wide ones. *)
Definition table : Type := list bvh * list (list mnode * list nat).
Definition empty_bvh : bvh := Bvh [] [].
Definition table_step (t : table) (o : op) : option table :=
  let '(bs, ms) := t in
  match o with
  | OStore b => Some (bs ++ [b], ms)
  | OStoreM m => Some (bs, ms ++ [(m_nodes m, mb_indices m)])
  | ORefit id l =>
      match nth_error bs (Z.to_nat id) with
      | Some b => match BvhModel.refit b l with Ok b' => Some (upd bs (Z.to_nat id) b', ms) | _ => None end
      | None => Some t
      end
  | OFree id => Some (upd bs (Z.to_nat id) empty_bvh, ms)
  | OFreeM id => Some (bs, upd ms (Z.to_nat id) ([], []))
  end.
Fixpoint table_run (t : table) (os : list op) : option table :=
  match os with
  | [] => Some t
  | o :: os => match table_step t o with Some t => table_run t os | None => None end
  end.

(** Call [o] concerns the binary structure [id]. *)
Definition touches (id : Z) (o : op) : bool :=
  match o with ORefit j _ => (Z.to_nat j =? Z.to_nat id)%nat | OFree j => (Z.to_nat j =? Z.to_nat id)%nat | _ => false end.
Definition frees (id : Z) (o : op) : bool :=
  match o with OFree j => (Z.to_nat j =? Z.to_nat id)%nat | _ => false end.
Definition frees_m (id : Z) (o : op) : bool :=
  match o with OFreeM j => (Z.to_nat j =? Z.to_nat id)%nat | _ => false end.

(** A [for] loop over the ids [yields] whose body [cb] may stop it makes
    exactly the calls [calls], starting with data [c] and ray [r]. *)
Fixpoint calls_made {C R} (cb : C -> nat -> R -> bool * C * R) (c : C) (r : R) (yields calls : list nat) : Prop :=
  match yields, calls with
  | [], [] => True
  | y :: yields, p :: calls =>
      y = p /\ let '(stop, c', r') := cb c p r in if (stop : bool) then calls = [] else calls_made cb c' r' yields calls
  | _, _ => False
  end.

(** The callback without its "stop". *)
Definition forget_stop {C R} (cb : C -> nat -> R -> bool * C * R) (c : C) (p : nat) (r : R) : C * R :=
  let '(_, c', r') := cb c p r in (c', r').

(** ** The calls of the interface that change the library's state *)
Inductive api :=
| ACreate (bs : builders vec3) (aabbs : option (cbuf rtaabb)) (prim_count : nat) (centers : option (cbuf f32))
    (center_stride : Z) (prims_per_leaf : nat) (k : kind) (result_null : bool)
| ACreateS (build : option nat -> list aabb -> list wrapper -> res bvh) (collect : list aabb -> list aabb)
    (aabbs : option (cbuf rtaabb)) (prim_count : nat) (stride : Z) (vertices : option (list f32))
    (vertex_stride triangle_stride : Z) (prims_per_leaf : nat) (result_null : bool)
| ACreateM (fuel : nat) (h : handle) (result_null : bool)
| ARefit (aabbs : option (cbuf rtaabb)) (h : handle)
| AFree (h : handle)
| AFreeM (h : handle).
(** One call that returns: code and handle written, and the new state. *)
Definition api_step (st : ffi) (a : api) : res (code * option handle * ffi) :=
  match a with
  | ACreate bs aabbs n centers stride ppl k null => create_bvh bs st aabbs n centers stride ppl k null
  | ACreateS build collect aabbs n stride vertices vs ts ppl null =>
      create_spatial build collect st aabbs n stride vertices vs ts ppl null
  | ACreateM fuel h null => create_mbvh fuel st h null
  | ARefit aabbs h => do (c, st') <- ffi_refit st aabbs h; Ok (c, None, st')
  | AFree h => Ok (COk, None, free_bvh st h)
  | AFreeM h => Ok (COk, None, free_mbvh st h)
  end.
(** [history st as st']: the calls [as] were made one after the other and all
    returned. *)
Inductive history : ffi -> list api -> ffi -> Prop :=
| hist_nil : forall st, history st [] st
| hist_call : forall st a c h st' l st'', api_step st a = Ok (c, h, st') -> history st' l st'' -> history st (a :: l) st''.

(** [a] frees the binary (4-wide) structure with this id. *)
Definition api_frees (id : Z) (a : api) : bool := match a with AFree h => (Z.to_nat (h_id h) =? Z.to_nat id)%nat | _ => false end.
Definition api_frees_m (id : Z) (a : api) : bool := match a with AFreeM h => (Z.to_nat (h_id h) =? Z.to_nat id)%nat | _ => false end.
(** [a] is a refit of it. *)
Definition api_refits (id : Z) (a : api) : bool := match a with ARefit _ h => (Z.to_nat (h_id h) =? Z.to_nat id)%nat | _ => false end.

(** ** The caller's buffers *)
(** The three floats at byte offset [off] of a buffer of floats. *)
Definition floats_at (b : list f32) (off : Z) (v : vec3) : Prop :=
  (0 <= off)%Z /\ (off mod 4 = 0)%Z /\
  nth_error b (Z.to_nat (off / 4)) = Some (vx v) /\
  nth_error b (Z.to_nat (off / 4) + 1) = Some (vy v) /\
  nth_error b (Z.to_nat (off / 4) + 2) = Some (vz v).

(** Closest-hit callback: never asks to stop, lowers [*t] to nearer hits. *)
Definition closest_callback (dist : nat -> option f32) (c : unit) (p : nat) (t : f32) : bool * unit * f32 :=
  match dist p with
  | Some d => if flt d t then (false, tt, d) else (false, tt, t)
  | None => (false, tt, t)
  end.
