(** * The C interface under concurrent calls: the locks of rtbvh_ffi/src/lib.rs

    FfiModel.v treats a call as one step.  Here a call is the sequence of the
    lock operations and memory accesses it makes, and any number of threads
    make calls at the same time. *)
Require Import List ZArith Bool Arith.
From Verif Require Import F32 Vec AabbModel Base NodeModel LocbModel MbvhModel BvhModel FfiModel SpecFfi.
Import ListNotations.
Local Open Scope nat_scope.

(** lib.rs:12-15 [StructureManager]: the lock around the list of binary
    structures, one around each of them, and the same for the 4-wide ones. *)
Inductive lock := LStructs | LBvh (id : nat) | LQuads | LMbvh (id : nat).
(** [RwLock::read] and [RwLock::write]. *)
Inductive mode := Rd | Wr.
Definition lock_eqb (a b : lock) : bool :=
  match a, b with
  | LStructs, LStructs | LQuads, LQuads => true
  | LBvh i, LBvh j | LMbvh i, LMbvh j => i =? j
  | _, _ => false
  end.

(** What a call gives its caller: the code and what was written to [*result]. *)
Definition out : Type := code * option handle.

(** A call in progress.  [Access f k] is one access to the shared memory;
    [Release] is the drop of a guard; [Abort] a failed local computation (a
    panic or undefined behaviour). *)
Inductive prog : Type :=
| Return (o : out)
| Acquire (l : lock) (m : mode) (k : prog)
| Release (l : lock) (k : prog)
| Access (R : Type) (f : ffi -> res (R * ffi)) (k : R -> prog)
| Abort.
Arguments Access {R} f k.

(** ** Single accesses *)

(** [lock.get(id)], [lock.get_mut(id)]: is there such a structure? *)
Definition find_bvh (id : nat) (st : ffi) : res (option (nat * nat) * ffi) := Ok (nth_error (f_bvhs st) id, st).
Definition find_mbvh (id : nat) (st : ffi) : res (option (nat * nat) * ffi) := Ok (nth_error (f_mbvhs st) id, st).

(** lib.rs:53-59: the handle of structure [id]; [lock[id]] panics out of range. *)
Definition handle_of_bvh (id : nat) (st : ffi) : res (handle * ffi) :=
  match nth_error (f_bvhs st) id with
  | None => Panic
  | Some (an, ai) =>
      do ns <- heap_get (f_nodes st) an;
      do is <- heap_get (f_idx st) ai;
      Ok (Handle (as_u32 (Z.of_nat id)) (as_u32 (Z.of_nat (length ns))) (Some an)
                 (as_u32 (Z.of_nat (length is))) (Some ai), st)
  end.
(** lib.rs:71-77. *)
Definition handle_of_mbvh (id : nat) (st : ffi) : res (handle * ffi) :=
  match nth_error (f_mbvhs st) id with
  | None => Panic
  | Some (aq, ai) =>
      do qs <- heap_get (f_quads st) aq;
      do is <- heap_get (f_idx st) ai;
      Ok (Handle (as_u32 (Z.of_nat id)) (as_u32 (Z.of_nat (length qs))) (Some aq)
                 (as_u32 (Z.of_nat (length is))) (Some ai), st)
  end.

(** lib.rs:48-49: [lock.push(..)]; gives [lock.len() - 1]. *)
Definition push_bvh (b : bvh) (st : ffi) : res (nat * ffi) :=
  let st' := snd (store st b) in Ok (length (f_bvhs st') - 1, st').
(** lib.rs:65-66. *)
Definition push_mbvh (m : mbvh) (st : ffi) : res (nat * ffi) :=
  let st' := snd (store_mbvh st m) in Ok (length (f_mbvhs st') - 1, st').

(** [self.nodes.len()], one element of [self.nodes], the same for
    [self.prim_indices]. *)
Definition nodes_len (an : nat) (st : ffi) : res (nat * ffi) := do l <- heap_get (f_nodes st) an; Ok (length l, st).
Definition node_at (an i : nat) (st : ffi) : res (node * ffi) :=
  do l <- heap_get (f_nodes st) an; do n <- get l i; Ok (n, st).
Definition idx_len (ai : nat) (st : ffi) : res (nat * ffi) := do l <- heap_get (f_idx st) ai; Ok (length l, st).
Definition idx_at (ai i : nat) (st : ffi) : res (nat * ffi) :=
  do l <- heap_get (f_idx st) ai; do n <- get l i; Ok (n, st).

(** bvh.rs:177-203: node [i] is read (with its children) and written back. *)
Definition refit_at (an ai : nat) (aabbs : list aabb) (i : nat) (st : ffi) : res (unit * ffi) :=
  do ns <- heap_get (f_nodes st) an;
  do is <- heap_get (f_idx st) ai;
  do ns' <- refit_node is aabbs i ns;
  Ok (tt, Ffi (upd (f_nodes st) an (Some ns')) (f_idx st) (f_quads st) (f_bvhs st) (f_mbvhs st)).

(** A [Vec] is dropped; dropping it twice is undefined. *)
Definition drop_nodes (a : nat) (st : ffi) : res (unit * ffi) :=
  do _ <- heap_get (f_nodes st) a;
  Ok (tt, Ffi (upd (f_nodes st) a None) (f_idx st) (f_quads st) (f_bvhs st) (f_mbvhs st)).
Definition drop_idx (a : nat) (st : ffi) : res (unit * ffi) :=
  do _ <- heap_get (f_idx st) a;
  Ok (tt, Ffi (f_nodes st) (upd (f_idx st) a None) (f_quads st) (f_bvhs st) (f_mbvhs st)).
Definition drop_quads (a : nat) (st : ffi) : res (unit * ffi) :=
  do _ <- heap_get (f_quads st) a;
  Ok (tt, Ffi (f_nodes st) (f_idx st) (upd (f_quads st) a None) (f_bvhs st) (f_mbvhs st)).

(** lib.rs:111 [*m.get_mut() = Bvh::default()], the assignment.  The empty
    [Vec]s own no memory; FfiModel.v gives them addresses of their own, which
    are taken here. *)
Definition reset_bvh (id : nat) (st : ffi) : res (unit * ffi) :=
  Ok (tt, Ffi (f_nodes st ++ [Some []]) (f_idx st ++ [Some []]) (f_quads st)
              (upd (f_bvhs st) id (length (f_nodes st), length (f_idx st))) (f_mbvhs st)).
(** lib.rs:121. *)
Definition reset_mbvh (id : nat) (st : ffi) : res (unit * ffi) :=
  Ok (tt, Ffi (f_nodes st) (f_idx st ++ [Some []]) (f_quads st ++ [Some []])
              (f_bvhs st) (upd (f_mbvhs st) id (length (f_quads st), length (f_idx st)))).

(** ** The functions *)

(** lib.rs:46-60 [store]; the guards are dropped in reverse order. *)
Definition store_p (b : bvh) (k : handle -> prog) : prog :=
  Acquire LStructs Wr (
  Access (push_bvh b) (fun id =>
  Acquire (LBvh id) Rd (
  Access (handle_of_bvh id) (fun h =>
  Release (LBvh id) (Release LStructs (k h)))))).

(** lib.rs:62-78 [store_mbvh]. *)
Definition store_mbvh_p (m : mbvh) (k : handle -> prog) : prog :=
  Acquire LQuads Wr (
  Access (push_mbvh m) (fun id =>
  Acquire (LMbvh id) Rd (
  Access (handle_of_mbvh id) (fun h =>
  Release (LMbvh id) (Release LQuads (k h)))))).

(** lib.rs:437-488: what [create_bvh] does before it touches the manager:
    a code to return, or the structure to store. *)
Definition create_local (bs : builders vec3) (aabbs : option (cbuf rtaabb)) (prim_count : nat)
    (centers : option (cbuf f32)) (center_stride : Z) (prims_per_leaf : nat) (k : kind) (result_null : bool)
    : res (code + bvh) :=
  match centers with
  | None => Ok (inl CError)
  | Some centers =>
      if result_null then Ok (inl CError)
      else if negb (center_stride mod 4 =? 0)%Z then Panic
      else if negb (12 <=? center_stride)%Z then Panic
      else if negb (center_stride <=? 16)%Z then Panic
      else
        do given <- (match aabbs with
                     | Some b => do l <- raw_parts align_aabb b prim_count; Ok (Some (map aabb_of_rt l))
                     | None => Ok None
                     end);
        do r <- (if (center_stride =? 12)%Z then
                   do prims <- centers_slice 3 centers prim_count; run_kind bs k prims_per_leaf given prims
                 else if (center_stride =? 16)%Z then
                   do prims <- centers_slice 4 centers prim_count; run_kind bs k prims_per_leaf given prims
                 else Panic);
        match r with
        | ROk b => Ok (inr b)
        | RErr e => Ok (inl (code_of_error e))
        end
  end.

(** A local computation. *)
Definition locally {A} (r : res A) (k : A -> prog) : prog := match r with Ok a => k a | _ => Abort end.

(** lib.rs:428-493 [create_bvh]. *)
Definition create_bvh_p (bs : builders vec3) (aabbs : option (cbuf rtaabb)) (prim_count : nat)
    (centers : option (cbuf f32)) (center_stride : Z) (prims_per_leaf : nat) (k : kind) (result_null : bool) : prog :=
  locally (create_local bs aabbs prim_count centers center_stride prims_per_leaf k result_null) (fun r =>
  match r with
  | inl c => Return (c, None)
  | inr b => store_p b (fun h => Return (COk, Some h))
  end).

(** lib.rs:349-382, bvh.rs:57-85: what [create_spatial_Bvh] does before it
    touches the manager. *)
Definition spatial_local (build : option nat -> list aabb -> list wrapper -> res bvh) (collect : list aabb -> list aabb)
    (aabbs : option (cbuf rtaabb)) (prim_count : nat) (stride : Z) (vertices : option (list f32))
    (vertex_stride triangle_stride : Z) (prims_per_leaf : nat) : res (code + bvh) :=
  if negb (stride mod 4 =? 0)%Z then Panic else
  do given <- (match aabbs with
               | Some b => do l <- raw_parts align_aabb b prim_count; Ok (Some (map aabb_of_rt l))
               | None => Ok None
               end);
  let primitives := map (wrapper_of stride vertex_stride triangle_stride) (seq 0 prim_count) in
  do r <- match primitives with
          | [] => Ok (RErr NoPrimitives)
          | _ :: _ =>
              match given with
              | Some l =>
                  if negb (Nat.eqb (length l) (length primitives)) then
                    Ok (RErr (InequalAabbsAndPrimitives (length l) (length primitives)))
                  else do b <- build (non_zero prims_per_leaf) l primitives; Ok (ROk b)
              | None =>
                  do l <- wrapper_aabbs vertices primitives;
                  do b <- build (non_zero prims_per_leaf) (collect l) primitives; Ok (ROk b)
              end
          end;
  match r with
  | ROk b => Ok (inr b)
  | RErr e => Ok (inl (code_of_error e))
  end.

(** lib.rs:338-389 [create_spatial_Bvh].  The write through a null [result],
    which comes after [store], makes the whole execution undefined; here the
    process ends before [store]. *)
Definition create_spatial_p (build : option nat -> list aabb -> list wrapper -> res bvh) (collect : list aabb -> list aabb)
    (aabbs : option (cbuf rtaabb)) (prim_count : nat) (stride : Z) (vertices : option (list f32))
    (vertex_stride triangle_stride : Z) (prims_per_leaf : nat) (result_null : bool) : prog :=
  locally (spatial_local build collect aabbs prim_count stride vertices vertex_stride triangle_stride prims_per_leaf) (fun r =>
  match r with
  | inl c => Return (c, None)
  | inr b => if result_null then Abort else store_p b (fun h => Return (COk, Some h))
  end).

(** Reading a [Vec] element by element (in whatever order: the result is the
    list in order), as [Mbvh::construct] does with the nodes and
    [prim_indices.clone()] with the indices. *)
Fixpoint read_all {A} (at_ : nat -> ffi -> res (A * ffi)) (ids : list nat) (acc : list A) (k : list A -> prog) : prog :=
  match ids with
  | [] => k acc
  | i :: ids => Access (at_ i) (fun x => read_all at_ ids (acc ++ [x]) k)
  end.

(** lib.rs:499-513 [create_mbvh], 80-92 [get]: the 4-wide structure is built
    and stored while both read locks are held. *)
Definition create_mbvh_p (fuel : nat) (h : handle) (result_null : bool) : prog :=
  match h_nodes h, h_indices h with
  | Some _, Some _ =>
      if result_null then Return (CError, None) else
      let id := Z.to_nat (h_id h) in
      Acquire LStructs Rd (
      Access (find_bvh id) (fun found =>
      match found with
      | None => Release LStructs (Return (CError, None))
      | Some (an, ai) =>
          Acquire (LBvh id) Rd (
          Access (nodes_len an) (fun n =>
          read_all (node_at an) (seq 0 n) [] (fun ns =>
          Access (idx_len ai) (fun n =>
          read_all (idx_at ai) (seq 0 n) [] (fun is =>
          locally (mbvh_construct fuel (Bvh ns is)) (fun m =>
          store_mbvh_p m (fun h =>
          Release (LBvh id) (Release LStructs (Return (COk, Some h))))))))))
      end))
  | _, _ => Return (CError, None)
  end.

(** bvh.rs:176-205 [refit], the loop. *)
Fixpoint refit_loop (an ai : nat) (aabbs : list aabb) (ids : list nat) (k : prog) : prog :=
  match ids with
  | [] => k
  | i :: ids => Access (refit_at an ai aabbs i) (fun _ => refit_loop an ai aabbs ids k)
  end.

(** lib.rs:519-538 [refit], 94-106 [get_mut]. *)
Definition refit_p (aabbs : option (cbuf rtaabb)) (h : handle) : prog :=
  match aabbs, h_nodes h, h_indices h with
  | Some aabbs, Some _, Some _ =>
      let id := Z.to_nat (h_id h) in
      Acquire LStructs Rd (
      Access (find_bvh id) (fun found =>
      match found with
      | None => Release LStructs (Return (CError, None))
      | Some (an, ai) =>
          Acquire (LBvh id) Wr (
          Access (idx_len ai) (fun count =>
          locally (raw_parts align_aabb aabbs count) (fun l =>
          Access (nodes_len an) (fun n =>
          refit_loop an ai (map aabb_of_rt l) (rev (seq 0 n)) (
          Release (LBvh id) (Release LStructs (Return (COk, None))))))))
      end))
  | _, _, _ => Return (CError, None)
  end.

(** lib.rs:838-842 [free_bvh], 108-116 [free]: the old value is dropped, then
    the new one is moved in. *)
Definition free_bvh_p (h : handle) : prog :=
  let id := Z.to_nat (h_id h) in
  Acquire LStructs Wr (
  Access (find_bvh id) (fun found =>
  match found with
  | None => Release LStructs (Return (COk, None))
  | Some (an, ai) =>
      Access (drop_nodes an) (fun _ =>
      Access (drop_idx ai) (fun _ =>
      Access (reset_bvh id) (fun _ =>
      Release LStructs (Return (COk, None)))))
  end)).

(** lib.rs:844-849 [free_mbvh], 118-126. *)
Definition free_mbvh_p (h : handle) : prog :=
  let id := Z.to_nat (h_id h) in
  Acquire LQuads Wr (
  Access (find_mbvh id) (fun found =>
  match found with
  | None => Release LQuads (Return (COk, None))
  | Some (aq, ai) =>
      Access (drop_quads aq) (fun _ =>
      Access (drop_idx ai) (fun _ =>
      Access (reset_mbvh id) (fun _ =>
      Release LQuads (Return (COk, None)))))
  end)).

(** The calls of SpecFfi.v. *)
Definition prog_of (a : api) : prog :=
  match a with
  | ACreate bs aabbs n centers stride ppl k null => create_bvh_p bs aabbs n centers stride ppl k null
  | ACreateS build collect aabbs n stride vertices vs ts ppl null =>
      create_spatial_p build collect aabbs n stride vertices vs ts ppl null
  | ACreateM fuel h null => create_mbvh_p fuel h null
  | ARefit aabbs h => refit_p aabbs h
  | AFree h => free_bvh_p h
  | AFreeM h => free_mbvh_p h
  end.

(** ** Threads *)

(** A thread: outside the library, or inside the call [a] with the locks
    [held] and the rest [p] of the call to go. *)
Inductive thread := Idle | Busy (a : api) (held : list (lock * mode)) (p : prog).
(** The process; a panic (which may not leave an [extern "C"] function) or
    undefined behaviour ends it. *)
Inductive process := Live (st : ffi) (ts : list thread) | Down.

(** [RwLock]: a writer excludes everybody else, also the thread itself. *)
Definition can_take (ts : list thread) (l : lock) (m : mode) : Prop :=
  forall j a held p m', nth_error ts j = Some (Busy a held p) -> In (l, m') held -> m = Rd /\ m' = Rd.

(** One guard of [l] is dropped. *)
Fixpoint drop_guard (l : lock) (held : list (lock * mode)) : list (lock * mode) :=
  match held with
  | [] => []
  | (l', m) :: held => if lock_eqb l l' then held else (l', m) :: drop_guard l held
  end.

(** What the callers can see. *)
Inductive event := ECall (t : nat) (a : api) | EReturn (t : nat) (o : out) | ECrash (t : nat).

(** Any thread may move at any time; the callers make any calls whatsoever. *)
Inductive cstep : process -> list event -> process -> Prop :=
| c_call : forall st ts t a, nth_error ts t = Some Idle ->
    cstep (Live st ts) [ECall t a] (Live st (upd ts t (Busy a [] (prog_of a))))
| c_acquire : forall st ts t a held l m k, nth_error ts t = Some (Busy a held (Acquire l m k)) -> can_take ts l m ->
    cstep (Live st ts) [] (Live st (upd ts t (Busy a ((l, m) :: held) k)))
| c_release : forall st ts t a held l k, nth_error ts t = Some (Busy a held (Release l k)) ->
    cstep (Live st ts) [] (Live st (upd ts t (Busy a (drop_guard l held) k)))
| c_access : forall st ts t a held R (f : ffi -> res (R * ffi)) k r st',
    nth_error ts t = Some (Busy a held (Access f k)) -> f st = Ok (r, st') ->
    cstep (Live st ts) [] (Live st' (upd ts t (Busy a held (k r))))
| c_return : forall st ts t a held o, nth_error ts t = Some (Busy a held (Return o)) ->
    cstep (Live st ts) [EReturn t o] (Live st (upd ts t Idle))
| c_crash : forall st ts t a held R (f : ffi -> res (R * ffi)) k,
    nth_error ts t = Some (Busy a held (Access f k)) -> (forall x, f st <> Ok x) ->
    cstep (Live st ts) [ECrash t] Down
| c_abort : forall st ts t a held, nth_error ts t = Some (Busy a held Abort) ->
    cstep (Live st ts) [ECrash t] Down.

Inductive crun : process -> list event -> process -> Prop :=
| crun_nil : forall s, crun s [] s
| crun_snoc : forall s tr s' e s'', crun s tr s' -> cstep s' e s'' -> crun s (tr ++ e) s''.

(** lib.rs:8-10, 36-43 [MANAGER] at the start, with [n] threads outside. *)
Definition process_new (n : nat) : process := Live ffi_new (repeat Idle n).
