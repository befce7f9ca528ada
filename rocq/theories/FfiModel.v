(** * The C interface: rtbvh_ffi/src/lib.rs *)
Require Import List ZArith Bool.
From Verif Require Import F32 Vec RayModel AabbModel Base NodeModel IterModel LocbModel MbvhModel BvhModel TriModel.
Import ListNotations.
Local Open Scope Z_scope.

(** ** Result codes *)

(** lib.rs:17-25 [ResultCode] ([repr(C)]). *)
Inductive code := COk | CError | CNoPrimitives | CInequalAabbsAndPrimitives | CNan.
Definition code_value (c : code) : Z :=
  match c with COk => 0 | CError => 1 | CNoPrimitives => 2 | CInequalAabbsAndPrimitives => 3 | CNan => 4 end.

(** lib.rs:27-34 [From<BuildError> for ResultCode]. *)
Definition code_of_error (e : build_error) : code :=
  match e with
  | NoPrimitives => CNoPrimitives
  | InequalAabbsAndPrimitives _ _ => CInequalAabbsAndPrimitives
  end.

(** ** Plain-data types and conversions *)

(** lib.rs:144-151 [RTAabb] ([[f32; 3]] as a triple). *)
Record rtaabb := RtAabb { rt_min : f32 * f32 * f32; rt_count : Z; rt_max : f32 * f32 * f32; rt_left_first : Z }.
Definition arr_of_vec (v : vec3) : f32 * f32 * f32 := (vx v, vy v, vz v).
Definition vec_of_arr (a : f32 * f32 * f32) : vec3 := let '(x, y, z) := a in V3 x y z.

(** lib.rs:153-162 [From<Aabb> for RTAabb]. *)
Definition rt_of_aabb (b : aabb) : rtaabb := RtAabb (arr_of_vec (bmin b)) (ex1 b) (arr_of_vec (bmax b)) (ex2 b).
(** lib.rs:164-173 [From<RTAabb> for Aabb]. *)
Definition aabb_of_rt (b : rtaabb) : aabb := Bb (vec_of_arr (rt_min b)) (rt_count b) (vec_of_arr (rt_max b)) (rt_left_first b).

(** lib.rs:175-179 [RTBvhNode], 181-195 the conversions. *)
Record rtnode := RtNode { rtn_aabb : rtaabb }.
Definition node_of_rt (n : rtnode) : node := aabb_of_rt (rtn_aabb n).
Definition rt_of_node (n : node) : rtnode := RtNode (rt_of_aabb n).

(** lib.rs:197-208 [RTMbvhNode]. *)
Record rtmnode := RtMn { rm_min_x : vec4; rm_max_x : vec4; rm_min_y : vec4; rm_max_y : vec4;
                         rm_min_z : vec4; rm_max_z : vec4; rm_children : z4; rm_counts : z4 }.

(** The structs are [repr(C)], all fields are four bytes wide or arrays of
    such, so a struct in memory is the sequence of its 4-byte words. *)
Inductive word := WF (f : f32) | WI (z : Z).
(** aabb.rs:13-20 [Aabb], bvh_node.rs:11-14 [BvhNode]. *)
Definition words_aabb (b : aabb) : list word :=
  [WF (vx (bmin b)); WF (vy (bmin b)); WF (vz (bmin b)); WI (ex1 b);
   WF (vx (bmax b)); WF (vy (bmax b)); WF (vz (bmax b)); WI (ex2 b)].
(** lib.rs:144-151, 175-179. *)
Definition words_arr (a : f32 * f32 * f32) : list word := let '(x, y, z) := a in [WF x; WF y; WF z].
Definition words_rtaabb (b : rtaabb) : list word :=
  words_arr (rt_min b) ++ [WI (rt_count b)] ++ words_arr (rt_max b) ++ [WI (rt_left_first b)].
Definition words_rtnode (n : rtnode) : list word := words_rtaabb (rtn_aabb n).
Definition words_v4 (v : vec4) : list word := [WF (wx v); WF (wy v); WF (wz v); WF (ww v)].
Definition words_z4 (v : z4) : list word := [WI (z0 v); WI (z1 v); WI (z2 v); WI (z3 v)].
(** mbvh_node.rs:28-38 [MbvhNode]. *)
Definition words_mnode (m : mnode) : list word :=
  words_v4 (mn_x m) ++ words_v4 (mx_x m) ++ words_v4 (mn_y m) ++ words_v4 (mx_y m) ++
  words_v4 (mn_z m) ++ words_v4 (mx_z m) ++ words_z4 (m_children m) ++ words_z4 (m_counts m).
(** lib.rs:197-208. *)
Definition words_rtmnode (m : rtmnode) : list word :=
  words_v4 (rm_min_x m) ++ words_v4 (rm_max_x m) ++ words_v4 (rm_min_y m) ++ words_v4 (rm_max_y m) ++
  words_v4 (rm_min_z m) ++ words_v4 (rm_max_z m) ++ words_z4 (rm_children m) ++ words_z4 (rm_counts m).
(** What the pointer cast [*const MbvhNode as *const RTMbvhNode] makes of a
    node (lib.rs:74). *)
Definition rt_of_mnode (m : mnode) : rtmnode :=
  RtMn (mn_x m) (mx_x m) (mn_y m) (mx_y m) (mn_z m) (mx_z m) (m_children m) (m_counts m).
(** Alignment of the types in bytes: [Aabb]/[BvhNode] are declared
    [align(16)], the [RT] types have the alignment of f32. *)
Definition align_aabb : Z := 16.
Definition align_f32 : Z := 4.
Definition align_vec4 : Z := 16.

(** ** Memory *)

(** A buffer of the caller: its address and contents; [None] is a null
    pointer. *)
Record cbuf (A : Type) := Cbuf { cb_addr : Z; cb_data : list A }.
Arguments Cbuf {A}. Arguments cb_addr {A}. Arguments cb_data {A}.

(** [slice::from_raw_parts(ptr as *const T, n)]: undefined behaviour unless
    [ptr] is aligned for [T] and [n] elements can be read. *)
Definition raw_parts {A} (align : Z) (b : cbuf A) (n : nat) : res (list A) :=
  if (cb_addr b mod align =? 0) && Nat.leb n (length (cb_data b)) then Ok (firstn n (cb_data b)) else UB.

(** The state of the library: the heap buffers of all [Vec]s that were ever
    stored ([None] = freed; an address is never reused, so that a use after
    free is visible) and lib.rs:12-15 [StructureManager] with, per structure,
    the addresses of its [nodes] and [prim_indices] buffers.  The [RwLock]s
    make every operation atomic (proved in PropLock.v), so they are left out
    here; the copy of the binary
    nodes inside [Mbvh] is left out because no function of the interface
    reads it. *)
Record ffi := Ffi { f_nodes : list (option (list node)); f_idx : list (option (list nat));
                    f_quads : list (option (list mnode));
                    f_bvhs : list (nat * nat); f_mbvhs : list (nat * nat) }.
Definition ffi_new : ffi := Ffi [] [] [] [] [].

(** lib.rs:210-231 [RTBvh] and its default; 233-254 [RTMbvh]. *)
Record handle := Handle { h_id : Z; h_node_count : Z; h_nodes : option nat; h_index_count : Z; h_indices : option nat }.
Definition handle_default : handle := Handle 4294967295 0 None 0 None.

(** lib.rs:46-60 [store]. *)
Definition store (st : ffi) (b : bvh) : handle * ffi :=
  let an := length (f_nodes st) in
  let ai := length (f_idx st) in
  let id := length (f_bvhs st) in
  (Handle (as_u32 (Z.of_nat id)) (as_u32 (Z.of_nat (length (nodes b)))) (Some an)
          (as_u32 (Z.of_nat (length (prim_indices b)))) (Some ai),
   Ffi (f_nodes st ++ [Some (nodes b)]) (f_idx st ++ [Some (prim_indices b)]) (f_quads st)
       (f_bvhs st ++ [(an, ai)]) (f_mbvhs st)).

(** lib.rs:62-78 [store_mbvh]. *)
Definition store_mbvh (st : ffi) (b : mbvh) : handle * ffi :=
  let aq := length (f_quads st) in
  let ai := length (f_idx st) in
  let id := length (f_mbvhs st) in
  (Handle (as_u32 (Z.of_nat id)) (as_u32 (Z.of_nat (length (m_nodes b)))) (Some aq)
          (as_u32 (Z.of_nat (length (mb_indices b)))) (Some ai),
   Ffi (f_nodes st) (f_idx st ++ [Some (mb_indices b)]) (f_quads st ++ [Some (m_nodes b)])
       (f_bvhs st) (f_mbvhs st ++ [(aq, ai)])).

(** Reading a heap buffer: undefined behaviour after it was freed. *)
Definition heap_get {A} (l : list (option A)) (a : nat) : res A :=
  match nth_error l a with Some (Some v) => Ok v | _ => UB end.

(** lib.rs:80-92 [get] (the structure, for the callback to use). *)
Definition manager_get (st : ffi) (id : Z) : res (option bvh) :=
  match nth_error (f_bvhs st) (Z.to_nat id) with
  | Some (an, ai) =>
      do ns <- heap_get (f_nodes st) an;
      do is <- heap_get (f_idx st) ai;
      Ok (Some (Bvh ns is))
  | None => Ok None
  end.

(** lib.rs:94-106 [get_mut], for the only change the interface makes: the
    nodes are overwritten in place (bvh.rs:176-205 assigns to [self.nodes[i]]). *)
Definition manager_set_nodes (st : ffi) (id : Z) (ns : list node) : ffi :=
  match nth_error (f_bvhs st) (Z.to_nat id) with
  | Some (an, ai) => Ffi (upd (f_nodes st) an (Some ns)) (f_idx st) (f_quads st) (f_bvhs st) (f_mbvhs st)
  | None => st
  end.

(** lib.rs:108-116 [free]: the old [Vec]s are dropped, the slot gets
    [Bvh::default()] (new, empty [Vec]s).  [false] is [Err(())]. *)
Definition manager_free (st : ffi) (id : Z) : bool * ffi :=
  match nth_error (f_bvhs st) (Z.to_nat id) with
  | Some (an, ai) =>
      let an' := length (f_nodes st) in let ai' := length (f_idx st) in
      (true, Ffi (upd (f_nodes st) an None ++ [Some []]) (upd (f_idx st) ai None ++ [Some []]) (f_quads st)
                 (upd (f_bvhs st) (Z.to_nat id) (an', ai')) (f_mbvhs st))
  | None => (false, st)
  end.

(** lib.rs:118-126 [free_mbvh]. *)
Definition manager_free_mbvh (st : ffi) (id : Z) : bool * ffi :=
  match nth_error (f_mbvhs st) (Z.to_nat id) with
  | Some (aq, ai) =>
      let aq' := length (f_quads st) in let ai' := length (f_idx st) in
      (true, Ffi (f_nodes st) (upd (f_idx st) ai None ++ [Some []]) (upd (f_quads st) aq None ++ [Some []])
                 (f_bvhs st) (upd (f_mbvhs st) (Z.to_nat id) (aq', ai')))
  | None => (false, st)
  end.

(** lib.rs:838-849 [free_bvh], [free_mbvh]: errors only go to stderr. *)
Definition free_bvh (st : ffi) (h : handle) : ffi := snd (manager_free st (h_id h)).
Definition free_mbvh (st : ffi) (h : handle) : ffi := snd (manager_free_mbvh st (h_id h)).

(** ** create_bvh *)

(** lib.rs:129-142 [BvhType]. *)
Inductive kind := KLocb | KBinned.

(** lib.rs:391-406, 408-422 [Vector3]/[Vector4] as [Primitive]. *)
Definition point_center (p : vec3) : vec3 := p.
Definition point_aabb (p : vec3) : aabb := grow aabb_new p.

(** lib.rs:459, 471: the centres as a slice of [Vector3] or
    [Vector4] ([w] floats each; the fourth is never read). *)
Definition centers_slice (w : nat) (b : cbuf f32) (n : nat) : res (list vec3) :=
  do data <- raw_parts align_f32 b (w * n);
  Ok (map (fun i => V3 (nth (w * i) data f0) (nth (w * i + 1) data f0) (nth (w * i + 2) data f0)) (seq 0 n)).

(** The builders behind [Builder::construct_*] and the order in which
    [par_bridge] delivers (see BvhModel.v); [ppl] is
    [NonZeroUsize::new(prims_per_leaf)]. *)
Record builders (P : Type) := Builders {
  run_locb : list aabb -> list P -> res bvh;
  run_binned : option nat -> list aabb -> list P -> res bvh;
  run_collect : list aabb -> list aabb }.
Arguments run_locb {P}. Arguments run_binned {P}. Arguments run_collect {P}.

(** [NonZeroUsize::new]. *)
Definition non_zero (n : nat) : option nat := match n with O => None | _ => Some n end.

(** lib.rs:460-468, 472-481. *)
Definition run_kind (bs : builders vec3) (k : kind) (ppl : nat) (given : option (list aabb)) (prims : list vec3)
    : res (result bvh build_error) :=
  construct point_aabb (run_collect bs)
    (match k with KLocb => run_locb bs | KBinned => run_binned bs (non_zero ppl) end) given prims.

(** lib.rs:428-493 [create_bvh]; [result_null] says whether [result] is null.
    The outcome is the code, what was written to [*result], and the state.
    A failed [assert!] is [Panic]. *)
Definition create_bvh (bs : builders vec3) (st : ffi) (aabbs : option (cbuf rtaabb)) (prim_count : nat)
    (centers : option (cbuf f32)) (center_stride : Z) (prims_per_leaf : nat) (k : kind) (result_null : bool)
    : res (code * option handle * ffi) :=
  match centers with
  | None => Ok (CError, None, st)
  | Some centers =>
      if result_null then Ok (CError, None, st)
      else if negb (center_stride mod 4 =? 0) then Panic
      else if negb (12 <=? center_stride) then Panic
      else if negb (center_stride <=? 16) then Panic
      else
        do given <- (match aabbs with
                     | Some b => do l <- raw_parts align_aabb b prim_count; Ok (Some (map aabb_of_rt l))
                     | None => Ok None
                     end);
        do r <- (if center_stride =? 12 then
                   do prims <- centers_slice 3 centers prim_count; run_kind bs k prims_per_leaf given prims
                 else if center_stride =? 16 then
                   do prims <- centers_slice 4 centers prim_count; run_kind bs k prims_per_leaf given prims
                 else Panic);
        match r with
        | ROk b => let '(h, st) := store st b in Ok (COk, Some h, st)
        | RErr e => Ok (code_of_error e, None, st)
        end
  end.

(** ** create_spatial_Bvh *)

(** lib.rs:258-266 [RTTriangleWrapper] ([centers] and [vertices] are the
    caller's buffers; u32 fields). *)
Record wrapper := Wrapper { w_center_stride : Z; w_center_i : Z; w_vertex0_offset : Z; w_vertex_stride : Z }.

(** Three consecutive floats; reading outside the buffer is undefined. *)
Definition read3 (b : list f32) (i : nat) : res vec3 :=
  do x <- get_unchecked b i; do y <- get_unchecked b (i + 1); do z <- get_unchecked b (i + 2); Ok (V3 x y z).

(** lib.rs:268-279 [center]; u32 products wrap in release builds. *)
Definition w_center (centers : list f32) (w : wrapper) : res vec3 :=
  read3 centers (Z.to_nat (as_u32 (w_center_i w * w_center_stride w) / 4)).

(** lib.rs:281-296 [aabb]. *)
Definition w_aabb (vertices : list f32) (w : wrapper) : res aabb :=
  let p0 := Z.to_nat (as_u32 (w_vertex0_offset w * w_vertex_stride w) / 4) in
  let s := Z.to_nat (w_vertex_stride w / 4) in
  do v0 <- read3 vertices p0;
  do v1 <- read3 vertices (p0 + s);
  do v2 <- read3 vertices (p0 + s * 2);
  Ok (grow (grow (grow aabb_new v0) v1) v2).

(** lib.rs:302-336 [vertex0], [vertex1], [vertex2]. *)
Definition w_vertex (vertices : list f32) (w : wrapper) (k : nat) : res vec3 :=
  read3 vertices (Z.to_nat (as_u32 (w_vertex0_offset w + Z.of_nat k * w_vertex_stride w))).

(** lib.rs:365-374: the wrapper of triangle [i]. *)
Definition wrapper_of (stride vertex_stride triangle_stride : Z) (i : nat) : wrapper :=
  Wrapper (as_u32 stride) (as_u32 (Z.of_nat i)) (as_u32 (Z.of_nat i * triangle_stride / 4)) (as_u32 (vertex_stride / 4)).

(** [primitives.iter()...map(|p| p.aabb()).collect()] when [aabb] may read
    outside the caller's buffer ([None] is a null [vertices] pointer). *)
Fixpoint wrapper_aabbs (vertices : option (list f32)) (ws : list wrapper) : res (list aabb) :=
  match ws with
  | [] => Ok []
  | w :: ws =>
      do b <- match vertices with Some v => w_aabb v w | None => UB end;
      do l <- wrapper_aabbs vertices ws;
      Ok (b :: l)
  end.

(** lib.rs:338-389 [create_spatial_Bvh]; bvh.rs:57-85
    [construct_spatial_sah].  [build ppl aabbs primitives] is the builder (it
    may read [centers] and [vertices] through the primitives), [collect] the
    order in which [par_bridge] delivers.  [*result = ...] writes through
    [result] without a test for null. *)
Definition create_spatial (build : option nat -> list aabb -> list wrapper -> res bvh) (collect : list aabb -> list aabb)
    (st : ffi) (aabbs : option (cbuf rtaabb)) (prim_count : nat) (stride : Z) (vertices : option (list f32))
    (vertex_stride triangle_stride : Z) (prims_per_leaf : nat) (result_null : bool) : res (code * option handle * ffi) :=
  if negb (stride mod 4 =? 0) then Panic else
  do given <- (match aabbs with
               | Some b => do l <- raw_parts align_aabb b prim_count; Ok (Some (map aabb_of_rt l))
               | None => Ok None
               end);
  let primitives := map (wrapper_of stride vertex_stride triangle_stride) (seq 0 prim_count) in
  do r <- match primitives with
          | [] => Ok (RErr NoPrimitives)
          | _ :: _ =>
              match given with
              | Some l =>
                  if negb (Nat.eqb (length l) (length primitives)) then
                    Ok (RErr (InequalAabbsAndPrimitives (length l) (length primitives)))
                  else do b <- build (non_zero prims_per_leaf) l primitives; Ok (ROk b)
              | None =>
                  do l <- wrapper_aabbs vertices primitives;
                  do b <- build (non_zero prims_per_leaf) (collect l) primitives; Ok (ROk b)
              end
          end;
  match r with
  | ROk b =>
      if result_null then UB else
      let '(h, st) := store st b in Ok (COk, Some h, st)
  | RErr e => Ok (code_of_error e, None, st)
  end.

(** ** create_mbvh and refit *)

(** lib.rs:499-513 [create_mbvh]. *)
Definition create_mbvh (fuel : nat) (st : ffi) (h : handle) (result_null : bool)
    : res (code * option handle * ffi) :=
  match h_nodes h, h_indices h with
  | Some _, Some _ =>
      if result_null then Ok (CError, None, st) else
      do b <- manager_get st (h_id h);
      match b with
      | Some b =>
          do m <- mbvh_construct fuel b;
          let '(h, st) := store_mbvh st m in Ok (COk, Some h, st)
      | None => Ok (CError, None, st)
      end
  | _, _ => Ok (CError, None, st)
  end.

(** lib.rs:519-538 [refit]. *)
Definition ffi_refit (st : ffi) (aabbs : option (cbuf rtaabb)) (h : handle) : res (code * ffi) :=
  match aabbs, h_nodes h, h_indices h with
  | Some aabbs, Some _, Some _ =>
      do b <- manager_get st (h_id h);
      match b with
      | Some b =>
          do l <- raw_parts align_aabb aabbs (length (prim_indices b));
          do b' <- BvhModel.refit b (map aabb_of_rt l);
          Ok (COk, manager_set_nodes st (h_id h) (nodes b'))
      | None => Ok (CError, st)
      end
  | _, _, _ => Ok (CError, st)
  end.

(** ** The intersection functions *)

(** The [for] loop over an iterator whose body may [break]: [turn_of] is one
    turn of the iterator's [next] loop, [cb] the C callback, which gets the
    primitive id and a pointer to [t] and returns "stop"; [C] is the caller's
    data.  The result is the ids passed to the callback, the final ray and
    data. *)
Fixpoint ffi_loop {R S C} (turn_of : R -> S -> res (turn * S)) (cb : C -> nat -> R -> bool * C * R)
    (fuel : nat) (c : C) (r : R) (s : S) : res (list nat * R * C) :=
  match fuel with
  | O => OutOfFuel
  | Datatypes.S k =>
      do (t, s') <- turn_of r s;
      match t with
      | Done => Ok ([], r, c)
      | Again => ffi_loop turn_of cb k c r s'
      | Yield p =>
          let '(stop, c', r') := cb c p r in
          if (stop : bool) then Ok ([p], r', c')
          else do (ps, r'', c'') <- ffi_loop turn_of cb k c' r' s'; Ok (p :: ps, r'', c'')
      end
  end.

(** The callback sees only the id and [t]. *)
Definition ray_callback {C} (f : C -> nat -> f32 -> bool * C * f32) (c : C) (p : nat) (r : ray) : bool * C * ray :=
  let '(stop, c', t') := f c p (r_t r) in (stop, c', ray_set_t r t').
Definition packet_callback {C} (f : C -> nat -> vec4 -> bool * C * vec4) (c : C) (p : nat) (r : packet) : bool * C * packet :=
  let '(stop, c', t') := f c p (p_t r) in (stop, c', packet_set_t r t').

(** [slice::from_raw_parts(handle.nodes, handle.node_count)]. *)
Definition handle_slice {A} (heap : list (option (list A))) (p : option nat) (count : Z) : res (list A) :=
  match p with
  | None => UB
  | Some a => do l <- heap_get heap a; if Nat.leb (Z.to_nat count) (length l) then Ok (firstn (Z.to_nat count) l) else UB
  end.

(** What the four functions return: the code, the ids handed to the callback,
    the value of [*t] afterwards and the caller's data. *)
Definition ffi_out (T C : Type) : Type := code * list nat * T * C.

(** lib.rs:551-581 [intersect]; the [is_nan] test comes before the handle is
    used. *)
Definition ffi_intersect {C} (fuel : nat) (st : ffi) (h : handle) (origin direction : vec3) (t : f32)
    (f : C -> nat -> f32 -> bool * C * f32) (c : C) : res (ffi_out f32 C) :=
  if vnan origin || vnan direction then Ok (CNan, [], t, c) else
  let r := ray_set_t (ray_new origin direction) t in
  do ns <- handle_slice (f_nodes st) (h_nodes h) (h_node_count h);
  do is <- handle_slice (f_idx st) (h_indices h) (h_index_count h);
  do (ps, r', c') <- ffi_loop (bvh_turn ray f32 intersect flt (fun _ => true) ns is) (ray_callback f)
                       fuel c r (bvh_init (ray_alive ns r));
  Ok (COk, ps, r_t r', c').

(** lib.rs:660-671: the packet built from the six lanes. *)
Definition ffi_packet (ox oy oz dx dy dz t : vec4) : packet :=
  let one := wsplat f1 in
  Packet ox oy oz dx dy dz (wdiv one dx) (wdiv one dy) (wdiv one dz) t.
Definition lanes_nan (ox oy oz dx dy dz : vec4) : bool :=
  wnan ox || wnan oy || wnan oz || wnan dx || wnan dy || wnan dz.

(** lib.rs:599-686 [intersect_packet]; [t_addr] is the address of [t], which
    [copy_nonoverlapping] (687) writes as a [Vec4]. *)
Definition ffi_intersect_packet {C} (fuel : nat) (st : ffi) (h : handle) (ox oy oz dx dy dz : vec4) (t_addr : Z) (t : vec4)
    (f : C -> nat -> vec4 -> bool * C * vec4) (c : C) : res (ffi_out vec4 C) :=
  if lanes_nan ox oy oz dx dy dz then Ok (CNan, [], t, c) else
  let r := ffi_packet ox oy oz dx dy dz t in
  do ns <- handle_slice (f_nodes st) (h_nodes h) (h_node_count h);
  do is <- handle_slice (f_idx st) (h_indices h) (h_index_count h);
  do (ps, r', c') <- ffi_loop (bvh_turn packet vec4 intersect4 (fun a b => many (wcmp flt a b)) (fun _ => true) ns is)
                       (packet_callback f) fuel c r (bvh_init (packet_alive ns r));
  if t_addr mod align_vec4 =? 0 then Ok (COk, ps, p_t r', c') else UB.

(** lib.rs:700-731 [intersect_mbvh]. *)
Definition ffi_intersect_mbvh {C} (fuel : nat) (st : ffi) (h : handle) (origin direction : vec3) (t : f32)
    (f : C -> nat -> f32 -> bool * C * f32) (c : C) : res (ffi_out f32 C) :=
  if vnan origin || vnan direction then Ok (CNan, [], t, c) else
  let r := ray_set_t (ray_new origin direction) t in
  do ms <- handle_slice (f_quads st) (h_nodes h) (h_node_count h);
  do is <- handle_slice (f_idx st) (h_indices h) (h_index_count h);
  do (ps, r', c') <- ffi_loop (mbvh_turn ray m_intersect (fun _ => true) ms is) (ray_callback f)
                       fuel c r (mbvh_init ray m_intersect ms r);
  Ok (COk, ps, r_t r', c').

(** lib.rs:749-836 [intersect_mbvh_packet]. *)
Definition ffi_intersect_mbvh_packet {C} (fuel : nat) (st : ffi) (h : handle) (ox oy oz dx dy dz : vec4) (t_addr : Z) (t : vec4)
    (f : C -> nat -> vec4 -> bool * C * vec4) (c : C) : res (ffi_out vec4 C) :=
  if lanes_nan ox oy oz dx dy dz then Ok (CNan, [], t, c) else
  let r := ffi_packet ox oy oz dx dy dz t in
  do ms <- handle_slice (f_quads st) (h_nodes h) (h_node_count h);
  do is <- handle_slice (f_idx st) (h_indices h) (h_index_count h);
  do (ps, r', c') <- ffi_loop (mbvh_turn packet m_intersect4 (fun _ => true) ms is) (packet_callback f)
                       fuel c r (mbvh_init packet m_intersect4 ms r);
  if t_addr mod align_vec4 =? 0 then Ok (COk, ps, p_t r', c') else UB.
