(** * Addresses of 4-wide nodes: the aligned loads of src/mbvh_node.rs
    (x86 and x86-64, feature [wasm_support] off) *)
Require Import List ZArith Bool.
From Verif Require Import F32 Vec RayModel Base IterModel MbvhModel.
Import ListNotations.
Local Open Scope Z_scope.

(** [_mm_load_ps]: reads four floats at [addr], which must be a multiple of
    16; anything else is undefined behaviour. *)
Definition load_ps (addr : Z) (v : vec4) : res vec4 := if addr mod 16 =? 0 then Ok v else UB.

(** mbvh_node.rs:26-38: [MbvhNode] is [repr(C)]: six [[f32; 4]] and two
    [[i32; 4]], so the arrays are 16 bytes apart and a node has 128 bytes.  The
    alignment of the type is that of its fields, 4. *)
Definition mnode_size : Z := 128.
Definition mnode_align : Z := 4.

(** mbvh_node.rs:80-109 [points] of the node at [addr] ([min_points] and
    [max_points], 111-159, are parts of it and not used by the crate). *)
Definition points (addr : Z) (m : mnode) : res (vec4 * vec4 * vec4 * vec4 * vec4 * vec4) :=
  do min_x <- load_ps addr (mn_x m);
  do max_x <- load_ps (addr + 16) (mx_x m);
  do min_y <- load_ps (addr + 32) (mn_y m);
  do max_y <- load_ps (addr + 48) (mx_y m);
  do min_z <- load_ps (addr + 64) (mn_z m);
  do max_z <- load_ps (addr + 80) (mx_z m);
  Ok (min_x, max_x, min_y, max_y, min_z, max_z).

(** mbvh_node.rs:177-295 [intersect] and [intersect4] use only the loaded
    values of the boxes. *)
Definition inter_at {R} (inter : mnode -> R -> mhit) (addr : Z) (m : mnode) (r : R) : res mhit :=
  do (min_x, max_x, min_y, max_y, min_z, max_z) <- points addr m;
  Ok (inter (Mn min_x max_x min_y max_y min_z max_z (m_children m) (m_counts m)) r).

Section QuadAt.
  Variable R : Type.
  Variable inter : mnode -> R -> mhit.
  Variable found : nat -> bool.
  (** The address of the first node. *)
  Variable base : Z.
  Variable mnodes : list mnode.
  Variable indices : list nat.

  (** As [mbvh_turn] (iter.rs:308-354, 420-468, iter_indices.rs:267-312,
      370-414), with the box test at the address of the node. *)
  Definition turn_at (r : R) (s : mit) : res (turn * mit) :=
    do node <- get_unchecked mnodes (as_usize (q_cur s));
    if q_i s >=? 4 then
      if q_sp s <? 0 then Ok (Done, s) else
      do cur <- get (q_stack s) (as_usize (q_sp s));
      do n <- get_unchecked mnodes (as_usize cur);
      do hit <- inter_at inter (base + mnode_size * Z.of_nat (as_usize cur)) n r;
      Ok (Again, Mit hit cur 0 (q_j s) (q_stack s) (q_sp s - 1))
    else
      do id <- get_unchecked (h_ids (q_hit s)) (as_usize (3 - q_i s));
      if mget (h_result (q_hit s)) id then
        let count := zget (m_counts node) id in
        let left_first := zget (m_children node) id in
        if count >? -1 then
          if q_j s <? count then
            do prim <- get_unchecked indices (as_usize (left_first + q_j s));
            if found prim then Ok (Yield prim, Mit (q_hit s) (q_cur s) (q_i s) (q_j s + 1) (q_stack s) (q_sp s))
            else Ok (Again, Mit (q_hit s) (q_cur s) (q_i s + 1) 0 (q_stack s) (q_sp s))
          else Ok (Again, Mit (q_hit s) (q_cur s) (q_i s + 1) 0 (q_stack s) (q_sp s))
        else if left_first >? -1 then
          let sp := q_sp s + 1 in
          do stack <- set_unchecked (q_stack s) (as_usize sp) left_first;
          Ok (Again, Mit (q_hit s) (q_cur s) (q_i s + 1) (q_j s) stack sp)
        else Ok (Again, Mit (q_hit s) (q_cur s) (q_i s + 1) (q_j s) (q_stack s) (q_sp s))
      else Ok (Again, Mit (q_hit s) (q_cur s) (q_i s + 1) (q_j s) (q_stack s) (q_sp s)).

  (** iter.rs:262-303, 374-415, iter_indices.rs:228-262, 331-365 [new] and
      [from_slices]: the root is tested when the iterator is made. *)
  Definition init_at (r : R) : res mit :=
    do hit <- match mnodes with [] => Ok hit_default | n :: _ => inter_at inter base n r end;
    Ok (Mit hit 0 0 0 (repeat 0 32) (-1)).

  Variable C : Type.
  Variable client : C -> nat -> R -> C * R.
  Fixpoint run_at (fuel : nat) (c : C) (r : R) (s : mit) : res (list nat * list R * C) :=
    match fuel with
    | O => OutOfFuel
    | S k =>
        do (t, s') <- turn_at r s;
        match t with
        | Done => Ok ([], [r], c)
        | Again => run_at k c r s'
        | Yield p =>
            let '(c', r') := client c p r in
            do (ps, rs, c'') <- run_at k c' r' s';
            Ok (p :: ps, r :: rs, c'')
        end
    end.
  (** Making the iterator and running a [for] loop over it. *)
  Definition loop_at (fuel : nat) (c : C) (r : R) : res (list nat * list R * C) :=
    do s <- init_at r; run_at fuel c r s.
End QuadAt.

(** The four [for] loops over the 4-wide nodes [ms] stored at [base]. *)
Definition at_ray_indices {C} base (ms : list mnode) (indices : list nat) (client : C -> nat -> ray -> C * ray) fuel (c : C) (r : ray) :=
  loop_at ray m_intersect (fun _ => true) base ms indices C client fuel c r.
Definition at_ray_prims {C} nprims base (ms : list mnode) (indices : list nat) (client : C -> nat -> ray -> C * ray) fuel (c : C) (r : ray) :=
  loop_at ray m_intersect (fun p => Nat.ltb p nprims) base ms indices C client fuel c r.
Definition at_packet_indices {C} base (ms : list mnode) (indices : list nat) (client : C -> nat -> packet -> C * packet) fuel (c : C) (p : packet) :=
  loop_at packet m_intersect4 (fun _ => true) base ms indices C client fuel c p.
Definition at_packet_prims {C} nprims base (ms : list mnode) (indices : list nat) (client : C -> nat -> packet -> C * packet) fuel (c : C) (p : packet) :=
  loop_at packet m_intersect4 (fun q => Nat.ltb q nprims) base ms indices C client fuel c p.
