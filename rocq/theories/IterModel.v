(** * Traversal iterators over the binary BVH: src/iter.rs, src/iter_indices.rs *)
Require Import List ZArith Bool.
From Verif Require Import F32 Vec RayModel AabbModel Base NodeModel.
Import ListNotations.
Local Open Scope Z_scope.

(** The four binary iterators have the same code up to
    - the ray type [R] ([Ray] or [RayPacket4]) with its node test [inter] and
      the comparison used by [sort_nodes]/[sort_nodes4];
    - whether a primitive id is looked up in a primitive slice ([found]: the
      index iterators yield every id, the primitive iterators only ids for
      which [primitives.get(id)] is [Some]). *)
Section Binary.
  Variable R H : Type.
  Variable inter : node -> R -> option H.
  Variable closer : H -> H -> bool.
  Variable found : nat -> bool.
  Variable nodes : list node.
  Variable indices : list nat.

  (** iter.rs:22-31: the mutable fields [i], [stack: [i32; 32]], [stack_ptr]. *)
  Record bit := Bit { b_i : Z; b_stack : list Z; b_sp : Z }.

  (** Result of one turn of the [loop] in [next]. *)
  Inductive turn := Yield (prim : nat) | Again | Done.

  (** iter.rs:88-127 (ray), 203-242 (packet), iter_indices.rs:69-106, 172-209:
      one turn of the loop. *)
  Definition bvh_turn (r : R) (s : bit) : res (turn * bit) :=
    if b_sp s <? 0 then Ok (Done, s) else
    do top <- get_unchecked (b_stack s) (as_usize (b_sp s));
    do n <- get_unchecked nodes (as_usize top);
    let sp := b_sp s - 1 in
    let count := count_unchecked n in
    let left_first := left_first_unchecked n in
    if count >? -1 then
      if b_i s <? count then
        do prim <- get_unchecked indices (as_usize (left_first + b_i s));
        let i := b_i s + 1 in
        let sp := sp + 1 in
        if found prim then Ok (Yield prim, Bit i (b_stack s) sp)
        else Ok (Again, Bit 0 (b_stack s) sp)
      else Ok (Again, Bit 0 (b_stack s) sp)
    else if left_first >? -1 then
      do nl <- get_unchecked nodes (as_usize left_first);
      do nr <- get_unchecked nodes (as_usize (left_first + 1));
      do (stack, sp) <- sort_nodes_gen closer (inter nl r) (inter nr r) (b_stack s) sp left_first;
      Ok (Again, Bit (b_i s) stack sp)
    else Ok (Again, Bit (b_i s) (b_stack s) sp).

  (** [next]: the loop, with fuel. *)
  Fixpoint bvh_next (fuel : nat) (r : R) (s : bit) : res (option nat * bit) :=
    match fuel with
    | O => OutOfFuel
    | S k =>
        do (t, s') <- bvh_turn r s;
        match t with
        | Yield p => Ok (Some p, s')
        | Done => Ok (None, s')
        | Again => bvh_next k r s'
        end
    end.

  (** iter.rs:35-54: the initial state; [alive] is the negation of the
      emptiness/NaN tests. *)
  Definition bvh_init (alive : bool) : bit := Bit 0 (repeat 0 32) (if alive then 0 else -1).

  (** A client that calls [next] until it returns [None] (a [for] loop).
      Between two calls it may replace the ray (the iterator hands out
      [&mut Ray]): [client] is what it does with each yielded primitive, [C]
      its own state.  [next] is "turns until [Yield] or [Done]", so the whole
      loop is a sequence of turns; [fuel] bounds their number.  The result
      is the list of yielded ids, the rays that were current between two
      yields (in order) and the final client state. *)
  Variable C : Type.
  Variable client : C -> nat -> R -> C * R.

  Fixpoint bvh_run (fuel : nat) (c : C) (r : R) (s : bit) : res (list nat * list R * C) :=
    match fuel with
    | O => OutOfFuel
    | S k =>
        do (t, s') <- bvh_turn r s;
        match t with
        | Done => Ok ([], [r], c)
        | Again => bvh_run k c r s'
        | Yield p =>
            let '(c', r') := client c p r in
            do (ps, rs, c'') <- bvh_run k c' r' s';
            Ok (p :: ps, r :: rs, c'')
        end
    end.
End Binary.

Arguments Bit b_i b_stack b_sp : clear implicits.

(** iter.rs:35-41 and iter_indices.rs: the liveness tests. *)
Definition ray_alive (nodes : list node) (r : ray) : bool :=
  negb (match nodes with [] => true | _ => false end || vnan (r_origin r) || vnan (r_dir r)).
Definition packet_alive (nodes : list node) (p : packet) : bool :=
  negb (match nodes with [] => true | _ => false end || wnan (p_ox p) || wnan (p_oy p) || wnan (p_oz p)
        || wnan (p_dx p) || wnan (p_dy p) || wnan (p_dz p)).

(** ** The four [for] loops a client can write over a binary BVH

    [iter_*_indices]: iter_indices.rs:18-107 and 109-210 (every id is
    yielded); [iter_*_prims]: iter.rs:21-128 and 130-243, where only the ids
    below [nprims] (the length of the primitive slice) can be yielded and an
    empty slice kills the iterator (38-41, 152). *)
Definition iter_ray_indices {C} (nodes : list node) (indices : list nat)
    (client : C -> nat -> ray -> C * ray) (fuel : nat) (c : C) (r : ray) :=
  bvh_run ray f32 intersect flt (fun _ => true) nodes indices C client fuel c r
          (bvh_init (ray_alive nodes r)).
Definition iter_ray_prims {C} (nprims : nat) (nodes : list node) (indices : list nat)
    (client : C -> nat -> ray -> C * ray) (fuel : nat) (c : C) (r : ray) :=
  bvh_run ray f32 intersect flt (fun p => Nat.ltb p nprims) nodes indices C client fuel c r
          (bvh_init (ray_alive nodes r && negb (Nat.eqb nprims 0))).
Definition iter_packet_indices {C} (nodes : list node) (indices : list nat)
    (client : C -> nat -> packet -> C * packet) (fuel : nat) (c : C) (p : packet) :=
  bvh_run packet vec4 intersect4 (fun a b => many (wcmp flt a b)) (fun _ => true) nodes indices C client fuel c p
          (bvh_init (packet_alive nodes p)).
Definition iter_packet_prims {C} (nprims : nat) (nodes : list node) (indices : list nat)
    (client : C -> nat -> packet -> C * packet) (fuel : nat) (c : C) (p : packet) :=
  bvh_run packet vec4 intersect4 (fun a b => many (wcmp flt a b)) (fun p => Nat.ltb p nprims) nodes indices C
          client fuel c p (bvh_init (packet_alive nodes p && negb (Nat.eqb nprims 0))).
