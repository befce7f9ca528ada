(** * BVH nodes: src/bvh_node.rs *)
Require Import List ZArith Bool.
From Verif Require Import F32 Vec RayModel AabbModel Base.
Import ListNotations.
Local Open Scope Z_scope.

(** bvh_node.rs:11-13 [BvhNode { bounds: Aabb<i32> }]: [extra1] is the count,
    [extra2] is [left_first]. *)
Notation node := aabb (only parsing).

(** bvh_node.rs:62-66 [BvhNode::new] (= default). *)
Definition node_new : node := aabb_new.

(** bvh_node.rs:78-84 [set_left_first]/86-90 [with_left_first]; [l as i32]. *)
Definition set_left_first (n : node) (lf : option Z) : node :=
  Bb (bmin n) (ex1 n) (bmax n) (match lf with Some l => as_i32 l | None => -1 end).

(** bvh_node.rs:106-112 [set_count]/114-118 [with_count]. *)
Definition set_count (n : node) (c : option Z) : node :=
  Bb (bmin n) (match c with Some c => as_i32 c | None => -1 end) (bmax n) (ex2 n).

(** bvh_node.rs:92-99 [get_left_first]: [extra2 as u32]. *)
Definition get_left_first (n : node) : option Z :=
  if 0 <=? ex2 n then Some (as_u32 (ex2 n)) else None.

(** bvh_node.rs:120-127 [get_count]. *)
Definition get_count (n : node) : option Z :=
  if 0 <=? ex1 n then Some (as_u32 (ex1 n)) else None.

(** bvh_node.rs:101-104, 129-132 the unchecked getters. *)
Definition left_first_unchecked (n : node) : Z := ex2 n.
Definition count_unchecked (n : node) : Z := ex1 n.

(** bvh_node.rs:134-137 [has_children]. *)
Definition has_children (n : node) : bool := (ex1 n <? 0) && (0 <=? ex2 n).
(** bvh_node.rs:139-142 [is_leaf]. *)
Definition is_leaf (n : node) : bool := 0 <=? ex1 n.
(** bvh_node.rs:144-147 [is_valid]. *)
Definition node_valid (n : node) : bool := 0 <=? ex2 n.

(** bvh_node.rs:149-177 [sort_nodes] and 179-211 [sort_nodes4], which differ
    only in how the two entry distances are compared ([closer]).  The writes
    [hit_stack[stack_ptr as usize] = ..] are bounds checked. *)
Definition sort_nodes_gen {H} (closer : H -> H -> bool) (left right : option H)
    (stack : list Z) (sp : Z) (left_first : Z) : res (list Z * Z) :=
  match left, right with
  | Some tl, Some tr =>
      let sp := sp + 1 in
      if closer tl tr then
        do stack <- set stack (as_usize sp) left_first;
        let sp := sp + 1 in
        do stack <- set stack (as_usize sp) (left_first + 1);
        Ok (stack, sp)
      else
        do stack <- set stack (as_usize sp) (left_first + 1);
        let sp := sp + 1 in
        do stack <- set stack (as_usize sp) left_first;
        Ok (stack, sp)
  | Some _, None =>
      let sp := sp + 1 in
      do stack <- set stack (as_usize sp) left_first;
      Ok (stack, sp)
  | None, Some _ =>
      let sp := sp + 1 in
      do stack <- set stack (as_usize sp) (left_first + 1);
      Ok (stack, sp)
  | None, None => Ok (stack, sp)
  end.
