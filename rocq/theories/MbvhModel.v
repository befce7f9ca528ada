(** * 4-wide BVHs: src/mbvh_node.rs, src/bvh.rs (Mbvh) and the Mbvh iterators *)
Require Import List ZArith Bool.
From Verif Require Import F32 Vec RayModel AabbModel Base NodeModel IterModel LocbModel.
Import ListNotations.
Local Open Scope Z_scope.

(** [[i32; 4]]; every index used by the code is a constant below 4 or an
    element of [ids], so the accessors are total. *)
Record z4 := Z4 { z0 : Z; z1 : Z; z2 : Z; z3 : Z }.
Definition zget (v : z4) (i : nat) : Z :=
  match i with 0%nat => z0 v | 1%nat => z1 v | 2%nat => z2 v | _ => z3 v end.
Definition zset (v : z4) (i : nat) (a : Z) : z4 :=
  match i with
  | 0%nat => Z4 a (z1 v) (z2 v) (z3 v)
  | 1%nat => Z4 (z0 v) a (z2 v) (z3 v)
  | 2%nat => Z4 (z0 v) (z1 v) a (z3 v)
  | _ => Z4 (z0 v) (z1 v) (z2 v) a
  end.

(** mbvh_node.rs:26-38 [MbvhNode]. *)
Record mnode := Mn { mn_x : vec4; mx_x : vec4; mn_y : vec4; mx_y : vec4; mn_z : vec4; mx_z : vec4;
                     m_children : z4; m_counts : z4 }.

(** mbvh_node.rs:56-79 [MbvhNode::new]. *)
Definition mnode_new : mnode :=
  let hi := wsplat f1e34 in let lo := wsplat (fneg f1e34) in
  Mn hi lo hi lo hi lo (Z4 (-1) (-1) (-1) (-1)) (Z4 (-1) (-1) (-1) (-1)).
(** mbvh_node.rs:40-53 [Default]. *)
Definition mnode_default : mnode :=
  let o := wsplat f0 in Mn o o o o o o (Z4 (-1) (-1) (-1) (-1)) (Z4 (-1) (-1) (-1) (-1)).

(** mbvh_node.rs:161-174 [set_bounds]/[set_bounds_bb]. *)
Definition set_bounds_bb (i : nat) (b : aabb) (m : mnode) : mnode :=
  Mn (wset (mn_x m) i (vx (bmin b))) (wset (mx_x m) i (vx (bmax b)))
     (wset (mn_y m) i (vy (bmin b))) (wset (mx_y m) i (vy (bmax b)))
     (wset (mn_z m) i (vz (bmin b))) (wset (mx_z m) i (vz (bmax b)))
     (m_children m) (m_counts m).
(** [mbvh_pool[m_index].children[i] = ..] and [.counts[i] = ..]. *)
Definition set_child (i : nat) (v : Z) (m : mnode) : mnode :=
  Mn (mn_x m) (mx_x m) (mn_y m) (mx_y m) (mn_z m) (mx_z m) (zset (m_children m) i v) (m_counts m).
Definition set_mcount (i : nat) (v : Z) (m : mnode) : mnode :=
  Mn (mn_x m) (mx_x m) (mn_y m) (mx_y m) (mn_z m) (mx_z m) (m_children m) (zset (m_counts m) i v).

(** mbvh_node.rs:9-24 [MbvhHit] and its default. *)
Record mhit := Hit { h_ids : list nat; h_result : mask4 }.
Definition hit_default : mhit := Hit [0%nat; 0%nat; 0%nat; 0%nat] (M4 false false false false).

(** mbvh_node.rs:177-213 the slab part of [intersect]. *)
Definition m_slabs (m : mnode) (r : ray) : vec4 * vec4 :=
  let ox := wsplat (vx (r_origin r)) in
  let oy := wsplat (vy (r_origin r)) in
  let oz := wsplat (vz (r_origin r)) in
  let ix := wsplat (vx (r_inv r)) in
  let iy := wsplat (vy (r_inv r)) in
  let iz := wsplat (vz (r_inv r)) in
  let tx0 := wmul (wsub (mn_x m) ox) ix in
  let tx1 := wmul (wsub (mx_x m) ox) ix in
  let ty0 := wmul (wsub (mn_y m) oy) iy in
  let ty1 := wmul (wsub (mx_y m) oy) iy in
  let tz0 := wmul (wsub (mn_z m) oz) iz in
  let tz1 := wmul (wsub (mx_z m) oz) iz in
  let t_min := wmax (wmin tx0 tx1) (wmax (wmin ty0 ty1) (wmin tz0 tz1)) in
  let t_max := wmin (wmax tx0 tx1) (wmin (wmax ty0 ty1) (wmax tz0 tz1)) in
  (t_min, t_max).

(** mbvh_node.rs:215-237 ordering of the four slots by entry distance: five
    conditional swaps of [t_minf] and [ids]; the last one swaps [ids] only. *)
Definition order_ids (t : vec4) : list nat :=
  let '(t0, t1, i0, i1) :=
    if fgt (wx t) (wy t) then (wy t, wx t, 1%nat, 0%nat) else (wx t, wy t, 0%nat, 1%nat) in
  let '(t2, t3, i2, i3) :=
    if fgt (wz t) (ww t) then (ww t, wz t, 3%nat, 2%nat) else (wz t, ww t, 2%nat, 3%nat) in
  let '(t0, t2, i0, i2) := if fgt t0 t2 then (t2, t0, i2, i0) else (t0, t2, i0, i2) in
  let '(t1, t3, i1, i3) := if fgt t1 t3 then (t3, t1, i3, i1) else (t1, t3, i1, i3) in
  let '(i2, i3) := if fgt t2 t3 then (i3, i2) else (i2, i3) in
  [i0; i1; i2; i3].

(** mbvh_node.rs:177-240 [MbvhNode::intersect]. *)
Definition m_intersect (m : mnode) (r : ray) : mhit :=
  let '(t_min, t_max) := m_slabs m r in
  Hit (order_ids t_min) (mand (wcmp fge t_max t_min) (wcmp flt t_min (wsplat (r_t r)))).

(** mbvh_node.rs:250-280 one turn of the loop over the packet's rays: the mask
    of the slots hit by ray [i]. *)
Definition m_lane_mask (m : mnode) (p : packet) (i : nat) : mask4 :=
  let org := wsplat (wget (p_ox p) i) in
  let dir := wsplat (wget (p_ix p) i) in
  let t1 := wmul (wsub (mn_x m) org) dir in
  let t2 := wmul (wsub (mx_x m) org) dir in
  let t_min := wmin t1 t2 in
  let t_max := wmax t1 t2 in
  let org := wsplat (wget (p_oy p) i) in
  let dir := wsplat (wget (p_iy p) i) in
  let t1 := wmul (wsub (mn_y m) org) dir in
  let t2 := wmul (wsub (mx_y m) org) dir in
  let t_min := wmax t_min (wmin t1 t2) in
  let t_max := wmin t_max (wmax t1 t2) in
  let org := wsplat (wget (p_oz p) i) in
  let dir := wsplat (wget (p_iz p) i) in
  let t1 := wmul (wsub (mn_z m) org) dir in
  let t2 := wmul (wsub (mx_z m) org) dir in
  let t_min := wmax t_min (wmin t1 t2) in
  let t_max := wmin t_max (wmax t1 t2) in
  mand (wcmp fgt t_max t_min) (wcmp flt t_min (wsplat (wget (p_t p) i))).

(** mbvh_node.rs:243-295 [MbvhNode::intersect4] ([final_t_min] is computed but
    not used by the code). *)
Definition m_intersect4 (m : mnode) (p : packet) : mhit :=
  let result := fold_left (fun acc i => mor acc (m_lane_mask m p i)) [0%nat; 1%nat; 2%nat; 3%nat]
                          (M4 false false false false) in
  Hit [0%nat; 1%nat; 2%nat; 3%nat] result.

(** ** Collapsing a binary BVH *)

(** [mbvh_pool[m_index]] mutated by [f] (bounds checked). *)
Definition upd_m (pool : list mnode) (k : nat) (f : mnode -> mnode) : res (list mnode) :=
  do m <- get pool k;
  set pool k (f m).

(** mbvh_node.rs:323-343 / 354-374: one grandchild at [idx] goes to slot [s];
    [as_node] is the number written to [nodes[s]] for an inner grandchild.
    The two branches set the same bounds. *)
Definition grandchild (bvh : list node) (m_index s : nat) (idx : nat) (as_node : Z) (pool : list mnode)
    : res (list mnode * (Z * Z)) :=
  do g <- get bvh idx;
  if is_leaf g then
    do pool <- upd_m pool m_index (set_bounds_bb s g);
    Ok (pool, (left_first_unchecked g, count_unchecked g))
  else
    do pool <- upd_m pool m_index (set_bounds_bb s g);
    Ok (pool, (as_node, -1)).

(** mbvh_node.rs:317-346 (left child, [s] = 0) and 348-377 (right, [s] = 2):
    the entries [(nodes[s], leafs[s])] and [(nodes[s+1], leafs[s+1])]. *)
Definition half (bvh : list node) (m_index s : nat) (child : Z) (pool : list mnode)
    : res (list mnode * (Z * Z) * (Z * Z)) :=
  match nth_error bvh (as_usize child) with
  | None => Ok (pool, (-1, -1), (-1, -1))
  | Some c =>
      match get_left_first c with
      | None => Ok (pool, (-1, -1), (-1, -1))
      | Some lf =>
          if is_leaf c then Ok (pool, (as_i32 lf, count_unchecked c), (-1, -1))
          else
            do (pool, a) <- grandchild bvh m_index s (as_usize lf) (as_i32 lf) pool;
            do (pool, b) <- grandchild bvh m_index (S s) (as_usize lf + 1) (as_i32 lf + 1) pool;
            Ok (pool, a, b)
      end
  end.

(** mbvh_node.rs:384-410: what is done with slot [i], given [rec], the
    recursive call. *)
Definition fill_slot (rec : nat -> nat -> list mnode -> nat -> res (list mnode * nat))
    (bvh : list node) (m_index : nat) (slot : nat * (Z * Z)) (st : list mnode * nat)
    : res (list mnode * nat) :=
  let '(i, (node, count)) := slot in
  let '(pool, pool_ptr) := st in
  if (0 <=? node) && (0 <=? count) then
    do pool <- upd_m pool m_index (fun m => set_mcount i count (set_child i node m));
    Ok (pool, pool_ptr)
  else if node =? -1 then Ok (pool, pool_ptr)
  else
    do g <- get bvh (as_usize node);
    if is_leaf g then
      do pool <- upd_m pool m_index (fun m => set_bounds_bb i g
                   (set_mcount i (count_unchecked g) (set_child i (left_first_unchecked g) m)));
      Ok (pool, pool_ptr)
    else
      let new_m_index := pool_ptr in
      let pool_ptr := S pool_ptr in
      do pool <- upd_m pool m_index (fun m => set_bounds_bb i g (set_child i (as_i32 (Z.of_nat new_m_index)) m));
      rec new_m_index (as_usize node) pool pool_ptr.

(** mbvh_node.rs:297-411 [merge_nodes] (with fuel for the recursion). *)
Fixpoint merge_nodes (fuel : nat) (bvh : list node) (m_index cur_node : nat) (pool : list mnode)
    (pool_ptr : nat) : res (list mnode * nat) :=
  match fuel with
  | O => OutOfFuel
  | S fuel =>
      do cur <- get bvh cur_node;
      do pool <- for_each [0%nat; 1%nat; 2%nat; 3%nat] (fun i pool => upd_m pool m_index (set_bounds_bb i cur)) pool;
      do (pool, slots) <-
        match get_left_first cur with
        | Some lf =>
            do (pool, a, b) <- half bvh m_index 0 lf pool;
            do (pool, c, d) <- half bvh m_index 2 (as_u32 (lf + 1)) pool;
            Ok (pool, [(0%nat, a); (1%nat, b); (2%nat, c); (3%nat, d)])
        | None => Ok (pool, [])
        end;
      for_each slots (fill_slot (fun mi cn pool ptr => merge_nodes fuel bvh mi cn pool ptr) bvh m_index) (pool, pool_ptr)
  end.

(** bvh.rs:320-324 [Mbvh]. *)
Record mbvh := Mbvh { mb_nodes : list node; m_nodes : list mnode; mb_indices : list nat }.

(** [Vec::resize]. *)
Definition resize {A} (l : list A) (n : nat) (d : A) : list A := firstn n l ++ repeat d (n - length l).

(** bvh.rs:381-404 [Mbvh::construct] (also [From<Bvh>], 446-450). *)
Definition mbvh_construct (fuel : nat) (b : bvh) : res mbvh :=
  match nodes b with
  | [] => Ok (Mbvh [] [] [])
  | _ =>
      do (pool, pool_ptr) <- merge_nodes fuel (nodes b) 0 0 (repeat mnode_new (length (nodes b))) 1;
      Ok (Mbvh (nodes b) (resize pool pool_ptr mnode_default) (prim_indices b))
  end.

(** bvh.rs:353-379 [Mbvh::construct_from_raw]. *)
Definition mbvh_from_raw (fuel : nat) (ns : list node) (indices : list nat) : res mbvh :=
  let pool := repeat mnode_new (length ns) in
  if Nat.leb (length ns) 4 then
    do pool <- for_each (combine (seq 0 (length ns)) ns)
      (fun (x : nat * node) pool => let '(i, n) := x in
         upd_m pool 0 (fun m => set_mcount i (count_unchecked n)
                                  (set_child i (left_first_unchecked n) (set_bounds_bb i n m)))) pool;
    Ok (Mbvh ns pool indices)
  else
    do (pool, _) <- merge_nodes fuel ns 0 0 pool 1;
    Ok (Mbvh ns pool indices).

(** bvh.rs:452-468 [Bounds::bounds] of both trees. *)
Definition nodes_bounds (ns : list node) : aabb := match ns with [] => aabb_new | n :: _ => n end.

(** ** Traversal *)
Section Quad.
  Variable R : Type.
  Variable inter : mnode -> R -> mhit.
  Variable found : nat -> bool.
  Variable mnodes : list mnode.
  Variable indices : list nat.

  (** iter.rs:247-257: the mutable fields. *)
  Record mit := Mit { q_hit : mhit; q_cur : Z; q_i : Z; q_j : Z; q_stack : list Z; q_sp : Z }.

  (** iter.rs:308-354 (ray), 420-468 (packet), iter_indices.rs:267-312,
      370-414: one turn of the loop in [next]. *)
  Definition mbvh_turn (r : R) (s : mit) : res (turn * mit) :=
    do node <- get_unchecked mnodes (as_usize (q_cur s));
    if q_i s >=? 4 then
      if q_sp s <? 0 then Ok (Done, s) else
      do cur <- get (q_stack s) (as_usize (q_sp s));
      do n <- get_unchecked mnodes (as_usize cur);
      Ok (Again, Mit (inter n r) cur 0 (q_j s) (q_stack s) (q_sp s - 1))
    else
      do id <- get_unchecked (h_ids (q_hit s)) (as_usize (3 - q_i s));
      if mget (h_result (q_hit s)) id then
        let count := zget (m_counts node) id in
        let left_first := zget (m_children node) id in
        if count >? -1 then
          if q_j s <? count then
            do prim <- get_unchecked indices (as_usize (left_first + q_j s));
            if found prim then Ok (Yield prim, Mit (q_hit s) (q_cur s) (q_i s) (q_j s + 1) (q_stack s) (q_sp s))
            else Ok (Again, Mit (q_hit s) (q_cur s) (q_i s + 1) 0 (q_stack s) (q_sp s))
          else Ok (Again, Mit (q_hit s) (q_cur s) (q_i s + 1) 0 (q_stack s) (q_sp s))
        else if left_first >? -1 then
          let sp := q_sp s + 1 in
          do stack <- set_unchecked (q_stack s) (as_usize sp) left_first;
          Ok (Again, Mit (q_hit s) (q_cur s) (q_i s + 1) (q_j s) stack sp)
        else Ok (Again, Mit (q_hit s) (q_cur s) (q_i s + 1) (q_j s) (q_stack s) (q_sp s))
      else Ok (Again, Mit (q_hit s) (q_cur s) (q_i s + 1) (q_j s) (q_stack s) (q_sp s)).

  (** iter.rs:262-280: the initial state. *)
  Definition mbvh_init (r : R) : mit :=
    Mit (match mnodes with [] => hit_default | n :: _ => inter n r end) 0 0 0 (repeat 0 32) (-1).

  (** [next] (the same lines): the loop, with fuel. *)
  Fixpoint mbvh_next (fuel : nat) (r : R) (s : mit) : res (option nat * mit) :=
    match fuel with
    | O => OutOfFuel
    | S k =>
        do (t, s') <- mbvh_turn r s;
        match t with
        | Yield p => Ok (Some p, s')
        | Done => Ok (None, s')
        | Again => mbvh_next k r s'
        end
    end.

  (** A client loop, as for the binary iterators. *)
  Variable C : Type.
  Variable client : C -> nat -> R -> C * R.
  Fixpoint mbvh_run (fuel : nat) (c : C) (r : R) (s : mit) : res (list nat * list R * C) :=
    match fuel with
    | O => OutOfFuel
    | S k =>
        do (t, s') <- mbvh_turn r s;
        match t with
        | Done => Ok ([], [r], c)
        | Again => mbvh_run k c r s'
        | Yield p =>
            let '(c', r') := client c p r in
            do (ps, rs, c'') <- mbvh_run k c' r' s';
            Ok (p :: ps, r :: rs, c'')
        end
    end.
End Quad.

Arguments Mit q_hit q_cur q_i q_j q_stack q_sp : clear implicits.

(** The four [for] loops over an Mbvh. *)
Definition miter_ray_indices {C} (ms : list mnode) (indices : list nat)
    (client : C -> nat -> ray -> C * ray) (fuel : nat) (c : C) (r : ray) :=
  mbvh_run ray m_intersect (fun _ => true) ms indices C client fuel c r (mbvh_init ray m_intersect ms r).
Definition miter_ray_prims {C} (nprims : nat) (ms : list mnode) (indices : list nat)
    (client : C -> nat -> ray -> C * ray) (fuel : nat) (c : C) (r : ray) :=
  mbvh_run ray m_intersect (fun p => Nat.ltb p nprims) ms indices C client fuel c r (mbvh_init ray m_intersect ms r).
Definition miter_packet_indices {C} (ms : list mnode) (indices : list nat)
    (client : C -> nat -> packet -> C * packet) (fuel : nat) (c : C) (p : packet) :=
  mbvh_run packet m_intersect4 (fun _ => true) ms indices C client fuel c p (mbvh_init packet m_intersect4 ms p).
Definition miter_packet_prims {C} (nprims : nat) (ms : list mnode) (indices : list nat)
    (client : C -> nat -> packet -> C * packet) (fuel : nat) (c : C) (p : packet) :=
  mbvh_run packet m_intersect4 (fun p => Nat.ltb p nprims) ms indices C client fuel c p (mbvh_init packet m_intersect4 ms p).
