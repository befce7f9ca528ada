(** * Locally ordered clustering: src/builders/locb.rs

    Sizes and positions are [nat]; the [u32] contents of the auxiliary arrays
    are [N]/[nat].  Subtractions that would underflow are [Panic] (a debug
    build panics, a release build wraps): the theorems show that none does.
    [debug_assert!]s are not modelled.  The two auxiliary slices overlap in the
    source (296-303: one covers [0, 3N), the other [N, 3N) of the same memory);
    the first is only accessed below [N], so the model separates them. *)
Require Import List ZArith Bool Arith NArith.
From Verif Require Import F32 Vec Base AabbModel NodeModel UtilsModel.
Import ListNotations.

(** Underflow-checked [a - b]. *)
Definition usub (a b : nat) : res nat := if b <=? a then Ok (a - b) else Panic.

(** Checked read with a [u32] index ([slice[x as usize]]). *)
Definition getN {A} (l : list A) (i : N) : res A :=
  if N.ltb i (N.of_nat (length l)) then get l (N.to_nat i) else Panic.

(** locb.rs:36-45 [search_range]. *)
Definition search_range (radius i begin end_ : nat) : nat * nat :=
  ((if begin + radius <? i then i - radius else begin), Nat.min (i + radius + 1) end_).

(** locb.rs:87, 111: the distance of two clusters. *)
Definition distance (a b : aabb) : f32 := half_area (union_of a b).

(** locb.rs:71-80 the distance matrix of one chunk: [distances] is the memory,
    [rows] the [radius + 1] row pointers, as offsets into it. *)
Record dmatrix := Dm { distances : list f32; rows : list nat }.
Definition dm_new (radius : nat) : dmatrix :=
  Dm (repeat f0 ((radius + 1) * radius)) (map (fun i => i * radius) (seq 0 (radius + 1))).

(** [*distance_matrix[row].add(col)]: the row index is checked, the pointer is not. *)
Definition dm_get (m : dmatrix) (row col : nat) : res f32 :=
  do p <- get (rows m) row; get_unchecked (distances m) (p + col).
Definition dm_set (m : dmatrix) (row col : nat) (v : f32) : res dmatrix :=
  do p <- get (rows m) row;
  do ds <- set_unchecked (distances m) (p + col) v;
  Ok (Dm ds (rows m)).

(** locb.rs:132-141 rotation of the rows. *)
Definition dm_rotate (radius : nat) (m : dmatrix) : res dmatrix :=
  do last <- get (rows m) radius;
  do (rs, _) <- move_backward (S radius) (rows m) 0 radius (radius + 1);
  do rs <- set rs 0 last;
  Ok (Dm (distances m) rs).

(** A [for x in l] loop with an early exit. *)
Fixpoint for_each {A S} (l : list A) (f : A -> S -> res S) (s : S) : res S :=
  match l with
  | [] => Ok s
  | x :: t => do s <- f x s; for_each t f s
  end.
(** The range [a..b]. *)
Definition range (a b : nat) : list nat := seq a (b - a).

(** locb.rs:82-90 initialisation of the matrix. *)
Definition init_cell (input : list aabb) (chunk_begin i j : nat) (m : dmatrix) : res dmatrix :=
  do a <- get input i;
  do b <- get input j;
  do row <- usub chunk_begin i;
  dm_set m row (j - i - 1) (distance a b).
Definition init_matrix (radius : nat) (input : list aabb) (chunk_begin begin end_ : nat) (m : dmatrix)
    : res dmatrix :=
  for_each (range (fst (search_range radius chunk_begin begin end_)) chunk_begin)
    (fun i => for_each (range (i + 1) (snd (search_range radius i begin end_))) (init_cell input chunk_begin i)) m.

(** The pair (best_distance, best_neighbour); [None] is the index [-1]. *)
Definition best_step (j : nat) (d : f32) (b : f32 * option nat) : f32 * option nat :=
  if flt d (fst b) then (d, Some j) else b.

(** locb.rs:98-107 *)
Definition backward (i : nat) (m : dmatrix) (j : nat) (b : f32 * option nat) : res (f32 * option nat) :=
  do d <- dm_get m (i - j) (i - j - 1);
  Ok (best_step j d b).
(** locb.rs:109-127 *)
Definition forward (input : list aabb) (i j : nat) (s : dmatrix * (f32 * option nat))
    : res (dmatrix * (f32 * option nat)) :=
  do a <- get input i;
  do c <- get input j;
  let d := distance a c in
  do m <- dm_set (fst s) 0 (j - i - 1) d;
  Ok (m, best_step j d (snd s)).

(** [-1i32 as u32]. *)
Definition NO_NEIGHBOUR : N := 4294967295.
Definition neighbour_u32 (b : option nat) : N := match b with Some j => N.of_nat j | None => NO_NEIGHBOUR end.

(** locb.rs:93-142 nearest neighbour search for one cluster. *)
Definition nearest (radius : nat) (input : list aabb) (begin end_ i : nat) (s : dmatrix * list N)
    : res (dmatrix * list N) :=
  let '(m, neighbours) := s in
  let '(search_begin, search_end) := search_range radius i begin end_ in
  do b <- for_each (range search_begin i) (backward i m) (fMAX, None);
  do (m, b) <- for_each (range (i + 1) search_end) (forward input i) (m, b);
  do neighbours <- set_unchecked neighbours i (neighbour_u32 (snd b));
  do m <- dm_rotate radius m;
  Ok (m, neighbours).

(** locb.rs:61-143 one chunk, and all chunks in order. *)
Definition chunk (radius : nat) (input : list aabb) (begin end_ threads thread_id : nat) (neighbours : list N)
    : res (list N) :=
  let chunk_size := (end_ - begin) / threads in
  let chunk_begin := begin + thread_id * chunk_size in
  let chunk_end := if thread_id =? threads - 1 then end_ else chunk_begin + chunk_size in
  do m <- init_matrix radius input chunk_begin begin end_ (dm_new radius);
  do (_, neighbours) <- for_each (range chunk_begin chunk_end) (nearest radius input begin end_) (m, neighbours);
  Ok neighbours.
Definition all_neighbours (radius : nat) (input : list aabb) (begin end_ threads : nat) (neighbours : list N)
    : res (list N) :=
  if threads =? 0 then Panic (* division by zero *)
  else for_each (seq 0 threads) (chunk radius input begin end_ threads) neighbours.

(** locb.rs:145-167 the merge flags. *)
Definition merge_flag (neighbours : list N) (i : nat) (merged : list nat) : res (list nat) :=
  do j <- getN neighbours (N.of_nat i);
  do k <- getN neighbours j;
  set merged i (if N.ltb (N.of_nat i) j && N.eqb k (N.of_nat i) then 1 else 0).

(** locb.rs:169-176 prefix sum over the sub-slice [begin..end]. *)
Definition sub_prefix_sum (merged : list nat) (begin end_ : nat) : res (list nat) :=
  if end_ <=? length merged then
    let sub := firstn (end_ - begin) (skipn begin merged) in
    do (out, _) <- prefix_sum sub (end_ - begin) sub;
    Ok (firstn begin merged ++ out ++ skipn end_ merged)
  else UB.

(** locb.rs:194-215 the body of the merge loop ([neighbours], [merged]: the
    finished auxiliary arrays). *)
Definition merge_step (input : list aabb) (neighbours : list N) (merged : list nat)
    (begin unmerged_begin children_begin i : nat) (output : list aabb) : res (list aabb) :=
  do j <- getN neighbours (N.of_nat i);
  do k <- getN neighbours j;
  if N.eqb k (N.of_nat i) then
    if N.ltb (N.of_nat i) j then
      let j := N.to_nat j in
      do mj <- get merged j;
      do mi <- get merged i;
      do pos <- usub (unmerged_begin + j - begin) mj;
      do r <- usub mi 1;
      let first_child := children_begin + r * 2 in
      do a <- get input j;
      do b <- get input i;
      let parent := set_left_first (set_count (union_of a b) None) (Some (Z.of_nat first_child)) in
      do output <- set_unchecked output pos parent;
      do output <- set_unchecked output first_child b;
      set_unchecked output (first_child + 1) a
    else Ok output
  else
    do mi <- get merged i;
    do pos <- usub (unmerged_begin + i - begin) mi;
    do a <- get input i;
    set_unchecked output pos a.

(** locb.rs:242 [output[end..previous_end].clone_from_slice(&input[end..previous_end])]. *)
Definition copy_range (input output : list aabb) (a b : nat) : res (list aabb) :=
  if (b <=? length input) && (b <=? length output) && (a <=? b)
  then Ok (firstn a output ++ firstn (b - a) (skipn a input) ++ skipn b output) else Panic.

(** locb.rs:47-245 [cluster]. *)
Definition cluster (radius threads : nat) (input output : list aabb) (neighbours : list N) (merged : list nat)
    (begin end_ previous_end : nat) : res (list aabb * list N * list nat * nat * nat) :=
  do neighbours <- all_neighbours radius input begin end_ threads neighbours;
  do merged <- for_each (range begin end_) (merge_flag neighbours) merged;
  do merged <- sub_prefix_sum merged begin end_;
  do merged_count <- get merged (end_ - 1);
  do unmerged_count <- usub (end_ - begin) merged_count;
  let children_count := merged_count * 2 in
  do children_begin <- usub end_ children_count;
  do unmerged_begin <- usub end_ (children_count + unmerged_count);
  do output <- for_each (range begin end_)
                 (merge_step input neighbours merged begin unmerged_begin children_begin) output;
  do output <- copy_range input output end_ previous_end;
  Ok (output, neighbours, merged, unmerged_begin, children_begin).

(** locb.rs:306-321 the main loop (with fuel). *)
Fixpoint cluster_loop (fuel radius threads : nat) (nodes copy : list aabb) (neighbours : list N)
    (merged : list nat) (begin end_ previous_end : nat) : res (list aabb) :=
  if end_ - begin <=? 1 then Ok nodes else
  match fuel with
  | O => OutOfFuel
  | S k =>
      do (copy, neighbours, merged, next_begin, next_end) <-
        cluster radius threads nodes copy neighbours merged begin end_ previous_end;
      cluster_loop k radius threads copy nodes neighbours merged next_begin next_end end_
  end.

(** locb.rs:289-294 the initial leaves. *)
Definition leaf_node (aabbs : list aabb) (prim_indices : list nat) (i : nat) : res aabb :=
  do p <- get prim_indices i;
  do b <- get aabbs p;
  Ok (set_left_first (set_count (with_offset b f1em4) (Some 1%Z)) (Some (Z.of_nat i))).
Definition init_leaf (aabbs : list aabb) (prim_indices : list nat) (begin i : nat) (nodes : list aabb)
    : res (list aabb) :=
  do n <- leaf_node aabbs prim_indices i;
  set nodes (begin + i) n.

(** A binary BVH: bvh.rs:143-147. *)
Record bvh := Bvh { nodes : list aabb; prim_indices : list nat }.

(** locb.rs:248-329 [build] with the fields of the builder (17-28: search
    radius 14, grid 1024).  [centers] are the primitives' [center()]s;
    [threads] is [num_cpus::get()]; [fuel] bounds the rounds. *)
Definition locb_build_radius (radius fuel threads : nat) (aabbs : list aabb) (centers : list vec3) : res bvh :=
  if negb (length centers =? length aabbs) || (length centers =? 0) || (length aabbs =? 0)
  then Ok (Bvh [] []) else
  let world_bounds := union_of_list aabbs in
  let n := length aabbs in
  if n <=? 2 then
    Ok (Bvh [set_count (set_left_first world_bounds (Some 0%Z)) (Some (Z.of_nat n))] (seq 0 n))
  else
    let idx := fst (get_sorted_indices (encoder_new world_bounds MAX_GRID_DIM) centers) in
    let node_count := 2 * n - 1 in
    let blank := set_left_first (set_count (Bb (vsplat f0) 0 (vsplat f0) 0) None) (Some 0%Z) in
    let nodes0 := repeat blank node_count in
    let begin := node_count - n in
    do nodes1 <- for_each (seq 0 n) (init_leaf aabbs idx begin) nodes0;
    do out <- cluster_loop fuel radius threads nodes1 nodes0
                (repeat (N.of_nat node_count) (3 * node_count)) (repeat node_count (2 * node_count))
                begin node_count node_count;
    Ok (Bvh out idx).
Definition locb_build := locb_build_radius 14.
