(** * The parallel binned-SAH builder: src/builders/binned_sah.rs and
      src/builders/mod.rs ([AtomicNodeStack])

    The tasks share the node array, the index array and the node counter.
    Every access of a task to this memory is one atomic step of a program
    ([prog]); the task runner ([SpawnModel]) interleaves the steps of the
    threads arbitrarily.  (PropBinned.v proves that the next accesses of two
    threads never conflict, so this is also what the weak memory model of the
    hardware shows.)  Everything else a task touches -- its bins, the AABBs and
    primitives, which are only read -- is local and modelled by functions. *)
Require Import List ZArith Bool Arith.
From Verif Require Import F32 Vec AabbModel Base NodeModel UtilsModel LocbModel SpawnModel.
Import ListNotations.

(** ** Binning *)

(** binned_sah.rs:12-17 [SahBin] ([right_cost] is a local list below) and its
    initial value, 56-63. *)
Definition bin := (aabb * nat)%type.
Definition empty_bin : bin := (aabb_new, 0).
(** binned_sah.rs:313-316 the constants [max_depth], [bin_count] of the
    builder; [bin_count as f32]. *)
Definition MAX_DEPTH : nat := 64.
Definition BINS : nat := 16.
Definition f_bins : f32 := f_of_Z 16.
Definition fn (k : nat) : f32 := f_of_Z (Z.of_nat k).

(** binned_sah.rs:146-147 [center_to_bin] and [bin_offset]. *)
Definition center_to_bin (bounds : aabb) : vec3 := vscale (vdivs f1 (diagonal bounds)) f_bins.
Definition bin_offset (bounds : aabb) : vec3 := vmul (vneg (bmin bounds)) (center_to_bin bounds).

(** binned_sah.rs:117-129 [compute_bin_index]. *)
Definition compute_bin_index (bounds : aabb) (center : vec3) (axis : nat) : nat :=
  let bin_index := fadd (fmul (vget center axis) (vget (center_to_bin bounds) axis)) (vget (bin_offset bounds) axis) in
  Z.to_nat (Z.min 15 (f_as_usize (fmax bin_index f0))).

(** binned_sah.rs:149-172 filling the bins (of all three axes): [bins[axis]]
    has 16 entries and [compute_bin_index] is at most 15, so these accesses
    are in range. *)
Definition add_to_bin (bins : list bin) (k : nat) (b : aabb) : list bin :=
  upd bins k (grow_bb (fst (nth k bins empty_bin)) b, S (snd (nth k bins empty_bin))).
Definition fill_one (aabbs : list aabb) (centers : list vec3) (bounds : aabb) (p : nat)
    (bins : list bin * list bin * list bin) : res (list bin * list bin * list bin) :=
  do c <- get centers p;
  do b <- get aabbs p;
  let '(b0, b1, b2) := bins in
  Ok (add_to_bin b0 (compute_bin_index bounds c 0) b,
      add_to_bin b1 (compute_bin_index bounds c 1) b,
      add_to_bin b2 (compute_bin_index bounds c 2) b).
Definition fill (aabbs : list aabb) (centers : list vec3) (bounds : aabb) (ids : list nat)
    : res (list bin * list bin * list bin) :=
  let e := repeat empty_bin BINS in
  for_each ids (fill_one aabbs centers bounds) (e, e, e).

(** binned_sah.rs:83-92: [right_cost] of the bins, from the last one down;
    [l] are the bins in reverse.  The result lists the costs of the bins
    [1..16] in order. *)
Fixpoint right_costs (l : list bin) (box : aabb) (count : nat) (acc : list f32) : list f32 :=
  match l with
  | [] => acc
  | (b, c) :: l =>
      let box := grow_bb box b in
      let count := count + c in
      right_costs l box count (fmul (half_area box) (fn count) :: acc)
  end.
(** binned_sah.rs:94-112: the pass from the left; [rights] are the right costs
    of the bins [i + 1 ..]. *)
Fixpoint left_pass (l : list bin) (rights : list f32) (box : aabb) (count i : nat) (best : f32 * nat) : f32 * nat :=
  match l, rights with
  | (b, c) :: l, r :: rights =>
      let box := grow_bb box b in
      let count := count + c in
      let cost := fadd (fmul (half_area box) (fn count)) r in
      left_pass l rights box count (S i) (if flt cost (fst best) then (cost, S i) else best)
  | _, _ => best
  end.
(** binned_sah.rs:80-114 [find_split]: the cheapest split, [SahSplit { cost,
    count }]. *)
Definition find_split (bins : list bin) : f32 * nat :=
  left_pass bins (right_costs (rev (skipn 1 bins)) aabb_new 0 []) aabb_new 0 0 (fMAX, BINS).

(** The component of a triple for an axis. *)
Definition pick {A} (t : A * A * A) (axis : nat) : A :=
  let '(x, y, z) := t in match axis with 0 => x | 1 => y | _ => z end.

(** binned_sah.rs:195-205: the approximate median; [None] if the loop ends
    without [break]. *)
Fixpoint median (l : list bin) (goal count i : nat) : option nat :=
  match l with
  | [] => None
  | (_, c) :: l => let count := count + c in if goal <=? count then Some (S i) else median l goal count (S i)
  end.

(** binned_sah.rs:229-239: the union of the boxes of some bins. *)
Definition box_of (l : list bin) : aabb := fold_left (fun a (b : bin) => grow_bb a (fst b)) l aabb_new.

(** What [run] decides after filling the bins: make a leaf, or split along
    [axis] at [split_index] and give the children the boxes [left]/[right]. *)
Inductive plan := MakeLeaf | Split (axis split_index : nat) (left right : aabb).

(** binned_sah.rs:145-210 and 226-239; [bounds] are the node's bounds after
    the first [offset_by]. *)
Definition make_plan (aabbs : list aabb) (centers : list vec3) (max_leaf_size : nat) (bounds : aabb) (ids : list nat)
    : res plan :=
  let ws := length ids in
  do bins <- fill aabbs centers bounds ids;
  let best_splits := (find_split (pick bins 0), find_split (pick bins 1), find_split (pick bins 2)) in
  let best_axis := if fgt (fst (pick best_splits 0)) (fst (pick best_splits 1)) then 1 else 0 in
  let best_axis := if fgt (fst (pick best_splits best_axis)) (fst (pick best_splits 2)) then 2 else best_axis in
  let split_index := snd (pick best_splits best_axis) in
  let max_split_cost := fmul (half_area bounds) (fsub (fn ws) f1) in
  let split axis split_index :=
    Split axis split_index
      (box_of (firstn (snd (pick best_splits axis)) (pick bins axis)))
      (box_of (skipn split_index (pick bins axis))) in
  if (snd (pick best_splits best_axis) =? BINS) || fge (fst (pick best_splits best_axis)) max_split_cost then
    if max_leaf_size <? ws then
      let best_axis := longest_axis bounds in
      let split_index :=
        match median (firstn (BINS - 1) (pick bins best_axis)) (ws * 2 / 5 + 1) 0 0 with
        | Some i => i
        | None => split_index
        end in
      Ok (split best_axis split_index)
    else Ok MakeLeaf
  else Ok (split best_axis split_index).

(** binned_sah.rs:214-219: the test of [partition]; the primitive was read
    successfully before. *)
Definition goes_left (centers : list vec3) (bounds : aabb) (axis split_index : nat) (p : nat) : bool :=
  compute_bin_index bounds (nth p centers (vsplat f0)) axis <? split_index.

(** ** Programs over the shared memory *)

Record smem := Sm { m_nodes : list aabb; m_idx : list nat; m_ctr : nat }.

(** binned_sah.rs:34-44 [BinnedSahBuildTask]: [node] is the index of the node
    behind the reference [node], [prim_indices] the positions [begin..end]. *)
Record btask := Bt { k_node : nat; k_begin : nat; k_end : nat; k_depth : nat }.
(** binned_sah.rs:284-286 [work_size]. *)
Definition b_work (t : btask) : nat := k_end t - k_begin t.

Inductive prog :=
| Ret (r : option (btask * btask))
| Fail
| RdN (i : nat) (k : aabb -> prog)
| WrN (i : nat) (v : aabb) (k : prog)
| RdI (i : nat) (k : nat -> prog)
| WrI (i : nat) (v : nat) (k : prog)
| Alloc (k : nat -> prog).

(** One step; accesses through the unchecked pointers of [UnsafeSliceWrapper]
    that are out of range (undefined behaviour) are crashes as well.  [Alloc]
    is the [fetch_add(2)] of mod.rs:59-60. *)
Definition pstep (p : prog) (m : smem) : pres btask smem prog :=
  match p with
  | Ret r => PDone r
  | Fail => PCrash
  | RdN i k => match nth_error (m_nodes m) i with Some v => PStep (k v) m | None => PCrash end
  | WrN i v k => if i <? length (m_nodes m) then PStep k (Sm (upd (m_nodes m) i v) (m_idx m) (m_ctr m)) else PCrash
  | RdI i k => match nth_error (m_idx m) i with Some v => PStep (k v) m | None => PCrash end
  | WrI i v k => if i <? length (m_idx m) then PStep k (Sm (m_nodes m) (upd (m_idx m) i v) (m_ctr m)) else PCrash
  | Alloc k => PStep (k (m_ctr m)) (Sm (m_nodes m) (m_idx m) (m_ctr m + 2))
  end.

(** binned_sah.rs:134-138 [make_leaf] and the following [return None]. *)
Definition leaf_prog (t : btask) : prog :=
  RdN (k_node t) (fun n =>
  let n := with_offset n f1em4 in
  WrN (k_node t) n
  (let n := set_left_first n (Some (as_u32 (Z.of_nat (k_begin t)))) in
  WrN (k_node t) n
  (let n := set_count n (Some (as_u32 (Z.of_nat (k_end t - k_begin t)))) in
  WrN (k_node t) n
  (Ret None)))).

(** binned_sah.rs:157-158: [prim_indices[i]] for all [i]. *)
Fixpoint read_ids (i len : nat) (acc : list nat) (k : list nat -> prog) : prog :=
  match len with
  | O => k (rev acc)
  | S len => RdI i (fun v => read_ids (S i) len (v :: acc) k)
  end.

(** utils.rs:76-96 [partition] on the task's own slice, which starts at
    [base]; [swap] reads both elements and writes both. *)
Fixpoint part_loop (check : nat -> bool) (base i len count : nat) (k : nat -> prog) : prog :=
  match len with
  | O => k count
  | S len =>
      RdI (base + i) (fun v =>
      if check v then
        RdI (base + i) (fun a => RdI (base + count) (fun b =>
        WrI (base + i) b (WrI (base + count) a
        (part_loop check base (S i) len (S count) k))))
      else part_loop check base (S i) len count k)
  end.

(** binned_sah.rs:131-282 [run]; [slots] is the length of the node array,
    [max_leaf_size] the builder's. *)
Definition run (slots max_leaf_size : nat) (aabbs : list aabb) (centers : list vec3) (t : btask) : prog :=
  RdN (k_node t) (fun n =>
  WrN (k_node t) (with_offset n f1em4)
  (if (b_work t <=? 1) || (MAX_DEPTH <=? k_depth t) then leaf_prog t
   else
     RdN (k_node t) (fun bounds =>
     read_ids (k_begin t) (b_work t) [] (fun ids =>
     match make_plan aabbs centers max_leaf_size bounds ids with
     | Ok MakeLeaf => leaf_prog t
     | Ok (Split axis split_index left_box right_box) =>
         part_loop (goes_left centers bounds axis split_index) (k_begin t) 0 (b_work t) 0 (fun count =>
         if (0 <? count) && (count <? b_work t) then
           (* mod.rs:59-79 [allocate] *)
           Alloc (fun left =>
           if slots <=? left then Fail else
           RdN (k_node t) (fun n =>
           let n := set_left_first n (Some (as_u32 (Z.of_nat left))) in
           WrN (k_node t) n
           (let n := set_count n None in
           WrN (k_node t) n
           (WrN left left_box
           (WrN (S left) right_box
           (Ret (Some (Bt left (k_begin t) (k_begin t + count) (S (k_depth t)),
                       Bt (S left) (k_begin t + count) (k_end t) (S (k_depth t))))))))))
         else leaf_prog t)
     | _ => Fail
     end)))).

(** ** The build *)

(** binned_sah.rs:305-318 [new]: [max_leaf_size]. *)
Definition max_leaf_size (primitives_per_leaf : option nat) : nat :=
  match primitives_per_leaf with Some p => p | None => 1 end.

(** binned_sah.rs:354-372: the memory and the first task. *)
Definition binned_start (aabbs : list aabb) : smem :=
  let n := length aabbs in
  Sm (upd (repeat node_new (2 * n - 1)) 0 (union_of_list aabbs)) (seq 0 n) 1.
Definition root_task (aabbs : list aabb) : btask := Bt 0 0 (length aabbs) 0.

(** utils.rs:212-221 the runner's threshold. *)
Definition WORK_THRESHOLD : nat := Z.to_nat 1024.

(** A build in progress: some state that the parallel run can reach. *)
Definition binned_reaches (primitives_per_leaf : option nat) (aabbs : list aabb) (centers : list vec3)
    (s : state btask smem prog) : Prop :=
  reachable (run (2 * length aabbs - 1) (max_leaf_size primitives_per_leaf) aabbs centers) b_work pstep WORK_THRESHOLD
    (initial (binned_start aabbs) (root_task aabbs)) s.
Definition binned_steps (primitives_per_leaf : option nat) (aabbs : list aabb) (centers : list vec3) :=
  steps (run (2 * length aabbs - 1) (max_leaf_size primitives_per_leaf) aabbs centers) b_work pstep WORK_THRESHOLD.

(** [Vec::resize(len, Default::default())]. *)
Definition resize (l : list aabb) (len : nat) : list aabb := firstn len l ++ repeat node_new (len - length l).
(** binned_sah.rs:389-398: the BVH made of the memory after the run. *)
Definition finish (m : smem) : bvh := Bvh (resize (m_nodes m) (m_ctr m)) (m_idx m).

(** binned_sah.rs:346-399 [build]: what a build may return (for mismatched or
    empty input, the default BVH, 348-353). *)
Definition binned_build (primitives_per_leaf : option nat) (aabbs : list aabb) (centers : list vec3) (b : bvh) : Prop :=
  if negb (length centers =? length aabbs) || (length centers =? 0) || (length aabbs =? 0)
  then b = Bvh [] []
  else exists s, binned_reaches primitives_per_leaf aabbs centers s /\ returned s /\ b = finish (s_mem s).
