(** * The parallel spatial-split builder: src/builders/spatial_sah.rs:17-78,
      247-1033

    The tasks share the three reference arrays, the node array, the index
    array and two counters.  A task owns its node and the positions
    [begin .. split_end) of the reference arrays; PropSpatial.v proves that
    what two tasks own never overlaps.  So a task is modelled as a few atomic
    phases -- all work on the references it owns, one [fetch_add], the final
    writes -- and the task runner ([SpawnModel]) interleaves the phases of the
    threads arbitrarily.  Within a task, positions are counted from [begin].

    [accumulated_aabbs] is scratch memory: every element a task reads was
    written by itself just before, at a position it owns; it is the local list
    [suffix_boxes] below.

    [sort_by] with the comparison of 319-330 is a parameter [sorter]; the
    theorems only use that it returns a permutation.  (The comparison answers
    [Less] exactly when [a < b], and the library's stable sort looks at nothing
    else, so for centers that are not NaN it is [insertion_sort] below; for
    NaNs it may return any permutation.  Newer versions of the library may
    panic for NaNs; this is not modelled.) *)
Require Import List ZArith Bool Arith.
From Verif Require Import F32 Vec AabbModel Base NodeModel UtilsModel LocbModel SpawnModel TriModel BinnedModel.
Import ListNotations.

(** ** Data *)

(** spatial_sah.rs:62-78 [SpatialReference] and its default. *)
Record sref := Sr { s_box : aabb; s_center : vec3; s_prim : nat }.
Definition sref_new : sref := Sr aabb_new (vsplat f0) 0.

(** spatial_sah.rs:25-44 [ObjectSplit] and its default; the index is counted
    from [begin]. *)
Record osplit := Os { o_cost : f32; o_index : option nat; o_axis : nat; o_left : aabb; o_right : aabb }.
Definition osplit_new : osplit := Os fMAX None 0 aabb_new aabb_new.

(** spatial_sah.rs:46-60 [SpatialSplit] and its default. *)
Record ssplit := Ss { ss_cost : f32; ss_pos : f32; ss_axis : nat }.
Definition ssplit_new : ssplit := Ss fMAX f0 0.

(** spatial_sah.rs:247-280 [WorkItem] and [work_size]. *)
Record witem := Wi { w_node : nat; w_begin : nat; w_end : nat; w_split_end : nat; w_depth : nat; w_sorted : bool }.
Definition w_size (t : witem) : nat := w_end t - w_begin t.

(** One value per axis. *)
Definition per_axis (A : Type) : Type := (A * A * A)%type.
Definition map3 {A B} (f : A -> B) (t : per_axis A) : per_axis B := (f (pick t 0), f (pick t 1), f (pick t 2)).

(** The union of the boxes of some references (473-484, 659-665, 766-775). *)
Definition boxes_of (l : list sref) : aabb := fold_left (fun a r => grow_bb a (s_box r)) l aabb_new.

Section Builder.
  (** [slice.sort_by] of 318-330 on the axis. *)
  Variable sorter : nat -> list sref -> list sref.
  Variable prims : list tri.
  (** 851-866: the builder's [max_leaf_size]; the other settings are constants. *)
  Variable leaf_size : nat.
  Definition BINNING_PASSES : nat := 2.

  (** ** find_object_split *)

  (** spatial_sah.rs:336-342: element [i] is the union of the boxes from [i] on. *)
  Fixpoint suffix_boxes (l : list sref) : list aabb :=
    match l with
    | [] => []
    | r :: l => let s := suffix_boxes l in grow_bb (hd aabb_new s) (s_box r) :: s
    end.
  (** spatial_sah.rs:344-358: the sweep over one axis; [l] are the references
      from position [i] on, [after] the unions from [i + 1] on, [len] is
      [end - begin]. *)
  Fixpoint object_pass (axis len : nat) (l : list sref) (after : list aabb) (box : aabb) (i : nat) (best : osplit) : osplit :=
    match l, after with
    | r :: l, a :: after =>
        let box := grow_bb box (s_box r) in
        let cost := fadd (fmul (half_area box) (fn (S i))) (fmul (half_area a) (fn (len - S i))) in
        object_pass axis len l after box (S i)
          (if flt cost (o_cost best) then Os cost (Some (S i)) axis box a else best)
    | _, _ => best
    end.
  Definition object_axis (refs : per_axis (list sref)) (best : osplit) (axis : nat) : osplit :=
    let l := pick refs axis in
    object_pass axis (length l) l (skipn 1 (suffix_boxes l)) aabb_new 0 best.
  (** spatial_sah.rs:314-363 [find_object_split], after sorting; [refs] are the
      references [begin .. end) of each axis. *)
  Definition find_object_split (refs : per_axis (list sref)) : osplit :=
    fold_left (object_axis refs) [0; 1; 2] osplit_new.
  (** spatial_sah.rs:315-331: sorting the references [begin .. end). *)
  Definition sort_refs (len : nat) (w : per_axis (list sref)) : per_axis (list sref) :=
    let s axis := sorter axis (firstn len (pick w axis)) ++ skipn len (pick w axis) in (s 0, s 1, s 2).

  (** ** find_spatial_split *)

  (** spatial_sah.rs:524-527: the bin of a coordinate. *)
  Definition spatial_bin (inv_size min x : f32) : nat :=
    Z.to_nat (Z.min 15 (f_as_usize (fmax (fmul inv_size (fsub x min)) f0))).
  (** spatial_sah.rs:534-541: chop the reference at the borders of the bins
      [j .. j + k). *)
  Fixpoint chop (axis : nat) (min bin_size : f32) (prim k j : nat) (bins : list bin) (current : aabb)
      : res (list bin * aabb) :=
    match k with
    | O => Ok (bins, current)
    | S k =>
        do triangle <- get prims prim;
        let '(left_box, right_box) := tri_split triangle axis (fadd min (fmul (fn (S j)) bin_size)) in
        let left_box := shrink left_box current in
        let '(b, c) := nth j bins empty_bin in
        chop axis min bin_size prim k (S j) (upd bins j (grow_bb b left_box, c)) (shrink current right_box)
    end.
  (** spatial_sah.rs:522-546.  [entry] and [exit] are both counted at
      [first_bin], so they are one number here. *)
  Fixpoint fill_bins (axis : nat) (min bin_size inv_size : f32) (refs : list sref) (bins : list bin) : res (list bin) :=
    match refs with
    | [] => Ok bins
    | r :: refs =>
        let first_bin := spatial_bin inv_size min (vget (bmin (s_box r)) axis) in
        let last_bin := spatial_bin inv_size min (vget (bmax (s_box r)) axis) in
        if negb (is_valid (s_box r)) then Ok bins
        else if last_bin <? first_bin then Panic
        else
          do (bins, current) <- chop axis min bin_size (s_prim r) (last_bin - first_bin) first_bin bins (s_box r);
          let '(b, c) := nth last_bin bins empty_bin in
          let bins := upd bins last_bin (grow_bb b current, c) in
          let '(b, c) := nth first_bin bins empty_bin in
          fill_bins axis min bin_size inv_size refs (upd bins first_bin (b, S c))
    end.
  (** spatial_sah.rs:548-555: the box of each bin becomes the union from it on. *)
  Fixpoint suffix_bins (l : list bin) : list bin :=
    match l with
    | [] => []
    | (b, c) :: l => let s := suffix_bins l in (grow_bb (fst (hd empty_bin s)) b, c) :: s
    end.
  (** spatial_sah.rs:557-575: the sweep; [l] are the bins from [i] on. *)
  Fixpoint spatial_pass (axis : nat) (min bin_size : f32) (l : list bin) (left_count right_count : nat) (current : aabb)
      (i : nat) (split : ssplit) (found : bool) : ssplit * bool :=
    match l with
    | (b, c) :: (((b', _) :: _) as l) =>
        let left_count := left_count + c in
        let right_count := right_count - c in
        let current := grow_bb current b in
        let cost := fadd (fmul (fn left_count) (half_area current)) (fmul (fn right_count) (half_area b')) in
        if flt cost (ss_cost split)
        then spatial_pass axis min bin_size l left_count right_count current (S i)
               (Ss cost (fadd min (fmul (fn (S i)) bin_size)) axis) true
        else spatial_pass axis min bin_size l left_count right_count current (S i) split found
    | _ => (split, found)
    end.
  (** spatial_sah.rs:498-583 [run_binning_pass]; the result holds the updated
      split. *)
  Definition run_binning_pass (refs : list sref) (split : ssplit) (axis : nat) (min max : f32)
      : res (ssplit * option (f32 * f32)) :=
    let bin_size := fdiv (fsub max min) f_bins in
    let inv_size := fdiv f1 bin_size in
    do bins <- fill_bins axis min bin_size inv_size refs (repeat empty_bin BINS);
    let '(split, found) := spatial_pass axis min bin_size (suffix_bins bins) 0 (length refs) aabb_new 0 split false in
    Ok (split, if found then Some (fsub (ss_pos split) bin_size, fadd (ss_pos split) bin_size) else None).
  (** spatial_sah.rs:593-602: the passes over one axis. *)
  Fixpoint binning_passes (k : nat) (refs : list sref) (split : ssplit) (axis : nat) (min max : f32) : res ssplit :=
    match k with
    | O => Ok split
    | S k =>
        do (split, next_bounds) <- run_binning_pass refs split axis min max;
        match next_bounds with
        | Some (min, max) => binning_passes k refs split axis min max
        | None => Ok split
        end
    end.
  (** spatial_sah.rs:585-606 [find_spatial_split]; [refs] are the references
      [begin .. end) of axis 0. *)
  Definition find_spatial_split (bounds : aabb) (refs : list sref) : res ssplit :=
    for_each [0; 1; 2]
      (fun axis split => binning_passes BINNING_PASSES refs split axis (vget (bmin bounds) axis) (vget (bmax bounds) axis))
      ssplit_new.

  (** ** Applying a split *)

  (** What the two children get: the references [begin .. right_begin) and
      [right_begin .. right_end). *)
  Record children := Ch { c_right_begin : nat; c_right_end : nat; c_left : aabb; c_right : aabb; c_sorted : bool }.

  (** spatial_sah.rs:464-472 [reference_marks], as a predicate on primitives:
      the second loop overwrites the first. *)
  Definition marked (l : list sref) (index : nat) (p : nat) : bool :=
    existsb (fun r => s_prim r =? p) (firstn index l) && negb (existsb (fun r => s_prim r =? p) (skipn index l)).
  (** spatial_sah.rs:474-487: a stable sort by the mark, marked ones first. *)
  Definition partition_marked (mark : nat -> bool) (l : list sref) : list sref :=
    filter (fun r => mark (s_prim r)) l ++ filter (fun r => negb (mark (s_prim r))) l.
  (** spatial_sah.rs:447-496 [apply_object_split].  The indexing of
      [reference_marks] is in range: primitives are below its length. *)
  Definition apply_object_split (len : nat) (w : per_axis (list sref)) (axis index : nat) (left right : aabb)
      : res (per_axis (list sref) * children) :=
    if negb (index <? len) then Panic else
    let mark := marked (firstn len (pick w axis)) index in
    let part a l := if a =? axis then l else partition_marked mark (firstn len l) ++ skipn len l in
    Ok ((part 0 (pick w 0), part 1 (pick w 1), part 2 (pick w 2)), Ch index len left right true).

  (** spatial_sah.rs:626-641: the first loop, [len] iterations. *)
  Fixpoint classify (axis : nat) (position : f32) (k : nat) (w : list sref) (i left_end right_begin : nat)
      (left_box right_box : aabb) : res (list sref * nat * nat * aabb * aabb) :=
    match k with
    | O => Ok (w, left_end, right_begin, left_box, right_box)
    | S k =>
        do r <- get w i;
        if fle (vget (bmax (s_box r)) axis) position then
          do w <- swap w i left_end;
          classify axis position k w (S i) (S left_end) right_begin (grow_bb left_box (s_box r)) right_box
        else if fge (vget (bmin (s_box r)) axis) position then
          do w <- swap w i (right_begin - 1);
          classify axis position k w i left_end (right_begin - 1) left_box (grow_bb right_box (s_box r))
        else classify axis position k w (S i) left_end right_begin left_box right_box
    end.
  (** spatial_sah.rs:643-667: when all references are on one side.  The code
      sets [left_end = left_count / 2] although [left_end] is a position in
      the whole array, so it can be before [begin]. *)
  Definition fallback (begin len : nat) (w : list sref) (left_end right_begin : nat) (left_box right_box : aabb)
      : res (nat * nat * aabb * aabb) :=
    let left_count := left_end in
    let right_count := len - right_begin in
    if ((left_count =? 0) || (right_count =? 0)) && (left_end =? right_begin) then
      do left_end <-
        (if 0 <? left_count then
           if left_count / 2 <? begin then Panic else Ok (left_count / 2 - begin)
         else Ok (left_end + right_count / 2));
      Ok (left_end, left_end, boxes_of (firstn left_end w), boxes_of (skipn left_end (firstn len w)))
    else Ok (left_end, right_begin, left_box, right_box).
  (** spatial_sah.rs:669-711: the straddling references,
      [right_begin - left_end] iterations. *)
  Fixpoint straddle (axis : nat) (position : f32) (k : nat) (w : list sref)
      (left_end right_begin right_end left_count right_count : nat)
      (left_box right_box : aabb) : res (list sref * nat * nat * aabb * aabb) :=
    match k with
    | O => Ok (w, right_begin, right_end, left_box, right_box)
    | S k =>
        do reference <- get w left_end;
        do triangle <- get prims (s_prim reference);
        let '(left_prim_box, right_prim_box) := tri_split triangle axis position in
        let left_prim_box := shrink left_prim_box (s_box reference) in
        let right_prim_box := shrink right_prim_box (s_box reference) in
        if 0 <? length w - right_end then
          do w <- set w right_end (Sr right_prim_box (center right_prim_box) (s_prim reference));
          do w <- set w left_end (Sr left_prim_box (center left_prim_box) (s_prim reference));
          straddle axis position k w (S left_end) right_begin (S right_end) (S left_count) (S right_count)
            (grow_bb left_box left_prim_box) (grow_bb right_box right_prim_box)
        else if left_count <? right_count then
          straddle axis position k w (S left_end) right_begin right_end (S left_count) right_count
            (grow_bb left_box (s_box reference)) right_box
        else
          do w <- swap w (right_begin - 1) left_end;
          straddle axis position k w left_end (right_begin - 1) right_end left_count (S right_count)
            left_box (grow_bb right_box (s_box reference))
    end.
  (** spatial_sah.rs:608-722 [apply_spatial_split]: the windows
      [begin .. split_end) of the arrays, [len = end - begin]. *)
  Definition apply_spatial_split (begin len : nat) (windows : per_axis (list sref)) (split : ssplit)
      : res (per_axis (list sref) * children) :=
    let axis := ss_axis split in
    do (w, left_end, right_begin, left_box, right_box) <-
      classify axis (ss_pos split) len (pick windows axis) 0 0 len aabb_new aabb_new;
    let left_count := left_end in
    let right_count := len - right_begin in
    do (left_end, right_begin, left_box, right_box) <- fallback begin len w left_end right_begin left_box right_box;
    do (w, right_begin, right_end, left_box, right_box) <-
      straddle axis (ss_pos split) (right_begin - left_end) w left_end right_begin len left_count right_count left_box right_box;
    let copy a l := if a =? axis then w else firstn right_end w ++ skipn right_end l in
    Ok ((copy 0 (pick windows 0), copy 1 (pick windows 1), copy 2 (pick windows 2)),
        Ch right_begin right_end left_box right_box false).

  (** ** run *)

  Inductive decision := Leaf | Divide (c : children).

  (** spatial_sah.rs:745-805 up to the splits themselves: everything a task
      does to the references it owns.  [w] are the windows [begin .. split_end)
      of the three arrays, [bounds] the bounds of the task's node. *)
  Definition plan_task (threshold : f32) (t : witem) (bounds : aabb) (w : per_axis (list sref))
      : res (per_axis (list sref) * decision) :=
    let len := w_size t in
    if (len <=? 1) || (MAX_DEPTH <=? w_depth t) then Ok (w, Leaf) else
    let w := if w_sorted t then w else sort_refs len w in
    let best_object_split := find_object_split (map3 (firstn len) w) in
    let overlap := area (shrink (o_left best_object_split) (o_right best_object_split)) in
    do best_spatial_split <-
      (if fgt overlap threshold && (0 <? w_split_end t - w_end t)
       then find_spatial_split bounds (firstn len (pick w 0)) else Ok ssplit_new);
    let best_cost := fmin (ss_cost best_spatial_split) (o_cost best_object_split) in
    let max_split_cost := fmul (half_area bounds) (fsub (fn len) f1) in
    let divide (x : res (per_axis (list sref) * children)) := do (w, c) <- x; Ok (w, Divide c) in
    if fge best_cost max_split_cost then
      if leaf_size <? len then
        let axis := longest_axis bounds in
        let index := len / 2 in
        let l := firstn len (pick w axis) in
        divide (apply_object_split len w axis index (boxes_of (firstn index l)) (boxes_of (skipn index l)))
      else Ok (w, Leaf)
    else if flt best_cost (o_cost best_object_split) then
      divide (apply_spatial_split (w_begin t) len w best_spatial_split)
    else
      match o_index best_object_split with
      | Some index =>
          divide (apply_object_split len w (o_axis best_object_split) index
                    (o_left best_object_split) (o_right best_object_split))
      | None => Ok (w, Leaf)
      end.

  (** ** Shared memory *)

  Record pmem := Pm { p_refs : per_axis (list sref); p_nodes : list aabb; p_idx : list nat; p_ctr : nat; p_count : nat }.

  (** The positions [b .. b + len) of an array, and writing them back. *)
  Definition window {A} (l : list A) (b len : nat) : list A := firstn len (skipn b l).
  Definition put_window {A} (l : list A) (b : nat) (w : list A) : list A := firstn b l ++ w ++ skipn (b + length w) l.

  (** spatial_sah.rs:391-401 [left_split_count]: the share of the free space
      for the left child ([f32 as usize] saturates). *)
  Definition left_split_count (remaining : nat) (c : children) : Z :=
    let left_cost := fmul (half_area (c_left c)) (fn (c_right_begin c)) in
    let right_cost := fmul (half_area (c_right c)) (fn (c_right_end c - c_right_begin c)) in
    if remaining =? 0 then 0%Z
    else f_as_usize (fmul (fn remaining) (fdiv left_cost (fadd left_cost right_cost))).

  (** spatial_sah.rs:403-425: the right references move; they may be moved
      beyond the array (undefined behaviour).  [rb], [re] are positions in the
      array. *)
  Definition move_right (a : list sref) (rb re : nat) (shift : Z) : res (list sref) :=
    if (0 <? shift)%Z then
      if (Z.of_nat (length a) <? Z.of_nat re + shift)%Z then UB
      else do (a, _) <- move_backward (S (length a)) a rb re (re + Z.to_nat shift); Ok a
    else Ok a.
  Definition move3 (a : per_axis (list sref)) (rb re : nat) (shift : Z) : res (per_axis (list sref)) :=
    do a0 <- move_right (pick a 0) rb re shift;
    do a1 <- move_right (pick a 1) rb re shift;
    do a2 <- move_right (pick a 2) rb re shift;
    Ok (a0, a1, a2).

  (** The program of a task: what it will do next. *)
  Inductive pprog :=
  | QRun (t : witem)                                   (** plan the split *)
  | QLeaf (t : witem)                                  (** 737: [reference_count.fetch_add] *)
  | QLeafAt (t : witem) (first : nat)                  (** 739-744 *)
  | QAlloc (t : witem) (c : children)                  (** 373, mod.rs:59-60: [fetch_add(2)] *)
  | QChildren (t : witem) (c : children) (lft : nat)  (** 375-444 *)
  | QRet (r : option (witem * witem))
  | QPanic
  | QUb.

  Definition set_idx (l : list nat) (first : nat) (v : list nat) : list nat := put_window l first v.

  (** One atomic phase. *)
  Definition qstep (threshold : f32) (p : pprog) (m : pmem) : pres witem pmem pprog :=
    match p with
    | QRet r => PDone r
    | QPanic | QUb => PCrash
    | QRun t =>
        match nth_error (p_nodes m) (w_node t) with
        | None => PCrash
        | Some bounds =>
            let own l := window l (w_begin t) (w_split_end t - w_begin t) in
            match plan_task threshold t bounds (map3 own (p_refs m)) with
            | Ok (w, d) =>
                let back a := put_window (pick (p_refs m) a) (w_begin t) (pick w a) in
                let m := Pm (back 0, back 1, back 2) (p_nodes m) (p_idx m) (p_ctr m) (p_count m) in
                PStep (match d with Leaf => QLeaf t | Divide c => QAlloc t c end) m
            | Panic | OutOfFuel => PStep QPanic m
            | UB => PStep QUb m
            end
        end
    | QLeaf t =>
        PStep (QLeafAt t (p_count m)) (Pm (p_refs m) (p_nodes m) (p_idx m) (p_ctr m) (p_count m + w_size t))
    | QLeafAt t first =>
        match nth_error (p_nodes m) (w_node t) with
        | None => PCrash
        | Some n =>
            if length (p_idx m) <? first + w_size t then PStep QUb m else
            let ids := map s_prim (window (pick (p_refs m) 0) (w_begin t) (w_size t)) in
            let n := set_left_first n (Some (as_u32 (Z.of_nat first))) in
            let n := set_count n (Some (as_u32 (Z.of_nat (w_size t)))) in
            PStep (QRet None) (Pm (p_refs m) (upd (p_nodes m) (w_node t) n) (set_idx (p_idx m) first ids) (p_ctr m) (p_count m))
        end
    | QAlloc t c =>
        let m' := Pm (p_refs m) (p_nodes m) (p_idx m) (p_ctr m + 2) (p_count m) in
        if length (p_nodes m) <=? p_ctr m then PStep QPanic m' else PStep (QChildren t c (p_ctr m)) m'
    | QChildren t c lft =>
        match nth_error (p_nodes m) (w_node t) with
        | None => PCrash
        | Some n =>
            if length (p_nodes m) <=? S lft then PStep QUb m else
            let n := set_left_first n (Some (as_u32 (Z.of_nat lft))) in
            let n := set_count n None in
            let n := with_offset n f1em4 in
            let nodes := upd (upd (upd (p_nodes m) (w_node t) n) lft (c_left c)) (S lft) (c_right c) in
            let rb := w_begin t + c_right_begin c in
            let re := w_begin t + c_right_end c in
            match move3 (p_refs m) rb re (left_split_count (w_split_end t - re) c) with
            | Ok refs =>
                PStep (QRet (Some (Wi lft (w_begin t) rb rb (S (w_depth t)) (c_sorted c),
                                   Wi (S lft) rb re (w_split_end t) (S (w_depth t)) (c_sorted c))))
                      (Pm refs nodes (p_idx m) (p_ctr m) (p_count m))
            | _ => PStep QUb m
            end
        end
    end.
End Builder.

(** ** The build *)

(** spatial_sah.rs:936: the size of the reference arrays. *)
Definition f075 : f32 := fdiv (f_of_Z 3) (f_of_Z 4).
Definition max_refs (n : nat) : nat := n + Z.to_nat (f_as_usize (fmul (fn n) f075)).

(** spatial_sah.rs:958: [alpha * 2 * half_area]. *)
Definition spatial_threshold (aabbs : list aabb) : f32 := fmul (fmul f1em5 (f_of_Z 2)) (half_area (union_of_list aabbs)).

(** spatial_sah.rs:975-984: the initial references. *)
Definition first_refs (aabbs : list aabb) (centers : list vec3) : list sref :=
  map (fun i => Sr (nth i aabbs aabb_new) (nth i centers (vsplat f0)) i) (seq 0 (length aabbs)).
(** spatial_sah.rs:939-1003: the memory and the first task. *)
Definition spatial_start (aabbs : list aabb) (centers : list vec3) : pmem :=
  let m := max_refs (length aabbs) in
  let l := first_refs aabbs centers ++ repeat sref_new (m - length aabbs) in
  Pm (l, l, l) (upd (repeat node_new (2 * m + 1)) 0 (union_of_list aabbs)) (repeat 0 m) 1 0.
Definition spatial_root (aabbs : list aabb) : witem :=
  Wi 0 0 (length aabbs) (max_refs (length aabbs)) 0 false.

(** A build in progress. *)
Definition spatial_reaches sorter (primitives_per_leaf : option nat) (aabbs : list aabb) (prims : list tri) (centers : list vec3)
    (s : state witem pmem pprog) : Prop :=
  reachable QRun w_size (qstep sorter prims (max_leaf_size primitives_per_leaf) (spatial_threshold aabbs)) WORK_THRESHOLD
    (initial (spatial_start aabbs centers) (spatial_root aabbs)) s.

(** spatial_sah.rs:1025-1032: the BVH made of the memory after the run. *)
Definition spatial_finish (m : pmem) : bvh := Bvh (resize (p_nodes m) (p_ctr m)) (p_idx m).

(** spatial_sah.rs:927-1033 [build]; [centers] are the primitives'
    [center()]s.  For mismatched or empty input the default BVH. *)
Definition spatial_build sorter (primitives_per_leaf : option nat) (aabbs : list aabb) (prims : list tri) (centers : list vec3)
    (b : bvh) : Prop :=
  if negb (length prims =? length aabbs) || (length prims =? 0) || (length aabbs =? 0)
  then b = Bvh [] []
  else exists s, spatial_reaches sorter primitives_per_leaf aabbs prims centers s /\ returned s /\ b = spatial_finish (s_mem s).

(** The stable sort by center. *)
Fixpoint insert_ref (axis : nat) (x : sref) (l : list sref) : list sref :=
  match l with
  | [] => [x]
  | y :: l => if flt (vget (s_center x) axis) (vget (s_center y) axis) then x :: y :: l else y :: insert_ref axis x l
  end.
Definition insertion_sort (axis : nat) (l : list sref) : list sref :=
  fold_left (fun acc x => insert_ref axis x acc) l [].
