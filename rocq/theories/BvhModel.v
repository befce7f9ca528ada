(** * The [Builder] front end and the operations of [Bvh]: src/bvh.rs *)
Require Import List ZArith Bool.
From Verif Require Import F32 Vec AabbModel Base NodeModel LocbModel.
Import ListNotations.
Local Open Scope Z_scope.

(** bvh.rs:25-29 [BuildError]. *)
Inductive build_error := NoPrimitives | InequalAabbsAndPrimitives (aabbs prims : nat).

(** [Result<T, E>]. *)
Inductive result (A E : Type) := ROk (a : A) | RErr (e : E).
Arguments ROk {A E} a. Arguments RErr {A E} e.

(** bvh.rs:57-136: [construct_spatial_sah], [construct_binned_sah] and
    [construct_locally_ordered_clustered] have the same text up to the builder
    that is run ([build], which gets the AABBs and the primitives).  [collect]
    is what [iter().par_bridge().map(f).collect::<Vec<_>>()] does with the
    list of mapped values: rayon's [par_bridge] hands the items to the worker
    threads and "does not preserve the order", so it is some rearrangement
    chosen by the scheduler. *)
Definition construct {P} (aabb_of : P -> aabb) (collect : list aabb -> list aabb)
    (build : list aabb -> list P -> res bvh) (given : option (list aabb)) (primitives : list P)
    : res (result bvh build_error) :=
  match primitives with
  | [] => Ok (RErr NoPrimitives)
  | _ :: _ =>
      match given with
      | Some aabbs =>
          if negb (Nat.eqb (length aabbs) (length primitives)) then
            Ok (RErr (InequalAabbsAndPrimitives (length aabbs) (length primitives)))
          else
            do b <- build aabbs primitives;
            Ok (ROk b)
      | None =>
          let aabbs := collect (map aabb_of primitives) in
          do b <- build aabbs primitives;
          Ok (ROk b)
      end
  end.

(** bvh.rs:112-136 with locb.rs as the builder; [center] is
    [Primitive::center]. *)
Definition construct_locb {P} (center_of : P -> vec3) (aabb_of : P -> aabb) (collect : list aabb -> list aabb)
    (fuel threads : nat) (given : option (list aabb)) (primitives : list P) : res (result bvh build_error) :=
  construct aabb_of collect (fun aabbs ps => locb_build fuel threads aabbs (map center_of ps)) given primitives.

(** ** refit *)

(** bvh.rs:184-189: grow by the AABBs of a leaf's primitives. *)
Definition refit_leaf (indices : list nat) (new_aabbs : list aabb) (left_first count : Z) : res aabb :=
  for_each (seq 0 (Z.to_nat count))
    (fun i a =>
       do prim <- get indices (as_usize (as_u32 (left_first + Z.of_nat i)));
       do b <- get new_aabbs prim;
       Ok (grow_bb a b)) aabb_new.

(** bvh.rs:178-199: the new bounds of a node. *)
Definition refit_bounds (indices : list nat) (new_aabbs : list aabb) (ns : list node) (n : node) : res aabb :=
  match get_left_first n with
  | Some left_first =>
      do a <- (if is_leaf n then refit_leaf indices new_aabbs left_first (count_unchecked n)
               else
                 do l <- get ns (as_usize left_first);
                 do r <- get ns (as_usize (as_u32 (left_first + 1)));
                 Ok (grow_bb (grow_bb aabb_new l) r));
      Ok (with_offset a f1em4)
  | None => Ok aabb_new
  end.

(** bvh.rs:177-203: one turn of the loop over the nodes; a node's record is
    its [bounds], whose extra fields hold count and first index, and is
    overwritten as a whole. *)
Definition refit_node (indices : list nat) (new_aabbs : list aabb) (i : nat) (ns : list node) : res (list node) :=
  do n <- get ns i;
  do a <- refit_bounds indices new_aabbs ns n;
  set ns i a.

(** bvh.rs:176-205 [refit]. *)
Definition refit (b : bvh) (new_aabbs : list aabb) : res bvh :=
  do ns <- for_each (rev (seq 0 (length (nodes b)))) (refit_node (prim_indices b) new_aabbs) (nodes b);
  Ok (Bvh ns (prim_indices b)).

(** ** validate *)

(** bvh.rs:207-228 [traverse_check] (with fuel for the recursion); the
    [debug_assert!] fails where the write would panic. *)
Fixpoint traverse_check (fuel : nat) (b : bvh) (cur : node) (checks : list Z) : res (list Z) :=
  match fuel with
  | O => OutOfFuel
  | S fuel =>
      match get_left_first cur with
      | None => Ok checks
      | Some left_first =>
          if is_leaf cur then
            for_each (seq 0 (Z.to_nat (count_unchecked cur)))
              (fun i checks =>
                 do prim <- get (prim_indices b) (as_usize (as_i32 left_first + Z.of_nat i));
                 set checks prim 1) checks
          else
            do l <- get (nodes b) (as_usize left_first);
            do r <- get (nodes b) (as_usize left_first + 1);
            do checks <- traverse_check fuel b l checks;
            traverse_check fuel b r checks
      end
  end.

(** bvh.rs:232-244 [validate]. *)
Definition validate (fuel : nat) (b : bvh) (prim_count : nat) : res bool :=
  let found_indices := repeat 0 prim_count in
  do root <- get (nodes b) 0;
  do found_indices <- traverse_check fuel b root found_indices;
  Ok (forallb (fun index => negb (index =? 0)) found_indices).
