(** * What colour a triangle should be drawn in *)
Require Import ZArith Reals.
From Verif Require Import F32 Vec SpecGeom SpecCamera TriModel.
Local Open Scope R_scope.

(** Component [i] of the exact edge from [a] to [b]; of the exact cross product
    of two vectors of reals. *)
Definition edge (a b : vec3) (i : nat) : R := comp b i - comp a i.
Definition cross (u v : nat -> R) (i : nat) : R :=
  match i with
  | 0%nat => u 1%nat * v 2%nat - u 2%nat * v 1%nat
  | 1%nat => u 2%nat * v 0%nat - u 0%nat * v 2%nat
  | _ => u 0%nat * v 1%nat - u 1%nat * v 0%nat
  end.
(** The exact normal (not yet of length one): (v1 - v0) x (v2 - v0). *)
Definition exact_normal (tr : tri) : nat -> R := cross (edge (tv0 tr) (tv1 tr)) (edge (tv0 tr) (tv2 tr)).

(** Finite vertices, and two edges with components of magnitude at most [e]. *)
Definition edges_ok (tr : tri) (e : R) : Prop :=
  (forall i, (i < 3)%nat -> ffinite (vget (tv0 tr) i) /\ ffinite (vget (tv1 tr) i) /\ ffinite (vget (tv2 tr) i)) /\
  (forall i, (i < 3)%nat -> Rabs (edge (tv0 tr) (tv1 tr) i) <= e /\ Rabs (edge (tv0 tr) (tv2 tr) i) <= e).

(** A component of the normal as a colour: negative is dark, one is full. *)
Definition shade (x : R) : R := 255 * Rmax 0 (Rmin 1 x).
