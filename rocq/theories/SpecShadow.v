(** * Specification: the shadow-ray loop

    [for prim in bvh.iter_ray(...) { if hit(prim, ray) { return true; } }
     return false;]
    Nothing here models library code but the calls of [next]. *)
Require Import List Bool.
From Verif Require Import Base RayModel TriModel.
Import ListNotations.

(** The loop, as at most [k] calls of [next] (one call per turn of the loop). *)
Fixpoint any_hit {R S : Type} (next : R -> S -> res (option nat * S)) (hit : nat -> R -> bool)
    (k : nat) (r : R) (s : S) : res bool :=
  match k with
  | O => OutOfFuel
  | Datatypes.S k =>
      do (o, s') <- next r s;
      match o with
      | None => Ok false
      | Some p => if hit p r then Ok true else any_hit next hit k r s'
      end
  end.

(** The body [triangles[p].intersect(ray)]. *)
Definition mesh_hit (tris : list tri) (p : nat) (r : ray) : bool :=
  match nth_error tris p with Some tr => fst (tri_intersect tr r) | None => false end.
