(** * Specification: which leaves a traversal must and may visit *)
Require Import List ZArith Bool Permutation.
From Verif Require Import F32 Vec RayModel AabbModel SpecTree.
Import ListNotations.

(** [reached hit t]: the leaves (as records, left to right) all of whose
    boxes below [t] are hit; the box of [t] itself (the root) is not tested. *)
Fixpoint reached (hit : aabb -> bool) (t : tree) : list aabb :=
  match t with
  | TLeaf _ n => [n]
  | TNode _ _ l r =>
      (if hit (t_rec l) then reached hit l else []) ++
      (if hit (t_rec r) then reached hit r else [])
  end.

(** Sub-multiset: every element of [a] occurs in [b] at least as often. *)
Definition submset {A} (a b : list A) : Prop := exists c, Permutation (a ++ c) b.

(** The ray (packet) passes the library's box test. *)
Definition hit_box (r : ray) (b : aabb) : bool := match intersect b r with Some _ => true | None => false end.
Definition hit_box4 (p : packet) (b : aabb) : bool := match intersect4 b p with Some _ => true | None => false end.

(** Clients of a ray iterator that change nothing of the ray but [ray.t]. *)
Definition only_t {C} (client : C -> nat -> ray -> C * ray) : Prop :=
  forall c p r, exists t, snd (client c p r) = ray_set_t r t.

(** Clients of a packet iterator that do nothing to the packet but lower some
    lanes of [t].  A lane left as it is need not be a number. *)
Definition at_most (a b : f32) : Prop := a = b \/ fle a b = true.
Definition wle (a b : vec4) : Prop :=
  at_most (wx a) (wx b) /\ at_most (wy a) (wy b) /\ at_most (wz a) (wz b) /\ at_most (ww a) (ww b).
Definition lowers_t {C} (client : C -> nat -> packet -> C * packet) : Prop :=
  forall c p r, exists t, snd (client c p r) = packet_set_t r t /\ wle t (p_t r).

(** The loop body seen from outside: the client's state and ray after having
    been handed the primitives [ps] one by one. *)
Definition client_fold {C R} (client : C -> nat -> R -> C * R) (ps : list nat) (c : C) (r : R) : C * R :=
  fold_left (fun cr p => client (fst cr) p (snd cr)) ps (c, r).

(** Closest-hit search.  [dist p] is where primitive [p] meets the ray's line,
    if anywhere; the loop body accepts it if it is nearer than [ray.t]. *)
Definition closest_body (dist : nat -> option f32) (c : unit) (p : nat) (r : ray) : unit * ray :=
  match dist p with
  | Some d => if flt d (r_t r) then (tt, ray_set_t r d) else (tt, r)
  | None => (tt, r)
  end.

(** [q] is above or at the leaf record [l] (whose ids contain [p]) in [t]. *)
Inductive on_path (indices : list nat) (p : nat) : tree -> aabb -> Prop :=
| op_self : forall t, In p (prims indices t) -> on_path indices p t (t_rec t)
| op_left : forall i n l r b, on_path indices p l b -> on_path indices p (TNode i n l r) b
| op_right : forall i n l r b, on_path indices p r b -> on_path indices p (TNode i n l r) b.
