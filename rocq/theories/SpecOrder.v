(** * Specification: the order in which traversals hand out primitives

    A traversal is described as a recursive walk over the tree.  [cr] is the
    state of the client's loop: its own state and the ray (or packet) as the
    loop body has left it.  A walk returns the primitives it hands out, in
    order, and the state afterwards. *)
Require Import List ZArith Bool.
From Verif Require Import F32 Vec RayModel AabbModel SpecTree SpecTraverse MbvhModel SpecMbvh.
Import ListNotations.

Section Steps.
  Context {C R : Type}.
  Definition walker : Type := C * R -> list nat * (C * R).

  (** The loop body is given [ps] one by one. *)
  Definition hand (client : C -> nat -> R -> C * R) (ps : list nat) : walker :=
    fun cr => (ps, client_fold client ps (fst cr) (snd cr)).

  (** Nothing; one walk after another; several in turn. *)
  Definition stay : walker := fun cr => ([], cr).
  Definition after (first second : walker) : walker := fun cr =>
    let (ps, cr1) := first cr in
    let (qs, cr2) := second cr1 in (ps ++ qs, cr2).
  Fixpoint in_turn (l : list walker) : walker :=
    match l with [] => stay | w :: l => after w (in_turn l) end.
End Steps.

(** ** Binary trees

    The boxes of the two children are tested when their parent is visited,
    with the ray as it then is.  [enters b r] is where the ray enters the box
    [b], if it hits it; [sooner x y] compares two such distances.  A child
    that is hit is walked entirely, without further test of its own box; of two
    children that are hit, the one that is entered *later* comes first: the
    order is back to front (left first if neither is entered sooner). *)
Section Binary.
  Context {C R H : Type}.
  Variable enters : aabb -> R -> option H.
  Variable sooner : H -> H -> bool.
  Variable indices : list nat.
  Variable client : C -> nat -> R -> C * R.

  Fixpoint walk (t : tree) : walker :=
    match t with
    | TLeaf _ n => hand client (leaf_prims indices n)
    | TNode _ _ a b => fun cr =>
        match enters (t_rec a) (snd cr), enters (t_rec b) (snd cr) with
        | Some x, Some y => if sooner x y then after (walk b) (walk a) cr else after (walk a) (walk b) cr
        | Some _, None => walk a cr
        | None, Some _ => walk b cr
        | None, None => stay cr
        end
    end.
End Binary.

(** Single rays: [Aabb::intersect] gives the distance.  Packets: a child is
    sooner if it is for at least one of the four lanes. *)
Definition ray_walk {C} := @walk C ray f32 intersect flt.
Definition packet_walk {C} := @walk C packet vec4 intersect4
  (fun x y => flt (wx x) (wx y) || flt (wy x) (wy y) || flt (wz x) (wz y) || flt (ww x) (ww y)).

(** ** 4-wide trees

    The four slots of a node are tested when it is visited, with the ray as it
    then is.  [near_first i r] lists the slots of node [i] nearest first (for
    single rays; see C28 for how far that goes).  First the leaves among the
    slots that are hit are handed out, the *farthest* first; then the nodes
    among them are walked, the nearest first. *)
Section Quad.
  Context {C R : Type}.
  Variable touches : R -> box -> bool.
  Variable near_first : nat -> R -> list nat.
  Variable indices : list nat.
  Variable client : C -> nat -> R -> C * R.

  Definition a_leaf (t : mtree) : bool := match t with MLeaf _ _ _ => true | _ => false end.
  Definition a_node (t : mtree) : bool := match t with MNode _ _ _ _ _ _ => true | _ => false end.

  Fixpoint qwalk (t : mtree) : walker :=
    match t with
    | MEmpty => stay
    | MLeaf _ first count => hand client (range_prims indices (first, count))
    | MNode _ i c0 c1 c2 c3 => fun cr =>
        let slot k := match k with 0 => c0 | 1 => c1 | 2 => c2 | _ => c3 end in
        let walk_slot k := match k with 0 => qwalk c0 | 1 => qwalk c1 | 2 => qwalk c2 | _ => qwalk c3 end in
        let hit := filter (fun k => touches (snd cr) (mbox (slot k))) (near_first i (snd cr)) in
        in_turn (map walk_slot (rev (filter (fun k => a_leaf (slot k)) hit) ++ filter (fun k => a_node (slot k)) hit)) cr
    end.
End Quad.

(** The order of the slots that the node tests report (C28). *)
Definition ray_order (ms : list mnode) (i : nat) (r : ray) : list nat :=
  match nth_error ms i with Some m => h_ids (m_intersect m r) | None => [] end.
Definition ray_qwalk {C} (ms : list mnode) := @qwalk C ray qhit (ray_order ms).
(** Packets: slots 0 to 3 in storage order, whatever the distances. *)
Definition packet_qwalk {C} := @qwalk C packet qhit4 (fun _ _ => [0; 1; 2; 3]).
