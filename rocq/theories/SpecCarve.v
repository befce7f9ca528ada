(** * Specification: which tree the binned-SAH builder makes *)
Require Import List ZArith Bool Arith.
From Verif Require Import F32 Vec AabbModel SpecGeom SpecTree BinnedModel SpecBinned.
Import ListNotations.

Section Carve.
  (** The AABBs and centres of the primitives, and [primitives_per_leaf]. *)
  Variables (aabbs : list aabb) (centers : list vec3) (limit : nat).

  (** [b] is the union of the AABBs of [ids] (up to the signs of zeros). *)
  Definition union_box (ids : list nat) (b : aabb) : Prop :=
    box_in b (hull aabbs ids) /\ box_in (hull aabbs ids) b.

  (** Those of [ids] below slab [k]. *)
  Definition below (bounds : aabb) (axis k : nat) (ids : list nat) : list nat :=
    filter (fun p => slab centers bounds axis p <? k) ids.

  Section Node.
    (** A node with box [bounds] that holds [ids]. *)
    Variables (bounds : aabb) (ids : list nat).
    Notation cost := (split_cost aabbs centers bounds ids).

    (** [k] is the first of the cheapest cuts along [axis], if its cost is less
        than the largest float; 16 if there is no such cut. *)
    Definition best_cut (axis k : nat) : Prop :=
      (k = 16 /\ forall j, 0 < j -> j < 16 -> flt (cost axis j) fMAX = false) \/
      (0 < k /\ k < 16 /\ flt (cost axis k) fMAX = true /\
       (forall j, 0 < j -> j < 16 -> flt (cost axis j) (cost axis k) = false) /\
       (forall j, 0 < j -> j < k -> fle (cost axis j) (cost axis k) = false)).
    Definition cut_cost (axis k : nat) : f32 := if k =? 16 then fMAX else cost axis k.
    (** [axis] is the first axis whose best cut is the cheapest, and [k] is
        this cut. *)
    Definition best_axis (axis k : nat) : Prop :=
      axis < 3 /\ best_cut axis k /\
      forall a j, a < 3 -> best_cut a j ->
        flt (cut_cost a j) (cut_cost axis k) = false /\ (a < axis -> fle (cut_cost a j) (cut_cost axis k) = false).

    (** The cut costs less than no cut (or that cost is NaN), and less than the
        largest float. *)
    Definition pays (axis k : nat) : Prop :=
      axis < 3 /\ 0 < k /\ k < 16 /\ fle (leaf_cost bounds ids) (cost axis k) = false /\ flt (cost axis k) fMAX = true.

    (** More than two fifths of [ids] are below slab [k], for the first time; if
        the last slab holds too many, [k] is the best cut of the best axis. *)
    Definition middle (axis k : nat) : Prop :=
      let enough j := length ids * 2 / 5 < length (below bounds axis j ids) in
      (0 < k /\ k < 16 /\ enough k /\ forall j, 0 < j -> j < k -> ~ enough j) \/
      ((forall j, 0 < j -> j < 16 -> ~ enough j) /\ exists a, best_axis a k).

    (** The cut the builder chooses; [j] is the cut that bounds the box of the
        left child.  If a cut pays, they are the same; otherwise, if there are
        too many primitives for a leaf, [k] cuts the longest axis in the middle,
        but [j] is still its best cut. *)
    Definition chosen (axis k j : nat) : Prop :=
      (best_axis axis k /\ pays axis k /\ j = k) \/
      ((forall a i, ~ pays a i) /\ limit < length ids /\
       axis = longest_axis bounds /\ middle axis k /\ best_cut axis j).

    (** The node becomes a leaf at depth [d]. *)
    Definition uncut (d : nat) : Prop :=
      length ids <= 1 \/ 64 <= d \/
      ((forall a i, ~ pays a i) /\ length ids <= limit) \/
      exists axis k j, chosen axis k j /\ (below bounds axis k ids = [] \/ length (below bounds axis k ids) = length ids).
    (** It gets two children with primitives [l], [r] and the boxes [bl], [br]. *)
    Definition cut_into (l r : list nat) (bl br : aabb) : Prop :=
      exists axis k j, chosen axis k j /\ l <> [] /\ r <> [] /\
        Forall (fun p => slab centers bounds axis p < k) l /\ Forall (fun p => k <= slab centers bounds axis p) r /\
        union_box (below bounds axis j ids) bl /\ union_box r br.
  End Node.

  Notation padded b := (with_offset b f1em4).

  (** The stored tree with root at depth [d] is made from the box [b]: a node's
      box is padded once, a leaf's twice, and the division uses the padded box. *)
  Inductive carved (idx : list nat) : nat -> aabb -> tree -> Prop :=
  | Carved_leaf : forall d b i n,
      bmin n = bmin (padded (padded b)) -> bmax n = bmax (padded (padded b)) ->
      uncut (padded b) (leaf_prims idx n) d -> carved idx d b (TLeaf i n)
  | Carved_node : forall d b i n l r bl br,
      bmin n = bmin (padded b) -> bmax n = bmax (padded b) -> d < 64 ->
      cut_into (padded b) (prims idx l ++ prims idx r) (prims idx l) (prims idx r) bl br ->
      carved idx (S d) bl l -> carved idx (S d) br r ->
      carved idx d b (TNode i n l r).
End Carve.

(** Two stored trees have the same boxes, the same nesting, and the same
    primitives in corresponding leaves. *)
Fixpoint alike (idx : list nat) (t : tree) (idx' : list nat) (t' : tree) : Prop :=
  bmin (t_rec t) = bmin (t_rec t') /\ bmax (t_rec t) = bmax (t_rec t') /\
  match t, t' with
  | TLeaf _ n, TLeaf _ n' => forall p, In p (leaf_prims idx n) <-> In p (leaf_prims idx' n')
  | TNode _ _ l r, TNode _ _ l' r' => alike idx l idx' l' /\ alike idx r idx' r'
  | _, _ => False
  end.

(** The stored root of [t] has the box [b], padded once by 1e-4 if it has
    children, twice if it is a leaf. *)
Definition boxed (b : aabb) (t : tree) : Prop :=
  let p := match t with TLeaf _ _ => with_offset (with_offset b f1em4) f1em4 | TNode _ _ _ _ => with_offset b f1em4 end in
  bmin (t_rec t) = bmin p /\ bmax (t_rec t) = bmax p.
