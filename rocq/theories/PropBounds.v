(** * Property C79: [bounds()] of a BVH *)
Require Import List ZArith Bool Lia Permutation Arith.
Require Import Reals.
From Verif Require Import F32 F32Facts Vec RayModel AabbModel Base NodeModel IterModel LocbModel SpecGeom SpecTree AabbProofs
  MbvhModel SpecMbvh PropBox PropMbvh PropLocb BinnedModel SpecBinned PropBinned UtilsModel TriModel SpatialModel SpecSpatial SpatialProofs PropSpatial SpatialBoxes PropSpatialBox PropMeasure IterProofs.
Import ListNotations.
Local Open Scope nat_scope.

(** A structure without nodes: the default (empty) box. *)
Theorem C79_empty : nodes_bounds [] = aabb_new /\ forall p, ~ in_box (nodes_bounds []) p.
Proof. split; [reflexivity|]. intro p. apply (C01_full_empty p). Qed.

(** Otherwise the box of the root; the same for the 4-wide BVHs made of it. *)
Theorem C79_root : forall ns t, repr ns t -> t_idx t = 0 -> nodes_bounds ns = t_rec t.
Proof. intros ns t R T0. apply repr_idx in R. rewrite T0 in R. destruct ns; [discriminate|]. simpl in R. injection R as ->. reflexivity. Qed.

Theorem C79_quad : forall b fuel mb, mbvh_construct fuel b = Ok mb \/ mbvh_from_raw fuel (nodes b) (prim_indices b) = Ok mb ->
  nodes_bounds (mb_nodes mb) = nodes_bounds (nodes b).
Proof.
  intros b fuel mb [E|E]; [apply (C26_bounds b fuel mb E)|]. unfold mbvh_from_raw in E.
  destruct (length (nodes b) <=? 4).
  - destruct (for_each _ _ _) as [pool| | |]; cbn [bind] in E; try discriminate. injection E as <-. reflexivity.
  - destruct (merge_nodes _ _ _ _ _ _) as [[pool ptr]| | |]; cbn [bind] in E; try discriminate. injection E as <-. reflexivity.
Qed.

(** It encloses the AABB of every primitive, for all three builders; for the
    spatial-splits builder also in the builds in which primitives get lost. *)
Lemma all_inside : forall aabbs ids box, Permutation ids (seq 0 (length aabbs)) ->
  Forall (fun p => forall b, nth_error aabbs p = Some b -> box_in b box) ids -> Forall (fun b => box_in b box) aabbs.
Proof.
  intros aabbs ids box P F. apply Forall_forall. intros b Ib. apply In_nth_error in Ib as [p E]. rewrite Forall_forall in F.
  apply (F p); auto. apply (Permutation_in _ (Permutation_sym P)). apply in_seq.
  assert (p < length aabbs) by (apply nth_error_Some; congruence). lia.
Qed.
Lemma encloses_all : forall aabbs idx t, Permutation (prims idx t) (seq 0 (length aabbs)) -> encloses aabbs idx t ->
  Forall (fun b => box_in b (t_rec t)) aabbs.
Proof.
  intros aabbs idx t P E. apply (all_inside aabbs (prims idx t)); auto. destruct t; simpl in E; apply E.
Qed.
Theorem C79_locb : forall fuel threads aabbs centers bv,
  locb_input aabbs centers -> 1 <= threads -> Forall box_ok aabbs ->
  locb_build fuel threads aabbs centers = Ok bv ->
  Forall (fun b => box_in b (nodes_bounds (nodes bv))) aabbs.
Proof.
  intros fuel threads aabbs centers bv I T Ok E. destruct (C21_encloses fuel threads aabbs centers bv I T Ok E) as (t & R & T0 & P & En).
  rewrite (C79_root _ t) by auto. eapply encloses_all; eauto.
Qed.

Theorem C79_binned : forall ppl aabbs centers b,
  binned_input aabbs centers -> Forall box_ok aabbs -> binned_build ppl aabbs centers b ->
  Forall (fun bx => box_in bx (nodes_bounds (nodes b))) aabbs.
Proof.
  intros ppl aabbs centers b I Ok B. destruct (C12_valid ppl aabbs centers b I B) as (_ & t & R & T0 & Ps).
  destruct (C16_boxes ppl aabbs centers b t I Ok B R T0) as [In _].
  rewrite (C79_root _ t) by auto. apply (all_inside aabbs (prims (prim_indices b) t)); auto.
  rewrite (result_prims _ _ _ _ t I B Ps). eapply result_perm; eauto.
Qed.

Lemma seq_box : forall sorter tris ls th k t bounds w T, seq_tree sorter tris ls th k t bounds w = Ok T ->
  a_box T = bounds \/ a_box T = with_offset bounds f1em4.
Proof.
  intros sorter tris ls th k t bounds w T E. destruct k as [|k]; cbn [seq_tree] in E;
    destruct (plan_task _ _ _ _ _ _ _) as [[w' d]| | |]; cbn [bind] in E; try discriminate E; destruct d as [|c]; try discriminate E.
  - injection E as <-. left; reflexivity.
  - injection E as <-. left; reflexivity.
  - destruct (move3 _ _ _ _); cbn [bind] in E; try discriminate E.
    destruct (seq_tree _ _ _ _ k _ _ _); cbn [bind] in E; try discriminate E.
    destruct (seq_tree _ _ _ _ k _ _ _); cbn [bind] in E; try discriminate E.
    injection E as <-. right; reflexivity.
Qed.
Theorem C79_spatial : forall sorter ppl aabbs tris centers b,
  permutes sorter -> spatial_input aabbs tris -> Forall box_ok aabbs -> spatial_build sorter ppl aabbs tris centers b ->
  Forall (fun bx => box_in bx (nodes_bounds (nodes b))) aabbs.
Proof.
  intros sorter ppl aabbs tris centers b Sp I Ok B.
  destruct (spatial_result sorter ppl aabbs tris centers b Sp I B) as (t & T & E & St & R & T0 & _).
  rewrite (C79_root _ t) by auto. rewrite seq_spatial_eq in E. apply seq_box in E. destruct (stores_box _ _ _ St) as [A C].
  destruct (union_of_list_covers aabbs Ok) as [U V].
  eapply Forall_impl; [|exact V]. intros x Hx. unfold box_in. rewrite A, C.
  destruct E as [-> | ->]; [exact Hx|]. destruct (with_offset_in _ f1em4 U (proj1 f1em4_pos) (proj2 f1em4_pos)) as (_ & W & _).
  apply (box_in_trans _ _ _ Hx W).
Qed.

(** ** Concrete cases *)
Definition wide (b : bvh) : bool := fle (vx (bmin (nodes_bounds (nodes b)))) f0 && fle (fz 4) (vx (bmax (nodes_bounds (nodes b)))).
Example C79_nonvacuous :
  (locb_input lbs lcs /\ Forall box_ok lbs /\ exists bv, locb_build 6 3 lbs lcs = Ok bv /\ wide bv = true) /\
  (binned_input five (map center five) /\ Forall box_ok five /\ exists b, binned_build (Some 5) five (map center five) b) /\
  (spatial_input (map tri_box two) two /\ Forall box_ok (map tri_box two) /\ permutes insertion_sort).
Proof.
  split; [|split].
  - destruct C18_nonvacuous as (A & _ & B & _). split; auto. split; auto.
    assert ((match locb_build 6 3 lbs lcs with Ok b => wide b | _ => false end) = true) as E by (vm_compute; reflexivity).
    destruct (locb_build 6 3 lbs lcs) as [bv| | |]; try discriminate. eauto.
  - destruct C12_nonvacuous as (A & B & b & C & _). eauto.
  - destruct C54_whole_nonvacuous as (A & B & _). split; auto. split; auto. apply C54_nonvacuous.
Qed.
