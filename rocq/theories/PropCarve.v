(** * Property C76: which tree the binned-SAH builder makes *)
Require Import List ZArith Bool Arith Lia Permutation.
From Verif Require Import F32 F32Facts Vec AabbModel AabbProofs Base NodeModel UtilsModel LocbModel SpawnModel SpecGeom SpecTree
  BinnedModel BinnedProofs BinnedFacts BinnedLeaf SpecBinned BinnedCost SpecCarve CarveProofs LocbProofs PropBox PropLocb PropBinned.
Import ListNotations.
Local Open Scope nat_scope.

Lemma root_hull : forall aabbs, union_of_list aabbs = with_offset (hull aabbs (seq 0 (length aabbs))) f1em4.
Proof.
  intro aabbs. unfold union_of_list, hull. do 2 f_equal. symmetry.
  apply nth_ext with aabb_new aabb_new; rewrite map_length, seq_length; auto.
  intros i L. rewrite (nth_indep _ aabb_new (nth 0 aabbs aabb_new)) by (rewrite map_length, seq_length; auto).
  rewrite (map_nth (fun p => nth p aabbs aabb_new)), seq_nth by auto. reflexivity.
Qed.
Lemma box_refl2 : forall aabbs ids, Forall box_ok aabbs -> union_box aabbs ids (hull aabbs ids).
Proof. intros. apply tight_union; auto. apply hull_tight. auto. Qed.

(** Every build makes the tree of the specification (SpecCarve.v): from the
    padded union of all AABBs, every node is divided at the cut the surface area
    heuristic prefers (the first, if there are several), or, if no cut pays and
    there are too many primitives for a leaf, in the middle of its longest axis;
    the children's boxes are the unions of the AABBs on the two sides, padded. *)
Theorem C76_made : forall ppl aabbs centers b t,
  binned_input aabbs centers -> Forall box_ok aabbs -> binned_build ppl aabbs centers b ->
  repr (nodes b) t -> t_idx t = 0 ->
  exists h, union_box aabbs (seq 0 (length aabbs)) h /\
    carved aabbs centers (leaf_limit ppl) (prim_indices b) 0 (with_offset h f1em4) t.
Proof.
  intros ppl aabbs centers b t I Hok B Rp T0.
  destruct (binned_result _ _ _ _ I B) as (u & R & U0 & _ & Ps & _ & _ & Sh & Pi & _).
  pose proof (result_prims _ _ _ _ u I B Ps) as Pr.
  rewrite (repr_unique (nodes b) t u) by (auto; congruence).
  destruct I as (L & N & M).
  exists (hull aabbs (seq 0 (length aabbs))). split; [apply box_refl2; auto|].
  change 0 with (64 - 64) at 1. rewrite <- root_hull.
  apply (carved_tree (leaf_limit ppl) aabbs centers) with (prim_indices b); auto.
  rewrite Sh, Pi. unfold sah_of. cbn [root_ent e_ids e_depth e_begin e_box].
  apply (sah_carved (leaf_limit ppl) aabbs centers Hok L N 64).
  apply Forall_forall. intros x Ix. apply in_seq in Ix. lia.
Qed.

(** The specification leaves no choice: any stored tree over the same
    primitives that satisfies it has the same boxes, the same nesting and the
    same primitives in its leaves. *)
Theorem C76_determined : forall ppl aabbs centers b t indices t' h,
  binned_input aabbs centers -> Forall box_ok aabbs -> binned_build ppl aabbs centers b ->
  repr (nodes b) t -> t_idx t = 0 ->
  Permutation (prims indices t') (seq 0 (length aabbs)) ->
  union_box aabbs (seq 0 (length aabbs)) h ->
  carved aabbs centers (leaf_limit ppl) indices 0 (with_offset h f1em4) t' ->
  alike (prim_indices b) t indices t'.
Proof.
  intros ppl aabbs centers b t indices t' h I Hok B Rp T0 P [U1 U2] C.
  destruct (C76_made _ _ _ _ _ I Hok B Rp T0) as (h0 & [V1 V2] & C0).
  destruct (binned_result _ _ _ _ I B) as (u & R & Z0 & _ & Ps & _).
  pose proof (result_prims _ _ _ _ u I B Ps) as Pr. rewrite (repr_unique (nodes b) t u) in * by (auto; congruence).
  destruct (same_padded h0 h) as [E1 E2].
  { eapply box_in_trans; eauto. }
  { eapply box_in_trans; eauto. }
  eapply (carved_unique (leaf_limit ppl) aabbs centers Hok (proj1 I) (proj1 (proj2 I))); [exact C0|exact C| | |].
  - remember (with_offset h0 f1em4) as x. remember (with_offset h f1em4) as y. unfold with_offset. cbn [bmin]. rewrite E1. reflexivity.
  - remember (with_offset h0 f1em4) as x. remember (with_offset h f1em4) as y. unfold with_offset. cbn [bmax]. rewrite E2. reflexivity.
  - rewrite Pr. eapply Permutation_trans; [apply (result_perm _ _ _ _ I B)|apply Permutation_sym; auto].
Qed.

(** ** How tight the boxes are *)
Lemma carved_boxed : forall aabbs centers limit idx d b t, carved aabbs centers limit idx d b t -> boxed b t.
Proof. intros aabbs centers limit idx d b t H. destruct H; split; auto. Qed.

Lemma carved_sub : forall aabbs centers limit idx d b t, carved aabbs centers limit idx d b t ->
  forall i n l r, subtree (TNode i n l r) t ->
  exists d' b' bl br, bmin n = bmin (with_offset b' f1em4) /\ bmax n = bmax (with_offset b' f1em4) /\
    cut_into aabbs centers limit (with_offset b' f1em4) (prims idx (TNode i n l r)) (prims idx l) (prims idx r) bl br /\
    carved aabbs centers limit idx d' bl l /\ carved aabbs centers limit idx d' br r.
Proof.
  intros aabbs centers limit idx d b t H. induction H as [d b i n Mn Mx U|d b i n l r bl br Mn Mx Ld C Hl IHl Hr IHr]; intros j m l' r' S.
  - inversion S.
  - inversion S; subst; eauto.
    exists (Datatypes.S d), b, bl, br. split; [auto|]. split; [auto|]. split; [|auto].
    unfold prims in *. cbn [positions]. rewrite map_app. exact C.
Qed.

(** The root's box is the padded union of all AABBs.  Every right child's box is
    the padded union of the AABBs of the primitives below it.  A left child's
    box is the padded union of some of its parent's AABBs, namely of those below
    it if its parent has a cut that pays. *)
Theorem C76_tight : forall ppl aabbs centers b t,
  binned_input aabbs centers -> Forall box_ok aabbs -> binned_build ppl aabbs centers b ->
  repr (nodes b) t -> t_idx t = 0 ->
  (exists h, union_box aabbs (seq 0 (length aabbs)) h /\ boxed (with_offset h f1em4) t) /\
  forall i nd l r, subtree (TNode i nd l r) t ->
    let held := prims (prim_indices b) (TNode i nd l r) in
    (exists br, union_box aabbs (prims (prim_indices b) r) br /\ boxed br r) /\
    (exists bl some, (forall p, In p some -> In p held) /\ union_box aabbs some bl /\ boxed bl l /\
       forall axis k, pays aabbs centers nd held axis k -> union_box aabbs (prims (prim_indices b) l) bl).
Proof.
  intros ppl aabbs centers b t I Hok B Rp T0.
  destruct (C76_made _ _ _ _ _ I Hok B Rp T0) as (h & U & C). split; [exists h; split; [exact U|eapply carved_boxed; eauto]|].
  intros i nd l r Su held.
  assert (held = prims (prim_indices b) l ++ prims (prim_indices b) r) as Eh by apply map_app.
  destruct (carved_sub _ _ _ _ _ _ _ C _ _ _ _ Su) as (d & b' & bl & br & E1 & E2 & (axis & k & j & Ch & N1 & N2 & Fl & Fr & Ul & Ur) & Cl & Cr).
  split; [exists br; split; [exact Ur|eapply carved_boxed; eauto]|].
  exists bl, (below centers (with_offset b' f1em4) axis j held). split; [|split; [exact Ul|split; [eapply carved_boxed; eauto|]]].
  - intros p Ip. apply filter_In in Ip. apply Ip.
  - intros a i' Pa. apply (epays aabbs centers nd (with_offset b' f1em4)) in Pa; auto.
    destruct Ch as [(_ & _ & ->)|(No & _)]; [|exfalso; eapply No; exact Pa].
    unfold below in Ul. remember (with_offset b' f1em4) as bnd. clear Heqbnd.
    fold held in Ul. rewrite Eh, filter_app in Ul. rewrite forallb_filter_id, filter_none, app_nil_r in Ul; auto.
    + intros x Ix. rewrite Forall_forall in Fr. apply Nat.ltb_ge. auto.
    + apply forallb_forall. intros x Ix. rewrite Forall_forall in Fl. apply Nat.ltb_lt. auto.
Qed.

(** The root of the BVH of five boxes is divided by a cut that pays. *)
Example C76_nonvacuous : exists b t i nd l r, binned_input five (map center five) /\ Forall box_ok five /\
  binned_build None five (map center five) b /\ repr (nodes b) t /\ t_idx t = 0 /\ subtree (TNode i nd l r) t /\
  pays five (map center five) nd (prims (prim_indices b) (TNode i nd l r)) 0 8.
Proof.
  destruct C53_nonvacuous as (b & t & i & nd & l & r & B & R & T0 & Su & W).
  exists b, t, i, nd, l, r. split; [repeat split; simpl; lia|]. split; [unfold five; repeat constructor; vm_compute; reflexivity|].
  split; [exact B|]. split; [exact R|]. split; [exact T0|]. split; [exact Su|].
  destruct W as (W1 & W2 & W3 & W4 & W5). split; [exact W1|]. split; [exact W2|]. split; [exact W3|]. split; [apply lt_nle; exact W4|exact W5].
Qed.
