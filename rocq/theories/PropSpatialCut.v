(** * Property C56 of the parallel spatial-split builder: it takes cheapest
      cuts *)
Require Import List ZArith Bool Arith Lia Permutation.
From Flocq Require Import BinarySingleNaN.
From Verif Require Import F32 F32Facts Vec Base AabbModel NodeModel UtilsModel SpecGeom AabbProofs SpecTree
  LocbModel SpawnModel SpawnProofs TriModel BinnedModel SpecBinned SpatialModel SpecSpatial SpatialPlan SpatialProofs SpatialComplete
  SpatialShare SpatialBoxes SpatialLeaf SpecPlane PlaneProofs SpecCut SpatialCost SpatialDivide LocbProofs PropBox PropTri PropSpatial PropSpatialBox.
Import ListNotations.
Local Open Scope nat_scope.

Lemma first_refs_orig : forall aabbs centers, Forall (orig aabbs centers) (first_refs aabbs centers).
Proof.
  intros aabbs centers. apply Forall_forall. intros r H. unfold first_refs in H. apply in_map_iff in H as (i & <- & _).
  unfold orig. cbn [s_prim s_box s_center]. auto.
Qed.
Lemma cuts_fuel : forall sorter ppl aabbs tris centers fuel T, permutes sorter -> sorts sorter -> 1 <= length aabbs ->
  Forall box_ok aabbs -> Forall vok centers ->
  seq_tree sorter tris (max_leaf_size ppl) (spatial_threshold aabbs) fuel
    (spatial_root aabbs) (union_of_list aabbs) (p_refs (spatial_start aabbs centers)) = Ok T ->
  harmless T -> length (a_prims T) = length aabbs ->
  a_cuts tris (max_leaf_size ppl) (spatial_threshold aabbs) aabbs centers 0 T.
Proof.
  intros sorter ppl aabbs tris centers fuel T Sp So N Ok Cok ET Hm Ln. pose proof (M_ge aabbs N) as Mge.
  apply (seq_cuts sorter Sp So tris (max_leaf_size ppl) (spatial_threshold aabbs) aabbs centers Ok Cok (length aabbs) fuel
    (spatial_root aabbs) (union_of_list aabbs) (p_refs (spatial_start aabbs centers)) (max_refs (length aabbs)) (first_refs aabbs centers));
    auto; clear ET Hm.
  - unfold w_size, spatial_root. cbn [w_end w_begin]. lia.
  - unfold spatial_root. cbn [w_split_end w_begin]. lia.
  - unfold spatial_root. cbn [w_end w_begin]. lia.
  - split; [|split]; [apply (start_refs aabbs centers N 0)|apply (start_refs aabbs centers N 1)|apply (start_refs aabbs centers N 2)].
  - split; [rewrite first_refs_pr; apply seq_NoDup|]. unfold w_size, spatial_root, spatial_start. cbn [w_end w_begin p_refs]. rewrite Nat.sub_0_r.
    assert (firstn (length aabbs) (first_refs aabbs centers ++ repeat sref_new (max_refs (length aabbs) - length aabbs)) = first_refs aabbs centers) as E.
    { apply firstn_app_len. apply first_refs_len. }
    split; [|split]; cbn [pick]; rewrite E; auto.
  - unfold boxes_ok. rewrite Forall_forall in Ok |- *. intros r Ir. apply first_refs_box in Ir. apply nth_error_In in Ir. auto.
  - destruct (union_of_list_covers aabbs Ok) as (Ou & Cov). split.
    + destruct (fold_grow_bb aabbs aabb_new aabb_new_ok Ok) as (I1 & I2 & _). destruct f1em4_pos as (F & P).
      eapply box_in_trans; [exact I2|]. apply (with_offset_in _ f1em4 I1 F P).
    + rewrite Forall_forall in Cov |- *. intros r Ir. apply first_refs_box in Ir. apply nth_error_In in Ir. auto.
  - apply first_refs_orig.
  - unfold spatial_root. cbn [w_sorted]. discriminate.
  - rewrite first_refs_len. auto.
Qed.

(** ** From the abstract tree to the stored one *)
Lemma cuts_node : forall tris lsize th aabbs centers idx i nd l r t, subtree (TNode i nd l r) t ->
  forall D T, stores idx t T -> a_cuts tris lsize th aabbs centers D T ->
  exists bounds, bmin nd = bmin (with_offset bounds f1em4) /\ bmax nd = bmax (with_offset bounds f1em4) /\
    divided aabbs centers tris lsize th bounds (prims idx l) (prims idx r).
Proof.
  intros tris lsize th aabbs centers idx i nd l r t H. remember (TNode i nd l r) as s eqn:Es.
  induction H as [t|s j n tl tr H IH|s j n tl tr H IH]; intros D [box ids|box sh mv al ar] St C; subst; try (simpl in St; contradiction).
  - destruct St as (A & B & Hl & Hr). cbn [a_cuts] in C. destruct C as ((bounds & Eb & Dv) & _).
    exists bounds. rewrite <- Eb. split; auto. split; auto.
    rewrite (stores_prims _ _ _ Hl), (stores_prims _ _ _ Hr). exact Dv.
  - destruct St as (_ & _ & Hl & Hr). cbn [a_cuts] in C. destruct C as (_ & Cl & Cr). eapply IH; eauto.
  - destruct St as (_ & _ & Hl & Hr). cbn [a_cuts] in C. destruct C as (_ & Cl & Cr). eapply IH; eauto.
Qed.
Lemma cuts_leaf : forall tris lsize th aabbs centers idx d n t D T, leaf_at d n t -> stores idx t T -> a_cuts tris lsize th aabbs centers D T ->
  let held := leaf_prims idx n in
  length held <= 1 \/ MAX_DEPTH <= D + d \/ no_cut_below aabbs centers (leaf_cost n held) held \/ no_cut_below aabbs centers fMAX held.
Proof.
  intros tris lsize th aabbs centers idx d n t D T H. revert D T.
  induction H as [i n|d n i m l r H IH|d n i m l r H IH]; intros D [box ids|box sh mv al ar] St C; try (simpl in St; contradiction).
  - destruct St as (A & B & E). cbv zeta. rewrite E. cbn [a_cuts] in C. rewrite Nat.add_0_r.
    assert (leaf_cost n ids = leaf_cost box ids) as -> by (unfold leaf_cost, half_area, diagonal; rewrite A, B; reflexivity). exact C.
  - destruct St as (_ & _ & Hl & Hr). cbn [a_cuts] in C. destruct C as (_ & Cl & Cr). rewrite <- plus_n_Sm. apply (IH (S D) al); auto.
  - destruct St as (_ & _ & Hl & Hr). cbn [a_cuts] in C. destruct C as (_ & Cl & Cr). rewrite <- plus_n_Sm. apply (IH (S D) ar); auto.
Qed.

(** ** All loss-free builds, with clipped parts *)
Lemma finite_fin : forall b, box_finite b -> fin_box b.
Proof. intros [[a b c] e1 [d e f] e2] ((A & B & C) & D & E & F) [|[|k]]; cbn [vget bmin bmax vx vy vz] in *; auto. Qed.
Lemma divides_fuel : forall sorter ppl aabbs tris centers fuel T, permutes sorter -> sorts sorter -> 1 <= length aabbs ->
  Forall box_finite aabbs -> Forall vok centers ->
  seq_tree sorter tris (max_leaf_size ppl) (spatial_threshold aabbs) fuel
    (spatial_root aabbs) (union_of_list aabbs) (p_refs (spatial_start aabbs centers)) = Ok T ->
  harmless T ->
  a_divides tris (max_leaf_size ppl) (spatial_threshold aabbs) 0
    (Hold (seq 0 (length aabbs)) aabbs centers (max_refs (length aabbs) - length aabbs)) (union_of_list aabbs) T.
Proof.
  intros sorter ppl aabbs tris centers fuel T Sp So N Fin Cok ET Hm. pose proof (M_ge aabbs N) as Mge.
  assert (Forall box_ok aabbs) as Ok by (eapply Forall_impl; [|exact Fin]; intros b Hb; apply fin_ok, finite_fin, Hb).
  rewrite <- (first_refs_pr aabbs centers).
  pose proof (seq_divides sorter Sp So tris (max_leaf_size ppl) (spatial_threshold aabbs) (length aabbs) fuel
    (spatial_root aabbs) (union_of_list aabbs) (p_refs (spatial_start aabbs centers)) (max_refs (length aabbs)) (first_refs aabbs centers)
    aabbs centers T) as G.
  replace (max_refs (length aabbs) - length aabbs) with (w_split_end (spatial_root aabbs) - w_end (spatial_root aabbs))
    by (unfold spatial_root; cbn [w_split_end w_end]; reflexivity).
  apply G; auto; clear G ET Hm.
  - unfold w_size, spatial_root. cbn [w_end w_begin]. lia.
  - unfold spatial_root. cbn [w_split_end w_begin]. lia.
  - unfold spatial_root. cbn [w_end w_begin]. lia.
  - split; [|split]; [apply (start_refs aabbs centers N 0)|apply (start_refs aabbs centers N 1)|apply (start_refs aabbs centers N 2)].
  - split; [rewrite first_refs_pr; apply seq_NoDup|]. unfold w_size, spatial_root, spatial_start. cbn [w_end w_begin p_refs]. rewrite Nat.sub_0_r.
    assert (firstn (length aabbs) (first_refs aabbs centers ++ repeat sref_new (max_refs (length aabbs) - length aabbs)) = first_refs aabbs centers) as E.
    { apply firstn_app_len. apply first_refs_len. }
    split; [|split]; cbn [pick]; rewrite E; auto.
  - split; [auto|]. split; [auto|]. split; [apply first_refs_orig|]. split; [|split].
    + unfold fin_refs. rewrite Forall_forall in Fin |- *. intros r Ir. apply first_refs_box in Ir. apply nth_error_In in Ir. apply finite_fin. auto.
    + unfold small. apply Forall_forall. intros r Ir. apply (in_map s_prim) in Ir. fold (pr (first_refs aabbs centers)) in Ir.
      rewrite first_refs_pr in Ir. apply in_seq in Ir. lia.
    + rewrite first_refs_pr. apply seq_NoDup.
  - unfold spatial_root. cbn [w_sorted]. discriminate.
Qed.
Lemma divides_stored : forall tris lsize th idx d h bounds T, a_divides tris lsize th d h bounds T ->
  forall t, stores idx t T -> divides tris lsize th idx d h bounds t.
Proof.
  intros tris lsize th idx d h bounds T H. induction H as [d h bounds ids P St|d h bounds s m l r hl hr bl br Ld Sp Bl Br Hl IHl Hr IHr];
    intros [i n|i n tl tr] Sd; try (simpl in Sd; contradiction).
  - destruct Sd as (A & B & E). constructor; auto. rewrite E. auto.
  - destruct Sd as (A & B & El & Er). econstructor; eauto.
Qed.

(** ** C56 *)
(** A build whose reference moves were harmless and that duplicated no
    reference (as many leaf entries as triangles) divides every inner node by a
    cheapest cut that beats not dividing it, or in halves, or at a plane, for
    the reasons in SpecCut.v. *)
Theorem C56_node : forall sorter ppl aabbs tris centers b T t i nd l r,
  permutes sorter -> sorts sorter -> spatial_input aabbs tris -> Forall box_ok aabbs -> Forall vok centers ->
  spatial_build sorter ppl aabbs tris centers b ->
  seq_spatial sorter ppl aabbs tris centers = Ok T -> harmless T ->
  repr (nodes b) t -> t_idx t = 0 -> length (positions t) = length aabbs ->
  subtree (TNode i nd l r) t ->
  exists bounds, bmin nd = bmin (with_offset bounds f1em4) /\ bmax nd = bmax (with_offset bounds f1em4) /\
    let pl := prims (prim_indices b) l in let pr := prims (prim_indices b) r in
    by_cut aabbs centers bounds pl pr \/ by_half aabbs centers (leaf_limit ppl) bounds pl pr \/
    by_plane aabbs tris centers (overlap_limit (union_of_list aabbs)) bounds pl pr.
Proof.
  intros sorter ppl aabbs tris centers b T t i nd l r Sp So I Ok Cok B ET Hm Rp T0 Ln Sb.
  destruct (built_stores _ _ _ _ _ _ _ _ Sp I B ET Rp T0) as (St & _ & Lq). pose proof I as (_ & N & _).
  pose proof ET as E. rewrite seq_spatial_eq in E.
  pose proof (cuts_fuel sorter ppl aabbs tris centers MAX_DEPTH T Sp So N Ok Cok E Hm ltac:(congruence)) as C.
  exact (cuts_node _ _ _ _ _ _ _ _ _ _ _ Sb 0 T St C).
Qed.
(** No leaf with at least two primitives above the depth limit has a cut that
    is cheaper than the leaf (and than the largest finite float). *)
Theorem C56_leaf : forall sorter ppl aabbs tris centers b T t d n,
  permutes sorter -> sorts sorter -> spatial_input aabbs tris -> Forall box_ok aabbs -> Forall vok centers ->
  spatial_build sorter ppl aabbs tris centers b ->
  seq_spatial sorter ppl aabbs tris centers = Ok T -> harmless T ->
  repr (nodes b) t -> t_idx t = 0 -> length (positions t) = length aabbs ->
  leaf_at d n t -> d < 64 ->
  let held := leaf_prims (prim_indices b) n in 1 < length held ->
  no_cut_below aabbs centers (leaf_cost n held) held \/ no_cut_below aabbs centers fMAX held.
Proof.
  intros sorter ppl aabbs tris centers b T t d n Sp So I Ok Cok B ET Hm Rp T0 Ln Lf Ld held L1.
  destruct (built_stores _ _ _ _ _ _ _ _ Sp I B ET Rp T0) as (St & _ & Lq). pose proof I as (_ & N & _).
  pose proof ET as E. rewrite seq_spatial_eq in E.
  pose proof (cuts_fuel sorter ppl aabbs tris centers MAX_DEPTH T Sp So N Ok Cok E Hm ltac:(congruence)) as C.
  pose proof (cuts_leaf _ _ _ _ _ _ _ _ _ 0 T Lf St C) as G. cbv zeta in G. fold held in G.
  destruct G as [H|[H|H]]; [lia|exfalso; change MAX_DEPTH with 64 in H; lia|exact H].
Qed.

(** The whole tree of a build whose reference moves were harmless, clipped
    references included, is what [divides] says: see SpecCut.v. *)
Theorem C56_tree : forall sorter ppl aabbs tris centers b T t,
  permutes sorter -> sorts sorter -> spatial_input aabbs tris -> Forall box_finite aabbs -> Forall vok centers ->
  spatial_build sorter ppl aabbs tris centers b ->
  seq_spatial sorter ppl aabbs tris centers = Ok T -> harmless T ->
  repr (nodes b) t -> t_idx t = 0 ->
  let n := length aabbs in
  divides tris (leaf_limit ppl) (overlap_limit (union_of_list aabbs)) (prim_indices b) 0
    (Hold (seq 0 n) aabbs centers (length (prim_indices b) - n)) (union_of_list aabbs) t.
Proof.
  intros sorter ppl aabbs tris centers b T t Sp So I Fin Cok B ET Hm Rp T0 n.
  destruct (built_stores _ _ _ _ _ _ _ _ Sp I B ET Rp T0) as (St & _ & Lq). pose proof I as (_ & N & _).
  pose proof ET as E. rewrite seq_spatial_eq in E.
  pose proof (divides_fuel sorter ppl aabbs tris centers MAX_DEPTH T Sp So N Fin Cok E Hm) as D.
  assert (length (prim_indices b) = max_refs n) as ->.
  { destruct (spatial_result _ _ _ _ _ _ Sp I B) as (t' & T' & _ & _ & _ & _ & _ & _ & _ & _ & Li & _). exact Li. }
  exact (divides_stored _ _ _ _ _ _ _ _ D t St).
Qed.

(** ** Examples *)
(** The hypotheses are met: scene [two] is built into a root with two leaves. *)
Example C56_nonvacuous : permutes insertion_sort /\ sorts insertion_sort /\ spatial_input (map tri_box two) two /\
  Forall box_ok (map tri_box two) /\ Forall vok (map tri_mid two) /\
  exists b T t i nd l r, build_of None two b /\ seq_of None two = Ok T /\ harmless T /\
    repr (nodes b) t /\ t_idx t = 0 /\ length (positions t) = length (map tri_box two) /\ subtree (TNode i nd l r) t.
Proof.
  split; [apply insertion_permutes|]. split; [apply insertion_sorts|].
  destruct (check_ok two_once two) as (I & (b & B) & T & ET & F); [vm_compute; reflexivity|].
  apply andb_true_iff in F as [F F3]. apply andb_true_iff in F as [F1 F2]. apply Nat.eqb_eq in F2.
  split; auto. split; [apply boxes_okb_spec; vm_compute; reflexivity|].
  split; [repeat constructor; vm_compute; reflexivity|].
  destruct (spatial_result _ _ _ _ _ _ insertion_permutes I B) as (t & T' & ET' & St & Rp & T0 & _).
  rewrite ET in ET'. injection ET' as <-.
  destruct t as [i n|i n l r].
  { exfalso. destruct T as [bx ids|]; [|contradiction St]. discriminate F3. }
  exists b, T, (TNode i n l r), i, n, l, r. split; auto. split; auto. split; auto using harmless_b_spec. split; auto. split; auto.
  split; [|constructor]. apply stores_prims in St. unfold prims in St.
  rewrite <- St, map_length in F2. rewrite map_length. exact F2.
Qed.

(** Four triangles, of which two are clipped: the leaves have six entries. *)
Definition clip4 : list tri :=
  [Tri (pt (-1) 1 1) (pt 0 1 0) (pt 0 1 0); Tri (pt 2 (-1) 1) (pt 2 0 1) (pt 2 0 1);
   Tri (pt 2 0 1) (pt 2 (-1) 1) (pt 2 0 1); Tri (pt 2 1 1) (pt 2 1 1) (pt 1 2 0)].
Definition clips_two (T : atree) : bool := harmless_b T && (length (a_prims T) =? 6).
Example C56_tree_nonvacuous : permutes insertion_sort /\ sorts insertion_sort /\ spatial_input (map tri_box clip4) clip4 /\
  Forall box_finite (map tri_box clip4) /\ Forall vok (map tri_mid clip4) /\
  exists b T t, build_of None clip4 b /\ seq_of None clip4 = Ok T /\ harmless T /\
    repr (nodes b) t /\ t_idx t = 0 /\ length (positions t) = 6.
Proof.
  split; [apply insertion_permutes|]. split; [apply insertion_sorts|].
  destruct (check_ok clips_two clip4) as (I & (b & B) & T & ET & F); [vm_compute; reflexivity|].
  apply andb_true_iff in F as [F1 F2]. apply Nat.eqb_eq in F2.
  split; auto. split; [repeat constructor; vm_compute; reflexivity|].
  split; [repeat constructor; vm_compute; reflexivity|].
  destruct (spatial_result _ _ _ _ _ _ insertion_permutes I B) as (t & T' & ET' & St & Rp & T0 & _).
  rewrite ET in ET'. injection ET' as <-.
  exists b, T, t. split; auto. split; auto. split; auto using harmless_b_spec. split; auto. split; auto.
  apply stores_prims in St. unfold prims in St. rewrite <- St, map_length in F2. exact F2.
Qed.

(** The estimate of a plane charges the side before it the union of all slices.
    So the plane is not always the one with the lowest sum of area times number:
    of four triangles at x = 0, 6, 6 and 15, it separates the first one although
    the plane at about x = 8, one of the candidates, is cheaper. *)
Definition row : list tri := map (fun x => Tri (V3 (f_of_Z x) f0 f0) (V3 (f_of_Z (x + 1)) f1 f0) (V3 (f_of_Z x) f0 f1)) [0; 6; 6; 15]%Z.
Definition row_refs : list sref := map (fun p => Sr (nth p (map tri_box row) aabb_new) (nth p (map tri_mid row) (vsplat f0)) p) [0; 1; 2; 3].
Definition row_bounds : aabb := union_of_list (map tri_box row).
Definition separates (aabbs : list aabb) (axis : nat) (position : f32) (l r : list nat) : bool :=
  forallb (fun p => fle (vget (bmax (nth p aabbs aabb_new)) axis) position) l &&
  forallb (fun p => fge (vget (bmin (nth p aabbs aabb_new)) axis) position) r.
Theorem C56_plane_refuted : let aabbs := map tri_box row in
  exists s, find_spatial_split row row_bounds row_refs = Ok s /\
    cheapest_plane row_bounds (map (whole_ref aabbs row) [0; 1; 2; 3]) (ss_axis s) (ss_pos s) (ss_cost s) /\
    separates aabbs (ss_axis s) (ss_pos s) [0] [1; 2; 3] = true /\
    separates aabbs 0 (border (vx (bmin row_bounds)) (vx (bmax row_bounds)) 8) [0; 1; 2] [3] = true /\
    flt (pair_cost aabbs [0; 1; 2] [3]) (pair_cost aabbs [0] [1; 2; 3]) = true.
Proof.
  cbv zeta.
  assert (match find_spatial_split row row_bounds row_refs with
          | Ok s => separates (map tri_box row) (ss_axis s) (ss_pos s) [0] [1; 2; 3] | _ => false end = true) as H by (vm_compute; reflexivity).
  destruct (find_spatial_split row row_bounds row_refs) as [s| | |] eqn:E; try discriminate H.
  exists s. split; [reflexivity|]. split.
  { destruct (find_plane _ _ _ _ E) as [->|Cp]; [vm_compute in H; discriminate H|exact Cp]. }
  split; [exact H|]. split; vm_compute; reflexivity.
Qed.
