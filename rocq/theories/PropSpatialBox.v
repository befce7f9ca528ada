(** * Properties C54, C55 of the parallel spatial-split builder: boxes and leaf
      sizes *)
Require Import List ZArith Bool Arith Lia Permutation.
From Flocq Require Import BinarySingleNaN.
From Verif Require Import F32 F32Facts Vec Base AabbModel NodeModel UtilsModel SpecGeom AabbProofs SpecTree
  LocbModel SpawnModel SpawnProofs TriModel BinnedModel SpecBinned SpatialModel SpecSpatial SpatialPlan SpatialProofs SpatialComplete
  SpatialShare SpatialBoxes SpatialLeaf LocbProofs PropBox PropTri PropSpatial.
Import ListNotations.
Local Open Scope nat_scope.

(** ** From the abstract tree to the stored one *)
Lemma box_in_ext : forall a b a' b', bmin a = bmin a' -> bmax a = bmax a' -> bmin b = bmin b' -> bmax b = bmax b' ->
  box_in a b -> box_in a' b'.
Proof. unfold box_in. intros a b a' b' -> -> -> ->. auto. Qed.
Lemma in_box_ext : forall a a' v, bmin a = bmin a' -> bmax a = bmax a' -> in_box a' v -> in_box a v.
Proof. unfold in_box. intros a a' v -> ->. auto. Qed.
Lemma stores_box : forall idx t a, stores idx t a -> bmin (t_rec t) = bmin (a_box a) /\ bmax (t_rec t) = bmax (a_box a).
Proof. intros idx [i nd|i nd l r] [box ids|box sh mv al ar] H; simpl in *; tauto. Qed.
Lemma stores_nested : forall idx t a, stores idx t a -> a_nested a -> nested t.
Proof.
  intros idx. induction t as [i nd|i nd l IHl r IHr]; intros [box ids|box sh mv al ar] H; simpl in H; try contradiction; simpl; auto.
  destruct H as (A & B & Hl & Hr). intros (N1 & N2 & N3 & N4).
  destruct (stores_box _ _ _ Hl) as (A1 & B1). destruct (stores_box _ _ _ Hr) as (A2 & B2).
  split; [eapply box_in_ext; [| | | |exact N1]; auto|]. split; [eapply box_in_ext; [| | | |exact N2]; auto|]. eauto.
Qed.
Lemma stores_found : forall idx p v t a, stores idx t a -> a_covered p v a -> found_at idx p v t.
Proof.
  intros idx p v. induction t as [i nd|i nd l IHl r IHr]; intros [box ids|box sh mv al ar] H; simpl in H; try contradiction; simpl.
  - destruct H as (A & B & ->). intros (I & C). split; auto. eapply in_box_ext; eauto.
  - destruct H as (A & B & Hl & Hr). intros (C & [D|D]); (split; [eapply in_box_ext; eauto|]); eauto.
Qed.
Lemma stores_encloses : forall aabbs idx t a, stores idx t a -> a_encloses aabbs a -> encloses aabbs idx t.
Proof.
  intros aabbs idx. induction t as [i nd|i nd l IHl r IHr]; intros [box ids|box sh mv al ar] H; try (simpl in H; contradiction).
  - pose proof (stores_prims _ _ _ H) as Pm. destruct (stores_box _ _ _ H) as (A & B). intros (F & _). split; auto.
    rewrite Pm. eapply Forall_impl; [|exact F]. intros p Hp b Eb. eapply box_in_ext; [| | | |exact (Hp b Eb)]; auto.
  - pose proof (stores_prims _ _ _ H) as Pm. destruct (stores_box _ _ _ H) as (A & B).
    destruct H as (_ & _ & Hl & Hr). intros (F & Fl & Fr). split; [|split; eauto].
    rewrite Pm. eapply Forall_impl; [|exact F]. intros p Hp b Eb. eapply box_in_ext; [| | | |exact (Hp b Eb)]; auto.
Qed.

Lemma first_refs_len : forall aabbs centers, length (first_refs aabbs centers) = length aabbs.
Proof. intros. unfold first_refs. rewrite map_length, seq_length. auto. Qed.
Lemma first_refs_pr : forall aabbs centers, pr (first_refs aabbs centers) = seq 0 (length aabbs).
Proof. intros. unfold pr, first_refs. rewrite map_map. cbn [s_prim]. apply map_id. Qed.
Lemma first_refs_box : forall aabbs centers r, In r (first_refs aabbs centers) -> nth_error aabbs (s_prim r) = Some (s_box r).
Proof.
  intros aabbs centers r H. unfold first_refs in H. apply in_map_iff in H as (i & <- & Hi). apply in_seq in Hi.
  cbn [s_prim s_box]. apply nth_error_nth'. lia.
Qed.
Lemma first_refs_in : forall aabbs centers p b, nth_error aabbs p = Some b ->
  exists r, In r (first_refs aabbs centers) /\ s_prim r = p /\ s_box r = b.
Proof.
  intros aabbs centers p b E. assert (p < length aabbs) as L by (apply nth_error_Some; congruence).
  assert (In p (pr (first_refs aabbs centers))) as I by (rewrite first_refs_pr; apply in_seq; lia).
  unfold pr in I. apply in_map_iff in I as (r & Ep & Ir). exists r. split; auto. split; auto.
  pose proof (first_refs_box _ _ _ Ir) as Eb. rewrite Ep in Eb. congruence.
Qed.

Lemma boxes_fuel : forall sorter ppl aabbs tris centers fuel T, permutes sorter -> 1 <= length aabbs -> Forall box_ok aabbs ->
  seq_tree sorter tris (max_leaf_size ppl) (spatial_threshold aabbs) fuel
    (spatial_root aabbs) (union_of_list aabbs) (p_refs (spatial_start aabbs centers)) = Ok T ->
  harmless T -> tree_ok tris aabbs (first_refs aabbs centers) (union_of_list aabbs) T.
Proof.
  intros sorter ppl aabbs tris centers fuel T Sp N Ok ET Hm. pose proof (M_ge aabbs N) as Mge.
  apply (seq_boxes sorter Sp tris (max_leaf_size ppl) (spatial_threshold aabbs) aabbs (length aabbs) fuel
    (spatial_root aabbs) (union_of_list aabbs) (p_refs (spatial_start aabbs centers)) (max_refs (length aabbs))); auto; clear ET Hm.
  - unfold w_size, spatial_root. cbn [w_end w_begin]. lia.
  - unfold spatial_root. cbn [w_split_end w_begin]. lia.
  - unfold spatial_root. cbn [w_end w_begin]. lia.
  - split; [|split]; [apply (start_refs aabbs centers N 0)|apply (start_refs aabbs centers N 1)|apply (start_refs aabbs centers N 2)].
  - split; [rewrite first_refs_pr; apply seq_NoDup|]. unfold w_size, spatial_root, spatial_start. cbn [w_end w_begin p_refs]. rewrite Nat.sub_0_r.
    assert (firstn (length aabbs) (first_refs aabbs centers ++ repeat sref_new (max_refs (length aabbs) - length aabbs)) = first_refs aabbs centers) as E.
    { apply firstn_app_len. apply first_refs_len. }
    split; [|split]; cbn [pick]; rewrite E; auto.
  - unfold boxes_ok. rewrite Forall_forall in Ok |- *. intros r Ir. apply first_refs_box in Ir. apply nth_error_In in Ir. auto.
  - destruct (union_of_list_covers aabbs Ok) as (Ou & Cov). split.
    + destruct (fold_grow_bb aabbs aabb_new aabb_new_ok Ok) as (I1 & I2 & _). destruct f1em4_pos as (F & P).
      eapply box_in_trans; [exact I2|]. apply (with_offset_in _ f1em4 I1 F P).
    + rewrite Forall_forall in Cov |- *. intros r Ir. apply first_refs_box in Ir. apply nth_error_In in Ir. auto.
Qed.

Section Built.
  Variables (sorter : nat -> list sref -> list sref) (ppl : option nat) (aabbs : list aabb) (tris : list tri) (centers : list vec3).
  Variables (b : bvh) (T : atree) (t : tree).
  Hypothesis Sp : permutes sorter.
  Hypothesis I : spatial_input aabbs tris.
  Hypothesis B : spatial_build sorter ppl aabbs tris centers b.
  Hypothesis ET : seq_spatial sorter ppl aabbs tris centers = Ok T.
  Hypothesis Rp : repr (nodes b) t.
  Hypothesis T0 : t_idx t = 0.
  Lemma built_stores : stores (prim_indices b) t T /\ length (positions t) <= max_refs (length aabbs) /\ length (a_prims T) = length (positions t).
  Proof.
    destruct (spatial_result _ _ _ _ _ _ Sp I B) as (t' & T' & ET' & St & Rp' & T0' & _ & _ & _ & Lp & _).
    rewrite ET in ET'. injection ET' as <-.
    assert (t = t') as -> by (eapply repr_unique; eauto; congruence).
    split; auto. split; auto. rewrite <- (stores_prims _ _ _ St). unfold prims. apply map_length.
  Qed.
  Lemma built_boxes : Forall box_ok aabbs -> harmless T -> tree_ok tris aabbs (first_refs aabbs centers) (union_of_list aabbs) T.
  Proof.
    intros Ok Hm. destruct I as (_ & N & _). pose proof ET as E. rewrite seq_spatial_eq in E.
    exact (boxes_fuel sorter ppl aabbs tris centers MAX_DEPTH T Sp N Ok E Hm).
  Qed.
End Built.

(** ** C54 *)
(** If the reference moves of the build were harmless (see
    [C65_complete_partial]) then, whatever the schedule: every node's box
    contains the boxes of its children, *)
Theorem C54_nested_partial : forall sorter ppl aabbs tris centers b T t,
  permutes sorter -> spatial_input aabbs tris -> Forall box_ok aabbs -> spatial_build sorter ppl aabbs tris centers b ->
  seq_spatial sorter ppl aabbs tris centers = Ok T -> harmless T ->
  repr (nodes b) t -> t_idx t = 0 -> nested t.
Proof.
  intros sorter ppl aabbs tris centers b T t Sp I Ok B ET Hm Rp T0.
  destruct (built_stores _ _ _ _ _ _ _ _ Sp I B ET Rp T0) as (St & _).
  destruct (built_boxes _ _ _ _ _ _ Sp I ET Ok Hm) as (_ & Nt & _). eapply stores_nested; eauto.
Qed.
(** the traversal towards any vertex of any triangle can find the triangle, *)
Theorem C54_vertices_partial : forall sorter ppl aabbs tris centers b T t,
  permutes sorter -> spatial_input aabbs tris -> Forall box_ok aabbs -> spatial_build sorter ppl aabbs tris centers b ->
  seq_spatial sorter ppl aabbs tris centers = Ok T -> harmless T ->
  repr (nodes b) t -> t_idx t = 0 ->
  forall p tr box v, nth_error tris p = Some tr -> nth_error aabbs p = Some box ->
    In v [tv0 tr; tv1 tr; tv2 tr] -> in_box box v -> found_at (prim_indices b) p v t.
Proof.
  intros sorter ppl aabbs tris centers b T t Sp I Ok B ET Hm Rp T0 p tr box v Ep Eb Iv Bv.
  destruct (built_stores _ _ _ _ _ _ _ _ Sp I B ET Rp T0) as (St & _).
  destruct (built_boxes _ _ _ _ _ _ Sp I ET Ok Hm) as (_ & _ & Cv & _).
  destruct (first_refs_in aabbs centers p box Eb) as (r & Ir & Er & Br).
  eapply stores_found; eauto. rewrite <- Er. apply Cv; auto; [|rewrite Br; auto].
  exists tr. rewrite Er. auto.
Qed.
(** and a build that duplicated no reference (as many leaf entries as
    triangles) has each triangle in exactly one leaf, and all boxes enclose
    the AABBs of the triangles below them. *)
Theorem C54_whole_partial : forall sorter ppl aabbs tris centers b T t,
  permutes sorter -> spatial_input aabbs tris -> Forall box_ok aabbs -> spatial_build sorter ppl aabbs tris centers b ->
  seq_spatial sorter ppl aabbs tris centers = Ok T -> harmless T ->
  repr (nodes b) t -> t_idx t = 0 ->
  length aabbs <= length (positions t) <= max_refs (length aabbs) /\
  (length (positions t) = length aabbs ->
   Permutation (prims (prim_indices b) t) (seq 0 (length aabbs)) /\ encloses aabbs (prim_indices b) t).
Proof.
  intros sorter ppl aabbs tris centers b T t Sp I Ok B ET Hm Rp T0.
  destruct (built_stores _ _ _ _ _ _ _ _ Sp I B ET Rp T0) as (St & Lp & Lq).
  destruct (built_boxes _ _ _ _ _ _ Sp I ET Ok Hm) as (_ & _ & _ & Ll & Wh).
  rewrite first_refs_len, Lq in *. split; [lia|]. intro E. destruct (Wh E) as (Pm & En).
  rewrite (stores_prims _ _ _ St), Pm, first_refs_pr. split; auto.
  eapply stores_encloses; eauto. apply En. apply first_refs_box.
Qed.

(** ** C55 *)
Lemma reasons_leaf : forall lsize idx d n t D T, leaf_at d n t -> stores idx t T -> a_reasons lsize D T ->
  leaf_reason lsize (D + d) n (length (leaf_prims idx n)).
Proof.
  intros lsize idx d n t D T H. revert D T. induction H as [i n|d n i m l r H IH|d n i m l r H IH]; intros D [box ids|box sh mv al ar] St R;
    simpl in St; try contradiction.
  - destruct St as (A & C & ->). cbn [a_reasons] in R. rewrite Nat.add_0_r. unfold leaf_reason, max_cost in *.
    assert (half_area n = half_area box) as -> by (unfold half_area, diagonal; rewrite A, C; reflexivity). exact R.
  - destruct St as (_ & _ & Hl & Hr). destruct R as (Rl & Rr). rewrite <- plus_n_Sm. apply (IH (S D) al); auto.
  - destruct St as (_ & _ & Hl & Hr). destruct R as (Rl & Rr). rewrite <- plus_n_Sm. apply (IH (S D) ar); auto.
Qed.
Lemma leaf_fuel : forall sorter ppl aabbs tris centers fuel T, permutes sorter -> 1 <= length aabbs ->
  seq_tree sorter tris (max_leaf_size ppl) (spatial_threshold aabbs) fuel
    (spatial_root aabbs) (union_of_list aabbs) (p_refs (spatial_start aabbs centers)) = Ok T ->
  a_reasons (max_leaf_size ppl) 0 T.
Proof.
  intros sorter ppl aabbs tris centers fuel T Sp N ET. pose proof (M_ge aabbs N) as Mge.
  apply (seq_leaf sorter Sp tris (max_leaf_size ppl) (spatial_threshold aabbs) (length aabbs) fuel
    (spatial_root aabbs) (union_of_list aabbs) (p_refs (spatial_start aabbs centers)) (max_refs (length aabbs)) T); auto; clear ET.
  - unfold w_size, spatial_root. cbn [w_end w_begin]. lia.
  - unfold spatial_root. cbn [w_split_end w_begin]. lia.
  - unfold spatial_root. cbn [w_end w_begin]. lia.
  - split; [|split]; [apply (start_refs aabbs centers N 0)|apply (start_refs aabbs centers N 1)|apply (start_refs aabbs centers N 2)].
Qed.
(** Every leaf above the depth limit holds at most one primitive, or at most
    [primitives_per_leaf] (by default 1), or the cost of the leaf overflows. *)
Theorem C55_leaf_size : forall sorter ppl aabbs tris centers b t d n,
  permutes sorter -> spatial_input aabbs tris -> spatial_build sorter ppl aabbs tris centers b ->
  repr (nodes b) t -> t_idx t = 0 -> leaf_at d n t -> d < 64 ->
  let held := leaf_prims (prim_indices b) n in
  length held <= Nat.max 1 (leaf_limit ppl) \/ is_finite (leaf_cost n held) = false.
Proof.
  intros sorter ppl aabbs tris centers b t d n Sp I B Rp T0 Lf Ld held. change (leaf_limit ppl) with (max_leaf_size ppl).
  destruct (spatial_result _ _ _ _ _ _ Sp I B) as (t' & T & ET & St & Rp' & T0' & _).
  assert (t = t') as -> by (eapply repr_unique; eauto; congruence). pose proof I as (_ & N & _).
  rewrite seq_spatial_eq in ET. pose proof (leaf_fuel sorter ppl aabbs tris centers MAX_DEPTH T Sp N ET) as R.
  pose proof (reasons_leaf _ _ _ _ _ _ _ Lf St R) as [H|[H|[H|H]]]; fold held in H; [left; lia|cbn in H; lia|left; lia|].
  right. unfold leaf_cost. fold (max_cost n (length held)).
  destruct (is_finite (max_cost n (length held))); [exfalso; apply H; reflexivity|reflexivity].
Qed.
(** In particular leaves whose box lies within [-2^40, 2^40] are small. *)
Theorem C55_leaf_size_40 : forall sorter ppl aabbs tris centers b t d n,
  permutes sorter -> spatial_input aabbs tris -> spatial_build sorter ppl aabbs tris centers b ->
  repr (nodes b) t -> t_idx t = 0 -> leaf_at d n t -> d < 64 -> box_within (f_of_Z 1099511627776) n ->
  length (leaf_prims (prim_indices b) n) <= Nat.max 1 (leaf_limit ppl).
Proof.
  intros sorter ppl aabbs tris centers b t d n Sp I B Rp T0 Lf Ld Bw.
  destruct (C55_leaf_size _ _ _ _ _ _ _ _ _ Sp I B Rp T0 Lf Ld) as [H|H]; auto. exfalso.
  assert (Z.of_nat (length (leaf_prims (prim_indices b) n)) <= 2 ^ 30)%Z as L.
  { destruct (spatial_result _ _ _ _ _ _ Sp I B) as (t' & T & ET & St & Rp' & T0' & _ & _ & _ & Lp & _).
    assert (t = t') as -> by (eapply repr_unique; eauto; congruence). pose proof I as (_ & _ & M).
    assert (forall d n t, leaf_at d n t -> length (leaf_positions n) <= length (positions t)) as G.
    { clear. intros d n t H. induction H; simpl; auto; rewrite app_length; lia. }
    specialize (G _ _ _ Lf). unfold leaf_prims. rewrite map_length. lia. }
  pose proof (cost_fin n _ Bw L) as F. unfold leaf_cost in H. congruence.
Qed.

(** ** Refutations and examples *)
Lemma found_stores : forall idx p v t a, stores idx t a -> found_at idx p v t -> a_covered p v a.
Proof.
  intros idx p v. induction t as [i nd|i nd l IHl r IHr]; intros [box ids|box sh mv al ar] H; simpl in H; try contradiction; simpl.
  - destruct H as (A & B & <-). intros (I & C). split; auto. eapply in_box_ext; [| |exact C]; auto.
  - destruct H as (A & B & Hl & Hr). intros (C & [D|D]); (split; [eapply in_box_ext; [| |exact C]; auto|]); eauto.
Qed.
Lemma nested_stores : forall idx t a, stores idx t a -> nested t -> a_nested a.
Proof.
  intros idx. induction t as [i nd|i nd l IHl r IHr]; intros [box ids|box sh mv al ar] H; simpl in H; try contradiction; simpl; auto.
  destruct H as (A & B & Hl & Hr). intros (N1 & N2 & N3 & N4).
  destruct (stores_box _ _ _ Hl) as (A1 & B1). destruct (stores_box _ _ _ Hr) as (A2 & B2).
  split; [eapply box_in_ext; [| | | |exact N1]; auto|]. split; [eapply box_in_ext; [| | | |exact N2]; auto|]. eauto.
Qed.
Definition vleb (a b : vec3) : bool := fle (vx a) (vx b) && fle (vy a) (vy b) && fle (vz a) (vz b).
Definition box_inb (a b : aabb) : bool := vleb (bmin b) (bmin a) && vleb (bmax a) (bmax b).
Lemma vleb_spec : forall a b, vle a b -> vleb a b = true.
Proof. intros a b (A & B & C). unfold vleb. rewrite A, B, C. reflexivity. Qed.
Lemma box_inb_spec : forall a b, box_in a b -> box_inb a b = true.
Proof. intros a b (A & B). unfold box_inb. rewrite (vleb_spec _ _ A), (vleb_spec _ _ B). reflexivity. Qed.
Fixpoint nestedb (T : atree) : bool :=
  match T with
  | ALeaf _ _ => true
  | ANode b _ _ l r => box_inb (a_box l) b && box_inb (a_box r) b && nestedb l && nestedb r
  end.
Lemma nestedb_spec : forall T, a_nested T -> nestedb T = true.
Proof.
  induction T as [b ids|b sh mv l IHl r IHr]; simpl; auto. intros (A & B & C & D).
  rewrite (box_inb_spec _ _ A), (box_inb_spec _ _ B), IHl, IHr; auto.
Qed.
Definition in_boxb' (b : aabb) (v : vec3) : bool := vleb (bmin b) v && vleb v (bmax b).
Fixpoint coveredb (p : nat) (v : vec3) (T : atree) : bool :=
  match T with
  | ALeaf b ids => existsb (Nat.eqb p) ids && in_boxb' b v
  | ANode b _ _ l r => in_boxb' b v && (coveredb p v l || coveredb p v r)
  end.
Lemma coveredb_spec : forall p v T, a_covered p v T -> coveredb p v T = true.
Proof.
  assert (forall b v, in_box b v -> in_boxb' b v = true) as G.
  { intros b v (A & B). unfold in_boxb'. rewrite (vleb_spec _ _ A), (vleb_spec _ _ B). reflexivity. }
  intros p v. induction T as [b ids|b sh mv l IHl r IHr]; simpl.
  - intros (A & B). rewrite (G _ _ B). rewrite andb_true_r. apply existsb_exists. exists p. split; auto. apply Nat.eqb_refl.
  - intros (A & [B|B]); rewrite (G _ _ A); simpl; [rewrite IHl by auto; reflexivity|rewrite IHr by auto; apply orb_true_r].
Qed.

(** Four triangles whose build returns a tree in which some node's box does
    not contain a child's box (a reference move was not harmless). *)
Definition four' : list tri :=
  [Tri (pt 3 4 3) (pt (-2) (-3) (-2)) (pt (-3) (-3) (-4)); Tri (pt 0 1 (-1)) (pt (-2) 3 3) (pt 1 0 2);
   Tri (pt (-2) (-1) (-1)) (pt 4 3 2) (pt 3 (-2) 1); Tri (pt 4 2 3) (pt 2 0 4) (pt 2 0 2)].
Definition not_nested (T : atree) : bool := negb (nestedb T).
Theorem C54_nested_refuted : (exists b, build_of None four' b) /\
  forall b t, build_of None four' b -> repr (nodes b) t -> t_idx t = 0 -> ~ nested t.
Proof.
  destruct (check_ok not_nested four') as (I & Ex & T & ET & F); [vm_compute; reflexivity|].
  split; auto. intros b t B Rp T0 Nt.
  destruct (spatial_result _ _ _ _ _ _ insertion_permutes I B) as (t' & T' & ET' & St & Rp' & T0' & _).
  rewrite ET in ET'. injection ET' as <-.
  assert (t = t') as -> by (eapply repr_unique; eauto; congruence).
  unfold not_nested in F. rewrite (nestedb_spec T) in F; [discriminate F|]. eapply nested_stores; eauto.
Qed.
(** Six triangles with harmless reference moves, for which a point of triangle
    [p] (a quarter of the first two vertices plus half of the third) is found
    in no leaf that lists the triangle: the clipped boxes of a spatial split do
    not cover it. *)
Definition six : list tri :=
  [Tri (pt (-1) 0 (-1)) (pt 0 0 0) (pt 1 0 1); Tri (pt (-1) 0 0) (pt 1 1 0) (pt 0 0 0);
   Tri (pt 0 0 1) (pt 1 (-1) (-1)) (pt 0 1 0); Tri (pt (-1) 0 (-1)) (pt (-1) 1 0) (pt (-1) 1 0);
   Tri (pt (-1) 0 1) (pt 0 (-1) 1) (pt (-1) 0 1); Tri (pt 1 0 0) (pt 1 1 0) (pt 0 1 1)].
Definition mid_point (t : tri) : vec3 :=
  vscale (vadd (vadd (tv0 t) (tv1 t)) (vadd (tv2 t) (tv2 t))) (fdiv f1 (f_of_Z 4)).
Definition third_of_six : tri := Tri (pt 0 0 1) (pt 1 (-1) (-1)) (pt 0 1 0).
Definition uncovered (T : atree) : bool :=
  negb (coveredb 2 (mid_point third_of_six) T) && harmless_b T && (length (a_prims T) =? 8).
Lemma six_checked : check uncovered six = true.
Proof. vm_compute. reflexivity. Qed.
Theorem C54_points_refuted : nth_error six 2 = Some third_of_six /\ (exists b, build_of None six b) /\
  (exists T, seq_of None six = Ok T /\ harmless T) /\
  forall b t, build_of None six b -> repr (nodes b) t -> t_idx t = 0 ->
    ~ found_at (prim_indices b) 2 (mid_point third_of_six) t.
Proof.
  split; [reflexivity|].
  destruct (check_ok uncovered six six_checked) as (I & Ex & T & ET & F).
  apply andb_true_iff in F as [F _]. apply andb_true_iff in F as [F1 F2].
  split; auto. split; [exists T; split; auto using harmless_b_spec|]. intros b t B Rp T0 Nt.
  destruct (spatial_result _ _ _ _ _ _ insertion_permutes I B) as (t' & T' & ET' & St & Rp' & T0' & _).
  rewrite ET in ET'. injection ET' as <-.
  assert (t = t') as -> by (eapply repr_unique; eauto; congruence).
  rewrite (coveredb_spec 2 (mid_point third_of_six) T) in F1; [discriminate F1|]. eapply found_stores; eauto.
Qed.

(** The hypotheses of the positive theorems are met by this scene (with eight
    leaf entries: two references were duplicated), and, without duplicates, by
    the scene [two]. *)
Definition box_okb (b : aabb) : bool :=
  negb (fnan (vx (bmin b)) || fnan (vy (bmin b)) || fnan (vz (bmin b)) || fnan (vx (bmax b)) || fnan (vy (bmax b)) || fnan (vz (bmax b))).
Lemma boxes_okb_spec : forall l, forallb box_okb l = true -> Forall box_ok l.
Proof.
  intros l H. rewrite forallb_forall in H. apply Forall_forall. intros b Ib. specialize (H b Ib). unfold box_okb in H.
  apply negb_true_iff in H. apply orb_false_iff in H as [H A6]. apply orb_false_iff in H as [H A5]. apply orb_false_iff in H as [H A4].
  apply orb_false_iff in H as [H A3]. apply orb_false_iff in H as [A1 A2]. split; (split; [|split]); auto.
Qed.
Example C54_nonvacuous : permutes insertion_sort /\ spatial_input (map tri_box six) six /\ Forall box_ok (map tri_box six) /\
  exists b T, build_of None six b /\ seq_of None six = Ok T /\ harmless T /\ length (a_prims T) = 8.
Proof.
  split; [apply insertion_permutes|].
  destruct (check_ok uncovered six six_checked) as (I & (b & B) & T & ET & F).
  apply andb_true_iff in F as [F1 F2]. apply andb_true_iff in F1 as [_ F1]. apply Nat.eqb_eq in F2.
  split; auto. split; [apply boxes_okb_spec; vm_compute; reflexivity|].
  exists b, T. split; auto. split; auto. split; auto using harmless_b_spec.
Qed.
Example C54_vertex_in_box : forall p tr v, nth_error six p = Some tr -> In v [tv0 tr; tv1 tr; tv2 tr] ->
  exists box, nth_error (map tri_box six) p = Some box /\ in_box box v.
Proof.
  intros p tr v E Iv. exists (tri_box tr). split; [apply map_nth_error; auto|].
  assert (forallb (fun t => forallb (fun v => box_okb (Bb v 0%Z v 0%Z)) [tv0 t; tv1 t; tv2 t]) six = true) as V by (vm_compute; reflexivity).
  rewrite forallb_forall in V. apply nth_error_In in E. specialize (V tr E).
  assert (Forall vok [tv0 tr; tv1 tr; tv2 tr]) as W.
  { apply Forall_forall. intros u Iu. rewrite forallb_forall in V. specialize (V u Iu).
    assert (Forall box_ok [Bb u 0%Z u 0%Z]) as W by (apply boxes_okb_spec; simpl; rewrite V; reflexivity).
    inversion W as [|x l Ob _ Eq]. apply Ob. }
  destruct (aabb_macro_covers _ W) as (_ & C). rewrite Forall_forall in C. apply C. auto.
Qed.
Definition two_once (T : atree) : bool := harmless_b T && (length (a_prims T) =? 2) && negb (a_size T =? 1).
Example C54_whole_nonvacuous : spatial_input (map tri_box two) two /\ Forall box_ok (map tri_box two) /\
  exists b T t, build_of None two b /\ seq_of None two = Ok T /\ harmless T /\
    repr (nodes b) t /\ t_idx t = 0 /\ length (positions t) = length (map tri_box two).
Proof.
  destruct (check_ok two_once two) as (I & (b & B) & T & ET & F); [vm_compute; reflexivity|].
  apply andb_true_iff in F as [F _]. apply andb_true_iff in F as [F1 F2]. apply Nat.eqb_eq in F2.
  split; auto. split; [apply boxes_okb_spec; vm_compute; reflexivity|].
  destruct (spatial_result _ _ _ _ _ _ insertion_permutes I B) as (t & T' & ET' & St & Rp & T0 & _).
  exists b, T, t. split; auto. split; auto. split; auto using harmless_b_spec. split; auto. split; auto.
  rewrite ET in ET'. injection ET' as <-. apply stores_prims in St. unfold prims in St.
  rewrite <- St, map_length in F2. rewrite map_length. exact F2.
Qed.

(** Two triangles with large coordinates: the only leaf holds both although
    one primitive per leaf is asked for. *)
Definition huge : list tri :=
  let h (z : nat) := f_of_Z (Z.of_nat z * 2 ^ 70) in
  [Tri (V3 (h 0) (h 0) (h 0)) (V3 (h 1) (h 0) (h 0)) (V3 (h 0) (h 1) (h 1)); Tri (V3 (h 5) (h 0) (h 2)) (V3 (h 6) (h 0) (h 2)) (V3 (h 5) (h 1) (h 3))].
Definition one_leaf (T : atree) : bool := match T with ALeaf _ ids => length ids =? 2 | _ => false end.
Theorem C55_leaf_size_refuted : (exists b, build_of None huge b) /\ leaf_limit None = 1 /\
  forall b t, build_of None huge b -> repr (nodes b) t -> t_idx t = 0 ->
    exists n, leaf_at 0 n t /\ length (leaf_prims (prim_indices b) n) = 2.
Proof.
  destruct (check_ok one_leaf huge) as (I & Ex & T & ET & F); [vm_compute; reflexivity|].
  split; auto. split; [reflexivity|]. intros b t B Rp T0.
  destruct (spatial_result _ _ _ _ _ _ insertion_permutes I B) as (t' & T' & ET' & St & Rp' & T0' & _).
  rewrite ET in ET'. injection ET' as <-.
  assert (t = t') as -> by (eapply repr_unique; eauto; congruence).
  destruct T as [box ids|]; [|discriminate F]. apply Nat.eqb_eq in F. destruct t' as [i n|]; [|contradiction St].
  exists n. split; [constructor|]. destruct St as (_ & _ & ->). exact F.
Qed.
(** The scene [two] meets the hypotheses of [C55_leaf_size_40]. *)
Definition vwithinb (v : vec3) : bool :=
  let m := f_of_Z 1099511627776 in vleb (V3 (fneg m) (fneg m) (fneg m)) v && vleb v (V3 m m m).
Definition left_within (T : atree) : bool :=
  match T with ANode _ _ _ (ALeaf b _) _ => vwithinb (bmin b) && vwithinb (bmax b) | _ => false end.
Lemma vwithinb_spec : forall v, vwithinb v = true -> vwithin (f_of_Z 1099511627776) v.
Proof.
  intros v H. unfold vwithinb in H. cbv zeta in H. apply andb_true_iff in H as [A B]. unfold vleb in A, B. cbn [vx vy vz] in A, B.
  apply andb_true_iff in A as [A A3]. apply andb_true_iff in A as [A1 A2].
  apply andb_true_iff in B as [B B3]. apply andb_true_iff in B as [B1 B2].
  split; split; auto.
Qed.
Example C55_nonvacuous : exists b t n, build_of None two b /\ repr (nodes b) t /\ t_idx t = 0 /\ leaf_at 1 n t /\
  box_within (f_of_Z 1099511627776) n.
Proof.
  destruct (check_ok left_within two) as (I & (b & B) & T & ET & F); [vm_compute; reflexivity|].
  destruct (spatial_result _ _ _ _ _ _ insertion_permutes I B) as (t & T' & ET' & St & Rp & T0 & _).
  rewrite ET in ET'. injection ET' as <-.
  destruct T as [|box sh mv [lb ids|] ar]; try discriminate F. apply andb_true_iff in F as [F1 F2].
  destruct t as [|i n l r]; [contradiction St|]. destruct St as (_ & _ & Sl & _). destruct l as [j m|]; [|contradiction Sl].
  destruct Sl as (A & C & _). exists b, (TNode i n (TLeaf j m) r), m. split; auto. split; auto. split; auto.
  split; [apply la_left; constructor|]. unfold box_within. rewrite A, C. split; apply vwithinb_spec; auto.
Qed.
