(** * Property C59: BVHs of the binned-SAH builder miss nothing

    End to end for every schedule of the parallel build, as long as no inner
    node was cut by the median fallback (whose box bug [C16_missed_refuted]
    shows to lose hits). *)
Require Import List ZArith Bool Arith Lia Permutation Reals Lra.
From Flocq Require Import Core BinarySingleNaN.
From Verif Require Import F32 F32Facts Vec RayModel Base AabbModel NodeModel IterModel BinnedModel BinnedProofs MbvhModel SpecGeom SpecSlab SpecTree SpecTraverse SpecMbvh
  AabbProofs MeasureProofs SlabProofs Slab4Proofs IterProofs TraverseProofs ClosestProofs MbvhClient LocbModel LocbProofs
  SpecBinned BinnedFacts BinnedCost BinnedRoom
  PropBox PropSlab PropTraverse PropLocb PropNoMiss PropMbvh PropNoMiss4 PropBinned.
Import ListNotations.
Local Open Scope nat_scope.

(** Every inner node holds at most [primitives_per_leaf] primitives, or the
    surface area heuristic prefers some separation of them to a leaf. *)
Definition well_cut (ppl : option nat) (aabbs : list aabb) (centers : list vec3) (indices : list nat) (t : tree) : Prop :=
  forall i nd l r, subtree (TNode i nd l r) t ->
    length (prims indices (TNode i nd l r)) <= leaf_limit ppl \/
    exists axis k, worthwhile aabbs centers nd (prims indices (TNode i nd l r)) axis k.

Lemma sah_of_room : forall mls aabbs centers e, Forall box_ok aabbs -> length centers = length aabbs -> 1 <= length aabbs ->
  Forall (fun p => p < length aabbs) (e_ids e) -> encl aabbs (e_box e) (e_ids e) ->
  sroom mls aabbs centers True (fst (sah_of mls aabbs centers e)) (snd (sah_of mls aabbs centers e)).
Proof. intros mls aabbs centers e Ok L N F E. unfold sah_of. apply sah_room; auto. Qed.
Lemma sah_of_within : forall mls aabbs centers e, Forall (box_within f1e34) aabbs -> box_within f1e34 (e_box e) ->
  swithin (fst (sah_of mls aabbs centers e)).
Proof. intros mls aabbs centers e W E. unfold sah_of. apply sah_within; auto. Qed.
Lemma union_within : forall aabbs, Forall (box_within f1e34) aabbs -> box_within f1e34 (union_of_list aabbs).
Proof.
  intros aabbs W. unfold union_of_list. fold (pad (fold_left grow_bb aabbs aabb_new)). apply pad_within. apply fold_within; auto. apply new_within.
Qed.
Lemma binned_roomy : forall ppl aabbs centers bv t,
  binned_input aabbs centers -> Forall (box_within f1e34) aabbs -> binned_build ppl aabbs centers bv ->
  repr (nodes bv) t -> t_idx t = 0 -> well_cut ppl aabbs centers (prim_indices bv) t ->
  roomy aabbs (prim_indices bv) t.
Proof.
  intros ppl aabbs centers bv t I W B Rp T0 Wc.
  destruct (binned_result _ _ _ _ I B) as (u & Ru & U0 & _ & Ps & _ & _ & Sh & Pi & _).
  assert (t = u) as -> by (apply (repr_unique (nodes bv)); congruence).
  pose proof I as (L & N & _). pose proof (result_prims _ _ _ _ u I B Ps) as Pr.
  assert (Forall box_ok aabbs) as Ok by (eapply Forall_impl; [|apply W]; intros x; apply within_ok).
  assert (sroom (max_leaf_size ppl) aabbs centers True (shape_of u) (prim_indices bv)) as Sr.
  { rewrite Sh, Pi. apply sah_of_room; auto.
    - cbn [root_ent e_ids]. apply Forall_forall. intros p Ip. apply in_seq in Ip. lia.
    - cbn [root_ent e_ids e_box]. unfold encl. apply Forall_forall. intros p _ b Eb.
      pose proof (C03_union_of_list_covers aabbs Ok) as Cv. rewrite Forall_forall in Cv. apply Cv. eapply nth_error_In; eauto. }
  assert (swithin (shape_of u)) as Sw.
  { rewrite Sh. apply sah_of_within; auto. cbn [root_ent e_box]. apply union_within; auto. }
  clear Sh Pi. split.
  - exact (sroom_tree (max_leaf_size ppl) aabbs centers (prim_indices bv) u True (prim_indices bv) Sr Pr Logic.I Wc).
  - apply swithin_tree. exact Sw.
Qed.

Lemma sah_of_full : forall mls aabbs centers e, 1 <= length (e_ids e) -> sfull (fst (sah_of mls aabbs centers e)).
Proof. intros mls aabbs centers e N. unfold sah_of. apply sah_full; auto. Qed.
Lemma binned_binary : forall ppl aabbs centers bv t,
  binned_input aabbs centers -> binned_build ppl aabbs centers bv -> repr (nodes bv) t -> t_idx t = 0 ->
  binary (nodes bv) (prim_indices bv) (length aabbs) t.
Proof.
  intros ppl aabbs centers bv t I B Rp T0.
  destruct (binned_result _ _ _ _ I B) as (u & Ru & U0 & Ids & Ps & Lp & _ & Sh & Pi & Ln).
  assert (t = u) as -> by (apply (repr_unique (nodes bv)); congruence).
  pose proof I as (L & N & M). pose proof (result_perm _ _ _ _ I B) as Pm.
  apply binary_of; auto; try lia.
  - rewrite Ps, Lp. auto.
  - apply sfull_tree. rewrite Sh. apply sah_of_full. cbn [root_ent e_ids]. rewrite seq_length. exact N.
Qed.

Lemma binned_traversable : forall ppl aabbs centers bv t,
  binned_input aabbs centers -> binned_build ppl aabbs centers bv -> repr (nodes bv) t -> t_idx t = 0 -> depth t <= 31 ->
  traversable (nodes bv) (prim_indices bv) t /\ Permutation (positions t) (seq 0 (length (prim_indices bv))) /\
  Permutation (prim_indices bv) (seq 0 (length aabbs)) /\ t_size t <= 2 * length aabbs /\ length (positions t) = length aabbs.
Proof.
  intros ppl aabbs centers bv t I B Rp T0 D.
  destruct (binned_result _ _ _ _ I B) as (u & Ru & U0 & Ids & Ps & Lp & _ & _ & _ & Ln).
  assert (t = u) as -> by (apply (repr_unique (nodes bv)); congruence).
  pose proof I as (L & N & M). pose proof (result_perm _ _ _ _ I B) as Pm.
  split; [|split; [rewrite Ps, Lp; auto|split; [auto|split]]].
  - repeat split; auto; try lia. apply Forall_forall. intros k Ik. rewrite Ps in Ik. apply in_seq in Ik. lia.
  - apply Permutation_length in Ids. rewrite t_ids_size, seq_length in Ids. lia.
  - rewrite Ps, seq_length. auto.
Qed.

(** ** C59 *)

(** Binary BVH and ray: whatever the exact ray meets is yielded. *)
Theorem C59_ray : forall C ppl aabbs centers bv t (client : C -> nat -> ray -> C * ray) turns c o d t0,
  binned_input aabbs centers -> Forall (box_within f128) aabbs -> binned_build ppl aabbs centers bv ->
  repr (nodes bv) t -> t_idx t = 0 -> depth t <= 31 -> well_cut ppl aabbs centers (prim_indices bv) t ->
  3 * length aabbs + 1 <= turns -> vwithin f128 o -> dirs_fine d -> only_t client ->
  exists ps rays c',
    iter_ray_indices (nodes bv) (prim_indices bv) client turns c (ray_set_t (ray_new o d) t0) = Ok (ps, rays, c') /\
    forall i b s, nth_error aabbs i = Some b -> (fval f1em4 <= s)%R -> ray_point_in b o d s -> In i ps.
Proof.
  intros C ppl aabbs centers bv t client turns c o d t0 I W B Rp T0 D Wc Fu Wo Hd Ot.
  destruct (binned_traversable ppl aabbs centers bv t) as (Tr & P1 & P2 & Sz & Sp); auto.
  apply (C58_ray C (nodes bv) (prim_indices bv) aabbs t); auto; [|unfold enough; lia].
  apply (binned_roomy ppl aabbs centers bv t); auto.
  eapply Forall_impl; [|apply W]. intros x. apply within_mono; vm_compute; reflexivity.
Qed.

(** Binary BVH and packet: whatever the exact ray of a lane meets up to that
    lane's final distance is yielded. *)
Theorem C59_packet : forall C ppl aabbs centers bv t (client : C -> nat -> packet -> C * packet) turns c p,
  binned_input aabbs centers -> Forall (box_within f32c) aabbs -> binned_build ppl aabbs centers bv ->
  repr (nodes bv) t -> t_idx t = 0 -> depth t <= 31 -> well_cut ppl aabbs centers (prim_indices bv) t ->
  3 * length aabbs + 1 <= turns -> lowers_t client -> packet_alive (nodes bv) p = true ->
  exists ps packets c',
    iter_packet_indices (nodes bv) (prim_indices bv) client turns c p = Ok (ps, packets, c') /\
    forall k o d i b s, lane_is p k o d -> vwithin f32c o -> dirs_fine d ->
      nth_error aabbs i = Some b -> (fval f1em4 <= s <= bpow radix2 127)%R -> ray_point_in b o d s ->
      ffinite (wget (p_t (last packets p)) k) -> (s <= fval (wget (p_t (last packets p)) k))%R -> In i ps.
Proof.
  intros C ppl aabbs centers bv t client turns c p I W B Rp T0 D Wc Fu Lo Al.
  destruct (binned_traversable ppl aabbs centers bv t) as (Tr & P1 & P2 & Sz & Sp); auto.
  apply (C58_packet C (nodes bv) (prim_indices bv) aabbs t); auto; [|unfold enough; lia].
  apply (binned_roomy ppl aabbs centers bv t); auto.
  eapply Forall_impl; [|apply W]. intros x. apply within_mono; vm_compute; reflexivity.
Qed.

(** The 4-wide BVH made of it, traversed by a ray and by a packet. *)
Theorem C59_quad_ray : forall C ppl aabbs centers bv mfuel mb t (client : C -> nat -> ray -> C * ray) turns c o d t0,
  binned_input aabbs centers -> Forall (box_within f128) aabbs -> binned_build ppl aabbs centers bv ->
  repr (nodes bv) t -> t_idx t = 0 -> depth t <= 22 -> well_cut ppl aabbs centers (prim_indices bv) t ->
  length (nodes bv) <= mfuel -> mbvh_construct mfuel bv = Ok mb -> quad_enough mb turns ->
  vwithin f128 o -> dirs_fine d -> lowers_ray client ->
  let r := ray_set_t (ray_new o d) t0 in
  exists ps rays c',
    miter_ray_indices (m_nodes mb) (mb_indices mb) client turns c r = Ok (ps, rays, c') /\
    forall i b s, nth_error aabbs i = Some b -> (fval f1em4 <= s)%R -> ray_point_in b o d s ->
      ffinite (r_t (last rays r)) -> (s <= fval (r_t (last rays r)))%R -> In i ps.
Proof.
  intros C ppl aabbs centers bv mfuel mb t client turns c o d t0 I W B Rp T0 D Wc Mf Em Fu Wo Hd Lo.
  apply (C58_quad_ray C mb (nodes bv) (prim_indices bv) aabbs t); auto.
  - split; [eapply binned_binary; eauto|]. exists mfuel. split; [auto|]. left. destruct bv; exact Em.
  - apply (binned_roomy ppl aabbs centers bv t); auto.
    eapply Forall_impl; [|apply W]. intros x. apply within_mono; vm_compute; reflexivity.
Qed.
Theorem C59_quad_packet : forall C ppl aabbs centers bv mfuel mb t (client : C -> nat -> packet -> C * packet) turns c p,
  binned_input aabbs centers -> Forall (box_within f32c) aabbs -> binned_build ppl aabbs centers bv ->
  repr (nodes bv) t -> t_idx t = 0 -> depth t <= 22 -> well_cut ppl aabbs centers (prim_indices bv) t ->
  length (nodes bv) <= mfuel -> mbvh_construct mfuel bv = Ok mb -> quad_enough mb turns ->
  lowers_t client ->
  exists ps packets c',
    miter_packet_indices (m_nodes mb) (mb_indices mb) client turns c p = Ok (ps, packets, c') /\
    forall k o d i b s, lane_is p k o d -> vwithin f32c o -> dirs_fine d ->
      nth_error aabbs i = Some b -> (fval f1em4 <= s <= bpow radix2 127)%R -> ray_point_in b o d s ->
      ffinite (wget (p_t (last packets p)) k) -> (s <= fval (wget (p_t (last packets p)) k))%R -> In i ps.
Proof.
  intros C ppl aabbs centers bv mfuel mb t client turns c p I W B Rp T0 D Wc Mf Em Fu Lo.
  apply (C58_quad_packet C mb (nodes bv) (prim_indices bv) aabbs t); auto.
  - split; [eapply binned_binary; eauto|]. exists mfuel. split; [auto|]. left. destruct bv; exact Em.
  - apply (binned_roomy ppl aabbs centers bv t); auto.
    eapply Forall_impl; [|apply W]. intros x. apply within_mono; vm_compute; reflexivity.
Qed.

(** Closest-hit search equals brute force, binary and 4-wide. *)
Theorem C59_closest : forall ppl aabbs centers bv t dist turns o d t0,
  binned_input aabbs centers -> Forall (box_within f128) aabbs -> binned_build ppl aabbs centers bv ->
  repr (nodes bv) t -> t_idx t = 0 -> depth t <= 31 -> well_cut ppl aabbs centers (prim_indices bv) t ->
  3 * length aabbs + 1 <= turns -> vwithin f128 o -> dirs_fine d -> flt f0 t0 = true ->
  (forall p x, dist p = Some x -> flt f0 x = true) ->
  (forall p x b, dist p = Some x -> nth_error aabbs p = Some b -> exists s, (fval f1em4 <= s)%R /\ ray_point_in b o d s) ->
  let r := ray_set_t (ray_new o d) t0 in
  exists ps rays, iter_ray_prims (length aabbs) (nodes bv) (prim_indices bv) (closest_body dist) turns tt r = Ok (ps, rays, tt) /\
    last rays r = snd (client_fold (closest_body dist) (seq 0 (length aabbs)) tt r).
Proof.
  intros ppl aabbs centers bv t dist turns o d t0 I W B Rp T0 D Wc Fu Wo Hd Pt Pd Hs.
  destruct (binned_traversable ppl aabbs centers bv t) as (Tr & P1 & P2 & Sz & Sp); auto.
  apply (C58_closest (nodes bv) (prim_indices bv) aabbs t); auto; [|unfold enough; lia].
  apply (binned_roomy ppl aabbs centers bv t); auto.
  eapply Forall_impl; [|apply W]. intros x. apply within_mono; vm_compute; reflexivity.
Qed.
Theorem C59_quad_closest : forall ppl aabbs centers bv mfuel mb t dist turns o d t0,
  binned_input aabbs centers -> Forall (box_within f128) aabbs -> binned_build ppl aabbs centers bv ->
  repr (nodes bv) t -> t_idx t = 0 -> depth t <= 22 -> well_cut ppl aabbs centers (prim_indices bv) t ->
  length (nodes bv) <= mfuel -> mbvh_construct mfuel bv = Ok mb -> quad_enough mb turns ->
  vwithin f128 o -> dirs_fine d -> flt f0 t0 = true ->
  (forall p x, dist p = Some x -> flt f0 x = true) ->
  (forall p x b, dist p = Some x -> nth_error aabbs p = Some b ->
     ffinite x /\ exists s, (fval f1em4 <= s <= fval x)%R /\ ray_point_in b o d s) ->
  let r := ray_set_t (ray_new o d) t0 in
  exists ps rays, miter_ray_prims (length aabbs) (m_nodes mb) (mb_indices mb) (closest_body dist) turns tt r = Ok (ps, rays, tt) /\
    last rays r = snd (client_fold (closest_body dist) (seq 0 (length aabbs)) tt r).
Proof.
  intros ppl aabbs centers bv mfuel mb t dist turns o d t0 I W B Rp T0 D Wc Mf Em Fu Wo Hd Pt Pd Hs.
  apply (C58_quad_closest mb (nodes bv) (prim_indices bv) aabbs t); auto.
  - split; [eapply binned_binary; eauto|]. exists mfuel. split; [auto|]. left. destruct bv; exact Em.
  - apply (binned_roomy ppl aabbs centers bv t); auto.
    eapply Forall_impl; [|apply W]. intros x. apply within_mono; vm_compute; reflexivity.
Qed.

(** With at most [primitives_per_leaf] primitives no tree is badly cut, and
    with at most 32 (23) none is too deep: nothing is assumed about the tree. *)
Lemma prims_sub : forall indices s t, subtree s t -> length (prims indices s) <= length (prims indices t).
Proof.
  intros indices s t Su. unfold prims. rewrite !map_length. induction Su; simpl; rewrite ?app_length; lia.
Qed.
Lemma binned_few : forall ppl aabbs centers bv, binned_input aabbs centers -> binned_build ppl aabbs centers bv ->
  length aabbs <= leaf_limit ppl ->
  exists t, repr (nodes bv) t /\ t_idx t = 0 /\ well_cut ppl aabbs centers (prim_indices bv) t /\
    S (depth t) <= length aabbs /\ length (nodes bv) <= 2 * length aabbs - 1.
Proof.
  intros ppl aabbs centers bv I B Ls.
  destruct (binned_result _ _ _ _ I B) as (u & R & U0 & Ids & Ps & _ & _ & _ & _ & Ln).
  exists u. split; auto. split; auto. split; [|split; auto].
  - intros i nd l r Su. left. eapply Nat.le_trans; [apply (prims_sub _ _ _ Su)|].
    unfold prims. rewrite map_length, Ps, seq_length. auto.
  - apply Permutation_length in Ids. rewrite t_ids_size, seq_length in Ids.
    pose proof (depth_leaves u). pose proof (size_leaves u). lia.
Qed.
Theorem C59_few : forall ppl aabbs centers bv dist o d t0,
  binned_input aabbs centers -> Forall (box_within f128) aabbs -> binned_build ppl aabbs centers bv ->
  length aabbs <= leaf_limit ppl -> length aabbs <= 32 ->
  vwithin f128 o -> dirs_fine d -> flt f0 t0 = true ->
  (forall p x, dist p = Some x -> flt f0 x = true) ->
  (forall p x b, dist p = Some x -> nth_error aabbs p = Some b -> exists s, (fval f1em4 <= s)%R /\ ray_point_in b o d s) ->
  let r := ray_set_t (ray_new o d) t0 in
  exists ps rays, iter_ray_prims (length aabbs) (nodes bv) (prim_indices bv) (closest_body dist) 97 tt r = Ok (ps, rays, tt) /\
    last rays r = snd (client_fold (closest_body dist) (seq 0 (length aabbs)) tt r).
Proof.
  intros ppl aabbs centers bv dist o d t0 I W B Ls L32 Wo Hd Pt Pd Hs.
  destruct (binned_few ppl aabbs centers bv) as (t & Rp & T0 & Wc & D & Ln); auto.
  apply (C59_closest ppl aabbs centers bv t); auto; lia.
Qed.
Theorem C59_few_quad : forall ppl aabbs centers bv dist o d t0,
  binned_input aabbs centers -> Forall (box_within f128) aabbs -> binned_build ppl aabbs centers bv ->
  length aabbs <= leaf_limit ppl -> length aabbs <= 23 ->
  vwithin f128 o -> dirs_fine d -> flt f0 t0 = true ->
  (forall p x, dist p = Some x -> flt f0 x = true) ->
  (forall p x b, dist p = Some x -> nth_error aabbs p = Some b ->
     ffinite x /\ exists s, (fval f1em4 <= s <= fval x)%R /\ ray_point_in b o d s) ->
  let r := ray_set_t (ray_new o d) t0 in
  exists mb ps rays, mbvh_construct 45 bv = Ok mb /\
    miter_ray_prims (length aabbs) (m_nodes mb) (mb_indices mb) (closest_body dist) 248 tt r = Ok (ps, rays, tt) /\
    last rays r = snd (client_fold (closest_body dist) (seq 0 (length aabbs)) tt r).
Proof.
  intros ppl aabbs centers bv dist o d t0 I W B Ls L23 Wo Hd Pt Pd Hs r.
  destruct (binned_few ppl aabbs centers bv) as (t & Rp & T0 & Wc & D & Ln); auto.
  pose proof (binned_binary ppl aabbs centers bv t I B Rp T0) as Bi.
  destruct (C26_construct bv (length aabbs) t 45 Bi) as (mb & mt & Em & _ & Ei & _ & _ & Lm & _); [lia|].
  assert (length (prim_indices bv) = length aabbs) as Li.
  { rewrite (Permutation_length (result_perm _ _ _ _ I B)). apply seq_length. }
  destruct (C59_quad_closest ppl aabbs centers bv 45 mb t dist 248 o d t0) as (ps & rays & X & Y); auto; try lia.
  { unfold quad_enough. rewrite Ei, Li. lia. }
  exists mb, ps, rays. auto.
Qed.

(** ** Concrete cases *)

(** A test for [well_cut] on the shape of a tree: at every inner node one of
    the given candidate separations is worthwhile. *)
Definition worthb (aabbs : list aabb) (centers : list vec3) (bounds : aabb) (ids : list nat) (c : nat * nat) : bool :=
  (fst c <? 3) && (0 <? snd c) && (snd c <? 16) &&
  flt (split_cost aabbs centers bounds ids (fst c) (snd c)) (leaf_cost bounds ids) &&
  flt (split_cost aabbs centers bounds ids (fst c) (snd c)) fMAX.
Fixpoint cutb (aabbs : list aabb) (centers : list vec3) (cs : list (nat * nat)) (s : shape) (ids : list nat) : bool :=
  match s with
  | SLeaf _ _ _ _ => true
  | SNode mn mx l r => existsb (worthb aabbs centers (Bb mn 0 mx 0) ids) cs &&
      cutb aabbs centers cs l (firstn (s_len l) ids) && cutb aabbs centers cs r (skipn (s_len l) ids)
  end.
Lemma cutb_spec : forall aabbs centers cs ppl indices t, cutb aabbs centers cs (shape_of t) (prims indices t) = true ->
  well_cut ppl aabbs centers indices t.
Proof.
  intros aabbs centers cs ppl indices t. induction t as [i nd|i nd l IHl r IHr]; cbn [shape_of cutb]; intros H j nd' l' r' Su.
  - inversion Su.
  - apply andb_prop in H as [H H3]. apply andb_prop in H as [H1 H2].
    assert (prims indices (TNode i nd l r) = prims indices l ++ prims indices r) as Ep by apply map_app.
    assert (s_len (shape_of l) = length (prims indices l)) as Ll by (unfold prims; rewrite map_length, shape_len; auto).
    rewrite Ep, Ll in H2, H3. rewrite firstn_app, Nat.sub_diag, firstn_all, app_nil_r in H2. rewrite skipn_app, Nat.sub_diag, skipn_all in H3.
    inversion Su; subst; [|eapply IHl; eauto|eapply IHr; eauto].
    right. apply existsb_exists in H1 as ((a & k) & _ & Wb). exists a, k. unfold worthb in Wb. cbn [fst snd] in Wb.
    repeat (apply andb_prop in Wb as [Wb ?]). apply Nat.ltb_lt in Wb.
    repeat match goal with K : (_ <? _) = true |- _ => apply Nat.ltb_lt in K end.
    eapply worth_box; [| |repeat (split; [eassumption|]); eassumption]; reflexivity.
Qed.

(** Four unit cubes at distances 0, 9, 20, 29 on the x axis, default settings
    (every leaf may hold one primitive): every schedule's tree has inner nodes
    and is well cut.  The ray of [C45_nonvacuous] meets cube 0. *)
Definition cube (k : Z) : aabb := Bb (pt k 0 0) 0 (pt (k + 1) 1 1) 0.
Definition cubes : list aabb := [cube 0; cube 9; cube 20; cube 29].
Example C59_nonvacuous : binned_input cubes (map center cubes) /\ Forall (box_within f128) cubes /\ Forall (box_within f32c) cubes /\
  forall bv, binned_build None cubes (map center cubes) bv ->
  exists t, repr (nodes bv) t /\ t_idx t = 0 /\ 2 <= depth t <= 22 /\ well_cut None cubes (map center cubes) (prim_indices bv) t.
Proof.
  assert (binned_input cubes (map center cubes)) as I by (repeat split; simpl; lia).
  split; auto. split; [unfold cubes; repeat constructor; vm_compute; reflexivity|].
  split; [unfold cubes; repeat constructor; vm_compute; reflexivity|]. intros bv B.
  destruct (binned_result _ _ _ _ I B) as (u & R & U0 & Ids & Ps & _ & _ & Sh & Pi & _).
  pose proof (result_prims _ _ _ _ u I B Ps) as Pr.
  assert ((match fst (sah_of (max_leaf_size None) cubes (map center cubes) (root_ent cubes)) with
           | SNode _ _ (SNode _ _ (SLeaf _ _ _ _) (SLeaf _ _ _ _)) (SNode _ _ (SLeaf _ _ _ _) (SLeaf _ _ _ _)) => true | _ => false end &&
    cutb cubes (map center cubes) [(0, 8)] (fst (sah_of (max_leaf_size None) cubes (map center cubes) (root_ent cubes)))
      (snd (sah_of (max_leaf_size None) cubes (map center cubes) (root_ent cubes)))) = true) as Ck by (vm_compute; reflexivity).
  rewrite <- Sh, <- Pi in Ck. clear Sh Pi B. apply andb_prop in Ck as [C1 C2].
  exists u. split; auto. split; auto. split; [|eapply cutb_spec; rewrite Pr; exact C2].
  clear -C1. destruct u as [|i n l r]; [discriminate|]. destruct l as [|? ? l1 l2], r as [|? ? r1 r2]; try discriminate; cbn [shape_of] in C1.
  all: destruct l1, l2; try discriminate; try (destruct r1, r2; try discriminate); simpl; try lia.
Qed.
