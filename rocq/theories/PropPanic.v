(** * When the spatial-split build crashes

    Property C66 is false in general ([C66_panic_refuted], [C66_ub_refuted]);
    the theorems here say that it fails only in three situations. *)
Require Import List Arith Lia ZArith Bool Permutation.
From Verif Require Import F32 Vec AabbModel Base NodeModel LocbModel SpawnModel SpawnProofs TriModel BinnedModel SpatialModel SpecSpatial
  SpatialShare SpecGeom SpecPanic SpatialPlan SpatialProofs SpatialPanic SpecTree PropBox PropSpatial PropSpatialBox.
Import ListNotations.

(** ** C52 *)
(** Whatever the schedule, a task that is about to start is a task of the
    sequential reading of the build: its node has the same box, and its parts
    of the reference arrays hold the same references. *)
Theorem C52_tasks : forall sorter ppl aabbs tris centers s j t st subs,
  permutes sorter -> spatial_input aabbs tris -> spatial_reaches sorter ppl aabbs tris centers s ->
  nth_error (s_threads s) j = Some (Th (Some (t, QRun t)) st subs) ->
  exists bounds, nth_error (p_nodes (s_mem s)) (w_node t) = Some bounds /\
    spatial_task sorter ppl aabbs tris centers t bounds
      (map3 (fun l => firstn (w_split_end t - w_begin t) (skipn (w_begin t) l)) (p_refs (s_mem s))).
Proof.
  intros sorter ppl aabbs tris centers s j t st subs Sp (L & N & M) R Ej.
  destruct (run_given sorter Sp ppl tris aabbs centers L N M s j t t st subs R Ej)
    as (_ & bounds & w & G & _ & _ & _ & Wn & ->). exists bounds. split; [exact Wn|exact G].
Qed.

(** ** C70 *)
(** A task has undefined behaviour (an access out of range) next only if, in a
    scene of at most about 9.5 million triangles, it has divided the references
    it was given so that a child box has a negative half area. *)
Theorem C70_ub_cause : forall sorter ppl aabbs tris centers s j t st subs,
  permutes sorter -> spatial_input aabbs tris -> (Z.of_nat (max_refs (length aabbs)) <= 2 ^ 24)%Z ->
  spatial_reaches sorter ppl aabbs tris centers s ->
  nth_error (s_threads s) j = Some (Th (Some (t, QUb)) st subs) ->
  exists bounds w w' c, spatial_task sorter ppl aabbs tris centers t bounds w /\
    decides sorter ppl aabbs tris t bounds w = Ok (w', Divide c) /\
    (flt (half_area (c_left c)) f0 = true \/ flt (half_area (c_right c)) f0 = true).
Proof.
  intros sorter ppl aabbs tris centers s j t st subs Sp (L & N & M) Sm R Ej.
  destruct (ub_source sorter Sp ppl tris aabbs centers L N M s j t st subs R Ej)
    as (c & (Sh & B1 & B2 & B3 & B4 & bounds & w & w' & G & D) & Lt).
  exists bounds, w, w', c. split; [exact G|]. split; [exact D|].
  destruct (flt (half_area (c_left c)) f0) eqn:E1; [left; reflexivity|].
  destruct (flt (half_area (c_right c)) f0) eqn:E2; [right; reflexivity|]. exfalso.
  destruct Sh as (S1 & S2 & S3).
  pose proof (split_count_le (w_split_end t - (w_begin t + c_right_end c)) c E1 E2) as Le.
  specialize (Le ltac:(lia) B1 ltac:(lia)). lia.
Qed.

(** A task panics next only if some task of the build -- not one whose
    references start at position 0 -- found a spatial split that puts all its
    references on the left, or was given a reference that is not inside its
    node's box. *)
Theorem C70_panic_cause : forall sorter ppl aabbs tris centers s j t st subs,
  permutes sorter -> spatial_input aabbs tris -> spatial_reaches sorter ppl aabbs tris centers s ->
  nth_error (s_threads s) j = Some (Th (Some (t, QPanic)) st subs) ->
  exists t' bounds w, spatial_task sorter ppl aabbs tris centers t' bounds w /\
    (one_sided sorter tris t' bounds w /\ 0 < w_begin t' /\ w_size t' / 2 <= w_begin t' \/
     exists r, In r (its_refs t' w 0) /\ sticks_out bounds r).
Proof.
  intros sorter ppl aabbs tris centers s j t st subs Sp (L & N & M) R Ej.
  exact (panic_source sorter Sp ppl tris aabbs centers L N M s j t st subs R Ej).
Qed.

(** ** C66 *)
(** Without these three situations the build returns: every execution can be
    continued to a return, and no execution ever crashes. *)
Theorem C66_safe_partial : forall sorter ppl aabbs tris centers,
  permutes sorter -> spatial_input aabbs tris -> (Z.of_nat (max_refs (length aabbs)) <= 2 ^ 24)%Z ->
  (forall t bounds w, spatial_task sorter ppl aabbs tris centers t bounds w ->
    (one_sided sorter tris t bounds w -> 0 < w_begin t -> w_begin t < w_size t / 2) /\
    (forall r, In r (its_refs t w 0) -> ~ sticks_out bounds r) /\
    (forall w' c, decides sorter ppl aabbs tris t bounds w = Ok (w', Divide c) ->
       flt (half_area (c_left c)) f0 = false /\ flt (half_area (c_right c)) f0 = false)) ->
  (forall s, spatial_reaches sorter ppl aabbs tris centers s -> ~ spatial_crashes sorter ppl aabbs tris s) /\
  exists b, spatial_build sorter ppl aabbs tris centers b.
Proof.
  intros sorter ppl aabbs tris centers Sp I Sm H.
  assert (forall s, spatial_reaches sorter ppl aabbs tris centers s -> ~ spatial_crashes sorter ppl aabbs tris s) as NC.
  { intros s R (j & t & p & st & subs & Ej & Cr).
    destruct (C66_crash_kind_partial sorter ppl aabbs tris centers s j t p st subs Sp I R Ej Cr) as [-> | ->].
    - destruct (C70_panic_cause sorter ppl aabbs tris centers s j t st subs Sp I R Ej) as (t' & bounds & w & G & B).
      destruct (H _ _ _ G) as (H1 & H2 & _). destruct B as [(O & B1 & B2)|(r & Ir & So)].
      + specialize (H1 O B1). lia.
      + exact (H2 r Ir So).
    - destruct (C70_ub_cause sorter ppl aabbs tris centers s j t st subs Sp I Sm R Ej) as (bounds & w & w' & c & G & D & B).
      destruct (H _ _ _ G) as (_ & _ & H3). destruct (H3 _ _ D) as (E1 & E2). destruct B; congruence. }
  split; [exact NC|].
  destruct (proj2 (proj2 (C22_terminates sorter ppl aabbs tris centers)) _ (reach_init _ _ _ _ _ _ _ _)) as (k & s' & St & [Rt|Cr]).
  - exists (spatial_finish (s_mem s')). destruct I as (L & N & M). unfold spatial_build.
    rewrite L, Nat.eqb_refl. replace (length aabbs =? 0) with false by (symmetry; apply Nat.eqb_neq; lia). cbn [negb orb].
    exists s'. split; auto. exact (steps_reach _ _ _ _ w_size _ WORK_THRESHOLD _ _ _ _ (reach_init _ _ _ _ _ _ _ _) St).
  - exfalso. exact (NC _ (steps_reach _ _ _ _ w_size _ WORK_THRESHOLD _ _ _ _ (reach_init _ _ _ _ _ _ _ _) St) Cr).
Qed.

(** ** C71 *)
Lemma harmless_tasks : forall sorter ppl aabbs tris centers k t bounds w T,
  (forall t b w, spatial_task sorter ppl aabbs tris centers t b w -> ~ overwrites sorter ppl aabbs tris t b w) ->
  spatial_task sorter ppl aabbs tris centers t bounds w ->
  seq_tree sorter tris (max_leaf_size ppl) (spatial_threshold aabbs) k t bounds w = Ok T -> harmless T.
Proof.
  intros sorter ppl aabbs tris centers k. induction k as [|k IH]; intros t bounds w T H S E; rewrite stree_eq in E;
    (destruct (plan_task sorter tris _ _ t bounds w) as [[w1 [|c]]| | |] eqn:Ep; cbn [bind] in E; try discriminate E).
  - match type of E with Ok ?x = Ok _ => assert (T = x) as -> by congruence end. exact Logic.I.
  - match type of E with Ok ?x = Ok _ => assert (T = x) as -> by congruence end. exact Logic.I.
  - destruct (move3 _ _ _ _) as [w2| | |] eqn:Em; cbn [bind] in E; try discriminate E.
    match type of E with bind ?x _ = _ => destruct x as [Tl| | |] eqn:El; cbn [bind] in E; try discriminate E end.
    match type of E with bind ?x _ = _ => destruct x as [Tr| | |] eqn:Er; cbn [bind] in E; try discriminate E end.
    match type of E with Ok ?x = Ok _ => assert (T = x) as -> by congruence end. cbn [harmless].
    split; [|split].
    + set (sh := left_split_count _ _) in *.
      destruct (Z.le_gt_cases sh 0) as [L|L]; [left; exact L|]. destruct (Z.le_gt_cases (Z.of_nat (c_right_end c - c_right_begin c)) sh) as [G|G]; [right; exact G|].
      exfalso. apply (H _ _ _ S). exists w1, c. split; [exact Ep|]. fold sh. lia.
    + refine (IH _ _ _ _ H _ El). exact (task_left _ _ _ _ _ _ _ _ _ _ _ _ _ 0 S Ep Em).
    + refine (IH _ _ _ _ H _ Er). exact (task_right _ _ _ _ _ _ _ _ _ _ _ _ _ 0 S Ep Em).
Qed.

(** If no task overwrites its references, then, whatever the schedule, a build
    that returns has every triangle in a leaf, its boxes nest, and a traversal
    towards a vertex of a triangle (in its AABB) can find the triangle. *)
Theorem C71_kept : forall sorter ppl aabbs tris centers b t,
  permutes sorter -> spatial_input aabbs tris -> Forall box_ok aabbs -> spatial_build sorter ppl aabbs tris centers b ->
  repr (nodes b) t -> t_idx t = 0 ->
  (forall t b w, spatial_task sorter ppl aabbs tris centers t b w -> ~ overwrites sorter ppl aabbs tris t b w) ->
  nested t /\ (forall p, p < length aabbs -> In p (prims (prim_indices b) t)) /\
  forall p tr box v, nth_error tris p = Some tr -> nth_error aabbs p = Some box ->
    In v [tv0 tr; tv1 tr; tv2 tr] -> in_box box v -> found_at (prim_indices b) p v t.
Proof.
  intros sorter ppl aabbs tris centers b t Sp I Bo B R0 I0 H.
  destruct (spatial_result _ _ _ _ _ _ Sp I B) as (t' & T & ET & _).
  pose proof ET as ET'. rewrite seq_spatial_eq in ET'.
  assert (harmless T) as Hm by (exact (harmless_tasks sorter ppl aabbs tris centers MAX_DEPTH _ _ _ T H (task_root _ _ _ _ _ _ _) ET')).
  split; [|split].
  - exact (C54_nested_partial _ _ _ _ _ _ _ _ Sp I Bo B ET Hm R0 I0).
  - exact (C65_complete_partial _ _ _ _ _ _ _ _ Sp I B ET Hm R0 I0).
  - exact (C54_vertices_partial _ _ _ _ _ _ _ _ Sp I Bo B ET Hm R0 I0).
Qed.

(** ** The hypotheses can be met *)
(** A test for the hypothesis of [C66_safe_partial]: run the tasks one after
    the other and look at each. *)
Section Check.
  Variables (sorter : nat -> list sref -> list sref) (ppl : option nat) (aabbs : list aabb) (tris : list tri).
  Definition task_fine (t : witem) (bounds : aabb) (w : per_axis (list sref)) : Prop :=
    (one_sided sorter tris t bounds w -> 0 < w_begin t -> w_begin t < w_size t / 2) /\
    (forall r, In r (its_refs t w 0) -> ~ sticks_out bounds r) /\
    (forall w' c, decides sorter ppl aabbs tris t bounds w = Ok (w', Divide c) ->
       flt (half_area (c_left c)) f0 = false /\ flt (half_area (c_right c)) f0 = false).
  Definition stays (bounds : aabb) (r : sref) : bool :=
    negb (is_valid (s_box r)) || forallb (fun axis => fle (vget (bmin bounds) axis) (vget (bmin (s_box r)) axis) &&
       fle (vget (bmax (s_box r)) axis) (vget (bmax bounds) axis)) [0; 1; 2].
  Definition both_sides (t : witem) (bounds : aabb) (w : per_axis (list sref)) : bool :=
    (w_begin t =? 0) || (w_begin t <? w_size t / 2) ||
    match find_spatial_split tris bounds (its_refs t (sorted_refs sorter t w) 0) with
    | Ok sp => existsb (fun r => negb (fle (vget (bmax (s_box r)) (ss_axis sp)) (ss_pos sp))) (its_refs t w (ss_axis sp))
    | _ => true
    end.
  Fixpoint fine_tree (k : nat) (t : witem) (bounds : aabb) (w : per_axis (list sref)) : bool :=
    both_sides t bounds w && forallb (stays bounds) (its_refs t w 0) &&
    match decides sorter ppl aabbs tris t bounds w with
    | Ok (w1, Divide c) =>
        negb (flt (half_area (c_left c)) f0) && negb (flt (half_area (c_right c)) f0) &&
        match k with
        | 0 => false
        | S k =>
            match move3 w1 (c_right_begin c) (c_right_end c) (left_split_count (w_split_end t - (w_begin t + c_right_end c)) c) with
            | Ok w2 =>
                fine_tree k (Wi 0 (w_begin t) (w_begin t + c_right_begin c) (w_begin t + c_right_begin c) (S (w_depth t)) (c_sorted c))
                  (c_left c) (map3 (firstn (c_right_begin c)) w2) &&
                fine_tree k (Wi 0 (w_begin t + c_right_begin c) (w_begin t + c_right_end c) (w_split_end t) (S (w_depth t)) (c_sorted c))
                  (c_right c) (map3 (skipn (c_right_begin c)) w2)
            | _ => true
            end
        end
    | _ => true
    end.
  Lemma fine_eq : forall k t bounds w, fine_tree k t bounds w =
    both_sides t bounds w && forallb (stays bounds) (its_refs t w 0) &&
    match decides sorter ppl aabbs tris t bounds w with
    | Ok (w1, Divide c) =>
        negb (flt (half_area (c_left c)) f0) && negb (flt (half_area (c_right c)) f0) &&
        match k with
        | 0 => false
        | S k =>
            match move3 w1 (c_right_begin c) (c_right_end c) (left_split_count (w_split_end t - (w_begin t + c_right_end c)) c) with
            | Ok w2 =>
                fine_tree k (Wi 0 (w_begin t) (w_begin t + c_right_begin c) (w_begin t + c_right_begin c) (S (w_depth t)) (c_sorted c))
                  (c_left c) (map3 (firstn (c_right_begin c)) w2) &&
                fine_tree k (Wi 0 (w_begin t + c_right_begin c) (w_begin t + c_right_end c) (w_split_end t) (S (w_depth t)) (c_sorted c))
                  (c_right c) (map3 (skipn (c_right_begin c)) w2)
            | _ => true
            end
        end
    | _ => true
    end.
  Proof. intros [|k] t bounds w; reflexivity. Qed.
  Lemma fine_node : forall k i j b e se d so bounds w, fine_tree k (Wi i b e se d so) bounds w = fine_tree k (Wi j b e se d so) bounds w.
  Proof. intros. rewrite !fine_eq. reflexivity. Qed.
  Lemma fine_here : forall k t bounds w, fine_tree k t bounds w = true -> task_fine t bounds w.
  Proof.
    intros k t bounds w H. rewrite fine_eq in H. apply andb_true_iff in H as [H H3]. apply andb_true_iff in H as [H1 H2].
    split; [|split].
    - intros (sp & Ax & F & A) P. unfold both_sides in H1. rewrite F in H1.
      apply orb_true_iff in H1 as [H1|H1].
      + apply orb_true_iff in H1 as [H1|H1]; [apply Nat.eqb_eq in H1; lia|apply Nat.ltb_lt in H1; exact H1].
      + apply existsb_exists in H1 as (r & Ir & Hr). rewrite (A r Ir) in Hr. discriminate Hr.
    - intros r Ir (V & axis & Ax & So). rewrite forallb_forall in H2. specialize (H2 r Ir). unfold stays in H2. rewrite V in H2.
      cbn [negb orb] in H2. rewrite forallb_forall in H2. specialize (H2 axis).
      rewrite H2 in So; [discriminate So|]. destruct axis as [|[|[|axis]]]; simpl; auto. lia.
    - intros w' c D. rewrite D in H3. apply andb_true_iff in H3 as [H3 _]. apply andb_true_iff in H3 as [H3 H4].
      split; [destruct (flt (half_area (c_left c)) f0)|destruct (flt (half_area (c_right c)) f0)]; auto; discriminate.
  Qed.
  Lemma fine_all : forall centers k, fine_tree k (spatial_root aabbs) (union_of_list aabbs) (p_refs (spatial_start aabbs centers)) = true ->
    forall t bounds w, spatial_task sorter ppl aabbs tris centers t bounds w -> task_fine t bounds w.
  Proof.
    intros centers k H t bounds w T.
    assert (exists k, fine_tree k t bounds w = true) as (k' & F); [|exact (fine_here _ _ _ _ F)].
    induction T as [|t bounds w w1 c w2 i T (k' & F) D M|t bounds w w1 c w2 i T (k' & F) D M]; [exists k; exact H| |];
      rewrite fine_eq in F; apply andb_true_iff in F as [_ F]; unfold decides in F; rewrite D in F;
      apply andb_true_iff in F as [_ F]; (destruct k' as [|k']; [discriminate F|]); rewrite M in F;
      apply andb_true_iff in F as [F1 F2]; exists k'; rewrite (fine_node k' i 0); [exact F1|exact F2].
  Qed.
End Check.

(** Four triangles in a row, to be divided down to single ones. *)
Definition row4 : list tri :=
  map (fun z => Tri (pt (3 * z) 0 0) (pt (3 * z + 2) 0 z) (pt (3 * z) 2 1)) [0; 1; 2; 3]%Z.
Example C66_safe_example : spatial_input (map tri_box row4) row4 /\
  exists b, spatial_build insertion_sort None (map tri_box row4) row4 (map tri_mid row4) b.
Proof.
  assert (spatial_input (map tri_box row4) row4) as I by (apply small_input; vm_compute; reflexivity).
  split; [exact I|].
  apply (C66_safe_partial insertion_sort None (map tri_box row4) row4 (map tri_mid row4) insertion_permutes I).
  - vm_compute. discriminate.
  - apply (fine_all insertion_sort None (map tri_box row4) row4 (map tri_mid row4) MAX_DEPTH). vm_compute. reflexivity.
Qed.

(** A build that panics, and one that leaves its arrays: both are found, so the
    hypotheses of [C70_panic_cause] and [C70_ub_cause] are met. *)
Definition at_panic (s : state witem pmem pprog) : bool :=
  match s_threads s with Th (Some (_, QPanic)) _ _ :: _ => true | _ => false end.
Lemma at_panic_spec : forall s, at_panic s = true -> exists t st subs, nth_error (s_threads s) 0 = Some (Th (Some (t, QPanic)) st subs).
Proof.
  intros s H. unfold at_panic in H. destruct (s_threads s) as [|[[[t p]|] st subs] ths]; try discriminate H.
  destruct p; try discriminate H. exists t, st, subs. reflexivity.
Qed.
Example C70_panic_example : exists t bounds w,
  spatial_task insertion_sort None (map tri_box four) four (map tri_mid four) t bounds w /\
  (one_sided insertion_sort four t bounds w /\ 0 < w_begin t /\ w_size t / 2 <= w_begin t \/
   exists r, In r (its_refs t w 0) /\ sticks_out bounds r).
Proof.
  assert (exists fuel, at_panic (run_spatial four fuel) = true) as (fuel & H) by (exists 60; vm_compute; reflexivity).
  destruct (at_panic_spec _ H) as (t & st & subs & E).
  apply (C70_panic_cause insertion_sort None (map tri_box four) four (map tri_mid four) (run_spatial four fuel) 0 t st subs insertion_permutes).
  - apply small_input; vm_compute; reflexivity.
  - apply run_first_reach. constructor.
  - exact E.
Qed.
Example C70_ub_example : exists t bounds w w' c,
  spatial_task insertion_sort None (map tri_box nine) nine (map tri_mid nine) t bounds w /\
  decides insertion_sort None (map tri_box nine) nine t bounds w = Ok (w', Divide c) /\
  (flt (half_area (c_left c)) f0 = true \/ flt (half_area (c_right c)) f0 = true).
Proof.
  destruct C66_ub_refuted as (I & s & t & st & subs & R & E). exists t.
  apply (C70_ub_cause insertion_sort None (map tri_box nine) nine (map tri_mid nine) s 0 t st subs insertion_permutes I); auto.
  vm_compute. discriminate.
Qed.

(** [harmless], as used by C54 and C65, says the same as [overwrites]: in a
    build that returns, no task overwrites references exactly if the tree it
    made is harmless. *)
Lemma harmless_none : forall sorter ppl aabbs tris centers T,
  seq_spatial sorter ppl aabbs tris centers = Ok T -> harmless T ->
  forall t b w, spatial_task sorter ppl aabbs tris centers t b w -> ~ overwrites sorter ppl aabbs tris t b w.
Proof.
  intros sorter ppl aabbs tris centers T E Hm t b w S. rewrite seq_spatial_eq in E.
  assert (exists k T', seq_tree sorter tris (max_leaf_size ppl) (spatial_threshold aabbs) k t b w = Ok T' /\ harmless T') as (k & T' & E' & H').
  { induction S as [|t b w w1 c w2 i S (k & T' & E' & H') D M|t b w w1 c w2 i S (k & T' & E' & H') D M];
      [exists MAX_DEPTH, T; split; [exact E|exact Hm]| |];
      rewrite stree_eq, D in E'; cbn [bind] in E'; (destruct k as [|k]; [discriminate E'|]); rewrite M in E'; cbn [bind] in E';
      (match type of E' with bind ?x _ = _ => destruct x as [Tl| | |] eqn:El; cbn [bind] in E'; try discriminate E' end);
      (match type of E' with bind ?x _ = _ => destruct x as [Tr| | |] eqn:Er; cbn [bind] in E'; try discriminate E' end);
      (match type of E' with Ok ?x = Ok _ => assert (T' = x) as -> by congruence end); destruct H' as (_ & Hl & Hr);
      [exists k, Tl|exists k, Tr]; (split; [|assumption]); rewrite (stree_node _ _ _ _ k i 0); assumption. }
  intros (w1 & c & D & Lt). rewrite stree_eq in E'. unfold decides in D. rewrite D in E'. cbn [bind] in E'.
  destruct k as [|k]; [discriminate E'|].
  destruct (move3 _ _ _ _) as [w2| | |]; cbn [bind] in E'; try discriminate E'.
  match type of E' with bind ?x _ = _ => destruct x as [Tl| | |] eqn:El; cbn [bind] in E'; try discriminate E' end.
  match type of E' with bind ?x _ = _ => destruct x as [Tr| | |] eqn:Er; cbn [bind] in E'; try discriminate E' end.
  match type of E' with Ok ?x = Ok _ => assert (T' = x) as -> by congruence end. destruct H' as (Hs & _). lia.
Qed.
(** With six triangles no task overwrites references; with three, one does. *)
Example C71_nonvacuous : (exists b, build_of None six b) /\
  forall t b w, spatial_task insertion_sort None (map tri_box six) six (map tri_mid six) t b w ->
    ~ overwrites insertion_sort None (map tri_box six) six t b w.
Proof.
  destruct C54_points_refuted as (_ & B & (T & ET & H) & _). split; [exact B|].
  exact (harmless_none insertion_sort None (map tri_box six) six (map tri_mid six) T ET H).
Qed.
Example C71_overwrites : ~ forall t b w, spatial_task insertion_sort None (map tri_box three) three (map tri_mid three) t b w ->
    ~ overwrites insertion_sort None (map tri_box three) three t b w.
Proof.
  intro H. destruct C65_lost_refuted as ((b & B) & Lost).
  assert (spatial_input (map tri_box three) three) as I by (apply small_input; vm_compute; reflexivity).
  destruct (spatial_result _ _ _ _ _ _ insertion_permutes I B) as (t & T & _ & _ & R0 & I0 & _).
  apply (Lost b t B R0 I0).
  refine (proj1 (proj2 (C71_kept _ _ _ _ _ _ _ insertion_permutes I _ B R0 I0 H)) 2 _).
  - apply boxes_okb_spec; vm_compute; reflexivity.
  - rewrite map_length. apply le_n.
Qed.
