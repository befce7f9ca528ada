(** * Properties C12-C16 (and C11, C24, C31, C32) of the parallel binned-SAH builder *)
Require Import List ZArith Bool Arith Lia Permutation.
From Verif Require Import F32 F32Facts Vec RayModel Base AabbModel NodeModel UtilsModel IterModel SpecGeom SpecTree SpecTraverse
  AabbProofs IterProofs ClosestProofs LocbModel LocbProofs BvhModel BvhProofs SpawnModel SpawnProofs BinnedModel BinnedProofs BinnedFacts BinnedLeaf SpecBinned BinnedCost
  PropBox PropTraverse PropLocb PropMbvh PropBvh.
Import ListNotations.
Local Open Scope nat_scope.

(** Inputs: one centre per AABB, at least one, at most 2^30 (so that node
    indices fit [i32]).  No condition on the coordinates, which may be NaN. *)
Definition binned_input (aabbs : list aabb) (centers : list vec3) : Prop :=
  length centers = length aabbs /\ 1 <= length aabbs /\ (Z.of_nat (length aabbs) <= 1073741824)%Z.

(** What any build returns. *)
Lemma binned_result : forall ppl aabbs centers b, binned_input aabbs centers -> binned_build ppl aabbs centers b ->
  exists t, repr (nodes b) t /\ t_idx t = 0 /\ Permutation (t_ids t) (seq 0 (length (nodes b))) /\
    positions t = seq 0 (length aabbs) /\ length (prim_indices b) = length aabbs /\ children_after t /\
    shape_of t = fst (sah_of (max_leaf_size ppl) aabbs centers (root_ent aabbs)) /\
    prim_indices b = snd (sah_of (max_leaf_size ppl) aabbs centers (root_ent aabbs)) /\
    length (nodes b) <= 2 * length aabbs - 1.
Proof.
  intros ppl aabbs centers b (L & N & M) B. unfold binned_build in B.
  rewrite L, Nat.eqb_refl in B. replace (length aabbs =? 0) with false in B by (symmetry; apply Nat.eqb_neq; lia).
  cbn [negb orb] in B. destruct B as (s & R & Rt & ->).
  exact (returned_bvh (max_leaf_size ppl) aabbs centers L N M s R Rt).
Qed.
Lemma result_perm : forall ppl aabbs centers b, binned_input aabbs centers -> binned_build ppl aabbs centers b ->
  Permutation (prim_indices b) (seq 0 (length aabbs)).
Proof.
  intros ppl aabbs centers b I B. destruct (binned_result _ _ _ _ I B) as (t & _ & _ & _ & _ & _ & _ & _ & -> & _).
  unfold sah_of. cbn [root_ent e_ids e_depth e_begin e_box]. apply sah_perm.
Qed.
Lemma result_prims : forall ppl aabbs centers b t, binned_input aabbs centers -> binned_build ppl aabbs centers b ->
  positions t = seq 0 (length aabbs) -> prims (prim_indices b) t = prim_indices b.
Proof.
  intros ppl aabbs centers b t I B P. unfold prims. rewrite P.
  rewrite <- (seq_length (length aabbs) 0). rewrite <- (Permutation_length (result_perm _ _ _ _ I B)). apply map_nth_seq.
Qed.

(** ** C12 *)
(** Every schedule's result is a binary tree over all its array slots, whose
    leaves are consecutive ranges of a permutation of the primitives. *)
Theorem C12_valid : forall ppl aabbs centers b,
  binned_input aabbs centers -> binned_build ppl aabbs centers b ->
  valid_bvh (nodes b) (prim_indices b) (length aabbs) /\
  exists t, repr (nodes b) t /\ t_idx t = 0 /\ positions t = seq 0 (length aabbs).
Proof.
  intros ppl aabbs centers b I B. pose proof (result_perm _ _ _ _ I B) as P.
  destruct (binned_result _ _ _ _ I B) as (t & Rp & T0 & Ids & Ps & Ln & _).
  split; [|exists t; auto]. exists t. repeat (split; auto). rewrite Ps, Ln. auto.
Qed.

(** No schedule ever panics, accesses an array out of range or fails an
    allocation. *)
Theorem C12_no_crash : forall ppl aabbs centers s,
  binned_input aabbs centers -> binned_reaches ppl aabbs centers s -> ~ crashes pstep s.
Proof. intros ppl aabbs centers s (L & N & M) R. exact (no_crash (max_leaf_size ppl) aabbs centers L N M s R). Qed.

(** Every schedule ends: the number of steps is bounded (here by
    [(2n-1)(6n+40)] for [n] primitives) and every execution can only end with
    the build returning a BVH; so there is a result. *)
Theorem C12_terminates : forall ppl aabbs centers,
  binned_input aabbs centers ->
  (forall k s, binned_steps ppl aabbs centers k (initial (binned_start aabbs) (root_task aabbs)) s ->
     k <= (2 * length aabbs - 1) * (6 * length aabbs + 40)) /\
  (forall s, binned_reaches ppl aabbs centers s ->
     returned s \/ exists s', binned_steps ppl aabbs centers 1 s s') /\
  (forall s, binned_reaches ppl aabbs centers s ->
     exists k s', binned_steps ppl aabbs centers k s s' /\ returned s' /\ binned_build ppl aabbs centers (finish (s_mem s'))).
Proof.
  intros ppl aabbs centers (L & N & M). pose proof (b_pays (2 * length aabbs - 1) (max_leaf_size ppl) aabbs centers) as P.
  split; [|split].
  - intros k s St. pose proof (bounded_steps _ _ _ _ b_work _ WORK_THRESHOLD _ _ P _ _ _ _ St) as H.
    unfold b_pot, pot_w, b_work, root_task in H. cbn [k_end k_begin] in H. rewrite Nat.sub_0_r, Nat.max_l in H by lia. exact H.
  - intros s R. destruct (progress _ _ _ _ b_work _ WORK_THRESHOLD _ _ s R) as [H|[H|(s' & H)]]; auto.
    + exfalso. eapply no_crash; eauto.
    + right. exists s'. econstructor; [exact H|constructor].
  - intros s R. destruct (completes _ _ _ _ b_work _ WORK_THRESHOLD _ _ P _ _ s R) as (k & s' & St & E).
    pose proof (steps_reach _ _ _ _ b_work _ WORK_THRESHOLD _ _ _ _ R St) as R'.
    assert (returned s') as Rt by (destruct E as [E|E]; auto; exfalso; eapply no_crash; eauto).
    exists k, s'. split; [exact St|]. split; auto. unfold binned_build. rewrite L, Nat.eqb_refl.
    replace (length aabbs =? 0) with false by (symmetry; apply Nat.eqb_neq; lia). cbn [negb orb]. eauto.
Qed.
Corollary binned_exists : forall ppl aabbs centers, binned_input aabbs centers -> exists b, binned_build ppl aabbs centers b.
Proof.
  intros ppl aabbs centers I. destruct (C12_terminates ppl aabbs centers I) as (_ & _ & H).
  destruct (H _ (reach_init _ _ _ _ _ _ _ _)) as (k & s' & _ & _ & B). eauto.
Qed.

(** Input the builder rejects gives an empty BVH. *)
Theorem C12_rejects : forall ppl aabbs centers b, length centers <> length aabbs \/ aabbs = [] ->
  (binned_build ppl aabbs centers b <-> b = Bvh [] []).
Proof.
  intros ppl aabbs centers b H. unfold binned_build.
  replace (negb (length centers =? length aabbs) || (length centers =? 0) || (length aabbs =? 0)) with true; [tauto|].
  symmetry. destruct H as [H| ->]; [apply Nat.eqb_neq in H; rewrite H; auto|]. simpl. rewrite !orb_true_r. auto.
Qed.

(** ** C13 *)
(** The results of any two schedules have the same [prim_indices] and store
    the same tree: same boxes, same leaf ranges, same nesting. *)
Theorem C13_deterministic : forall ppl aabbs centers b1 b2,
  binned_input aabbs centers -> binned_build ppl aabbs centers b1 -> binned_build ppl aabbs centers b2 ->
  prim_indices b1 = prim_indices b2 /\ length (nodes b1) = length (nodes b2) /\
  forall t1 t2, repr (nodes b1) t1 -> t_idx t1 = 0 -> repr (nodes b2) t2 -> t_idx t2 = 0 -> shape_of t1 = shape_of t2.
Proof.
  intros ppl aabbs centers b1 b2 I B1 B2.
  destruct (binned_result _ _ _ _ I B1) as (u1 & R1 & Z1 & P1 & _ & _ & _ & S1 & X1 & _).
  destruct (binned_result _ _ _ _ I B2) as (u2 & R2 & Z2 & P2 & _ & _ & _ & S2 & X2 & _).
  split; [congruence|]. split.
  - assert (forall t t', shape_of t = shape_of t' -> t_size t = t_size t') as Sz.
    { induction t as [i n|i n l IHl r IHr]; intros [i' n'|i' n' l' r'] E; simpl in *; try discriminate; auto.
      injection E as _ _ El Er. f_equal. f_equal; auto. }
    apply Permutation_length in P1, P2. rewrite t_ids_size, seq_length in P1, P2. rewrite <- P1, <- P2. apply Sz. congruence.
  - intros t1 t2 Rp1 T1 Rp2 T2. rewrite (repr_unique (nodes b1) t1 u1), (repr_unique (nodes b2) t2 u2); auto; congruence.
Qed.

(** ** C14 *)
(** The memory accessed by the next step of a program (the counter apart,
    which is atomic): the location and whether it is written. *)
Inductive location := Node (i : nat) | Index (i : nat).
Definition next_access (p : prog) : option (location * bool) :=
  match p with
  | RdN i _ => Some (Node i, false)
  | WrN i _ _ => Some (Node i, true)
  | RdI i _ => Some (Index i, false)
  | WrI i _ _ => Some (Index i, true)
  | _ => None
  end.
Definition races (p q : prog) : Prop :=
  exists l w1 w2, next_access p = Some (l, w1) /\ next_access q = Some (l, w2) /\ (w1 || w2) = true.

Lemma nodup_l : forall A (a b : list A), NoDup (a ++ b) -> NoDup a.
Proof.
  induction a as [|x a IH]; intros b H; [constructor|]. inversion H; subst. constructor; [|eauto].
  intro I. apply H2. apply in_or_app. auto.
Qed.
Lemma swap4 : forall A (a b c d : list A), Permutation ((a ++ b) ++ c ++ d) ((a ++ c) ++ b ++ d).
Proof.
  intros A a b c d. rewrite <- (app_assoc a b), <- (app_assoc a c). apply Permutation_app_head.
  rewrite !app_assoc. apply Permutation_app_tail, Permutation_app_comm.
Qed.

(** All tasks that are running or waiting. *)
Definition live_tasks (s : state btask smem prog) : list btask :=
  flat_map (fun th => match t_cur th with Some (t, _) => [t] | None => [] end ++ t_stack th) (s_threads s).
Definition range_of (t : btask) : list nat := seq (k_begin t) (k_end t - k_begin t).

Lemma items_tasks : forall ths, map fst (items ths) =
  flat_map (fun th : thread btask prog => match t_cur th with Some (t, _) => [t] | None => [] end ++ t_stack th) ths.
Proof.
  induction ths as [|th ths IH]; simpl; auto. rewrite map_app, IH. f_equal. unfold th_items. rewrite map_app, map_map.
  simpl. rewrite map_id. destruct (t_cur th) as [[t p]|]; auto.
Qed.

(** A task that is about to allocate gets two fresh slots of the array: both
    exist, and neither is the node of any task created so far. *)
Theorem C14_allocation : forall ppl aabbs centers s th t k,
  binned_input aabbs centers -> binned_reaches ppl aabbs centers s ->
  In th (s_threads s) -> t_cur th = Some (t, Alloc k) ->
  length (m_nodes (s_mem s)) = 2 * length aabbs - 1 /\
  S (m_ctr (s_mem s)) < length (m_nodes (s_mem s)) /\
  forall t', In t' (root_task aabbs :: new_tasks (s_trace s)) -> k_node t' < m_ctr (s_mem s).
Proof.
  intros ppl aabbs centers s th t k (L & N & M) R It Ec.
  destruct (reach_inv (max_leaf_size ppl) aabbs centers L N M s R) as (g & I).
  apply in_split in It as (l1 & l2 & E).
  assert (Permutation (items (s_threads s)) ((t, Some (Alloc k)) :: map (fun t => (t, None)) (t_stack th) ++ items (l1 ++ l2))) as P.
  { rewrite E, items_mid. unfold th_items. rewrite Ec. auto. }
  destruct (owned _ _ _ _ _ _ _ _ I P) as (C & e & c & -> & Et & _ & W). cbn [wp] in W. destruct W as (-> & L2 & _).
  pose proof (i_budget _ _ _ _ _ I) as B. destruct (plug_budget aabbs centers L N C) as (kb & Hb). rewrite Hb in B. cbn [gbudget] in B.
  rewrite (i_nodes _ _ _ _ _ I). split; auto. split; [lia|].
  intros t' It'. apply (in_map k_node) in It'.
  apply (Permutation_in _ (i_made _ _ _ _ _ I)) in It'.
  assert (forall g x, In x (gmade g) -> In x (gids g)) as Sub.
  { clear. induction g as [e c p|i b nd ids|i nd l IHl r IHr]; simpl; intros x Ix; auto.
    - destruct c; simpl; tauto.
    - destruct Ix as [->|Ix]; auto. right. apply in_app_or in Ix as [Ix|Ix]; apply in_or_app; auto. }
  apply Sub in It'. apply (Permutation_in _ (i_ids _ _ _ _ _ I)) in It'. apply in_seq in It'. lia.
Qed.

(** No two tasks ever created work on the same node; at any moment the tasks
    not yet finished own disjoint ranges of [prim_indices]. *)
Theorem C14_distinct : forall ppl aabbs centers s,
  binned_input aabbs centers -> binned_reaches ppl aabbs centers s ->
  NoDup (map k_node (root_task aabbs :: new_tasks (s_trace s))) /\
  NoDup (flat_map range_of (live_tasks s)).
Proof.
  intros ppl aabbs centers s (L & N & M) R.
  destruct (reach_inv (max_leaf_size ppl) aabbs centers L N M s R) as (g & I). split.
  - eapply Permutation_NoDup; [apply Permutation_sym, (i_made _ _ _ _ _ I)|].
    assert (NoDup (gids g)) as Nd by (eapply Permutation_NoDup; [apply Permutation_sym, (i_ids _ _ _ _ _ I)|apply seq_NoDup]).
    assert (submset (gmade g) (gids g)) as [D P].
    { clear. induction g as [e c p|i b nd ids|i nd l IHl r IHr]; simpl.
      - destruct c as [c|]; [exists [c; S c]|exists []]; simpl; auto.
      - exists []. auto.
      - destruct IHl as [D1 P1], IHr as [D2 P2]. exists (D1 ++ D2). apply perm_skip.
        eapply Permutation_trans; [apply swap4|]. apply Permutation_app; auto. }
    apply (Permutation_NoDup (Permutation_sym P)) in Nd. eapply nodup_l; eauto.
  - unfold live_tasks. rewrite <- items_tasks.
    eapply Permutation_NoDup; [apply Permutation_flat_map, Permutation_map, (i_items _ _ _ _ _ I)|].
    assert (NoDup (gpos g)) as Nd by (rewrite (i_pos _ _ _ _ _ I); apply seq_NoDup).
    assert (submset (flat_map range_of (map fst (gitems g))) (gpos g)) as [D P].
    { clear. induction g as [e c p|i b nd ids|i nd l IHl r IHr]; simpl.
      - exists []. rewrite !app_nil_r. unfold range_of, task_of. simpl. replace (e_begin e + e_len e - e_begin e) with (e_len e) by lia. auto.
      - exists (seq b (length ids)). auto.
      - destruct IHl as [D1 P1], IHr as [D2 P2]. exists (D1 ++ D2). rewrite map_app, flat_map_app.
        eapply Permutation_trans; [apply swap4|]. apply Permutation_app; auto. }
    apply (Permutation_NoDup (Permutation_sym P)) in Nd. eapply nodup_l; eauto.
Qed.

(** No data race: the next accesses of two threads never conflict. *)
Theorem C14_no_race : forall ppl aabbs centers s i j thi thj ti pi tj pj,
  binned_input aabbs centers -> binned_reaches ppl aabbs centers s -> i <> j ->
  nth_error (s_threads s) i = Some thi -> t_cur thi = Some (ti, pi) ->
  nth_error (s_threads s) j = Some thj -> t_cur thj = Some (tj, pj) ->
  ~ races pi pj.
Proof.
  intros ppl aabbs centers s i j thi thj ti pi tj pj (L & N & M) R Ne Ei Ci Ej Cj.
  destruct (reach_inv (max_leaf_size ppl) aabbs centers L N M s R) as (g & I).
  destruct (upd_mid _ _ _ _ Ei) as (l1 & l2 & E & Ll & _).
  assert (In thj (l1 ++ l2)) as Ij.
  { rewrite E in Ej. destruct (Nat.lt_ge_cases j (length l1)) as [C|C].
    - rewrite nth_error_app1 in Ej by auto. apply in_or_app. left. eapply nth_error_In; eauto.
    - rewrite nth_error_app2 in Ej by auto. destruct (j - length l1) as [|k] eqn:K; [lia|]. simpl in Ej.
      apply in_or_app. right. eapply nth_error_In; eauto. }
  assert (Permutation (items (s_threads s)) ((ti, Some pi) :: map (fun t => (t, None)) (t_stack thi) ++ items (l1 ++ l2))) as P.
  { rewrite E, items_mid. unfold th_items. rewrite Ci. auto. }
  destruct (owned _ _ _ _ _ _ _ _ I P) as (C & e & c & -> & Et & Pc & W).
  assert (In (tj, Some pj) (citems C)) as Ic.
  { eapply Permutation_in; [exact Pc|]. apply in_or_app. right. unfold items. apply in_flat_map. exists thj. split; auto.
    unfold th_items. rewrite Cj. simpl. auto. }
  destruct (in_context _ _ _ _ _ _ _ _ (i_agree _ _ _ _ _ I) Ic) as (e' & c' & Et' & [W' _] & S1 & S2).
  destruct (open_disjoint _ _ _ L N _ _ _ _ _ I) as (D1 & D2 & _).
  assert (forall p e c m x w, wp (max_leaf_size ppl) aabbs centers e p c m -> next_access p = Some (x, w) ->
    match x with Node q => In q (own e c) | Index q => In q (epos e) end) as Own.
  { clear. intros p e c m x w W E. destruct p; simpl in *; try discriminate; injection E as <- _; apply W. }
  intros (l & w1 & w2 & A1 & A2 & _).
  pose proof (Own _ _ _ _ _ _ W A1) as O1. pose proof (Own _ _ _ _ _ _ W' A2) as O2.
  destruct l as [q|q].
  - apply (proj1 (D1 q O1)). apply S1. auto.
  - apply (proj1 (D2 q O1)). apply S2. auto.
Qed.

(** The result uses twice as many nodes as it has leaves, minus one. *)
Theorem C14_node_count : forall ppl aabbs centers b t,
  binned_input aabbs centers -> binned_build ppl aabbs centers b -> repr (nodes b) t -> t_idx t = 0 ->
  length (nodes b) = 2 * t_leaves t - 1 /\ length (nodes b) <= 2 * length aabbs - 1.
Proof.
  intros ppl aabbs centers b t I B Rp T0.
  destruct (binned_result _ _ _ _ I B) as (u & R & U0 & Ids & _ & _ & _ & _ & _ & Ln).
  rewrite (repr_unique (nodes b) t u) in * by (auto; congruence). split; auto.
  apply Permutation_length in Ids. rewrite t_ids_size, seq_length in Ids. pose proof (size_leaves u). lia.
Qed.

(** ** C15 *)
Theorem C15_depth : forall ppl aabbs centers b t,
  binned_input aabbs centers -> binned_build ppl aabbs centers b -> repr (nodes b) t -> t_idx t = 0 -> depth t <= 64.
Proof.
  intros ppl aabbs centers b t I B Rp T0.
  destruct (binned_result _ _ _ _ I B) as (u & R & U0 & _ & _ & _ & _ & Sh & _).
  rewrite (repr_unique (nodes b) t u) by (auto; congruence). rewrite <- shape_depth, Sh. apply sah_depth.
Qed.

(** [in_bin centers bounds k p]: the code sorts the centre of primitive [p]
    into the [k]-th of the sixteen slabs of [bounds] along its longest axis. *)
Definition in_bin (centers : list vec3) (bounds : aabb) (k p : nat) : bool :=
  compute_bin_index bounds (nth p centers (vsplat f0)) (longest_axis bounds) =? k.

(** A leaf with more than [primitives_per_leaf] (and more than one)
    primitives is at the depth limit, or at least three fifths of its
    primitives have their centres in the same sixteenth of the leaf's
    (unpadded) box along the longest axis. *)
Theorem C15_leaf_size : forall ppl aabbs centers b t d n,
  binned_input aabbs centers -> binned_build ppl aabbs centers b ->
  repr (nodes b) t -> t_idx t = 0 -> leaf_at d n t ->
  let held := leaf_prims (prim_indices b) n in
  1 < length held -> leaf_limit ppl < length held -> d < 64 ->
  exists bounds k,
    bmin n = bmin (with_offset bounds f1em4) /\ bmax n = bmax (with_offset bounds f1em4) /\
    k < 16 /\ 3 * length held <= 5 * length (filter (in_bin centers bounds k) held).
Proof.
  intros ppl aabbs centers b t d n I B Rp T0 La held L1 L2 Ld. subst held.
  destruct (binned_result _ _ _ _ I B) as (u & R & U0 & _ & Ps & _ & _ & Sh & Pi & _).
  rewrite (repr_unique (nodes b) t u) in La by (auto; congruence).
  pose proof (result_prims _ _ _ _ u I B Ps) as Pr.
  destruct I as (L & N & M).
  destruct (sbig_tree (max_leaf_size ppl) aabbs centers L N (prim_indices b) u (MAX_DEPTH - 0) (prim_indices b)) with (d := d) (n := n)
    as (bounds & Mn & Mx & k & Lk & Cr); auto.
  - rewrite Sh, Pi. unfold sah_of. apply sah_big; auto.
    cbn [root_ent e_ids]. apply Forall_forall. intros x Ix. apply in_seq in Ix. lia.
  - exists bounds, k. exact (conj Mn (conj Mx (conj Lk Cr))).
Qed.

(** ** C16 *)
(** The root's box contains all AABBs, every right child's box contains the
    AABBs of the primitives below it, and so does the box of a left child
    whose parent holds at most [primitives_per_leaf] primitives. *)
Theorem C16_boxes : forall ppl aabbs centers b t,
  binned_input aabbs centers -> Forall box_ok aabbs -> binned_build ppl aabbs centers b ->
  repr (nodes b) t -> t_idx t = 0 ->
  let inside s := Forall (fun p => forall box, nth_error aabbs p = Some box -> box_in box (t_rec s)) (prims (prim_indices b) s) in
  inside t /\
  forall i nd l r, subtree (TNode i nd l r) t ->
    inside r /\ (length (prims (prim_indices b) (TNode i nd l r)) <= leaf_limit ppl -> inside l).
Proof.
  intros ppl aabbs centers b t I Hok B Rp T0.
  destruct (binned_result _ _ _ _ I B) as (u & R & U0 & _ & Ps & _ & _ & Sh & Pi & _).
  pose proof (result_prims _ _ _ _ u I B Ps) as Pr.
  rewrite (repr_unique (nodes b) t u) by (auto; congruence).
  destruct I as (L & N & M). cbv zeta.
  destruct (sencl_tree (max_leaf_size ppl) aabbs (prim_indices b) u true (prim_indices b)) as [H1 H2]; auto.
  - rewrite Sh, Pi. unfold sah_of. apply sah_encl; auto.
    + cbn [root_ent e_ids]. apply Forall_forall. intros x Ix. apply in_seq in Ix. lia.
    + intros _. cbn [root_ent e_ids e_box]. unfold encl. apply Forall_forall. intros p Ip box E.
      pose proof (C03_union_of_list_covers aabbs Hok) as Cv. rewrite Forall_forall in Cv. apply Cv. eapply nth_error_In; eauto.
  - split; [exact (H1 eq_refl)|]. exact H2.
Qed.

(** Shape of the result, for the theorems about costs. *)
Lemma result_opt : forall ppl aabbs centers b t,
  binned_input aabbs centers -> Forall box_ok aabbs -> binned_build ppl aabbs centers b ->
  repr (nodes b) t -> t_idx t = 0 ->
  sopt aabbs centers 64 (shape_of t) (prim_indices b) /\ prims (prim_indices b) t = prim_indices b.
Proof.
  intros ppl aabbs centers b t I Hok B Rp T0.
  destruct (binned_result _ _ _ _ I B) as (u & R & U0 & _ & Ps & _ & _ & Sh & Pi & _).
  pose proof (result_prims _ _ _ _ u I B Ps) as Pr.
  rewrite (repr_unique (nodes b) t u) by (auto; congruence). split; auto.
  destruct I as (L & N & M). rewrite Sh, Pi. unfold sah_of. apply (sah_opt (max_leaf_size ppl) aabbs centers Hok L N 64).
  cbn [root_ent e_ids]. apply Forall_forall. intros x Ix. apply in_seq in Ix. lia.
Qed.

Lemma result_sopt : forall aabbs centers indices t, binned_input aabbs centers ->
  sopt aabbs centers 64 (shape_of t) indices -> prims indices t = indices ->
  (forall d n, leaf_at d n t -> d < 64 -> 1 < length (leaf_prims indices n) ->
     exists bounds, bmin n = bmin (with_offset bounds f1em4) /\ bmax n = bmax (with_offset bounds f1em4) /\
       forall a j, ~ worthwhile aabbs centers bounds (leaf_prims indices n) a j) /\
  (forall i nd l r, subtree (TNode i nd l r) t ->
     split_well aabbs centers nd (prims indices (TNode i nd l r)) (prims indices l) (prims indices r) (t_rec l)).
Proof. intros aabbs centers indices t (L & N & _) So Pr. eapply sopt_tree; eauto. Qed.

(** Also the box of a left child contains the AABBs of its primitives, as soon
    as its parent has a separation that the surface area heuristic prefers to
    a leaf.  (In the remaining case the parent is split near the median
    although no separation is worthwhile.) *)
Theorem C16_left_child : forall ppl aabbs centers b t i nd l r axis k,
  binned_input aabbs centers -> Forall box_ok aabbs -> binned_build ppl aabbs centers b ->
  repr (nodes b) t -> t_idx t = 0 -> subtree (TNode i nd l r) t ->
  worthwhile aabbs centers nd (prims (prim_indices b) (TNode i nd l r)) axis k ->
  Forall (fun p => forall box, nth_error aabbs p = Some box -> box_in box (t_rec l)) (prims (prim_indices b) l).
Proof.
  intros ppl aabbs centers b t i nd l r axis k I Hok B Rp T0 Su W.
  destruct (result_opt _ _ _ _ _ I Hok B Rp T0) as (So & Pr).
  destruct (result_sopt aabbs centers (prim_indices b) t I So Pr) as (_ & H).
  apply (H _ _ _ _ Su). eauto.
Qed.

(** ** C53 *)
(** A node with a worthwhile separation is separated by a cheapest one among
    the 45 candidates (15 per axis): [l] holds the primitives below it and
    [r] the others. *)
Theorem C53_node : forall ppl aabbs centers b t i nd l r axis k,
  binned_input aabbs centers -> Forall box_ok aabbs -> binned_build ppl aabbs centers b ->
  repr (nodes b) t -> t_idx t = 0 -> subtree (TNode i nd l r) t ->
  let held := prims (prim_indices b) (TNode i nd l r) in
  worthwhile aabbs centers nd held axis k ->
  exists axis' k', worthwhile aabbs centers nd held axis' k' /\
    Forall (fun p => slab centers nd axis' p < k') (prims (prim_indices b) l) /\
    Forall (fun p => k' <= slab centers nd axis' p) (prims (prim_indices b) r) /\
    forall a j, a < 3 -> 0 < j -> j < 16 ->
      flt (split_cost aabbs centers nd held a j) (split_cost aabbs centers nd held axis' k') = false.
Proof.
  intros ppl aabbs centers b t i nd l r axis k I Hok B Rp T0 Su held W.
  destruct (result_opt _ _ _ _ _ I Hok B Rp T0) as (So & Pr).
  destruct (result_sopt aabbs centers (prim_indices b) t I So Pr) as (_ & H).
  destruct (H _ _ _ _ Su) as (_ & axis' & k' & [C1 C2] & S1 & S2); [exists axis, k; exact W|].
  exists axis', k'. split; [exact C1|]. split; [exact S1|]. split; [exact S2|]. exact C2.
Qed.
(** Above the depth limit, a leaf with several primitives has no worthwhile
    separation; [bounds] is its box without the last padding. *)
Theorem C53_leaf : forall ppl aabbs centers b t d n,
  binned_input aabbs centers -> Forall box_ok aabbs -> binned_build ppl aabbs centers b ->
  repr (nodes b) t -> t_idx t = 0 -> leaf_at d n t -> d < 64 -> 1 < length (leaf_prims (prim_indices b) n) ->
  exists bounds, bmin n = bmin (with_offset bounds f1em4) /\ bmax n = bmax (with_offset bounds f1em4) /\
    forall axis k, ~ worthwhile aabbs centers bounds (leaf_prims (prim_indices b) n) axis k.
Proof.
  intros ppl aabbs centers b t d n I Hok B Rp T0 La Ld L1.
  destruct (result_opt _ _ _ _ _ I Hok B Rp T0) as (So & Pr).
  destruct (result_sopt aabbs centers (prim_indices b) t I So Pr) as (H & _). eauto.
Qed.

(** With [primitives_per_leaf >= n] the whole tree encloses its primitives. *)
Theorem C16_few_primitives : forall ppl aabbs centers b,
  binned_input aabbs centers -> Forall box_ok aabbs -> binned_build ppl aabbs centers b ->
  length aabbs <= leaf_limit ppl ->
  exists t, repr (nodes b) t /\ t_idx t = 0 /\ Permutation (prims (prim_indices b) t) (seq 0 (length aabbs)) /\
    encloses aabbs (prim_indices b) t.
Proof.
  intros ppl aabbs centers b I Hok B Ls.
  destruct (binned_result _ _ _ _ I B) as (u & R & U0 & _ & Ps & _ & _ & Sh & Pi & _).
  pose proof (result_prims _ _ _ _ u I B Ps) as Pr. pose proof (result_perm _ _ _ _ I B) as Pm.
  exists u. split; auto. split; auto. split; [rewrite Pr; auto|].
  destruct (C16_boxes _ _ _ _ u I Hok B R U0) as [H1 H2].
  apply (encl_small (max_leaf_size ppl) aabbs centers); [apply I|exact H1|exact H2|]. rewrite Pr, (Permutation_length Pm), seq_length. exact Ls.
Qed.

(** ** The other theorems about builds, for binned-SAH results *)
(** ([build] is any way to run the builder: what it returns is the result of
    some schedule.) *)
Theorem C11_binned : forall P (center_of : P -> vec3) aabb_of collect ppl (build : list aabb -> list P -> res bvh) given primitives r,
  (forall aabbs b, length aabbs = length primitives -> build aabbs primitives = Ok b -> binned_build ppl aabbs (map center_of primitives) b) ->
  primitives <> [] -> (forall aabbs, given = Some aabbs -> length aabbs = length primitives) ->
  (forall l, Permutation (collect l) l) -> (Z.of_nat (length primitives) <= 1073741824)%Z ->
  construct aabb_of collect build given primitives = Ok r ->
  exists b, r = ROk b /\ valid_bvh (nodes b) (prim_indices b) (length primitives).
Proof.
  intros P center_of aabb_of collect ppl build given primitives r Bu Ne G Cp M E.
  destruct (C11_otherwise P aabb_of collect build given primitives Ne G) as (aabbs & Ec & H1 & H2). rewrite Ec in E.
  assert (length aabbs = length primitives) as L.
  { destruct given as [l|].
    - rewrite (H1 l eq_refl). auto.
    - rewrite (H2 eq_refl). rewrite (Permutation_length (Cp _)), map_length; auto. }
  destruct (build aabbs primitives) as [b| | |] eqn:Eb; try discriminate. cbn [bind] in E. injection E as <-.
  exists b. split; [reflexivity|]. rewrite <- L. eapply C12_valid; [|apply Bu; eauto].
  unfold binned_input. rewrite map_length. destruct primitives; [congruence|]. simpl in *. lia.
Qed.

(** C43 for binned builds: whatever order the scheduler delivers the AABBs in,
    the result is a BVH over all primitives whose root contains all their
    AABBs. *)
Theorem C43_any_order_binned : forall P (center_of : P -> vec3) aabb_of collect ppl (build : list aabb -> list P -> res bvh) primitives b,
  (forall aabbs b, length aabbs = length primitives -> build aabbs primitives = Ok b -> binned_build ppl aabbs (map center_of primitives) b) ->
  (forall l, Permutation (collect l) l) -> primitives <> [] -> (Z.of_nat (length primitives) <= 1073741824)%Z ->
  Forall (fun p => box_ok (aabb_of p)) primitives ->
  construct aabb_of collect build None primitives = Ok (ROk b) ->
  valid_bvh (nodes b) (prim_indices b) (length primitives) /\
  exists aabbs t, Permutation aabbs (map aabb_of primitives) /\ binned_build ppl aabbs (map center_of primitives) b /\
    repr (nodes b) t /\ t_idx t = 0 /\ forall p, In p primitives -> box_in (aabb_of p) (t_rec t).
Proof.
  intros P center_of aabb_of collect ppl build primitives b Bu Cp Ne M Ok E.
  unfold construct in E. destruct primitives as [|q ps] eqn:Eps; [contradiction|]. rewrite <- Eps in *. clear Ne.
  set (aabbs := collect (map aabb_of primitives)) in *.
  destruct (build aabbs primitives) as [b'| | |] eqn:Eb; try discriminate. cbn [bind] in E. assert (b' = b) by congruence. subst b'.
  pose proof (Cp (map aabb_of primitives)) as Pm. fold aabbs in Pm.
  assert (length aabbs = length primitives) as L by (rewrite (Permutation_length Pm); apply map_length).
  specialize (Bu aabbs b L Eb).
  assert (binned_input aabbs (map center_of primitives)) as I.
  { repeat split; rewrite ?map_length, ?L; auto; rewrite Eps; simpl; lia. }
  assert (Forall box_ok aabbs) as Oa.
  { eapply Permutation_Forall; [symmetry; exact Pm|]. apply Forall_map. exact Ok. }
  pose proof (C12_valid _ _ _ _ I Bu) as (V & t & Rp & T0 & Pos).
  split; [rewrite <- L; exact V|].
  exists aabbs, t. split; auto. split; auto. split; auto. split; auto. intros p Ip.
  assert (In (aabb_of p) aabbs) as Ia by (eapply Permutation_in; [symmetry; exact Pm|apply in_map; auto]).
  apply In_nth_error in Ia as (k & Ek).
  assert (k < length aabbs) by (apply nth_error_Some; congruence).
  destruct (C16_boxes _ _ _ _ _ I Oa Bu Rp T0) as (Rt & _). cbv zeta in Rt. rewrite Forall_forall in Rt.
  apply (Rt k); auto. destruct V as (t' & Rp' & T0' & _ & _ & Pi). unfold prims.
  assert (length (prim_indices b) = length aabbs) as Li by (rewrite (Permutation_length Pi), seq_length; auto).
  rewrite Pos, <- Li. eapply Permutation_in; [|apply in_seq; split; [apply Nat.le_0_l|]; exact H]. 
  rewrite <- Li in Pi. symmetry. 
  assert (map (fun k => nth k (prim_indices b) 0) (seq 0 (length (prim_indices b))) = prim_indices b) as ->; [|rewrite Li in *; exact Pi].
  clear. apply nth_ext with 0 0; [rewrite map_length, seq_length; auto|].
  intros n Hn. rewrite map_length, seq_length in Hn. rewrite (nth_indep _ 0 (nth 0 (prim_indices b) 0)) by (rewrite map_length, seq_length; auto).
  rewrite (map_nth (fun k => nth k (prim_indices b) 0)). rewrite seq_nth by auto. reflexivity.
Qed.

Theorem C24_binned_up_to_32 : forall ppl aabbs centers b C (client : C -> nat -> ray -> C * ray) c r,
  binned_input aabbs centers -> binned_build ppl aabbs centers b -> length aabbs <= 32 ->
  exists out, iter_ray_indices (nodes b) (prim_indices b) client (length (nodes b) + length (prim_indices b) + 1) c r = Ok out.
Proof.
  intros ppl aabbs centers b C client c r I B L32.
  destruct (binned_result _ _ _ _ I B) as (u & _ & _ & _ & _ & Lp & _ & _ & _ & Ln).
  apply (C24_up_to_32_leaves C (nodes b) (prim_indices b) (length aabbs)); [eapply C12_valid; eauto|lia|lia].
Qed.

Theorem C31_binned : forall ppl aabbs centers b,
  binned_input aabbs centers -> binned_build ppl aabbs centers b ->
  exists t, refittable b t /\ Permutation (prims (prim_indices b) t) (seq 0 (length aabbs)).
Proof.
  intros ppl aabbs centers b I B.
  destruct (binned_result _ _ _ _ I B) as (u & R & U0 & Ids & Ps & Lp & Ca & _ & _ & Ln).
  exists u. rewrite (result_prims _ _ _ _ u I B Ps). split; [|eapply result_perm; eauto].
  destruct I as (L & N & M). unfold refittable. rewrite Lp. split; [lia|]. split; [lia|].
  repeat (split; auto). rewrite Ps. apply Forall_forall. intros k Ik. apply in_seq in Ik. lia.
Qed.

Theorem C32_binned : forall ppl aabbs centers b,
  binned_input aabbs centers -> binned_build ppl aabbs centers b ->
  exists fuel0, forall fuel, fuel0 <= fuel -> validate fuel b (length aabbs) = Ok true.
Proof.
  intros ppl aabbs centers b I B.
  destruct (binned_result _ _ _ _ I B) as (u & _ & _ & _ & _ & _ & _ & _ & _ & Ln).
  pose proof (C12_valid _ _ _ _ I B) as [V _]. destruct I as (L & N & M).
  apply C32_valid; auto; lia.
Qed.

(** ** Concrete builds *)
(** One particular schedule (always the first thread that can move). *)
Definition run_build (ppl : option nat) (aabbs : list aabb) (centers : list vec3) (fuel : nat) : state btask smem prog :=
  run_first (run (2 * length aabbs - 1) (max_leaf_size ppl) aabbs centers) b_work pstep WORK_THRESHOLD fuel
    (initial (binned_start aabbs) (root_task aabbs)).
Definition all_done (s : state btask smem prog) : bool :=
  match s_threads s with Th None [] [] :: _ => true | _ => false end.
Lemma run_build_ok : forall ppl aabbs centers fuel (f : bvh -> bool), binned_input aabbs centers ->
  all_done (run_build ppl aabbs centers fuel) && f (finish (s_mem (run_build ppl aabbs centers fuel))) = true ->
  exists b, binned_build ppl aabbs centers b /\ f b = true.
Proof.
  intros ppl aabbs centers fuel f (L & N & M) H. apply andb_true_iff in H as [D H].
  exists (finish (s_mem (run_build ppl aabbs centers fuel))). split; auto.
  unfold binned_build. rewrite L, Nat.eqb_refl.
  replace (length aabbs =? 0) with false by (symmetry; apply Nat.eqb_neq; lia). cbn [negb orb].
  exists (run_build ppl aabbs centers fuel). split; [apply run_first_reach; constructor|]. split; auto.
  unfold returned. unfold all_done in D. destruct (s_threads (run_build ppl aabbs centers fuel)) as [|[[|] [|] [|]] ths]; try discriminate.
  eexists. split; reflexivity.
Qed.

(** Three overlapping boxes in a row, default settings. *)
Definition abc : list aabb :=
  [Bb (pt 0 0 0) 0 (pt 10 1 1) 0; Bb (pt 3 0 0) 0 (pt 13 1 1) 0; Bb (pt 6 0 0) 0 (pt 16 1 1) 0].
Definition abc_ray : ray := ray_new (pt 12 (-5) 0) (V3 (fdiv f1 (fz 1000)) f1 (fdiv f1 (fz 10))).
Lemma abc_input : binned_input abc (map center abc) /\ Forall box_ok abc.
Proof. split; [repeat split; simpl; lia|]. unfold abc. repeat constructor; vm_compute; reflexivity. Qed.

(** Every schedule builds a tree in which the left child of the root holds
    primitives 0 and 1 but does not contain the box of primitive 1: the
    fallback split reuses the bin count of the rejected split for the left
    box. *)
Definition abc_check (r : shape * list nat) : bool :=
  match r with
  | (SNode _ _ (SNode _ mx (SLeaf _ _ f1 c1) (SLeaf _ _ f2 c2)) _, [0; 1; 2]) =>
      flt (vx mx) (fz 13) && (f1 =? 0)%Z && (c1 =? 1)%Z && (f2 =? 1)%Z && (c2 =? 1)%Z
  | _ => false
  end.
Theorem C16_refuted : forall b, binned_build None abc (map center abc) b ->
  exists t i nd l r box, repr (nodes b) t /\ t_idx t = 0 /\ t = TNode i nd l r /\
    In 1 (prims (prim_indices b) l) /\ nth_error abc 1 = Some box /\ ~ box_in box (t_rec l).
Proof.
  intros b B. destruct abc_input as [I _].
  destruct (binned_result _ _ _ _ I B) as (u & R & U0 & _ & _ & _ & _ & Sh & Pi & _).
  assert (abc_check (shape_of u, prim_indices b) = true) as Ck.
  { rewrite Sh, Pi, <- surjective_pairing. vm_compute. reflexivity. }
  clear Sh Pi. exists u. unfold abc_check in Ck.
  destruct u as [|i nd l r]; [discriminate|]. exists i, nd, l, r. cbn [shape_of] in Ck.
  destruct l as [|j ndl l1 l2]; [discriminate|]. cbn [shape_of] in Ck.
  destruct l1 as [j1 n1|]; [|discriminate]. destruct l2 as [j2 n2|]; [|discriminate]. cbn [shape_of] in Ck.
  destruct (prim_indices b) as [|[|] [|[|[|]] [|[|[|[|]]] [|]]]]; try discriminate.
  repeat (apply andb_true_iff in Ck as [Ck ?]).
  eexists. split; [exact R|]. split; [exact U0|]. split; [reflexivity|]. split.
  - apply Z.eqb_eq in H, H0, H1, H2. unfold prims. cbn [positions]. unfold leaf_positions. rewrite H, H0, H1, H2. simpl. auto.
  - split; [reflexivity|]. intros [_ (X & _)]. cbn [t_rec bmax vx] in X.
    pose proof (fle_flt_false _ _ X). change (vx (pt 13 1 1)) with (fz 13) in *. congruence.
Qed.

(** So a ray that hits the box of primitive 1 is not offered it. *)
Definition lacks_1 {R} (x : res (list nat * list R * unit)) : bool :=
  match x with Ok (l, _, _) => negb (existsb (Nat.eqb 1) l) | _ => false end.
Lemma lacks_1_spec : forall R (x : res (list nat * list R * unit)), lacks_1 x = true ->
  exists l rays, x = Ok (l, rays, tt) /\ ~ In 1 l.
Proof.
  intros R x H. destruct x as [[[l rays] []]| | |]; try discriminate. exists l, rays. split; auto.
  intro X. apply negb_true_iff in H. rewrite <- not_true_iff_false in H. apply H. apply existsb_exists. exists 1. auto.
Qed.
Definition not_offered (fuel : nat) (b : bvh) : bool :=
  lacks_1 (iter_ray_indices (nodes b) (prim_indices b) (fun c _ r => (c, r)) fuel tt abc_ray).
Lemma not_offered_spec : forall fuel b, not_offered fuel b = true -> exists l rays,
  iter_ray_indices (nodes b) (prim_indices b) (fun c _ r => (c, r)) fuel tt abc_ray = Ok (l, rays, tt) /\ ~ In 1 l.
Proof. intros fuel b H. apply lacks_1_spec. exact H. Qed.
Lemma abc_missed : exists b, binned_build None abc (map center abc) b /\ not_offered 30 b = true.
Proof.
  apply (run_build_ok None abc (map center abc) 200 (not_offered 30)).
  - exact (proj1 abc_input).
  - vm_compute. reflexivity.
Qed.
Theorem C16_missed_refuted : exists b box l rays, binned_build None abc (map center abc) b /\
  nth_error abc 1 = Some box /\ hit_box abc_ray box = true /\
  iter_ray_indices (nodes b) (prim_indices b) (fun c _ r => (c, r)) 30 tt abc_ray = Ok (l, rays, tt) /\ ~ In 1 l.
Proof.
  destruct abc_missed as (b & B & H). destruct (not_offered_spec 30 b H) as (l & rays & E & N).
  exists b, (Bb (pt 3 0 0) 0 (pt 13 1 1) 0), l, rays. split; [exact B|]. split; [reflexivity|].
  split; [vm_compute; reflexivity|]. split; [exact E|exact N].
Qed.

(** Two primitives with the same centre and [primitives_per_leaf = 1]: every
    schedule puts both into one leaf. *)
Definition twins : list aabb := [Bb (pt 0 0 0) 0 (pt 2 2 2) 0; Bb (pt 0 0 0) 0 (pt 2 2 2) 0].
Theorem C15_leaf_size_refuted : forall b, binned_build (Some 1) twins (map center twins) b ->
  exists n, nodes b = [n] /\ is_leaf n = true /\ ex1 n = 2%Z.
Proof.
  intros b B. assert (binned_input twins (map center twins)) as I by (repeat split; simpl; lia).
  destruct (binned_result _ _ _ _ I B) as (u & R & U0 & Ids & _ & _ & _ & Sh & _).
  assert ((match shape_of u with SLeaf _ _ _ c => (c =? 2)%Z | _ => false end) = true) as Ck by (rewrite Sh; vm_compute; reflexivity). clear Sh B I.
  destruct u as [i n|]; [|discriminate]. cbn [shape_of] in Ck. apply Z.eqb_eq in Ck. simpl in Ids.
  apply Permutation_length in Ids. rewrite seq_length in Ids. simpl in Ids.
  simpl in U0. subst i. destruct R as (R & _). destruct (nodes b) as [|n' [|]]; try discriminate. injection R as ->.
  exists n. split; auto. split; auto. unfold is_leaf. rewrite Ck. reflexivity.
Qed.

(** A leaf as in [C15_leaf_size]: the conclusion holds of it, and so do the
    hypotheses, in every schedule's result. *)
Example C15_nonvacuous : forall b, binned_build (Some 1) twins (map center twins) b ->
  exists t n, repr (nodes b) t /\ t_idx t = 0 /\ leaf_at 0 n t /\
    leaf_limit (Some 1) < length (leaf_prims (prim_indices b) n).
Proof.
  intros b B. destruct (C15_leaf_size_refuted b B) as (n & N & Lf & C).
  assert (binned_input twins (map center twins)) as I by (repeat split; simpl; lia).
  destruct (binned_result _ _ _ _ I B) as (u & R & U0 & Ids & _).
  apply Permutation_length in Ids. rewrite N, seq_length in Ids. rewrite t_ids_size in Ids.
  destruct u as [i m|i m l r]; [|exfalso; simpl in Ids; pose proof (size_leaves l); pose proof (size_leaves r); lia].
  exists (TLeaf i m), m. split; auto. split; auto. split; [constructor|].
  simpl in U0. subst i. destruct R as (R & _). rewrite N in R. injection R as <-.
  unfold leaf_prims, leaf_positions. rewrite map_length, seq_length, C. change (max_leaf_size (Some 1)) with 1. simpl. lia.
Qed.

(** 33 points on a line whose distances grow by a quarter each: the tree
    degenerates to a chain and traversal overflows its stack. *)
Definition line_pts : list aabb :=
  map (fun k => let p := V3 (fdiv (fz (- (5 ^ Z.of_nat k) * 64 / 4 ^ Z.of_nat k)) (fz 64)) f0 f0 in Bb p 0 p 0) (seq 0 33).
Definition panics_at (fuel : nat) (b : bvh) : bool :=
  is_panic (iter_ray_indices (nodes b) (prim_indices b) (fun c _ r => (c, r)) fuel tt (ray_new (pt (-5000) 0 0) (pt 1 0 0))).
Lemma panics_at_spec : forall fuel b, panics_at fuel b = true ->
  iter_ray_indices (nodes b) (prim_indices b) (fun c _ r => (c, r)) fuel tt (ray_new (pt (-5000) 0 0) (pt 1 0 0)) = Panic.
Proof. intros fuel b H. apply is_panic_eq. exact H. Qed.
Theorem C24_binned_chain_refuted : exists b, binned_build None line_pts (map center line_pts) b /\
  iter_ray_indices (nodes b) (prim_indices b) (fun c _ r => (c, r)) 300 tt (ray_new (pt (-5000) 0 0) (pt 1 0 0)) = Panic.
Proof.
  destruct (run_build_ok None line_pts (map center line_pts) 4500 (panics_at 300)) as (b & B & H).
  - unfold binned_input, line_pts. rewrite !map_length, seq_length. lia.
  - vm_compute. reflexivity.
  - exists b. split; auto. apply panics_at_spec. exact H.
Qed.

(** A build with several threads: 5 boxes. *)
Definition five : list aabb := map (fun k => Bb (pt (7 * k) 0 0) 0 (pt (7 * k + 1) 1 1) 0) [0; 3; 1; 9; 4]%Z.
Definition nine_nodes (b : bvh) : bool := length (nodes b) =? 9.
Example C12_nonvacuous : binned_input five (map center five) /\ Forall box_ok five /\
  exists b, binned_build (Some 5) five (map center five) b /\ length (nodes b) = 9 /\ length five <= leaf_limit (Some 5).
Proof.
  split; [repeat split; simpl; lia|]. split; [unfold five; simpl map; repeat constructor; vm_compute; reflexivity|].
  destruct (run_build_ok (Some 5) five (map center five) 500 nine_nodes) as (b & B & H).
  - repeat split; simpl; lia.
  - vm_compute. reflexivity.
  - exists b. split; auto. split; [apply Nat.eqb_eq; auto|]. simpl. lia.
Qed.

(** [C11_binned] and [C43_any_order_binned] apply: the builder run with that
    schedule on three boxes, delivered in reverse order. *)
Definition run_binned_first (aabbs : list aabb) (ps : list aabb) : res bvh :=
  let s := run_build (Some 5) aabbs (map center ps) 250 in if all_done s then Ok (finish (s_mem s)) else OutOfFuel.
Definition built (r : res (result bvh build_error)) : bool := match r with Ok (ROk b) => 3 <=? length (nodes b) | _ => false end.
Lemma built_eq : forall r, built r = true -> exists b, r = Ok (ROk b) /\ 3 <= length (nodes b).
Proof. intros [[b|]| | |] E; try discriminate. exists b. split; auto. apply Nat.leb_le. exact E. Qed.
Definition three : list aabb := map (fun k => Bb (pt (7 * k) 0 0) 0 (pt (7 * k + 1) 1 1) 0) [0; 3; 1]%Z.
Example C43_nonvacuous_binned :
  (forall aabbs b, length aabbs = length three -> run_binned_first aabbs three = Ok b -> binned_build (Some 5) aabbs (map center three) b) /\
  (forall l : list aabb, Permutation (rev l) l) /\
  exists b, construct (fun x => x) (@rev aabb) run_binned_first None three = Ok (ROk b) /\ 3 <= length (nodes b).
Proof.
  split; [|split].
  - intros aabbs b L E. unfold run_binned_first in E. cbv zeta in E. destruct (all_done _) eqn:D in E; [|discriminate].
    assert (b = finish (s_mem (run_build (Some 5) aabbs (map center three) 250))) as Eb by congruence. clear E.
    unfold binned_build. rewrite map_length, L, Nat.eqb_refl.
    replace (length three =? 0) with false by reflexivity. cbn [negb orb].
    exists (run_build (Some 5) aabbs (map center three) 250). split; [apply run_first_reach; constructor|]. split; auto.
    unfold returned. unfold all_done in D. destruct (s_threads (run_build (Some 5) aabbs (map center three) 250)) as [|[[|] [|] [|]] ths]; try discriminate.
    eexists. split; reflexivity.
  - intro l. symmetry. apply Permutation_rev.
  - apply built_eq. vm_compute. reflexivity.
Qed.

(** [C53_node] and [C16_left_child] apply to the root of a build. *)
Definition root_worth (b : bvh) : bool :=
  match nodes b with
  | nd :: _ :: _ => flt (split_cost five (map center five) nd (prim_indices b) 0 8) (leaf_cost nd (prim_indices b)) &&
                    flt (split_cost five (map center five) nd (prim_indices b) 0 8) fMAX
  | _ => false
  end.
Example C53_nonvacuous : exists b t i nd l r, binned_build None five (map center five) b /\
  repr (nodes b) t /\ t_idx t = 0 /\ subtree (TNode i nd l r) t /\
  worthwhile five (map center five) nd (prims (prim_indices b) (TNode i nd l r)) 0 8.
Proof.
  assert (binned_input five (map center five)) as I by (repeat split; simpl; lia).
  destruct (run_build_ok None five (map center five) 500 root_worth I) as (b & B & H); [vm_compute; reflexivity|].
  destruct (binned_result _ _ _ _ I B) as (u & R & U0 & Ids & Ps & _).
  pose proof (result_prims _ _ _ _ u I B Ps) as Pr.
  unfold root_worth in H. destruct (nodes b) as [|nd [|nd2 ns]] eqn:En; try discriminate.
  apply Permutation_length in Ids. rewrite seq_length, t_ids_size in Ids.
  destruct u as [i m|i m l r]; [discriminate|]. simpl in U0. subst i.
  destruct R as (Rn & R'). injection Rn as <-.
  exists b, (TNode 0 nd l r), 0, nd, l, r. rewrite En. split; [auto|]. split; [split; [reflexivity|exact R']|]. split; [auto|]. split; [constructor|].
  rewrite Pr. apply andb_true_iff in H as [H1 H2]. unfold worthwhile. repeat (split; [lia|]). auto.
Qed.
