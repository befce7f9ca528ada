(** * Properties C23, C24, C25, C29, C30: traversal of a binary BVH *)
Require Import List ZArith Bool Lia Permutation Arith.
From Verif Require Import F32 F32Facts Vec RayModel AabbModel Base NodeModel IterModel SpecGeom SpecTree SpecTraverse
  IterProofs TraverseProofs ClosestProofs ShortProofs PropBox.
Import ListNotations.

(** What the traversal theorems assume of the arrays: they store a tree of
    depth at most 31 whose leaves lie in [indices], and fit 31-bit indices. *)
Definition traversable (nodes : list aabb) (indices : list nat) (t : tree) : Prop :=
  (Z.of_nat (length nodes) <= 2147483648)%Z /\ (Z.of_nat (length indices) <= 2147483648)%Z /\
  repr nodes t /\ t_idx t = 0 /\ depth t <= 31 /\ Forall (fun k => k < length indices) (positions t).

(** Number of loop turns that suffice. *)
Definition enough (t : tree) (fuel : nat) : Prop := t_size t + length (positions t) + 1 <= fuel.

Lemma alive_ray : forall nodes t r, repr nodes t -> t_idx t = 0 -> vok (r_origin r) -> vok (r_dir r) ->
  ray_alive nodes r = true.
Proof.
  intros nodes t r Rp T0 Vo Vd. apply repr_idx in Rp. rewrite T0 in Rp. unfold ray_alive, vnan.
  destruct nodes; [discriminate|]. destruct Vo as (-> & -> & ->). destruct Vd as (-> & -> & ->). reflexivity.
Qed.

(** ** C23 *)
Theorem C23_ray_indices : forall C nodes indices t (client : C -> nat -> ray -> C * ray) fuel c r,
  traversable nodes indices t -> only_t client -> vok (r_origin r) -> vok (r_dir r) -> enough t fuel ->
  exists leaves rays c',
    iter_ray_indices nodes indices client fuel c r = Ok (flat_map (leaf_prims indices) leaves, rays, c') /\
    Permutation leaves (reached (hit_box r) t) /\
    client_fold client (flat_map (leaf_prims indices) leaves) c r = (c', last rays r).
Proof.
  intros C nodes indices t client fuel c r (Hn & Hi & Rp & T0 & D & F) Ot Vo Vd E.
  unfold iter_ray_indices. rewrite (alive_ray nodes t r) by auto.
  destruct (ray_run_exact C (fun _ => true) nodes indices t client fuel c r) as (ls & rs & c' & A & B & G); auto.
  - eapply Forall_impl; [|apply F]. simpl. auto.
  - exists ls, rs, c'. auto.
Qed.

Theorem C23_ray_prims : forall C nprims nodes indices t (client : C -> nat -> ray -> C * ray) fuel c r,
  traversable nodes indices t -> only_t client -> vok (r_origin r) -> vok (r_dir r) -> enough t fuel ->
  nprims <> 0 -> Forall (fun p => p < nprims) (prims indices t) ->
  exists leaves rays c',
    iter_ray_prims nprims nodes indices client fuel c r = Ok (flat_map (leaf_prims indices) leaves, rays, c') /\
    Permutation leaves (reached (hit_box r) t) /\
    client_fold client (flat_map (leaf_prims indices) leaves) c r = (c', last rays r).
Proof.
  intros C nprims nodes indices t client fuel c r (Hn & Hi & Rp & T0 & D & F) Ot Vo Vd E Nz P.
  unfold iter_ray_prims. rewrite (alive_ray nodes t r) by auto.
  replace (nprims =? 0) with false by (symmetry; apply Nat.eqb_neq; auto). simpl negb. simpl andb.
  destruct (ray_run_exact C (fun p => p <? nprims) nodes indices t client fuel c r) as (ls & rs & c' & A & B & G); auto.
  - rewrite Forall_forall in *. intros k Ik. split; auto. apply Nat.ltb_lt. apply P.
    unfold prims. apply in_map_iff. eauto.
  - exists ls, rs, c'. auto.
Qed.

(** The same for clients that do anything to the ray: leaves whose boxes are
    hit by every version of the ray are visited, and only leaves whose boxes
    are hit by some version; each leaf at most once. *)
Theorem C23_any_client : forall C nodes indices t (client : C -> nat -> ray -> C * ray) fuel c r,
  traversable nodes indices t -> vok (r_origin r) -> vok (r_dir r) -> enough t fuel ->
  exists leaves rays c',
    iter_ray_indices nodes indices client fuel c r = Ok (flat_map (leaf_prims indices) leaves, rays, c') /\
    submset (reached (fun b => forallb (fun r' => hit_box r' b) rays) t) leaves /\
    submset leaves (reached (fun b => existsb (fun r' => hit_box r' b) rays) t) /\
    client_fold client (flat_map (leaf_prims indices) leaves) c r = (c', last rays r).
Proof.
  intros C nodes indices t client fuel c r (Hn & Hi & Rp & T0 & D & F) Vo Vd E.
  unfold iter_ray_indices. rewrite (alive_ray nodes t r) by auto.
  destruct (init_spec ray f32 intersect flt (fun _ => true) nodes indices C client t fuel c r) as (rs & c' & ls & A & B & G); auto.
  - eapply Forall_impl; [|apply F]. simpl. auto.
  - exists ls, (r :: rs), c'. split; [exact A|]. split; [exact B|]. split; [exact G|].
    destruct (run_fold _ _ _ _ _ _ _ _ _ _ _ _ _ _ _ _ A) as (rs' & _ & X). exact X.
Qed.

(** No node is left out when every box is hit: all primitives are yielded. *)
Theorem C23_all_hit : forall C nodes indices t (client : C -> nat -> ray -> C * ray) fuel c r,
  traversable nodes indices t -> only_t client -> vok (r_origin r) -> vok (r_dir r) -> enough t fuel ->
  (forall b, hit_box r b = true) ->
  exists ps rays c', iter_ray_indices nodes indices client fuel c r = Ok (ps, rays, c') /\
    Permutation ps (prims indices t).
Proof.
  intros C nodes indices t client fuel c r Tr Ot Vo Vd E H.
  destruct (C23_ray_indices C nodes indices t client fuel c r Tr Ot Vo Vd E) as (ls & rs & c' & A & B & _).
  exists (flat_map (leaf_prims indices) ls), rs, c'. split; auto.
  rewrite <- flat_leaf_recs. apply Permutation_flat_map. rewrite B. clear - H.
  induction t as [i n|i n l IHl r' IHr]; simpl; auto. rewrite !H. apply Permutation_app; auto.
Qed.

(** ** C24 *)
(** Termination without panic or out-of-tree access, ray and packet, for every
    client and every tree of depth at most 31. *)
Theorem C24_ray_terminates : forall C nodes indices t (client : C -> nat -> ray -> C * ray) fuel c r,
  traversable nodes indices t -> enough t fuel ->
  exists out, iter_ray_indices nodes indices client fuel c r = Ok out.
Proof.
  intros C nodes indices t client fuel c r (Hn & Hi & Rp & T0 & D & F) E.
  unfold iter_ray_indices. destruct (ray_alive nodes r).
  - destruct (init_spec ray f32 intersect flt (fun _ => true) nodes indices C client t fuel c r) as (rs & c' & ls & A & B & G); eauto.
    eapply Forall_impl; [|apply F]. simpl. auto.
  - destruct fuel as [|fuel]; [unfold enough in E; lia|]. eexists. reflexivity.
Qed.
Theorem C24_packet_terminates : forall C nodes indices t (client : C -> nat -> packet -> C * packet) fuel c p,
  traversable nodes indices t -> enough t fuel ->
  exists out, iter_packet_indices nodes indices client fuel c p = Ok out.
Proof.
  intros C nodes indices t client fuel c r (Hn & Hi & Rp & T0 & D & F) E.
  unfold iter_packet_indices. destruct (packet_alive nodes r).
  - destruct (init_spec packet vec4 intersect4 (fun a b => many (wcmp flt a b)) (fun _ => true) nodes indices C client t fuel c r) as (rs & c' & ls & A & B & G); eauto.
    eapply Forall_impl; [|apply F]. simpl. auto.
  - destruct fuel as [|fuel]; [unfold enough in E; lia|]. eexists. reflexivity.
Qed.
(** In particular for every valid BVH with at most 32 leaves. *)
Theorem C24_up_to_32_leaves : forall C nodes indices n (client : C -> nat -> ray -> C * ray) c r,
  valid_bvh nodes indices n -> length nodes <= 63 -> (Z.of_nat (length indices) <= 2147483648)%Z ->
  exists out, iter_ray_indices nodes indices client (length nodes + length indices + 1) c r = Ok out.
Proof.
  intros C nodes indices n client c r (t & Rp & T0 & P1 & P2 & P3) L Li.
  assert (t_size t = length nodes) as Sz.
  { rewrite <- t_ids_size. rewrite (Permutation_length P1), seq_length. auto. }
  assert (length (positions t) = length indices) as Sp by (rewrite (Permutation_length P2), seq_length; auto).
  apply (C24_ray_terminates C nodes indices t).
  - split; [lia|]. split; [auto|]. split; [auto|]. split; [auto|]. split.
    + pose proof (depth_leaves t). pose proof (size_leaves t). lia.
    + apply Forall_forall. intros k Ik. apply (Permutation_in _ P2) in Ik. apply in_seq in Ik. lia.
  - unfold enough. lia.
Qed.
(** A NaN ray or an empty BVH yields nothing. *)
Theorem C24_dead : forall C nodes indices (client : C -> nat -> ray -> C * ray) fuel c r,
  nodes = [] \/ ~ vok (r_origin r) \/ ~ vok (r_dir r) -> 1 <= fuel ->
  iter_ray_indices nodes indices client fuel c r = Ok ([], [r], c).
Proof.
  intros C nodes indices client fuel c r H L. destruct fuel as [|fuel]; [lia|].
  assert (forall v, ~ vok v -> vnan v = true) as V.
  { intros [x y z] N. unfold vok, vnan in *. cbn [vx vy vz] in *. destruct (fnan x), (fnan y), (fnan z); auto; tauto. }
  unfold iter_ray_indices, ray_alive.
  replace (negb _) with false; [reflexivity|]. symmetry. apply negb_false_iff.
  destruct H as [->|[H|H]]; [reflexivity| |]; rewrite (V _ H); rewrite ?orb_true_r; auto.
Qed.

(** ** C25 *)
Theorem C25_closest_hit : forall nodes indices n t dist r fuel,
  traversable nodes indices t ->
  Permutation (positions t) (seq 0 (length indices)) -> Permutation indices (seq 0 n) ->
  vok (r_origin r) -> vok (r_dir r) -> flt f0 (r_t r) = true ->
  (forall p d, dist p = Some d -> flt f0 d = true) ->
  (forall p d b, dist p = Some d -> on_path indices p t b -> hit_box r b = true) ->
  enough t fuel ->
  exists ps rays, iter_ray_prims n nodes indices (closest_body dist) fuel tt r = Ok (ps, rays, tt) /\
    last rays r = snd (client_fold (closest_body dist) (seq 0 n) tt r).
Proof.
  intros nodes indices n t dist r fuel (Hn & Hi & Rp & T0 & D & F); intros.
  eapply closest_hit; eauto.
Qed.

(** Brute force finds the nearest hit: what the loop ends with is not farther
    than any accepted distance and is one of them (or the initial [t]). *)
Theorem C25_brute_force_is_min : forall dist ps r,
  fnan (r_t r) = false -> (forall p d, dist p = Some d -> fnan d = false) ->
  let r' := snd (client_fold (closest_body dist) ps tt r) in
  (r_t r' = r_t r \/ exists p d, In p ps /\ dist p = Some d /\ r_t r' = d) /\
  fle (r_t r') (r_t r) = true /\
  (forall p d, In p ps -> dist p = Some d -> fle (r_t r') d = true).
Proof. intros dist ps r N Nd. destruct (closest_fold dist ps r N Nd) as (_ & _ & A & B & C). auto. Qed.

(** ** C29 *)
(** A packet traversal visits every leaf reached with the packet as it is at
    the end, and only leaves reached with the packet as it was at the start. *)
Theorem C29_packet : forall C nodes indices t (client : C -> nat -> packet -> C * packet) fuel c p,
  traversable nodes indices t -> lowers_t client -> packet_alive nodes p = true ->
  enough t fuel ->
  exists leaves ps c',
    iter_packet_indices nodes indices client fuel c p = Ok (flat_map (leaf_prims indices) leaves, ps, c') /\
    submset (reached (hit_box4 (last ps p)) t) leaves /\
    submset leaves (reached (hit_box4 p) t) /\
    client_fold client (flat_map (leaf_prims indices) leaves) c p = (c', last ps p).
Proof.
  intros C nodes indices t client fuel c p (Hn & Hi & Rp & T0 & D & F) Ot A E.
  unfold iter_packet_indices. rewrite A.
  apply packet_run_between; auto.
  eapply Forall_impl; [|apply F]. simpl. auto.
Qed.
Theorem C29_nan_packet : forall C nodes indices (client : C -> nat -> packet -> C * packet) fuel c p i r,
  packet_ray p i = Ok r -> (~ vok (r_origin r) \/ ~ vok (r_dir r)) -> 1 <= fuel ->
  iter_packet_indices nodes indices client fuel c p = Ok ([], [p], c).
Proof.
  intros C nodes indices client fuel c p i r R N L. destruct fuel as [|fuel]; [lia|].
  unfold iter_packet_indices. replace (packet_alive nodes p) with false; [reflexivity|].
  symmetry. unfold packet_alive. apply negb_false_iff. unfold wnan.
  assert (forall x y z, ~ (fnan x = false /\ fnan y = false /\ fnan z = false) -> 
     fnan x = true \/ fnan y = true \/ fnan z = true) as V.
  { intros x y z Q. destruct (fnan x), (fnan y), (fnan z); auto; tauto. }
  destruct i as [|[|[|[|i]]]]; cbn in R; try discriminate; injection R as <-;
    unfold vok in N; cbn [r_origin r_dir vx vy vz wget] in N;
    destruct N as [N|N]; apply V in N; destruct N as [N|[N|N]]; rewrite N; rewrite ?orb_true_r; auto.
Qed.

(** ** C30 *)
(** A primitive slice that is too short: the documented behaviour (skip what
    is missing) does not hold.  With one leaf holding ids 0 and 1 and a slice
    of one primitive the loop never ends. *)
Definition short_leaf : aabb := Bb (pt 0 0 0) 2 (pt 1 1 1) 0.

Theorem C30_short_slice_refuted : forall fuel,
  iter_ray_prims 1 [short_leaf] [0; 1] (fun c p r => (c, r)) fuel tt (ray_new (pt 0 0 (-5)) (pt 0 0 1)) = OutOfFuel.
Proof.
  set (r := ray_new (pt 0 0 (-5)) (pt 0 0 1)).
  assert (ray_alive [short_leaf] r = true) as A by (vm_compute; reflexivity).
  intro fuel. unfold iter_ray_prims. rewrite A. simpl andb.
  unfold bvh_init. generalize r. clear A r. intro r.
  assert (forall fuel i, i = 0%Z \/ i = 1%Z ->
     bvh_run ray f32 intersect flt (fun p => p <? 1) [short_leaf] [0; 1] unit (fun c p r => (c, r)) fuel tt r
       (Bit i (repeat 0%Z 32) 0) = OutOfFuel) as G; [|apply G; auto].
  induction fuel0 as [|k IH]; intros i Hi; [reflexivity|].
  cbn [bvh_run]. destruct Hi as [-> | ->].
  - replace (bvh_turn ray f32 intersect flt (fun p => p <? 1) [short_leaf] [0; 1] r (Bit 0 (repeat 0%Z 32) 0))
      with (Ok (Yield 0, Bit 1 (repeat 0%Z 32) 0)) by reflexivity.
    cbn [bind]. rewrite IH by auto. reflexivity.
  - replace (bvh_turn ray f32 intersect flt (fun p => p <? 1) [short_leaf] [0; 1] r (Bit 1 (repeat 0%Z 32) 0))
      with (Ok (Again, Bit 0 (repeat 0%Z 32) 0)) by reflexivity.
    cbn [bind]. apply IH; auto.
Qed.

(** What does hold: a slice covering all ids of the BVH is enough, whatever
    its length; see [C23_ray_prims].  An empty slice ends at once. *)
Theorem C30_empty_slice : forall C nodes indices (client : C -> nat -> ray -> C * ray) fuel c r,
  1 <= fuel -> iter_ray_prims 0 nodes indices client fuel c r = Ok ([], [r], c).
Proof.
  intros C nodes indices client fuel c r L. destruct fuel as [|fuel]; [lia|].
  unfold iter_ray_prims. simpl negb. rewrite andb_false_r. reflexivity.
Qed.

(** The exact behaviour for a slice of [m > 0] primitives, whatever [n] is: if
    all primitives that the index iterator yields are in the slice, the
    iterator yields exactly those and ends; otherwise it never ends (but does
    not panic or leave its arrays either). *)
Theorem C30_ray : forall C m nodes indices t (client : C -> nat -> ray -> C * ray) fuel c r,
  traversable nodes indices t -> enough t fuel -> 1 <= m ->
  exists ps rays c', iter_ray_indices nodes indices client fuel c r = Ok (ps, rays, c') /\
    (Forall (fun p => p < m) ps -> iter_ray_prims m nodes indices client fuel c r = Ok (ps, rays, c')) /\
    (~ Forall (fun p => p < m) ps -> forall f, iter_ray_prims m nodes indices client f c r = OutOfFuel).
Proof.
  intros C m nodes indices t client fuel c r T E M.
  destruct (C24_ray_terminates C nodes indices t client fuel c r T E) as [[[ps rs] c'] Er].
  exists ps, rs, c'. split; auto. unfold iter_ray_prims. unfold iter_ray_indices in Er.
  replace (m =? 0) with false by (symmetry; apply Nat.eqb_neq; lia). simpl negb. rewrite andb_true_r.
  assert (Forall (fun p => p < m) ps <-> Forall (fun p => (p <? m) = true) ps) as Q.
  { rewrite !Forall_forall. split; intros H x I; apply Nat.ltb_lt; auto. }
  rewrite Q. apply (short_run _ _ _ _ _ _ _ _ _ fuel _ _ _ _ _ _ (lock_init _ _ _) Er).
Qed.
Theorem C30_packet : forall C m nodes indices t (client : C -> nat -> packet -> C * packet) fuel c p,
  traversable nodes indices t -> enough t fuel -> 1 <= m ->
  exists ps pks c', iter_packet_indices nodes indices client fuel c p = Ok (ps, pks, c') /\
    (Forall (fun p => p < m) ps -> iter_packet_prims m nodes indices client fuel c p = Ok (ps, pks, c')) /\
    (~ Forall (fun p => p < m) ps -> forall f, iter_packet_prims m nodes indices client f c p = OutOfFuel).
Proof.
  intros C m nodes indices t client fuel c r T E M.
  destruct (C24_packet_terminates C nodes indices t client fuel c r T E) as [[[ps rs] c'] Er].
  exists ps, rs, c'. split; auto. unfold iter_packet_prims. unfold iter_packet_indices in Er.
  replace (m =? 0) with false by (symmetry; apply Nat.eqb_neq; lia). simpl negb. rewrite andb_true_r.
  assert (Forall (fun p => p < m) ps <-> Forall (fun p => (p <? m) = true) ps) as Q.
  { rewrite !Forall_forall. split; intros H x I; apply Nat.ltb_lt; auto. }
  rewrite Q. apply (short_run _ _ _ _ _ _ _ _ _ fuel _ _ _ _ _ _ (lock_init _ _ _) Er).
Qed.

(** ** A concrete BVH that meets the hypotheses *)
Definition ex_nodes : list aabb :=
  [Bb (pt 0 0 0) (-1) (pt 9 9 9) 1; Bb (pt 0 0 0) 2 (pt 2 2 2) 0; Bb (pt 5 5 5) (-1) (pt 9 9 9) 3;
   Bb (pt 5 5 5) 1 (pt 6 6 6) 2; Bb (pt 8 8 8) 1 (pt 9 9 9) 3].
Definition ex_indices : list nat := [3; 1; 0; 2].
Definition ex_tree : tree :=
  TNode 0 (Bb (pt 0 0 0) (-1) (pt 9 9 9) 1) (TLeaf 1 (Bb (pt 0 0 0) 2 (pt 2 2 2) 0))
    (TNode 2 (Bb (pt 5 5 5) (-1) (pt 9 9 9) 3) (TLeaf 3 (Bb (pt 5 5 5) 1 (pt 6 6 6) 2)) (TLeaf 4 (Bb (pt 8 8 8) 1 (pt 9 9 9) 3))).

Example C23_nonvacuous : traversable ex_nodes ex_indices ex_tree /\ enough ex_tree 10 /\
  Permutation (positions ex_tree) (seq 0 (length ex_indices)) /\ Permutation ex_indices (seq 0 4) /\
  (forall b, In b (leaf_recs ex_tree) -> True) /\
  (exists r, vok (r_origin r) /\ vok (r_dir r) /\ length (reached (hit_box r) ex_tree) = 1).
Proof.
  split.
  { repeat split; simpl; try lia; auto. repeat constructor. }
  split; [unfold enough; simpl; lia|]. split; [apply Permutation_refl|]. split.
  { unfold ex_indices. simpl. 
    apply Permutation_trans with [0; 3; 1; 2]; [apply Permutation_sym; apply (Permutation_middle [3; 1] [2] 0)|].
    apply perm_skip. apply Permutation_trans with [1; 3; 2]; [apply perm_swap|]. apply perm_skip. apply perm_swap. }
  split; auto.
  exists (ray_new (pt 1 1 (-5)) (V3 (fdiv f1 (fz 1000)) (fdiv f1 (fz 1000)) f1)).
  split; [conc|]. split; [conc|]. vm_compute. reflexivity.
Qed.
