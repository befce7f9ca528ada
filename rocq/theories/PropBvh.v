(** * Properties C11, C31, C32, C43 and C24 for built trees: [Builder] and [Bvh] *)
Require Import List ZArith Bool Arith Lia Permutation.
From Verif Require Import F32 F32Facts Vec RayModel Base AabbModel NodeModel IterModel SpecGeom SpecTree SpecTraverse
  AabbProofs IterProofs TraverseProofs LocbModel LocbProofs BvhModel BvhProofs PropBox PropTraverse PropLocb PropMbvh.
Import ListNotations.
Local Open Scope nat_scope.

Lemma fle_flt_false : forall x y : f32, fle x y = true -> flt y x = false.
Proof. intros x y H. destruct (fle_notnan _ _ H). apply fle_spec in H; auto. apply flt_false; auto. Qed.

(** ** C11 *)
(** For any builder whatsoever behind the front end ([build]), any way of
    computing the AABBs and any scheduler ([collect]). *)
Theorem C11_no_primitives : forall P (aabb_of : P -> aabb) collect build given primitives,
  construct aabb_of collect build given primitives = Ok (RErr NoPrimitives) <-> primitives = [].
Proof.
  intros P aabb_of collect build given primitives. split; [|intros ->; reflexivity].
  destruct primitives as [|p ps]; auto. unfold construct. destruct given as [aabbs|].
  - destruct (negb _); [discriminate|]. destruct (build aabbs (p :: ps)); discriminate.
  - destruct (build _ (p :: ps)); discriminate.
Qed.

Theorem C11_inequal : forall P (aabb_of : P -> aabb) collect build given primitives a p,
  construct aabb_of collect build given primitives = Ok (RErr (InequalAabbsAndPrimitives a p)) <->
  (primitives <> [] /\ exists aabbs, given = Some aabbs /\ length aabbs <> length primitives /\
    a = length aabbs /\ p = length primitives).
Proof.
  intros P aabb_of collect build given primitives a p. split.
  - destruct primitives as [|q ps]; [discriminate|]. unfold construct. destruct given as [aabbs|].
    + destruct (Nat.eqb_spec (length aabbs) (length (q :: ps))) as [E|E]; cbn [negb].
      * destruct (build aabbs (q :: ps)); discriminate.
      * intro X. injection X as <- <-. split; [discriminate|]. exists aabbs. auto.
    + destruct (build _ (q :: ps)); discriminate.
  - intros (Ne & aabbs & -> & L & -> & ->). destruct primitives as [|q ps]; [congruence|]. unfold construct.
    destruct (Nat.eqb_spec (length aabbs) (length (q :: ps))) as [E|E]; [contradiction|]. reflexivity.
Qed.

(** Otherwise the builder's own outcome is passed on (never an error value). *)
Theorem C11_otherwise : forall P (aabb_of : P -> aabb) collect build given primitives,
  primitives <> [] -> (forall aabbs, given = Some aabbs -> length aabbs = length primitives) ->
  exists aabbs, construct aabb_of collect build given primitives = (do b <- build aabbs primitives; Ok (ROk b)) /\
    (forall l, given = Some l -> aabbs = l) /\
    (given = None -> aabbs = collect (map aabb_of primitives)).
Proof.
  intros P aabb_of collect build given primitives Ne G. destruct primitives as [|q ps]; [congruence|].
  unfold construct. destruct given as [aabbs|].
  - rewrite (G aabbs eq_refl), Nat.eqb_refl. cbn [negb]. exists aabbs. split; auto. split; [congruence|discriminate].
  - eexists. split; [reflexivity|]. split; [discriminate|auto].
Qed.

(** The clustering builder behind the front end: with boxes of moderate size
    it returns a BVH over all primitives. *)
Theorem C11_locb : forall P (center_of : P -> vec3) aabb_of collect fuel threads given primitives,
  primitives <> [] -> (forall aabbs, given = Some aabbs -> length aabbs = length primitives) ->
  (forall l, Permutation (collect l) l) ->
  1 <= threads -> (Z.of_nat (3 * (2 * length primitives - 1)) < 4294967295)%Z -> length primitives <= fuel ->
  Forall (box_within f2p60) (match given with Some l => l | None => map aabb_of primitives end) ->
  exists b, construct_locb center_of aabb_of collect fuel threads given primitives = Ok (ROk b) /\
    valid_bvh (nodes b) (prim_indices b) (length primitives).
Proof.
  intros P center_of aabb_of collect fuel threads given primitives Ne G Cp T M F W.
  unfold construct_locb.
  destruct (C11_otherwise P aabb_of collect (fun aabbs ps => locb_build fuel threads aabbs (map center_of ps)) given primitives Ne G)
    as (aabbs & -> & H1 & H2).
  assert (length aabbs = length primitives /\ Forall (box_within f2p60) aabbs) as [L Wi].
  { destruct given as [l|].
    - rewrite (H1 l eq_refl). auto.
    - rewrite (H2 eq_refl). split; [rewrite (Permutation_length (Cp _)), map_length; auto|].
      eapply Permutation_Forall; [apply Permutation_sym, Cp|auto]. }
  assert (locb_input aabbs (map center_of primitives)) as I.
  { unfold locb_input. rewrite map_length, L. destruct primitives; [congruence|]. simpl length in *. repeat split; auto; lia. }
  destruct (C19_terminates fuel threads aabbs (map center_of primitives) I T Wi ltac:(lia)) as (b & E).
  exists b. rewrite E. split; auto. rewrite <- L. eapply C18_valid; eauto.
Qed.

(** ** C43 *)
(** Given AABBs are used as they are; if the parallel collection keeps the
    order, the i-th box is the i-th primitive's. *)
Theorem C43_ordered : forall P (aabb_of : P -> aabb) collect build primitives i p,
  (forall l, collect l = l) -> nth_error primitives i = Some p ->
  exists aabbs, construct aabb_of collect build None primitives = (do b <- build aabbs primitives; Ok (ROk b)) /\
    length aabbs = length primitives /\ nth_error aabbs i = Some (aabb_of p).
Proof.
  intros P aabb_of collect build primitives i p C E. exists (map aabb_of primitives).
  destruct primitives as [|q ps]; [destruct i; discriminate|]. unfold construct. rewrite C. split; auto.
  split; [apply map_length|]. apply map_nth_error; auto.
Qed.

(** Whatever the order: the AABBs used are those of the primitives, each once,
    the result is a BVH over all primitives, and its root contains the AABB of
    every primitive; every box encloses the AABBs that the builder was given
    for the primitives below it. *)
Theorem C43_any_order_locb : forall P (center_of : P -> vec3) aabb_of collect fuel threads primitives b,
  (forall l, Permutation (collect l) l) -> primitives <> [] -> 1 <= threads ->
  (Z.of_nat (3 * (2 * length primitives - 1)) < 4294967295)%Z ->
  Forall (fun p => box_ok (aabb_of p)) primitives ->
  construct_locb center_of aabb_of collect fuel threads None primitives = Ok (ROk b) ->
  valid_bvh (nodes b) (prim_indices b) (length primitives) /\
  exists aabbs t, Permutation aabbs (map aabb_of primitives) /\ repr (nodes b) t /\ t_idx t = 0 /\
    encloses aabbs (prim_indices b) t /\ forall p, In p primitives -> box_in (aabb_of p) (t_rec t).
Proof.
  intros P center_of aabb_of collect fuel threads primitives b Cp Ne T M Ok E.
  unfold construct_locb, construct in E. destruct primitives as [|q ps] eqn:Eps; [contradiction|]. rewrite <- Eps in *. clear Ne.
  set (aabbs := collect (map aabb_of primitives)) in *.
  destruct (locb_build fuel threads aabbs (map center_of primitives)) as [b'| | |] eqn:El; try discriminate E.
  cbn [bind] in E. assert (b' = b) as -> by congruence.
  pose proof (Cp (map aabb_of primitives)) as Pm. fold aabbs in Pm.
  assert (length aabbs = length primitives) as L by (rewrite (Permutation_length Pm); apply map_length).
  assert (locb_input aabbs (map center_of primitives)) as I.
  { repeat split; rewrite ?map_length, ?L; auto; rewrite Eps; simpl; lia. }
  assert (Forall box_ok aabbs) as Oa.
  { eapply Permutation_Forall; [symmetry; exact Pm|]. apply Forall_map. exact Ok. }
  split; [rewrite <- L; eapply C18_valid; eauto|].
  destruct (C21_encloses _ _ _ _ _ I T Oa El) as (t & Rp & T0 & Pp & En).
  exists aabbs, t. split; auto. split; auto. split; auto. split; auto. intros p Ip.
  assert (In (aabb_of p) aabbs) as Ia by (eapply Permutation_in; [symmetry; exact Pm|apply in_map; auto]).
  apply In_nth_error in Ia as (k & Ek).
  assert (k < length aabbs) by (apply nth_error_Some; congruence).
  assert (Forall (fun p => forall b, nth_error aabbs p = Some b -> box_in b (t_rec t)) (prims (prim_indices b) t)) as En1 by (destruct t; apply En).
  rewrite Forall_forall in En1.
  apply (En1 k); auto. eapply Permutation_in; [symmetry; exact Pp|]. apply in_seq. lia.
Qed.

(** [par_bridge] gives no such guarantee: a schedule that delivers the boxes in
    another order builds a tree in which a leaf's box misses its primitive. *)
Definition three (i : nat) : aabb :=
  match i with 0 => Bb (pt 0 0 0) 0 (pt 1 1 1) 0 | 1 => Bb (pt 10 0 0) 0 (pt 11 1 1) 0 | _ => Bb (pt 20 5 0) 0 (pt 21 6 1) 0 end.
Definition misses_own (b : bvh) : bool :=
  existsb (fun n => is_leaf n &&
    match nth_error (prim_indices b) (Z.to_nat (ex2 n)) with
    | Some p => flt (vx (bmin (three p))) (vx (bmin n)) || flt (vx (bmax n)) (vx (bmax (three p)))
    | None => false end) (nodes b).
Theorem C43_reordered_refuted : exists collect : list aabb -> list aabb,
  (forall l, Permutation (collect l) l) /\
  exists b, construct_locb (fun i => center (three i)) three collect 5 4 None [0; 1; 2] = Ok (ROk b) /\
    exists leaf p, In leaf (nodes b) /\ is_leaf leaf = true /\
      nth_error (prim_indices b) (Z.to_nat (ex2 leaf)) = Some p /\ ~ box_in (three p) leaf.
Proof.
  exists (@rev aabb). split; [intro l; apply Permutation_sym, Permutation_rev|].
  destruct (ok_with _ (construct_locb (fun i => center (three i)) three (@rev aabb) 5 4 None [0; 1; 2])
    (fun r => match r with ROk b => misses_own b | RErr _ => false end)) as (r & E & H); [vm_compute; reflexivity|].
  destruct r as [b|e]; [|discriminate]. exists b. split; auto. unfold misses_own in H.
  apply existsb_exists in H as (n & I & H). apply andb_true_iff in H as [L H]. 
  destruct (nth_error (prim_indices b) (Z.to_nat (ex2 n))) as [p|] eqn:Ep; [|discriminate].
  exists n, p. split; auto. split; auto. split; auto. intros [(A & _) (B & _)].
  apply orb_true_iff in H as [H|H]; [pose proof (fle_flt_false _ _ A)|pose proof (fle_flt_false _ _ B)]; congruence.
Qed.

(** ** C31 *)
(** Arrays [refit] can work on: a stored tree using every slot, parents before
    children (all builders allocate children after their parent). *)
Definition refittable (b : bvh) (t : tree) : Prop :=
  (Z.of_nat (length (nodes b)) <= 2147483648)%Z /\ (Z.of_nat (length (prim_indices b)) <= 2147483648)%Z /\
  repr (nodes b) t /\ t_idx t = 0 /\ Permutation (t_ids t) (seq 0 (length (nodes b))) /\ children_after t /\
  Forall (fun k => k < length (prim_indices b)) (positions t).

(** Boxes: [refit] returns, keeps [prim_indices] and the number of nodes, and
    the box at every node of the old tree contains the new AABBs of all
    primitives that were below it. *)
Theorem C31_boxes : forall b t new_aabbs,
  refittable b t -> Forall (fun p => p < length new_aabbs) (prims (prim_indices b) t) -> Forall box_ok new_aabbs ->
  exists b', refit b new_aabbs = Ok b' /\ prim_indices b' = prim_indices b /\ length (nodes b') = length (nodes b) /\
    forall s, subtree s t -> exists a, nth_error (nodes b') (t_idx s) = Some a /\
      forall p box, In p (prims (prim_indices b) s) -> nth_error new_aabbs p = Some box -> box_in box a.
Proof.
  intros [ns idx] t new_aabbs (Hn & Hi & Rp & T0 & Ids & Af & Ps) New Ok_. cbn [nodes prim_indices] in *.
  destruct (refit_ok ns idx new_aabbs t Rp Ids Af Hn Hi Ps New Ok_) as (b' & E & Ei & [Ln _ Nw]).
  exists b'. split; auto. split; auto. split; auto. intros s St.
  destruct (Nw s St ltac:(lia)) as (a & Ea & _ & H). exists a. split; auto.
  intros p box Ip Eb. rewrite Forall_forall in H. apply (H p); auto.
Qed.

(** Topology: it is lost.  Every node of the result is a leaf with count 0 and
    first index 0, so iterating the refitted BVH yields nothing, whatever the
    ray; yet [refit] was called on any BVH that [refit] accepts. *)
Theorem C31_topology_refuted : forall b new_aabbs b' C (client : C -> nat -> ray -> C * ray) c r fuel,
  refit b new_aabbs = Ok b' -> 2 <= fuel ->
  Forall (fun n => is_leaf n = true /\ ex1 n = 0%Z /\ ex2 n = 0%Z) (nodes b') /\
  iter_ray_indices (nodes b') (prim_indices b') client fuel c r = Ok ([], [r], c).
Proof.
  intros b new_aabbs b' C client c r fuel E L. apply refit_blank in E as (B & _ & _).
  split; [eapply Forall_impl; [|apply B]; intros n [E1 E2]; unfold is_leaf; rewrite E1; auto|].
  unfold iter_ray_indices, bvh_init. destruct fuel as [|[|k]]; try lia.
  destruct (ray_alive (nodes b') r) eqn:A; [|reflexivity].
  assert (exists n, nth_error (nodes b') 0 = Some n) as [n En].
  { unfold ray_alive in A. destruct (nodes b'); [discriminate|]. eexists; reflexivity. }
  assert (ex1 n = 0%Z) as E1 by (rewrite Forall_forall in B; apply (B n); eapply nth_error_In; eauto).
  cbn [bvh_run]. unfold bvh_turn at 1. cbn [b_sp b_stack b_i].
  replace (get_unchecked (repeat 0%Z 32) (as_usize 0)) with (@Ok Z 0%Z) by reflexivity. 
  change (0 <? 0)%Z with false. cbn [bind]. change (as_usize 0) with 0. unfold get_unchecked at 1. rewrite En. cbn [bind].
  unfold count_unchecked. rewrite E1. reflexivity.
Qed.

(** A clustering BVH is refittable, so the two theorems above are about every
    such BVH. *)
Theorem C31_locb : forall fuel threads aabbs centers b,
  locb_input aabbs centers -> 1 <= threads -> locb_build fuel threads aabbs centers = Ok b ->
  exists t, refittable b t /\ Permutation (prims (prim_indices b) t) (seq 0 (length aabbs)).
Proof.
  intros fuel threads aabbs centers b (L & N1 & M) T E.
  destruct (locb_sound 14 fuel threads aabbs centers b) as (t & Rp & T0 & Pi & P1 & P2 & Ln & _ & _ & Af & _); auto; [lia|].
  exists t. split.
  - unfold refittable. rewrite (Permutation_length P2), seq_length, Ln. split; [destruct (length aabbs <=? 2); lia|].
    split; [lia|]. split; [auto|]. split; [auto|]. split; [rewrite Ln in Pi; auto|]. split; [auto|].
    apply Forall_forall. intros k Ik. apply (Permutation_in _ P1) in Ik. apply in_seq in Ik.
    rewrite (Permutation_length P2), seq_length in Ik. lia.
  - unfold prims. eapply Permutation_trans; [apply Permutation_map, P1|]. rewrite map_nth_seq. auto.
Qed.

(** Hence: refitting a clustering BVH with one AABB per primitive never
    panics, encloses the moved primitives, and leaves a BVH that yields
    nothing to any ray although the unrefitted one holds all primitives. *)
Theorem C31_locb_refit_refuted : forall fuel threads aabbs centers b new_aabbs,
  locb_input aabbs centers -> 1 <= threads -> locb_build fuel threads aabbs centers = Ok b ->
  length new_aabbs = length aabbs -> Forall box_ok new_aabbs ->
  exists b', refit b new_aabbs = Ok b' /\
    (exists root, nth_error (nodes b') 0 = Some root /\ Forall (fun box => box_in box root) new_aabbs) /\
    forall r, iter_ray_indices (nodes b') (prim_indices b') (fun c _ r => (c, r)) 2 tt r = Ok ([], [r], tt).
Proof.
  intros fuel threads aabbs centers b new_aabbs I T E Ln Okn.
  destruct (C31_locb fuel threads aabbs centers b I T E) as (t & Rf & P).
  destruct (C31_boxes b t new_aabbs Rf) as (b' & Er & _ & _ & H); auto.
  { apply Forall_forall. intros p Ip. apply (Permutation_in _ P) in Ip. apply in_seq in Ip. lia. }
  exists b'. split; auto. split.
  - destruct (H t (st_self t)) as (a & Ea & Ha). destruct Rf as (_ & _ & _ & T0 & _). rewrite T0 in Ea.
    exists a. split; auto. apply Forall_forall. intros box Ib. apply In_nth_error in Ib as [p Ep].
    apply (Ha p); auto. apply (Permutation_in _ (Permutation_sym P)). apply in_seq.
    assert (p < length new_aabbs) by (apply nth_error_Some; congruence). lia.
  - intro r. eapply C31_topology_refuted; eauto.
Qed.

(** ** C32 *)
(** A stored tree whose leaf ranges fit [i32]. *)
Definition checkable (b : bvh) (t : tree) : Prop :=
  (Z.of_nat (length (nodes b)) <= 2147483648)%Z /\ repr (nodes b) t /\ t_idx t = 0 /\
  Forall (fun n => (0 < ex1 n)%Z -> (ex2 n + ex1 n <= 2147483648)%Z) (leaf_recs t).

(** [validate n] answers whether each id below [n] occurs in a leaf ... *)
Theorem C32_decides : forall b t n fuel, checkable b t -> depth t < fuel ->
  Forall (fun k => k < length (prim_indices b)) (positions t) -> Forall (fun p => p < n) (prims (prim_indices b) t) ->
  exists v, validate fuel b n = Ok v /\ (v = true <-> forall i, i < n -> In i (prims (prim_indices b) t)).
Proof.
  intros [ns idx] t n fuel (Hn & Rp & T0 & M) D Ps Pr. cbn [nodes prim_indices] in *.
  unfold validate. cbn [nodes]. pose proof (repr_idx _ _ Rp) as E0. rewrite T0 in E0. unfold get. rewrite E0. cbn [bind].
  destruct (check_tree ns idx Hn t fuel (repeat 0%Z n) D Rp M) as [[F E]|[F E]]; rewrite repeat_length in F.
  - rewrite E. cbn [bind]. eexists. split; [reflexivity|]. apply forallb_marks.
  - exfalso. apply F. apply Forall_forall. intros k Ik. rewrite Forall_forall in Ps, Pr.
    exists (nth k idx 0). split; [apply nth_error_nth'; auto|]. apply Pr. apply in_map_iff. eauto.
Qed.

(** ... and panics exactly on an empty BVH, a leaf position outside
    [prim_indices] or an id that is not below [n]. *)
Theorem C32_empty : forall fuel indices n, validate fuel (Bvh [] indices) n = Panic.
Proof. reflexivity. Qed.
Theorem C32_panics : forall b t n fuel, checkable b t -> depth t < fuel ->
  (validate fuel b n = Panic <->
   exists k, In k (positions t) /\
     (length (prim_indices b) <= k \/ exists p, nth_error (prim_indices b) k = Some p /\ n <= p)).
Proof.
  intros [ns idx] t n fuel (Hn & Rp & T0 & M) D. cbn [nodes prim_indices] in *.
  unfold validate. cbn [nodes]. pose proof (repr_idx _ _ Rp) as E0. rewrite T0 in E0. unfold get. rewrite E0. cbn [bind].
  destruct (check_tree ns idx Hn t fuel (repeat 0%Z n) D Rp M) as [[F E]|[F E]]; rewrite repeat_length in F; rewrite E; cbn [bind].
  - split; [discriminate|]. intros (k & Ik & [L|(p & Ep & L)]); exfalso; unfold fine in F; rewrite Forall_forall in F;
      destruct (F k Ik) as (p' & Ep' & Lp).
    + assert (k < length idx) by (apply nth_error_Some; congruence). lia.
    + rewrite Ep in Ep'. injection Ep' as <-. lia.
  - split; auto. intros _.
    assert (forall l, ~ Forall (fun k => exists p, nth_error idx k = Some p /\ p < n) l -> exists k, In k l /\
      (length idx <= k \/ exists p, nth_error idx k = Some p /\ n <= p)) as G.
    { induction l as [|k l IH]; intro X; [exfalso; apply X; constructor|].
      destruct (nth_error idx k) as [p|] eqn:Ep.
      - destruct (Nat.lt_ge_cases p n) as [Lp|Lp].
        + destruct IH as (k' & I' & H'); [|exists k'; split; [right|]; auto].
          intro Y. apply X. constructor; eauto.
        + exists k. split; [left; auto|]. right. eauto.
      - exists k. split; [left; auto|]. left. apply nth_error_None; auto. }
    apply G. exact F.
Qed.

(** Every valid BVH validates with its own primitive count. *)
Theorem C32_valid : forall b n, valid_bvh (nodes b) (prim_indices b) n ->
  (Z.of_nat (length (nodes b)) <= 2147483648)%Z -> (Z.of_nat n <= 2147483648)%Z ->
  exists fuel0, forall fuel, fuel0 <= fuel -> validate fuel b n = Ok true.
Proof.
  intros b n (t & Rp & T0 & Ids & P1 & P2) Hn Hi. exists (S (depth t)). intros fuel L.
  assert (Permutation (prims (prim_indices b) t) (seq 0 n)) as P.
  { unfold prims. eapply Permutation_trans; [apply Permutation_map, P1|]. rewrite map_nth_seq. auto. }
  assert (length (prim_indices b) = n) as Ll by (rewrite (Permutation_length P2); apply seq_length).
  destruct (C32_decides b t n fuel) as (v & E & H).
  - split; [auto|]. split; [auto|]. split; [auto|].
    assert (Forall (fun k => k < n) (positions t)) as Q.
    { apply Forall_forall. intros k Ik. apply (Permutation_in _ P1) in Ik. apply in_seq in Ik. lia. }
    clear - Q Hi Rp. induction t as [i m|i m l IHl r IHr]; cbn [leaf_recs positions repr] in *.
    + constructor; auto. destruct Rp as (_ & C0 & L0). intro Nz.
      rewrite Forall_forall in Q. specialize (Q (Z.to_nat (ex2 m) + Z.to_nat (ex1 m) - 1)).
      unfold leaf_positions in Q. rewrite in_seq in Q. lia.
    + apply Forall_app in Q as [Ql Qr]. apply Forall_app. split; [apply IHl|apply IHr]; tauto.
  - lia.
  - apply Forall_forall. intros k Ik. apply (Permutation_in _ P1) in Ik. apply in_seq in Ik. lia.
  - apply Forall_forall. intros p Ip. apply (Permutation_in _ P) in Ip. apply in_seq in Ip. lia.
  - rewrite E. f_equal. apply H. intros i Li. apply (Permutation_in _ (Permutation_sym P)). apply in_seq. lia.
Qed.

Theorem C32_locb : forall fuel threads aabbs centers b,
  locb_input aabbs centers -> 1 <= threads -> locb_build fuel threads aabbs centers = Ok b ->
  exists fuel0, forall fuel', fuel0 <= fuel' -> validate fuel' b (length aabbs) = Ok true.
Proof.
  intros fuel threads aabbs centers b I T E. pose proof (C18_node_count _ _ _ _ _ I T E) as (Ln & _).
  apply C32_valid; [eapply C18_valid; eauto| |]; destruct I as (L & N1 & M); [|lia].
  rewrite Ln. destruct (length aabbs <=? 2); lia.
Qed.

(** ** C24 for trees built by clustering *)
(** Up to 32 primitives every traversal of a clustering BVH ends without
    panic, whatever the boxes, the ray and the client. *)
Theorem C24_locb_up_to_32 : forall fuel threads aabbs centers b C (client : C -> nat -> ray -> C * ray) c r,
  locb_input aabbs centers -> 1 <= threads -> locb_build fuel threads aabbs centers = Ok b -> length aabbs <= 32 ->
  exists out, iter_ray_indices (nodes b) (prim_indices b) client (length (nodes b) + length (prim_indices b) + 1) c r = Ok out.
Proof.
  intros fuel threads aabbs centers b C client c r I T E L32.
  pose proof (C18_node_count _ _ _ _ _ I T E) as (Ln & Lp & _).
  apply (C24_up_to_32_leaves C (nodes b) (prim_indices b) (length aabbs)).
  - eapply C18_valid; eauto.
  - rewrite Ln. destruct (Nat.leb_spec (length aabbs) 2); lia.
  - rewrite Lp. lia.
Qed.

(** With 33 primitives the 32-entry stack overflows: nested boxes that double
    in size make a chain-shaped tree, and a ray that hits all of them pushes
    one sibling per level. *)
Definition chain_box (k : nat) : aabb :=
  let s := fz (2 ^ Z.of_nat k) in
  Bb (V3 (fdiv (fz (Z.of_nat k)) (fz 100)) (fneg s) (fneg s)) 0 (V3 s s s) 0.
Definition chain_boxes : list aabb := map chain_box (seq 0 33).
Definition chain_ray : ray := ray_new (V3 (fdiv (fz 9) (fz 10)) fhalf fhalf) (V3 (fz (-1)) f0 f0).
Definition is_panic {A} (r : res A) : bool := match r with Panic => true | _ => false end.
Lemma is_panic_eq : forall A (r : res A), is_panic r = true -> r = Panic.
Proof. intros A [| | |]; simpl; congruence. Qed.

Theorem C24_deep_tree_refuted : locb_input chain_boxes (map center chain_boxes) /\ Forall box_ok chain_boxes /\
  exists b, locb_build 33 1 chain_boxes (map center chain_boxes) = Ok b /\
   iter_ray_indices (nodes b) (prim_indices b) (fun c _ r => (c, r)) 200 tt chain_ray = Panic.
Proof.
  split; [unfold locb_input, chain_boxes; rewrite !map_length, seq_length; lia|].
  split; [unfold chain_boxes; apply Forall_forall; intros x I; apply in_map_iff in I as (k & <- & I);
          apply in_seq in I; do 33 (destruct k as [|k]; [vm_compute; repeat split; reflexivity|]); lia|].
  destruct (ok_with _ (locb_build 33 1 chain_boxes (map center chain_boxes))
    (fun b => is_panic (iter_ray_indices (nodes b) (prim_indices b) (fun c _ r => (c, r)) 200 tt chain_ray))) as (b & E & H).
  - vm_compute. reflexivity.
  - exists b. split; auto. apply is_panic_eq, H.
Qed.

(** ** Concrete cases *)
(** The tree of [ex_nodes] is refittable and checkable; its refit is defined. *)
Definition ex_bvh : bvh := Bvh ex_nodes ex_indices.
Definition ex_new : list aabb := map (fun k => Bb (pt k 0 0) 0 (pt (k + 1) 1 1) 0) [7; 5; 3; 1]%Z.
Example C31_nonvacuous : refittable ex_bvh ex_tree /\ checkable ex_bvh ex_tree /\
  Forall (fun p => p < length ex_new) (prims (prim_indices ex_bvh) ex_tree) /\ Forall box_ok ex_new /\
  Forall (fun k => k < length (prim_indices ex_bvh)) (positions ex_tree).
Proof.
  split; [|split; [|split; [|split]]].
  - unfold refittable, ex_bvh. cbn [nodes prim_indices]. split; [simpl; lia|]. split; [simpl; lia|].
    split; [repeat split; simpl; try lia; auto|]. split; [auto|]. split; [simpl; apply Permutation_refl|].
    split; [simpl; lia|]. repeat constructor.
  - unfold checkable, ex_bvh. cbn [nodes]. split; [simpl; lia|]. split; [repeat split; simpl; try lia; auto|].
    split; auto. simpl. repeat constructor; simpl; lia.
  - repeat constructor.
  - unfold ex_new; simpl map; repeat constructor; vm_compute; reflexivity.
  - repeat constructor.
Qed.
Example C32_nonvacuous : validate 3 ex_bvh 4 = Ok true /\ validate 3 ex_bvh 5 = Ok false /\ validate 3 ex_bvh 3 = Panic.
Proof. repeat split. Qed.
Example C11_nonvacuous : exists b,
  construct_locb (fun i => center (three i)) three (fun l => l) 5 4 (Some (map three [0; 1; 2])) [0; 1; 2] = Ok (ROk b) /\
  misses_own b = false.
Proof.
  destruct (ok_with _ (construct_locb (fun i => center (three i)) three (fun l => l) 5 4 (Some (map three [0; 1; 2])) [0; 1; 2])
    (fun r => match r with ROk b => negb (misses_own b) | RErr _ => false end)) as (r & E & H); [vm_compute; reflexivity|].
  destruct r as [b|e]; [|discriminate]. exists b. split; auto. apply negb_true_iff; auto.
Qed.
