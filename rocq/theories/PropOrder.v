(** * Property C74: the order in which traversals hand out primitives *)
Require Import List ZArith Bool Lia Permutation Arith.
From Verif Require Import F32 Vec RayModel AabbModel Base NodeModel IterModel SpecGeom SpecTree SpecTraverse IterProofs TraverseProofs
  PropBox PropTraverse LocbModel MbvhModel SpecMbvh MbvhProofs MbvhMerge MbvhClient PropMbvh SpecOrder OrderProofs.
Import ListNotations.

(** ** Binary trees

    Whatever the loop body does, a traversal is the walk of SpecOrder.v: it
    hands out exactly those primitives in exactly that order, and leaves the
    client's state and the ray as the walk does. *)
Theorem C74_ray_indices : forall C nodes indices t (client : C -> nat -> ray -> C * ray) fuel c r,
  traversable nodes indices t -> vok (r_origin r) -> vok (r_dir r) -> enough t fuel ->
  exists ps rays c', iter_ray_indices nodes indices client fuel c r = Ok (ps, rays, c') /\
    ray_walk indices client t (c, r) = (ps, (c', last rays r)).
Proof.
  intros C nodes indices t client fuel c r (Hn & Hi & Rp & T0 & D & F) Vo Vd E.
  unfold iter_ray_indices. rewrite (alive_ray nodes t r) by auto.
  apply init_walk; auto. eapply Forall_impl; [|apply F]. simpl. auto.
Qed.

Theorem C74_ray_prims : forall C nprims nodes indices t (client : C -> nat -> ray -> C * ray) fuel c r,
  traversable nodes indices t -> vok (r_origin r) -> vok (r_dir r) -> enough t fuel ->
  nprims <> 0 -> Forall (fun p => p < nprims) (prims indices t) ->
  exists ps rays c', iter_ray_prims nprims nodes indices client fuel c r = Ok (ps, rays, c') /\
    ray_walk indices client t (c, r) = (ps, (c', last rays r)).
Proof.
  intros C nprims nodes indices t client fuel c r (Hn & Hi & Rp & T0 & D & F) Vo Vd E Nz P.
  unfold iter_ray_prims. rewrite (alive_ray nodes t r) by auto.
  replace (nprims =? 0) with false by (symmetry; apply Nat.eqb_neq; auto). simpl negb. simpl andb.
  apply init_walk; auto.
  rewrite Forall_forall in *. intros k Ik. split; auto. apply Nat.ltb_lt. apply P.
  unfold prims. apply in_map_iff. eauto.
Qed.

Theorem C74_packet_indices : forall C nodes indices t (client : C -> nat -> packet -> C * packet) fuel c p,
  traversable nodes indices t -> packet_alive nodes p = true -> enough t fuel ->
  exists ps packets c', iter_packet_indices nodes indices client fuel c p = Ok (ps, packets, c') /\
    packet_walk indices client t (c, p) = (ps, (c', last packets p)).
Proof.
  intros C nodes indices t client fuel c r (Hn & Hi & Rp & T0 & D & F) A E.
  unfold iter_packet_indices. rewrite A.
  apply (init_walk packet vec4 intersect4 (fun a b => many (wcmp flt a b))); auto.
  eapply Forall_impl; [|apply F]. simpl. auto.
Qed.

Theorem C74_packet_prims : forall C nprims nodes indices t (client : C -> nat -> packet -> C * packet) fuel c p,
  traversable nodes indices t -> packet_alive nodes p = true -> enough t fuel ->
  nprims <> 0 -> Forall (fun p => p < nprims) (prims indices t) ->
  exists ps packets c', iter_packet_prims nprims nodes indices client fuel c p = Ok (ps, packets, c') /\
    packet_walk indices client t (c, p) = (ps, (c', last packets p)).
Proof.
  intros C nprims nodes indices t client fuel c r (Hn & Hi & Rp & T0 & D & F) A E Nz P.
  unfold iter_packet_prims. rewrite A.
  replace (nprims =? 0) with false by (symmetry; apply Nat.eqb_neq; auto). simpl negb. simpl andb.
  apply (init_walk packet vec4 intersect4 (fun a b => many (wcmp flt a b))); auto.
  rewrite Forall_forall in *. intros k Ik. split; auto. apply Nat.ltb_lt. apply P.
  unfold prims. apply in_map_iff. eauto.
Qed.

(** ** 4-wide trees *)
Section Run.
  Variable R : Type.
  Variable inter : mnode -> R -> mhit.
  Variable qh : R -> box -> bool.
  Hypothesis inter_result : forall m r k, k < 4 -> mget (h_result (inter m r)) k = qh r (lane_box m k).
  Hypothesis inter_ids : forall m r, Permutation (h_ids (inter m r)) [0; 1; 2; 3].

  Lemma quad_order : forall C found mb ns indices n t near_first (client : C -> nat -> R -> C * R) fuel c r,
    made_from mb ns indices n t -> depth t <= 22 -> quad_enough mb fuel ->
    (forall p, p < n -> found p = true) ->
    (forall i m r, nth_error (m_nodes mb) i = Some m -> near_first i r = h_ids (inter m r)) ->
    exists mt ps rays c',
      quad_tree (m_nodes mb) mt /\ same_leaves mt t /\
      mbvh_run R inter found (m_nodes mb) (mb_indices mb) C client fuel c r (mbvh_init R inter (m_nodes mb) r)
        = Ok (ps, rays, c') /\
      qwalk qh near_first indices client mt (c, r) = (ps, (c', last rays r)).
  Proof.
    intros C found mb ns indices n t near_first client fuel c r Hm D Fu Hf Hnear.
    destruct (made_stores _ _ _ _ _ Hm) as (mt & St & Ei & Sm). destruct Hm as [(A & B & Cc & Dd & E & F & G & H & I) _].
    pose proof St as (S1 & S2 & S3 & S4 & S5 & S6 & S7). rewrite Ei in *. unfold quad_enough in Fu. rewrite Ei in Fu.
    assert (forall k, k < length indices -> found (nth k indices 0) = true) as AF.
    { intros k Lk. apply Hf.
      assert (In (nth k indices 0) (seq 0 n)) as X by (apply (Permutation_in _ E); apply nth_In; auto).
      apply in_seq in X. lia. }
    destruct (qinit_walk R inter qh inter_result inter_ids found (m_nodes mb) indices C client Sm H AF near_first Hnear mt fuel c r)
      as (ps & rs & c' & rf & E1 & E2); auto.
    - assert (Nat.max 4 (S (depth t)) <= 23) by lia. lia.
    - assert (Forall (leaf_fine found indices) (mleaves mt)) as LF.
      { eapply stores_leaf_fine; eauto. apply Forall_forall. intros k Ik.
        assert (k < length indices) as Lk by (apply (Permutation_in _ Dd) in Ik; apply in_seq in Ik; lia). auto. }
      eapply Forall_impl; [|exact LF]. intros l (L1 & L2 & L3). split; [auto|]. split; [auto|]. intros k Hk. apply L3; auto.
    - eapply Nat.le_trans; [|exact Fu]. apply (stores_weight (m_nodes mb) mt t); auto.
      rewrite (Permutation_length Dd), seq_length. auto.
    - exists mt, ps, rs, c'. destruct (stores_quad _ _ _ St) as [Q1 Q2].
      split; [auto|]. split; [auto|]. split; [exact E1|].
      destruct (mrun_fold R inter found (m_nodes mb) indices C client _ _ _ _ _ _ _ E1) as (rs' & _ & X).
      pose proof (qwalk_fold R qh indices C client near_first mt (c, r) ps (c', rf) E2) as Y. cbn [fst snd] in Y.
      rewrite E2. f_equal. congruence.
  Qed.
End Run.

Theorem C74_quad_ray_indices : forall C mb ns indices n t (client : C -> nat -> ray -> C * ray) fuel c r,
  made_from mb ns indices n t -> depth t <= 22 -> quad_enough mb fuel ->
  exists mt ps rays c', quad_tree (m_nodes mb) mt /\ same_leaves mt t /\
    miter_ray_indices (m_nodes mb) (mb_indices mb) client fuel c r = Ok (ps, rays, c') /\
    ray_qwalk (m_nodes mb) indices client mt (c, r) = (ps, (c', last rays r)).
Proof.
  intros. eapply (quad_order ray m_intersect qhit m_intersect_result m_intersect_ids); eauto.
  intros i m r' E. unfold ray_order. rewrite E. reflexivity.
Qed.

Theorem C74_quad_ray_prims : forall C mb ns indices n t (client : C -> nat -> ray -> C * ray) fuel c r,
  made_from mb ns indices n t -> depth t <= 22 -> quad_enough mb fuel ->
  exists mt ps rays c', quad_tree (m_nodes mb) mt /\ same_leaves mt t /\
    miter_ray_prims n (m_nodes mb) (mb_indices mb) client fuel c r = Ok (ps, rays, c') /\
    ray_qwalk (m_nodes mb) indices client mt (c, r) = (ps, (c', last rays r)).
Proof.
  intros. eapply (quad_order ray m_intersect qhit m_intersect_result m_intersect_ids); eauto.
  - intros p L. apply Nat.ltb_lt. auto.
  - intros i m r' E. unfold ray_order. rewrite E. reflexivity.
Qed.

Theorem C74_quad_packet_indices : forall C mb ns indices n t (client : C -> nat -> packet -> C * packet) fuel c p,
  made_from mb ns indices n t -> depth t <= 22 -> quad_enough mb fuel ->
  exists mt ps packets c', quad_tree (m_nodes mb) mt /\ same_leaves mt t /\
    miter_packet_indices (m_nodes mb) (mb_indices mb) client fuel c p = Ok (ps, packets, c') /\
    packet_qwalk indices client mt (c, p) = (ps, (c', last packets p)).
Proof.
  intros. eapply (quad_order packet m_intersect4 qhit4 m_intersect4_result); eauto.
Qed.

Theorem C74_quad_packet_prims : forall C mb ns indices n t (client : C -> nat -> packet -> C * packet) fuel c p,
  made_from mb ns indices n t -> depth t <= 22 -> quad_enough mb fuel ->
  exists mt ps packets c', quad_tree (m_nodes mb) mt /\ same_leaves mt t /\
    miter_packet_prims n (m_nodes mb) (mb_indices mb) client fuel c p = Ok (ps, packets, c') /\
    packet_qwalk indices client mt (c, p) = (ps, (c', last packets p)).
Proof.
  intros. eapply (quad_order packet m_intersect4 qhit4 m_intersect4_result); eauto.
  intros q L. apply Nat.ltb_lt. auto.
Qed.

(** ** Not front to back

    Two leaves one behind the other: both traversals hand out the farther
    primitive first (box 0 is entered at about 5, box 1 at about 15). *)
Definition two_nodes : list aabb :=
  [Bb (pt 0 0 0) (-1) (pt 4 4 11) 1; Bb (pt 0 0 0) 1 (pt 4 4 1) 0; Bb (pt 0 0 10) 1 (pt 4 4 11) 1].
Definition two_tree : tree :=
  TNode 0 (Bb (pt 0 0 0) (-1) (pt 4 4 11) 1) (TLeaf 1 (Bb (pt 0 0 0) 1 (pt 4 4 1) 0)) (TLeaf 2 (Bb (pt 0 0 10) 1 (pt 4 4 11) 1)).
Definition ahead : ray := ray_new (pt 1 1 (-5)) (V3 (fdiv f1 (fz 1000)) (fdiv f1 (fz 1000)) f1).

Definition sooner_than (b1 b2 : aabb) (r : ray) : bool :=
  match intersect b1 r, intersect b2 r with Some x, Some y => flt x y | _, _ => false end.
Definition far_first (x : res (list nat * list ray * unit)) : bool :=
  match x with Ok ([1; 0], _, tt) => true | _ => false end.
Lemma far_first_ok : forall x, far_first x = true -> exists rays, x = Ok ([1; 0], rays, tt).
Proof.
  intros [[[ps rs] []]| | |] H; try discriminate. unfold far_first in H.
  destruct ps as [|[|[|?]] [|[|?] [|? ?]]]; try discriminate. eauto.
Qed.

Lemma two_binary : binary two_nodes [0; 1] 2 two_tree.
Proof.
  unfold binary. split; [repeat split; simpl; try lia; auto|]. split; [reflexivity|].
  split; [apply Permutation_refl|]. split; [apply Permutation_refl|]. split; [apply Permutation_refl|].
  split; [lia|]. split; [simpl; lia|]. split; [simpl; lia|]. unfold i32_nodes, two_nodes. repeat constructor; simpl; lia.
Qed.
Lemma two_traversable : traversable two_nodes [0; 1] two_tree.
Proof.
  destruct two_binary as (B1 & B2 & _). repeat split; simpl; try lia; auto. repeat constructor.
Qed.
Lemma two_valid : valid_bvh two_nodes [0; 1] 2.
Proof. destruct two_binary as (B1 & B2 & B3 & B4 & B5 & _). exists two_tree. auto. Qed.
Lemma two_mbvh : exists mb, mbvh_construct 30 (Bvh two_nodes [0; 1]) = Ok mb /\
  far_first (miter_ray_indices (m_nodes mb) (mb_indices mb) (fun c _ r => (c, r)) 50 tt ahead) = true.
Proof.
  apply (ok_with _ (mbvh_construct 30 (Bvh two_nodes [0; 1])) (fun mb =>
    far_first (miter_ray_indices (m_nodes mb) (mb_indices mb) (fun c _ r => (c, r)) 50 tt ahead))).
  vm_compute. reflexivity.
Qed.
Lemma two_far : far_first (iter_ray_indices two_nodes [0; 1] (fun c _ r => (c, r)) 50 tt ahead) = true.
Proof. vm_compute. reflexivity. Qed.
Lemma two_sooner : sooner_than (Bb (pt 0 0 0) 1 (pt 4 4 1) 0) (Bb (pt 0 0 10) 1 (pt 4 4 11) 1) ahead = true.
Proof. vm_compute. reflexivity. Qed.
Lemma ahead_ok : vok (r_origin ahead) /\ vok (r_dir ahead).
Proof. split; repeat split; vm_compute; reflexivity. Qed.

Theorem C74_front_to_back_refuted : exists ns t mb b0 b1,
  valid_bvh ns [0; 1] 2 /\ traversable ns [0; 1] t /\ made_from mb ns [0; 1] 2 t /\
  leaf_recs t = [b0; b1] /\ leaf_prims [0; 1] b0 = [0] /\ leaf_prims [0; 1] b1 = [1] /\
  vok (r_origin ahead) /\ vok (r_dir ahead) /\ sooner_than b0 b1 ahead = true /\
  (exists rays, iter_ray_indices ns [0; 1] (fun c _ r => (c, r)) 50 tt ahead = Ok ([1; 0], rays, tt)) /\
  (exists rays, miter_ray_indices (m_nodes mb) (mb_indices mb) (fun c _ r => (c, r)) 50 tt ahead = Ok ([1; 0], rays, tt)).
Proof.
  destruct two_mbvh as (mb & E & H). destruct ahead_ok as (O & D).
  exists two_nodes, two_tree, mb, (Bb (pt 0 0 0) 1 (pt 4 4 1) 0), (Bb (pt 0 0 10) 1 (pt 4 4 11) 1).
  split; [exact two_valid|]. split; [exact two_traversable|].
  split; [split; [exact two_binary|exists 30; split; [simpl; lia|left; exact E]]|].
  split; [reflexivity|]. split; [reflexivity|]. split; [reflexivity|].
  split; [exact O|]. split; [exact D|]. split; [exact two_sooner|].
  split; [exact (far_first_ok _ two_far)|exact (far_first_ok _ H)].
Qed.

(** The hypotheses are met (for 4-wide trees see also [C27_nonvacuous]); this
    walk visits a BVH of four primitives back to front: the leaf entered last
    ([2]), the leaf before it ([0]) and the nearest leaf ([3] and [1]). *)
Definition diagonal : ray := ray_new (pt (-5) (-5) (-5)) (pt 1 1 1).
Example C74_nonvacuous : traversable ex_nodes ex_indices ex_tree /\ enough ex_tree 10 /\
  vok (r_origin diagonal) /\ vok (r_dir diagonal) /\
  fst (ray_walk ex_indices (fun (c : unit) _ r => (c, r)) ex_tree (tt, diagonal)) = [2; 0; 3; 1].
Proof.
  destruct C23_nonvacuous as (A & B & _). split; [exact A|]. split; [exact B|].
  split; [repeat split; vm_compute; reflexivity|]. split; [repeat split; vm_compute; reflexivity|].
  vm_compute. reflexivity.
Qed.
