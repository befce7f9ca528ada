(** * Properties C26, C27, C28: 4-wide BVHs *)
Require Import List ZArith Bool Lia Permutation Arith.
Require Import Reals.
From Verif Require Import F32 F32Facts Vec RayModel AabbModel Base NodeModel IterModel LocbModel SpecGeom SpecTree SpecTraverse
  IterProofs TraverseProofs ClosestProofs MbvhModel SpecMbvh MbvhProofs MbvhMerge MbvhClient PropBox.
Import ListNotations.
Local Open Scope nat_scope.

(** A binary BVH over [n >= 1] primitives (as in [valid_bvh], with its tree
    named) whose node indices and first indices fit [i32]. *)
Definition binary (ns : list aabb) (indices : list nat) (n : nat) (t : tree) : Prop :=
  repr ns t /\ t_idx t = 0 /\ Permutation (t_ids t) (seq 0 (length ns)) /\
  Permutation (positions t) (seq 0 (length indices)) /\ Permutation indices (seq 0 n) /\ 1 <= n /\
  (Z.of_nat (length ns) <= 2147483648)%Z /\ (Z.of_nat (length indices) <= 2147483648)%Z /\ i32_nodes ns.

(** [mt] is the 4-wide tree rooted at node 0 of the array. *)
Definition quad_tree (ms : list mnode) (mt : mtree) : Prop :=
  mrepr ms mt /\ (exists b c0 c1 c2 c3, mt = MNode b 0 c0 c1 c2 c3).

(** The leaves of [mt] are those of the binary tree, left to right, and each
    box on the way to a leaf is one of the boxes on the way to it in [t]. *)
Definition same_leaves (mt : mtree) (t : tree) : Prop :=
  Forall2 (fun q b => fst q = fst b /\ incl (snd q) (snd b)) (mpaths mt) (tpaths t).

(** ** C26 *)
Theorem C26_construct : forall b n t fuel,
  binary (nodes b) (prim_indices b) n t -> length (nodes b) <= fuel ->
  exists mb mt, mbvh_construct fuel b = Ok mb /\
    mb_nodes mb = nodes b /\ mb_indices mb = prim_indices b /\
    quad_tree (m_nodes mb) mt /\ Permutation (m_ids mt) (seq 0 (length (m_nodes mb))) /\
    length (m_nodes mb) <= length (nodes b) /\ same_leaves mt t.
Proof.
  intros b n t fuel (A & B & C & D & E & F & G & H & I) Fu.
  destruct (construct_ok b n t fuel) as (mb & mt & X1 & X2 & X3 & X4 & X5 & X5q & X6 & (S1 & S2 & S3 & S4 & S5 & S6 & S7)); auto.
  exists mb, mt. split; [auto|]. split; [auto|]. split; [auto|]. split.
  { split; auto. destruct mt; try contradiction. simpl in S2. subst. eauto 10. }
  split; [rewrite X5; apply Permutation_refl|]. auto.
Qed.

Theorem C26_construct_from_raw : forall ns indices n t fuel,
  binary ns indices n t -> length ns <= fuel ->
  exists mb mt, mbvh_from_raw fuel ns indices = Ok mb /\
    mb_nodes mb = ns /\ mb_indices mb = indices /\
    quad_tree (m_nodes mb) mt /\ NoDup (m_ids mt) /\ length (m_nodes mb) = length ns /\ same_leaves mt t.
Proof.
  intros ns indices n t fuel (A & B & C & D & E & F & G & H & I) Fu.
  destruct (from_raw_ok ns indices n t fuel) as (mb & mt & X1 & X2 & X3 & X4 & X4q & (S1 & S2 & S3 & S4 & S5 & S6 & S7)); auto.
  exists mb, mt. split; [auto|]. split; [auto|]. split; [auto|]. split.
  { split; auto. destruct mt; try contradiction. simpl in S2. subst. eauto 10. }
  auto.
Qed.

(** In particular the multiset (even the sequence) of leaf ranges is kept. *)
Theorem C26_leaf_ranges : forall mt t, same_leaves mt t ->
  mleaves mt = map (fun n => (ex2 n, ex1 n)) (leaf_recs t).
Proof. intros mt t F. apply follows_leaves. exact F. Qed.

(** [bounds()] of the result is the box of the binary root. *)
Theorem C26_bounds : forall b fuel mb, mbvh_construct fuel b = Ok mb -> nodes_bounds (mb_nodes mb) = nodes_bounds (nodes b).
Proof.
  intros b fuel mb E. unfold mbvh_construct in E. destruct (nodes b) as [|x l] eqn:En.
  - injection E as <-. reflexivity.
  - rewrite <- En in *. destruct (merge_nodes fuel (nodes b) 0 0 (repeat mnode_new (length (nodes b))) 1) as [[pool ptr]| | |];
      try discriminate. cbn [bind] in E. injection E as <-. reflexivity.
Qed.

(** ** C27 *)
(** [mb] was made from the binary BVH by [construct] (or [From]) or by
    [construct_from_raw]. *)
Definition made_from (mb : mbvh) (ns : list aabb) (indices : list nat) (n : nat) (t : tree) : Prop :=
  binary ns indices n t /\ exists fuel, length ns <= fuel /\
    (mbvh_construct fuel (Bvh ns indices) = Ok mb \/ mbvh_from_raw fuel ns indices = Ok mb).

Lemma made_stores : forall mb ns indices n t, made_from mb ns indices n t ->
  exists mt, stores (m_nodes mb) mt t /\ mb_indices mb = indices /\ (Z.of_nat (length (m_nodes mb)) <= 2147483648)%Z.
Proof.
  intros mb ns indices n t ((A & B & C & D & E & F & G & H & I) & fuel & Fu & Hm). destruct Hm as [Hm|Hm].
  - destruct (construct_ok (Bvh ns indices) n t fuel) as (mb' & mt & X1 & X2 & X3 & X4 & X5 & X5q & X6 & S); auto.
    rewrite Hm in X1. injection X1 as <-. exists mt. split; auto. split; auto. cbn [nodes] in X4. lia.
  - destruct (from_raw_ok ns indices n t fuel) as (mb' & mt & X1 & X2 & X3 & X4 & X4q & S); auto.
    rewrite Hm in X1. injection X1 as <-. exists mt. split; auto. split; auto. lia.
Qed.

Definition quad_enough (mb : mbvh) (fuel : nat) : Prop := 5 * length (m_nodes mb) + length (mb_indices mb) <= fuel.

(** Clients that do nothing to the ray but lower [t]. *)
Definition lowers_ray {C} (client : C -> nat -> ray -> C * ray) : Prop :=
  forall c p r, exists t, snd (client c p r) = ray_set_t r t /\ (t = r_t r \/ fle t (r_t r) = true).

Lemma stores_quad : forall ms mt t, stores ms mt t -> quad_tree ms mt /\ same_leaves mt t.
Proof.
  intros ms mt t (S1 & S2 & S3 & S4 & S5 & S6 & S7). split; auto. split; auto.
  destruct mt; try contradiction. simpl in S2. subst. eauto 10.
Qed.

Section Run.
  Variable R : Type.
  Variable inter : mnode -> R -> mhit.
  Variable qh : R -> box -> bool.
  Hypothesis inter_result : forall m r k, k < 4 -> mget (h_result (inter m r)) k = qh r (lane_box m k).
  Hypothesis inter_ids : forall m r, Permutation (h_ids (inter m r)) [0; 1; 2; 3].

  (** Any client, both kinds of iterator. *)
  Lemma quad_any : forall C found mb ns indices n t (client : C -> nat -> R -> C * R) fuel c r,
    made_from mb ns indices n t -> depth t <= 22 -> quad_enough mb fuel ->
    (forall p, p < n -> found p = true) ->
    exists mt leaves rays c',
      quad_tree (m_nodes mb) mt /\ same_leaves mt t /\
      mbvh_run R inter found (m_nodes mb) (mb_indices mb) C client fuel c r (mbvh_init R inter (m_nodes mb) r)
        = Ok (flat_map (range_prims indices) leaves, r :: rays, c') /\
      submset (mreached (fun b => forallb (fun r' => qh r' b) (r :: rays)) mt) leaves /\
      submset leaves (mreached (fun b => existsb (fun r' => qh r' b) (r :: rays)) mt) /\
      client_fold client (flat_map (range_prims indices) leaves) c r = (c', last (r :: rays) r).
  Proof.
    intros C found mb ns indices n t client fuel c r Hm D Fu Hf.
    destruct (made_stores _ _ _ _ _ Hm) as (mt & St & Ei & Sm). destruct Hm as [(A & B & Cc & Dd & E & F & G & H & I) _].
    pose proof St as (S1 & S2 & S3 & S4 & S5 & S6 & S7). rewrite Ei in *. unfold quad_enough in Fu. rewrite Ei in Fu.
    destruct (minit_spec R inter qh inter_result inter_ids found (m_nodes mb) indices C client Sm) with (t := mt) (fuel := fuel) (c := c) (r := r)
      as (rs & c' & ls & E1 & E2 & E3); auto.
    - assert (Nat.max 4 (S (depth t)) <= 23) by lia. lia.
    - eapply stores_leaf_fine; eauto. apply Forall_forall. intros k Ik.
      assert (k < length indices) as Lk by (apply (Permutation_in _ Dd) in Ik; apply in_seq in Ik; lia).
      split; auto. apply Hf.
      assert (In (nth k indices 0) (seq 0 n)) as X by (apply (Permutation_in _ E); apply nth_In; auto).
      apply in_seq in X. lia.
    - eapply Nat.le_trans; [|exact Fu]. apply (stores_weight (m_nodes mb) mt t); auto.
      rewrite (Permutation_length Dd), seq_length. auto.
    - exists mt, ls, rs, c'. destruct (stores_quad _ _ _ St) as [Q1 Q2].
      split; [auto|]. split; [auto|]. split; [exact E1|]. split; [exact E2|]. split; [exact E3|].
      destruct (mrun_fold R inter found (m_nodes mb) indices C client _ _ _ _ _ _ _ E1) as (rs' & _ & X). exact X.
  Qed.

  (** Clients that only ever lower [t]: [below a b] is "as [b], with lower t". *)
  Variable below : R -> R -> Prop.
  Hypothesis below_trans : forall a b c, below a b -> below b c -> below a c.
  Hypothesis below_self : forall a b, below a b -> below a a.
  Hypothesis below_hit : forall a b x, below a b -> qh a x = true -> qh b x = true.

  Lemma quad_lower : forall C found mb ns indices n t (client : C -> nat -> R -> C * R) fuel c r,
    made_from mb ns indices n t -> depth t <= 22 -> quad_enough mb fuel ->
    (forall p, p < n -> found p = true) ->
    (forall c p r, below (snd (client c p r)) r) -> below r r ->
    exists mt leaves rays c',
      quad_tree (m_nodes mb) mt /\ same_leaves mt t /\
      mbvh_run R inter found (m_nodes mb) (mb_indices mb) C client fuel c r (mbvh_init R inter (m_nodes mb) r)
        = Ok (flat_map (range_prims indices) leaves, rays, c') /\
      submset (map fst (filter (fun x => forallb (qh (last rays r)) (snd x)) (tpaths t))) leaves /\
      submset (mreached (qh (last rays r)) mt) leaves /\
      submset leaves (mreached (qh r) mt) /\
      client_fold client (flat_map (range_prims indices) leaves) c r = (c', last rays r).
  Proof.
    intros C found mb ns indices n t client fuel c r Hm D Fu Hf Lo Br.
    destruct (quad_any C found mb ns indices n t client fuel c r Hm D Fu Hf) as (mt & ls & rs & c' & Q1 & Q2 & E & S1 & S2 & Fo).
    destruct (mrun_rays R inter found (m_nodes mb) (mb_indices mb) C client (fun x => below x r) (fun x y => below y x))
      with (fuel := fuel) (c := c) (r := r) (s := mbvh_init R inter (m_nodes mb) r) (ps := flat_map (range_prims indices) ls)
         (rs := r :: rs) (c' := c') as (A & L & Q); auto.
    { intros c0 p0 r0 B. eapply below_trans; [apply Lo|auto]. }
    { intros c0 p0 r0 r' B B' Q'. eapply below_trans; [apply Q'|]. apply Lo. }
    { intros r0 B. eapply below_self; eauto. }
    assert (submset (mreached (qh (last (r :: rs) r)) mt) ls) as Sub.
    { eapply submset_trans; [|apply S1]. apply mreached_mono. intros b Hb. apply forallb_forall. intros x Ix.
      rewrite Forall_forall in Q. apply (below_hit (last (r :: rs) r) x); auto. }
    exists mt, ls, (r :: rs), c'. split; [auto|]. split; [auto|]. split; [exact E|]. split; [|split; [auto|split; [|exact Fo]]].
    - eapply submset_trans; [|apply Sub]. apply follows_reached. exact Q2.
    - eapply submset_trans; [apply S2|]. apply mreached_mono. intros b Hb. apply existsb_exists in Hb as (x & Ix & Hx).
      rewrite Forall_forall in A. apply (below_hit x r); auto.
  Qed.

  (** The same when primitives may be missing: each visited leaf stops at the
      first missing one. *)
  Lemma quad_short : forall C found mb ns indices n t (client : C -> nat -> R -> C * R) fuel c r,
    made_from mb ns indices n t -> depth t <= 22 -> quad_enough mb fuel ->
    exists mt leaves rays c',
      quad_tree (m_nodes mb) mt /\ same_leaves mt t /\
      mbvh_run R inter found (m_nodes mb) (mb_indices mb) C client fuel c r (mbvh_init R inter (m_nodes mb) r)
        = Ok (flat_map (fun l => before_missing found (range_prims indices l)) leaves, r :: rays, c') /\
      submset (mreached (fun b => forallb (fun r' => qh r' b) (r :: rays)) mt) leaves /\
      submset leaves (mreached (fun b => existsb (fun r' => qh r' b) (r :: rays)) mt).
  Proof.
    intros C found mb ns indices n t client fuel c r Hm D Fu.
    destruct (made_stores _ _ _ _ _ Hm) as (mt & St & Ei & Sm). destruct Hm as [(A & B & Cc & Dd & E & F & G & H & I) _].
    pose proof St as (S1 & S2 & S3 & S4 & S5 & S6 & S7). rewrite Ei in *. unfold quad_enough in Fu. rewrite Ei in Fu.
    destruct (minit_short R inter qh inter_result inter_ids found (m_nodes mb) indices C client Sm) with (t := mt) (fuel := fuel) (c := c) (r := r)
      as (rs & c' & ls & E1 & E2 & E3); auto.
    - assert (Nat.max 4 (S (depth t)) <= 23) by lia. lia.
    - assert (Forall (leaf_fine (fun _ => true) indices) (mleaves mt)) as X.
      { eapply stores_leaf_fine; eauto. apply Forall_forall. intros k Ik.
        assert (k < length indices) as Lk by (apply (Permutation_in _ Dd) in Ik; apply in_seq in Ik; lia). auto. }
      eapply Forall_impl; [|apply X]. intros l (X1 & X2 & X3). split; auto. split; auto. intros k Hk. apply X3; auto.
    - eapply Nat.le_trans; [|exact Fu]. apply (stores_weight (m_nodes mb) mt t); auto.
      rewrite (Permutation_length Dd), seq_length. auto.
    - exists mt, ls, rs, c'. destruct (stores_quad _ _ _ St) as [Q1 Q2].
      split; [auto|]. split; [auto|]. split; [exact E1|]. split; [exact E2|exact E3].
  Qed.
  Lemma quad_lower_short : forall C found mb ns indices n t (client : C -> nat -> R -> C * R) fuel c r,
    made_from mb ns indices n t -> depth t <= 22 -> quad_enough mb fuel ->
    (forall c p x, below (snd (client c p x)) x) -> below r r ->
    exists mt leaves rays c',
      quad_tree (m_nodes mb) mt /\ same_leaves mt t /\
      mbvh_run R inter found (m_nodes mb) (mb_indices mb) C client fuel c r (mbvh_init R inter (m_nodes mb) r)
        = Ok (flat_map (fun l => before_missing found (range_prims indices l)) leaves, rays, c') /\
      submset (map fst (filter (fun x => forallb (qh (last rays r)) (snd x)) (tpaths t))) leaves /\
      submset leaves (mreached (qh r) mt).
  Proof.
    intros C found mb ns indices n t client fuel c r Hm D Fu Lo Br.
    destruct (quad_short C found mb ns indices n t client fuel c r Hm D Fu) as (mt & ls & rs & c' & Q1 & Q2 & E & S1 & S2).
    destruct (mrun_rays R inter found (m_nodes mb) (mb_indices mb) C client (fun x => below x r) (fun x y => below y x))
      with (fuel := fuel) (c := c) (r := r) (s := mbvh_init R inter (m_nodes mb) r)
         (ps := flat_map (fun l => before_missing found (range_prims indices l)) ls)
         (rs := r :: rs) (c' := c') as (A & L & Q); auto.
    { intros c0 p0 r0 B. eapply below_trans; [apply Lo|auto]. }
    { intros c0 p0 r0 r' B B' Q'. eapply below_trans; [apply Q'|]. apply Lo. }
    { intros r0 B. eapply below_self; eauto. }
    assert (submset (mreached (qh (last (r :: rs) r)) mt) ls) as Sub.
    { eapply submset_trans; [|apply S1]. apply mreached_mono. intros b Hb. apply forallb_forall. intros x Ix.
      rewrite Forall_forall in Q. apply (below_hit (last (r :: rs) r) x); auto. }
    exists mt, ls, (r :: rs), c'. split; [auto|]. split; [auto|]. split; [exact E|]. split.
    - eapply submset_trans; [|apply Sub]. apply follows_reached. exact Q2.
    - eapply submset_trans; [apply S2|]. apply mreached_mono. intros b Hb. apply existsb_exists in Hb as (x & Ix & Hx).
      rewrite Forall_forall in A. apply (below_hit x r); auto.
  Qed.
End Run.

Definition ray_below (a b : ray) : Prop := exists t, a = ray_set_t b t /\ (t = r_t b \/ fle t (r_t b) = true).
Lemma ray_below_trans : forall a b c, ray_below a b -> ray_below b c -> ray_below a c.
Proof.
  intros a b c (t & -> & L) (t' & -> & L'). exists t. split; auto. cbn [r_t ray_set_t] in *.
  destruct L as [-> |L]; auto. destruct L' as [<- |L']; auto. right. eapply fle_trans; eauto.
Qed.
Lemma ray_below_self : forall a b, ray_below a b -> ray_below a a.
Proof. intros a b (t & -> & L). exists t. split; auto. Qed.
Lemma qhit_lower : forall a b x, ray_below a b -> qhit a x = true -> qhit b x = true.
Proof.
  intros a b x (t & -> & L) H. unfold qhit in *. cbn [r_origin r_inv r_t ray_set_t] in H.
  rewrite !andb_true_iff in *. destruct H as [H1 H2]. split; auto. destruct L as [-> |L]; auto.
  eapply flt_le_trans; eauto.
Qed.
Lemma ray_set_same : forall r, r = ray_set_t r (r_t r).
Proof. intros []. reflexivity. Qed.

(** Clients that lower [ray.t]: every leaf all of whose boxes in the binary
    tree are hit by the ray as it is at the end is visited (and so is every
    leaf reached in the 4-wide tree); only leaves reached by the ray as given
    are; each at most once ([submset] counts); the loop ends normally. *)
Theorem C27_ray_indices : forall C mb ns indices n t (client : C -> nat -> ray -> C * ray) fuel c r,
  made_from mb ns indices n t -> depth t <= 22 -> quad_enough mb fuel ->
  lowers_ray client ->
  exists mt leaves rays c',
    quad_tree (m_nodes mb) mt /\ same_leaves mt t /\
    miter_ray_indices (m_nodes mb) (mb_indices mb) client fuel c r = Ok (flat_map (range_prims indices) leaves, rays, c') /\
    submset (map fst (filter (fun x => forallb (qhit (last rays r)) (snd x)) (tpaths t))) leaves /\
    submset (mreached (qhit (last rays r)) mt) leaves /\
    submset leaves (mreached (qhit r) mt) /\
    client_fold client (flat_map (range_prims indices) leaves) c r = (c', last rays r).
Proof.
  intros. apply (quad_lower ray m_intersect qhit m_intersect_result m_intersect_ids ray_below
    ray_below_trans ray_below_self qhit_lower C (fun _ => true) mb ns indices n t); auto.
  exists (r_t r). split; [apply ray_set_same|auto].
Qed.
Theorem C27_ray_prims : forall C mb ns indices n t (client : C -> nat -> ray -> C * ray) fuel c r,
  made_from mb ns indices n t -> depth t <= 22 -> quad_enough mb fuel ->
  lowers_ray client ->
  exists mt leaves rays c',
    quad_tree (m_nodes mb) mt /\ same_leaves mt t /\
    miter_ray_prims n (m_nodes mb) (mb_indices mb) client fuel c r = Ok (flat_map (range_prims indices) leaves, rays, c') /\
    submset (map fst (filter (fun x => forallb (qhit (last rays r)) (snd x)) (tpaths t))) leaves /\
    submset (mreached (qhit (last rays r)) mt) leaves /\
    submset leaves (mreached (qhit r) mt) /\
    client_fold client (flat_map (range_prims indices) leaves) c r = (c', last rays r).
Proof.
  intros. apply (quad_lower ray m_intersect qhit m_intersect_result m_intersect_ids ray_below
    ray_below_trans ray_below_self qhit_lower C (fun p => p <? n) mb ns indices n t); auto.
  - intros p L. apply Nat.ltb_lt. auto.
  - exists (r_t r). split; [apply ray_set_same|auto].
Qed.

(** Packets. *)
Definition packet_below (a b : packet) : Prop := exists t, a = packet_set_t b t /\ wle t (p_t b).
Lemma packet_below_trans : forall a b c, packet_below a b -> packet_below b c -> packet_below a c.
Proof. intros a b c (t & -> & L) (t' & -> & L'). exists t. split; auto. eapply wle_trans; eauto. Qed.
Lemma packet_below_self : forall a b, packet_below a b -> packet_below a a.
Proof. intros a b (t & -> & L). exists t. split; auto. apply wle_refl. Qed.
Lemma qhit4_lower : forall a b x, packet_below a b -> qhit4 a x = true -> qhit4 b x = true.
Proof.
  intros a b x (t & -> & (A & B & C & D)) H. unfold qhit4 in *. rewrite !orb_true_iff in *.
  unfold qhit_lane in *. change (lane_origin (packet_set_t b t)) with (lane_origin b) in H.
  change (lane_inv (packet_set_t b t)) with (lane_inv b) in H. cbn [p_t packet_set_t wget] in *.
  rewrite !andb_true_iff in *.
  destruct H as [[[[X Y]|[X Y]]|[X Y]]|[X Y]]; [left; left; left|left; left; right|left; right|right];
    split; auto; eapply flt_at_most; eauto.
Qed.
Lemma packet_set_same : forall p, p = packet_set_t p (p_t p).
Proof. intros []. reflexivity. Qed.
Lemma m_intersect4_ids : forall m p, Permutation (h_ids (m_intersect4 m p)) [0; 1; 2; 3].
Proof. intros. apply Permutation_refl. Qed.

Theorem C27_packet_indices : forall C mb ns indices n t (client : C -> nat -> packet -> C * packet) fuel c p,
  made_from mb ns indices n t -> depth t <= 22 -> quad_enough mb fuel ->
  lowers_t client ->
  exists mt leaves ps c',
    quad_tree (m_nodes mb) mt /\ same_leaves mt t /\
    miter_packet_indices (m_nodes mb) (mb_indices mb) client fuel c p = Ok (flat_map (range_prims indices) leaves, ps, c') /\
    submset (map fst (filter (fun x => forallb (qhit4 (last ps p)) (snd x)) (tpaths t))) leaves /\
    submset (mreached (qhit4 (last ps p)) mt) leaves /\
    submset leaves (mreached (qhit4 p) mt) /\
    client_fold client (flat_map (range_prims indices) leaves) c p = (c', last ps p).
Proof.
  intros. apply (quad_lower packet m_intersect4 qhit4 m_intersect4_result m_intersect4_ids packet_below
    packet_below_trans packet_below_self qhit4_lower C (fun _ => true) mb ns indices n t); auto.
  exists (p_t p). split; [apply packet_set_same|apply wle_refl].
Qed.
Theorem C27_packet_prims : forall C mb ns indices n t (client : C -> nat -> packet -> C * packet) fuel c p,
  made_from mb ns indices n t -> depth t <= 22 -> quad_enough mb fuel ->
  lowers_t client ->
  exists mt leaves ps c',
    quad_tree (m_nodes mb) mt /\ same_leaves mt t /\
    miter_packet_prims n (m_nodes mb) (mb_indices mb) client fuel c p = Ok (flat_map (range_prims indices) leaves, ps, c') /\
    submset (map fst (filter (fun x => forallb (qhit4 (last ps p)) (snd x)) (tpaths t))) leaves /\
    submset (mreached (qhit4 (last ps p)) mt) leaves /\
    submset leaves (mreached (qhit4 p) mt) /\
    client_fold client (flat_map (range_prims indices) leaves) c p = (c', last ps p).
Proof.
  intros. apply (quad_lower packet m_intersect4 qhit4 m_intersect4_result m_intersect4_ids packet_below
    packet_below_trans packet_below_self qhit4_lower C (fun p => p <? n) mb ns indices n t); auto.
  - intros q L. apply Nat.ltb_lt. auto.
  - exists (p_t p). split; [apply packet_set_same|apply wle_refl].
Qed.

(** For every client whatsoever, ray or packet, the loop ends and stays inside
    the stack. *)
Theorem C27_terminates : forall C mb ns indices n t (client : C -> nat -> ray -> C * ray) fuel c r,
  made_from mb ns indices n t -> depth t <= 22 -> quad_enough mb fuel ->
  exists out, miter_ray_indices (m_nodes mb) (mb_indices mb) client fuel c r = Ok out.
Proof.
  intros. destruct (quad_any ray m_intersect qhit m_intersect_result m_intersect_ids C (fun _ => true) mb ns indices n t client fuel c r)
    as (mt & ls & rs & c' & _ & _ & E & _); auto. eexists. exact E.
Qed.
Theorem C27_packet_terminates : forall C mb ns indices n t (client : C -> nat -> packet -> C * packet) fuel c p,
  made_from mb ns indices n t -> depth t <= 22 -> quad_enough mb fuel ->
  exists out, miter_packet_indices (m_nodes mb) (mb_indices mb) client fuel c p = Ok out.
Proof.
  intros. destruct (quad_any packet m_intersect4 qhit4 m_intersect4_result m_intersect4_ids C (fun _ => true) mb ns indices n t client fuel c p)
    as (mt & ls & rs & c' & _ & _ & E & _); auto. eexists. exact E.
Qed.

(** ** C30 for 4-wide BVHs *)
(** A slice of [m] primitives, shorter than the BVH's or not: the loop ends,
    and in each visited leaf it yields the primitives that precede the first
    missing one; the visited leaves are as in C27. *)
Theorem C30_mbvh_ray : forall C m mb ns indices n t (client : C -> nat -> ray -> C * ray) fuel c r,
  made_from mb ns indices n t -> depth t <= 22 -> quad_enough mb fuel -> lowers_ray client ->
  exists mt leaves rays c',
    quad_tree (m_nodes mb) mt /\ same_leaves mt t /\
    miter_ray_prims m (m_nodes mb) (mb_indices mb) client fuel c r =
      Ok (flat_map (fun l => before_missing (fun p => p <? m) (range_prims indices l)) leaves, rays, c') /\
    submset (map fst (filter (fun x => forallb (qhit (last rays r)) (snd x)) (tpaths t))) leaves /\
    submset leaves (mreached (qhit r) mt).
Proof.
  intros. apply (quad_lower_short ray m_intersect qhit m_intersect_result m_intersect_ids ray_below
    ray_below_trans ray_below_self qhit_lower C (fun p => p <? m) mb ns indices n t); auto.
  exists (r_t r). split; [apply ray_set_same|auto].
Qed.
Theorem C30_mbvh_packet : forall C m mb ns indices n t (client : C -> nat -> packet -> C * packet) fuel c p,
  made_from mb ns indices n t -> depth t <= 22 -> quad_enough mb fuel -> lowers_t client ->
  exists mt leaves ps c',
    quad_tree (m_nodes mb) mt /\ same_leaves mt t /\
    miter_packet_prims m (m_nodes mb) (mb_indices mb) client fuel c p =
      Ok (flat_map (fun l => before_missing (fun q => q <? m) (range_prims indices l)) leaves, ps, c') /\
    submset (map fst (filter (fun x => forallb (qhit4 (last ps p)) (snd x)) (tpaths t))) leaves /\
    submset leaves (mreached (qhit4 p) mt).
Proof.
  intros. apply (quad_lower_short packet m_intersect4 qhit4 m_intersect4_result m_intersect4_ids packet_below
    packet_below_trans packet_below_self qhit4_lower C (fun p => p <? m) mb ns indices n t); auto.
  exists (p_t p). split; [apply packet_set_same|apply wle_refl].
Qed.

(** Closest-hit search through an Mbvh equals brute force, provided a
    primitive met at distance [d] lies in its boxes: they pass the box test
    for every [ray.t] beyond [d]. *)
Theorem C27_closest_hit : forall mb ns indices n t dist r fuel,
  made_from mb ns indices n t -> depth t <= 22 -> quad_enough mb fuel ->
  flt f0 (r_t r) = true -> (forall p d, dist p = Some d -> flt f0 d = true) ->
  (forall p d x b, dist p = Some d -> In x (tpaths t) -> In p (range_prims indices (fst x)) -> In b (snd x) ->
     forall t', flt d t' = true -> qhit (ray_set_t r t') b = true) ->
  exists ps rays, miter_ray_prims n (m_nodes mb) (mb_indices mb) (closest_body dist) fuel tt r = Ok (ps, rays, tt) /\
    last rays r = snd (client_fold (closest_body dist) (seq 0 n) tt r).
Proof.
  intros mb ns indices n t dist r fuel Hm D Fu Pt Pd HB.
  assert (fnan (r_t r) = false) as Nt by (apply flt_notnan in Pt; tauto).
  assert (forall p d, dist p = Some d -> fnan d = false) as Nd.
  { intros p d E. apply Pd in E. apply flt_notnan in E; tauto. }
  destruct (C27_ray_prims unit mb ns indices n t (closest_body dist) fuel tt r) as (mt & ls & rs & c' & Q1 & Q2 & E & S0 & S1 & S2 & Fo); auto.
  { intros c p r0. unfold closest_body. destruct (dist p) as [d|]; [destruct (flt d (r_t r0)) eqn:L|]; cbn [snd].
    - exists d. split; auto. right. apply flt_fle; auto.
    - exists (r_t r0). split; [apply ray_set_same|auto].
    - exists (r_t r0). split; [apply ray_set_same|auto]. }
  destruct c'. exists (flat_map (range_prims indices) ls), rs. split; [exact E|].
  destruct (closest_fold dist (flat_map (range_prims indices) ls) r Nt Nd) as ([t1 E1] & N1 & G1 & L1 & B1).
  destruct (closest_fold dist (seq 0 n) r Nt Nd) as ([t2 E2] & N2 & G2 & L2 & B2).
  rewrite <- (f_equal snd Fo : snd (client_fold _ _ _ _) = last rs r).
  pose proof (f_equal snd Fo : snd (client_fold _ _ _ _) = last rs r) as El.
  set (r1 := snd (client_fold (closest_body dist) (flat_map (range_prims indices) ls) tt r)) in *.
  set (r2 := snd (client_fold (closest_body dist) (seq 0 n) tt r)) in *.
  destruct Hm as [(A & B & Cc & Dd & Ee & F & G & H & I) _].
  (* where primitive p is stored *)
  assert (forall p, In p (seq 0 n) -> exists x, In x (tpaths t) /\ In p (range_prims indices (fst x))) as Where.
  { intros p Ip. apply (Permutation_in _ (Permutation_sym Ee)) in Ip. apply In_nth with (d := 0) in Ip as (k & Lk & Ek).
    assert (In k (positions t)) as Ik by (apply (Permutation_in _ (Permutation_sym Dd)); apply in_seq; lia).
    rewrite positions_leaves in Ik. apply in_flat_map in Ik as (nn & Inn & Ik).
    apply (in_map (fun n => (ex2 n, ex1 n))) in Inn. rewrite <- tpaths_leaves in Inn. apply in_map_iff in Inn as (x & Ex & Ix).
    exists x. split; auto. rewrite Ex. unfold range_prims. cbn [fst snd]. apply in_map_iff. exists k. split; auto. }
  assert (r_t r1 = r_t r2) as T.
  { assert (fle (r_t r2) (r_t r1) = true) as Y.
    { destruct G1 as [-> |(p & d & Ip & Q & ->)]; auto. apply (B2 p); auto.
      apply in_flat_map in Ip as (l & Il & Ip).
      assert (In l (map fst (mpaths mt))) as Il'.
      { rewrite <- mleaves_paths. eapply submset_in; [|apply Il]. eapply submset_trans; [apply S2|].
        rewrite mreached_paths, mleaves_paths. apply (submset_trans _ _ (map fst (filter (fun _ => true) (mpaths mt)))).
        - apply submset_filter. auto.
        - replace (filter (fun _ => true) (mpaths mt)) with (mpaths mt); [apply submset_refl|].
          clear. induction (mpaths mt); simpl; congruence. }
      rewrite <- mleaves_paths, (C26_leaf_ranges mt t Q2) in Il'. apply in_map_iff in Il' as (nn & <- & Inn).
      unfold range_prims in Ip. apply in_map_iff in Ip as (k & <- & Ik). cbn [fst snd] in Ik.
      assert (In k (positions t)) as Ik'.
      { rewrite positions_leaves. apply in_flat_map. exists nn. split; auto. }
      apply (Permutation_in _ Dd) in Ik'. apply in_seq in Ik'.
      apply (Permutation_in _ Ee). apply nth_In. lia. }
    assert (fle (r_t r1) (r_t r2) = true) as X.
    { destruct G2 as [-> |(p & d & Ip & Q & ->)]; auto.
      destruct (fle (r_t r1) d) eqn:Le; auto. exfalso.
      assert (flt d (r_t r1) = true) as Lt.
      { apply flt_spec; eauto. apply Rnot_le_lt. intro Hc. apply fle_spec in Hc; eauto. congruence. }
      destruct (Where p Ip) as (x & Ix & Px).
      assert (In p (flat_map (range_prims indices) ls)) as Il.
      { apply in_flat_map. exists (fst x). split; auto. eapply submset_in; [apply S0|].
        apply in_map. apply filter_In. split; auto. apply forallb_forall. intros b Ib.
        rewrite <- El, E1. apply (HB p d x b); auto. rewrite E1 in Lt. exact Lt. }
      rewrite (B1 p d Il Q) in Le. discriminate. }
    assert (flt f0 (r_t r1) = true) as P.
    { destruct G1 as [-> |(p & d & Ip & Q & ->)]; eauto. }
    apply fr_inj; auto.
    - apply fle_spec in X; auto. apply fle_spec in Y; auto. Lra.lra.
    - apply flt_spec in P; auto. simpl in P. Lra.lra. }
  rewrite E1, E2 in *. cbn [r_t ray_set_t] in T. subst; auto.
Qed.

(** ** Limits of C27 *)
(** A binary BVH of depth 23 whose 4-wide form has 12 levels: eleven levels of
    full 4-wide nodes, the deep one always in slot 0.  Every box is the same. *)
Section Deep.
  Variable lo hi : vec3.
  Definition inner (l : nat) : aabb := Bb lo (-1) hi (Z.of_nat l).
  Definition leaf1 (p : nat) : aabb := Bb lo 1 hi (Z.of_nat p).
  (** Level [j]: twelve nodes at [12 * j + 1 ..]. *)
  Definition deep_level (j : nat) : list aabb :=
    let o := 12 * j + 1 in
    [inner (o + 2); inner (o + 4); inner (o + 12); inner (o + 6); inner (o + 8); inner (o + 10);
     leaf1 (6 * j); leaf1 (6 * j + 1); leaf1 (6 * j + 2); leaf1 (6 * j + 3); leaf1 (6 * j + 4); leaf1 (6 * j + 5)].
  Definition deep_nodes (k : nat) : list aabb :=
    inner 1 :: flat_map deep_level (seq 0 k) ++ [leaf1 (6 * k); leaf1 (6 * k + 1)].
  Definition pair_tree (i l p : nat) : tree := TNode i (inner l) (TLeaf l (leaf1 p)) (TLeaf (l + 1) (leaf1 (p + 1))).
  Fixpoint deep_tree (k j : nat) (i : nat) : tree :=
    let o := 12 * j + 1 in
    match k with
    | 0 => pair_tree i o (6 * j)
    | S k => TNode i (inner o)
               (TNode o (inner (o + 2)) (deep_tree k (S j) (o + 2)) (pair_tree (o + 3) (o + 6) (6 * j)))
               (TNode (o + 1) (inner (o + 4)) (pair_tree (o + 4) (o + 8) (6 * j + 2)) (pair_tree (o + 5) (o + 10) (6 * j + 4)))
    end.
End Deep.
Definition deep_indices (k : nat) : list nat := seq 0 (6 * k + 2).

(** Boolean permutation test for lists of numbers. *)
Fixpoint remove1 (a : nat) (l : list nat) : option (list nat) :=
  match l with
  | [] => None
  | x :: l => if x =? a then Some l else match remove1 a l with Some l' => Some (x :: l') | None => None end
  end.
Fixpoint permb (a b : list nat) : bool :=
  match a with
  | [] => match b with [] => true | _ => false end
  | x :: a => match remove1 x b with Some b' => permb a b' | None => false end
  end.
Lemma remove1_perm : forall a l l', remove1 a l = Some l' -> Permutation (a :: l') l.
Proof.
  intros a l; induction l as [|x l IH]; intros l' H; simpl in H; [discriminate|].
  destruct (Nat.eqb_spec x a) as [-> |N]; [injection H as <-; auto|].
  destruct (remove1 a l) as [m|]; [|discriminate]. injection H as <-.
  eapply Permutation_trans; [apply perm_swap|]. constructor. auto.
Qed.
Lemma permb_perm : forall a b, permb a b = true -> Permutation a b.
Proof.
  intros a; induction a as [|x a IH]; intros b H; simpl in H.
  - destruct b; [constructor|discriminate].
  - destruct (remove1 x b) as [b'|] eqn:E; [|discriminate]. apply remove1_perm in E.
    eapply Permutation_trans; [|exact E]. constructor. auto.
Qed.

Lemma deep_binary : forall lo hi, binary (deep_nodes lo hi 11) (deep_indices 11) 68 (deep_tree lo hi 11 0 0).
Proof.
  intros lo hi. unfold binary. split.
  { vm_compute. repeat split; try reflexivity; try discriminate. }
  split; [reflexivity|].
  split; [apply permb_perm; vm_compute; reflexivity|].
  split; [apply permb_perm; vm_compute; reflexivity|].
  split; [apply Permutation_refl|]. split; [lia|]. split; [vm_compute; discriminate|]. split; [vm_compute; discriminate|].
  unfold i32_nodes. apply Forall_forall. intros x Ix.
  assert (forallb (fun n => (ex2 n <? 2147483648)%Z) (deep_nodes lo hi 11) = true) as G by (vm_compute; reflexivity).
  rewrite forallb_forall in G. apply Z.ltb_lt. auto.
Qed.
Lemma deep_depth : forall lo hi, depth (deep_tree lo hi 11 0 0) = 23.
Proof. intros. vm_compute. reflexivity. Qed.

Definition unit_ray : ray := ray_new (V3 fhalf fhalf (fz (-5))) (V3 f0 f0 f1).
Definition unit_packet : packet :=
  let o := V4 fhalf fhalf (fz (-5)) f0 in let d := V4 f0 f0 f1 f0 in packet_new o o o o d d d d.

Definition ends_ub {A} (r : res A) : bool := match r with UB => true | _ => false end.
Lemma ends_ub_eq : forall A (r : res A), ends_ub r = true -> r = UB.
Proof. intros A [| | |]; auto; discriminate. Qed.
Lemma ok_with : forall A (r : res A) (f : A -> bool), (match r with Ok a => f a | _ => false end) = true ->
  exists a, r = Ok a /\ f a = true.
Proof. intros A [a| | |] f H; try discriminate. eauto. Qed.

(** One level more than the theorems above allow: the unchecked stack write
    of the iterator goes out of bounds (undefined behaviour), for a ray and for
    a packet that hit every box. *)
Theorem C27_deep_refuted : exists ns indices t mb,
  made_from mb ns indices 68 t /\ depth t = 23 /\
  miter_ray_indices (m_nodes mb) (mb_indices mb) (fun c _ r => (c, r)) 500 tt unit_ray = UB /\
  miter_packet_indices (m_nodes mb) (mb_indices mb) (fun c _ r => (c, r)) 500 tt unit_packet = UB.
Proof.
  exists (deep_nodes (pt 0 0 0) (pt 1 1 1) 11), (deep_indices 11), (deep_tree (pt 0 0 0) (pt 1 1 1) 11 0 0).
  destruct (ok_with _ (mbvh_construct 135 (Bvh (deep_nodes (pt 0 0 0) (pt 1 1 1) 11) (deep_indices 11)))
    (fun mb => ends_ub (miter_ray_indices (m_nodes mb) (mb_indices mb) (fun c _ r => (c, r)) 500 tt unit_ray) &&
               ends_ub (miter_packet_indices (m_nodes mb) (mb_indices mb) (fun c _ r => (c, r)) 500 tt unit_packet)))
    as (mb & E & H); [vm_compute; reflexivity|].
  apply andb_true_iff in H as [H1 H2].
  exists mb. split.
  { split; [apply deep_binary|]. exists 135. split; [vm_compute; lia|left; exact E]. }
  split; [apply deep_depth|]. split; apply ends_ub_eq; auto.
Qed.

(** The iterator over an Mbvh without nodes reads out of bounds. *)
Theorem C27_empty_refuted : forall C indices (client : C -> nat -> ray -> C * ray) fuel c r,
  mbvh_construct fuel (Bvh [] []) = Ok (Mbvh [] [] []) /\
  miter_ray_indices [] indices client (S fuel) c r = UB.
Proof. intros. split; reflexivity. Qed.

(** ** C28 *)
(** Slots are reported once each; [result] flags slot [k] exactly if the slab
    interval of its box is non-empty and starts before [ray.t]. *)
Theorem C28_ids : forall m r, Permutation (h_ids (m_intersect m r)) [0; 1; 2; 3].
Proof. exact m_intersect_ids. Qed.
Theorem C28_result : forall m r k, k < 4 ->
  mget (h_result (m_intersect m r)) k = qhit r (lane_box m k).
Proof. exact m_intersect_result. Qed.
Theorem C28_packet_result : forall m p k, k < 4 ->
  h_ids (m_intersect4 m p) = [0; 1; 2; 3] /\
  (mget (h_result (m_intersect4 m p)) k = true <-> exists i, i < 4 /\ qhit_lane p i (lane_box m k) = true).
Proof.
  intros m p k K. split; [reflexivity|]. rewrite m_intersect4_result by auto. unfold qhit4. rewrite !orb_true_iff. split.
  - intros [[[H|H]|H]|H]; [exists 0|exists 1|exists 2|exists 3]; split; auto; lia.
  - intros (i & I & H). do 4 (destruct i as [|i]; [tauto|]). lia.
Qed.

(** The first slot is nearest and the last farthest. *)
Definition near (m : mnode) (r : ray) (k : nat) : f32 := slab_near (lane_box m k) (r_origin r) (r_inv r).
Lemma order_first_last : forall t : vec4, fnan (wx t) = false -> fnan (wy t) = false -> fnan (wz t) = false -> fnan (ww t) = false ->
  forall k, k < 4 -> fle (wget t (nth 0 (order_ids t) 0)) (wget t k) = true /\ fle (wget t k) (wget t (nth 3 (order_ids t) 0)) = true.
Proof.
  intros [a b c d]. cbn [wx wy wz ww]. intros Na Nb Nc Nd k K.
  assert (forall x y : f32, fnan x = false -> fnan y = false -> if fgt x y then (fr y <= fr x)%R else (fr x <= fr y)%R) as G.
  { intros x y X Y. change (fgt x y) with (flt y x). destruct (flt y x) eqn:E.
    - apply flt_spec in E; auto. Lra.lra.
    - apply flt_false in E; auto. }
  unfold order_ids. cbn [wx wy wz ww].
  pose proof (G a b Na Nb). pose proof (G c d Nc Nd).
  pose proof (G a c Na Nc). pose proof (G a d Na Nd). pose proof (G b c Nb Nc). pose proof (G b d Nb Nd).
  assert (k = 0 \/ k = 1 \/ k = 2 \/ k = 3) as Hk by lia.
  destruct Hk as [-> |[-> |[-> | ->]]]; destruct (fgt a b), (fgt c d); cbn [wx wy wz ww];
  repeat match goal with |- context [fgt ?x ?y] => pose proof (G x y ltac:(auto) ltac:(auto)); destruct (fgt x y) end;
    cbn [nth wget wx wy wz ww]; split; apply fle_spec; auto; Lra.lra.
Qed.
Theorem C28_first_last : forall m r, (forall k, k < 4 -> fnan (near m r k) = false) ->
  forall k, k < 4 -> fle (near m r (nth 0 (h_ids (m_intersect m r)) 0)) (near m r k) = true /\
                     fle (near m r k) (near m r (nth 3 (h_ids (m_intersect m r)) 0)) = true.
Proof.
  intros m r N k K.
  assert (forall k, near m r k = wget (fst (m_slabs m r)) k) as E by (intros [|[|[|[|]]]]; reflexivity).
  change (h_ids (m_intersect m r)) with (order_ids (fst (m_slabs m r))). rewrite !E.
  apply order_first_last; auto; [apply (N 0)|apply (N 1)|apply (N 2)|apply (N 3)]; lia.
Qed.

(** But the two in the middle can come in the wrong order. *)
Definition slot_at (z : Z) : aabb := Bb (pt 0 0 z) 0 (pt 1 1 (z + 1)) 0.
Definition unsorted_node : mnode :=
  set_bounds_bb 3 (slot_at 3) (set_bounds_bb 2 (slot_at 1) (set_bounds_bb 1 (slot_at 2) (set_bounds_bb 0 (slot_at 0) mnode_new))).
Theorem C28_sorted_refuted : exists m r, (forall k, k < 4 -> fnan (near m r k) = false) /\
  (forall k, k < 4 -> qhit r (lane_box m k) = true) /\
  exists i j, i < j < 4 /\ fgt (near m r (nth i (h_ids (m_intersect m r)) 0)) (near m r (nth j (h_ids (m_intersect m r)) 0)) = true.
Proof.
  exists unsorted_node, unit_ray. split; [|split].
  - intros k K. do 4 (destruct k as [|k]; [vm_compute; reflexivity|]). lia.
  - intros k K. do 4 (destruct k as [|k]; [vm_compute; reflexivity|]). lia.
  - exists 1, 2. split; [lia|]. vm_compute. reflexivity.
Qed.

(** ** Concrete cases *)
(** A binary BVH of depth 5 (8 leaves) meets the hypotheses of C26 and C27, and a ray that
    hits all of it visits all leaves. *)
Definition quad_check (mb : mbvh) : bool :=
  (length (m_nodes mb) =? 9) &&
  match miter_ray_indices (m_nodes mb) (mb_indices mb) (fun c _ r => (c, r)) 200 tt unit_ray with
  | Ok (ps, _, _) => permb ps (seq 0 14) | _ => false end.
Lemma deep2_binary : forall lo hi, binary (deep_nodes lo hi 2) (deep_indices 2) 14 (deep_tree lo hi 2 0 0).
Proof.
intros lo hi. unfold binary. split.
  { vm_compute. repeat split; try reflexivity; try discriminate. }
  split; [reflexivity|].
  split; [apply permb_perm; vm_compute; reflexivity|].
  split; [apply permb_perm; vm_compute; reflexivity|].
  split; [apply Permutation_refl|]. split; [lia|]. split; [vm_compute; discriminate|]. split; [vm_compute; discriminate|].
  unfold i32_nodes. apply Forall_forall. intros x Ix.
  assert (forallb (fun n => (ex2 n <? 2147483648)%Z) (deep_nodes lo hi 2) = true) as G by (vm_compute; reflexivity).
  rewrite forallb_forall in G. apply Z.ltb_lt. auto.
Qed.
Example C27_nonvacuous : exists mb t,
  made_from mb (deep_nodes (pt 0 0 0) (pt 1 1 1) 2) (deep_indices 2) 14 t /\ depth t <= 22 /\ quad_enough mb 200 /\
  length (m_nodes mb) = 9 /\ lowers_ray (fun (c : unit) (p : nat) (r : ray) => (c, ray_set_t r (r_t r))).
Proof.
  assert (forall lo hi, binary (deep_nodes lo hi 2) (deep_indices 2) 14 (deep_tree lo hi 2 0 0)) as Bi.
  { apply deep2_binary. }
  destruct (ok_with _ (mbvh_construct 30 (Bvh (deep_nodes (pt 0 0 0) (pt 1 1 1) 2) (deep_indices 2))) quad_check) as (mb & E & H);
    [vm_compute; reflexivity|].
  apply andb_true_iff in H as [L _]. apply Nat.eqb_eq in L.
  exists mb, (deep_tree (pt 0 0 0) (pt 1 1 1) 2 0 0). split.
  { split; [apply Bi|]. exists 30. split; [vm_compute; lia|auto]. }
  split; [vm_compute; lia|]. split.
  { unfold quad_enough. rewrite L. 
    assert (mb_indices mb = deep_indices 2) as ->.
    { destruct (C26_construct (Bvh (deep_nodes (pt 0 0 0) (pt 1 1 1) 2) (deep_indices 2)) 14 (deep_tree (pt 0 0 0) (pt 1 1 1) 2 0 0) 30)
        as (mb' & mt & E' & _ & X & _); [apply Bi|vm_compute; lia|]. rewrite E in E'. injection E' as <-. exact X. }
    vm_compute. lia. }
  split; [exact L|]. intros c p r. exists (r_t r). split; auto.
Qed.
