(** * Property C77: the 4-wide tree made from a binary one, exactly *)
Require Import List ZArith Bool Lia Permutation Arith.
Require Import Reals.
From Verif Require Import F32 F32Facts Vec RayModel AabbModel Base NodeModel IterModel LocbModel SpecGeom SpecTree SpecTraverse
  IterProofs TraverseProofs ClosestProofs MbvhModel SpecMbvh SpecQuad MbvhProofs MbvhMerge MbvhClient PropBox PropMbvh.
Import ListNotations.
Local Open Scope nat_scope.

(** [construct] (and [From<Bvh>]): the array holds the quartered tree, numbered
    depth first from 0, slots in order, and nothing else. *)
Theorem C77_construct : forall b n t fuel mb,
  binary (nodes b) (prim_indices b) n t -> length (nodes b) <= fuel -> mbvh_construct fuel b = Ok mb ->
  exists q, quartered_root t q /\ mrepr (m_nodes mb) q /\ m_ids q = seq 0 (length (m_nodes mb)).
Proof.
  intros b n t fuel mb (A & B & C & D & E & F & G & H & I) Fu Em.
  destruct (construct_ok b n t fuel) as (mb' & mt & X1 & X2 & X3 & X4 & X5 & X5q & X6 & (S1 & S2 & S3 & S4 & S5 & S6 & S7)); auto.
  rewrite Em in X1. injection X1 as <-. exists mt. auto.
Qed.

(** [construct_from_raw]: the same for more than four nodes (the array is as long
    as that of the binary nodes); up to four nodes are copied into slots. *)
Theorem C77_construct_from_raw : forall ns indices n t fuel mb,
  binary ns indices n t -> length ns <= fuel -> mbvh_from_raw fuel ns indices = Ok mb ->
  exists q, mrepr (m_nodes mb) q /\
    (if length ns <=? 4 then copied_root t q else quartered_root t q /\ m_ids q = seq 0 (length (m_ids q))).
Proof.
  intros ns indices n t fuel mb (A & B & C & D & E & F & G & H & I) Fu Em.
  destruct (from_raw_ok ns indices n t fuel) as (mb' & mt & X1 & X2 & X3 & X4 & X4q & (S1 & S2 & S3 & S4 & S5 & S6 & S7)); auto.
  rewrite Em in X1. injection X1 as <-. exists mt. auto.
Qed.

(** That description leaves no choice. *)

Lemma quartered_len : forall d t, depth t <= d -> 
  (forall q, quartered t q -> length (m_ids q) = inner_at true t) /\
  (forall b s0 s1, two_slots b t s0 s1 -> length (m_ids s0) + length (m_ids s1) = inner_at false t).
Proof.
  induction d as [|d IH]; intros t D.
  - destruct t; [|simpl in D; lia]. split; intros; match goal with H : _ |- _ => inversion H; subst end; reflexivity.
  - destruct t as [i n|i n l r].
    + split; intros; match goal with H : _ |- _ => inversion H; subst end; reflexivity.
    + cbn [depth] in D. destruct (IH l ltac:(lia)) as [L1 L2], (IH r ltac:(lia)) as [R1 R2].
      split.
      * intros q H. inversion H; subst. cbn [m_ids length inner_at negb]. rewrite !app_length.
        match goal with U : two_slots _ l _ _, V : two_slots _ r _ _ |- _ => pose proof (L2 _ _ _ U); pose proof (R2 _ _ _ V) end. lia.
      * intros b s0 s1 H. inversion H; subst. cbn [inner_at negb].
        match goal with U : quartered l _, V : quartered r _ |- _ => rewrite (L1 _ U), (R1 _ V) end. lia.
Qed.

(** The number of 4-wide nodes is that of the inner nodes at even depth. *)
Theorem C77_size : forall b n t fuel mb,
  binary (nodes b) (prim_indices b) n t -> length (nodes b) <= fuel -> mbvh_construct fuel b = Ok mb ->
  length (m_nodes mb) = Nat.max 1 (inner_at true t).
Proof.
  intros b n t fuel mb B Fu Em. destruct (C77_construct b n t fuel mb B Fu Em) as (q & Q & _ & I).
  apply (f_equal (@length nat)) in I. rewrite seq_length in I. rewrite <- I. destruct t as [i nn|i nn l r].
  - simpl in Q. subst. reflexivity.
  - cbn [quartered_root] in Q. destruct (quartered_len _ (TNode i nn l r) (Nat.le_refl _)) as [L _]. rewrite (L _ Q).
    cbn [inner_at]. lia.
Qed.

Lemma app_inj_len : forall A (a b c d : list A), length a = length c -> a ++ b = c ++ d -> a = c /\ b = d.
Proof.
  induction a as [|x a IH]; intros b [|y c] d L E; simpl in *; try discriminate; auto.
  injection E as -> E. destruct (IH b c d) as [-> ->]; auto.
Qed.

Lemma quartered_unique : forall d t, depth t <= d ->
  (forall q p, quartered t q -> quartered t p -> m_ids q = m_ids p -> q = p) /\
  (forall b s0 s1 p0 p1, two_slots b t s0 s1 -> two_slots b t p0 p1 -> m_ids s0 ++ m_ids s1 = m_ids p0 ++ m_ids p1 ->
     s0 = p0 /\ s1 = p1).
Proof.
  induction d as [|d IH]; intros t D.
  - destruct t; [|simpl in D; lia]. split.
    + intros q p H1 H2 _. inversion H1; inversion H2; subst. reflexivity.
    + intros b s0 s1 p0 p1 H1 H2 _. inversion H1; inversion H2; subst. auto.
  - destruct t as [i n|i n l r].
    + split.
      * intros q p H1 H2 _. inversion H1; inversion H2; subst. reflexivity.
      * intros b s0 s1 p0 p1 H1 H2 _. inversion H1; inversion H2; subst. auto.
    + cbn [depth] in D. destruct (IH l ltac:(lia)) as [L1 L2], (IH r ltac:(lia)) as [R1 R2].
      destruct (quartered_len d l ltac:(lia)) as [M1 M2], (quartered_len d r ltac:(lia)) as [N1 N2].
      split.
      * intros q p H1 H2 E.
        inversion H1 as [|i1 n1 l1 r1 k1 s0 s1 s2 s3 U1 V1]; subst. inversion H2 as [|i2 n2 l2 r2 k2 p0 p1 p2 p3 U2 V2]; subst.
        cbn [m_ids] in E. injection E as -> E.
        pose proof (M2 _ _ _ U1). pose proof (M2 _ _ _ U2).
        rewrite !(app_assoc (m_ids s0)), !(app_assoc (m_ids p0)) in E.
        apply app_inj_len in E as [E1 E2]; [|rewrite !app_length; lia].
        destruct (L2 _ _ _ _ _ U1 U2 E1) as [-> ->]. destruct (R2 _ _ _ _ _ V1 V2 E2) as [-> ->]. reflexivity.
      * intros b s0 s1 p0 p1 H1 H2 E.
        inversion H1 as [|b1 i1 n1 x1 y1 u1 v1 U1 V1]; subst. inversion H2 as [|b2 i2 n2 x2 y2 u2 v2 U2 V2]; subst.
        apply app_inj_len in E as [E1 E2]; [|rewrite (M1 _ U1), (M1 _ U2); auto]. split; auto.
Qed.

Theorem C77_determined : forall t q p k j,
  quartered_root t q -> m_ids q = seq 0 k -> quartered_root t p -> m_ids p = seq 0 j -> q = p.
Proof.
  intros t q p k j Q I P J. destruct t as [i n|i n l r]; cbn [quartered_root] in *; [congruence|].
  destruct (quartered_len _ (TNode i n l r) (Nat.le_refl _)) as [L _].
  destruct (quartered_unique _ (TNode i n l r) (Nat.le_refl _)) as [U _]. apply U; auto.
  rewrite I, J. f_equal. rewrite <- (seq_length k 0), <- (seq_length j 0), <- I, <- J, (L _ Q), (L _ P). reflexivity.
Qed.

(** A concrete case: a binary BVH of depth 5 with 14 leaves; 9 of its 13 inner nodes are
    at an even depth, and the collapse has 9 nodes. *)
Example C77_nonvacuous : exists mb t,
  binary (deep_nodes (pt 0 0 0) (pt 1 1 1) 2) (deep_indices 2) 14 t /\
  mbvh_construct 30 (Bvh (deep_nodes (pt 0 0 0) (pt 1 1 1) 2) (deep_indices 2)) = Ok mb /\
  length (m_nodes mb) = 9 /\ inner_at true t = 9 /\ inner_at false t = 4.
Proof.
  destruct (ok_with _ (mbvh_construct 30 (Bvh (deep_nodes (pt 0 0 0) (pt 1 1 1) 2) (deep_indices 2))) quad_check) as (mb & E & H);
    [vm_compute; reflexivity|].
  apply andb_true_iff in H as [L _]. apply Nat.eqb_eq in L.
  exists mb, (deep_tree (pt 0 0 0) (pt 1 1 1) 2 0 0). split; [apply deep2_binary|]. split; [exact E|]. split; [exact L|].
  split; reflexivity.
Qed.
