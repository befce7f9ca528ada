(** * Property C57: alignment of 4-wide nodes *)
Require Import List ZArith Bool Lia.
From Verif Require Import F32 Vec RayModel Base IterModel MbvhModel AlignModel.
Import ListNotations.
Local Open Scope Z_scope.

Lemma inter_at_ok : forall R (inter : mnode -> R -> mhit) addr m r, addr mod 16 = 0 -> inter_at inter addr m r = Ok (inter m r).
Proof.
  intros R inter addr m r H. unfold inter_at, points, load_ps.
  replace ((addr + 16) mod 16) with 0 by (change 16 with (1 * 16) at 1; rewrite Z_mod_plus_full; auto).
  replace ((addr + 32) mod 16) with 0 by (change 32 with (2 * 16); rewrite Z_mod_plus_full; auto).
  replace ((addr + 48) mod 16) with 0 by (change 48 with (3 * 16); rewrite Z_mod_plus_full; auto).
  replace ((addr + 64) mod 16) with 0 by (change 64 with (4 * 16); rewrite Z_mod_plus_full; auto).
  replace ((addr + 80) mod 16) with 0 by (change 80 with (5 * 16); rewrite Z_mod_plus_full; auto).
  rewrite H. cbn [Z.eqb bind]. destruct m; reflexivity.
Qed.
Lemma inter_at_bad : forall R (inter : mnode -> R -> mhit) addr m r, addr mod 16 <> 0 -> inter_at inter addr m r = UB.
Proof. intros R inter addr m r H. unfold inter_at, points, load_ps. rewrite (proj2 (Z.eqb_neq _ _) H). reflexivity. Qed.
Lemma node_aligned : forall base k, base mod 16 = 0 -> (base + mnode_size * k) mod 16 = 0.
Proof.
  intros base k H. unfold mnode_size. replace (base + 128 * k) with (base + (8 * k) * 16) by lia.
  rewrite Z_mod_plus_full. exact H.
Qed.

Section Same.
  Variables (R : Type) (inter : mnode -> R -> mhit) (found : nat -> bool) (base : Z) (ms : list mnode) (indices : list nat).
  Hypothesis A : base mod 16 = 0.
  Lemma turn_same : forall r s, turn_at R inter found base ms indices r s = mbvh_turn R inter found ms indices r s.
  Proof.
    intros r s. unfold turn_at, mbvh_turn. destruct (get_unchecked ms (as_usize (q_cur s))); cbn [bind]; auto.
    destruct (q_i s >=? 4); auto. destruct (q_sp s <? 0); auto.
    destruct (get (q_stack s) (as_usize (q_sp s))); cbn [bind]; auto.
    destruct (get_unchecked ms (as_usize a0)); cbn [bind]; auto. rewrite inter_at_ok by (apply node_aligned; auto). reflexivity.
  Qed.
  Lemma init_same : forall r, init_at R inter base ms r = Ok (mbvh_init R inter ms r).
  Proof. intro r. unfold init_at, mbvh_init. destruct ms as [|m l]; auto. rewrite inter_at_ok by auto. reflexivity. Qed.
  Variables (C : Type) (client : C -> nat -> R -> C * R).
  Lemma run_same : forall fuel c r s, run_at R inter found base ms indices C client fuel c r s = mbvh_run R inter found ms indices C client fuel c r s.
  Proof.
    induction fuel as [|k IH]; intros c r s; [reflexivity|]. cbn [run_at mbvh_run]. rewrite turn_same.
    destruct (mbvh_turn R inter found ms indices r s) as [[t s']| | |]; cbn [bind]; auto.
    destruct t; auto. destruct (client c _ r). rewrite IH. reflexivity.
  Qed.
  Lemma loop_same : forall fuel c r, loop_at R inter found base ms indices C client fuel c r =
    mbvh_run R inter found ms indices C client fuel c r (mbvh_init R inter ms r).
  Proof. intros. unfold loop_at. rewrite init_same. cbn [bind]. apply run_same. Qed.
End Same.

(** ** C57 *)
(** If the nodes are stored at a multiple of 16, no load of any traversal is
    misaligned: each of the four loops does what it does without addresses
    (C27, C29). *)
Theorem C57_aligned : forall C nprims base ms indices fuel (c : C), base mod 16 = 0 ->
  (forall client r, at_ray_indices base ms indices client fuel c r = miter_ray_indices ms indices client fuel c r) /\
  (forall client r, at_ray_prims nprims base ms indices client fuel c r = miter_ray_prims nprims ms indices client fuel c r) /\
  (forall client p, at_packet_indices base ms indices client fuel c p = miter_packet_indices ms indices client fuel c p) /\
  (forall client p, at_packet_prims nprims base ms indices client fuel c p = miter_packet_prims nprims ms indices client fuel c p).
Proof. intros C nprims base ms indices fuel c A. repeat split; intros; apply loop_same; exact A. Qed.
(** Otherwise every traversal of at least one node is undefined behaviour, whatever
    the ray, the boxes and the client; *)
Theorem C57_misaligned : forall C nprims base ms indices fuel (c : C), base mod 16 <> 0 -> ms <> [] ->
  (forall client r, at_ray_indices base ms indices client fuel c r = UB) /\
  (forall client r, at_ray_prims nprims base ms indices client fuel c r = UB) /\
  (forall client p, at_packet_indices base ms indices client fuel c p = UB) /\
  (forall client p, at_packet_prims nprims base ms indices client fuel c p = UB).
Proof.
  intros C nprims base ms indices fuel c A N. destruct ms as [|m l]; [contradiction|].
  repeat split; intros; unfold at_ray_indices, at_ray_prims, at_packet_indices, at_packet_prims, loop_at, init_at;
    rewrite inter_at_bad by auto; reflexivity.
Qed.
(** and the type does not exclude it: an address that is aligned for [MbvhNode]
    may be such an address. *)
Theorem C57_type_refuted : forall C (client : C -> nat -> ray -> C * ray) ms indices fuel c r, ms <> [] ->
  exists base, base mod mnode_align = 0 /\ at_ray_indices base ms indices client fuel c r = UB.
Proof.
  intros C client ms indices fuel c r N. exists 4. split; [reflexivity|].
  apply (C57_misaligned C 0 4 ms indices fuel c); [discriminate|exact N].
Qed.
Example C57_nonvacuous : 4096 mod 16 = 0 /\ (4096 + 8) mod 16 <> 0 /\ [mnode_new] <> [].
Proof. split; [reflexivity|]. split; [discriminate|discriminate]. Qed.
