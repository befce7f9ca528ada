(** * Properties C18-C21: locally-ordered clustering *)
Require Import List ZArith Bool Arith Lia Permutation.
From Verif Require Import F32 F32Facts Vec Base AabbModel SpecGeom SpecTree LocbModel LocbProofs PropBox.
Import ListNotations.

(** Inputs the builder accepts: one centre per box, at least one box, and so
    many that the [u32] neighbour indices and the [3 * node_count] table do not
    overflow (about 7 * 10^8 primitives). *)
Definition locb_input (aabbs : list aabb) (centers : list vec3) : Prop :=
  length centers = length aabbs /\ 1 <= length aabbs /\ (Z.of_nat (3 * (2 * length aabbs - 1)) < 4294967295)%Z.

(** ** C18 *)

(** Whatever the boxes (NaN, infinite, inverted): if construction returns, the
    result is a binary tree over all array slots whose leaves hold each
    primitive exactly once. *)
Theorem C18_valid : forall fuel threads aabbs centers bv,
  locb_input aabbs centers -> 1 <= threads ->
  locb_build fuel threads aabbs centers = Ok bv ->
  valid_bvh (nodes bv) (prim_indices bv) (length aabbs).
Proof.
  intros fuel threads aabbs centers bv (L & N1 & M) T E.
  destruct (locb_sound 14 fuel threads aabbs centers bv) as (t & A); auto; [lia|].
  exists t. tauto.
Qed.

(** Node count, and one primitive per leaf from three primitives on. *)
Theorem C18_node_count : forall fuel threads aabbs centers bv,
  locb_input aabbs centers -> 1 <= threads ->
  locb_build fuel threads aabbs centers = Ok bv ->
  length (nodes bv) = (if length aabbs <=? 2 then 1 else 2 * length aabbs - 1) /\
  length (prim_indices bv) = length aabbs /\
  (3 <= length aabbs -> forall t, repr (nodes bv) t -> t_idx t = 0 -> Forall (fun r => ex1 r = 1%Z) (leaf_recs t)).
Proof.
  intros fuel threads aabbs centers bv (L & N1 & M) T E.
  destruct (locb_sound 14 fuel threads aabbs centers bv) as (t & Rp & T0 & _ & _ & P & Ln & Lf & _); auto; [lia|].
  split; auto. split; [rewrite (Permutation_length P); apply seq_length|].
  intros N3 t' Rp' T0'. rewrite (repr_unique (nodes bv) t' t); auto. congruence.
Qed.

(** It does return when the coordinates are at most 2^60 in absolute value. *)
Theorem C18_returns : forall threads aabbs centers,
  locb_input aabbs centers -> 1 <= threads -> Forall (box_within f2p60) aabbs ->
  exists bv, locb_build (length aabbs) threads aabbs centers = Ok bv /\
    valid_bvh (nodes bv) (prim_indices bv) (length aabbs).
Proof.
  intros threads aabbs centers I T W. destruct I as (L & N1 & M).
  destruct (locb_total 14 (length aabbs) threads aabbs centers) as (bv & E); auto; [lia|].
  exists bv. split; auto. eapply C18_valid; eauto. repeat split; auto.
Qed.

(** ** C19 *)

(** No panic, no out-of-range access, and at most [n] rounds: any larger bound
    on the number of rounds gives the same result. *)
Theorem C19_terminates : forall fuel threads aabbs centers,
  locb_input aabbs centers -> 1 <= threads -> Forall (box_within f2p60) aabbs ->
  length aabbs <= fuel -> exists bv, locb_build fuel threads aabbs centers = Ok bv.
Proof. intros fuel threads aabbs centers (L & N1 & M) T W F. apply locb_total; auto; lia. Qed.

(** With extents around 10^20 the union area is infinite, no neighbour is
    "nearer than [f32::MAX]" and the builder panics. *)
Definition huge (k : Z) : aabb := Bb (V3 (fz k) (fz 0) (fz 0)) 0 (V3 (fz (10 ^ 20)) (fz (10 ^ 20)) (fz (10 ^ 20))) 0.
Theorem C19_huge_extents_refuted : forall fuel threads, 1 <= threads ->
  locb_build (S fuel) threads [huge 0; huge 1; huge 2] [pt 0 0 0; pt 1 0 0; pt 2 0 0] = Panic.
Proof.
  intros fuel threads T. unfold locb_build. rewrite (locb_threads 14 (S fuel) threads 1) by lia.
  assert (forall r : res bvh, (match r with Panic => true | _ => false end) = true -> r = Panic) as P
    by (intros [| | |]; auto; discriminate).
  apply P. vm_compute. reflexivity.
Qed.

(** ** C20 *)

(** The result (also a panic) is the same for any two chunk counts. *)
Theorem C20_threads : forall fuel t1 t2 aabbs centers, 1 <= t1 -> 1 <= t2 ->
  locb_build fuel t1 aabbs centers = locb_build fuel t2 aabbs centers.
Proof. intros. apply locb_threads; auto; lia. Qed.

(** ** C21 *)

(** Every node's box contains the given boxes of all primitives below it. *)
Theorem C21_encloses : forall fuel threads aabbs centers bv,
  locb_input aabbs centers -> 1 <= threads -> Forall box_ok aabbs ->
  locb_build fuel threads aabbs centers = Ok bv ->
  exists t, repr (nodes bv) t /\ t_idx t = 0 /\ Permutation (prims (prim_indices bv) t) (seq 0 (length aabbs)) /\
    encloses aabbs (prim_indices bv) t.
Proof.
  intros fuel threads aabbs centers bv (L & N1 & M) T Ok E.
  destruct (locb_sound 14 fuel threads aabbs centers bv) as (t & Rp & T0 & _ & P1 & P2 & _ & _ & En & _); auto; [lia|].
  exists t. repeat split; auto. unfold prims. apply Permutation_map with (f := fun k => nth k (prim_indices bv) 0) in P1.
  eapply Permutation_trans; [exact P1|]. eapply Permutation_trans; [|exact P2].
  rewrite map_nth_seq. apply Permutation_refl.
Qed.

(** ** A concrete input *)
Definition lb (k : Z) : aabb := Bb (pt (3 * k) (k * k) 0) 0 (pt (3 * k + 2) (k * k + 1) 4) 0.
Definition lbs : list aabb := map lb [0; 5; 1; 4; 2; 3]%Z.
Definition lcs : list vec3 := map center lbs.
Definition summary (r : res bvh) := match r with Ok b => Some (length (nodes b), length (prim_indices b)) | _ => None end.
Example C18_nonvacuous : locb_input lbs lcs /\ Forall (box_within f2p60) lbs /\ Forall box_ok lbs /\
  exists bv, locb_build 6 3 lbs lcs = Ok bv /\ length (nodes bv) = 11 /\ length (prim_indices bv) = 6.
Proof.
  split; [unfold locb_input, lcs; rewrite map_length; unfold lbs; rewrite map_length; simpl; lia|].
  split; [unfold lbs; simpl map; repeat constructor; vm_compute; reflexivity|].
  split; [unfold lbs; simpl map; repeat constructor; vm_compute; reflexivity|].
  assert (summary (locb_build 6 3 lbs lcs) = Some (11, 6)) as S by (vm_compute; reflexivity).
  destruct (locb_build 6 3 lbs lcs) as [bv| | |]; try discriminate. injection S as S1 S2. eauto.
Qed.
