(** * Property C86: iterating over a primitive slice and over ids *)
Require Import List ZArith Bool Lia Arith Permutation.
From Verif Require Import F32 Vec RayModel Base AabbModel NodeModel IterModel MbvhModel SpecTree SpecMbvh SameIter LocbModel PropLocb BinnedModel
  BinnedProofs SpecBinned PropBinned PropNoMiss PropNoMissBinned PropMbvh.
Import ListNotations.

(** With a slice long enough for every id the structure holds, each loop over
    primitives makes the same turns as the loop over ids: the same ids in the
    same order, the same rays between two yields, the same final state of the
    client, and it gets stuck, panics or runs on exactly when the other does. *)
Theorem C86_ray : forall C nodes indices n (client : C -> nat -> ray -> C * ray) fuel c r,
  1 <= n -> (forall p, In p indices -> p < n) ->
  iter_ray_prims n nodes indices client fuel c r = iter_ray_indices nodes indices client fuel c r.
Proof.
  intros C nodes indices n client fuel c r N H. unfold iter_ray_prims, iter_ray_indices.
  destruct (Nat.eqb_spec n 0); [lia|]. rewrite andb_true_r. apply bvh_run_same. intros p Ip. apply Nat.ltb_lt. auto.
Qed.
Theorem C86_packet : forall C nodes indices n (client : C -> nat -> packet -> C * packet) fuel c p,
  1 <= n -> (forall i, In i indices -> i < n) ->
  iter_packet_prims n nodes indices client fuel c p = iter_packet_indices nodes indices client fuel c p.
Proof.
  intros C nodes indices n client fuel c p N H. unfold iter_packet_prims, iter_packet_indices.
  destruct (Nat.eqb_spec n 0); [lia|]. rewrite andb_true_r. apply bvh_run_same. intros i Ii. apply Nat.ltb_lt. auto.
Qed.
Theorem C86_quad_ray : forall C ms indices n (client : C -> nat -> ray -> C * ray) fuel c r,
  (forall p, In p indices -> p < n) ->
  miter_ray_prims n ms indices client fuel c r = miter_ray_indices ms indices client fuel c r.
Proof. intros C ms indices n client fuel c r H. apply mbvh_run_same. intros p Ip. apply Nat.ltb_lt. auto. Qed.
Theorem C86_quad_packet : forall C ms indices n (client : C -> nat -> packet -> C * packet) fuel c p,
  (forall i, In i indices -> i < n) ->
  miter_packet_prims n ms indices client fuel c p = miter_packet_indices ms indices client fuel c p.
Proof. intros C ms indices n client fuel c p H. apply mbvh_run_same. intros i Ii. apply Nat.ltb_lt. auto. Qed.

Lemma perm_below : forall l n p, Permutation l (seq 0 n) -> In p l -> p < n.
Proof. intros l n p P I. apply (Permutation_in _ P) in I. apply in_seq in I. lia. Qed.
Lemma construct_indices : forall fuel b mb, mbvh_construct fuel b = Ok mb -> mb_indices mb = prim_indices b \/ mb_indices mb = [].
Proof.
  intros fuel b mb H. unfold mbvh_construct in H. destruct (nodes b); [injection H as <-; right; reflexivity|].
  destruct (merge_nodes _ _ _ _ _ _) as [[pool q]| | |]; try discriminate. cbn [bind] in H. injection H as <-. left. reflexivity.
Qed.

(** The slice a structure was built from is long enough. *)
Theorem C86_locb : forall fuel threads aabbs centers bv t, locb_input aabbs centers -> 1 <= threads ->
  locb_build fuel threads aabbs centers = Ok bv -> repr (nodes bv) t -> t_idx t = 0 -> depth t <= 31 ->
  (forall p, In p (prim_indices bv) -> p < length aabbs) /\
  forall mfuel mb, mbvh_construct mfuel bv = Ok mb -> forall p, In p (mb_indices mb) -> p < length aabbs.
Proof.
  intros fuel threads aabbs centers bv t I T E Rp T0 D. destruct (locb_traversable fuel threads aabbs centers bv t) as (_ & _ & P & _); auto.
  split; [intros p; apply perm_below; auto|]. intros mfuel mb Em p Ip.
  destruct (construct_indices _ _ _ Em) as [R|R]; rewrite R in Ip; [eapply perm_below; eauto|destruct Ip].
Qed.
Theorem C86_binned : forall ppl aabbs centers bv t, binned_input aabbs centers ->
  binned_build ppl aabbs centers bv -> repr (nodes bv) t -> t_idx t = 0 -> depth t <= 31 ->
  (forall p, In p (prim_indices bv) -> p < length aabbs) /\
  forall mfuel mb, mbvh_construct mfuel bv = Ok mb -> forall p, In p (mb_indices mb) -> p < length aabbs.
Proof.
  intros ppl aabbs centers bv t I B Rp T0 D. destruct (binned_traversable ppl aabbs centers bv t) as (_ & _ & P & _); auto.
  split; [intros p; apply perm_below; auto|]. intros mfuel mb Em p Ip.
  destruct (construct_indices _ _ _ Em) as [R|R]; rewrite R in Ip; [eapply perm_below; eauto|destruct Ip].
Qed.

(** The bound is needed: with one id outside the slice the loops differ. *)
Definition one_leaf : aabb := Bb (V3 f0 f0 f0) 1 (V3 f1 f1 f1) 0.
Definition ray_in : ray := ray_new (V3 fhalf fhalf f0) (V3 f0 f0 f1).
Example C86_tight :
  (exists rays, iter_ray_indices [one_leaf] [3] (fun (c : unit) _ r => (c, r)) 9 tt ray_in = Ok ([3], rays, tt)) /\
  (forall p, In p [3] -> p < 4) /\
  (exists rays, iter_ray_prims 4 [one_leaf] [3] (fun (c : unit) _ r => (c, r)) 9 tt ray_in = Ok ([3], rays, tt)) /\
  iter_ray_prims 3 [one_leaf] [3] (fun (c : unit) _ r => (c, r)) 9 tt ray_in = OutOfFuel.
Proof.
  assert (exists rays, iter_ray_indices [one_leaf] [3] (fun (c : unit) _ r => (c, r)) 9 tt ray_in = Ok ([3], rays, tt)) as A.
  { destruct (ok_with _ (iter_ray_indices [one_leaf] [3] (fun (c : unit) _ r => (c, r)) 9 tt ray_in)
      (fun x => match x with ([3], _, _) => true | _ => false end)) as ([[ps rays] []] & E & H); [vm_compute; reflexivity|].
    exists rays. rewrite E. destruct ps as [|[|[|[|[|]]]] [|]]; try discriminate H. reflexivity. }
  assert (forall p, In p [3] -> p < 4) as B by (intros p [<- |[]]; lia).
  split; [exact A|]. split; [exact B|]. split; [|vm_compute; reflexivity].
  destruct A as (rays & A). exists rays. rewrite C86_ray; [exact A|lia|exact B].
Qed.
