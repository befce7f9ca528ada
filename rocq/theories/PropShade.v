(** * Property C81: the triangle a renderer remembers is the nearest *)
Require Import List ZArith Bool Lia Permutation Arith.
Require Import Reals Lra.
From Flocq Require Import Core BinarySingleNaN.
From Verif Require Import F32 F32Facts Vec RayModel Base AabbModel NodeModel IterModel BinnedModel BinnedProofs MbvhModel SpecGeom SpecSlab SpecTree SpecTraverse SpecMbvh
  AabbProofs MeasureProofs SlabProofs Slab4Proofs IterProofs TraverseProofs ClosestProofs MbvhClient LocbModel LocbProofs
  SpecBinned BinnedFacts BinnedCost BinnedRoom TriModel SpecTri SpecMesh TriProofs TriError
  PropBox PropSlab PropTraverse PropLocb PropNoMiss PropMbvh PropNoMiss4 PropBinned PropNoMissBinned PropTri PropTriError NearProofs MeshProofs
  SpecNext PropNext PropMesh SpecShadow PropShadow SpecShade.
Import ListNotations.
Local Open Scope nat_scope.

(** ** Keeping a state beside the ray does not change the traversal *)
Section Loop.
  Variables (R S C : Type) (trn : R -> S -> res (turn * S)) (client : unit -> nat -> R -> unit * R) (keep : C -> nat -> R -> C * R).
  Hypothesis same_ray : forall c p r, snd (keep c p r) = snd (client tt p r).

  Lemma keep_run : forall f c r s ps rs, t_run R S unit trn client f tt r s = Ok (ps, rs, tt) ->
    t_run R S C trn keep f c r s = Ok (ps, rs, fst (client_fold keep ps c r)) /\ rs <> [] /\ last rs r = snd (client_fold keep ps c r).
  Proof.
    induction f as [|f IH]; intros c r s ps rs E; [discriminate E|]. cbn [t_run] in *.
    destruct (trn r s) as [[[p| |] s']| | |]; cbn [bind] in *; try discriminate E.
    - pose proof (same_ray c p r) as Q. destruct (client tt p r) as [[] r1]. destruct (keep c p r) as [c1 r1'] eqn:K. cbn [snd] in Q. subst r1'.
      destruct (t_run R S unit trn client f tt r1 s') as [[[ps1 rs1] []]| | |] eqn:Er; try discriminate E.
      injection E as <- <-. destruct (IH c1 r1 s' ps1 rs1 Er) as (A & B & D). rewrite A. cbn [bind].
      assert (client_fold keep (p :: ps1) c r = client_fold keep ps1 c1 r1) as -> by (unfold client_fold; cbn [fold_left fst snd]; rewrite K; reflexivity).
      split; [reflexivity|]. split; [discriminate|]. destruct rs1 as [|x rs1]; [congruence|].
      rewrite <- D. change (last (r :: x :: rs1) r) with (last (x :: rs1) r). clear. revert x. induction rs1 as [|y rs1 IHr]; intro x; auto. apply (IHr y).
    - apply IH. exact E.
    - injection E as <- <-. split; [reflexivity|]. split; [discriminate|reflexivity].
  Qed.
End Loop.

(** ** Rays *)
Lemma shade_ray : forall tris c p r, snd (shade_body tris c p r) = snd (mesh_body tris tt p r).
Proof.
  intros tris c p r. unfold shade_body, mesh_body. destruct (nth_error tris p) as [tr|]; auto. destruct (tri_intersect tr r); reflexivity.
Qed.

Lemma shade_fold_ray : forall tris ps c r, snd (client_fold (shade_body tris) ps c r) = snd (client_fold (mesh_body tris) ps tt r).
Proof.
  intros tris ps. induction ps as [|p ps IH]; intros c r; auto. unfold client_fold in *. cbn [fold_left fst snd].
  pose proof (shade_ray tris c p r) as E. destruct (shade_body tris c p r) as [c1 r1], (mesh_body tris tt p r) as [[] r2]. cbn [snd] in E. subst r2. apply IH.
Qed.

(** What is remembered is what the ray ended with. *)
Lemma shade_kept : forall tris r0 ps c r, shorter r0 r ->
  match c with
  | None => r = r0
  | Some i => exists tr, nth_error tris i = Some tr /\ tri_intersect tr r0 = (true, r)
  end ->
  match fst (client_fold (shade_body tris) ps c r) with
  | None => snd (client_fold (shade_body tris) ps c r) = r0
  | Some i => exists tr, nth_error tris i = Some tr /\ tri_intersect tr r0 = (true, snd (client_fold (shade_body tris) ps c r))
  end.
Proof.
  intros tris r0 ps. induction ps as [|p ps IH]; intros c r Sh H; [exact H|].
  unfold client_fold in *. cbn [fold_left fst snd].
  rewrite (surjective_pairing (shade_body tris c p r)). destruct (mesh_is_closest tris r0 tt p r Sh) as [Em Sh'].
  apply IH.
  - rewrite shade_ray. exact Sh'.
  - rewrite shade_ray. rewrite Em. unfold shade_body, closest_body. unfold mesh_body, closest_body in Em.
    destruct (nth_error tris p) as [tr|] eqn:Et.
    + destruct (tri_intersect tr r) as [b r'] eqn:Er. cbn [fst snd] in *.
      destruct (mesh_dist tris r0 p) as [x|] eqn:Ed.
      * destruct (flt x (r_t r)) eqn:Ex; cbn [snd] in *.
        -- assert (r' = ray_set_t r x) as -> by congruence.
           assert (b = true) as ->. { apply (C37_scalar_iff _ _ _ _ Er). cbn [r_t ray_set_t]. exact Ex. }
           apply mesh_dist_hit in Ed as (tr' & Et' & Eh). exists tr'. split; [congruence|].
           rewrite Eh. destruct Sh as (t & -> & _). reflexivity.
        -- assert (r' = r) as -> by congruence. destruct b; [|exact H].
           assert (flt (r_t r) (r_t r) = true) as Q by (apply (C37_scalar_iff _ _ _ _ Er); reflexivity). rewrite flt_irrefl in Q. discriminate.
      * cbn [snd] in *. assert (r' = r) as -> by congruence. destruct b; [|exact H].
        assert (flt (r_t r) (r_t r) = true) as Q by (apply (C37_scalar_iff _ _ _ _ Er); reflexivity). rewrite flt_irrefl in Q. discriminate.
    + cbn [fst]. unfold mesh_dist. rewrite Et. exact H.
Qed.

Lemma mesh_dist_num : forall tris r p x, mesh_dist tris r p = Some x -> fnan x = false.
Proof.
  intros tris r p x E. apply mesh_dist_hit in E as (tr & _ & E). destruct (C37_scalar _ _ _ _ E) as [B _].
  destruct (B eq_refl) as (t & E' & _ & L). assert (r_t (ray_set_t r x) = r_t (ray_set_t r t)) as F by congruence. cbn [r_t ray_set_t] in F. subst t.
  apply flt_notnan in L as [L _]. exact L.
Qed.
Lemma mesh_dist_of : forall tris r p tr r', nth_error tris p = Some tr -> tri_intersect tr r = (true, r') -> mesh_dist tris r p = Some (r_t r').
Proof.
  intros tris r p tr r' Et E. apply mesh_dist_hit. exists tr. split; auto. rewrite E. destruct (C37_scalar _ _ _ _ E) as [B _].
  destruct (B eq_refl) as (t & -> & _). reflexivity.
Qed.

Lemma shade_nearest : forall tris r ps, flt f0 (r_t r) = true ->
  snd (client_fold (shade_body tris) ps None r) = snd (client_fold (mesh_body tris) (seq 0 (length tris)) tt r) ->
  nearest_of tris r (fst (client_fold (shade_body tris) ps None r)) (snd (client_fold (shade_body tris) ps None r)).
Proof.
  intros tris r ps L E. pose proof (shade_kept tris r ps None r (shorter_self r L) eq_refl) as K.
  unfold nearest_of. destruct (fst (client_fold (shade_body tris) ps None r)) as [i|].
  - split; [exact K|]. intros tr r'' It Eh. apply In_nth_error in It as [p Ep].
    rewrite E. rewrite (mesh_brute tris r _ L).
    destruct (C25_brute_force_is_min (mesh_dist tris r) (seq 0 (length tris)) r) as (_ & _ & M).
    + apply flt_notnan in L as [_ L]. exact L.
    + intros q x. apply mesh_dist_num.
    + apply (M p).
      * apply in_seq. assert (p < length tris) by (apply nth_error_Some; congruence). lia.
      * eapply mesh_dist_of; eauto.
  - split; [exact K|]. intros tr It. destruct (ray_reports r tr) eqn:Rp; auto. exfalso. apply In_nth_error in It as [p Ep].
    assert (flt (r_t (snd (client_fold (mesh_body tris) (seq 0 (length tris)) tt r))) (r_t r) = true) as F.
    { apply (fold_hit tris _ p).
      - apply in_seq. assert (p < length tris) by (apply nth_error_Some; congruence). lia.
      - unfold mesh_hit. rewrite Ep. exact Rp. }
    rewrite <- E, K, flt_irrefl in F. discriminate.
Qed.

Lemma shade_bvh : forall tris nodes indices turns r ps rays, flt f0 (r_t r) = true ->
  iter_ray_prims (length tris) nodes indices (mesh_body tris) turns tt r = Ok (ps, rays, tt) ->
  last rays r = snd (client_fold (mesh_body tris) (seq 0 (length tris)) tt r) ->
  exists ps rays found, iter_ray_prims (length tris) nodes indices (shade_body tris) turns None r = Ok (ps, rays, found) /\
    nearest_of tris r found (last rays r).
Proof.
  intros tris nodes indices turns r ps rays L E B.
  destruct (keep_run ray bit (option nat) _ (mesh_body tris) (shade_body tris) (shade_ray tris) turns None r _ ps rays E) as (A & _ & D).
  exists ps, rays, (fst (client_fold (shade_body tris) ps None r)). split; [exact A|]. rewrite D. apply shade_nearest; auto. congruence.
Qed.
Lemma shade_mbvh : forall tris ms indices turns r ps rays, flt f0 (r_t r) = true ->
  miter_ray_prims (length tris) ms indices (mesh_body tris) turns tt r = Ok (ps, rays, tt) ->
  last rays r = snd (client_fold (mesh_body tris) (seq 0 (length tris)) tt r) ->
  exists ps rays found, miter_ray_prims (length tris) ms indices (shade_body tris) turns None r = Ok (ps, rays, found) /\
    nearest_of tris r found (last rays r).
Proof.
  intros tris nodes indices turns r ps rays L E B.
  destruct (keep_run ray mit (option nat) _ (mesh_body tris) (shade_body tris) (shade_ray tris) turns None r _ ps rays E) as (A & _ & D).
  exists ps, rays, (fst (client_fold (shade_body tris) ps None r)). split; [exact A|]. rewrite D. apply shade_nearest; auto. congruence.
Qed.

(** ** Packets *)
Lemma shade4_ray : forall tris t_min c p q, snd (shade_body4 tris t_min c p q) = snd (mesh_body4 tris t_min tt p q).
Proof.
  intros tris t_min c p q. unfold shade_body4, mesh_body4. destruct (nth_error tris p) as [tr|]; auto.
  destruct (tri_intersect4 tr q t_min) as [[m|] q']; reflexivity.
Qed.
Lemma shade4_fold : forall tris t_min ps c q, snd (client_fold (shade_body4 tris t_min) ps c q) = snd (client_fold (mesh_body4 tris t_min) ps tt q).
Proof.
  intros tris t_min ps. induction ps as [|p ps IH]; intros c q; auto. unfold client_fold in *. cbn [fold_left fst snd].
  pose proof (shade4_ray tris t_min c p q) as E. destruct (shade_body4 tris t_min c p q) as [c1 r1], (mesh_body4 tris t_min tt p q) as [[] r2].
  cbn [snd] in E. subst r2. apply IH.
Qed.

Lemma lane_reported : forall tr q t_min k,
  match lane_result tr q t_min k with
  | Some x => lane_reports q t_min k tr = true /\ wget (p_t (snd (tri_intersect4 tr q t_min))) k = x
  | None => lane_reports q t_min k tr = false /\ wget (p_t (snd (tri_intersect4 tr q t_min))) k = wget (p_t q) k
  end.
Proof.
  intros tr q t_min k. destruct (tri4_lanes tr q t_min) as (m & tv & H & E). specialize (H k). unfold lane_reports. rewrite E.
  destruct (lane_result tr q t_min k) as [x|].
  - destruct H as [M T]. rewrite (many_intro m k M). cbn [snd p_t packet_set_t]. rewrite wselect_get, M. auto.
  - destruct (many m); cbn [snd p_t packet_set_t]; auto. rewrite wselect_get, H. auto.
Qed.

Lemma lane_result_cap : forall tr q w t_min k, fle (wget w k) (wget (p_t q) k) = true ->
  lane_result tr (packet_set_t q w) t_min k =
  match lane_result tr q t_min k with Some x => if flt x (wget w k) then Some x else None | None => None end.
Proof.
  intros tr q w t_min k L. unfold lane_result. change (lane_o (packet_set_t q w) k) with (lane_o q k). change (lane_d (packet_set_t q w) k) with (lane_d q k).
  change (p_t (packet_set_t q w)) with w. apply lane_test_cap. exact L.
Qed.

Lemma lane_result_lt : forall tr q t_min k x, lane_result tr q t_min k = Some x -> flt x (wget (p_t q) k) = true.
Proof.
  intros tr q t_min k x R. unfold lane_result, lane_test, lane_test_with in R. cbv zeta in R.
  match type of R with (if ?c then _ else _) = _ => destruct c eqn:B; [|discriminate] end.
  apply andb_prop in B as [_ B]. apply andb_prop in B as [_ B].
  assert (forall a b : f32, Some a = Some b -> a = b) as IS by congruence. rewrite <- (IS _ _ R). exact B.
Qed.

Lemma lane_flag : forall tr q t_min k,
  match fst (tri_intersect4 tr q t_min) with Some m => mget m k | None => false end =
  match lane_result tr q t_min k with Some _ => true | None => false end.
Proof.
  intros tr q t_min k. destruct (tri4_lanes tr q t_min) as (m & tv & H & E). specialize (H k). rewrite E.
  destruct (lane_result tr q t_min k) as [x|].
  - destruct H as [M _]. rewrite (many_intro m k M). exact M.
  - destruct (many m); cbn [fst]; auto.
Qed.
Lemma shade4_state : forall tris t_min c p q k, fst (shade_body4 tris t_min c p q) k =
  match nth_error tris p with
  | Some tr => if match fst (tri_intersect4 tr q t_min) with Some m => mget m k | None => false end then Some p else c k
  | None => c k end.
Proof.
  intros tris t_min c p q k. unfold shade_body4. destruct (nth_error tris p) as [tr|]; auto.
  destruct (tri_intersect4 tr q t_min) as [[m|] q']; reflexivity.
Qed.

Lemma shade4_kept : forall tris t_min k q0 ps c w, fle (wget w k) (wget (p_t q0) k) = true ->
  match c k with
  | None => wget w k = wget (p_t q0) k
  | Some i => mesh_dist4 tris q0 t_min k i = Some (wget w k)
  end ->
  let cr := client_fold (shade_body4 tris t_min) ps c (packet_set_t q0 w) in
  match fst cr k with
  | None => wget (p_t (snd cr)) k = wget (p_t q0) k
  | Some i => mesh_dist4 tris q0 t_min k i = Some (wget (p_t (snd cr)) k)
  end.
Proof.
  intros tris t_min k q0 ps. induction ps as [|p ps IH]; intros c w Lw H; [exact H|].
  cbv zeta. unfold client_fold in *. cbn [fold_left fst snd].
  rewrite (surjective_pairing (shade_body4 tris t_min c p (packet_set_t q0 w))).
  assert (exists w', snd (shade_body4 tris t_min c p (packet_set_t q0 w)) = packet_set_t q0 w' /\ fle (wget w' k) (wget (p_t q0) k) = true /\
    match fst (shade_body4 tris t_min c p (packet_set_t q0 w)) k with
    | None => wget w' k = wget (p_t q0) k
    | Some i => mesh_dist4 tris q0 t_min k i = Some (wget w' k) end) as (w' & E1 & E2 & E3).
  2: { rewrite E1. apply IH; auto. }
  rewrite shade4_ray, shade4_state. unfold mesh_body4. destruct (nth_error tris p) as [tr|] eqn:Et; cbn [fst snd]; [|exists w; auto].
  destruct (tri4_lane tr (packet_set_t q0 w) t_min k) as (w' & E & A & G). exists w'. rewrite E. split; [reflexivity|].
  change (p_t (packet_set_t q0 w)) with w in A. change (p_t (packet_set_t q0 w)) with w in G. split.
  { destruct (A k) as [-> |B]; auto. eapply fle_trans; eauto. }
  rewrite lane_flag. rewrite (lane_result_cap tr q0 w t_min k Lw). rewrite (lane_result_cap tr q0 w t_min k Lw) in G.
  assert (mesh_dist4 tris q0 t_min k p = lane_result tr q0 t_min k) as Ed by (unfold mesh_dist4; rewrite Et; reflexivity).
  rewrite <- Ed in G |- *. destruct (mesh_dist4 tris q0 t_min k p) as [x|] eqn:El.
  - destruct (flt x (wget w k)); rewrite G; [exact El|exact H].
  - rewrite G. exact H.
Qed.

Lemma shade4_nearest : forall tris q t_min k ps, flt f0 (wget (p_t q) k) = true ->
  wget (p_t (snd (client_fold (mesh_body4 tris t_min) ps tt q))) k =
    wget (p_t (snd (client_fold (mesh_body4 tris t_min) (seq 0 (length tris)) tt q))) k ->
  lane_nearest_of tris q t_min k (fst (client_fold (shade_body4 tris t_min) ps (fun _ => None) q) k)
    (wget (p_t (snd (client_fold (mesh_body4 tris t_min) ps tt q))) k).
Proof.
  intros tris q t_min k ps L E.
  assert (packet_set_t q (p_t q) = q) as Q by (destruct q; reflexivity).
  assert (fle (wget (p_t q) k) (wget (p_t q) k) = true) as Lq by (apply fle_refl; apply flt_notnan in L; tauto).
  pose proof (shade4_kept tris t_min k q ps (fun _ => None) (p_t q) Lq eq_refl) as K. cbv zeta in K. rewrite Q, shade4_fold in K.
  assert (forall p x, mesh_dist4 tris q t_min k p = Some x -> exists tr, nth_error tris p = Some tr /\ lane_reports q t_min k tr = true /\
    wget (p_t (snd (tri_intersect4 tr q t_min))) k = x) as Hit.
  { intros p x Ed. unfold mesh_dist4 in Ed. destruct (nth_error tris p) as [tr|]; [|discriminate]. exists tr. split; auto.
    pose proof (lane_reported tr q t_min k) as Rp. rewrite Ed in Rp. exact Rp. }
  assert (forall tr, In tr tris -> lane_reports q t_min k tr = true -> exists p, p < length tris /\
    mesh_dist4 tris q t_min k p = Some (wget (p_t (snd (tri_intersect4 tr q t_min))) k)) as Hit'.
  { intros tr It Rp. apply In_nth_error in It as [p Ep]. exists p. split; [apply nth_error_Some; congruence|].
    unfold mesh_dist4. rewrite Ep. pose proof (lane_reported tr q t_min k) as Rq.
    destruct (lane_result tr q t_min k) as [x|]; [destruct Rq as [_ ->]; reflexivity|]. destruct Rq; congruence. }
  set (r0 := ray_new (V3 f0 f0 f0) (V3 f0 f0 f0)).
  pose proof (mesh_lane tris q t_min k r0 (seq 0 (length tris)) (p_t q) Lq) as ML. rewrite Q in ML.
  destruct (C25_brute_force_is_min (mesh_dist4 tris q t_min k) (seq 0 (length tris)) (ray_set_t r0 (wget (p_t q) k))) as (_ & _ & M).
  { cbn [r_t ray_set_t]. apply flt_notnan in L as [_ L]. exact L. }
  { intros p d Ed. unfold mesh_dist4 in Ed. destruct (nth_error tris p) as [tr|]; [|discriminate]. apply lane_result_lt in Ed.
    apply flt_notnan in Ed as [Ed _]. exact Ed. }
  cbv zeta in M. rewrite <- ML, <- E in M. clear ML.
  unfold lane_nearest_of. destruct (fst (client_fold (shade_body4 tris t_min) ps (fun _ => None) q) k) as [i|].
  - split; [apply Hit; exact K|]. intros tr It Rp. destruct (Hit' tr It Rp) as (p & Lp & Ep). apply (M p); auto. apply in_seq. lia.
  - split; [exact K|]. intros tr It. destruct (lane_reports q t_min k tr) eqn:Rp; auto. exfalso.
    destruct (Hit' tr It Rp) as (p & Lp & Ep). assert (In p (seq 0 (length tris))) as Ip by (apply in_seq; lia).
    pose proof (M p _ Ip Ep) as Le. rewrite K in Le.
    unfold mesh_dist4 in Ep. destruct (nth_error tris p) as [tr'|]; [|discriminate]. apply lane_result_lt in Ep.
    pose proof (flt_le_trans _ _ _ Ep Le) as F. rewrite flt_irrefl in F. discriminate.
Qed.

Lemma shade4_bvh : forall tris nodes indices turns q t_min (ok : nat -> Prop) ps packets,
  iter_packet_prims (length tris) nodes indices (mesh_body4 tris t_min) turns tt q = Ok (ps, packets, tt) ->
  (forall k, ok k -> flt f0 (wget (p_t q) k) = true) ->
  (forall k, ok k -> wget (p_t (last packets q)) k = wget (p_t (snd (client_fold (mesh_body4 tris t_min) (seq 0 (length tris)) tt q))) k) ->
  exists ps packets found,
    iter_packet_prims (length tris) nodes indices (shade_body4 tris t_min) turns (fun _ => None) q = Ok (ps, packets, found) /\
    forall k, ok k -> lane_nearest_of tris q t_min k (found k) (wget (p_t (last packets q)) k).
Proof.
  intros tris nodes indices turns q t_min ok ps packets E L B.
  destruct (keep_run packet bit _ _ (mesh_body4 tris t_min) (shade_body4 tris t_min) (shade4_ray tris t_min) turns (fun _ => None) q _ ps packets E) as (A & _ & D).
  exists ps, packets, (fst (client_fold (shade_body4 tris t_min) ps (fun _ => None) q)). split; [exact A|]. intros k Ok.
  specialize (B k Ok). rewrite D, shade4_fold in *. apply shade4_nearest; auto.
Qed.
Lemma shade4_mbvh : forall tris ms indices turns q t_min (ok : nat -> Prop) ps packets,
  miter_packet_prims (length tris) ms indices (mesh_body4 tris t_min) turns tt q = Ok (ps, packets, tt) ->
  (forall k, ok k -> flt f0 (wget (p_t q) k) = true) ->
  (forall k, ok k -> wget (p_t (last packets q)) k = wget (p_t (snd (client_fold (mesh_body4 tris t_min) (seq 0 (length tris)) tt q))) k) ->
  exists ps packets found,
    miter_packet_prims (length tris) ms indices (shade_body4 tris t_min) turns (fun _ => None) q = Ok (ps, packets, found) /\
    forall k, ok k -> lane_nearest_of tris q t_min k (found k) (wget (p_t (last packets q)) k).
Proof.
  intros tris nodes indices turns q t_min ok ps packets E L B.
  destruct (keep_run packet mit _ _ (mesh_body4 tris t_min) (shade_body4 tris t_min) (shade4_ray tris t_min) turns (fun _ => None) q _ ps packets E) as (A & _ & D).
  exists ps, packets, (fst (client_fold (shade_body4 tris t_min) ps (fun _ => None) q)). split; [exact A|]. intros k Ok.
  specialize (B k Ok). rewrite D, shade4_fold in *. apply shade4_nearest; auto.
Qed.

(** ** C81: the triangle remembered by the loop of a renderer

    Under the conditions of C60 (which says what distance the loop ends with)
    the triangle it remembers is one that the ray meets at that distance, no
    triangle is nearer, and if it remembers none then no triangle is met. *)
(** Any binary BVH whose node boxes contain the boxes of the triangles with 1e-4 to spare. *)
Theorem C81_ray : forall m d margin tris aabbs nodes indices t turns o dir t0,
  let r := ray_set_t (ray_new o dir) t0 in
  mesh_fits m d margin 13 1 (ray_reports r) tris aabbs o dir -> (fval m <= 128)%R -> dirs_fine dir -> flt f0 t0 = true ->
  traversable nodes indices t -> Permutation (positions t) (seq 0 (length indices)) ->
  Permutation indices (seq 0 (length aabbs)) -> roomy aabbs indices t -> enough t turns ->
  exists ps rays found,
    iter_ray_prims (length tris) nodes indices (shade_body tris) turns None r = Ok (ps, rays, found) /\
    nearest_of tris r found (last rays r).
Proof.
  intros. edestruct C60_ray as (ps & rays & A & B); eauto. eapply shade_bvh; eauto.
Qed.

(** The 4-wide BVH made of such a one. *)
Theorem C81_quad : forall m d margin far tris aabbs mb ns indices t turns o dir t0,
  let r := ray_set_t (ray_new o dir) t0 in
  mesh_fits m d margin 13 far (ray_reports r) tris aabbs o dir -> reaches (fval m) far dir ->
  (fval m <= 128)%R -> dirs_fine dir -> flt f0 t0 = true ->
  made_from mb ns indices (length aabbs) t -> roomy aabbs indices t -> depth t <= 22 -> quad_enough mb turns ->
  exists ps rays found,
    miter_ray_prims (length tris) (MbvhModel.m_nodes mb) (mb_indices mb) (shade_body tris) turns None r = Ok (ps, rays, found) /\
    nearest_of tris r found (last rays r).
Proof.
  intros. edestruct C60_quad as (ps & rays & A & B); eauto. eapply shade_mbvh; eauto.
Qed.

(** BVHs of the locally-ordered-clustering builder. *)
Theorem C81_locb : forall m d margin tris fuel threads aabbs centers bv t turns o dir t0,
  let r := ray_set_t (ray_new o dir) t0 in
  mesh_fits m d margin 13 1 (ray_reports r) tris aabbs o dir -> (fval m <= 128)%R -> dirs_fine dir -> flt f0 t0 = true ->
  locb_input aabbs centers -> 1 <= threads -> 3 <= length aabbs -> locb_build fuel threads aabbs centers = Ok bv ->
  repr (nodes bv) t -> t_idx t = 0 -> depth t <= 31 -> 3 * length aabbs + 1 <= turns ->
  exists ps rays found,
    iter_ray_prims (length tris) (nodes bv) (prim_indices bv) (shade_body tris) turns None r = Ok (ps, rays, found) /\
    nearest_of tris r found (last rays r).
Proof.
  intros. edestruct C60_locb as (ps & rays & A & B); eauto. eapply shade_bvh; eauto.
Qed.

Theorem C81_locb_quad : forall m d margin far tris fuel threads aabbs centers bv mfuel mb t turns o dir t0,
  let r := ray_set_t (ray_new o dir) t0 in
  mesh_fits m d margin 13 far (ray_reports r) tris aabbs o dir -> reaches (fval m) far dir ->
  (fval m <= 128)%R -> dirs_fine dir -> flt f0 t0 = true ->
  locb_input aabbs centers -> 1 <= threads -> 3 <= length aabbs -> locb_build fuel threads aabbs centers = Ok bv ->
  repr (nodes bv) t -> t_idx t = 0 -> depth t <= 22 ->
  length (nodes bv) <= mfuel -> mbvh_construct mfuel bv = Ok mb -> quad_enough mb turns ->
  exists ps rays found,
    miter_ray_prims (length tris) (MbvhModel.m_nodes mb) (mb_indices mb) (shade_body tris) turns None r = Ok (ps, rays, found) /\
    nearest_of tris r found (last rays r).
Proof.
  intros. edestruct C60_locb_quad as (ps & rays & A & B); eauto. eapply shade_mbvh; eauto.
Qed.

(** BVHs of the binned-SAH builder, for every schedule of the build. *)
Theorem C81_binned : forall m d margin tris ppl aabbs centers bv t turns o dir t0,
  let r := ray_set_t (ray_new o dir) t0 in
  mesh_fits m d margin 13 1 (ray_reports r) tris aabbs o dir -> (fval m <= 128)%R -> dirs_fine dir -> flt f0 t0 = true ->
  binned_input aabbs centers -> binned_build ppl aabbs centers bv ->
  repr (nodes bv) t -> t_idx t = 0 -> depth t <= 31 -> well_cut ppl aabbs centers (prim_indices bv) t ->
  3 * length aabbs + 1 <= turns ->
  exists ps rays found,
    iter_ray_prims (length tris) (nodes bv) (prim_indices bv) (shade_body tris) turns None r = Ok (ps, rays, found) /\
    nearest_of tris r found (last rays r).
Proof.
  intros. edestruct C60_binned as (ps & rays & A & B); eauto. eapply shade_bvh; eauto.
Qed.

Theorem C81_binned_quad : forall m d margin far tris ppl aabbs centers bv mfuel mb t turns o dir t0,
  let r := ray_set_t (ray_new o dir) t0 in
  mesh_fits m d margin 13 far (ray_reports r) tris aabbs o dir -> reaches (fval m) far dir ->
  (fval m <= 128)%R -> dirs_fine dir -> flt f0 t0 = true ->
  binned_input aabbs centers -> binned_build ppl aabbs centers bv ->
  repr (nodes bv) t -> t_idx t = 0 -> depth t <= 22 -> well_cut ppl aabbs centers (prim_indices bv) t ->
  length (nodes bv) <= mfuel -> mbvh_construct mfuel bv = Ok mb -> quad_enough mb turns ->
  exists ps rays found,
    miter_ray_prims (length tris) (MbvhModel.m_nodes mb) (mb_indices mb) (shade_body tris) turns None r = Ok (ps, rays, found) /\
    nearest_of tris r found (last rays r).
Proof.
  intros. edestruct C60_binned_quad as (ps & rays & A & B); eauto. eapply shade_mbvh; eauto.
Qed.

(** Packets: every lane that satisfies the conditions remembers its own nearest triangle. *)
Theorem C81_packet : forall m d margin far tris aabbs nodes indices t turns p t_min,
  1 <= length tris -> length tris = length aabbs -> traversable nodes indices t -> Permutation (positions t) (seq 0 (length indices)) ->
  Permutation indices (seq 0 (length aabbs)) -> roomy aabbs indices t -> enough t turns -> packet_alive nodes p = true ->
  exists ps packets found,
    iter_packet_prims (length tris) nodes indices (shade_body4 tris t_min) turns (fun _ => None) p = Ok (ps, packets, found) /\
    forall k o dir, lane_traces p k o dir ->
      mesh_fits m d margin 35 far (lane_reports p t_min k) tris aabbs o dir -> reaches (fval m) far dir ->
      (fval m <= 128)%R -> (far <= bpow radix2 127)%R -> dirs_fine dir -> fle f1em4 (wget t_min k) = true ->
      ffinite (wget (p_t p) k) -> flt f0 (wget (p_t p) k) = true ->
      lane_nearest_of tris p t_min k (found k) (wget (p_t (last packets p)) k).
Proof.
  intros. edestruct (C60_packet m d margin far) as (ps & packets & A & B); eauto.
  destruct (shade4_bvh tris _ _ turns p t_min (fun k => exists o dir, lane_traces p k o dir /\ mesh_fits m d margin 35 far (lane_reports p t_min k) tris aabbs o dir /\ reaches (fval m) far dir /\ (fval m <= 128)%R /\ (far <= bpow radix2 127)%R /\ dirs_fine dir /\ fle f1em4 (wget t_min k) = true /\ ffinite (wget (p_t p) k) /\ flt f0 (wget (p_t p) k) = true) ps packets A) as (ps2 & packets2 & found & A2 & B2).
  - intros k (o & dir & Hk). tauto.
  - intros k (o & dir & Hk). apply (B k o dir); tauto.
  - exists ps2, packets2, found. split; [exact A2|]. intros. apply B2. exists o, dir. tauto.
Qed.

Theorem C81_quad_packet : forall m d margin far tris aabbs mb ns indices t turns p t_min,
  length tris = length aabbs -> made_from mb ns indices (length aabbs) t -> roomy aabbs indices t -> depth t <= 22 -> quad_enough mb turns ->
  exists ps packets found,
    miter_packet_prims (length tris) (MbvhModel.m_nodes mb) (mb_indices mb) (shade_body4 tris t_min) turns (fun _ => None) p = Ok (ps, packets, found) /\
    forall k o dir, lane_traces p k o dir ->
      mesh_fits m d margin 35 far (lane_reports p t_min k) tris aabbs o dir -> reaches (fval m) far dir ->
      (fval m <= 128)%R -> (far <= bpow radix2 127)%R -> dirs_fine dir -> fle f1em4 (wget t_min k) = true ->
      ffinite (wget (p_t p) k) -> flt f0 (wget (p_t p) k) = true ->
      lane_nearest_of tris p t_min k (found k) (wget (p_t (last packets p)) k).
Proof.
  intros. edestruct (C60_quad_packet m d margin far) as (ps & packets & A & B); eauto.
  destruct (shade4_mbvh tris _ _ turns p t_min (fun k => exists o dir, lane_traces p k o dir /\ mesh_fits m d margin 35 far (lane_reports p t_min k) tris aabbs o dir /\ reaches (fval m) far dir /\ (fval m <= 128)%R /\ (far <= bpow radix2 127)%R /\ dirs_fine dir /\ fle f1em4 (wget t_min k) = true /\ ffinite (wget (p_t p) k) /\ flt f0 (wget (p_t p) k) = true) ps packets A) as (ps2 & packets2 & found & A2 & B2).
  - intros k (o & dir & Hk). tauto.
  - intros k (o & dir & Hk). apply (B k o dir); tauto.
  - exists ps2, packets2, found. split; [exact A2|]. intros. apply B2. exists o, dir. tauto.
Qed.

Theorem C81_locb_packet : forall m d margin far tris fuel threads aabbs centers bv t turns p t_min,
  length tris = length aabbs -> Forall (box_within f128) aabbs ->
  locb_input aabbs centers -> 1 <= threads -> 3 <= length aabbs -> locb_build fuel threads aabbs centers = Ok bv ->
  repr (nodes bv) t -> t_idx t = 0 -> depth t <= 31 -> 3 * length aabbs + 1 <= turns -> packet_alive (nodes bv) p = true ->
  exists ps packets found,
    iter_packet_prims (length tris) (nodes bv) (prim_indices bv) (shade_body4 tris t_min) turns (fun _ => None) p = Ok (ps, packets, found) /\
    forall k o dir, lane_traces p k o dir ->
      mesh_fits m d margin 35 far (lane_reports p t_min k) tris aabbs o dir -> reaches (fval m) far dir ->
      (fval m <= 128)%R -> (far <= bpow radix2 127)%R -> dirs_fine dir -> fle f1em4 (wget t_min k) = true ->
      ffinite (wget (p_t p) k) -> flt f0 (wget (p_t p) k) = true ->
      lane_nearest_of tris p t_min k (found k) (wget (p_t (last packets p)) k).
Proof.
  intros. edestruct (C60_locb_packet m d margin far) as (ps & packets & A & B); eauto.
  destruct (shade4_bvh tris _ _ turns p t_min (fun k => exists o dir, lane_traces p k o dir /\ mesh_fits m d margin 35 far (lane_reports p t_min k) tris aabbs o dir /\ reaches (fval m) far dir /\ (fval m <= 128)%R /\ (far <= bpow radix2 127)%R /\ dirs_fine dir /\ fle f1em4 (wget t_min k) = true /\ ffinite (wget (p_t p) k) /\ flt f0 (wget (p_t p) k) = true) ps packets A) as (ps2 & packets2 & found & A2 & B2).
  - intros k (o & dir & Hk). tauto.
  - intros k (o & dir & Hk). apply (B k o dir); tauto.
  - exists ps2, packets2, found. split; [exact A2|]. intros. apply B2. exists o, dir. tauto.
Qed.

Theorem C81_locb_quad_packet : forall m d margin far tris fuel threads aabbs centers bv mfuel mb t turns p t_min,
  length tris = length aabbs -> Forall (box_within f128) aabbs ->
  locb_input aabbs centers -> 1 <= threads -> 3 <= length aabbs -> locb_build fuel threads aabbs centers = Ok bv ->
  repr (nodes bv) t -> t_idx t = 0 -> depth t <= 22 ->
  length (nodes bv) <= mfuel -> mbvh_construct mfuel bv = Ok mb -> quad_enough mb turns ->
  exists ps packets found,
    miter_packet_prims (length tris) (MbvhModel.m_nodes mb) (mb_indices mb) (shade_body4 tris t_min) turns (fun _ => None) p = Ok (ps, packets, found) /\
    forall k o dir, lane_traces p k o dir ->
      mesh_fits m d margin 35 far (lane_reports p t_min k) tris aabbs o dir -> reaches (fval m) far dir ->
      (fval m <= 128)%R -> (far <= bpow radix2 127)%R -> dirs_fine dir -> fle f1em4 (wget t_min k) = true ->
      ffinite (wget (p_t p) k) -> flt f0 (wget (p_t p) k) = true ->
      lane_nearest_of tris p t_min k (found k) (wget (p_t (last packets p)) k).
Proof.
  intros. edestruct (C60_locb_quad_packet m d margin far) as (ps & packets & A & B); eauto.
  destruct (shade4_mbvh tris _ _ turns p t_min (fun k => exists o dir, lane_traces p k o dir /\ mesh_fits m d margin 35 far (lane_reports p t_min k) tris aabbs o dir /\ reaches (fval m) far dir /\ (fval m <= 128)%R /\ (far <= bpow radix2 127)%R /\ dirs_fine dir /\ fle f1em4 (wget t_min k) = true /\ ffinite (wget (p_t p) k) /\ flt f0 (wget (p_t p) k) = true) ps packets A) as (ps2 & packets2 & found & A2 & B2).
  - intros k (o & dir & Hk). tauto.
  - intros k (o & dir & Hk). apply (B k o dir); tauto.
  - exists ps2, packets2, found. split; [exact A2|]. intros. apply B2. exists o, dir. tauto.
Qed.

Theorem C81_binned_packet : forall m d margin far tris ppl aabbs centers bv t turns p t_min,
  1 <= length tris -> length tris = length aabbs -> Forall (box_within f128) aabbs ->
  binned_input aabbs centers -> binned_build ppl aabbs centers bv ->
  repr (nodes bv) t -> t_idx t = 0 -> depth t <= 31 -> well_cut ppl aabbs centers (prim_indices bv) t ->
  3 * length aabbs + 1 <= turns -> packet_alive (nodes bv) p = true ->
  exists ps packets found,
    iter_packet_prims (length tris) (nodes bv) (prim_indices bv) (shade_body4 tris t_min) turns (fun _ => None) p = Ok (ps, packets, found) /\
    forall k o dir, lane_traces p k o dir ->
      mesh_fits m d margin 35 far (lane_reports p t_min k) tris aabbs o dir -> reaches (fval m) far dir ->
      (fval m <= 128)%R -> (far <= bpow radix2 127)%R -> dirs_fine dir -> fle f1em4 (wget t_min k) = true ->
      ffinite (wget (p_t p) k) -> flt f0 (wget (p_t p) k) = true ->
      lane_nearest_of tris p t_min k (found k) (wget (p_t (last packets p)) k).
Proof.
  intros. edestruct (C60_binned_packet m d margin far) as (ps & packets & A & B); eauto.
  destruct (shade4_bvh tris _ _ turns p t_min (fun k => exists o dir, lane_traces p k o dir /\ mesh_fits m d margin 35 far (lane_reports p t_min k) tris aabbs o dir /\ reaches (fval m) far dir /\ (fval m <= 128)%R /\ (far <= bpow radix2 127)%R /\ dirs_fine dir /\ fle f1em4 (wget t_min k) = true /\ ffinite (wget (p_t p) k) /\ flt f0 (wget (p_t p) k) = true) ps packets A) as (ps2 & packets2 & found & A2 & B2).
  - intros k (o & dir & Hk). tauto.
  - intros k (o & dir & Hk). apply (B k o dir); tauto.
  - exists ps2, packets2, found. split; [exact A2|]. intros. apply B2. exists o, dir. tauto.
Qed.

Theorem C81_binned_quad_packet : forall m d margin far tris ppl aabbs centers bv mfuel mb t turns p t_min,
  length tris = length aabbs -> Forall (box_within f128) aabbs ->
  binned_input aabbs centers -> binned_build ppl aabbs centers bv ->
  repr (nodes bv) t -> t_idx t = 0 -> depth t <= 22 -> well_cut ppl aabbs centers (prim_indices bv) t ->
  length (nodes bv) <= mfuel -> mbvh_construct mfuel bv = Ok mb -> quad_enough mb turns ->
  exists ps packets found,
    miter_packet_prims (length tris) (MbvhModel.m_nodes mb) (mb_indices mb) (shade_body4 tris t_min) turns (fun _ => None) p = Ok (ps, packets, found) /\
    forall k o dir, lane_traces p k o dir ->
      mesh_fits m d margin 35 far (lane_reports p t_min k) tris aabbs o dir -> reaches (fval m) far dir ->
      (fval m <= 128)%R -> (far <= bpow radix2 127)%R -> dirs_fine dir -> fle f1em4 (wget t_min k) = true ->
      ffinite (wget (p_t p) k) -> flt f0 (wget (p_t p) k) = true ->
      lane_nearest_of tris p t_min k (found k) (wget (p_t (last packets p)) k).
Proof.
  intros. edestruct (C60_binned_quad_packet m d margin far) as (ps & packets & A & B); eauto.
  destruct (shade4_mbvh tris _ _ turns p t_min (fun k => exists o dir, lane_traces p k o dir /\ mesh_fits m d margin 35 far (lane_reports p t_min k) tris aabbs o dir /\ reaches (fval m) far dir /\ (fval m <= 128)%R /\ (far <= bpow radix2 127)%R /\ dirs_fine dir /\ fle f1em4 (wget t_min k) = true /\ ffinite (wget (p_t p) k) /\ flt f0 (wget (p_t p) k) = true) ps packets A) as (ps2 & packets2 & found & A2 & B2).
  - intros k (o & dir & Hk). tauto.
  - intros k (o & dir & Hk). apply (B k o dir); tauto.
  - exists ps2, packets2, found. split; [exact A2|]. intros. apply B2. exists o, dir. tauto.
Qed.

(** Where no two triangles are met at the same distance this determines the
    triangle: every loop remembers the same one, whatever BVH it runs over. *)
Theorem C81_same : forall tris r a ra b rb,
  no_ties tris r -> nearest_of tris r a ra -> nearest_of tris r b rb -> a = b /\ ra = rb.
Proof.
  intros tris r a ra b rb NT A B. destruct a as [i|], b as [j|]; cbn [nearest_of] in A, B.
  - destruct A as [(ta & Ea & Ha) Ma], B as [(tb & Eb & Hb) Mb].
    pose proof (Ma tb rb (nth_error_In _ _ Eb) Hb) as L1. pose proof (Mb ta ra (nth_error_In _ _ Ea) Ha) as L2.
    assert (feq (r_t ra) (r_t rb) = true) as Q by (apply feq_of_le; auto).
    assert (i = j) as -> by (eapply NT; eauto). split; auto. congruence.
  - destruct A as [(ta & Ea & Ha) _], B as [_ Mb]. specialize (Mb ta (nth_error_In _ _ Ea)). unfold ray_reports in Mb. rewrite Ha in Mb. discriminate.
  - destruct B as [(ta & Ea & Ha) _], A as [_ Mb]. specialize (Mb ta (nth_error_In _ _ Ea)). unfold ray_reports in Mb. rewrite Ha in Mb. discriminate.
  - destruct A as [-> _], B as [-> _]. auto.
Qed.

(** The scene of [C60_nonvacuous] (its hypotheses are those used here) over the
    BVH built of it: two of the three triangles are met, the nearer one is
    remembered; so also by a lane of a packet; and no two are tied. *)
Example C81_nonvacuous : exists bv, locb_build 6 2 boxes60 centers60 = Ok bv /\
  (exists ps rays, iter_ray_prims 3 (nodes bv) (prim_indices bv) (shade_body tris60) 10 None (ray_new o60 d60) = Ok (ps, rays, Some 2)) /\
  (exists ps packets found, iter_packet_prims 3 (nodes bv) (prim_indices bv) (shade_body4 tris60 (wsplat f1em4)) 10 (fun _ => None) p60 =
     Ok (ps, packets, found) /\ found 2 = Some 2) /\
  map (ray_reports (ray_new o60 d60)) tris60 = [true; false; true] /\ no_ties tris60 (ray_new o60 d60).
Proof.
  destruct (ok_with _ (locb_build 6 2 boxes60 centers60) (fun bv =>
    match iter_ray_prims 3 (nodes bv) (prim_indices bv) (shade_body tris60) 10 None (ray_new o60 d60),
          iter_packet_prims 3 (nodes bv) (prim_indices bv) (shade_body4 tris60 (wsplat f1em4)) 10 (fun _ => None) p60 with
    | Ok (_, _, Some 2), Ok (_, _, f) => match f 2 with Some 2 => true | _ => false end | _, _ => false end)) as (bv & E & H); [vm_compute; reflexivity|].
  exists bv. split; [exact E|].
  destruct (iter_ray_prims _ _ _ _ _ _ _) as [[[ps rays] [[|[|[|x]]]|]]| | |]; try discriminate H.
  destruct (iter_packet_prims _ _ _ _ _ _ _) as [[[ps2 rays2] f]| | |]; try discriminate H.
  split; [exists ps, rays; reflexivity|]. split.
  { exists ps2, rays2, f. split; [reflexivity|]. destruct (f 2) as [[|[|[|x]]]|]; try discriminate H. reflexivity. }
  assert (map (ray_reports (ray_new o60 d60)) tris60 = [true; false; true]) as Rp by (vm_compute; reflexivity).
  split; [exact Rp|].
  assert (forall i tr r', nth_error tris60 i = Some tr -> tri_intersect tr (ray_new o60 d60) = (true, r') ->
    r_t r' = (if i =? 0 then fz 2 else fz 1) /\ (i = 0 \/ i = 2)) as Q.
  { intros i tr r' Et Eh.
    assert (nth_error (map (ray_reports (ray_new o60 d60)) tris60) i = Some true) as Rn.
    { rewrite nth_error_map, Et. cbn [option_map]. unfold ray_reports. rewrite Eh. reflexivity. }
    rewrite Rp in Rn. destruct i as [|[|[|i]]]; try discriminate Rn; [| |destruct i; discriminate Rn].
    - split; [|auto]. cbn [nth_error tris60] in Et. 
      assert (r_t r' = r_t (snd (tri_intersect tr (ray_new o60 d60)))) as -> by (rewrite Eh; reflexivity).
      assert (tr = tri60 1) as -> by (cbn in Et; congruence). apply B2SF_inj. vm_compute. reflexivity.
    - split; [|auto]. 
      assert (r_t r' = r_t (snd (tri_intersect tr (ray_new o60 d60)))) as -> by (rewrite Eh; reflexivity).
      assert (tr = tri60 0) as -> by (cbn in Et; congruence). apply B2SF_inj. vm_compute. reflexivity. }
  intros i j a b ra rb Ea Eb Ha Hb F. destruct (Q _ _ _ Ea Ha) as [Fa [-> | ->]], (Q _ _ _ Eb Hb) as [Fb [-> | ->]]; auto; exfalso; cbn [Nat.eqb] in Fa, Fb; rewrite Fa, Fb in F; vm_compute in F; discriminate.
Qed.
