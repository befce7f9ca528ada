(** * Property C82, the image drawn four rays at a time *)
Require Import List ZArith Bool Lia Permutation Arith.
Require Import Reals Lra.
From Flocq Require Import Core BinarySingleNaN.
From Verif Require Import F32 F32Facts Vec RayModel Base AabbModel NodeModel IterModel BinnedModel BinnedProofs MbvhModel SpecGeom SpecSlab SpecTree SpecTraverse SpecMbvh
  LocbModel SpecBinned BinnedFacts BinnedCost BinnedRoom TriModel SpecTri SpecMesh
  PropBox PropSlab PropTraverse PropLocb PropNoMiss PropMbvh PropBinned PropNoMissBinned PropTri PropTriError
  SpecMeasure PropMesh SpecShade PropShade CameraModel SpecCamera PropCamera VisualModel PropVisual BenchModel PropBench PropBench4 SameIter PropSame.
Import ListNotations.
Local Open Scope nat_scope.

(** visualizer.rs:247-279, the packet loops of the demo: they iterate over
    ids and look triangles up without a bounds check. *)
Definition trace_bvh4 (tris : list tri) (nodes : list aabb) (indices : list nat) (turns : nat) (p : packet) : res (nat -> option nat) :=
  do (_, _, found) <- iter_packet_indices nodes indices (shade_body4 tris (wsplat f1em4)) turns (fun _ => None) p; Ok found.
Definition trace_mbvh4 (tris : list tri) (ms : list mnode) (indices : list nat) (turns : nat) (p : packet) : res (nat -> option nat) :=
  do (_, _, found) <- miter_packet_indices ms indices (shade_body4 tris (wsplat f1em4)) turns (fun _ => None) p; Ok found.

(** The packet of pixels (x, y) .. (x + 3, y). *)
Definition packet_at (c : camera) (x y : nat) : packet :=
  generate_ray4 c (Z.of_nat x) (Z.of_nat x + 1) (Z.of_nat x + 2) (Z.of_nat x + 3) (Z.of_nat y) (Z.of_nat y) (Z.of_nat y) (Z.of_nat y).

(** Every pixel shows a triangle nearest along a lane that is its ray. *)
Definition shows_nearest4 (c : camera) (w h : nat) (tris : list tri) (frame : list Z) : Prop :=
  forall x y, x < w -> y < h -> exists x0 k found t', x = x0 + k /\ k < 4 /\
    packet_ray (packet_at c x0 y) k = Ok (generate_ray c (Z.of_nat x) (Z.of_nat y)) /\
    lane_nearest_of tris (packet_at c x0 y) (wsplat f1em4) k found t' /\
    forall b, b < 4 -> nth_error frame (4 * (y * w + x) + b) = nth_error (pixel_bytes tris found) b.

(** Every lane of every packet of the view satisfies the rounding conditions
    of C60. *)
Definition view_fits4 (m : f32) (d margin far : R) (c : camera) (w h : nat) (tris : list tri) (aabbs : list aabb) : Prop :=
  forall x y k, x < w -> x mod 4 = 0 -> y < h -> k < 4 -> let p := packet_at c x y in
    mesh_fits m d margin 35 far (lane_reports p (wsplat f1em4) k) tris aabbs (lane_origin p k) (lane_dir p k) /\
    reaches (fval m) far (lane_dir p k) /\ dirs_fine (lane_dir p k).

Lemma view_packets : forall m d margin far c w h tris aabbs x y, view_fits4 m d margin far c w h tris aabbs -> x < w -> x mod 4 = 0 -> y < h ->
  packets_fit m d margin far [packet_at c x y] tris aabbs.
Proof. intros m d margin far c w h tris aabbs x y V Lx Mx Ly p k [<- |[]] Lk. apply V; auto. Qed.

Lemma image4_of : forall c q h tris trace order frame, let w := 4 * q in
  1 <= q -> (Z.of_nat w < 2 ^ 32)%Z -> (Z.of_nat (w * h) <= 2 ^ 32)%Z -> length frame = 4 * (w * h) ->
  Permutation order (seq 0 (length frame / 16)) ->
  (forall x y, x < w -> x mod 4 = 0 -> y < h -> exists found, trace (packet_at c x y) = Ok found /\
     forall k, k < 4 -> exists t', lane_nearest_of tris (packet_at c x y) (wsplat f1em4) k (found k) t') ->
  exists frame', for_chunks 16 (draw_four c w tris trace) order frame = Ok frame' /\ length frame' = length frame /\
    shows_nearest4 c w h tris frame'.
Proof.
  intros c q h tris trace order frame w L1 L2 L3 L4 P T.
  destruct (C82_packets c q h tris trace (fun x y => match trace (packet_at c x y) with Ok f => f | _ => fun _ => None end)
    order frame L1 L2 L3 L4 P) as (frame' & E & L & N).
  { intros x y Lx Mx Ly. destruct (T x y Lx Mx Ly) as (f & Tr & _). fold (packet_at c x y). rewrite Tr. reflexivity. }
  exists frame'. split; [exact E|]. split; [exact L|]. intros x y Lx Ly.
  destruct (N x y Lx Ly) as (x0 & k & Ex & Mx & Lk & Pr & B). fold w in Lx.
  destruct (T x0 y ltac:(lia) Mx Ly) as (f & Tr & Nr). destruct (Nr k Lk) as (t' & Nk).
  exists x0, k, (f k), t'. split; [exact Ex|]. split; [exact Lk|]. split; [exact Pr|]. split; [exact Nk|].
  intros b Lb. unfold w. rewrite (B b Lb), Tr. reflexivity.
Qed.

Lemma view_lane : forall m d margin far c w h tris aabbs x y k, view_fits4 m d margin far c w h tris aabbs -> x < w -> x mod 4 = 0 -> y < h -> k < 4 ->
  let p := packet_at c x y in
  lane_traces p k (lane_origin p k) (lane_dir p k) /\
  mesh_fits m d margin 35 far (lane_reports p (wsplat f1em4) k) tris aabbs (lane_origin p k) (lane_dir p k) /\
  reaches (fval m) far (lane_dir p k) /\ dirs_fine (lane_dir p k) /\
  fle f1em4 (wget (wsplat f1em4) k) = true /\ ffinite (wget (p_t p) k) /\ flt f0 (wget (p_t p) k) = true.
Proof.
  intros m d margin far c w h tris aabbs x y k V Lx Mx Ly Lk p. destruct (V x y k Lx Mx Ly Lk) as (A & B & C). fold p in A, B, C.
  destruct (camera_packet c (Z.of_nat x) (Z.of_nat x + 1) (Z.of_nat x + 2) (Z.of_nat x + 3) (Z.of_nat y) (Z.of_nat y) (Z.of_nat y) (Z.of_nat y) k Lk) as [T D].
  fold (packet_at c x y) in T, D. fold p in T, D. rewrite D, (wget_splat _ _ Lk). repeat (split; [assumption|]). split; [reflexivity|]. split; reflexivity.
Qed.

Theorem C82_image4_locb : forall m d margin far tris fuel threads aabbs centers bv t turns c q h order frame, let w := 4 * q in
  length tris = length aabbs -> Forall (box_within f128) aabbs ->
  view_fits4 m d margin far c w h tris aabbs -> (fval m <= 128)%R -> (far <= bpow radix2 127)%R ->
  locb_input aabbs centers -> 1 <= threads -> 3 <= length aabbs -> locb_build fuel threads aabbs centers = Ok bv ->
  repr (nodes bv) t -> t_idx t = 0 -> depth t <= 31 -> 3 * length aabbs + 1 <= turns ->
  1 <= q -> (Z.of_nat w < 2 ^ 32)%Z -> (Z.of_nat (w * h) <= 2 ^ 32)%Z -> length frame = 4 * (w * h) ->
  Permutation order (seq 0 (length frame / 16)) ->
  exists frame', for_chunks 16 (draw_four c w tris (trace_bvh4 tris (nodes bv) (prim_indices bv) turns)) order frame = Ok frame' /\
    length frame' = length frame /\ shows_nearest4 c w h tris frame'.
Proof.
  intros. rename H1 into F. apply image4_of; auto. intros x y Lx Mx Ly.
  pose proof (alive (nodes bv) _ _ _ _ _ _ _ (packet_at c x y) (repr_some _ _ H8) (view_packets _ _ _ _ _ _ _ _ _ x y F Lx Mx Ly) (or_introl eq_refl)) as Al.
  edestruct (C81_locb_packet m d margin far tris fuel threads aabbs centers bv t turns (packet_at c x y) (wsplat f1em4)) as (ps & packets & found & E & Nr); eauto.
  exists found. unfold trace_bvh4. rewrite <- C86_packet with (n := length tris) by ((rewrite H; lia) || (rewrite H; destruct (C86_locb fuel threads aabbs centers bv t) as [Bl Bm]; auto; lia)). rewrite E. split; [reflexivity|]. intros k L.
  destruct (view_lane _ _ _ _ _ _ _ _ _ x y k F Lx Mx Ly L) as (Tr & A & B & C & D & G & K). eexists. eapply Nr; eauto.
Qed.
Theorem C82_image4_locb_quad : forall m d margin far tris fuel threads aabbs centers bv mfuel mb t turns c q h order frame, let w := 4 * q in
  length tris = length aabbs -> Forall (box_within f128) aabbs ->
  view_fits4 m d margin far c w h tris aabbs -> (fval m <= 128)%R -> (far <= bpow radix2 127)%R ->
  locb_input aabbs centers -> 1 <= threads -> 3 <= length aabbs -> locb_build fuel threads aabbs centers = Ok bv ->
  repr (nodes bv) t -> t_idx t = 0 -> depth t <= 22 ->
  length (nodes bv) <= mfuel -> mbvh_construct mfuel bv = Ok mb -> quad_enough mb turns ->
  1 <= q -> (Z.of_nat w < 2 ^ 32)%Z -> (Z.of_nat (w * h) <= 2 ^ 32)%Z -> length frame = 4 * (w * h) ->
  Permutation order (seq 0 (length frame / 16)) ->
  exists frame', for_chunks 16 (draw_four c w tris (trace_mbvh4 tris (MbvhModel.m_nodes mb) (mb_indices mb) turns)) order frame = Ok frame' /\
    length frame' = length frame /\ shows_nearest4 c w h tris frame'.
Proof.
  intros. rename H1 into F. apply image4_of; auto. intros x y Lx Mx Ly.
  edestruct (C81_locb_quad_packet m d margin far tris fuel threads aabbs centers bv mfuel mb t turns (packet_at c x y) (wsplat f1em4)) as (ps & packets & found & E & Nr); eauto.
  exists found. unfold trace_mbvh4. rewrite <- C86_quad_packet with (n := length tris) by (rewrite H; destruct (C86_locb fuel threads aabbs centers bv t) as [Bl Bm]; eauto; lia). rewrite E. split; [reflexivity|]. intros k L.
  destruct (view_lane _ _ _ _ _ _ _ _ _ x y k F Lx Mx Ly L) as (Tr & A & B & C & D & G & K). eexists. eapply Nr; eauto.
Qed.
Theorem C82_image4_binned : forall m d margin far tris ppl aabbs centers bv t turns c q h order frame, let w := 4 * q in
  1 <= length tris -> length tris = length aabbs -> Forall (box_within f128) aabbs ->
  view_fits4 m d margin far c w h tris aabbs -> (fval m <= 128)%R -> (far <= bpow radix2 127)%R ->
  binned_input aabbs centers -> binned_build ppl aabbs centers bv ->
  repr (nodes bv) t -> t_idx t = 0 -> depth t <= 31 -> well_cut ppl aabbs centers (prim_indices bv) t ->
  3 * length aabbs + 1 <= turns ->
  1 <= q -> (Z.of_nat w < 2 ^ 32)%Z -> (Z.of_nat (w * h) <= 2 ^ 32)%Z -> length frame = 4 * (w * h) ->
  Permutation order (seq 0 (length frame / 16)) ->
  exists frame', for_chunks 16 (draw_four c w tris (trace_bvh4 tris (nodes bv) (prim_indices bv) turns)) order frame = Ok frame' /\
    length frame' = length frame /\ shows_nearest4 c w h tris frame'.
Proof.
  intros. rename H2 into F. apply image4_of; auto. intros x y Lx Mx Ly.
  pose proof (alive (nodes bv) _ _ _ _ _ _ _ (packet_at c x y) (repr_some _ _ H7) (view_packets _ _ _ _ _ _ _ _ _ x y F Lx Mx Ly) (or_introl eq_refl)) as Al.
  edestruct (C81_binned_packet m d margin far tris ppl aabbs centers bv t turns (packet_at c x y) (wsplat f1em4)) as (ps & packets & found & E & Nr); eauto.
  exists found. unfold trace_bvh4. rewrite <- C86_packet with (n := length tris) by (assumption || (rewrite H0; destruct (C86_binned ppl aabbs centers bv t) as [Bl Bm]; auto; lia)). rewrite E. split; [reflexivity|]. intros k L.
  destruct (view_lane _ _ _ _ _ _ _ _ _ x y k F Lx Mx Ly L) as (Tr & A & B & C & D & G & K). eexists. eapply Nr; eauto.
Qed.
Theorem C82_image4_binned_quad : forall m d margin far tris ppl aabbs centers bv mfuel mb t turns c q h order frame, let w := 4 * q in
  length tris = length aabbs -> Forall (box_within f128) aabbs ->
  view_fits4 m d margin far c w h tris aabbs -> (fval m <= 128)%R -> (far <= bpow radix2 127)%R ->
  binned_input aabbs centers -> binned_build ppl aabbs centers bv ->
  repr (nodes bv) t -> t_idx t = 0 -> depth t <= 22 -> well_cut ppl aabbs centers (prim_indices bv) t ->
  length (nodes bv) <= mfuel -> mbvh_construct mfuel bv = Ok mb -> quad_enough mb turns ->
  1 <= q -> (Z.of_nat w < 2 ^ 32)%Z -> (Z.of_nat (w * h) <= 2 ^ 32)%Z -> length frame = 4 * (w * h) ->
  Permutation order (seq 0 (length frame / 16)) ->
  exists frame', for_chunks 16 (draw_four c w tris (trace_mbvh4 tris (MbvhModel.m_nodes mb) (mb_indices mb) turns)) order frame = Ok frame' /\
    length frame' = length frame /\ shows_nearest4 c w h tris frame'.
Proof.
  intros. rename H1 into F. apply image4_of; auto. intros x y Lx Mx Ly.
  edestruct (C81_binned_quad_packet m d margin far tris ppl aabbs centers bv mfuel mb t turns (packet_at c x y) (wsplat f1em4)) as (ps & packets & found & E & Nr); eauto.
  exists found. unfold trace_mbvh4. rewrite <- C86_quad_packet with (n := length tris) by (rewrite H; destruct (C86_binned ppl aabbs centers bv t) as [Bl Bm]; eauto; lia). rewrite E. split; [reflexivity|]. intros k L.
  destruct (view_lane _ _ _ _ _ _ _ _ _ x y k F Lx Mx Ly L) as (Tr & A & B & C & D & G & K). eexists. eapply Nr; eauto.
Qed.

(** The scene of C60 seen by a camera at its origin, a frame of 4 x 2 pixels
    drawn second row first. *)
Lemma view60_4 : view_fits4 (fz 1) 1 0 3 (cam82 (V3 f0 f0 f0)) 4 2 tris60 boxes60.
Proof.
  intros x y k Lx Mx Ly Lk. cbv zeta. assert (x = 0) as -> by (destruct x as [|[|[|[|x]]]]; [reflexivity|discriminate|discriminate|discriminate|lia]).
  refine (packets60 _ k _ Lk). destruct y as [|[|y]]; [left; reflexivity|right; left; reflexivity|lia].
Qed.
Example C82_applies4 : exists bv, locb_build 6 2 boxes60 centers60 = Ok bv /\
  exists frame, for_chunks 16 (draw_four (cam82 (V3 f0 f0 f0)) 4 tris60 (trace_bvh4 tris60 (nodes bv) (prim_indices bv) 10)) [1; 0] (repeat 9%Z 32) = Ok frame /\
    shows_nearest4 (cam82 (V3 f0 f0 f0)) 4 2 tris60 frame.
Proof.
  destruct C60_nonvacuous as (_ & _ & M & _ & I & Bw & (bv & E & Ln & _) & _).
  exists bv. split; [exact E|].
  pose proof I as (L & N1 & Mx).
  destruct (LocbProofs.locb_sound 14 6 2 boxes60 centers60 bv) as (t & Rp & T0 & Pi & _ & _ & Ln' & _); auto; [lia|].
  assert (depth t <= 31) as Dt.
  { apply Permutation_length in Pi. rewrite ClosestProofs.t_ids_size, seq_length, Ln in Pi. pose proof (ClosestProofs.depth_leaves t). pose proof (ClosestProofs.size_leaves t). lia. }
  assert (length boxes60 = 3) as L3 by reflexivity.
  assert (3 <= bpow radix2 127)%R as B3 by (apply Rle_trans with (bpow radix2 2); [cbn; lra|apply bpow_le; lia]).
  destruct (C82_image4_locb (fz 1) 1 0 3 tris60 6 2 boxes60 centers60 bv t 10 (cam82 (V3 f0 f0 f0)) 1 2 [1; 0] (repeat 9%Z 32)) as (frame & A & _ & B);
    auto using view60_4; rewrite ?L3; try reflexivity; try lia.
  - apply perm_swap.
  - exists frame. split; [exact A|exact B].
Qed.
