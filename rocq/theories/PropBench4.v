(** * Property C84, the packets *)
Require Import List ZArith Bool Lia Permutation Arith.
Require Import Reals Lra.
From Flocq Require Import Core BinarySingleNaN.
From Verif Require Import F32 F32Facts Vec RayModel Base AabbModel NodeModel IterModel BinnedModel BinnedProofs MbvhModel SpecGeom SpecSlab SpecTree SpecTraverse SpecMbvh
  LocbModel SpecBinned BinnedFacts BinnedCost BinnedRoom TriModel SpecTri SpecMesh
  PropBox PropSlab PropTraverse PropLocb PropNoMiss PropMbvh PropBinned PropNoMissBinned PropTri PropTriError
  SpecMeasure PropMesh SpecShade PropShade CameraModel SpecCamera PropCamera VisualModel PropVisual BenchModel PropBench.
Import ListNotations.
Local Open Scope nat_scope.

(** benchmark.rs:60-62, 68-70: the inner loop of [intersect_packets]; the
    smallest distance is 1e-4 in every lane. *)
Definition bench_packet (tris : list tri) (nodes : list aabb) (indices : list nat) (turns : nat) (p : packet) : res packet :=
  do (_, packets, _) <- iter_packet_prims (length tris) nodes indices (mesh_body4 tris (wsplat f1em4)) turns tt p; Ok (last packets p).
Definition bench_mpacket (tris : list tri) (ms : list mnode) (indices : list nat) (turns : nat) (p : packet) : res packet :=
  do (_, packets, _) <- miter_packet_prims (length tris) ms indices (mesh_body4 tris (wsplat f1em4)) turns tt p; Ok (last packets p).

(** However the packets are spread over threads, every complete run leaves
    every lane cut off at the nearest triangle along it. *)
Definition benched4 (trace : packet -> res packet) (size : nat) (tris : list tri) (l : list packet) : Prop :=
  exists l', each_in_turn trace l = Ok l' /\ length l' = length l /\
    (forall i p, nth_error l i = Some p -> exists p', nth_error l' i = Some p' /\
       forall k, k < 4 -> exists found, lane_nearest_of tris p (wsplat f1em4) k found (wget (p_t p') k)) /\
    forall k s, par_run trace size k (par_start l) s ->
      k <= length l /\ (k = length l -> fst s = l') /\ (k < length l -> exists s', par_step trace size s s').

(** Every lane of every packet satisfies the rounding conditions of C60. *)
Definition lane_origin (p : packet) (k : nat) : vec3 := V3 (wget (p_ox p) k) (wget (p_oy p) k) (wget (p_oz p) k).
Definition lane_dir (p : packet) (k : nat) : vec3 := V3 (wget (p_dx p) k) (wget (p_dy p) k) (wget (p_dz p) k).
Definition packets_fit (m : f32) (d margin far : R) (l : list packet) (tris : list tri) (aabbs : list aabb) : Prop :=
  forall p k, In p l -> k < 4 ->
    mesh_fits m d margin 35 far (lane_reports p (wsplat f1em4) k) tris aabbs (lane_origin p k) (lane_dir p k) /\
    reaches (fval m) far (lane_dir p k) /\ dirs_fine (lane_dir p k).

Lemma wget_splat : forall a k, k < 4 -> wget (wsplat a) k = a.
Proof. intros a [|[|[|[|k]]]] L; try reflexivity; lia. Qed.

Lemma bench_packet_in : forall c frames w h p, In p (bench_packets c frames w h) ->
  exists x y, p = generate_ray4 c x (x + 1) (x + 2) (x + 3) y y y y.
Proof.
  intros c frames w h p H. apply in_flat_map in H. destruct H as (f & _ & H). apply in_flat_map in H. destruct H as (y & Hy & H).
  apply in_map_iff in H. destruct H as (x & E & Hx). exists (Z.of_nat (4 * x)), (Z.of_nat y). symmetry. exact E.
Qed.
Lemma camera_packet : forall c x0 x1 x2 x3 y0 y1 y2 y3 k, k < 4 ->
  let p := generate_ray4 c x0 x1 x2 x3 y0 y1 y2 y3 in
  lane_traces p k (lane_origin p k) (lane_dir p k) /\ wget (p_t p) k = f1e34.
Proof.
  intros c x0 x1 x2 x3 y0 y1 y2 y3 k L p.
  assert (exists t, wget (p_t p) k = t /\ t = f1e34) as (t & E1 & E2) by (exists f1e34; split; [apply (wget_splat f1e34 k L)|reflexivity]).
  split; [|congruence]. split; [exact L|]. split; [reflexivity|]. split; [reflexivity|].
  unfold lane_dir. cbn [vx vy vz].
  assert (forall a, wget (wdiv (wsplat f1) a) k = fdiv f1 (wget a k)) as W by (intro a; destruct k as [|[|[|[|k]]]]; try reflexivity; lia).
  unfold p, generate_ray4. cbv zeta. cbn [p_ix p_iy p_iz p_dx p_dy p_dz]. rewrite !W. reflexivity.
Qed.

Lemma benched4_of : forall trace size tris c frames w h, 1 <= size ->
  (forall p, In p (bench_packets c frames w h) -> exists p', trace p = Ok p' /\
     forall k, k < 4 -> wget (p_t p') k = wget (p_t (snd (client_fold (mesh_body4 tris (wsplat f1em4)) (seq 0 (length tris)) tt p))) k) ->
  benched4 trace size tris (bench_packets c frames w h).
Proof.
  intros trace size tris c frames w h Hs H.
  destruct (C84_parallel packet trace size (bench_packets c frames w h) Hs) as (l' & E & Le & Nt & P).
  - intros p Hp. destruct (H p Hp) as (p' & T & _). eauto.
  - exists l'. split; [exact E|]. split; [exact Le|]. split; [|exact P]. intros i p Ei.
    destruct (Nt i p Ei) as (p' & T & E'). pose proof (nth_error_In _ _ Ei) as Ip. destruct (H p Ip) as (p2 & T2 & B).
    assert (p2 = p') as -> by congruence. exists p'. split; [exact E'|]. intros k Lk. rewrite (B k Lk).
    eexists. apply shade4_nearest; [|reflexivity].
    destruct (bench_packet_in _ _ _ _ _ Ip) as (x & y & ->). destruct (camera_packet c x (x + 1) (x + 2) (x + 3) y y y y k Lk) as [_ ->]. reflexivity.
Qed.

Lemma wnan_none : forall w, (forall k, k < 4 -> fnan (wget w k) = false) -> wnan w = false.
Proof.
  intros [a b c d] H. pose proof (H 0 ltac:(lia)) as A. pose proof (H 1 ltac:(lia)) as B. pose proof (H 2 ltac:(lia)) as C. pose proof (H 3 ltac:(lia)) as D.
  cbn [wget wx wy wz ww] in A, B, C, D. unfold wnan. cbn [wx wy wz ww]. rewrite A, B, C, D. reflexivity.
Qed.
Lemma fle_not_nan : forall a b, fle a b = true -> fnan b = false.
Proof. intros a b H. destruct b; try reflexivity. destruct a as [[]|[]| |[]]; discriminate H. Qed.
Lemma ffinite_not_nan : forall a : f32, ffinite a -> fnan a = false.
Proof. intros [| | |] H; try reflexivity; discriminate H. Qed.

Lemma alive : forall ns m d margin far l tris aabbs p, ns <> [] -> packets_fit m d margin far l tris aabbs -> In p l -> packet_alive ns p = true.
Proof.
  intros ns m d margin far l tris aabbs p Hn F Ip.
  assert (forall k, k < 4 -> vwithin m (lane_origin p k) /\ coords_within d (lane_dir p k)) as H.
  { intros k L. destruct (F p k Ip L) as ((_ & _ & A & _ & _ & _ & B & _) & _). split; assumption. }
  unfold packet_alive. destruct ns as [|n ns]; [congruence|].
  rewrite !wnan_none; [reflexivity|..]; intros k L; destruct (H k L) as [[(A1 & A2 & A3) _] ((F1 & F2 & F3) & _)]; cbn [lane_origin lane_dir vx vy vz] in *;
    eauto using fle_not_nan, ffinite_not_nan.
Qed.
Lemma repr_some : forall (ns : list aabb) t, repr ns t -> ns <> [].
Proof. intros ns t H E. subst ns. destruct t; cbn [repr] in H; destruct H as [H _]; match type of H with nth_error [] ?i = _ => destruct i; discriminate H end. Qed.

Lemma fit_lane : forall m d margin far c frames w h tris aabbs p k, packets_fit m d margin far (bench_packets c frames w h) tris aabbs ->
  In p (bench_packets c frames w h) -> k < 4 ->
  lane_traces p k (lane_origin p k) (lane_dir p k) /\
  mesh_fits m d margin 35 far (lane_reports p (wsplat f1em4) k) tris aabbs (lane_origin p k) (lane_dir p k) /\
  reaches (fval m) far (lane_dir p k) /\ dirs_fine (lane_dir p k) /\
  fle f1em4 (wget (wsplat f1em4) k) = true /\ ffinite (wget (p_t p) k) /\ flt f0 (wget (p_t p) k) = true.
Proof.
  intros m d margin far c frames w h tris aabbs p k F Ip L. destruct (F p k Ip L) as (A & B & C).
  destruct (bench_packet_in _ _ _ _ _ Ip) as (x & y & E). destruct (camera_packet c x (x + 1) (x + 2) (x + 3) y y y y k L) as [T D].
  rewrite <- E in T, D. rewrite D, (wget_splat _ _ L). repeat (split; [assumption|]). split; [reflexivity|]. split; reflexivity.
Qed.

(** ** The packet loops over the trees each builder makes *)
Theorem C84_locb_packets : forall m d margin far tris fuel threads aabbs centers bv t turns c frames w h size,
  length tris = length aabbs -> Forall (box_within f128) aabbs ->
  packets_fit m d margin far (bench_packets c frames w h) tris aabbs -> (fval m <= 128)%R -> (far <= bpow radix2 127)%R ->
  locb_input aabbs centers -> 1 <= threads -> 3 <= length aabbs -> locb_build fuel threads aabbs centers = Ok bv ->
  repr (nodes bv) t -> t_idx t = 0 -> depth t <= 31 -> 3 * length aabbs + 1 <= turns -> 1 <= size ->
  benched4 (bench_packet tris (nodes bv) (prim_indices bv) turns) size tris (bench_packets c frames w h).
Proof.
  intros. rename H1 into F. apply benched4_of; auto. intros p Ip. pose proof (alive (nodes bv) _ _ _ _ _ _ _ p (repr_some _ _ H8) F Ip) as Al.
  edestruct (C60_locb_packet m d margin far tris fuel threads aabbs centers bv t turns p (wsplat f1em4)) as (ps & packets & E & Nr); eauto.
  exists (last packets p). unfold bench_packet. rewrite E. split; [reflexivity|]. intros k L.
  destruct (fit_lane _ _ _ _ _ _ _ _ _ _ p k F Ip L) as (Tr & A & B & C & D & G & K). eapply Nr; eauto.
Qed.
Theorem C84_locb_quad_packets : forall m d margin far tris fuel threads aabbs centers bv mfuel mb t turns c frames w h size,
  length tris = length aabbs -> Forall (box_within f128) aabbs ->
  packets_fit m d margin far (bench_packets c frames w h) tris aabbs -> (fval m <= 128)%R -> (far <= bpow radix2 127)%R ->
  locb_input aabbs centers -> 1 <= threads -> 3 <= length aabbs -> locb_build fuel threads aabbs centers = Ok bv ->
  repr (nodes bv) t -> t_idx t = 0 -> depth t <= 22 ->
  length (nodes bv) <= mfuel -> mbvh_construct mfuel bv = Ok mb -> quad_enough mb turns -> 1 <= size ->
  benched4 (bench_mpacket tris (MbvhModel.m_nodes mb) (mb_indices mb) turns) size tris (bench_packets c frames w h).
Proof.
  intros. rename H1 into F. apply benched4_of; auto. intros p Ip.
  edestruct (C60_locb_quad_packet m d margin far tris fuel threads aabbs centers bv mfuel mb t turns p (wsplat f1em4)) as (ps & packets & E & Nr); eauto.
  exists (last packets p). unfold bench_mpacket. rewrite E. split; [reflexivity|]. intros k L.
  destruct (fit_lane _ _ _ _ _ _ _ _ _ _ p k F Ip L) as (Tr & A & B & C & D & G & K). eapply Nr; eauto.
Qed.
Theorem C84_binned_packets : forall m d margin far tris ppl aabbs centers bv t turns c frames w h size,
  1 <= length tris -> length tris = length aabbs -> Forall (box_within f128) aabbs ->
  packets_fit m d margin far (bench_packets c frames w h) tris aabbs -> (fval m <= 128)%R -> (far <= bpow radix2 127)%R ->
  binned_input aabbs centers -> binned_build ppl aabbs centers bv ->
  repr (nodes bv) t -> t_idx t = 0 -> depth t <= 31 -> well_cut ppl aabbs centers (prim_indices bv) t ->
  3 * length aabbs + 1 <= turns -> 1 <= size ->
  benched4 (bench_packet tris (nodes bv) (prim_indices bv) turns) size tris (bench_packets c frames w h).
Proof.
  intros. rename H2 into F. apply benched4_of; auto. intros p Ip. pose proof (alive (nodes bv) _ _ _ _ _ _ _ p (repr_some _ _ H7) F Ip) as Al.
  edestruct (C60_binned_packet m d margin far tris ppl aabbs centers bv t turns p (wsplat f1em4)) as (ps & packets & E & Nr); eauto.
  exists (last packets p). unfold bench_packet. rewrite E. split; [reflexivity|]. intros k L.
  destruct (fit_lane _ _ _ _ _ _ _ _ _ _ p k F Ip L) as (Tr & A & B & C & D & G & K). eapply Nr; eauto.
Qed.
Theorem C84_binned_quad_packets : forall m d margin far tris ppl aabbs centers bv mfuel mb t turns c frames w h size,
  length tris = length aabbs -> Forall (box_within f128) aabbs ->
  packets_fit m d margin far (bench_packets c frames w h) tris aabbs -> (fval m <= 128)%R -> (far <= bpow radix2 127)%R ->
  binned_input aabbs centers -> binned_build ppl aabbs centers bv ->
  repr (nodes bv) t -> t_idx t = 0 -> depth t <= 22 -> well_cut ppl aabbs centers (prim_indices bv) t ->
  length (nodes bv) <= mfuel -> mbvh_construct mfuel bv = Ok mb -> quad_enough mb turns -> 1 <= size ->
  benched4 (bench_mpacket tris (MbvhModel.m_nodes mb) (mb_indices mb) turns) size tris (bench_packets c frames w h).
Proof.
  intros. rename H1 into F. apply benched4_of; auto. intros p Ip.
  edestruct (C60_binned_quad_packet m d margin far tris ppl aabbs centers bv mfuel mb t turns p (wsplat f1em4)) as (ps & packets & E & Nr); eauto.
  exists (last packets p). unfold bench_mpacket. rewrite E. split; [reflexivity|]. intros k L.
  destruct (fit_lane _ _ _ _ _ _ _ _ _ _ p k F Ip L) as (Tr & A & B & C & D & G & K). eapply Nr; eauto.
Qed.

(** The scene of C60 seen by the camera of C82: every packet fits, so the
    packet benchmark over the BVH built of it is correct. *)
Lemma packets60 : packets_fit (fz 1) 1 0 3 (bench_packets (cam82 (V3 f0 f0 f0)) 2 2 2) tris60 boxes60.
Proof.
  destruct C60_nonvacuous as (Fit & Rc & _ & Fine & _).
  intros p k Ip L.
  assert (exists y, y < 2 /\ p = generate_ray4 (cam82 (V3 f0 f0 f0)) 0 1 2 3 (Z.of_nat y) (Z.of_nat y) (Z.of_nat y) (Z.of_nat y)) as (y & Ly & ->).
  { apply in_flat_map in Ip. destruct Ip as (f & _ & H). apply in_flat_map in H. destruct H as (y & Hy & H). apply in_seq in Hy.
    cbn [Nat.div Nat.divmod Nat.add fst seq map] in H. destruct H as [<- |[]]. exists y. split; [lia|reflexivity]. }
  assert (forall a b : vec3, B2SF (vx a) = B2SF (vx b) -> B2SF (vy a) = B2SF (vy b) -> B2SF (vz a) = B2SF (vz b) -> a = b) as V.
  { intros [] []; cbn; intros A B C. apply B2SF_inj in A. apply B2SF_inj in B. apply B2SF_inj in C. congruence. }
  match goal with |- context [lane_dir ?q k] =>
    assert (lane_dir q k = d60) as -> by (destruct y as [|[|y]]; [| |lia]; (destruct k as [|[|[|[|k]]]]; [| | | |lia]); apply V; vm_compute; reflexivity);
    assert (lane_origin q k = o60) as -> by (destruct k as [|[|[|[|k]]]]; [| | | |lia]; reflexivity) end.
  split; [apply Fit; lra|]. split; [exact Rc|exact Fine].
Qed.
Example C84_applies_packets : exists bv, locb_build 6 2 boxes60 centers60 = Ok bv /\
  length (bench_packets (cam82 (V3 f0 f0 f0)) 2 2 2) = 4 /\
  benched4 (bench_packet tris60 (nodes bv) (prim_indices bv) 10) 3 tris60 (bench_packets (cam82 (V3 f0 f0 f0)) 2 2 2).
Proof.
  destruct C60_nonvacuous as (_ & _ & M & _ & I & Bw & (bv & E & Ln & _) & _).
  exists bv. split; [exact E|]. split; [reflexivity|].
  pose proof I as (L & N1 & Mx).
  destruct (LocbProofs.locb_sound 14 6 2 boxes60 centers60 bv) as (t & Rp & T0 & Pi & _ & _ & Ln' & _); auto; [lia|].
  assert (depth t <= 31) as Dt.
  { apply Permutation_length in Pi. rewrite ClosestProofs.t_ids_size, seq_length, Ln in Pi. pose proof (ClosestProofs.depth_leaves t). pose proof (ClosestProofs.size_leaves t). lia. }
  assert (length boxes60 = 3) as L3 by reflexivity.
  assert (3 <= bpow radix2 127)%R as B3 by (apply Rle_trans with (bpow radix2 2); [cbn; lra|apply bpow_le; lia]).
  apply (C84_locb_packets (fz 1) 1 0 3 tris60 6 2 boxes60 centers60 bv t 10); auto using packets60; rewrite ?L3; lia.
Qed.
