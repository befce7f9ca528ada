(** * Properties C07, C09, C10: the scalar slab test, ray constructors, node encoding *)
Require Import List ZArith Bool Reals Lra Lia.
From Flocq Require Import Core BinarySingleNaN.
From Verif Require Import F32 F32Facts Vec RayModel AabbModel Base NodeModel SpecGeom AabbProofs MeasureProofs SlabProofs PropBox.
Import ListNotations.

(** ** C07 *)

(** If the exact ray [o + t d] is in the box at [t1] and at a slightly larger
    [t2] (relative slack 2^-21, for rounding), the test accepts, the reported
    value exceeds [t_min] and is not smaller than [t1]; [t0] is the current
    [ray.t], which the test ignores. *)
Theorem C07_intersect_complete : forall b o d t0 t1 t2,
  box_within f1e34 b -> vwithin f1e34 o -> axes_fine b o d ->
  (fval f1em4 <= t1)%R -> (t1 * (1 + / 2097152) <= t2)%R ->
  ray_point_in b o d t1 -> ray_point_in b o d t2 ->
  exists x, intersect b (ray_set_t (ray_new o d) t0) = Some x /\ fnan x = false /\
            fgt x f1em4 = true /\ (ffinite x -> (t1 <= fval x)%R).
Proof. exact intersect_complete. Qed.

(** The boolean variant accepts at least as much. *)
Theorem C07_intersects : forall b r x, fle f0 (r_tmin r) = true -> intersect b r = Some x -> intersects b r = true.
Proof.
  intros b r x P. unfold intersect, intersects. cbv zeta.
  repeat match goal with |- context [if ?c then _ else _] => destruct c eqn:? end; try discriminate;
    intros _;
    match goal with |- fgt ?x f0 = true => apply (fle_lt f0 (r_tmin r) x); auto end.
Qed.

(** A reported value always exceeds [t_min]. *)
Theorem C07_above_tmin : forall b r x, intersect b r = Some x -> fgt x (r_tmin r) = true.
Proof.
  intros b r x H. unfold intersect in H. cbv zeta in H.
  repeat match type of H with context [if ?c then _ else _] => destruct c eqn:? end; try discriminate;
    injection H as <-; auto.
Qed.

Example C07_nonvacuous : exists b o d t1 t2,
  box_within f1e34 b /\ vwithin f1e34 o /\ axes_fine b o d /\
  (fval f1em4 <= t1)%R /\ (t1 * (1 + / 2097152) <= t2)%R /\ ray_point_in b o d t1 /\ ray_point_in b o d t2.
Proof.
  exists (bx 0 0 0 2 2 2), (V3 (fneg f1) f1 f1), (V3 f1 f0 f0), 1%R, 2%R.
  assert (B2R (fz 0) = 0%R) as E0 by (vm_compute; reflexivity).
  assert (fz 2 = f2) as E2 by (apply B2SF_inj; vm_compute; reflexivity).
  assert (B2R f2 = 2%R) as V2.
  { unfold f2, B2R, F2R; cbn [Fnum Fexp cond_Zopp bpow]. simpl. lra. }
  assert (B2R f1 = 1%R) as V1 by (rewrite <- fr_f1; symmetry; apply fr_fin; reflexivity).
  assert (B2R (fneg f1) = (-1)%R) as Vm by (unfold fneg; rewrite B2R_Bopp, V1; lra).
  split; [conc|]. split; [conc|]. split.
  { split; [left|split; right].
    - split; [reflexivity|]. unfold fval; cbn [vx]. rewrite V1, Rabs_R1.
      change 1%R with (bpow radix2 0). split; apply bpow_le; lia.
    - split; [reflexivity|]. split; vm_compute; reflexivity.
    - split; [reflexivity|]. split; vm_compute; reflexivity. }
  split; [change (fval f1em4) with (fr f1em4); rewrite fr_1em4; lra|]. split; [lra|].
  unfold ray_point_in, bx, pt, fval; cbn [bmin bmax vx vy vz]. rewrite E2, E0, V2, Vm, V1.
  change (B2R f0) with 0%R. lra.
Qed.

(** The claim fails for a direction component [-0.0] (which e.g. negating a
    direction produces): the ray runs through the middle of the box and is
    rejected, because [1/-0.0 = -inf] while the sign flag says "positive". *)
Theorem C07_negative_zero_refuted : exists b o d,
  box_within f1e34 b /\ vwithin f1e34 o /\ vlt (bmin b) (V3 f1 f1 f1) /\ vlt (V3 f1 f1 f1) (bmax b) /\
  d = V3 f1 fm0 f0 /\ o = V3 (fneg f1) f1 f1 /\
  intersect b (ray_new o d) = None /\
  (exists x, intersect b (ray_new o (V3 f1 f0 f0)) = Some x).
Proof.
  exists (bx 0 0 0 2 2 2), (V3 (fneg f1) f1 f1), (V3 f1 fm0 f0).
  split; [conc|]. split; [conc|]. split; [conc|]. split; [conc|]. split; [reflexivity|]. split; [reflexivity|].
  split; [vm_compute; reflexivity|].
  destruct (intersect (bx 0 0 0 2 2 2) (ray_new (V3 (fneg f1) f1 f1) (V3 f1 f0 f0))) eqn:E; eauto.
  exfalso. assert (match intersect (bx 0 0 0 2 2 2) (ray_new (V3 (fneg f1) f1 f1) (V3 f1 f0 f0)) with
                   | Some _ => true | None => false end = true) as X by (vm_compute; reflexivity).
  rewrite E in X. discriminate.
Qed.

(** ** C09 *)
Theorem C09_ray_new : forall o d, 
  r_origin (ray_new o d) = o /\ r_dir (ray_new o d) = d /\
  r_inv (ray_new o d) = V3 (fdiv f1 (vx d)) (fdiv f1 (vy d)) (fdiv f1 (vz d)) /\
  (r_sx (ray_new o d) = true <-> flt (vx d) f0 = true) /\
  (r_sy (ray_new o d) = true <-> flt (vy d) f0 = true) /\
  (r_sz (ray_new o d) = true <-> flt (vz d) f0 = true) /\
  r_tmin (ray_new o d) = f1em4 /\ r_t (ray_new o d) = f1e34.
Proof. intros; repeat split; auto. Qed.

Theorem C09_ray_from : forall o d, ray_from (o, d) = ray_new o d.
Proof. reflexivity. Qed.

Theorem C09_reset : forall o d t, ray_reset (ray_set_t (ray_new o d) t) = ray_new o d.
Proof. reflexivity. Qed.

(** Lane [i] of a packet is the ray made of the [i]-th origin and direction. *)
Theorem C09_packet_ray : forall o0 o1 o2 o3 d0 d1 d2 d3 i o d t,
  let p := packet_new o0 o1 o2 o3 d0 d1 d2 d3 in
  nth_error [o0; o1; o2; o3] i = Some o -> nth_error [d0; d1; d2; d3] i = Some d ->
  packet_ray p i = Ok (ray_new (V3 (wx o) (wy o) (wz o)) (V3 (wx d) (wy d) (wz d))) /\
  packet_ray (packet_set_t p t) i = Ok (ray_set_t (ray_new (V3 (wx o) (wy o) (wz o)) (V3 (wx d) (wy d) (wz d))) (wget t i)) /\
  packet_reset (packet_set_t p t) = p.
Proof.
  intros o0 o1 o2 o3 d0 d1 d2 d3 i o d t p Ho Hd.
  destruct i as [|[|[|[|i]]]]; simpl in Ho, Hd; try (destruct i; discriminate);
    injection Ho as <-; injection Hd as <-; auto.
Qed.
(** The packet's reciprocal fields are those of the lanes' rays. *)
Theorem C09_packet_inv : forall o0 o1 o2 o3 d0 d1 d2 d3 i r,
  packet_ray (packet_new o0 o1 o2 o3 d0 d1 d2 d3) i = Ok r ->
  r_inv r = V3 (wget (p_ix (packet_new o0 o1 o2 o3 d0 d1 d2 d3)) i)
               (wget (p_iy (packet_new o0 o1 o2 o3 d0 d1 d2 d3)) i)
               (wget (p_iz (packet_new o0 o1 o2 o3 d0 d1 d2 d3)) i).
Proof.
  intros o0 o1 o2 o3 d0 d1 d2 d3 [|[|[|[|i]]]] r H; cbn in H; try discriminate; injection H as <-; reflexivity.
Qed.
(** A fifth lane does not exist. *)
Theorem C09_packet_ray_range : forall p i, 4 <= i -> packet_ray p i = Panic.
Proof. intros p [|[|[|[|i]]]] H; try lia; reflexivity. Qed.

(** ** C10 *)
Definition u31 (z : Z) : Prop := (0 <= z < 2147483648)%Z.

Theorem C10_count : forall n c, u31 c ->
  get_count (set_count n (Some c)) = Some c /\ get_count (set_count n None) = None.
Proof.
  intros n c H. unfold u31 in H. unfold get_count, set_count; cbn [ex1].
  rewrite as_i32_small by auto. destruct (Z.leb_spec 0 c); [|lia].
  rewrite as_u32_small by lia. auto.
Qed.
Theorem C10_left_first : forall n l, u31 l ->
  get_left_first (set_left_first n (Some l)) = Some l /\ get_left_first (set_left_first n None) = None.
Proof.
  intros n l H. unfold u31 in H. unfold get_left_first, set_left_first; cbn [ex2].
  rewrite as_i32_small by auto. destruct (Z.leb_spec 0 l); [|lia].
  rewrite as_u32_small by lia. auto.
Qed.
(** Setting one field touches neither the box nor the other field. *)
Theorem C10_frame : forall n c l,
  bmin (set_count n c) = bmin n /\ bmax (set_count n c) = bmax n /\ get_left_first (set_count n c) = get_left_first n /\
  bmin (set_left_first n l) = bmin n /\ bmax (set_left_first n l) = bmax n /\ get_count (set_left_first n l) = get_count n.
Proof. intros; repeat split; reflexivity. Qed.
(** A new node is a leaf without primitives, and its box is empty: growing it
    by one point gives that point. *)
Theorem C10_new : get_count node_new = Some 0%Z /\ get_left_first node_new = Some 0%Z /\
  is_leaf node_new = true /\ has_children node_new = false /\ is_valid node_new = false /\
  forall p, vwithin f1e34 p -> box_in (grow node_new p) (Bb p 0 p 0) /\ in_box (grow node_new p) p.
Proof.
  split; [reflexivity|]. split; [reflexivity|]. split; [reflexivity|]. split; [reflexivity|]. split; [vm_compute; reflexivity|].
  intros p W. split; [apply C01_grow_from_empty; exact W|].
  destruct W as [A B]. assert (vok p) as V by (apply vle_ok in B; tauto).
  unfold grow, node_new, aabb_new, in_box; cbn [bmin bmax]. split; [apply vmin_le_r|apply vmax_ge_r]; auto; vm_compute; auto.
Qed.
(** The predicates are determined by what is stored. *)
Theorem C10_predicates : forall n,
  (is_leaf n = true <-> exists c, get_count n = Some c) /\
  (node_valid n = true <-> exists l, get_left_first n = Some l) /\
  (has_children n = true <-> get_count n = None /\ exists l, get_left_first n = Some l) /\
  (is_leaf n = true -> has_children n = false).
Proof.
  intro n. unfold is_leaf, node_valid, has_children, get_count, get_left_first.
  destruct (Z.leb_spec 0 (ex1 n)); destruct (Z.leb_spec 0 (ex2 n)); destruct (Z.ltb_spec (ex1 n) 0); try lia;
    repeat split; simpl; intros; auto; try discriminate; eauto;
    repeat match goal with H : exists _, _ |- _ => destruct H | H : _ /\ _ |- _ => destruct H end; discriminate.
Qed.
(** Counts of 2^31 and more do not fit: they read back as "no count". *)
Theorem C10_large_count_lost : forall n c, (2147483648 <= c < 4294967296)%Z -> get_count (set_count n (Some c)) = None.
Proof.
  intros n c H. unfold get_count, set_count, as_i32; cbn [ex1]. rewrite Z.mod_small by lia.
  destruct (Z.ltb_spec c 2147483648); [lia|]. destruct (Z.leb_spec 0 (c - 4294967296)); auto; lia.
Qed.

Example C10_nonvacuous : exists n, get_count n = Some 3%Z /\ get_left_first n = Some 17%Z /\ is_leaf n = true.
Proof. exists (set_left_first (set_count node_new (Some 3%Z)) (Some 17%Z)). auto. Qed.
