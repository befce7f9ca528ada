(** * Properties C07 (accuracy) and C08: slab tests for a ray and for a packet *)
Require Import List ZArith Bool Reals Lra Lia.
From Flocq Require Import Core BinarySingleNaN.
From Verif Require Import F32 F32Facts Vec RayModel AabbModel SpecGeom SpecSlab AabbProofs MeasureProofs SlabProofs
  Slab4Proofs PropBox.
Import ListNotations.

(** The reading of [exact_entry]/[exact_exit]: the parameters between them are
    those at which the exact ray is in the box. *)
Theorem C08_exact : forall b o d t, dirs_normal d -> vfinite (bmin b) -> vfinite (bmax b) -> vle (bmin b) (bmax b) ->
  (ray_point_in b o d t <-> (exact_entry b o d <= t <= exact_exit b o d)%R).
Proof.
  assert (forall lo hi o d t : R, d <> 0 -> lo <= hi ->
    (lo <= o + t * d <= hi <-> Rmin ((lo - o) / d) ((hi - o) / d) <= t <= Rmax ((lo - o) / d) ((hi - o) / d)))%R as AX.
  { intros lo hi o d t D L.
    destruct (Rlt_or_le 0 d) as [P|P].
    - assert ((lo - o) / d <= (hi - o) / d)%R by (apply Rmult_le_compat_r; [apply Rlt_le, Rinv_0_lt_compat|]; lra).
      rewrite Rmin_left, Rmax_right by auto.
      split; intros [A B]; split.
      + apply Rmult_le_reg_r with d; auto. unfold Rdiv. rewrite Rmult_assoc, Rinv_l by lra. lra.
      + apply Rmult_le_reg_r with d; auto. unfold Rdiv. rewrite Rmult_assoc, Rinv_l by lra. lra.
      + apply Rmult_le_compat_r with (r := d) in A; [|lra]. unfold Rdiv in A. rewrite Rmult_assoc, Rinv_l in A by lra. lra.
      + apply Rmult_le_compat_r with (r := d) in B; [|lra]. unfold Rdiv in B. rewrite Rmult_assoc, Rinv_l in B by lra. lra.
    - assert (0 < - d)%R as Q by lra.
      assert (forall x, x / d = - (x / - d))%R as N by (intro; field; lra).
      assert ((hi - o) / d <= (lo - o) / d)%R.
      { rewrite !N. apply Ropp_le_contravar. apply Rmult_le_compat_r; [apply Rlt_le, Rinv_0_lt_compat|]; lra. }
      rewrite Rmin_right, Rmax_left by auto. rewrite !N.
      split; intros [A B]; split.
      + apply Rmult_le_reg_r with (- d)%R; auto. replace (- ((hi - o) / - d) * - d)%R with (- (hi - o))%R by (field; lra). lra.
      + apply Rmult_le_reg_r with (- d)%R; auto. replace (- ((lo - o) / - d) * - d)%R with (- (lo - o))%R by (field; lra). lra.
      + apply Rmult_le_compat_r with (r := (- d)%R) in B; [|lra].
        replace (- ((lo - o) / - d) * - d)%R with (- (lo - o))%R in B by (field; lra). lra.
      + apply Rmult_le_compat_r with (r := (- d)%R) in A; [|lra].
        replace (- ((hi - o) / - d) * - d)%R with (- (hi - o))%R in A by (field; lra). lra. }
  assert (forall d, dir_normal d -> fval d <> 0%R) as NZ.
  { intros d [_ [A _]] Z. rewrite Z, Rabs_R0 in A. pose proof (bpow_gt_0 radix2 (-126)). lra. }
  assert (forall x y : f32, ffinite x -> ffinite y -> fle x y = true -> (fval x <= fval y)%R) as LE.
  { intros x y A B C. unfold ffinite, fval in *. rewrite <- !fr_fin by auto. apply fle_spec; auto using fin_notnan. }
  intros b o d t (D1 & D2 & D3) (F1 & F2 & F3) (G1 & G2 & G3) (L1 & L2 & L3).
  unfold ray_point_in, exact_entry, exact_exit, slab_in, slab_out.
  rewrite (AX _ _ _ _ t (NZ _ D1) (LE _ _ F1 G1 L1)), (AX _ _ _ _ t (NZ _ D2) (LE _ _ F2 G2 L2)),
          (AX _ _ _ _ t (NZ _ D3) (LE _ _ F3 G3 L3)).
  assert (forall a b c : R, (Rmax a b <= c <-> a <= c /\ b <= c)%R) as MX.
  { intros a b' c. split; [intro H; split; eapply Rle_trans; try apply H; [apply Rmax_l|apply Rmax_r]|].
    intros [H1 H2]. apply Rmax_lub; auto. }
  assert (forall a b c : R, (c <= Rmin a b <-> c <= a /\ c <= b)%R) as MN.
  { intros a b' c. split; [intro H; split; eapply Rle_trans; try apply H; [apply Rmin_l|apply Rmin_r]|].
    intros [H1 H2]. apply Rmin_glb; auto. }
  rewrite !MX, !MN. tauto.
Qed.

(** A packet built from four origins and directions carries them in its lanes,
    whatever the current distances are. *)
Theorem C08_packet_lanes : forall o0 o1 o2 o3 d0 d1 d2 d3 i o d t,
  nth_error [o0; o1; o2; o3] i = Some o -> nth_error [d0; d1; d2; d3] i = Some d ->
  lane_is (packet_set_t (packet_new o0 o1 o2 o3 d0 d1 d2 d3) t) i (V3 (wx o) (wy o) (wz o)) (V3 (wx d) (wy d) (wz d)).
Proof.
  intros o0 o1 o2 o3 d0 d1 d2 d3 i o d t A B.
  destruct i as [|[|[|[|i]]]]; simpl in A, B; try (destruct i; discriminate);
    (match type of A with Some ?x = Some ?y => assert (y = x) as -> by congruence end);
    (match type of B with Some ?x = Some ?y => assert (y = x) as -> by congruence end);
    (split; [lia|split; reflexivity]).
Qed.

(** One lane that hits nearer than its current distance makes the whole packet
    hit: the exact ray is in the box at [t1] and at [t2] with
    [t1 (1 + 2^-20) <= t2 <= p.t[i]]. *)
Theorem C08_complete : forall b p i o d t1 t2,
  lane_is p i o d -> box_within f1e34 b -> vwithin f1e34 o -> axes_fine b o d ->
  (bpow radix2 (-126) <= t1)%R -> (t1 * (1 + / 1048576) <= t2)%R -> (t2 <= bpow radix2 127)%R ->
  ray_point_in b o d t1 -> ray_point_in b o d t2 ->
  ffinite (wget (p_t p) i) -> (t2 <= fval (wget (p_t p) i))%R ->
  exists ts, intersect4 b p = Some ts.
Proof.
  intros b p i o d t1 t2 L W Wo X A B U P1 P2 F T.
  pose proof (intersect4_spec b p) as S. destruct (intersect4 b p) as [ts|]; eauto.
  exfalso. assert (i < 4)%nat as I by (destruct L; auto).
  specialize (S i I). destruct (slabs4_lane b p i o d L) as [-> ->] in S.
  destruct (lane_accept b o d t1 t2 (wget (p_t p) i)) as (H1 & H2 & H3); auto.
  rewrite H1, H2, H3 in S. discriminate.
Qed.

(** Every finite lane of the answer is the entry distance of that lane's exact
    ray up to rounding, for all four lanes, hit or not. *)
Theorem C08_entry : forall b p ts i o d,
  intersect4 b p = Some ts -> lane_is p i o d -> box_within f1e34 b -> vwithin f1e34 o -> dirs_normal d ->
  fnan (wget ts i) = false /\ (ffinite (wget ts i) -> near (wget ts i) (exact_entry b o d)).
Proof.
  intros b p ts i o d E L W Wo D.
  pose proof (intersect4_spec b p) as S. rewrite E in S. destruct S as [-> _].
  destruct (slabs4_lane b p i o d L) as [-> _].
  destruct (near4_apx b o d W Wo D) as [A _]. split; [apply A|]. apply apx_near; auto.
Qed.

(** When the test accepts, some lane justifies it: with its exact entry and
    exit distance replaced by roundings [x] and [y] of them, [x < y], [0 < y]
    and [x < p.t[i]]. *)
Theorem C08_sound : forall b p ts, box_within f1e34 b ->
  (forall i, (i < 4)%nat -> exists o d, lane_is p i o d /\ vwithin f1e34 o /\ dirs_normal d) ->
  intersect4 b p = Some ts ->
  exists i o d x y, (i < 4)%nat /\ lane_is p i o d /\ x = wget ts i /\
    fgt y f0 = true /\ flt x y = true /\ flt x (wget (p_t p) i) = true /\
    (ffinite x -> near x (exact_entry b o d)) /\ (ffinite y -> near y (exact_exit b o d)).
Proof.
  intros b p ts W L E. pose proof (intersect4_spec b p) as S. rewrite E in S.
  destruct S as [-> (i & I & H1 & H2 & H3)]. destruct (L i I) as (o & d & Li & Wo & D).
  exists i, o, d, (wget (fst (bb_slabs4 b p)) i), (wget (snd (bb_slabs4 b p)) i).
  destruct (slabs4_lane b p i o d Li) as [E1 E2].
  destruct (near4_apx b o d W Wo D) as [A1 A2]. rewrite E1, E2 in *.
  split; auto. split; auto. split; auto. split; auto. split; auto. split; auto.
  split; intros; apply apx_near; auto.
Qed.

(** The scalar test: a reported distance is the exit distance of the exact ray
    up to rounding, and not below a rounding of its entry distance. *)
Theorem C07_value : forall b o d t0 x,
  box_within f1e34 b -> vwithin f1e34 o -> dirs_normal d -> vle (bmin b) (bmax b) ->
  intersect b (ray_set_t (ray_new o d) t0) = Some x ->
  fnan x = false /\ (ffinite x -> near x (exact_exit b o d)) /\
  exists y, (ffinite y -> near y (exact_entry b o d)) /\ fle y x = true.
Proof.
  intros b o d t0 x W Wo D L H. destruct (intersect_value b o d t0 x W Wo D L H) as (A & y & B & C).
  split; [apply A|]. split; [intro; apply apx_near; auto|]. exists y. split; auto. intro; apply apx_near; auto.
Qed.

(** A concrete packet: four rays from x = -1 along +x; lane 1 hits, the others
    pass the box by. *)
Definition ex_box4 : aabb := bx 0 0 0 2 2 2.
Definition e8 : f32 := @B754_finite 24 128 false 8388608 (-26) eq_refl. (* 1/8 *)
Definition o4 (y : Z) : vec4 := V4 (fneg f1) (fz y) f1 f0.
Definition d4 : vec4 := V4 f1 e8 e8 f0.
Definition ex_packet4 : packet := packet_new (o4 9) (o4 1) (o4 (-9)) (o4 5) d4 d4 d4 d4.
Lemma e8_val : B2R e8 = (1 / 8)%R.
Proof. unfold e8, B2R, F2R; cbn [Fnum Fexp cond_Zopp]. simpl. lra. Qed.
Lemma e8_normal : dir_normal e8.
Proof.
  split; [reflexivity|]. unfold fval. rewrite e8_val, Rabs_pos_eq by lra.
  split; [apply Rle_trans with (bpow radix2 (-3)); [apply bpow_le; lia|simpl; lra]|].
  apply Rle_trans with (bpow radix2 0); [simpl; lra|apply bpow_le; lia].
Qed.
Lemma f1_normal : dir_normal f1.
Proof.
  assert (B2R f1 = 1%R) as V1 by (rewrite <- fr_f1; symmetry; apply fr_fin; reflexivity).
  split; [reflexivity|]. unfold fval. rewrite V1, Rabs_R1.
  change 1%R with (bpow radix2 0). split; apply bpow_le; lia.
Qed.

Example C08_nonvacuous : exists ts, intersect4 ex_box4 ex_packet4 = Some ts /\
  (forall i, (i < 4)%nat -> exists o d, lane_is ex_packet4 i o d /\ vwithin f1e34 o /\ dirs_normal d) /\
  lane_is ex_packet4 1 (V3 (fneg f1) (fz 1) f1) (V3 f1 e8 e8) /\
  ray_point_in ex_box4 (V3 (fneg f1) (fz 1) f1) (V3 f1 e8 e8) 1 /\
  ray_point_in ex_box4 (V3 (fneg f1) (fz 1) f1) (V3 f1 e8 e8) 2 /\
  ffinite (wget (p_t ex_packet4) 1) /\ (2 <= fval (wget (p_t ex_packet4) 1))%R /\
  axes_fine ex_box4 (V3 (fneg f1) (fz 1) f1) (V3 f1 e8 e8).
Proof.
  assert (B2R (fz 0) = 0%R) as E0 by (vm_compute; reflexivity).
  assert (fz 2 = f2) as E2 by (apply B2SF_inj; vm_compute; reflexivity).
  assert (fz 1 = f1) as E1 by (apply B2SF_inj; vm_compute; reflexivity).
  assert (B2R f2 = 2%R) as V2.
  { unfold f2, B2R, F2R; cbn [Fnum Fexp cond_Zopp bpow]. simpl. lra. }
  assert (B2R f1 = 1%R) as V1 by (rewrite <- fr_f1; symmetry; apply fr_fin; reflexivity).
  assert (B2R (fneg f1) = (-1)%R) as Vm by (unfold fneg; rewrite B2R_Bopp, V1; lra).
  assert (forall i, (i < 4)%nat -> exists y, 
    lane_is ex_packet4 i (V3 (fneg f1) (fz y) f1) (V3 f1 e8 e8) /\ vwithin f1e34 (V3 (fneg f1) (fz y) f1)) as L.
  { intros i I. destruct i as [|[|[|[|i]]]]; [exists 9%Z|exists 1%Z|exists (-9)%Z|exists 5%Z|lia];
      (split; [split; [lia|split; reflexivity]|conc]). }
  exists (fst (bb_slabs4 ex_box4 ex_packet4)). split.
  { assert (many (mand (mand (wcmp fgt (snd (bb_slabs4 ex_box4 ex_packet4)) (wsplat f0))
        (wcmp fgt (snd (bb_slabs4 ex_box4 ex_packet4)) (fst (bb_slabs4 ex_box4 ex_packet4))))
        (wcmp flt (fst (bb_slabs4 ex_box4 ex_packet4)) (p_t ex_packet4))) = true) as X by (vm_compute; reflexivity).
    unfold intersect4. rewrite (surjective_pairing (bb_slabs4 ex_box4 ex_packet4)).
    cbv beta iota zeta. rewrite X. reflexivity. }
  split.
  { intros i I. destruct (L i I) as (y & A & B). exists (V3 (fneg f1) (fz y) f1), (V3 f1 e8 e8). split; auto. split; auto.
    split; [apply f1_normal|split; apply e8_normal]. }
  split; [split; [lia|split; reflexivity]|].
  rewrite E1.
  split; [|split; [|split; [reflexivity|split]]].
  - unfold ray_point_in, ex_box4, bx, pt, fval; cbn [bmin bmax vx vy vz]. rewrite E2, E0, V2, Vm, V1, e8_val. lra.
  - unfold ray_point_in, ex_box4, bx, pt, fval; cbn [bmin bmax vx vy vz]. rewrite E2, E0, V2, Vm, V1, e8_val. lra.
  - change (wget (p_t ex_packet4) 1) with f1e34. unfold fval. rewrite <- V2.
    rewrite <- !fr_fin by reflexivity. apply fle_spec; reflexivity.
  - split; [left; apply f1_normal|split; left; apply e8_normal].
Qed.

Example C07_value_nonvacuous : exists x,
  box_within f1e34 ex_box4 /\ vwithin f1e34 (V3 (fneg f1) (fz 1) f1) /\ dirs_normal (V3 f1 e8 e8) /\
  vle (bmin ex_box4) (bmax ex_box4) /\
  intersect ex_box4 (ray_set_t (ray_new (V3 (fneg f1) (fz 1) f1) (V3 f1 e8 e8)) f1) = Some x /\ ffinite x.
Proof.
  assert (match intersect ex_box4 (ray_set_t (ray_new (V3 (fneg f1) (fz 1) f1) (V3 f1 e8 e8)) f1) with
          | Some x => is_finite x | None => false end = true) as X by (vm_compute; reflexivity).
  destruct (intersect ex_box4 _) as [x|]; [|discriminate]. exists x.
  split; [conc|]. split; [conc|]. split; [split; [apply f1_normal|split; apply e8_normal]|].
  split; [conc|]. split; auto.
Qed.

(** The claim fails for a box of zero thickness, even one hit head on by all
    four rays, although the scalar test accepts the same ray: the packet test
    wants [t_max > t_min]. *)
Theorem C08_flat_refuted : exists b p r,
  vle (bmin b) (bmax b) /\ packet_ray p 1 = Base.Ok r /\ lane_is p 1 (r_origin r) (r_dir r) /\
  dirs_normal (r_dir r) /\ ray_point_in b (r_origin r) (r_dir r) 2 /\
  intersect4 b p = None /\ exists x, intersect b r = Some x.
Proof.
  assert (fz 1 = f1) as E1 by (apply B2SF_inj; vm_compute; reflexivity).
  assert (B2R (fz 0) = 0%R) as E0 by (vm_compute; reflexivity).
  assert (fz 2 = f2) as E2 by (apply B2SF_inj; vm_compute; reflexivity).
  assert (B2R f2 = 2%R) as V2.
  { unfold f2, B2R, F2R; cbn [Fnum Fexp cond_Zopp bpow]. simpl. lra. }
  assert (B2R f1 = 1%R) as V1 by (rewrite <- fr_f1; symmetry; apply fr_fin; reflexivity).
  assert (B2R (fneg f1) = (-1)%R) as Vm by (unfold fneg; rewrite B2R_Bopp, V1; lra).
  exists (bx 1 0 0 1 2 2), (packet_new (o4 1) (o4 1) (o4 1) (o4 1) d4 d4 d4 d4),
    (ray_new (V3 (fneg f1) (fz 1) f1) (V3 f1 e8 e8)).
  split; [conc|]. split; [reflexivity|]. split; [split; [lia|split; reflexivity]|].
  split; [split; [apply f1_normal|split; apply e8_normal]|]. split.
  { unfold ray_new; cbn [r_origin r_dir]. unfold ray_point_in, bx, pt, fval; cbn [bmin bmax vx vy vz].
    rewrite E2, E1, E0, V2, Vm, V1, e8_val. lra. }
  split.
  - assert (match intersect4 (bx 1 0 0 1 2 2) (packet_new (o4 1) (o4 1) (o4 1) (o4 1) d4 d4 d4 d4) with
            | Some _ => false | None => true end = true) as X by (vm_compute; reflexivity).
    destruct (intersect4 _ _); [discriminate|reflexivity].
  - assert (match intersect (bx 1 0 0 1 2 2) (ray_new (V3 (fneg f1) (fz 1) f1) (V3 f1 e8 e8)) with
            | Some _ => true | None => false end = true) as X by (vm_compute; reflexivity).
    destruct (intersect _ _); [eauto|discriminate].
Qed.
