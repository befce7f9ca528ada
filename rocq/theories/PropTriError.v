(** * Property C38 with f32 rounding *)
Require Import List ZArith Bool Reals Lra Lia.
From Flocq Require Import Core BinarySingleNaN.
From Verif Require Import F32 F32Facts Vec RayModel SpecGeom Base TriModel SpecTri TriProofs TriError PropBox PropTri.
Import ListNotations.
Local Open Scope R_scope.

Lemma within_vin : forall b v, coords_within b v -> vin b v.
Proof.
  intros b v ((F1 & F2 & F3) & B1 & B2 & B3). unfold vin. rewrite !fr_fin by auto. unfold ffinite, fval in *. auto.
Qed.
Lemma within_rv : forall b v, coords_within b v -> rvf v = rv v.
Proof. intros b v ((F1 & F2 & F3) & _). unfold rvf, rv. rewrite !fr_fin by auto. reflexivity. Qed.

(** Shape of the two soundness statements, from what TriError.v proves. *)
Lemma near_of : forall b d v0 v1 v2 o dir A z, 1 <= b -> 1 <= d -> 0 < A -> ffinite z ->
  (exists w1 w2 T,
      rx o + T * rx dir = (1 - w1 - w2) * rx v0 + w1 * rx v1 + w2 * rx v2 /\
      ry o + T * ry dir = (1 - w1 - w2) * ry v0 + w1 * ry v1 + w2 * ry v2 /\
      rz o + T * rz dir = (1 - w1 - w2) * rz v0 + w1 * rz v1 + w2 * rz v2 /\
      - (379 * ue * (b * (d * b)) / A) <= w1 /\ - (379 * ue * (b * (d * b)) / A) <= w2 /\
      w1 + w2 <= 1 + 2 * (379 * ue * (b * (d * b)) / A) + 2 * ue /\
      fin z /\ Rabs (fr z - T) <= ue * (b * (d * b) * (165 * Rabs (fr z) + 1) + 472 * (b * (b * b))) / A) ->
  exists t, near_triangle (half_ulp * (758 * (b * b * d) / A + 2)) v0 v1 v2 o dir t /\
    Rabs (fval z - t) <= half_ulp * (b * b * d * (165 * Rabs (fval z) + 1) + 472 * (b * b * b)) / A.
Proof.
  intros b d v0 v1 v2 o dir A z Hb Hd PA Fz (w1 & w2 & T & Ex & Ey & Ez & L1 & L2 & L3 & Ft & Et).
  rewrite fr_fin in Et by auto. exists T. assert (0 < / A) as PI by (apply Rinv_0_lt_compat; auto).
  assert (ue = half_ulp) as Eu by (unfold half_ulp, ue; simpl; lra). rewrite Eu in *.
  assert (0 < half_ulp) as PU by (unfold half_ulp; lra).
  set (e := 379 * half_ulp * (b * (d * b)) / A) in *.
  assert (0 <= e) as Pe. { unfold e, Rdiv. apply Rmult_le_pos; [|lra]. apply Rmult_le_pos; [lra|]. apply Rmult_le_pos; [lra|]. apply Rmult_le_pos; lra. }
  assert (half_ulp * (758 * (b * b * d) / A + 2) = 2 * e + 2 * half_ulp) as Ee by (unfold e; field; lra).
  split.
  - exists (1 - w1 - w2), w1, w2. rewrite Ee. repeat split; auto; lra.
  - eapply Rle_trans; [exact Et|]. apply Req_le. change (B2R z) with (fval z). unfold Rdiv. ring.
Qed.

(** Whatever the f32 test reports is near the truth: with vertices and origin
    within [b], direction within [d] (both between 1 and 2^20) and [A] the
    facing product, the ray passes the plane at some exact [t] whose
    barycentric coordinates are above -(758 b²d/|A| + 2) half-ulps, and the
    reported distance is off by a bounded number of half-ulps. *)
Theorem C38_f32_sound : forall b d tr r r', 1 <= b <= 1048576 -> 1 <= d <= 1048576 ->
  coords_within b (tv0 tr) -> coords_within b (tv1 tr) -> coords_within b (tv2 tr) ->
  coords_within b (r_origin r) -> coords_within d (r_dir r) ->
  let A := Rabs (facing (rv (tv0 tr)) (rv (tv1 tr)) (rv (tv2 tr)) (rv (r_dir r))) in
  A <> 0 ->
  tri_intersect tr r = (true, r') ->
  ffinite (r_t r') /\
  exists t, near_triangle (half_ulp * (758 * (b * b * d) / A + 2)) (rv (tv0 tr)) (rv (tv1 tr)) (rv (tv2 tr)) (rv (r_origin r)) (rv (r_dir r)) t /\
    Rabs (fval (r_t r') - t) <= half_ulp * (b * b * d * (165 * Rabs (fval (r_t r')) + 1) + 472 * (b * b * b)) / A.
Proof.
  intros b d tr r r' Hb Hd H0 H1 H2 Ho Hdir A NZ Hit.
  assert (bpow radix2 20 = 1048576) as E20 by (simpl; lra).
  pose proof (hit_near b d tr r ltac:(lra) ltac:(lra) (within_vin _ _ H0) (within_vin _ _ H1) (within_vin _ _ H2) (within_vin _ _ Ho)
    (within_vin _ _ Hdir) r' Hit) as K.
  rewrite (within_rv b (tv0 tr)), (within_rv b (tv1 tr)), (within_rv b (tv2 tr)), (within_rv d (r_dir r)), (within_rv b (r_origin r)) in K by auto.
  fold A in K. assert (0 < A) as PA by (pose proof (Rabs_pos (facing (rv (tv0 tr)) (rv (tv1 tr)) (rv (tv2 tr)) (rv (r_dir r)))); unfold A in *; lra).
  assert (facing (rv (tv0 tr)) (rv (tv1 tr)) (rv (tv2 tr)) (rv (r_dir r)) <> 0) as NZ' by (intro E; apply NZ; unfold A; rewrite E; apply Rabs_R0).
  specialize (K NZ'). assert (ffinite (r_t r')) as Ft by (destruct K as (? & ? & ? & ? & ? & ? & ? & ? & ? & Ft & ?); exact Ft).
  split; [exact Ft|]. apply near_of; auto; lra.
Qed.

(** Every lane the packet test flags, likewise (also where its smaller
    threshold makes it take more than the scalar test does). *)
Theorem C38_f32_packet_sound : forall b d tr p t_min i r m p', 1 <= b <= 1048576 -> 1 <= d <= 1048576 ->
  lane_ray p t_min i = Ok r ->
  coords_within b (tv0 tr) -> coords_within b (tv1 tr) -> coords_within b (tv2 tr) ->
  coords_within b (r_origin r) -> coords_within d (r_dir r) ->
  let A := Rabs (facing (rv (tv0 tr)) (rv (tv1 tr)) (rv (tv2 tr)) (rv (r_dir r))) in
  A <> 0 ->
  tri_intersect4 tr p t_min = (Some m, p') -> mget m i = true ->
  let z := wget (p_t p') i in
  ffinite z /\
  exists t, near_triangle (half_ulp * (758 * (b * b * d) / A + 2)) (rv (tv0 tr)) (rv (tv1 tr)) (rv (tv2 tr)) (rv (r_origin r)) (rv (r_dir r)) t /\
    Rabs (fval z - t) <= half_ulp * (b * b * d * (165 * Rabs (fval z) + 1) + 472 * (b * b * b)) / A.
Proof.
  intros b d tr p t_min i r m p' Hb Hd L H0 H1 H2 Ho Hdir A NZ Hit F z.
  assert (bpow radix2 20 = 1048576) as E20 by (simpl; lra).
  assert (lane_test (tv0 tr) (tv1 tr) (tv2 tr) (r_origin r) (r_dir r) (r_tmin r) (r_t r) = Some z) as T.
  { unfold lane_ray, packet_ray in L. destruct (Nat.ltb i 4) eqn:I; [|discriminate]. cbn [bind] in L. injection L as <-.
    destruct (tri4_lanes tr p t_min) as (m' & tv & LR & E). specialize (LR i). rewrite E in Hit.
    destruct (many m'); [|discriminate]. injection Hit as -> <-. unfold z.
    cbn [p_t packet_set_t r_dir r_origin r_tmin r_t]. rewrite wselect_get, F.
    destruct (lane_result tr p t_min i) as [t|] eqn:R; [|congruence]. destruct LR as [_ ->]. exact R. }
  pose proof (lane_near b d tr r ltac:(lra) ltac:(lra) (within_vin _ _ H0) (within_vin _ _ H1) (within_vin _ _ H2) (within_vin _ _ Ho)
    (within_vin _ _ Hdir) z T) as K.
  rewrite (within_rv b (tv0 tr)), (within_rv b (tv1 tr)), (within_rv b (tv2 tr)), (within_rv d (r_dir r)), (within_rv b (r_origin r)) in K by auto.
  fold A in K. assert (0 < A) as PA by (pose proof (Rabs_pos (facing (rv (tv0 tr)) (rv (tv1 tr)) (rv (tv2 tr)) (rv (r_dir r)))); unfold A in *; lra).
  assert (facing (rv (tv0 tr)) (rv (tv1 tr)) (rv (tv2 tr)) (rv (r_dir r)) <> 0) as NZ' by (intro E; apply NZ; unfold A; rewrite E; apply Rabs_R0).
  specialize (K NZ'). assert (ffinite z) as Ft by (destruct K as (? & ? & ? & ? & ? & ? & ? & ? & ? & Ft & ?); exact Ft).
  split; [exact Ft|]. apply near_of; auto; lra.
Qed.

(** A hit well inside the triangle and the interval is reported, with the
    distance off by at most the same kind of bound. *)
Theorem C38_f32_complete : forall b d tr r t, 1 <= b <= 1048576 -> 1 <= d <= 1048576 ->
  coords_within b (tv0 tr) -> coords_within b (tv1 tr) -> coords_within b (tv2 tr) ->
  coords_within b (r_origin r) -> coords_within d (r_dir r) ->
  ffinite (r_tmin r) -> ffinite (r_t r) ->
  let A := Rabs (facing (rv (tv0 tr)) (rv (tv1 tr)) (rv (tv2 tr)) (rv (r_dir r))) - 165 * half_ulp * (b * b * d) in
  fval f1em5 <= A ->
  near_triangle (- (half_ulp * (758 * (b * b * d) / A))) (rv (tv0 tr)) (rv (tv1 tr)) (rv (tv2 tr)) (rv (r_origin r)) (rv (r_dir r)) t ->
  let error := half_ulp * (b * b * d * (165 * Rabs t + 1) + 472 * (b * b * b)) / A in
  fval (r_tmin r) + error < t < fval (r_t r) - error ->
  exists r', tri_intersect tr r = (true, r') /\ ffinite (r_t r') /\ Rabs (fval (r_t r') - t) <= error.
Proof.
  intros b d tr r t Hb Hd H0 H1 H2 Ho Hdir Fmin Fmax A LA (w0 & w1 & w2 & L0 & L1 & L2 & Sw & Ex & Ey & Ez) error Lt.
  assert (bpow radix2 20 = 1048576) as E20 by (simpl; lra).
  assert (ue = half_ulp) as Eu by (unfold half_ulp, ue; simpl; lra).
  pose proof (near_hit b d tr r ltac:(lra) ltac:(lra) (within_vin _ _ H0) (within_vin _ _ H1) (within_vin _ _ H2) (within_vin _ _ Ho)
    (within_vin _ _ Hdir) w0 w1 w2 t Sw) as K. cbv zeta in K.
  rewrite (within_rv b (tv0 tr)), (within_rv b (tv1 tr)), (within_rv b (tv2 tr)), (within_rv d (r_dir r)), (within_rv b (r_origin r)) in K by auto.
  rewrite Eu in K. 
  replace (165 * half_ulp * (b * (d * b))) with (165 * half_ulp * (b * b * d)) in K by ring.
  change (Rabs (facing (rv (tv0 tr)) (rv (tv1 tr)) (rv (tv2 tr)) (rv (r_dir r))) - 165 * half_ulp * (b * b * d)) with A in K.
  assert (ffinite f1em5) as Fe by reflexivity. rewrite (fr_fin f1em5 Fe) in K. change (B2R f1em5) with (fval f1em5) in K.
  assert (0 < fval f1em5) as Pe. { pose proof (bpow_gt_0 radix2 (-20)). pose proof eps_20 as K20. rewrite fr_fin in K20 by reflexivity. unfold fval. lra. }
  assert (2 * (379 * half_ulp * (b * (d * b)) / A) = half_ulp * (758 * (b * b * d) / A)) as E2 by (field; lra).
  rewrite E2 in K. rewrite (fr_fin (r_tmin r)), (fr_fin (r_t r)) in K by auto.
  replace (half_ulp * (b * (d * b) * (165 * Rabs t + 1) + 472 * (b * (b * b))) / A) with error in K by (unfold error, Rdiv; ring).
  unfold fval in Lt.
  destruct K as (r' & Hit & Ft & Et); auto; try lra.
  exists r'. split; auto. split; auto. rewrite fr_fin in Et by auto. exact Et.
Qed.

Lemma within_2p20 : forall b v, b <= 1048576 -> coords_within b v -> vwithin f2p20 v.
Proof.
  intros b v Hb ((F1 & F2 & F3) & B1 & B2 & B3). unfold ffinite, fval in *.
  assert (fr f2p20 = 1048576) as E by (simpl; unfold F2R; simpl; lra).
  assert (notnan f2p20) as Nf by reflexivity. destruct (fr_neg f2p20 Nf) as [Nn En].
  assert (forall x : f32, fin x -> Rabs (B2R x) <= b -> fle (fneg f2p20) x = true /\ fle x f2p20 = true) as G.
  { intros x Fx Bx. apply Rabs_le_inv in Bx. pose proof (fin_notnan _ Fx) as Nx.
    split; apply fle_spec; auto; rewrite (fr_fin x) by auto; rewrite ?En, E; lra. }
  destruct (G _ F1 B1), (G _ F2 B2), (G _ F3 B3). split; repeat split; auto.
Qed.

(** The packet test reports the same well-inside hits, in their lanes. *)
Theorem C38_f32_packet_complete : forall b d tr p t_min i r t, 1 <= b <= 1048576 -> 1 <= d <= 1048576 ->
  lane_ray p t_min i = Ok r ->
  coords_within b (tv0 tr) -> coords_within b (tv1 tr) -> coords_within b (tv2 tr) ->
  coords_within b (r_origin r) -> coords_within d (r_dir r) ->
  ffinite (r_tmin r) -> ffinite (r_t r) ->
  let A := Rabs (facing (rv (tv0 tr)) (rv (tv1 tr)) (rv (tv2 tr)) (rv (r_dir r))) - 165 * half_ulp * (b * b * d) in
  fval f1em5 <= A ->
  near_triangle (- (half_ulp * (758 * (b * b * d) / A))) (rv (tv0 tr)) (rv (tv1 tr)) (rv (tv2 tr)) (rv (r_origin r)) (rv (r_dir r)) t ->
  let error := half_ulp * (b * b * d * (165 * Rabs t + 1) + 472 * (b * b * b)) / A in
  fval (r_tmin r) + error < t < fval (r_t r) - error ->
  exists m p', tri_intersect4 tr p t_min = (Some m, p') /\ mget m i = true /\
    ffinite (wget (p_t p') i) /\ Rabs (fval (wget (p_t p') i) - t) <= error.
Proof.
  intros b d tr p t_min i r t Hb Hd L H0 H1 H2 Ho Hdir Fmin Fmax A LA Near error Lt.
  destruct (C38_f32_complete b d tr r t Hb Hd H0 H1 H2 Ho Hdir Fmin Fmax LA Near Lt) as (r' & Hit & Ft & Et).
  assert (b <= 1048576) as Lb by lra. assert (d <= 1048576) as Ld by lra.
  destruct (C46_scalar_to_packet tr p t_min i r r' L (within_2p20 _ _ Lb H0) (within_2p20 _ _ Lb H1) (within_2p20 _ _ Lb H2)
    (within_2p20 _ _ Lb Ho) (within_2p20 _ _ Ld Hdir) Hit) as (m & p' & E & M & T).
  exists m, p'. rewrite T. auto.
Qed.

(** ** A case that meets the hypotheses *)

Lemma within_of : forall b v, fin (vx v) -> fin (vy v) -> fin (vz v) ->
  Rabs (B2R (vx v)) <= b -> Rabs (B2R (vy v)) <= b -> Rabs (B2R (vz v)) <= b -> coords_within b v.
Proof. intros b v F1 F2 F3 B1 B2 B3. split; [split; [|split]; auto|]. unfold fval. auto. Qed.

(** The triangle (0,0,5) (4,0,5) (0,4,5) seen along z from (1,1,0): [b] = 8,
    [d] = 1, the facing product is 16, the margin is a few 1e-5, and the hit at
    distance 5 lies well inside. *)
Definition f32_ray : ray := Ray (pt 1 1 0) f1em4 (pt 0 0 1) (fz 64) (pt 0 0 1) false false false.
Example C38_f32_nonvacuous :
  coords_within 8 (tv0 ex_tri) /\ coords_within 8 (tv1 ex_tri) /\ coords_within 8 (tv2 ex_tri) /\
  coords_within 8 (r_origin f32_ray) /\ coords_within 1 (r_dir f32_ray) /\
  facing (rv (tv0 ex_tri)) (rv (tv1 ex_tri)) (rv (tv2 ex_tri)) (rv (r_dir f32_ray)) = -16 /\
  near_triangle (- (half_ulp * (758 * (8 * 8 * 1) / (16 - 165 * half_ulp * (8 * 8 * 1)))))
     (rv (tv0 ex_tri)) (rv (tv1 ex_tri)) (rv (tv2 ex_tri)) (rv (r_origin f32_ray)) (rv (r_dir f32_ray)) 5 /\
  fst (tri_intersect ex_tri f32_ray) = true.
Proof.
  assert (forall k, B2R (fz k) = B2R (fz k)) as _ by auto.
  assert (B2R (fz 0) = 0 /\ B2R (fz 1) = 1 /\ B2R (fz 4) = 4 /\ B2R (fz 5) = 5) as (E0 & E1 & E4 & E5).
  { assert (forall x (y : f32), B2SF x = B2SF y -> B2R x = B2R y) as J by (intros x y E; f_equal; apply B2SF_inj; auto).
    split; [|split; [|split]].
    - reflexivity.
    - rewrite (J _ (@B754_finite 24 128 false 8388608 (-23) eq_refl)) by (vm_compute; reflexivity). simpl. unfold F2R. simpl. lra.
    - rewrite (J _ (@B754_finite 24 128 false 8388608 (-21) eq_refl)) by (vm_compute; reflexivity). simpl. unfold F2R. simpl. lra.
    - rewrite (J _ (@B754_finite 24 128 false 10485760 (-21) eq_refl)) by (vm_compute; reflexivity). simpl. unfold F2R. simpl. lra. }
  assert (Rabs 0 <= 1 /\ Rabs 1 <= 1 /\ Rabs 4 <= 8 /\ Rabs 5 <= 8 /\ Rabs 0 <= 8 /\ Rabs 1 <= 8) as (A1 & A2 & A3 & A4 & A5 & A6)
    by (repeat split; apply Rabs_le; lra).
  split; [apply within_of; try (vm_compute; reflexivity); cbn [ex_tri tv0 tv1 tv2 vx vy vz pt]; rewrite ?E0, ?E1, ?E4, ?E5; auto|].
  split; [apply within_of; try (vm_compute; reflexivity); cbn [ex_tri tv0 tv1 tv2 vx vy vz pt]; rewrite ?E0, ?E1, ?E4, ?E5; auto|].
  split; [apply within_of; try (vm_compute; reflexivity); cbn [ex_tri tv0 tv1 tv2 vx vy vz pt]; rewrite ?E0, ?E1, ?E4, ?E5; auto|].
  split; [apply within_of; try (vm_compute; reflexivity); cbn [f32_ray r_origin r_dir vx vy vz pt]; rewrite ?E0, ?E1, ?E4, ?E5; auto|].
  split; [apply within_of; try (vm_compute; reflexivity); cbn [f32_ray r_origin r_dir vx vy vz pt]; rewrite ?E0, ?E1, ?E4, ?E5; auto|].
  unfold rv, fval. cbn [f32_ray r_origin r_dir ex_tri tv0 tv1 tv2 vx vy vz pt]. rewrite ?E0, ?E1, ?E4, ?E5.
  split; [unfold facing, rx, ry, rz; cbn [fst snd]; ring|].
  split; [|vm_compute; reflexivity].
  exists (/ 2), (/ 4), (/ 4). unfold rx, ry, rz; cbn [fst snd].
  assert (half_ulp * (758 * (8 * 8 * 1) / (16 - 165 * half_ulp * (8 * 8 * 1))) <= / 4) as L by (unfold half_ulp; lra).
  repeat split; lra.
Qed.
