(** * Box tests near a padded box

    As [padded_hit] and its 4-wide siblings, for rays that pass the primitive's
    box at a small distance. *)
Require Import List ZArith Bool Arith Lia Permutation Reals Lra.
From Flocq Require Import Core BinarySingleNaN.
From Verif Require Import F32 F32Facts Vec RayModel Base AabbModel NodeModel IterModel MbvhModel SpecGeom SpecSlab SpecTree SpecTraverse SpecMbvh
  TriModel SpecTri SpecMesh AabbProofs MeasureProofs SlabProofs Slab4Proofs IterProofs TraverseProofs ClosestProofs MbvhClient LocbModel LocbProofs
  PropBox PropSlab PropTraverse PropLocb PropNoMiss PropMbvh PropNoMiss4.
Import ListNotations.
Local Open Scope R_scope.

Lemma pads_any : forall m : f32, fin m -> 0 <= fr m <= 128 -> pads_by m (fr f1em4 - ue * (fr m + 1)).
Proof.
  intros m Fm Bm x L U. destruct (fle_notnan _ _ U) as [N Nm].
  destruct (fr_neg m Nm) as [Nn En].
  apply fle_spec in L; auto. apply fle_spec in U; auto. rewrite En in L.
  pose proof fr_1em4_bounds as E5. pose proof ue_bounds as Ub.
  assert (fin x) as F.
  { apply fin_of_fr; auto. apply Rle_lt_trans with 128%R; [apply Rabs_le; lra|].
    change 128%R with (bpow radix2 7). apply bpow_lt. reflexivity. }
  assert (fin f1em4) as F5 by reflexivity.
  assert (forall r, (Rabs r <= 129)%R -> RN r = rnd r) as SM.
  { intros r Hr. apply RN_small. apply Rle_trans with (1 := Hr). apply Rle_trans with (bpow radix2 8); [simpl; lra|].
    apply bpow_le. lia. }
  destruct (fr_fsub x f1em4 F F5) as [N1 E1]. destruct (fr_fadd x f1em4 F F5) as [N2 E2].
  destruct (rnd_minus_rel x f1em4 F F5) as (e & He & R1). destruct (rnd_plus_rel x f1em4 F F5) as (e' & He' & R2).
  rewrite SM in E1 by (apply Rabs_le; lra). rewrite SM in E2 by (apply Rabs_le; lra).
  split; auto. split; [apply Rabs_le; lra|]. split.
  - rewrite E1, R1. assert (- ((fr m + 1) * ue) <= (fr x - fr f1em4) * e <= (fr m + 1) * ue)%R.
    { apply Rabs_le_inv. rewrite Rabs_mult. apply Rmult_le_compat; try apply Rabs_pos; auto; apply Rabs_le; lra. }
    lra.
  - rewrite E2, R2. assert (- ((fr m + 1) * ue) <= (fr x + fr f1em4) * e' <= (fr m + 1) * ue)%R.
    { apply Rabs_le_inv. rewrite Rabs_mult. apply Rmult_le_compat; try apply Rabs_pos; auto; apply Rabs_le; lra. }
    lra.
Qed.

Lemma near_point : forall m P K mu b big o d s,
  pads_by m P -> 0 <= mu < P -> 0 <= K -> K * (2 * fr m + mu) + mu <= P ->
  box_within m b -> vwithin m o -> box_within f1e34 big -> box_in (with_offset b f1em4) big ->
  dirs_fine d -> ray_point_near mu b o d s ->
  axes_fine big o d /\ forall k, Rabs k <= K -> ray_point_in big o d (s * (1 + k)).
Proof.
  intros m P K mu b big o d s PB PP K0 KP [W1 W2] Wo Wb [I1 I2] (D1 & D2 & D3) (P1 & P2 & P3).
  destruct W1 as [(L1 & L2 & L3) (L4 & L5 & L6)]. destruct W2 as [(M1 & M2 & M3) (M4 & M5 & M6)].
  destruct Wo as [(O1 & O2 & O3) (O4 & O5 & O6)].
  destruct I1 as (J1 & J2 & J3). destruct I2 as (J4 & J5 & J6).
  cbn [with_offset vsub vadd vmap2 vsplat bmin bmax vx vy vz] in *.
  assert (forall lo hi o d lo' hi' : f32,
    fle (fneg m) lo = true -> fle lo m = true -> fle (fneg m) hi = true -> fle hi m = true ->
    fle (fneg m) o = true -> fle o m = true -> fin lo' -> fin hi' ->
    fle lo' (fsub lo f1em4) = true -> fle (fadd hi f1em4) hi' = true -> dir_fine d ->
    (fval lo - mu <= fval o + s * fval d <= fval hi + mu)%R ->
    axis_fine lo' hi' o d /\
    (forall k, (Rabs k <= K)%R -> fval lo' <= fval o + s * (1 + k) * fval d <= fval hi')%R) as G.
  { clear - PB PP KP K0. intros lo hi o d lo' hi' A1 A2 A3 A4 A5 A6 Fl Fh B1 B2 Hd Hs.
    destruct (PB lo A1 A2) as (F1 & Q1 & R1 & _). destruct (PB hi A3 A4) as (F2 & Q2 & _ & R2).
    destruct (PB o A5 A6) as (F3 & Q3 & _ & _).
    pose proof (fle_notnan _ _ B1) as [N1 N2]. pose proof (fle_notnan _ _ B2) as [N3 N4].
    apply fle_spec in B1; auto. apply fle_spec in B2; auto.
    unfold fval in *. rewrite <- (fr_fin lo F1), <- (fr_fin hi F2), <- (fr_fin o F3) in Hs.
    rewrite <- (fr_fin lo' Fl), <- (fr_fin hi' Fh), <- (fr_fin o F3).
    split.
    - destruct Hd as [Hd|Hd]; [left; auto|right]. split; auto. subst d. simpl in Hs. rewrite Rmult_0_r, Rplus_0_r in Hs.
      split; apply flt_spec; auto using fin_notnan; lra.
    - intros k Hk. replace (fr o + s * (1 + k) * B2R d)%R with (fr o + s * B2R d + k * (s * B2R d))%R by ring.
      apply Rabs_le_inv in Q1. apply Rabs_le_inv in Q2. apply Rabs_le_inv in Q3.
      assert (- (K * (2 * fr m + mu)) <= k * (s * B2R d) <= K * (2 * fr m + mu))%R.
      { apply Rabs_le_inv. rewrite Rabs_mult. apply Rmult_le_compat; try apply Rabs_pos; auto. apply Rabs_le. lra. }
      lra. }
  destruct (vwithin_fin _ (proj1 Wb)) as [(F1 & F2 & F3) _]. destruct (vwithin_fin _ (proj2 Wb)) as [(F4 & F5 & F6) _].
  destruct (G _ _ _ _ _ _ L1 L4 M1 M4 O1 O4 F1 F4 J1 J4 D1 P1) as (X1 & Y1).
  destruct (G _ _ _ _ _ _ L2 L5 M2 M5 O2 O5 F2 F5 J2 J5 D2 P2) as (X2 & Y2).
  destruct (G _ _ _ _ _ _ L3 L6 M3 M6 O3 O6 F3 F6 J3 J6 D3 P3) as (X3 & Y3).
  split; [repeat split; auto|]. intros k Hk. repeat split; try apply Y1; try apply Y2; try apply Y3; auto.
Qed.

(** A bound on coordinates, and what slack it leaves for [k] half-ulps of
    relative error. *)
Definition bound_ok (m : f32) (k mu : R) : Prop :=
  fin m /\ 1 <= fr m <= 128 /\ 0 <= mu /\ mu + ue * ((2 * k + 1) * fr m + 2) <= fr f1em4.

Lemma bound_point : forall m k mu b big o d s, 0 <= k <= 100 -> bound_ok m k mu ->
  box_within m b -> vwithin m o -> box_within f1e34 big -> box_in (with_offset b f1em4) big ->
  dirs_fine d -> ray_point_near mu b o d s ->
  axes_fine big o d /\ forall e, Rabs e <= k * ue -> ray_point_in big o d (s * (1 + e)).
Proof.
  intros m k mu b big o d s Hk (Fm & Bm & Mu & Hu) W Wo Wb I Hd N.
  pose proof fr_1em4_bounds as E5. pose proof ue_bounds as Ub.
  assert (0 <= k * fr m) by nra. assert (mu <= 1001 / 10000000) by nra. assert (k * mu <= 1) by nra.
  apply (near_point m (fr f1em4 - ue * (fr m + 1)) (k * ue) mu b big o d s); auto.
  - apply pads_any; auto. lra.
  - split; auto. nra.
  - nra.
  - nra.
Qed.

Lemma bound_1e34 : forall m v, fin m -> fr m <= 128 -> vwithin m v -> vwithin f1e34 v.
Proof.
  intros m v Fm Bm W. assert (fle m f128 = true) as L.
  { apply fle_spec; auto using fin_notnan. rewrite fr_128. lra. }
  eapply vwithin_mono; [| |exact W].
  - destruct (fr_neg m (fin_notnan _ Fm)) as [N1 E1]. destruct (fr_neg f1e34 eq_refl) as [N2 E2].
    apply fle_spec; auto. rewrite E1, E2. assert (fr f128 <= fr f1e34).
    { apply fle_spec; try reflexivity. }
    rewrite fr_128 in *. lra.
  - apply fle_trans with f128; auto.
Qed.

(** The binary box test. *)
Lemma near_rhit : forall m mu b big o d s t0, bound_ok m 6 mu ->
  box_within m b -> vwithin m o -> box_within f1e34 big -> box_in (with_offset b f1em4) big ->
  dirs_fine d -> fval f1em4 <= s -> ray_point_near mu b o d s ->
  hit_box (ray_set_t (ray_new o d) t0) big = true.
Proof.
  intros m mu b big o d s t0 Bo W Wo Wb I D S P.
  destruct (bound_point m 6 mu b big o d s) as [X Y]; auto; [lra|].
  pose proof Bo as (Fm & Bm & _).
  pose proof (bound_1e34 m o Fm ltac:(lra) Wo) as Wo'.
  change (fval f1em4) with (fr f1em4) in S. pose proof fr_1em4_bounds as Fb. pose proof ue_bounds as Ub.
  unfold hit_box.
  destruct (intersect_core big o d t0 (s * (1 + 2 * ue))) as (x & -> & _); auto.
  - apply Rmult_lt_0_compat; unfold ue; lra.
  - apply RN_gt_tmin. apply Rmult_le_compat_r; [unfold ue|]; lra.
  - replace (s * (1 + 2 * ue) * (1 - 2 * ue))%R with (s * (1 + (- (4 * ue * ue))))%R by ring. apply Y.
    unfold ue. apply Rabs_le. lra.
  - replace (s * (1 + 2 * ue) * (1 + 3 * ue))%R with (s * (1 + (5 * ue + 6 * ue * ue)))%R by ring. apply Y.
    unfold ue. apply Rabs_le. lra.
Qed.

(** The slot test of a 4-wide node. *)
Lemma near_qhit : forall m mu b big o d s r, bound_ok m 6 mu ->
  box_within m b -> vwithin m o -> box_within f1e34 big -> box_in (with_offset b f1em4) big ->
  dirs_fine d -> fval f1em4 <= s -> ray_point_near mu b o d s ->
  forall t, r_origin r = o -> r_inv r = vdivs f1 d -> ffinite t -> (s <= fval t)%R -> fle t (r_t r) = true ->
  qhit r (SpecMbvh.box_of big) = true.
Proof.
  intros m mu b big o d s r Bo W Wo Wb I D S P t Eo Ei Ft St Tt.
  destruct (bound_point m 6 mu b big o d s) as [X Y]; auto; [lra|].
  pose proof Bo as (Fm & Bm & _).
  pose proof (bound_1e34 m o Fm ltac:(lra) Wo) as Wo'.
  destruct (min_s s S) as [S1 S2]. pose proof ue_bounds as Ub.
  destruct (box_at big o d (s * (1 - 3 * ue))) as (N1 & N2 & A & B); auto.
  - unfold ue; nra.
  - replace (s * (1 - 3 * ue) * (1 - 2 * ue))%R with (s * (1 + (- 5 * ue + 6 * ue * ue)))%R by ring. apply Y.
    apply Rabs_le. unfold ue. lra.
  - replace (s * (1 - 3 * ue) * (1 + 3 * ue))%R with (s * (1 + (- 9 * ue * ue)))%R by ring. apply Y.
    apply Rabs_le. unfold ue. lra.
  - unfold qhit. rewrite Eo, Ei. change (slab_far (SpecMbvh.box_of big) o (vdivs f1 d)) with (far4 big o d).
    change (slab_near (SpecMbvh.box_of big) o (vdivs f1 d)) with (near4 big o d).
    apply andb_true_iff. split; [apply fle_spec; auto; lra|].
    destruct (fle_notnan _ _ Tt) as [T1 T2]. apply fle_spec in Tt; auto.
    apply flt_spec; auto. apply Rle_lt_trans with (1 := A). apply Rlt_le_trans with (2 := Tt).
    apply RN_below; auto.
    + apply Rle_trans with (bpow radix2 (-100) * (1 - 3 * ue))%R; [|apply Rmult_le_compat_r; [unfold ue; lra|auto]].
      apply Rle_trans with (bpow radix2 (-100) * bpow radix2 (-1))%R.
      * rewrite <- bpow_plus. apply bpow_le. lia.
      * apply Rmult_le_compat_l; [apply bpow_ge_0|]. simpl. unfold ue. lra.
    + unfold fval in St. rewrite fr_fin by auto. unfold ue in *. nra.
Qed.

(** The packet tests. *)
Lemma near_lane : forall m mu b big o d s (t : f32), bound_ok m 17 mu ->
  box_within m b -> vwithin m o -> box_within f1e34 big -> box_in (with_offset b f1em4) big ->
  dirs_fine d -> (fval f1em4 <= s)%R -> (s <= bpow radix2 127)%R -> ray_point_near mu b o d s -> ffinite t -> (s <= fval t)%R ->
  exists t1, box_within f1e34 big /\ vwithin f1e34 o /\ axes_fine big o d /\
    (bpow radix2 (-126) <= t1)%R /\ (t1 * (1 + / 1048576) <= s)%R /\ (s <= bpow radix2 127)%R /\
    ray_point_in big o d t1 /\ ray_point_in big o d s.
Proof.
  intros m mu b big o d s t Bo W Wo Wb I D S S' P Ft St.
  destruct (bound_point m 17 mu b big o d s) as [X Y]; auto; [lra|].
  pose proof Bo as (Fm & Bm & _).
  pose proof (bound_1e34 m o Fm ltac:(lra) Wo) as Wo'.
  destruct (min_s s S) as [S1 S2].
  exists (s * (1 + (- 17 * ue)))%R. repeat (split; [assumption|]). split; [|split; [|split; [auto|split]]].
  - apply Rle_trans with (bpow radix2 (-100) * (1 + - 17 * ue))%R; [|apply Rmult_le_compat_r; [unfold ue; lra|auto]].
    apply Rle_trans with (bpow radix2 (-100) * bpow radix2 (-1))%R.
    * rewrite <- bpow_plus. apply bpow_le. lia.
    * apply Rmult_le_compat_l; [apply bpow_ge_0|]. simpl. unfold ue. lra.
  - unfold ue. nra.
  - apply Y. unfold ue. apply Rabs_le. lra.
  - replace s with (s * (1 + 0))%R by ring. apply Y. rewrite Rabs_R0. unfold ue. lra.
Qed.
