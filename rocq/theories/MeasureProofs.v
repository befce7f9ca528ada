(** * Proofs about centre, areas and extents of boxes *)
Require Import List ZArith Bool Reals Lra Lia.
From Flocq Require Import Core BinarySingleNaN.
From Verif Require Import F32 F32Facts Vec RayModel AabbModel SpecGeom AabbProofs.
Import ListNotations.
Local Open Scope R_scope.

Lemma fr_1e34 : 0 < fr f1e34 <= bpow radix2 113.
Proof.
  unfold fr, f1e34, B2R, F2R; cbn [Fnum Fexp cond_Zopp].
  change 113%Z with (24 + 89)%Z. rewrite bpow_plus.
  pose proof (bpow_gt_0 radix2 89). split.
  - apply Rmult_lt_0_compat; auto. lra.
  - apply Rmult_le_compat_r; [lra|]. simpl. lra.
Qed.

Lemma within_fin : forall x : f32, fle (fneg f1e34) x = true -> fle x f1e34 = true ->
  is_finite x = true /\ Rabs (fr x) <= bpow radix2 113.
Proof.
  intros x L U. destruct (fle_notnan _ _ U) as [N _].
  destruct (fr_neg f1e34 eq_refl) as [Nn En].
  apply fle_spec in L; auto. apply fle_spec in U; auto. rewrite En in L.
  pose proof fr_1e34 as [P Q].
  assert (Rabs (fr x) <= bpow radix2 113) as B by (apply Rabs_le; lra).
  split; auto. apply fin_of_fr; auto. eapply Rle_lt_trans; [apply B|].
  apply bpow_lt; lia.
Qed.

Lemma vwithin_fin : forall v, vwithin f1e34 v ->
  (is_finite (vx v) = true /\ is_finite (vy v) = true /\ is_finite (vz v) = true) /\
  (Rabs (fr (vx v)) <= bpow radix2 113 /\ Rabs (fr (vy v)) <= bpow radix2 113 /\ Rabs (fr (vz v)) <= bpow radix2 113).
Proof.
  intros v [(A & B & C) (D & E & F)].
  destruct (within_fin _ A D), (within_fin _ B E), (within_fin _ C F); auto.
Qed.

Lemma bpow_114 : bpow radix2 114 = 2 * bpow radix2 113.
Proof. change 114%Z with (1 + 113)%Z. rewrite bpow_plus. change (bpow radix2 1) with 2. ring. Qed.

(** The midpoint of two floats lies between them. *)
Lemma fr_fhalf : fr fhalf = / 2.
Proof. unfold fr, fhalf, B2R, F2R; simpl. lra. Qed.

Lemma midpoint : forall a b : f32, is_finite a = true -> is_finite b = true ->
  Rabs (fr a) <= bpow radix2 113 -> Rabs (fr b) <= bpow radix2 113 -> fr a <= fr b ->
  let m := fmul (fadd a b) fhalf in
  is_finite m = true /\ fr a <= fr m <= fr b.
Proof.
  intros a b Fa Fb Ba Bb L m.
  apply Rabs_le_inv in Ba. apply Rabs_le_inv in Bb.
  pose proof bpow_114 as E114.
  destruct (fr_fadd a b Fa Fb) as [Ns Es].
  assert (Rabs (fr a + fr b) <= bpow radix2 127) as Bs.
  { apply Rle_trans with (bpow radix2 114); [apply Rabs_le; lra|]. apply bpow_le; lia. }
  assert (is_finite (fadd a b) = true) as Fs by (eapply fin_of_RN; eauto).
  destruct (fr_fmul (fadd a b) fhalf Fs eq_refl) as [Nm Em]. fold m in Nm, Em.
  rewrite fr_fhalf in Em.
  assert (2 * fr a <= fr (fadd a b)) as L1.
  { rewrite Es. rewrite <- (format_double a).
    assert (Rabs (2 * fr a) <= bpow radix2 127) as B2.
    { apply Rle_trans with (bpow radix2 114); [apply Rabs_le; lra|]. apply bpow_le; lia. }
    destruct (RN_small _ B2) as [<- _]. apply RN_mono; lra. }
  assert (fr (fadd a b) <= 2 * fr b) as L2.
  { rewrite Es. rewrite <- (format_double b).
    assert (Rabs (2 * fr b) <= bpow radix2 127) as B2.
    { apply Rle_trans with (bpow radix2 114); [apply Rabs_le; lra|]. apply bpow_le; lia. }
    destruct (RN_small _ B2) as [<- _]. apply RN_mono; lra. }
  assert (fr a <= fr m) as M1.
  { rewrite Em. apply fr_le_RN; [apply fin_notnan; auto|]. lra. }
  assert (fr m <= fr b) as M2.
  { rewrite Em. apply RN_le_fr; [apply fin_notnan; auto|]. lra. }
  split; auto.
  apply fin_of_fr; auto.
  apply Rle_lt_trans with (bpow radix2 113); [apply Rabs_le; lra|]. apply bpow_lt; lia.
Qed.

Lemma center_in : forall b, box_within f1e34 b -> vle (bmin b) (bmax b) -> in_box b (center b).
Proof.
  intros b [W1 W2] (L1 & L2 & L3).
  destruct (vwithin_fin _ W1) as [(F1 & F2 & F3) (B1 & B2 & B3)].
  destruct (vwithin_fin _ W2) as [(G1 & G2 & G3) (C1 & C2 & C3)].
  apply fle_spec in L1; auto using fin_notnan.
  apply fle_spec in L2; auto using fin_notnan.
  apply fle_spec in L3; auto using fin_notnan.
  destruct (midpoint _ _ F1 G1 B1 C1 L1) as [K1 [M1 N1]].
  destruct (midpoint _ _ F2 G2 B2 C2 L2) as [K2 [M2 N2]].
  destruct (midpoint _ _ F3 G3 B3 C3 L3) as [K3 [M3 N3]].
  repeat split; simpl; apply fle_spec; auto using fin_notnan.
Qed.

(** Extents. *)
Lemma extent_facts : forall lo hi : f32, is_finite lo = true -> is_finite hi = true ->
  Rabs (fr lo) <= bpow radix2 113 -> Rabs (fr hi) <= bpow radix2 113 ->
  is_finite (fsub hi lo) = true /\ fr (fsub hi lo) = RN (fr hi - fr lo) /\
  Rabs (fr (fsub hi lo)) <= bpow radix2 114.
Proof.
  intros lo hi F G B C.
  apply Rabs_le_inv in B. apply Rabs_le_inv in C. pose proof bpow_114.
  destruct (fr_fsub hi lo G F) as [N E].
  assert (Rabs (fr hi - fr lo) <= bpow radix2 114) as D by (apply Rabs_le; lra).
  assert (Rabs (fr hi - fr lo) <= bpow radix2 127) as D'.
  { eapply Rle_trans; [apply D|]. apply bpow_le; lia. }
  split; [eapply fin_of_RN; eauto|]. split; auto.
  rewrite E. destruct (RN_small _ D') as [-> _].
  apply abs_round_le_generic; try typeclasses eauto; auto.
  { apply (fexp_correct 24 128 Hp32). }
  apply generic_format_bpow. unfold SpecFloat.fexp, SpecFloat.emin; lia.
Qed.

Lemma longest_axis_max : forall b, box_within f1e34 b ->
  (longest_axis b < 3)%nat /\
  forall k, (k < 3)%nat -> fle (extend b k) (extend b (longest_axis b)) = true.
Proof.
  intros b [W1 W2].
  destruct (vwithin_fin _ W1) as [(F1 & F2 & F3) (B1 & B2 & B3)].
  destruct (vwithin_fin _ W2) as [(G1 & G2 & G3) (C1 & C2 & C3)].
  destruct (extent_facts _ _ F1 G1 B1 C1) as [X _].
  destruct (extent_facts _ _ F2 G2 B2 C2) as [Y _].
  destruct (extent_facts _ _ F3 G3 B3 C3) as [Z _].
  change (is_finite (extend b 0) = true) in X.
  change (is_finite (extend b 1) = true) in Y.
  change (is_finite (extend b 2) = true) in Z.
  assert (forall k, (k < 3)%nat -> notnan (extend b k)) as N.
  { intros k Hk. destruct k as [|[|[|k]]]; [| | |lia]; apply fin_notnan; auto. }
  unfold longest_axis, fgt.
  change (Bltb (extend b 0) (extend b 1)) with (flt (extend b 0) (extend b 1)).
  set (i := if flt (extend b 0) (extend b 1) then 1%nat else 0%nat).
  change (Bltb (extend b i) (extend b 2)) with (flt (extend b i) (extend b 2)).
  assert (i < 3)%nat as Hi by (unfold i; destruct (flt _ _); lia).
  assert (forall k, (k < 2)%nat -> fr (extend b k) <= fr (extend b i)) as I.
  { intros k Hk; unfold i. destruct (flt (extend b 0) (extend b 1)) eqn:E.
    - apply flt_spec in E; [|apply N; lia|apply N; lia]. destruct k as [|[|k]]; [lra|lra|lia].
    - apply flt_false in E; [|apply N; lia|apply N; lia]. destruct k as [|[|k]]; [lra|lra|lia]. }
  destruct (flt (extend b i) (extend b 2)) eqn:E.
  - apply flt_spec in E; [|apply N; lia|apply N; lia].
    split; [lia|]. intros k Hk. apply fle_spec; [apply N; lia|apply N; lia|].
    assert (k < 2 \/ k = 2)%nat as [K| ->] by lia; [|lra].
    specialize (I k K). lra.
  - apply flt_false in E; [|apply N; lia|apply N; lia].
    split; [lia|]. intros k Hk. apply fle_spec; [apply N; lia|apply N; lia|].
    assert (k < 2 \/ k = 2)%nat as [K| ->] by lia; [|lra].
    apply I; auto.
Qed.

Lemma longest_extent_eq : forall b, longest_extent b = extend b (longest_axis b).
Proof.
  intro b; unfold longest_extent, extend, diagonal, vsub, vmap2.
  destruct (longest_axis b) as [|[|k]]; reflexivity.
Qed.

(** half_area on non-negative extents. *)
Definition harea (dx dy dz : f32) : f32 := fadd (fmul (fadd dx dy) dz) (fmul dx dy).

Lemma harea_facts : forall dx dy dz : f32,
  is_finite dx = true -> is_finite dy = true -> is_finite dz = true ->
  0 <= fr dx <= bpow radix2 114 -> 0 <= fr dy <= bpow radix2 114 -> 0 <= fr dz <= bpow radix2 114 ->
  notnan (harea dx dy dz) /\
  fr (harea dx dy dz) = RN (RN (RN (fr dx + fr dy) * fr dz) + RN (fr dx * fr dy)).
Proof.
  intros dx dy dz Fx Fy Fz Bx By Bz.
  destruct (fr_fadd dx dy Fx Fy) as [N1 E1].
  assert (Rabs (fr dx + fr dy) <= bpow radix2 127) as B1.
  { apply Rle_trans with (bpow radix2 115); [|apply bpow_le; lia].
    change 115%Z with (1 + 114)%Z. rewrite bpow_plus. change (bpow radix2 1) with 2.
    apply Rabs_le; lra. }
  assert (is_finite (fadd dx dy) = true) as F1 by (eapply fin_of_RN; eauto).
  assert (0 <= fr (fadd dx dy)) as P1 by (rewrite E1; apply RN_pos; lra).
  destruct (fr_fmul (fadd dx dy) dz F1 Fz) as [N2 E2].
  destruct (fr_fmul dx dy Fx Fy) as [N3 E3].
  assert (0 <= fr (fmul (fadd dx dy) dz)) by (rewrite E2; apply RN_pos; apply Rmult_le_pos; lra).
  assert (0 <= fr (fmul dx dy)) by (rewrite E3; apply RN_pos; apply Rmult_le_pos; lra).
  destruct (fadd_pos_pos _ _ N2 N3) as [N4 E4]; auto.
  split; auto. unfold harea. rewrite E4, E2, E3, E1. auto.
Qed.

Lemma valid_extents : forall b, box_within f1e34 b -> vle (bmin b) (bmax b) ->
  forall k, (k < 3)%nat ->
  is_finite (extend b k) = true /\ 0 <= fr (extend b k) <= bpow radix2 114 /\
  fr (extend b k) = RN (fr (vget (bmax b) k) - fr (vget (bmin b) k)).
Proof.
  intros b [W1 W2] (L1 & L2 & L3) k Hk.
  destruct (vwithin_fin _ W1) as [(F1 & F2 & F3) (B1 & B2 & B3)].
  destruct (vwithin_fin _ W2) as [(G1 & G2 & G3) (C1 & C2 & C3)].
  apply fle_spec in L1; auto using fin_notnan.
  apply fle_spec in L2; auto using fin_notnan.
  apply fle_spec in L3; auto using fin_notnan.
  assert (forall lo hi : f32, is_finite lo = true -> is_finite hi = true ->
    Rabs (fr lo) <= bpow radix2 113 -> Rabs (fr hi) <= bpow radix2 113 -> fr lo <= fr hi ->
    is_finite (fsub hi lo) = true /\ 0 <= fr (fsub hi lo) <= bpow radix2 114 /\
    fr (fsub hi lo) = RN (fr hi - fr lo)) as G.
  { intros lo hi A B C D E. destruct (extent_facts lo hi A B C D) as (H1 & H2 & H3).
    split; auto. split; auto. apply Rabs_le_inv in H3. split; [|lra].
    rewrite H2. apply RN_pos; lra. }
  destruct k as [|[|[|k]]]; [| | |lia]; unfold extend; simpl; apply G; auto.
Qed.

Lemma half_area_nonneg : forall b, box_within f1e34 b -> vle (bmin b) (bmax b) ->
  fle f0 (half_area b) = true.
Proof.
  intros b W V. pose proof (valid_extents b W V) as E.
  destruct (E 0%nat ltac:(lia)) as (X1 & X2 & _), (E 1%nat ltac:(lia)) as (Y1 & Y2 & _), (E 2%nat ltac:(lia)) as (Z1 & Z2 & _).
  destruct (harea_facts _ _ _ X1 Y1 Z1 X2 Y2 Z2) as [N H].
  change (half_area b) with (harea (extend b 0) (extend b 1) (extend b 2)).
  apply fle_spec; auto. rewrite H. simpl.
  apply RN_pos. apply Rplus_le_le_0_compat; apply RN_pos; apply Rmult_le_pos; try lra. apply RN_pos; lra.
Qed.

Lemma half_area_mono : forall a b, box_within f1e34 a -> box_within f1e34 b ->
  vle (bmin a) (bmax a) -> box_in a b -> fle (half_area a) (half_area b) = true.
Proof.
  intros a b Wa Wb Va [I1 I2].
  assert (vle (bmin b) (bmax b)) as Vb by (eapply vle_trans; [apply I1|]; eapply vle_trans; eauto).
  pose proof (valid_extents a Wa Va) as E. pose proof (valid_extents b Wb Vb) as G.
  destruct (E 0%nat ltac:(lia)) as (X1 & X2 & X3), (E 1%nat ltac:(lia)) as (Y1 & Y2 & Y3), (E 2%nat ltac:(lia)) as (Z1 & Z2 & Z3).
  destruct (G 0%nat ltac:(lia)) as (U1 & U2 & U3), (G 1%nat ltac:(lia)) as (V1 & V2 & V3), (G 2%nat ltac:(lia)) as (T1 & T2 & T3).
  destruct (harea_facts _ _ _ X1 Y1 Z1 X2 Y2 Z2) as [N H].
  destruct (harea_facts _ _ _ U1 V1 T1 U2 V2 T2) as [N' H'].
  change (half_area a) with (harea (extend a 0) (extend a 1) (extend a 2)).
  change (half_area b) with (harea (extend b 0) (extend b 1) (extend b 2)).
  apply fle_spec; auto. rewrite H, H'.
  destruct (vwithin_fin _ (proj1 Wa)) as [(Fa1 & Fa2 & Fa3) _].
  destruct (vwithin_fin _ (proj2 Wa)) as [(Ga1 & Ga2 & Ga3) _].
  destruct (vwithin_fin _ (proj1 Wb)) as [(Fb1 & Fb2 & Fb3) _].
  destruct (vwithin_fin _ (proj2 Wb)) as [(Gb1 & Gb2 & Gb3) _].
  destruct I1 as (P1 & P2 & P3), I2 as (Q1 & Q2 & Q3).
  apply fle_spec in P1; auto using fin_notnan. apply fle_spec in P2; auto using fin_notnan. apply fle_spec in P3; auto using fin_notnan.
  apply fle_spec in Q1; auto using fin_notnan. apply fle_spec in Q2; auto using fin_notnan. apply fle_spec in Q3; auto using fin_notnan.
  simpl in X3, Y3, Z3, U3, V3, T3.
  assert (fr (extend a 0) <= fr (extend b 0)) as M1 by (rewrite X3, U3; apply RN_mono; lra).
  assert (fr (extend a 1) <= fr (extend b 1)) as M2 by (rewrite Y3, V3; apply RN_mono; lra).
  assert (fr (extend a 2) <= fr (extend b 2)) as M3 by (rewrite Z3, T3; apply RN_mono; lra).
  apply RN_mono. apply Rplus_le_compat; apply RN_mono; apply Rmult_le_compat; try lra.
  - apply RN_pos; lra.
  - apply RN_mono; lra.
Qed.

Lemma area_nonneg : forall b, fle f0 (area b) = true.
Proof.
  intro b. unfold area. set (v := fadd _ _).
  unfold fmax. change (fnan f0) with false. cbv iota.
  destruct (fnan v) eqn:N; [reflexivity|].
  destruct (flt f0 v) eqn:E; [apply flt_fle; auto|reflexivity].
Qed.
