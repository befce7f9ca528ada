(** * The share of the free space that a spatial split gives to the left child *)
Require Import List Arith Lia ZArith Bool Reals Lra.
From Flocq Require Import Core BinarySingleNaN.
From Verif Require Import F32 F32Facts Vec AabbModel SpecGeom Base BinnedModel SpatialModel.
Import ListNotations.
Local Open Scope nat_scope.

Lemma fn_small : forall k, (Z.of_nat k <= 2 ^ 30)%Z -> fin (fn k) /\ (0 <= fr (fn k))%R.
Proof.
  intros k H. pose proof (binary_normalize_correct 24 128 Hp32 Hm32 mode_NE (Z.of_nat k) 0 false) as C.
  cbv zeta in C. fold (f_of_Z (Z.of_nat k)) in C. fold (fn k) in C.
  assert (F2R (Float radix2 (Z.of_nat k) 0) = IZR (Z.of_nat k)) as E by (unfold F2R; simpl; lra).
  rewrite E in C. fold (rnd (IZR (Z.of_nat k))) in C.
  assert (0 <= rnd (IZR (Z.of_nat k)) <= bpow radix2 30)%R as [B0 B1].
  { split; [apply rnd_pos; apply IZR_le; lia|]. rewrite <- (rnd_bpow 30) by lia. apply rnd_mono.
    change (bpow radix2 30) with (IZR (2 ^ 30)). apply IZR_le. auto. }
  rewrite Rlt_bool_true in C.
  - destruct C as (C1 & C2 & _). split; auto. rewrite fr_fin by auto. rewrite C1. auto.
  - rewrite Rabs_pos_eq by auto. eapply Rle_lt_trans; [exact B1|]. apply bpow_lt. lia.
Qed.
Lemma fn_exact : forall k, (Z.of_nat k <= 2 ^ 24)%Z -> fin (fn k) /\ fr (fn k) = IZR (Z.of_nat k).
Proof.
  intros k H. destruct (fn_small k) as [F _]; [lia|]. split; auto. rewrite fr_fin by auto.
  pose proof (binary_normalize_correct 24 128 Hp32 Hm32 mode_NE (Z.of_nat k) 0 false) as C.
  cbv zeta in C. fold (f_of_Z (Z.of_nat k)) in C. fold (fn k) in C.
  assert (F2R (Float radix2 (Z.of_nat k) 0) = IZR (Z.of_nat k)) as E by (unfold F2R; simpl; lra).
  rewrite E in C.
  assert (round radix2 (SpecFloat.fexp 24 128) (round_mode mode_NE) (IZR (Z.of_nat k)) = IZR (Z.of_nat k)) as Ex.
  { rewrite <- E. apply round_generic; [apply valid_rnd_N|].
    destruct (Z.eq_dec (Z.of_nat k) (2 ^ 24)) as [->|Ne].
    - replace (F2R (Float radix2 (2 ^ 24) 0)) with (bpow radix2 24) by (unfold F2R; simpl; lra).
      apply generic_format_bpow. unfold SpecFloat.fexp, SpecFloat.emin. lia.
    - apply generic_format_F2R. intro Nz. unfold cexp, SpecFloat.fexp, SpecFloat.emin.
      assert (mag radix2 (F2R (Float radix2 (Z.of_nat k) 0)) <= 24)%Z.
      { rewrite E. apply mag_le_bpow; [apply IZR_neq; auto|].
        rewrite Rabs_pos_eq by (apply IZR_le; lia). change (bpow radix2 24) with (IZR (2 ^ 24)). apply IZR_lt. lia. }
      lia. }
  rewrite Ex in C. rewrite Rlt_bool_true in C; [apply C|].
  rewrite Rabs_pos_eq by (apply IZR_le; lia). apply Rle_lt_trans with (bpow radix2 24); [|apply bpow_lt; lia].
  change (bpow radix2 24) with (IZR (2 ^ 24)). apply IZR_le. auto.
Qed.

Lemma as_usize_le : forall (x : f32) k, (0 <= k)%Z -> notnan x -> (fr x <= IZR k)%R -> (k < 2 ^ 60)%Z -> (f_as_usize x <= k)%Z.
Proof.
  intros x k K N L B. unfold f_as_usize, f_to_Z_sat.
  assert (fin x -> (Z.max 0 (Z.min 18446744073709551615 (Btrunc x)) <= k)%Z) as G.
  { intro F. rewrite fr_fin in L by auto.
    assert (Btrunc x <= k)%Z; [|lia].
    apply le_IZR. rewrite Btrunc_correct by reflexivity. 
    rewrite <- (round_generic radix2 (FIX_exp 0) Ztrunc (IZR k)).
    - apply round_le; auto. apply FIX_exp_valid. apply valid_rnd_ZR.
    - apply generic_format_FIX. exists (Float radix2 k 0); [unfold F2R; simpl; lra|reflexivity]. }
  destruct x as [s|s| |s m e Hx]; auto.
  - destruct s; auto. simpl in L. exfalso. pose proof bpow128_lt_BIG as Bg.
    assert (IZR k < bpow radix2 128)%R; [|lra]. apply Rlt_le_trans with (IZR (2 ^ 60)); [apply IZR_lt; auto|].
    change (IZR (2 ^ 60)) with (bpow radix2 60). apply bpow_le. lia.
Qed.
(** The number of references when the f32 arithmetic is exact. *)
Lemma max_refs_exact : forall n, (3 * Z.of_nat n < 16777216)%Z -> max_refs n = n + 3 * n / 4.
Proof.
  intros n H. unfold max_refs. f_equal.
  destruct (fn_exact n) as [Fn En]; [lia|].
  assert (f075 = @B754_finite 24 128 false 12582912 (-24) eq_refl) as E75 by (apply B2SF_inj; vm_compute; reflexivity).
  assert (fin f075 /\ fr f075 = (3 / 4)%R) as [F75 V75].
  { rewrite E75. split; [reflexivity|]. unfold fr. cbn [B2R]. unfold F2R. simpl. lra. }
  destruct (fr_fmul (fn n) f075 Fn F75) as [Nm Em]. rewrite En, V75 in Em.
  assert (generic_format radix2 (SpecFloat.fexp 24 128) (IZR (Z.of_nat n) * (3 / 4))) as G.
  { replace (IZR (Z.of_nat n) * (3 / 4))%R with (F2R (Float radix2 (3 * Z.of_nat n) (-2))).
    - apply generic_format_F2R. intro Nz. unfold cexp, SpecFloat.fexp, SpecFloat.emin.
      assert (mag radix2 (F2R (Float radix2 (3 * Z.of_nat n) (-2))) <= 22)%Z; [|lia].
      apply mag_le_bpow; [apply F2R_neq_0; exact Nz|].
      rewrite <- F2R_Zabs. rewrite Z.abs_eq by lia. unfold F2R. cbn [Fnum Fexp].
      replace (bpow radix2 22) with (IZR 16777216 * bpow radix2 (-2))%R by (simpl; lra).
      apply Rmult_lt_compat_r; [apply bpow_gt_0|]. apply IZR_lt. lia.
    - unfold F2R. cbn [Fnum Fexp]. rewrite mult_IZR. simpl. lra. }
  assert (IZR (Z.of_nat n) <= 16777216)%R as Bn by (apply IZR_le; lia).
  assert (0 <= IZR (Z.of_nat n))%R as Bp by (apply IZR_le; lia).
  assert (RN (IZR (Z.of_nat n) * (3 / 4)) = rnd (IZR (Z.of_nat n) * (3 / 4))) as SM.
  { apply RN_small. rewrite Rabs_pos_eq by lra. apply Rle_trans with (bpow radix2 24); [simpl; lra|apply bpow_le; lia]. }
  rewrite SM in Em.
  unfold rnd in Em. rewrite round_generic in Em; [|apply valid_rnd_N|exact G].
  set (x := fmul (fn n) f075) in *. clearbody x.
  assert (fin x) as Fx.
  { apply fin_of_fr; auto. rewrite Em, Rabs_pos_eq by lra. apply Rle_lt_trans with (bpow radix2 24); [simpl; lra|apply bpow_lt; lia]. }
  rewrite fr_fin in Em by auto.
  assert (Btrunc x = (3 * Z.of_nat n / 4)%Z) as Et.
  { apply eq_IZR. rewrite Btrunc_correct by reflexivity. rewrite Em.
    unfold round, scaled_mantissa, cexp, FIX_exp, F2R. cbn [Fnum Fexp]. rewrite Rmult_1_r. cbn [bpow Z.opp]. rewrite Rmult_1_r.
    f_equal. rewrite Ztrunc_floor by lra. apply Zfloor_imp.
    pose proof (Z.div_mod (3 * Z.of_nat n) 4 ltac:(lia)) as D. pose proof (Z.mod_pos_bound (3 * Z.of_nat n) 4 ltac:(lia)) as Mb.
    set (q := (3 * Z.of_nat n / 4)%Z) in *. set (m := (3 * Z.of_nat n mod 4)%Z) in *. clearbody q m.
    apply (f_equal IZR) in D. rewrite plus_IZR, !mult_IZR in D. destruct Mb as [M0 M1]. apply IZR_le in M0. apply IZR_lt in M1.
    rewrite plus_IZR. lra. }
  assert (f_as_usize x = (3 * Z.of_nat n / 4)%Z) as ->.
  { unfold f_as_usize, f_to_Z_sat. pose proof (Z.div_pos (3 * Z.of_nat n) 4 ltac:(lia) ltac:(lia)).
    assert (3 * Z.of_nat n / 4 <= 3 * Z.of_nat n)%Z by (apply Z.div_le_upper_bound; lia).
    destruct x as [s|s| |s m e Hx]; try discriminate Fx; rewrite Et; lia. }
  apply Nat2Z.inj. rewrite Z2Nat.id by (apply Z.div_pos; lia). rewrite Nat2Z.inj_div. f_equal. lia.
Qed.
Lemma as_usize_nan : forall x : f32, is_nan x = true -> f_as_usize x = 0%Z.
Proof. intros [s|s| |s m e H] E; try discriminate E; reflexivity. Qed.

Lemma nonneg_cases : forall x : f32, flt x f0 = false -> is_nan x = true \/ x = B754_infinity false \/ (fin x /\ (0 <= fr x)%R).
Proof.
  intros x H. destruct (is_nan x) eqn:E; auto. right.
  assert (notnan x) as N by exact E. assert (notnan f0) as N0 by reflexivity.
  apply flt_false in H; auto. change (fr f0) with 0%R in H.
  destruct x as [s|s| |s m e Hx]; try (right; split; [reflexivity|exact H]); try discriminate.
  destruct s; auto. simpl in H. pose proof BIG_pos. lra.
Qed.
Lemma nan_mul_l : forall x y : f32, is_nan x = true -> is_nan (fmul x y) = true.
Proof. intros [| | |] y E; try discriminate E. destruct y; reflexivity. Qed.
Lemma nan_mul_r : forall x y : f32, is_nan y = true -> is_nan (fmul x y) = true.
Proof. intros x [| | |] E; try discriminate E. destruct x; reflexivity. Qed.
Lemma nan_div_l : forall x y : f32, is_nan x = true -> is_nan (fdiv x y) = true.
Proof. intros [| | |] y E; try discriminate E. destruct y; reflexivity. Qed.
Lemma nan_div_r : forall x y : f32, is_nan y = true -> is_nan (fdiv x y) = true.
Proof. intros x [| | |] E; try discriminate E. destruct x; reflexivity. Qed.
Lemma nan_add_l : forall x y : f32, is_nan x = true -> is_nan (fadd x y) = true.
Proof. intros [| | |] y E; try discriminate E. destruct y; reflexivity. Qed.
Lemma nan_add_r : forall x y : f32, is_nan y = true -> is_nan (fadd x y) = true.
Proof. intros x [| | |] E; try discriminate E. destruct x; reflexivity. Qed.

Lemma cost_nonneg : forall h k, flt h f0 = false -> (Z.of_nat k <= 2 ^ 30)%Z -> flt (fmul h (fn k)) f0 = false.
Proof.
  intros h k H K. destruct (fn_small k K) as [Fk Pk].
  destruct (nonneg_cases h H) as [N|[->|[F P]]].
  - apply flt_nan_l. apply nan_mul_l. auto.
  - destruct (fn k) as [s|s| |s m e Hx]; try discriminate Fk; try reflexivity.
    destruct s; [|reflexivity]. simpl in Pk. exfalso.
    assert (F2R (Float radix2 (Zneg m) e) < 0)%R by (apply F2R_lt_0; reflexivity). lra.
  - destruct (fr_fmul _ _ F Fk) as [N E]. apply flt_false; [exact N|reflexivity|].
    change (fr f0) with 0%R. rewrite E. apply RN_pos. apply Rmult_le_pos; auto.
Qed.

Lemma share_le : forall remaining L R, flt L f0 = false -> flt R f0 = false -> (Z.of_nat remaining <= 2 ^ 24)%Z ->
  (f_as_usize (fmul (fn remaining) (fdiv L (fadd L R))) <= Z.of_nat remaining)%Z.
Proof.
  intros k L R HL HR K. destruct (fn_exact k K) as [Fk Ek].
  assert (forall x : f32, is_nan x = true -> (f_as_usize x <= Z.of_nat k)%Z) as Nan by (intros x E; rewrite as_usize_nan by auto; lia).
  destruct (nonneg_cases L HL) as [N|[->|[FL PL]]].
  - apply Nan, nan_mul_r, nan_div_l, N.
  - apply Nan, nan_mul_r. destruct (nonneg_cases R HR) as [N|[->|[FR PR]]]; try reflexivity.
    + apply nan_div_r, nan_add_r, N.
    + destruct R as [s|s| |s m e Hx]; try discriminate FR; reflexivity.
  - destruct (nonneg_cases R HR) as [N|[->|[FR PR]]].
    + apply Nan, nan_mul_r, nan_div_r, nan_add_r, N.
    + destruct L as [s|s| |s m e Hx]; try discriminate FL;
        (apply as_usize_le; try lia); simpl fadd; simpl fdiv; destruct (fn k) as [s'|s'| |s' m' e' Hk]; try discriminate Fk; try reflexivity;
        simpl; apply IZR_le; lia.
    + destruct (fr_fadd _ _ FL FR) as [NS ES].
      assert (fr L <= fr (fadd L R))%R as LS by (rewrite ES; apply fr_le_RN; [apply fin_notnan; auto|lra]).
      destruct (is_finite (fadd L R)) eqn:FS.
      * destruct (Req_dec (fr (fadd L R)) 0) as [Z0|Nz].
        { apply Nan, nan_mul_r. assert (fr L = 0)%R as L0 by lra. rewrite fr_fin in L0, Z0 by auto.
          destruct L as [s|s| |s m e Hx]; try discriminate FL.
          - destruct (fadd (B754_zero s) R) as [s'|s'| |s' m' e' Hx']; try discriminate FS; [reflexivity|].
            exfalso. simpl in Z0. apply eq_0_F2R in Z0. destruct s'; discriminate Z0.
          - exfalso. simpl in L0. apply eq_0_F2R in L0. destruct s; discriminate L0. }
        destruct (fr_fdiv _ _ FL FS Nz) as [ND ED].
        assert (0 < fr (fadd L R))%R as PS by lra.
        assert (0 <= fr L / fr (fadd L R) <= 1)%R as [Q0 Q1].
        { split.
          - apply Rmult_le_pos; [auto|]. left. apply Rinv_0_lt_compat; auto.
          - apply Rmult_le_reg_r with (fr (fadd L R)); auto. unfold Rdiv. rewrite Rmult_assoc, Rinv_l by auto. lra. }
        assert (fr f1 = 1)%R as E1 by (exact (proj2 (fn_exact 1 ltac:(lia)))).
        assert (0 <= fr (fdiv L (fadd L R)) <= 1)%R as [D0 D1].
        { rewrite ED. split; [apply RN_pos; auto|]. rewrite <- E1. apply RN_le_fr; [reflexivity|lra]. }
        assert (fin (fdiv L (fadd L R))) as FD.
        { apply fin_of_fr; auto. rewrite Rabs_pos_eq by auto. pose proof bpow128_lt_BIG.
          assert (1 < bpow radix2 128)%R by (change 1%R with (bpow radix2 0); apply bpow_lt; lia). lra. }
        destruct (fr_fmul _ _ Fk FD) as [NM EM]. apply as_usize_le; auto; try lia.
        rewrite EM, <- Ek. apply RN_le_fr; [apply fin_notnan; auto|]. rewrite <- (Rmult_1_r (fr (fn k))) at 2.
        apply Rmult_le_compat_l; auto. rewrite Ek. apply IZR_le. lia.
      * destruct (fadd L R) as [s|s| |s m e Hx] eqn:EA; try discriminate FS; try discriminate NS.
        destruct L as [sl|sl| |sl ml el Hl]; try discriminate FL; (apply as_usize_le; try lia);
        simpl fdiv; destruct (fn k) as [s'|s'| |s' m' e' Hk]; try discriminate Fk; try reflexivity; simpl; apply IZR_le; lia.
Qed.

(** If neither child box has a negative half area, the share is not more than
    the free space. *)
Theorem split_count_le : forall remaining c,
  flt (half_area (c_left c)) f0 = false -> flt (half_area (c_right c)) f0 = false ->
  (Z.of_nat (c_right_end c) <= 2 ^ 30)%Z -> c_right_begin c <= c_right_end c -> (Z.of_nat remaining <= 2 ^ 24)%Z ->
  (left_split_count remaining c <= Z.of_nat remaining)%Z.
Proof.
  intros k c HL HR B1 B2 K. unfold left_split_count. cbv zeta. destruct (k =? 0); [lia|].
  apply share_le; auto; apply cost_nonneg; auto; lia.
Qed.

(** Padding is monotone. *)
Lemma inf_cases : forall x : f32, notnan x -> fin x \/ fr x = (- BIG)%R \/ fr x = BIG.
Proof. intros [s|s| |s m e H] N; try discriminate; auto. right. destruct s; auto. Qed.
Lemma op_mono : forall (op : f32 -> f32 -> f32) (g : R -> R) (d x y : f32),
  (forall z, fin z -> notnan (op z d) /\ fr (op z d) = RN (g (fr z))) -> (forall z, notnan z -> fin z \/ op z d = z) ->
  (forall a b, a <= b -> g a <= g b)%R -> fle x y = true -> fle (op x d) (op y d) = true.
Proof.
  intros op g d x y Hf Hi Hm L. destruct (fle_notnan _ _ L) as (Nx & Ny). apply fle_spec in L; auto.
  destruct (Hi x Nx) as [Fx|Ex], (Hi y Ny) as [Fy|Ey].
  - destruct (Hf x Fx) as (N1 & E1), (Hf y Fy) as (N2 & E2). apply fle_spec; auto. rewrite E1, E2. apply RN_mono. auto.
  - destruct (Hf x Fx) as (N1 & E1). rewrite Ey. apply fle_spec; auto.
    destruct (inf_cases y Ny) as [Fy|[Yn|Yp]].
    + destruct (Hf y Fy) as (_ & E2). rewrite Ey in E2. rewrite E2, E1. apply RN_mono. auto.
    + pose proof (fin_fr_lt x Fx) as B. apply Rabs_lt_inv in B. pose proof bpow128_lt_BIG. rewrite Yn in L. lra.
    + rewrite Yp. pose proof (fr_bound (op x d)). lra.
  - destruct (Hf y Fy) as (N1 & E1). rewrite Ex. apply fle_spec; auto.
    destruct (inf_cases x Nx) as [Fx|[Yn|Yp]].
    + destruct (Hf x Fx) as (_ & E2). rewrite Ex in E2. rewrite E2, E1. apply RN_mono. auto.
    + rewrite Yn. pose proof (fr_bound (op y d)). lra.
    + pose proof (fin_fr_lt y Fy) as B. apply Rabs_lt_inv in B. pose proof bpow128_lt_BIG. rewrite Yp in L. lra.
  - rewrite Ex, Ey. apply fle_spec; auto.
Qed.
Lemma with_offset_mono : forall a b d, box_in a b -> fin d -> box_in (with_offset a d) (with_offset b d).
Proof.
  intros a b d ((A1 & A2 & A3) & (B1 & B2 & B3)) Fd.
  assert (forall x y, fle x y = true -> fle (fadd x d) (fadd y d) = true) as Ha.
  { intros x y. apply (op_mono fadd (fun r => (r + fr d)%R)); [intros z Fz; apply fr_fadd; auto|intros z Nz; apply fadd_inf_l; auto|intros; lra]. }
  assert (forall x y, fle x y = true -> fle (fsub x d) (fsub y d) = true) as Hs.
  { intros x y. apply (op_mono fsub (fun r => (r - fr d)%R)); [intros z Fz; apply fr_fsub; auto|intros z Nz; apply fsub_inf_l; auto|intros; lra]. }
  split; (split; [|split]); simpl; auto.
Qed.
