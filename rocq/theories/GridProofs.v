(** * The cells of a Morton grid *)
Require Import List ZArith NArith Bool Arith Lia Reals Lra.
From Flocq Require Import Core BinarySingleNaN.
From Verif Require Import F32 F32Facts Vec AabbModel SpecGeom SpecSlab SlabProofs MonoProofs TriError UtilsModel BinOrder SpecGrid.
Import ListNotations.
Local Open Scope R_scope.

(** [as i32] cut off below zero is the truncation of the positive part. *)
Lemma cast_pos : forall v : f32, Z.max (f_as_i32 v) 0 = Z.min 2147483647 (f_as_usize (fmax v f0)).
Proof.
  intros v. destruct (fnan v) eqn:N.
  { unfold fmax. rewrite N. destruct v; try discriminate. reflexivity. }
  assert (notnan v) as Nv by exact N.
  destruct (is_finite v) eqn:F.
  - destruct (flt v f0) eqn:L.
    + assert (fmax v f0 = f0) as -> by (unfold fmax; rewrite N, L; reflexivity).
      apply flt_spec in L; auto. rewrite fr_fin in L by auto. change (fr f0) with 0 in L.
      assert (Btrunc v <= 0)%Z as B.
      { apply le_IZR. rewrite (Btrunc_correct 24 128 Hm32). unfold round, F2R, scaled_mantissa, cexp, FIX_exp. simpl. rewrite !Rmult_1_r.
        apply IZR_le. rewrite Ztrunc_ceil by lra. apply Zceil_glb. simpl. lra. }
      change (f_as_usize f0) with 0%Z. 
      assert (f_as_i32 v = Z.max (-2147483648) (Z.min 2147483647 (Btrunc v))) as -> by (destruct v; try discriminate; reflexivity). lia.
    + assert (fmax v f0 = v) as -> by (unfold fmax; rewrite N, L; reflexivity).
      assert (0 <= B2R v) as P.
      { destruct (Rle_or_lt 0 (B2R v)) as [Q|Q]; auto. exfalso. assert (flt v f0 = true) as L'; [|congruence].
        apply flt_spec; auto. rewrite fr_fin by auto. exact Q. }
      rewrite usize_val by (auto; rewrite fr_fin; auto). rewrite fr_fin by auto.
      assert (f_as_i32 v = Z.max (-2147483648) (Z.min 2147483647 (Btrunc v))) as -> by (destruct v; try discriminate; reflexivity).
      rewrite Btrunc_floor by auto. assert (0 <= Zfloor (B2R v))%Z by (apply Zfloor_lub; exact P). lia.
  - destruct v as [|s| |]; try discriminate. destruct s; reflexivity.
Qed.

Lemma coord_val : forall e g, (1 <= grid_dim e <= 1024)%Z ->
  grid_coord e g = Z.to_N (Z.min (grid_dim e - 1) (f_as_usize (fmax g f0))).
Proof. intros e g D. unfold grid_coord. rewrite cast_pos. f_equal. lia. Qed.

Lemma coord_mono : forall e v w, (1 <= grid_dim e <= 1024)%Z -> fr (fmax v f0) <= fr (fmax w f0) ->
  (grid_coord e v <= grid_coord e w)%N.
Proof.
  intros e v w D L. rewrite !coord_val by auto. destruct (pos_part v), (pos_part w).
  pose proof (usize_mono (fmax v f0) (fmax w f0)) as M. specialize (M ltac:(auto) ltac:(auto) ltac:(auto) L). lia.
Qed.

Lemma affine_coord : forall s q : f32, notnan s -> 0 <= fr s ->
  forall c c' : f32, fin c -> fin c' -> fr c <= fr c' -> fr (fmax (fadd (fmul c s) q) f0) <= fr (fmax (fadd (fmul c' s) q) f0).
Proof.
  intros s q Ns Ps c c' Fc Fc' L. destruct (is_finite s) eqn:Fs.
  - destruct (Rle_lt_or_eq_dec 0 (fr s) Ps) as [P|Z].
    + destruct (fmul_mono c c' s (fin_notnan _ Fc) (fin_notnan _ Fc') Fs P L) as (A & B & C). apply fadd_pos_mono; auto.
    + destruct (fr_fmul c s Fc Fs) as [A1 A2], (fr_fmul c' s Fc' Fs) as [B1 B2]. apply fadd_pos_mono; auto.
      rewrite A2, B2, <- Z, !Rmult_0_r. lra.
  - pose proof BIG_pos. destruct s as [|t| |]; try discriminate. destruct t; [simpl in Ps; lra|]. apply inf_pos_mono; auto.
Qed.

Lemma coord_floor : forall e v, (1 <= grid_dim e <= 1024)%Z -> fin v ->
  grid_coord e v = Z.to_N (Z.min (grid_dim e - 1) (Z.max 0 (Zfloor (fr v)))).
Proof.
  intros e v D F. rewrite coord_val by auto. f_equal. assert (notnan v) as N by (apply fin_notnan; auto). destruct (pos_part v) as [P1 P2].
  assert (fin (fmax v f0)) as Fm.
  { unfold fmax. destruct (fnan v); auto. destruct (fnan f0); auto. destruct (flt v f0); auto. }
  rewrite usize_val by auto. rewrite fr_fmax by auto. change (fr f0) with 0.
  destruct (Rle_or_lt 0 (fr v)) as [L|L].
  - rewrite Rmax_left by auto. assert (0 <= Zfloor (fr v))%Z by (apply Zfloor_lub; exact L). lia.
  - rewrite Rmax_right by lra. change 0 with (IZR 0) at 1. rewrite Zfloor_IZR.
    assert (Zfloor (fr v) < 0)%Z by (apply lt_IZR; pose proof (Zfloor_lb (fr v)); lra). lia.
Qed.

Lemma cell_near : forall dim (x t e : R) (k : N), Rabs (x - t) <= e -> inside_cell dim e t k ->
  Z.to_N (Z.min (dim - 1) (Z.max 0 (Zfloor x))) = k.
Proof.
  intros dim x t e k H (K & L & U). apply Rabs_le_inv in H.
  assert (k = 0%N \/ Z.of_N k <= Zfloor x)%Z as L'.
  { destruct L as [L|L]; auto. right. apply Zfloor_lub. lra. }
  assert (Z.of_N k = dim - 1 \/ Zfloor x < Z.of_N k + 1)%Z as U'.
  { destruct U as [U|U]; auto. right. apply lt_IZR. rewrite plus_IZR. pose proof (Zfloor_lb x). lra. }
  lia.
Qed.

Lemma dim_val : forall d, (1 <= d <= 1024)%Z -> fin (f_of_Z d) /\ fr (f_of_Z d) = IZR d.
Proof.
  intros d D. pose proof (binary_normalize_correct 24 128 Hp32 Hm32 mode_NE d 0 false) as H. cbv zeta in H. fold (f_of_Z d) in H.
  assert (F2R (Float radix2 d 0) = IZR d) as E by (unfold F2R; simpl; lra). rewrite E in H.
  assert (round radix2 (SpecFloat.fexp 24 128) (round_mode mode_NE) (IZR d) = IZR d) as R.
  { apply round_generic; [apply valid_rnd_round_mode|]. rewrite <- E. 
    apply (generic_format_FLT radix2 (3 - 128 - 24) 24). exists (Float radix2 d 0); simpl; auto; lia. }
  rewrite R in H. rewrite Rlt_bool_true in H.
  - destruct H as (A & B & _). split; auto. rewrite fr_fin by auto. exact A.
  - rewrite Rabs_pos_eq by (apply IZR_le; lia). apply Rle_lt_trans with (IZR 1024); [apply IZR_le; lia|].
    change (IZR 1024) with (bpow radix2 10). apply bpow_lt. lia.
Qed.

Section Scale.
  Variables lo hi : f32. Variable d : Z.
  Hypothesis Dd : (1 <= d <= 1024)%Z.
  Hypothesis Flo : fin lo. Hypothesis Fhi : fin hi.
  Let W := fr hi - fr lo.
  Hypothesis W1 : bpow radix2 (-100) <= W. Hypothesis W2 : W <= bpow radix2 100.
  Let D := IZR d.
  Lemma D_bounds : 1 <= D <= 1024.
  Proof. unfold D. split; apply IZR_le; lia. Qed.
  Lemma Wp : 0 < W.
  Proof. exact (Wpos lo hi W1). Qed.
  Lemma wid : fin (fsub hi lo) /\ exists e, Rabs e <= ue /\ fr (fsub hi lo) = W * (1 + e).
  Proof. exact (width lo hi Flo Fhi W1 W2). Qed.

  (** cells per unit *)
  Lemma cell_scale : let s := fmul (f_of_Z d) (fdiv f1 (fsub hi lo)) in
    fin s /\ exists e, Rabs e <= 31 / 10 * ue /\ fr s = D / W * (1 + e).
  Proof.
    intro s. pose proof D_bounds as DB. destruct (dim_val d Dd) as [Fdim Vdim]. fold D in Vdim. destruct wid as (Fd & e1 & He1 & Ed). pose proof Wp as WP. pose proof ue_bounds as U.
    assert (0 < fr (fsub hi lo) /\ W / 2 <= fr (fsub hi lo) <= 2 * W) as (Pd & Ld & Ud) by (rewrite Ed; apply scaled; auto; lra).
    assert (bpow radix2 (-126) <= Rabs (fr (fsub hi lo)) <= bpow radix2 126) as Dn.
    { rewrite Rabs_pos_eq by lra. split.
      - apply Rle_trans with (bpow radix2 (-101)); [apply bpow_le; lia|]. change (-101)%Z with (-100 + -1)%Z. rewrite bpow_plus.
        change (bpow radix2 (-1)) with (/ 2). lra.
      - apply two_pow with 101%Z; [lia|]. change 101%Z with (100 + 1)%Z. rewrite bpow_plus. change (bpow radix2 1) with 2. lra. }
    destruct (inv_facts (fsub hi lo)) as (Fr & Zd & e2 & He2 & Er).
    { split; [exact Fd|]. unfold fval. rewrite <- fr_fin by auto. exact Dn. }
    set (r := fdiv f1 (fsub hi lo)) in *.
    assert (/ (2 * W) <= / fr (fsub hi lo) <= / (W / 2)) as [I1 I2] by (split; apply Rinv_le_contravar; lra).
    assert (0 < / fr (fsub hi lo)) as I0 by (apply Rinv_0_lt_compat; lra).
    destruct (scaled e2 (/ fr (fsub hi lo))) as (Pr & Lr & Ur); [lra|auto|]. rewrite <- Er in *.
    assert (bpow radix2 (-110) <= D * fr r) as Rl.
    { apply Rle_trans with (/ (4 * W)); [|replace (/ (4 * W)) with (/ (2 * W) / 2) by (field; lra); apply Rle_trans with (1 * fr r); [lra|apply Rmult_le_compat_r; lra]].
      rewrite <- (Rinv_inv (bpow radix2 (-110))). apply Rinv_le_contravar; [lra|]. rewrite <- bpow_opp.
      change (- -110)%Z with (100 + 10)%Z. rewrite bpow_plus. replace (bpow radix2 10) with 1024 by (simpl; lra). lra. }
    assert (D * fr r <= bpow radix2 120) as Ru.
    { apply Rle_trans with (4096 * / W); [replace (/ (W / 2)) with (2 * / W) in I2 by (field; lra); apply Rle_trans with (1024 * fr r); [apply Rmult_le_compat_r; lra|lra]|].
      apply Rle_trans with (4096 * / bpow radix2 (-100)).
      - apply Rmult_le_compat_l; [lra|]. apply Rinv_le_contravar; auto. apply bpow_gt_0.
      - rewrite <- bpow_opp. change 120%Z with (20 + - -100)%Z. rewrite bpow_plus. replace (bpow radix2 20) with 1048576 by (simpl; lra).
        pose proof (bpow_gt_0 radix2 (- -100)). lra. }
    destruct (fr_fmul (f_of_Z d) r Fdim Fr) as [Ns Es]. fold s in Ns, Es. rewrite Vdim, Rmult_comm in Es.
    assert (Rabs (fr r * D) <= bpow radix2 127) as B by (rewrite Rabs_pos_eq by (rewrite Rmult_comm; pose proof (bpow_gt_0 radix2 (-110)); lra); eapply two_pow; [|rewrite Rmult_comm; exact Ru]; lia).
    split; [eapply fin_of_RN; eauto|].
    destruct (RN_small _ B) as [Rs _]. rewrite Rs in Es.
    destruct (rnd_rel (fr r * D)) as (e3 & He3 & E3).
    { rewrite Rabs_pos_eq by (rewrite Rmult_comm; pose proof (bpow_gt_0 radix2 (-110)); lra). apply Rle_trans with (bpow radix2 (-110)); [apply bpow_le; lia|lra]. }
    apply Rabs_le_inv in He1, He2, He3.
    exists ((1 + e2) * (1 + e3) / (1 + e1) - 1). split.
    - assert (0 < 1 + e1) by lra. replace ((1 + e2) * (1 + e3) / (1 + e1) - 1) with ((e2 + e3 + e2 * e3 - e1) * / (1 + e1)) by (field; lra).
      rewrite Rabs_mult, (Rabs_pos_eq (/ (1 + e1))) by (apply Rlt_le, Rinv_0_lt_compat; lra).
      apply Rmult_le_reg_r with (1 + e1); [lra|]. rewrite Rmult_assoc, Rinv_l, Rmult_1_r by lra.
      apply Rabs_le. assert (- (ue * / 1000000) <= e2 * e3 <= ue * / 1000000) by (clear -He2 He3 U; nra). clear -H0 He1 He2 He3 U; nra.
    - rewrite Es, E3, Er, Ed. field. split; lra.
  Qed.

  (** The position [c] along the axis, in cells. *)
  Lemma cell_position : forall c : f32, fin c -> Rabs (fr c) + Rabs (fr lo) <= bpow radix2 20 * W ->
    let s := fmul (f_of_Z d) (fdiv f1 (fsub hi lo)) in
    let v := fadd (fmul c s) (fmul (fneg lo) s) in
    fin v /\ Rabs (fr v - D * (fr c - fr lo) / W) <= 6 * ue * (D * (Rabs (fr c) + Rabs (fr lo)) / W) + bpow radix2 (-148).
  Proof.
    intros c Fc Bc s v. pose proof D_bounds as DB. destruct cell_scale as (Fs & e & He & Es). fold s in Fs, Es. pose proof Wp as WP. pose proof ue_bounds as U.
    set (T := D * (Rabs (fr c) + Rabs (fr lo)) / W).
    assert (0 < D / W) as PD by (apply Rdiv_lt_0_compat; lra).
    assert (0 <= T) as T0. { unfold T, Rdiv. apply Rmult_le_pos; [|apply Rlt_le, Rinv_0_lt_compat; lra]. pose proof (Rabs_pos (fr c)). pose proof (Rabs_pos (fr lo)). apply Rmult_le_pos; lra. }
    assert (T <= bpow radix2 30) as T24.
    { unfold T. apply Rmult_le_reg_r with W; auto. unfold Rdiv. rewrite Rmult_assoc, Rinv_l, Rmult_1_r by lra.
      change 30%Z with (10 + 20)%Z. rewrite bpow_plus. replace (bpow radix2 10) with 1024 by (simpl; lra). apply Rle_trans with (1024 * (Rabs (fr c) + Rabs (fr lo))); [apply Rmult_le_compat_r; [pose proof (Rabs_pos (fr c)); pose proof (Rabs_pos (fr lo)); lra|lra]|lra]. }
    destruct (scaled e (D / W)) as (Ps & Ls & Us); [lra|auto|]. rewrite <- Es in *.
    destruct (fr_neg lo (fin_notnan lo Flo)) as [Nn En].
    assert (fin (fneg lo)) as Fn by (unfold fneg; rewrite is_finite_Bopp; auto).
    assert (forall x : f32, fin x -> Rabs (fr x) <= Rabs (fr c) + Rabs (fr lo) ->
      fin (fmul x s) /\ Rabs (fr (fmul x s) - fr x * fr s) <= ue * (Rabs (fr x) * fr s) + bpow radix2 (-150) /\ Rabs (fr (fmul x s)) <= bpow radix2 33) as Prod.
    { intros x Fx Bx. destruct (fr_fmul x s Fx Fs) as [N E].
      assert (Rabs (fr x * fr s) = Rabs (fr x) * fr s) as Ea by (rewrite Rabs_mult, (Rabs_pos_eq (fr s)) by lra; reflexivity).
      assert (Rabs (fr x) * fr s <= 2 * T) as B.
      { replace (2 * T) with ((Rabs (fr c) + Rabs (fr lo)) * (2 * (D / W))) by (unfold T; field; lra).
        apply Rmult_le_compat; try lra. apply Rabs_pos. }
      assert (Rabs (fr x * fr s) <= bpow radix2 31) as B25.
      { rewrite Ea. change 31%Z with (1 + 30)%Z. rewrite bpow_plus. change (bpow radix2 1) with 2. lra. }
      assert (Rabs (fr x * fr s) <= bpow radix2 127) as B127 by (eapply two_pow; [|exact B25]; lia).
      split; [eapply fin_of_RN; eauto|]. destruct (RN_small _ B127) as [R _]. rewrite E, R. pose proof (rnd_err (fr x * fr s)) as Er.
      rewrite Ea in Er. split; [exact Er|].
      replace (rnd (fr x * fr s)) with (rnd (fr x * fr s) - fr x * fr s + fr x * fr s) by ring.
      eapply Rle_trans; [apply Rabs_triang|]. rewrite Ea in *.
      assert (bpow radix2 (-150) <= 1) by (apply (bpow_le radix2 (-150) 0); lia).
      replace (bpow radix2 33) with (4 * bpow radix2 31) by (simpl; lra).
      assert (1 <= bpow radix2 31) by (simpl; lra). nra. }
    pose proof (Rabs_pos (fr c)) as Pc. pose proof (Rabs_pos (fr lo)) as Pl.
    destruct (Prod c Fc ltac:(lra)) as (F1 & D1 & B1).
    destruct (Prod (fneg lo) Fn ltac:(rewrite En, Rabs_Ropp; lra)) as (F2 & D2 & B2).
    rewrite En in D2. rewrite Rabs_Ropp in D2.
    set (p := fmul c s) in *. set (q := fmul (fneg lo) s) in *.
    destruct (fr_fadd p q F1 F2) as [Nv Ev]. fold v in Nv, Ev.
    assert (Rabs (fr p + fr q) <= bpow radix2 127) as Bs.
    { apply two_pow with 34%Z; [lia|]. eapply Rle_trans; [apply Rabs_triang|]. change 34%Z with (1 + 33)%Z. rewrite bpow_plus. change (bpow radix2 1) with 2. lra. }
    split; [eapply fin_of_RN; eauto|]. destruct (RN_small _ Bs) as [R _].
    destruct (rnd_plus_rel p q F1 F2) as (e6 & He6 & E6). rewrite Ev, R, E6.
    set (t := D * (fr c - fr lo) / W). set (x := fr p + fr q).
    assert (Rabs t <= T) as Bt.
    { unfold t, T. unfold Rdiv. rewrite !Rabs_mult, (Rabs_pos_eq D), (Rabs_pos_eq (/ W)) by (try (apply Rlt_le, Rinv_0_lt_compat); lra).
      apply Rmult_le_compat_r; [apply Rlt_le, Rinv_0_lt_compat; lra|]. apply Rmult_le_compat_l; [lra|]. unfold Rminus. eapply Rle_trans; [apply Rabs_triang|]. rewrite Rabs_Ropp. lra. }
    assert (Rabs (x - t) <= 42 / 10 * ue * T + bpow radix2 (-149)) as Dx.
    { replace (x - t) with ((fr p - fr c * fr s) + (fr q - - fr lo * fr s) + t * e).
      2:{ unfold x. replace (t * e) with ((fr c - fr lo) * fr s - t); [ring|]. rewrite Es. unfold t. field. lra. }
      eapply Rle_trans; [apply Rabs_triang|]. eapply Rle_trans; [apply Rplus_le_compat_r, Rabs_triang|].
      rewrite (Rabs_mult t e).
      assert (Rabs (fr c) * fr s + Rabs (fr lo) * fr s <= (1 + 4 * ue) * T) as Bsum.
      { replace ((1 + 4 * ue) * T) with ((Rabs (fr c) + Rabs (fr lo)) * (D / W * (1 + 4 * ue))) by (unfold T; field; lra).
        rewrite <- Rmult_plus_distr_r. apply Rmult_le_compat_l; [lra|]. rewrite Es. apply Rmult_le_compat_l; [lra|]. apply Rabs_le_inv in He. lra. }
      assert (Rabs t * Rabs e <= T * (31 / 10 * ue)) as Bte by (apply Rmult_le_compat; auto using Rabs_pos).
      replace (bpow radix2 (-149)) with (2 * bpow radix2 (-150)) by (change (-149)%Z with (1 + -150)%Z; rewrite bpow_plus; change (bpow radix2 1) with 2; ring).
      assert (ue * (Rabs (fr c) * fr s + Rabs (fr lo) * fr s) <= ue * ((1 + 4 * ue) * T)) by (apply Rmult_le_compat_l; lra).
      assert (0 <= ue * T) as UT by (apply Rmult_le_pos; lra).
      assert (ue * T * ue <= ue * T * / 1000000) by (apply Rmult_le_compat_l; lra). lra. }
    replace (x * (1 + e6) - t) with ((x - t) * (1 + e6) + t * e6) by ring.
    eapply Rle_trans; [apply Rabs_triang|]. rewrite !Rabs_mult.
    assert (Rabs (1 + e6) <= 1 + ue) as B6 by (apply Rabs_le; apply Rabs_le_inv in He6; lra).
    assert (Rabs (x - t) * Rabs (1 + e6) <= (42 / 10 * ue * T + bpow radix2 (-149)) * (1 + ue)) by (apply Rmult_le_compat; auto using Rabs_pos).
    assert (Rabs t * Rabs e6 <= T * ue) by (apply Rmult_le_compat; auto using Rabs_pos).
    replace (bpow radix2 (-148)) with (2 * bpow radix2 (-149)) by (change (-148)%Z with (1 + -149)%Z; rewrite bpow_plus; change (bpow radix2 1) with 2; ring).
    pose proof (bpow_gt_0 radix2 (-149)) as Bp.
    assert (0 <= ue * T) as UT by (apply Rmult_le_pos; lra).
    assert (ue * T * ue <= ue * T * / 1000000) by (apply Rmult_le_compat_l; lra).
    assert (bpow radix2 (-149) * ue <= bpow radix2 (-149) * / 1000000) by (apply Rmult_le_compat_l; lra). lra.
  Qed.

End Scale.
