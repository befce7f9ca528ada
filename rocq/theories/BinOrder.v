(** * The slabs of the SAH builders are ordered sixteenths *)
Require Import List ZArith Bool Arith Lia Permutation Reals Lra.
From Flocq Require Import Core BinarySingleNaN.
From Verif Require Import F32 F32Facts Vec AabbModel SpecGeom SpecSlab SlabProofs MonoProofs BinnedModel SpecPlane TriError SpatialShare.
Import ListNotations.
Local Open Scope R_scope.

(** ** From a float to a slab *)

Definition bin_at (v : f32) : nat := Z.to_nat (Z.min 15 (f_as_usize (fmax v f0))).

Lemma pos_part : forall v : f32, notnan (fmax v f0) /\ 0 <= fr (fmax v f0).
Proof.
  intro v. destruct (fnan v) eqn:N.
  - unfold fmax. rewrite N. split; auto. simpl. lra.
  - assert (notnan v) as Nv by exact N. split; [apply fmax_notnan; auto|]. rewrite fr_fmax by auto. apply Rmax_r.
Qed.

Lemma Btrunc_floor : forall x : f32, 0 <= B2R x -> Btrunc x = Zfloor (B2R x).
Proof.
  intros x P. apply eq_IZR. rewrite (Btrunc_correct 24 128 Hm32). unfold round, F2R, scaled_mantissa, cexp, FIX_exp. simpl.
  rewrite !Rmult_1_r. rewrite Ztrunc_floor by auto. reflexivity.
Qed.

Lemma usize_val : forall x : f32, fin x -> 0 <= fr x -> f_as_usize x = Z.min 18446744073709551615 (Zfloor (fr x)).
Proof.
  intros x F P. rewrite fr_fin in * by auto.
  assert (Z.max 0 (Z.min 18446744073709551615 (Btrunc x)) = Z.min 18446744073709551615 (Zfloor (B2R x))) as E.
  { rewrite Btrunc_floor by auto. assert (0 <= Zfloor (B2R x))%Z; [|lia]. apply Zfloor_lub. exact P. }
  unfold f_as_usize, f_to_Z_sat. destruct x as [s|s| |s m e H]; try discriminate; exact E.
Qed.

Lemma usize_mono : forall x y : f32, notnan x -> notnan y -> 0 <= fr x -> fr x <= fr y -> (f_as_usize x <= f_as_usize y)%Z.
Proof.
  intros x y Nx Ny P L. pose proof BIG_pos.
  destruct (is_finite y) eqn:Fy.
  - destruct (is_finite x) eqn:Fx.
    + rewrite !usize_val by (auto; lra). pose proof (Zfloor_le _ _ L). lia.
    + exfalso. destruct x as [s|s| |s m e H']; try discriminate. pose proof (fin_fr_lt y Fy) as B. pose proof bpow128_lt_BIG.
      simpl in P, L. destruct s; [lra|]. apply Rabs_lt_inv in B. lra.
  - assert (y = B754_infinity false) as ->.
    { destruct y as [s|s| |s m e H']; try discriminate. destruct s; auto. exfalso. simpl in L. lra. }
    change (f_as_usize (B754_infinity false)) with 18446744073709551615%Z. 
    unfold f_as_usize, f_to_Z_sat. destruct x as [s|s| |s m e H']; try discriminate; try lia. destruct s; lia.
Qed.

(** The positive part of a sum grows with its first operand, whatever the second is. *)
Lemma fadd_pos_mono : forall x y q : f32, notnan x -> notnan y -> fr x <= fr y ->
  fr (fmax (fadd x q) f0) <= fr (fmax (fadd y q) f0).
Proof.
  intros x y q Nx Ny L. pose proof BIG_pos. pose proof bpow128_lt_BIG.
  destruct (pos_part (fadd x q)) as [Px Qx], (pos_part (fadd y q)) as [Py Qy].
  assert (forall z : f32, fnan z = true -> fr (fmax z f0) = 0) as Z0.
  { intros z Nz. unfold fmax. rewrite Nz. reflexivity. }
  assert (fr f0 = 0) as F0 by reflexivity.
  assert (fr (fmax (B754_infinity true) f0) = 0) as ZI.
  { rewrite fr_fmax by auto. rewrite F0. apply Rmax_right. simpl. lra. }
  assert (fr (fmax (B754_infinity false) f0) = BIG) as ZB.
  { rewrite fr_fmax by auto. rewrite F0. apply Rmax_left. simpl. lra. }
  destruct (is_finite q) eqn:Fq.
  - destruct (is_finite x) eqn:Fx; destruct (is_finite y) eqn:Fy.
    + destruct (fr_fadd x q Fx Fq) as [A1 A2], (fr_fadd y q Fy Fq) as [B1 B2].
      rewrite !fr_fmax by auto. rewrite A2, B2. apply Rle_max_compat_r. apply RN_mono. lra.
    + destruct y as [s|s| |s m e H']; try discriminate.
      assert (fadd (B754_infinity s) q = B754_infinity s) as -> by (destruct q; try discriminate; reflexivity).
      destruct s; [|rewrite ZB; apply fr_bound].
      exfalso. simpl in L. pose proof (fin_fr_lt x Fx) as B. apply Rabs_lt_inv in B. lra.
    + destruct x as [s|s| |s m e H']; try discriminate.
      assert (fadd (B754_infinity s) q = B754_infinity s) as -> by (destruct q; try discriminate; reflexivity).
      destruct s; [rewrite ZI; auto|].
      exfalso. simpl in L. pose proof (fin_fr_lt y Fy) as B. apply Rabs_lt_inv in B. lra.
    + destruct x as [s|s| |s m e H'], y as [t|t| |t m' e' H'']; try discriminate.
      destruct s, t; try lra.
      * rewrite (ltac:(destruct q; try discriminate; reflexivity) : fadd (B754_infinity true) q = B754_infinity true). rewrite ZI. auto.
      * exfalso. simpl in L. lra.
  - destruct q as [|s| |]; try discriminate.
    + destruct s.
      * (* minus infinity *)
        assert (fr (fmax (fadd x (B754_infinity true)) f0) = 0) as ->; [|exact Qy].
        destruct x as [t|t| |t m e H']; try discriminate; try exact ZI. destruct t; [exact ZI|apply Z0; reflexivity].
      * destruct y as [t|t| |t m e H']; try discriminate.
        -- assert (fadd (B754_zero t) (B754_infinity false) = B754_infinity false) as -> by reflexivity. rewrite ZB. apply fr_bound.
        -- destruct t.
           ++ assert (x = B754_infinity true) as ->; [|lra].
              change (fr (B754_infinity true)) with (- BIG) in L.
              destruct (is_finite x) eqn:Fx; [exfalso; pose proof (fin_fr_lt x Fx) as B; apply Rabs_lt_inv in B; lra|].
              destruct x as [u|u| |u m e H']; try discriminate. destruct u; [reflexivity|]. exfalso. simpl in L. lra.
           ++ assert (fadd (B754_infinity false) (B754_infinity false) = B754_infinity false) as -> by reflexivity. rewrite ZB. apply fr_bound.
        -- assert (fadd (B754_finite t m e H') (B754_infinity false) = B754_infinity false) as -> by reflexivity. rewrite ZB. apply fr_bound.
    + assert (fr (fmax (fadd x B754_nan) f0) = 0) as ->; [|exact Qy].
      apply Z0. destruct x; reflexivity.
Qed.

Lemma bin_at_mono : forall v w : f32, fr (fmax v f0) <= fr (fmax w f0) -> (bin_at v <= bin_at w)%nat.
Proof.
  intros v w L. unfold bin_at. destruct (pos_part v), (pos_part w).
  pose proof (usize_mono (fmax v f0) (fmax w f0)) as M. specialize (M ltac:(auto) ltac:(auto) ltac:(auto) L). lia.
Qed.

(** Multiplying by an infinity: zero becomes NaN. *)
Lemma inf_pos_mono : forall x y q : f32, fin x -> fin y -> fr x <= fr y ->
  fr (fmax (fadd (fmul x (B754_infinity false)) q) f0) <= fr (fmax (fadd (fmul y (B754_infinity false)) q) f0).
Proof.
  intros x y q Fx Fy L.
  destruct (pos_part (fadd (fmul y (B754_infinity false)) q)) as [_ Qy].
  assert (forall z : f32, fin z -> fnan (fmul z (B754_infinity false)) = true \/ notnan (fmul z (B754_infinity false))) as D.
  { intros z _. destruct (fnan (fmul z (B754_infinity false))) eqn:E; auto. }
  assert (forall z : f32, fnan z = true -> fr (fmax (fadd z q) f0) = 0) as Z0.
  { intros z Nz. destruct z; try discriminate. destruct q; reflexivity. }
  destruct (D x Fx) as [Nx|Nx]; [rewrite Z0 by auto; auto|].
  destruct x as [s|s| |s m e H]; try discriminate.
  destruct y as [t|t| |t m' e' H']; try discriminate.
  - (* y = 0 *) assert (s = true) as ->.
    { destruct s; auto. exfalso. assert (0 < fr (B754_finite false m e H)); [|simpl in *; lra].
      rewrite fr_fin by auto. apply (F2R_gt_0 radix2 (Float radix2 (Zpos m) e)). reflexivity. }
    change (fmul (B754_finite true m e H) (B754_infinity false)) with (B754_infinity true : f32).
    assert (fr (fmax (fadd (B754_infinity true) q) f0) = 0) as ->; [|exact Qy].
    pose proof BIG_pos. assert (fr (fmax (B754_infinity true) f0) = 0) as ZI.
    { rewrite fr_fmax by auto. apply Rmax_right. simpl. lra. }
    destruct q as [u|u| |u ? ? ?]; try exact ZI; try reflexivity. destruct u; [exact ZI|reflexivity].
  - assert (forall b, fmul (B754_finite b m e H) (B754_infinity false) = B754_infinity b) as E1 by (intros [|]; reflexivity).
    assert (forall b, fmul (B754_finite b m' e' H') (B754_infinity false) = B754_infinity b) as E2 by (intros [|]; reflexivity).
    rewrite E1, E2. apply fadd_pos_mono; auto. pose proof BIG_pos. simpl. destruct s, t; try lra.
    exfalso. assert (0 < fr (B754_finite false m e H)) by (rewrite fr_fin by auto; apply (F2R_gt_0 radix2 (Float radix2 (Zpos m) e)); reflexivity).
    assert (fr (B754_finite true m' e' H') < 0) by (rewrite fr_fin by auto; apply (F2R_lt_0 radix2 (Float radix2 (Zneg m') e')); reflexivity). lra.
Qed.

Lemma fmul_inf_neg : forall x : f32, fmul x (B754_infinity true) = fmul (fneg x) (B754_infinity false).
Proof. intros [s|s| |s m e H]; try reflexivity; destruct s; reflexivity. Qed.

(** A slab index [bin_at (c * s + q)] is monotone in [c], or antitone. *)
Lemma affine_mono : forall s q : f32,
  (forall c c' : f32, fin c -> fin c' -> fr c <= fr c' -> (bin_at (fadd (fmul c s) q) <= bin_at (fadd (fmul c' s) q))%nat) \/
  (forall c c' : f32, fin c -> fin c' -> fr c <= fr c' -> (bin_at (fadd (fmul c' s) q) <= bin_at (fadd (fmul c s) q))%nat).
Proof.
  intros s q. destruct (is_finite s) eqn:Fs.
  - destruct (Rtotal_order (fr s) 0) as [N|[Z|P]].
    + right. intros c c' Fc Fc' L. apply bin_at_mono.
      destruct (fmul_anti c c' s (fin_notnan _ Fc) (fin_notnan _ Fc') Fs N L) as (A & B & C). apply fadd_pos_mono; auto.
    + left. intros c c' Fc Fc' L. apply bin_at_mono.
      destruct (fr_fmul c s Fc Fs) as [A1 A2], (fr_fmul c' s Fc' Fs) as [B1 B2]. apply fadd_pos_mono; auto.
      rewrite A2, B2, Z, !Rmult_0_r. lra.
    + left. intros c c' Fc Fc' L. apply bin_at_mono.
      destruct (fmul_mono c c' s (fin_notnan _ Fc) (fin_notnan _ Fc') Fs P L) as (A & B & C). apply fadd_pos_mono; auto.
  - destruct s as [|t| |]; try discriminate.
    + destruct t.
      * right. intros c c' Fc Fc' L. apply bin_at_mono. rewrite !fmul_inf_neg.
        assert (forall z : f32, fin z -> fin (fneg z)) as Fn by (intros z Fz; unfold fneg; rewrite is_finite_Bopp; auto).
        apply inf_pos_mono; auto. destruct (fr_neg c (fin_notnan _ Fc)) as [_ ->], (fr_neg c' (fin_notnan _ Fc')) as [_ ->]. lra.
      * left. intros c c' Fc Fc' L. apply bin_at_mono. apply inf_pos_mono; auto.
    + left. intros c c' Fc Fc' L. apply bin_at_mono.
      assert (forall z : f32, fmul z B754_nan = B754_nan) as E by (intros [| | |]; reflexivity). rewrite !E. lra.
Qed.

Lemma affine_up : forall s q : f32, notnan s -> 0 <= fr s ->
  forall c c' : f32, fin c -> fin c' -> fr c <= fr c' -> (bin_at (fadd (fmul c s) q) <= bin_at (fadd (fmul c' s) q))%nat.
Proof.
  intros s q Ns Ps c c' Fc Fc' L. apply bin_at_mono. destruct (is_finite s) eqn:Fs.
  - destruct (Rle_lt_or_eq_dec 0 (fr s) Ps) as [P|Z].
    + destruct (fmul_mono c c' s (fin_notnan _ Fc) (fin_notnan _ Fc') Fs P L) as (A & B & C). apply fadd_pos_mono; auto.
    + destruct (fr_fmul c s Fc Fs) as [A1 A2], (fr_fmul c' s Fc' Fs) as [B1 B2]. apply fadd_pos_mono; auto.
      rewrite A2, B2, <- Z, !Rmult_0_r. lra.
  - pose proof BIG_pos. destruct s as [|t| |]; try discriminate. destruct t; [simpl in Ps; lra|]. apply inf_pos_mono; auto.
Qed.

(** One over the width of a proper interval. *)
Lemma inv_width : forall lo hi : f32, fin lo -> fin hi -> fr lo < fr hi ->
  notnan (fdiv f1 (fsub hi lo)) /\ 0 <= fr (fdiv f1 (fsub hi lo)).
Proof.
  intros lo hi Fl Fh L. destruct (fr_fsub hi lo Fh Fl) as [N E]. pose proof BIG_pos.
  assert (0 < fr (fsub hi lo)) as P.
  { rewrite E. destruct (rnd_minus_rel hi lo Fh Fl) as (e & He & Ee). apply Rabs_le_inv in He. pose proof ue_bounds.
    destruct (RN_cases (fr hi - fr lo)) as [[_ R]|[[_ [S R]]|[_ [S R]]]]; rewrite R; [rewrite Ee; apply Rmult_lt_0_compat; lra|lra|].
    exfalso. try lra. }
  destruct (is_finite (fsub hi lo)) eqn:Fd.
  - assert (fr (fsub hi lo) <> 0) as Z by lra. destruct (fr_fdiv f1 _ eq_refl Fd Z) as [Nq Eq]. split; auto. rewrite Eq, fr_f1.
    apply RN_pos. apply Rlt_le. apply Rdiv_lt_0_compat; lra.
  - destruct (fsub hi lo) as [|s| |]; try discriminate. destruct s; [simpl in P; lra|]. split; [reflexivity|]. simpl. lra.
Qed.

Lemma fmul_pos_fin : forall x y : f32, notnan x -> 0 <= fr x -> fin y -> 0 < fr y -> notnan (fmul x y) /\ 0 <= fr (fmul x y).
Proof.
  intros x y Nx Px Fy Py. destruct (fmul_mono f0 x y eq_refl Nx Fy Py Px) as (A & B & C). split; auto.
  destruct (fr_fmul f0 y eq_refl Fy) as [_ E]. rewrite E in C. change (fr f0) with 0 in C. rewrite Rmult_0_l, RN_0 in C. exact C.
Qed.

(** ** The slab of the spatial builder *)
Lemma fmul_swap : forall x y : f32, fmul x y = fmul y x.
Proof.
  intros [s|s| |s m e H] [t|t| |t m' e' H']; unfold fmul, Bmult; try (rewrite xorb_comm; reflexivity); auto.
  apply B2SF_inj. rewrite !B2SF_SF2B. rewrite xorb_comm, Pos.mul_comm, Z.add_comm. reflexivity.
Qed.

Lemma fmax_mono : forall v w : f32, notnan v -> notnan w -> fr v <= fr w -> fr (fmax v f0) <= fr (fmax w f0).
Proof. intros v w Nv Nw L. rewrite !fr_fmax by auto. apply Rle_max_compat_r. exact L. Qed.

Lemma fsub_mono : forall x y l : f32, fin x -> fin y -> fin l -> fr x <= fr y ->
  notnan (fsub x l) /\ notnan (fsub y l) /\ fr (fsub x l) <= fr (fsub y l).
Proof.
  intros x y l Fx Fy Fl L. destruct (fr_fsub x l Fx Fl) as [A1 A2], (fr_fsub y l Fy Fl) as [B1 B2].
  split; auto. split; auto. rewrite A2, B2. apply RN_mono. lra.
Qed.

Lemma sign_pos : forall s m e H, 0 < fr (@B754_finite 24 128 s m e H) -> s = false.
Proof.
  intros [|] m e H P; auto. exfalso. assert (fr (B754_finite true m e H) < 0); [|lra].
  rewrite fr_fin by auto. apply (F2R_lt_0 radix2 (Float radix2 (Zneg m) e)). reflexivity.
Qed.

(** The positive part of [v * infinity]. *)
Lemma inf_mul_pos : forall v : f32, notnan v ->
  fr (fmax (fmul v (B754_infinity false)) f0) = if flt f0 v then BIG else 0.
Proof.
  intros v N. pose proof BIG_pos.
  assert (fr (fmax (B754_infinity true) f0) = 0) as ZI by (rewrite fr_fmax by auto; apply Rmax_right; simpl; lra).
  assert (fr (fmax (B754_infinity false) f0) = BIG) as ZB by (rewrite fr_fmax by auto; apply Rmax_left; simpl; lra).
  destruct v as [s|s| |s m e H']; try discriminate.
  - destruct s; reflexivity.
  - destruct s; [exact ZI|exact ZB].
  - destruct s; [exact ZI|exact ZB].
Qed.

(** The slab of [x] grows with [x], or it falls. *)
Lemma plane_slab_mono : forall lo hi : f32, fin lo ->
  (forall x y : f32, fin x -> fin y -> fr x <= fr y -> (slab lo hi x <= slab lo hi y)%nat) \/
  (forall x y : f32, fin x -> fin y -> fr x <= fr y -> (slab lo hi y <= slab lo hi x)%nat).
Proof.
  intros lo hi Fl. unfold slab. set (i := fdiv f1 (thick lo hi)). clearbody i.
  assert (forall v, Z.to_nat (Z.min 15 (f_as_usize (fmax v f0))) = bin_at v) as E by reflexivity.
  destruct (is_finite i) eqn:Fi.
  - destruct (Rtotal_order (fr i) 0) as [N|[Z|P]].
    + right. intros x y Fx Fy L. destruct (fsub_mono x y lo Fx Fy Fl L) as (A & B & C). rewrite !E. apply bin_at_mono.
      rewrite !(fmul_swap i). destruct (fmul_anti _ _ i A B Fi N C) as (A' & B' & C'). apply fmax_mono; auto.
    + left. intros x y Fx Fy L. rewrite !E. apply bin_at_mono.
      assert (exists s, i = B754_zero s) as (s & ->).
      { destruct i as [s|s| |s m e H]; try discriminate; [eauto|]. exfalso. rewrite fr_fin in Z by auto.
        destruct s; [assert (B2R (B754_finite true m e H) < 0) by (apply (F2R_lt_0 radix2 (Float radix2 (Zneg m) e)); reflexivity)
                    |assert (0 < B2R (B754_finite false m e H)) by (apply (F2R_gt_0 radix2 (Float radix2 (Zpos m) e)); reflexivity)]; lra. }
      assert (forall v : f32, fr (fmax (fmul (B754_zero s) v) f0) = 0) as Z0.
      { intros [t|t| |t m e H]; destruct s; try destruct t; reflexivity. }
      rewrite !Z0. lra.
    + left. intros x y Fx Fy L. destruct (fsub_mono x y lo Fx Fy Fl L) as (A & B & C). rewrite !E. apply bin_at_mono.
      rewrite !(fmul_swap i). destruct (fmul_mono _ _ i A B Fi P C) as (A' & B' & C'). apply fmax_mono; auto.
  - destruct i as [|t| |]; try discriminate.
    + assert (forall v w : f32, notnan v -> notnan w -> fr v <= fr w ->
         fr (fmax (fmul v (B754_infinity false)) f0) <= fr (fmax (fmul w (B754_infinity false)) f0)) as M.
      { intros v w Nv Nw L. rewrite !inf_mul_pos by auto. pose proof BIG_pos.
        destruct (flt f0 v) eqn:Ev; [|destruct (flt f0 w); lra].
        apply flt_spec in Ev; auto. assert (flt f0 w = true) as -> by (apply flt_spec; auto; lra). lra. }
      destruct t.
      * right. intros x y Fx Fy L. destruct (fsub_mono x y lo Fx Fy Fl L) as (A & B & C). rewrite !E. apply bin_at_mono.
        rewrite !(fmul_swap (B754_infinity true)), !fmul_inf_neg.
        destruct (fr_neg _ A) as [A1 A2], (fr_neg _ B) as [B1 B2]. apply M; auto. rewrite A2, B2. lra.
      * left. intros x y Fx Fy L. destruct (fsub_mono x y lo Fx Fy Fl L) as (A & B & C). rewrite !E. apply bin_at_mono.
        rewrite !(fmul_swap (B754_infinity false)). apply M; auto.
    + left. intros x y Fx Fy L. rewrite !E. apply bin_at_mono.
      assert (forall z : f32, fmul B754_nan z = B754_nan) as En by (intros [| | |]; reflexivity). rewrite !En. lra.
Qed.

Lemma plane_slab_up : forall lo hi : f32, fin lo -> fin hi -> fr lo < fr hi ->
  forall x y : f32, fin x -> fin y -> fr x <= fr y -> (slab lo hi x <= slab lo hi y)%nat.
Proof.
  intros lo hi Fl Fh L x y Fx Fy Lx. unfold slab. set (i := fdiv f1 (thick lo hi)).
  assert (notnan i /\ 0 <= fr i) as [Ni Pi].
  { unfold i, thick. destruct (fr_fsub hi lo Fh Fl) as [N E]. pose proof BIG_pos.
    assert (0 <= fr (fsub hi lo)) as P by (rewrite E; apply RN_pos; lra).
    assert (fr (f_of_Z 16) = 16) as F16.
    { assert (f_of_Z 16 = @B754_finite 24 128 false 8388608 (-19) eq_refl) as -> by (apply B2SF_inj; vm_compute; reflexivity).
      unfold fr, B2R, F2R; simpl. lra. }
    (* the thickness is not a negative zero *)
    assert (Bsign (fsub hi lo) = false) as Sd.
    { destruct (fsub hi lo) as [s|s| |s m e H'] eqn:Ed; try discriminate.
      - exfalso. change (fr (B754_zero s)) with 0 in E. destruct (rnd_minus_rel hi lo Fh Fl) as (e & He & Ee). apply Rabs_le_inv in He. pose proof ue_bounds.
        destruct (RN_cases (fr hi - fr lo)) as [[_ R]|[[_ [S R]]|[_ [S R]]]]; rewrite R in E; [|lra|lra].
        rewrite Ee in E. assert (0 < (fr hi - fr lo) * (1 + e)) by (apply Rmult_lt_0_compat; lra). lra.
      - destruct s; auto. simpl in P. lra.
      - destruct s; auto. exfalso. assert (fr (B754_finite true m e H') < 0); [|lra].
        rewrite fr_fin by auto. apply (F2R_lt_0 radix2 (Float radix2 (Zneg m) e)). reflexivity. }
    assert (Bsign (fdiv (fsub hi lo) (f_of_Z 16)) = false /\ notnan (fdiv (fsub hi lo) (f_of_Z 16))) as [St Nt].
    { assert (f_of_Z 16 = @B754_finite 24 128 false 8388608 (-19) eq_refl) as E16 by (apply B2SF_inj; vm_compute; reflexivity).
      destruct (is_finite (fsub hi lo)) eqn:Fd.
      - destruct (fr_fdiv (fsub hi lo) (f_of_Z 16) Fd eq_refl ltac:(rewrite F16; lra)) as [Nt Et]. split; auto.
        pose proof (Bdiv_correct 24 128 Hp32 Hm32 mode_NE (fsub hi lo) (f_of_Z 16) ltac:(rewrite <- fr_fin by reflexivity; rewrite F16; lra)) as C.
        change (Bdiv mode_NE (fsub hi lo) (f_of_Z 16)) with (fdiv (fsub hi lo) (f_of_Z 16)) in C.
        assert (Bsign (f_of_Z 16) = false) as S16 by (rewrite E16; reflexivity).
        rewrite Sd, S16 in C. destruct (Rlt_bool _ _).
        + destruct C as (_ & _ & C). apply C. exact Nt.
        + change (binary_overflow 24 128 mode_NE (xorb false false)) with (SpecFloat.S754_infinity false) in C.
          destruct (fdiv (fsub hi lo) (f_of_Z 16)) as [s|s| |s m e H']; try discriminate. injection C as ->. reflexivity.
      - rewrite E16. destruct (fsub hi lo) as [|s| |]; try discriminate. simpl in Sd. subst s. split; reflexivity. }
    set (h := fdiv (fsub hi lo) (f_of_Z 16)) in *. clearbody h.
    destruct h as [s|s| |s m e H']; try discriminate; simpl in St; subst s.
    - split; [reflexivity|]. simpl. lra.
    - split; [reflexivity|]. simpl. lra.
    - assert (0 < fr (B754_finite false m e H')) as Ph by (rewrite fr_fin by auto; apply (F2R_gt_0 radix2 (Float radix2 (Zpos m) e)); reflexivity).
      destruct (fr_fdiv f1 (B754_finite false m e H') eq_refl eq_refl ltac:(lra)) as [Nq Eq]. split; auto. rewrite Eq, fr_f1.
      apply RN_pos. apply Rlt_le. apply Rdiv_lt_0_compat; lra. }
  clearbody i. destruct (fsub_mono x y lo Fx Fy Fl Lx) as (A & B & C).
  change (bin_at (fmul i (fsub x lo)) <= bin_at (fmul i (fsub y lo)))%nat. apply bin_at_mono. rewrite !(fmul_swap i).
  destruct (is_finite i) eqn:Fi.
  - destruct (Rle_lt_or_eq_dec 0 (fr i) Pi) as [P|Z].
    + destruct (fmul_mono _ _ i A B Fi P C) as (A' & B' & C'). apply fmax_mono; auto.
    + assert (exists s, i = B754_zero s) as (s & ->).
      { destruct i as [s|s| |s m e H]; try discriminate; [eauto|]. exfalso. rewrite fr_fin in Z by auto.
        destruct s; [assert (B2R (B754_finite true m e H) < 0) by (apply (F2R_lt_0 radix2 (Float radix2 (Zneg m) e)); reflexivity)
                    |assert (0 < B2R (B754_finite false m e H)) by (apply (F2R_gt_0 radix2 (Float radix2 (Zpos m) e)); reflexivity)]; lra. }
      assert (forall v : f32, fr (fmax (fmul v (B754_zero s)) f0) = 0) as Z0.
      { intros [t|t| |t m e H]; destruct s; try destruct t; reflexivity. }
      rewrite !Z0. lra.
  - pose proof BIG_pos. destruct i as [|t| |]; try discriminate. destruct t; [simpl in Pi; lra|].
    rewrite !inf_mul_pos by auto.
    destruct (flt f0 (fsub x lo)) eqn:Ev; [|destruct (flt f0 (fsub y lo)); lra].
    apply flt_spec in Ev; auto. assert (flt f0 (fsub y lo) = true) as -> by (apply flt_spec; auto; lra). lra.
Qed.

(** ** The slabs are sixteenths *)
Definition clamp15 (z : Z) : nat := Z.to_nat (Z.max 0 (Z.min 15 z)).

Lemma bin_at_floor : forall v : f32, fin v -> bin_at v = clamp15 (Zfloor (fr v)).
Proof.
  intros v F. unfold bin_at, clamp15. assert (notnan v) as N by (apply fin_notnan; auto). destruct (pos_part v) as [P1 P2].
  assert (fin (fmax v f0)) as Fm.
  { unfold fmax. destruct (fnan v); auto. destruct (fnan f0); auto. destruct (flt v f0); auto. }
  rewrite usize_val by auto. rewrite fr_fmax by auto. change (fr f0) with 0.
  destruct (Rle_or_lt 0 (fr v)) as [L|L].
  - rewrite Rmax_left by auto. assert (0 <= Zfloor (fr v))%Z by (apply Zfloor_lub; exact L). lia.
  - rewrite Rmax_right by lra. change 0 with (IZR 0) at 1. rewrite Zfloor_IZR.
    assert (Zfloor (fr v) < 0)%Z by (apply lt_IZR; pose proof (Zfloor_lb (fr v)); lra). lia.
Qed.

(** [slab] is [k] if the exact position is well inside sixteenth [k]. *)
Lemma clamp_near : forall (x t e : R) (k : nat), Rabs (x - t) <= e -> (k <= 15)%nat ->
  (k = 0%nat \/ INR k + e <= t) -> (k = 15%nat \/ t < INR k + 1 - e) -> clamp15 (Zfloor x) = k.
Proof.
  intros x t e k H K L U. apply Rabs_le_inv in H. unfold clamp15. rewrite INR_IZR_INZ in *.
  assert (k = 0%nat \/ Z.of_nat k <= Zfloor x)%Z as L'.
  { destruct L as [L|L]; auto. right. apply Zfloor_lub. lra. }
  assert (k = 15%nat \/ Zfloor x < Z.of_nat k + 1)%Z as U'.
  { destruct U as [U|U]; auto. right. apply lt_IZR. rewrite plus_IZR. pose proof (Zfloor_lb x). lra. }
  lia.
Qed.

Lemma fr_16 : fr f_bins = 16.
Proof.
  assert (f_bins = @B754_finite 24 128 false 8388608 (-19) eq_refl) as -> by (apply B2SF_inj; vm_compute; reflexivity).
  unfold fr, B2R, F2R; simpl. lra.
Qed.

Lemma two_pow : forall a b r, (a <= b)%Z -> r <= bpow radix2 a -> r <= bpow radix2 b.
Proof. intros a b r L H. eapply Rle_trans; [exact H|]. apply bpow_le. lia. Qed.

Lemma small_prod : forall x y a b, - a <= x <= a -> - b <= y <= b -> - (a * b) <= x * y <= a * b.
Proof.
  intros x y a b Hx Hy. apply Rabs_le_inv. rewrite Rabs_mult. apply Rmult_le_compat; auto using Rabs_pos; apply Rabs_le; lra.
Qed.

Section Scale.
  Variables lo hi : f32.
  Hypothesis Flo : fin lo. Hypothesis Fhi : fin hi.
  Let W := fr hi - fr lo.
  Hypothesis W1 : bpow radix2 (-100) <= W. Hypothesis W2 : W <= bpow radix2 100.

  Lemma Wpos : 0 < W.
  Proof. pose proof (bpow_gt_0 radix2 (-100)). lra. Qed.

  Lemma width : fin (fsub hi lo) /\ exists e, Rabs e <= ue /\ fr (fsub hi lo) = W * (1 + e).
  Proof.
    destruct (fr_fsub hi lo Fhi Flo) as [N E]. fold W in E. pose proof Wpos.
    assert (Rabs W <= bpow radix2 127) as B by (rewrite Rabs_pos_eq by lra; eapply two_pow; [|exact W2]; lia).
    split; [eapply fin_of_RN; eauto|]. destruct (RN_small W B) as [R _]. rewrite R in E.
    destruct (rnd_minus_rel hi lo Fhi Flo) as (e & He & Ee). fold W in Ee. exists e. split; auto. congruence.
  Qed.

  Lemma scaled : forall e k, Rabs e <= 4 * ue -> 0 < k -> 
    0 < k * (1 + e) /\ k / 2 <= k * (1 + e) <= 2 * k.
  Proof. intros e k He Hk. apply Rabs_le_inv in He. pose proof ue_bounds. nra. Qed.

  (** 16 / width *)
  Lemma binned_scale : let s := fmul (fdiv f1 (fsub hi lo)) f_bins in
    fin s /\ exists e, Rabs e <= 31 / 10 * ue /\ fr s = 16 / W * (1 + e).
  Proof.
    intro s. destruct width as (Fd & e1 & He1 & Ed). pose proof Wpos as WP. pose proof ue_bounds as U.
    assert (0 < fr (fsub hi lo) /\ W / 2 <= fr (fsub hi lo) <= 2 * W) as (Pd & Ld & Ud) by (rewrite Ed; apply scaled; auto; lra).
    assert (bpow radix2 (-126) <= Rabs (fr (fsub hi lo)) <= bpow radix2 126) as Dn.
    { rewrite Rabs_pos_eq by lra. split.
      - apply Rle_trans with (bpow radix2 (-101)); [apply bpow_le; lia|]. change (-101)%Z with (-100 + -1)%Z. rewrite bpow_plus.
        change (bpow radix2 (-1)) with (/ 2). lra.
      - apply two_pow with 101%Z; [lia|]. change 101%Z with (100 + 1)%Z. rewrite bpow_plus. change (bpow radix2 1) with 2. lra. }
    destruct (inv_facts (fsub hi lo)) as (Fr & Zd & e2 & He2 & Er).
    { split; [exact Fd|]. unfold fval. rewrite <- fr_fin by auto. exact Dn. }
    set (r := fdiv f1 (fsub hi lo)) in *.
    assert (/ (2 * W) <= / fr (fsub hi lo) <= / (W / 2)) as [I1 I2] by (split; apply Rinv_le_contravar; lra).
    assert (0 < / fr (fsub hi lo)) as I0 by (apply Rinv_0_lt_compat; lra).
    destruct (scaled e2 (/ fr (fsub hi lo))) as (Pr & Lr & Ur); [lra|auto|]. rewrite <- Er in *.
    assert (bpow radix2 (-110) <= 16 * fr r) as Rl.
    { apply Rle_trans with (/ (4 * W)); [|replace (/ (4 * W)) with (/ (2 * W) / 2) by (field; lra); lra].
      rewrite <- (Rinv_inv (bpow radix2 (-110))). apply Rinv_le_contravar; [lra|]. rewrite <- bpow_opp.
      change (- -110)%Z with (100 + 10)%Z. rewrite bpow_plus. replace (bpow radix2 10) with 1024 by (simpl; lra). lra. }
    assert (16 * fr r <= bpow radix2 110) as Ru.
    { apply Rle_trans with (64 * / W); [replace (/ (W / 2)) with (2 * / W) in I2 by (field; lra); lra|].
      apply Rle_trans with (64 * / bpow radix2 (-100)).
      - apply Rmult_le_compat_l; [lra|]. apply Rinv_le_contravar; auto. apply bpow_gt_0.
      - rewrite <- bpow_opp. change 110%Z with (10 + - -100)%Z. rewrite bpow_plus. replace (bpow radix2 10) with 1024 by (simpl; lra).
        pose proof (bpow_gt_0 radix2 (- -100)). lra. }
    destruct (fr_fmul r f_bins Fr eq_refl) as [Ns Es]. fold s in Ns, Es. rewrite fr_16 in Es.
    assert (Rabs (fr r * 16) <= bpow radix2 127) as B by (rewrite Rabs_pos_eq by lra; eapply two_pow; [|rewrite Rmult_comm; exact Ru]; lia).
    split; [eapply fin_of_RN; eauto|].
    destruct (RN_small _ B) as [Rs _]. rewrite Rs in Es.
    destruct (rnd_rel (fr r * 16)) as (e3 & He3 & E3).
    { rewrite Rabs_pos_eq by lra. apply Rle_trans with (bpow radix2 (-110)); [apply bpow_le; lia|lra]. }
    apply Rabs_le_inv in He1, He2, He3.
    exists ((1 + e2) * (1 + e3) / (1 + e1) - 1). split.
    - assert (0 < 1 + e1) by lra. replace ((1 + e2) * (1 + e3) / (1 + e1) - 1) with ((e2 + e3 + e2 * e3 - e1) * / (1 + e1)) by (field; lra).
      rewrite Rabs_mult, (Rabs_pos_eq (/ (1 + e1))) by (apply Rlt_le, Rinv_0_lt_compat; lra).
      apply Rmult_le_reg_r with (1 + e1); [lra|]. rewrite Rmult_assoc, Rinv_l, Rmult_1_r by lra.
      apply Rabs_le. assert (- (ue * / 1000000) <= e2 * e3 <= ue * / 1000000) by nra. nra.
    - rewrite Es, E3, Er, Ed. field. split; lra.
  Qed.

  (** The position [c] along the axis, in sixteenths. *)
  Lemma binned_position : forall c : f32, fin c -> Rabs (fr c) + Rabs (fr lo) <= bpow radix2 20 * W ->
    let s := fmul (fdiv f1 (fsub hi lo)) f_bins in
    let v := fadd (fmul c s) (fmul (fneg lo) s) in
    fin v /\ Rabs (fr v - 16 * (fr c - fr lo) / W) <= 6 * ue * (16 * (Rabs (fr c) + Rabs (fr lo)) / W) + bpow radix2 (-148).
  Proof.
    intros c Fc Bc s v. destruct binned_scale as (Fs & e & He & Es). fold s in Fs, Es. pose proof Wpos as WP. pose proof ue_bounds as U.
    set (T := 16 * (Rabs (fr c) + Rabs (fr lo)) / W).
    assert (0 < 16 / W) as P16 by (apply Rdiv_lt_0_compat; lra).
    assert (0 <= T) as T0. { unfold T, Rdiv. apply Rmult_le_pos; [|apply Rlt_le, Rinv_0_lt_compat; lra]. pose proof (Rabs_pos (fr c)). pose proof (Rabs_pos (fr lo)). lra. }
    assert (T <= bpow radix2 24) as T24.
    { unfold T. apply Rmult_le_reg_r with W; auto. unfold Rdiv. rewrite Rmult_assoc, Rinv_l, Rmult_1_r by lra.
      change 24%Z with (4 + 20)%Z. rewrite bpow_plus. replace (bpow radix2 4) with 16 by (simpl; lra). lra. }
    destruct (scaled e (16 / W)) as (Ps & Ls & Us); [lra|auto|]. rewrite <- Es in *.
    destruct (fr_neg lo (fin_notnan lo Flo)) as [Nn En].
    assert (fin (fneg lo)) as Fn by (unfold fneg; rewrite is_finite_Bopp; auto).
    assert (forall x : f32, fin x -> Rabs (fr x) <= Rabs (fr c) + Rabs (fr lo) ->
      fin (fmul x s) /\ Rabs (fr (fmul x s) - fr x * fr s) <= ue * (Rabs (fr x) * fr s) + bpow radix2 (-150) /\ Rabs (fr (fmul x s)) <= bpow radix2 27) as Prod.
    { intros x Fx Bx. destruct (fr_fmul x s Fx Fs) as [N E].
      assert (Rabs (fr x * fr s) = Rabs (fr x) * fr s) as Ea by (rewrite Rabs_mult, (Rabs_pos_eq (fr s)) by lra; reflexivity).
      assert (Rabs (fr x) * fr s <= 2 * T) as B.
      { replace (2 * T) with ((Rabs (fr c) + Rabs (fr lo)) * (2 * (16 / W))) by (unfold T; field; lra).
        apply Rmult_le_compat; try lra. apply Rabs_pos. }
      assert (Rabs (fr x * fr s) <= bpow radix2 25) as B25.
      { rewrite Ea. change 25%Z with (1 + 24)%Z. rewrite bpow_plus. change (bpow radix2 1) with 2. lra. }
      assert (Rabs (fr x * fr s) <= bpow radix2 127) as B127 by (eapply two_pow; [|exact B25]; lia).
      split; [eapply fin_of_RN; eauto|]. destruct (RN_small _ B127) as [R _]. rewrite E, R. pose proof (rnd_err (fr x * fr s)) as Er.
      rewrite Ea in Er. split; [exact Er|].
      replace (rnd (fr x * fr s)) with (rnd (fr x * fr s) - fr x * fr s + fr x * fr s) by ring.
      eapply Rle_trans; [apply Rabs_triang|]. rewrite Ea in *.
      assert (bpow radix2 (-150) <= 1) by (apply (bpow_le radix2 (-150) 0); lia).
      replace (bpow radix2 27) with (4 * bpow radix2 25) by (simpl; lra).
      assert (1 <= bpow radix2 25) by (simpl; lra). nra. }
    pose proof (Rabs_pos (fr c)) as Pc. pose proof (Rabs_pos (fr lo)) as Pl.
    destruct (Prod c Fc ltac:(lra)) as (F1 & D1 & B1).
    destruct (Prod (fneg lo) Fn ltac:(rewrite En, Rabs_Ropp; lra)) as (F2 & D2 & B2).
    rewrite En in D2. rewrite Rabs_Ropp in D2.
    set (p := fmul c s) in *. set (q := fmul (fneg lo) s) in *.
    destruct (fr_fadd p q F1 F2) as [Nv Ev]. fold v in Nv, Ev.
    assert (Rabs (fr p + fr q) <= bpow radix2 127) as Bs.
    { apply two_pow with 28%Z; [lia|]. eapply Rle_trans; [apply Rabs_triang|]. change 28%Z with (1 + 27)%Z. rewrite bpow_plus. change (bpow radix2 1) with 2. lra. }
    split; [eapply fin_of_RN; eauto|]. destruct (RN_small _ Bs) as [R _].
    destruct (rnd_plus_rel p q F1 F2) as (e6 & He6 & E6). rewrite Ev, R, E6.
    set (t := 16 * (fr c - fr lo) / W). set (x := fr p + fr q).
    assert (Rabs t <= T) as Bt.
    { unfold t, T. unfold Rdiv. rewrite !Rabs_mult, (Rabs_pos_eq 16), (Rabs_pos_eq (/ W)) by (try (apply Rlt_le, Rinv_0_lt_compat); lra).
      apply Rmult_le_compat_r; [apply Rlt_le, Rinv_0_lt_compat; lra|]. apply Rmult_le_compat_l; [lra|]. unfold Rminus. eapply Rle_trans; [apply Rabs_triang|]. rewrite Rabs_Ropp. lra. }
    assert (Rabs (x - t) <= 42 / 10 * ue * T + bpow radix2 (-149)) as Dx.
    { replace (x - t) with ((fr p - fr c * fr s) + (fr q - - fr lo * fr s) + t * e).
      2:{ unfold x. replace (t * e) with ((fr c - fr lo) * fr s - t); [ring|]. rewrite Es. unfold t. field. lra. }
      eapply Rle_trans; [apply Rabs_triang|]. eapply Rle_trans; [apply Rplus_le_compat_r, Rabs_triang|].
      rewrite (Rabs_mult t e).
      assert (Rabs (fr c) * fr s + Rabs (fr lo) * fr s <= (1 + 4 * ue) * T) as Bsum.
      { replace ((1 + 4 * ue) * T) with ((Rabs (fr c) + Rabs (fr lo)) * (16 / W * (1 + 4 * ue))) by (unfold T; field; lra).
        rewrite <- Rmult_plus_distr_r. apply Rmult_le_compat_l; [lra|]. rewrite Es. apply Rmult_le_compat_l; [lra|]. apply Rabs_le_inv in He. lra. }
      assert (Rabs t * Rabs e <= T * (31 / 10 * ue)) as Bte by (apply Rmult_le_compat; auto using Rabs_pos).
      replace (bpow radix2 (-149)) with (2 * bpow radix2 (-150)) by (change (-149)%Z with (1 + -150)%Z; rewrite bpow_plus; change (bpow radix2 1) with 2; ring).
      assert (ue * (Rabs (fr c) * fr s + Rabs (fr lo) * fr s) <= ue * ((1 + 4 * ue) * T)) by (apply Rmult_le_compat_l; lra).
      assert (0 <= ue * T) as UT by (apply Rmult_le_pos; lra).
      assert (ue * T * ue <= ue * T * / 1000000) by (apply Rmult_le_compat_l; lra). lra. }
    replace (x * (1 + e6) - t) with ((x - t) * (1 + e6) + t * e6) by ring.
    eapply Rle_trans; [apply Rabs_triang|]. rewrite !Rabs_mult.
    assert (Rabs (1 + e6) <= 1 + ue) as B6 by (apply Rabs_le; apply Rabs_le_inv in He6; lra).
    assert (Rabs (x - t) * Rabs (1 + e6) <= (42 / 10 * ue * T + bpow radix2 (-149)) * (1 + ue)) by (apply Rmult_le_compat; auto using Rabs_pos).
    assert (Rabs t * Rabs e6 <= T * ue) by (apply Rmult_le_compat; auto using Rabs_pos).
    replace (bpow radix2 (-148)) with (2 * bpow radix2 (-149)) by (change (-148)%Z with (1 + -149)%Z; rewrite bpow_plus; change (bpow radix2 1) with 2; ring).
    pose proof (bpow_gt_0 radix2 (-149)) as Bp.
    assert (0 <= ue * T) as UT by (apply Rmult_le_pos; lra).
    assert (ue * T * ue <= ue * T * / 1000000) by (apply Rmult_le_compat_l; lra).
    assert (bpow radix2 (-149) * ue <= bpow radix2 (-149) * / 1000000) by (apply Rmult_le_compat_l; lra). lra.
  Qed.

  (** The position [x] along the axis for the spatial builder. *)
  Lemma plane_position : forall x : f32, fin x -> Rabs (fr x - fr lo) <= bpow radix2 20 * W ->
    let v := fmul (fdiv f1 (thick lo hi)) (fsub x lo) in
    let t := 16 * (fr x - fr lo) / W in
    fin v /\ Rabs (fr v - t) <= 6 * ue * Rabs t + bpow radix2 (-148).
  Proof.
    intros x Fx Bx v t. destruct width as (Fd & e1 & He1 & Ed). pose proof Wpos as WP. pose proof ue_bounds as U.
    destruct (scaled e1 W) as (Pd & Ld & Ud); [lra|auto|]. rewrite <- Ed in *.
    (* thickness *)
    assert (fr (f_of_Z 16) = 16) as F16 by exact fr_16.
    destruct (fr_fdiv (fsub hi lo) (f_of_Z 16) Fd eq_refl ltac:(rewrite F16; lra)) as [Nt Et]. rewrite F16 in Et. fold (thick lo hi) in Nt, Et.
    set (d := fsub hi lo) in *.
    assert (W / 32 <= fr d / 16 <= W / 8) as [L16 U16] by lra.
    assert (bpow radix2 (-110) <= fr d / 16) as T1.
    { apply Rle_trans with (W / 32); auto. change (-110)%Z with (-100 + -10)%Z. rewrite bpow_plus. replace (bpow radix2 (-10)) with (/ 1024) by (simpl; lra). pose proof (bpow_gt_0 radix2 (-100)). lra. }
    assert (Rabs (fr d / 16) <= bpow radix2 127) as T2 by (rewrite Rabs_pos_eq by lra; apply two_pow with 100%Z; [lia|lra]).
    assert (fin (thick lo hi)) as Ft by (eapply fin_of_RN; eauto).
    destruct (RN_small _ T2) as [Rt _]. rewrite Rt in Et.
    destruct (rnd_rel (fr d / 16)) as (e2 & He2 & E2).
    { rewrite Rabs_pos_eq by lra. apply Rle_trans with (bpow radix2 (-110)); [apply bpow_le; lia|auto]. }
    rewrite E2 in Et. destruct (scaled e2 (fr d / 16)) as (Pt & Lt & Ut); [lra|lra|]. rewrite <- Et in *.
    (* its inverse *)
    destruct (inv_facts (thick lo hi)) as (Fi & Zi & e3 & He3 & Ei).
    { split; [exact Ft|]. unfold fval. rewrite <- fr_fin by auto. rewrite Rabs_pos_eq by lra. split.
      - apply Rle_trans with (bpow radix2 (-120)); [apply bpow_le; lia|]. change (-120)%Z with (-110 + -10)%Z. rewrite bpow_plus. replace (bpow radix2 (-10)) with (/ 1024) by (simpl; lra). pose proof (bpow_gt_0 radix2 (-110)). lra.
      - apply two_pow with 100%Z; [lia|]. lra. }
    set (i := fdiv f1 (thick lo hi)) in *. set (h := thick lo hi) in *.
    (* the offset *)
    destruct (fr_fsub x lo Fx Flo) as [No Eo].
    assert (bpow radix2 20 * W <= bpow radix2 120) as B120.
    { change 120%Z with (20 + 100)%Z. rewrite bpow_plus. apply Rmult_le_compat_l; [apply bpow_ge_0|auto]. }
    assert (Rabs (fr x - fr lo) <= bpow radix2 127) as Bo by (apply two_pow with 120%Z; [lia|lra]).
    assert (fin (fsub x lo)) as Fo by (eapply fin_of_RN; eauto).
    destruct (RN_small _ Bo) as [Ro _]. rewrite Ro in Eo.
    destruct (rnd_minus_rel x lo Fx Flo) as (e4 & He4 & E4). rewrite E4 in Eo. set (o := fsub x lo) in *.
    (* the product *)
    apply Rabs_le_inv in He1, He2, He3, He4.
    set (g := (1 + e3) * (1 + e4) / ((1 + e1) * (1 + e2))).
    assert (fr i * fr o = t * g) as Eg.
    { rewrite Ei, Eo, Et, Ed. unfold t, g. field. repeat split; lra. }
    assert (Rabs (g - 1) <= 41 / 10 * ue) as Hg.
    { assert (0 < (1 + e1) * (1 + e2)) as P12 by nra. assert (- (ue / 100000) <= e1 * e2 <= ue / 100000) as Q12 by nra.
      assert (- (ue / 100000) <= e3 * e4 <= ue / 100000) as Q34 by nra.
      replace (g - 1) with ((e3 + e4 + e3 * e4 - e1 - e2 - e1 * e2) * / ((1 + e1) * (1 + e2))) by (unfold g; field; split; lra).
      rewrite Rabs_mult, (Rabs_pos_eq (/ _)) by (apply Rlt_le, Rinv_0_lt_compat; lra).
      apply Rmult_le_reg_r with ((1 + e1) * (1 + e2)); auto. rewrite Rmult_assoc, Rinv_l, Rmult_1_r by lra.
      assert (1 - 3 * ue <= (1 + e1) * (1 + e2)) as Lo by nra.
      apply Rle_trans with (41 / 10 * ue * (1 - 3 * ue)); [|apply Rmult_le_compat_l; lra].
      apply Rabs_le. assert (ue * ue <= ue / 100000) by nra. nra. }
    assert (Rabs t <= bpow radix2 24) as Bt.
    { unfold t, Rdiv. rewrite !Rabs_mult, (Rabs_pos_eq 16), (Rabs_pos_eq (/ W)) by (try (apply Rlt_le, Rinv_0_lt_compat); lra).
      apply Rmult_le_reg_r with W; auto. rewrite Rmult_assoc, Rinv_l, Rmult_1_r by lra.
      change 24%Z with (4 + 20)%Z. rewrite bpow_plus. replace (bpow radix2 4) with 16 by (simpl; lra). lra. }
    assert (Rabs (t * g - t) <= 41 / 10 * ue * Rabs t) as Dg.
    { replace (t * g - t) with (t * (g - 1)) by ring. rewrite Rabs_mult. pose proof (Rabs_pos t). nra. }
    assert (Rabs (t * g) <= (1 + 5 * ue) * Rabs t) as Btg.
    { replace (t * g) with ((t * g - t) + t) by ring. eapply Rle_trans; [apply Rabs_triang|]. pose proof (Rabs_pos t). nra. }
    destruct (fr_fmul i o Fi Fo) as [Nv Ev]. fold v in Nv, Ev. rewrite Eg in Ev.
    assert (Rabs (t * g) <= bpow radix2 127) as B127.
    { apply two_pow with 25%Z; [lia|]. change 25%Z with (1 + 24)%Z. rewrite bpow_plus. change (bpow radix2 1) with 2. pose proof (Rabs_pos t). nra. }
    split; [eapply fin_of_RN; eauto|]. destruct (RN_small _ B127) as [Rv _]. rewrite Ev, Rv.
    replace (rnd (t * g) - t) with ((rnd (t * g) - t * g) + (t * g - t)) by ring. eapply Rle_trans; [apply Rabs_triang|].
    pose proof (rnd_err (t * g)) as Er. pose proof (Rabs_pos t).
    assert (bpow radix2 (-150) <= bpow radix2 (-148)) by (apply bpow_le; lia).
    assert (ue * Rabs (t * g) <= ue * ((1 + 5 * ue) * Rabs t)) by (apply Rmult_le_compat_l; lra).
    assert (0 <= ue * Rabs t) as UT by (apply Rmult_le_pos; lra).
    assert (ue * Rabs t * ue <= ue * Rabs t * / 1000000) by (apply Rmult_le_compat_l; lra). lra.
  Qed.

  (** The border below slab [k] as the spatial builder computes it. *)
  Lemma border_position : forall k : nat, (k <= 16)%nat -> Rabs (fr lo) <= bpow radix2 20 * W ->
    fin (border lo hi k) /\ Rabs (fr (border lo hi k) - (fr lo + INR k * W / 16)) <= 5 * ue * (Rabs (fr lo) + W).
  Proof.
    intros k K Bl. destruct width as (Fd & e1 & He1 & Ed). pose proof Wpos as WP. pose proof ue_bounds as U.
    destruct (scaled e1 W) as (Pd & Ld & Ud); [lra|auto|]. rewrite <- Ed in *.
    assert (fr (f_of_Z 16) = 16) as F16 by exact fr_16.
    destruct (fr_fdiv (fsub hi lo) (f_of_Z 16) Fd eq_refl ltac:(rewrite F16; lra)) as [Nt Et]. rewrite F16 in Et. fold (thick lo hi) in Nt, Et.
    set (d := fsub hi lo) in *.
    assert (W / 32 <= fr d / 16 <= W / 8) as [L16 U16] by lra.
    assert (bpow radix2 (-110) <= fr d / 16) as T1.
    { apply Rle_trans with (W / 32); auto. change (-110)%Z with (-100 + -10)%Z. rewrite bpow_plus. replace (bpow radix2 (-10)) with (/ 1024) by (simpl; lra). pose proof (bpow_gt_0 radix2 (-100)). lra. }
    assert (Rabs (fr d / 16) <= bpow radix2 127) as T2 by (rewrite Rabs_pos_eq by lra; apply two_pow with 100%Z; [lia|lra]).
    assert (fin (thick lo hi)) as Ft by (eapply fin_of_RN; eauto).
    destruct (RN_small _ T2) as [Rt _]. rewrite Rt in Et.
    destruct (rnd_rel (fr d / 16)) as (e2 & He2 & E2).
    { rewrite Rabs_pos_eq by lra. apply Rle_trans with (bpow radix2 (-110)); [apply bpow_le; lia|auto]. }
    rewrite E2 in Et. destruct (scaled e2 (fr d / 16)) as (Pt & Lt & Ut); [lra|lra|]. rewrite <- Et in *. set (h := thick lo hi) in *.
    destruct (fn_exact k ltac:(lia)) as [Fk Ek]. rewrite <- INR_IZR_INZ in Ek.
    assert (0 <= INR k <= 16) as Bk by (split; [apply pos_INR|]; rewrite INR_IZR_INZ; apply IZR_le; lia).
    destruct (fr_fmul (fn k) h Fk Ft) as [Np Ep]. rewrite Ek in Ep.
    assert (0 <= INR k * fr h <= 4 * W) as Bp by (split; [apply Rmult_le_pos; lra|]; apply Rle_trans with (16 * fr h); [apply Rmult_le_compat_r; lra|lra]).
    assert (Rabs (INR k * fr h) <= bpow radix2 127) as B1.
    { rewrite Rabs_pos_eq by lra. apply two_pow with 110%Z; [lia|]. change 110%Z with (100 + 10)%Z. rewrite bpow_plus. replace (bpow radix2 10) with 1024 by (simpl; lra). lra. }
    assert (fin (fmul (fn k) h)) as Fp by (eapply fin_of_RN; eauto). destruct (RN_small _ B1) as [Rp _]. rewrite Rp in Ep.
    assert (exists e3, Rabs e3 <= ue /\ fr (fmul (fn k) h) = INR k * fr h * (1 + e3)) as (e3 & He3 & E3).
    { destruct k as [|k'].
      - exists 0. rewrite Rabs_R0. split; [lra|]. rewrite Ep. simpl (INR 0). rewrite !Rmult_0_l. apply rnd_0.
      - rewrite Ep. apply rnd_rel. rewrite Rabs_pos_eq by lra. assert (1 <= INR (S k')) by (change 1 with (INR 1); apply le_INR; lia).
        apply Rle_trans with (1 * fr h); [|apply Rmult_le_compat_r; lra].
        apply Rle_trans with (bpow radix2 (-120)); [apply bpow_le; lia|]. change (-120)%Z with (-110 + -10)%Z. rewrite bpow_plus. replace (bpow radix2 (-10)) with (/ 1024) by (simpl; lra). pose proof (bpow_gt_0 radix2 (-110)). lra. }
    unfold border. fold h. set (p := fmul (fn k) h) in *.
    apply Rabs_le_inv in He1, He2, He3.
    assert (0 <= INR k * W / 16 <= W) as Bx by (split; [apply Rmult_le_pos; [apply Rmult_le_pos; lra|lra]|]; apply Rle_trans with (16 * W / 16); [apply Rmult_le_compat_r; [lra|]; apply Rmult_le_compat_r; lra|lra]).
    set (g := (1 + e1) * (1 + e2) * (1 + e3)).
    assert (fr p = INR k * W / 16 * g) as Eg by (rewrite E3, Et, Ed; unfold g; field).
    assert (- (31 / 10 * ue) <= g - 1 <= 31 / 10 * ue) as Hg.
    { unfold g. assert (- (205 / 100 * ue) <= (1 + e1) * (1 + e2) - 1 <= 205 / 100 * ue) as G2.
      { pose proof (small_prod e1 e2 ue ue ltac:(lra) ltac:(lra)). assert (ue * ue <= ue * / 1000000) by (apply Rmult_le_compat_l; lra). lra. }
      set (y := (1 + e1) * (1 + e2) - 1) in *. replace ((1 + e1) * (1 + e2) * (1 + e3) - 1) with (y + e3 + y * e3) by (unfold y; ring).
      pose proof (small_prod y e3 (205 / 100 * ue) ue G2 He3). assert (ue * ue <= ue * / 1000000) by (apply Rmult_le_compat_l; lra). lra. }
    assert (Rabs (fr p - INR k * W / 16) <= 31 / 10 * ue * W) as Dp.
    { rewrite Eg. replace (INR k * W / 16 * g - INR k * W / 16) with (INR k * W / 16 * (g - 1)) by ring. rewrite Rabs_mult.
      rewrite (Rabs_pos_eq (INR k * W / 16)) by lra. rewrite (Rmult_comm (31 / 10 * ue) W). apply Rmult_le_compat; try lra; [apply Rabs_pos|apply Rabs_le; lra]. }
    destruct (fr_fadd lo p Flo Fp) as [Ns Es].
    assert (Rabs (INR k * W / 16) <= W) as Bx' by (rewrite Rabs_pos_eq; lra).
    assert (Rabs (fr p) <= 2 * W) as Bp2.
    { replace (fr p) with ((fr p - INR k * W / 16) + INR k * W / 16) by ring. eapply Rle_trans; [apply Rabs_triang|].
      assert (31 / 10 * ue * W <= W) by nra. lra. }
    assert (bpow radix2 20 * W <= bpow radix2 120) as B120.
    { change 120%Z with (20 + 100)%Z. rewrite bpow_plus. apply Rmult_le_compat_l; [apply bpow_ge_0|auto]. }
    assert (Rabs (fr lo + fr p) <= bpow radix2 127) as B2.
    { eapply Rle_trans; [apply Rabs_triang|]. change 127%Z with (7 + 120)%Z. rewrite bpow_plus. replace (bpow radix2 7) with 128 by (simpl; lra).
      assert (W <= bpow radix2 120) by (apply two_pow with 100%Z; [lia|auto]). lra. }
    split; [eapply fin_of_RN; eauto|]. destruct (RN_small _ B2) as [Rs _]. rewrite Es, Rs.
    destruct (rnd_plus_rel lo p Flo Fp) as (e4 & He4 & E4). rewrite E4.
    replace ((fr lo + fr p) * (1 + e4) - (fr lo + INR k * W / 16)) with ((fr p - INR k * W / 16) + (fr lo + fr p) * e4) by ring.
    eapply Rle_trans; [apply Rabs_triang|]. rewrite Rabs_mult.
    assert (Rabs (fr lo + fr p) <= Rabs (fr lo) + (1 + 4 * ue) * W) as Ba.
    { eapply Rle_trans; [apply Rabs_triang|]. apply Rplus_le_compat_l.
      replace (fr p) with ((fr p - INR k * W / 16) + INR k * W / 16) by ring. eapply Rle_trans; [apply Rabs_triang|].
      assert (31 / 10 * (ue * W) <= 4 * (ue * W)) by nra. lra. }
    assert (Rabs (fr lo + fr p) * Rabs e4 <= (Rabs (fr lo) + (1 + 4 * ue) * W) * ue) by (apply Rmult_le_compat; auto using Rabs_pos).
    pose proof (Rabs_pos (fr lo)). assert (0 <= ue * W) by nra. assert (ue * W * ue <= ue * W * / 1000000) by (apply Rmult_le_compat_l; lra). 
    assert (0 <= ue * Rabs (fr lo)) by nra. lra.
  Qed.
End Scale.

(** ** Every inner node of the binned tree separates the centres *)
From Verif Require Import Base NodeModel UtilsModel UtilsProofs LocbModel LocbProofs SpecTree BinnedProofs BinnedFacts BinnedLeaf.
Local Open Scope nat_scope.

Section Separated.
  Variables (mls : nat) (aabbs : list aabb) (centers : list vec3).
  Notation sah := (sah mls aabbs centers).
  Notation bin_of bounds axis p := (compute_bin_index bounds (nth p centers (vsplat f0)) axis).

  Definition separated (bounds : aabb) (il ir : list nat) : Prop :=
    exists axis k, axis < 3 /\ Forall (fun p => bin_of bounds axis p < k) il /\ Forall (fun p => k <= bin_of bounds axis p) ir.

  Fixpoint ssep (s : shape) (ids : list nat) : Prop :=
    length ids = s_len s /\
    match s with
    | SLeaf _ _ _ _ => True
    | SNode mn mx l r => exists il ir, ids = il ++ ir /\ il <> [] /\ ir <> [] /\ separated (Bb mn 0 mx 0) il ir /\ ssep l il /\ ssep r ir
    end.

  Lemma separated_axis : forall bounds il ir axis k, Forall (fun p => bin_of bounds axis p < k) il ->
    Forall (fun p => k <= bin_of bounds axis p) ir -> separated bounds il ir.
  Proof.
    intros bounds il ir axis k H1 H2. exists (match axis with 0 => 0 | 1 => 1 | _ => 2 end), k.
    split; [destruct axis as [|[|axis]]; lia|].
    split; eapply Forall_impl; try eassumption; intros p Hp; cbv beta in *; rewrite bin_axis; exact Hp.
  Qed.

  Lemma sah_sep : forall k begin ids box, ssep (fst (sah k begin ids box)) (snd (sah k begin ids box)).
  Proof.
    induction k as [|k IH]; intros begin ids box.
    - cbn. split; [symmetry; apply Nat2Z.id|exact I].
    - pose proof (sah_perm mls aabbs centers (S k) begin ids box) as Pall.
      pose proof (sah_len mls aabbs centers (S k) begin ids box) as Lall.
      cbn [BinnedProofs.sah] in *.
      assert (forall mn mx l, ssep (SLeaf mn mx (Z.of_nat begin) (Z.of_nat (length l))) l) as Leaf.
      { intros mn mx l. cbn [ssep s_len]. split; [symmetry; apply Nat2Z.id|exact I]. }
      destruct (length ids <=? 1); [apply Leaf|].
      destruct (make_plan aabbs centers mls (with_offset box f1em4) ids) as [[|axis si lb rb]| | |]; try apply Leaf.
      destruct (partition_spec _ ids (length ids) (goes_left centers (with_offset box f1em4) axis si)) as (ids' & c & E & Cc & Lc & P & L & T & Fl & _); auto.
      rewrite E in *.
      destruct ((0 <? c) && (c <? length ids)) eqn:Both; [|apply Leaf].
      apply andb_true_iff in Both as [B1 B2]. apply Nat.ltb_lt in B1, B2.
      cbn [fst snd ssep] in *. split; [rewrite (Permutation_length Pall); symmetry; exact Lall|].
      pose proof (sah_perm mls aabbs centers k begin (firstn c ids') lb) as P1.
      pose proof (sah_perm mls aabbs centers k (begin + c) (skipn c ids') rb) as P2.
      eexists _, _. split; [reflexivity|]. split; [|split; [|split; [|split; apply IH]]].
      + intro Z. rewrite Z in P1. apply Permutation_length in P1. rewrite firstn_length in P1. simpl in P1. lia.
      + intro Z. rewrite Z in P2. apply Permutation_length in P2. rewrite skipn_length in P2. simpl in P2. lia.
      + remember (with_offset box f1em4) as bnd eqn:Hbnd. clear Hbnd.
        assert (forall ax c0, compute_bin_index (Bb (bmin bnd) 0 (bmax bnd) 0) c0 ax = compute_bin_index bnd c0 ax) as Eb by reflexivity.
        apply separated_axis with axis si.
        * eapply Permutation_Forall; [apply Permutation_sym; exact P1|]. apply Forall_forall. intros p Ip. rewrite Eb.
          apply Nat.ltb_lt. apply In_nth_error in Ip as [q Eq].
          assert (q < c) as Lj.
          { assert (q < length (firstn c ids')) by (apply nth_error_Some; congruence). rewrite firstn_length in H. lia. }
          assert (nth_error ids' q = Some p) as Ej'.
          { rewrite <- Eq. rewrite <- (firstn_skipn c ids') at 1. apply nth_error_app1. apply nth_error_Some. congruence. }
          eapply T; eauto.
        * eapply Permutation_Forall; [apply Permutation_sym; exact P2|]. apply Forall_forall. intros p Ip. rewrite Eb.
          apply Nat.ltb_ge. apply In_nth_error in Ip as [q Eq].
          assert (q < length (skipn c ids')) as Lj by (apply nth_error_Some; congruence). rewrite skipn_length in Lj.
          assert (nth_error ids' (c + q) = Some p) as Ej'.
          { rewrite <- Eq. rewrite <- (firstn_skipn c ids') at 1. rewrite nth_error_app2; rewrite firstn_length; [f_equal; lia|lia]. }
          eapply Fl; [|exact Ej']. lia.
  Qed.

  Lemma ssep_tree : forall indices t ids, ssep (shape_of t) ids -> prims indices t = ids ->
    forall i nd l r, subtree (TNode i nd l r) t ->
      prims indices l <> [] /\ prims indices r <> [] /\ separated nd (prims indices l) (prims indices r).
  Proof.
    intros indices t. induction t as [i nd|i nd l IHl r IHr]; intros ids S P; cbn [shape_of ssep] in S.
    - intros j nd' l r Su. inversion Su.
    - destruct S as (_ & il & ir & E & N1 & N2 & Sw & Sl & Sr).
      assert (prims indices (TNode i nd l r) = prims indices l ++ prims indices r) as Ep by apply map_app.
      assert (length il = length (prims indices l)) as Ll.
      { unfold prims. rewrite map_length, shape_len. destruct l; simpl in Sl; apply Sl. }
      assert (il = prims indices l /\ ir = prims indices r) as [-> ->].
      { rewrite Ep in P. rewrite <- P in E. symmetry in E. apply app_inj_len in E; auto. }
      intros j nd' l' r' Su. inversion Su; subst; eauto.
  Qed.
End Separated.
