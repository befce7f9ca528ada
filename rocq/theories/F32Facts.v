(** * Facts about binary32 used by the proofs

    [fr] embeds the non-NaN floats into the reals, sending the infinities to
    +-2^300, so that Rust's comparisons become comparisons of reals; [RN] is
    the rounding to nearest, with the same convention on overflow. *)
Require Import ZArith Bool Reals Lra Lia.
From Flocq Require Import Core BinarySingleNaN.
From Verif Require Import F32.
Local Open Scope R_scope.

Definition BIG : R := bpow radix2 300.

Definition fr (x : f32) : R :=
  match x with
  | B754_infinity s => if s then - BIG else BIG
  | _ => B2R x
  end.

Definition rnd (r : R) : R := round radix2 (SpecFloat.fexp 24 128) (round_mode mode_NE) r.

Definition RN (r : R) : R :=
  if Rlt_bool (Rabs (rnd r)) (bpow radix2 128) then rnd r
  else if Rlt_bool r 0 then - BIG else BIG.

Notation notnan x := (is_nan x = false) (only parsing).
Notation fin x := (is_finite x = true) (only parsing).

Lemma bpow128_lt_BIG : bpow radix2 128 < BIG.
Proof. apply bpow_lt; lia. Qed.

Lemma BIG_pos : 0 < BIG.
Proof. apply bpow_gt_0. Qed.

Lemma fin_notnan : forall x : f32, fin x -> notnan x.
Proof. intros [s|s| |s m e H]; simpl; auto. Qed.

Lemma fr_fin : forall x : f32, fin x -> fr x = B2R x.
Proof. intros [s|s| |s m e H]; simpl; auto; discriminate. Qed.

Lemma abs_B2R_lt : forall x : f32, Rabs (B2R x) < bpow radix2 128.
Proof. intro x; apply abs_B2R_lt_emax. Qed.

Lemma fr_bound : forall x : f32, - BIG <= fr x <= BIG.
Proof.
  intro x. pose proof (abs_B2R_lt x) as H. pose proof bpow128_lt_BIG as G.
  pose proof BIG_pos.
  destruct x as [s|s| |s m e Hx]; simpl fr; simpl B2R in *; try lra.
  - destruct s; lra.
  - apply Rabs_lt_inv in H. lra.
Qed.

Lemma fin_fr_lt : forall x : f32, fin x -> Rabs (fr x) < bpow radix2 128.
Proof. intros x H; rewrite fr_fin by auto; apply abs_B2R_lt. Qed.

Lemma fin_of_fr : forall x : f32, notnan x -> Rabs (fr x) < BIG -> fin x.
Proof.
  intros [s|s| |s m e H] N A; simpl in *; auto; try discriminate.
  destruct s; [rewrite Rabs_Ropp in A|]; rewrite Rabs_pos_eq in A by (apply Rlt_le, BIG_pos); lra.
Qed.

(** ** Comparisons *)

Lemma SFlt_inf : forall (x y : f32), notnan x -> notnan y ->
  flt x y = Rlt_bool (fr x) (fr y).
Proof.
  intros x y Nx Ny.
  destruct (is_finite x) eqn:Fx; destruct (is_finite y) eqn:Fy.
  - unfold flt; rewrite Bltb_correct by auto. rewrite !fr_fin by auto; auto.
  - pose proof (fin_fr_lt x Fx) as B. pose proof bpow128_lt_BIG. apply Rabs_lt_inv in B.
    destruct y as [s|s| |s m e H']; simpl in *; try discriminate.
    destruct x as [sx|sx| |sx mx ex Hx]; simpl in *; try discriminate; destruct s; try destruct sx; cbv [flt Bltb SpecFloat.SFltb B2SF SpecFloat.SFcompare];
      symmetry; (apply Rlt_bool_true || apply Rlt_bool_false); lra.
  - pose proof (fin_fr_lt y Fy) as B. pose proof bpow128_lt_BIG. apply Rabs_lt_inv in B.
    destruct x as [s|s| |s m e H']; simpl in *; try discriminate.
    destruct y as [sx|sx| |sx mx ex Hx]; simpl in *; try discriminate; destruct s; try destruct sx; cbv [flt Bltb SpecFloat.SFltb B2SF SpecFloat.SFcompare];
      symmetry; (apply Rlt_bool_true || apply Rlt_bool_false); lra.
  - pose proof BIG_pos.
    destruct x as [s|s| |s m e H']; simpl in *; try discriminate.
    destruct y as [s'|s'| |s' m' e' H'']; simpl in *; try discriminate.
    destruct s, s'; cbv [flt Bltb SpecFloat.SFltb B2SF SpecFloat.SFcompare];
      symmetry; (apply Rlt_bool_true || apply Rlt_bool_false); lra.
Qed.

Lemma SFle_inf : forall (x y : f32), notnan x -> notnan y ->
  fle x y = Rle_bool (fr x) (fr y).
Proof.
  intros x y Nx Ny.
  destruct (is_finite x) eqn:Fx; destruct (is_finite y) eqn:Fy.
  - unfold fle; rewrite Bleb_correct by auto. rewrite !fr_fin by auto; auto.
  - pose proof (fin_fr_lt x Fx) as B. pose proof bpow128_lt_BIG. apply Rabs_lt_inv in B.
    destruct y as [s|s| |s m e H']; simpl in *; try discriminate.
    destruct x as [sx|sx| |sx mx ex Hx]; simpl in *; try discriminate; destruct s; try destruct sx; cbv [fle Bleb SpecFloat.SFleb B2SF SpecFloat.SFcompare];
      symmetry; (apply Rle_bool_true || apply Rle_bool_false); lra.
  - pose proof (fin_fr_lt y Fy) as B. pose proof bpow128_lt_BIG. apply Rabs_lt_inv in B.
    destruct x as [s|s| |s m e H']; simpl in *; try discriminate.
    destruct y as [sx|sx| |sx mx ex Hx]; simpl in *; try discriminate; destruct s; try destruct sx; cbv [fle Bleb SpecFloat.SFleb B2SF SpecFloat.SFcompare];
      symmetry; (apply Rle_bool_true || apply Rle_bool_false); lra.
  - pose proof BIG_pos.
    destruct x as [s|s| |s m e H']; simpl in *; try discriminate.
    destruct y as [s'|s'| |s' m' e' H'']; simpl in *; try discriminate.
    destruct s, s'; cbv [fle Bleb SpecFloat.SFleb B2SF SpecFloat.SFcompare];
      symmetry; (apply Rle_bool_true || apply Rle_bool_false); lra.
Qed.

Lemma flt_spec : forall x y : f32, notnan x -> notnan y -> (flt x y = true <-> fr x < fr y).
Proof.
  intros x y Nx Ny; rewrite SFlt_inf by auto.
  destruct (Rlt_bool_spec (fr x) (fr y)); split; intros; auto; try discriminate; lra.
Qed.

Lemma flt_false : forall x y : f32, notnan x -> notnan y -> (flt x y = false <-> fr y <= fr x).
Proof.
  intros x y Nx Ny; rewrite SFlt_inf by auto.
  destruct (Rlt_bool_spec (fr x) (fr y)); split; intros; auto; try discriminate; lra.
Qed.

Lemma fle_spec : forall x y : f32, notnan x -> notnan y -> (fle x y = true <-> fr x <= fr y).
Proof.
  intros x y Nx Ny; rewrite SFle_inf by auto.
  destruct (Rle_bool_spec (fr x) (fr y)); split; intros; auto; try discriminate; lra.
Qed.

Lemma flt_notnan : forall x y : f32, flt x y = true -> notnan x /\ notnan y.
Proof.
  intros x y; destruct x as [s|s| |s m e H]; destruct y as [s'|s'| |s' m' e' H']; simpl; auto; try discriminate;
  try destruct s; discriminate.
Qed.

Lemma fle_notnan : forall x y : f32, fle x y = true -> notnan x /\ notnan y.
Proof.
  intros x y; destruct x as [s|s| |s m e H]; destruct y as [s'|s'| |s' m' e' H']; simpl; auto; try discriminate;
  try destruct s; discriminate.
Qed.

Lemma flt_nan_l : forall x y : f32, is_nan x = true -> flt x y = false.
Proof. intros [s|s| |s m e H] y N; try discriminate; auto. Qed.
Lemma flt_nan_r : forall x y : f32, is_nan y = true -> flt x y = false.
Proof. intros [s|s| |s m e H] [s'|s'| |s' m' e' H'] N; try discriminate; try destruct s; auto. Qed.

Lemma fle_refl : forall x : f32, notnan x -> fle x x = true.
Proof. intros x N; apply fle_spec; auto; lra. Qed.

Lemma fle_trans : forall x y z : f32, fle x y = true -> fle y z = true -> fle x z = true.
Proof.
  intros x y z H1 H2.
  destruct (fle_notnan _ _ H1) as [Nx Ny], (fle_notnan _ _ H2) as [_ Nz].
  apply fle_spec in H1; auto. apply fle_spec in H2; auto. apply fle_spec; auto; lra.
Qed.

Lemma fle_total : forall x y : f32, notnan x -> notnan y -> fle x y = true \/ fle y x = true.
Proof.
  intros x y Nx Ny. destruct (Rle_or_lt (fr x) (fr y)); [left|right]; apply fle_spec; auto; lra.
Qed.

Lemma flt_fle : forall x y : f32, flt x y = true -> fle x y = true.
Proof.
  intros x y H. destruct (flt_notnan _ _ H). apply flt_spec in H; auto. apply fle_spec; auto; lra.
Qed.

Lemma flt_irrefl : forall x : f32, flt x x = false.
Proof.
  intro x; destruct (is_nan x) eqn:N.
  - now apply flt_nan_l.
  - apply flt_false; auto; lra.
Qed.

Lemma flt_trans : forall x y z : f32, flt x y = true -> flt y z = true -> flt x z = true.
Proof.
  intros x y z H1 H2.
  destruct (flt_notnan _ _ H1) as [Nx Ny], (flt_notnan _ _ H2) as [_ Nz].
  apply flt_spec in H1; auto. apply flt_spec in H2; auto. apply flt_spec; auto; lra.
Qed.

(** ** min / max *)

Lemma fmin_notnan : forall x y : f32, notnan x -> notnan y -> notnan (fmin x y).
Proof. intros x y Nx Ny; unfold fmin, fnan; rewrite Nx, Ny; destruct (flt y x); auto. Qed.
Lemma fmax_notnan : forall x y : f32, notnan x -> notnan y -> notnan (fmax x y).
Proof. intros x y Nx Ny; unfold fmax, fnan; rewrite Nx, Ny; destruct (flt x y); auto. Qed.

Lemma fr_fmin : forall x y : f32, notnan x -> notnan y -> fr (fmin x y) = Rmin (fr x) (fr y).
Proof.
  intros x y Nx Ny; unfold fmin, fnan; rewrite Nx, Ny.
  destruct (flt y x) eqn:E.
  - apply flt_spec in E; auto. rewrite Rmin_right; lra.
  - apply flt_false in E; auto. rewrite Rmin_left; lra.
Qed.
Lemma fr_fmax : forall x y : f32, notnan x -> notnan y -> fr (fmax x y) = Rmax (fr x) (fr y).
Proof.
  intros x y Nx Ny; unfold fmax, fnan; rewrite Nx, Ny.
  destruct (flt x y) eqn:E.
  - apply flt_spec in E; auto. rewrite Rmax_right; lra.
  - apply flt_false in E; auto. rewrite Rmax_left; lra.
Qed.

(** ** Rounding *)

#[local] Existing Instance Hp32.
#[local] Instance valid32 : Valid_exp (SpecFloat.fexp 24 128) := fexp_correct 24 128 Hp32.
#[local] Instance mono32 : Monotone_exp (SpecFloat.fexp 24 128) := fexp_monotone 24 128.

Lemma rnd_mono : forall x y, x <= y -> rnd x <= rnd y.
Proof. intros x y H; apply round_le; auto; typeclasses eauto. Qed.

Lemma rnd_0 : rnd 0 = 0.
Proof. apply round_0; typeclasses eauto. Qed.

Lemma rnd_pos : forall x, 0 <= x -> 0 <= rnd x.
Proof. intros x H; rewrite <- rnd_0; apply rnd_mono; auto. Qed.
Lemma rnd_neg : forall x, x <= 0 -> rnd x <= 0.
Proof. intros x H; rewrite <- rnd_0; apply rnd_mono; auto. Qed.

Lemma rnd_opp : forall x, rnd (- x) = - rnd x.
Proof. intro x; unfold rnd; simpl. apply round_NE_opp. Qed.

Lemma rnd_id : forall x : f32, fin x -> rnd (fr x) = fr x.
Proof.
  intros x F; rewrite fr_fin by auto. apply round_generic; [typeclasses eauto|].
  apply generic_format_B2R.
Qed.

Lemma rnd_bpow : forall e, (-149 <= e)%Z -> rnd (bpow radix2 e) = bpow radix2 e.
Proof.
  intros e H. apply round_generic; [typeclasses eauto|].
  apply generic_format_bpow. unfold SpecFloat.fexp, SpecFloat.emin; lia.
Qed.

Lemma RN_cases : forall r,
  (Rabs (rnd r) < bpow radix2 128 /\ RN r = rnd r) \/
  (bpow radix2 128 <= rnd r /\ 0 <= r /\ RN r = BIG) \/
  (rnd r <= - bpow radix2 128 /\ r < 0 /\ RN r = - BIG).
Proof.
  intro r; unfold RN.
  destruct (Rlt_bool_spec (Rabs (rnd r)) (bpow radix2 128)) as [H|H]; [left; auto|].
  right. destruct (Rlt_bool_spec r 0) as [N|N].
  - right. pose proof (rnd_neg r ltac:(lra)). rewrite Rabs_left1 in H by lra.
    repeat split; auto; lra.
  - left. pose proof (rnd_pos r ltac:(lra)). rewrite Rabs_pos_eq in H by lra.
    repeat split; auto; lra.
Qed.

Lemma RN_mono : forall x y, x <= y -> RN x <= RN y.
Proof.
  intros x y H. pose proof (rnd_mono x y H) as M. pose proof bpow128_lt_BIG. pose proof BIG_pos.
  destruct (RN_cases x) as [[Hx Ex]|[[Hx [Sx Ex]]|[Hx [Sx Ex]]]];
  destruct (RN_cases y) as [[Hy Ey]|[[Hy [Sy Ey]]|[Hy [Sy Ey]]]]; rewrite Ex, Ey; 
  try apply Rabs_lt_inv in Hx; try apply Rabs_lt_inv in Hy; lra.
Qed.

Lemma RN_bound : forall x, - BIG <= RN x <= BIG.
Proof.
  intros x. pose proof bpow128_lt_BIG. pose proof BIG_pos.
  destruct (RN_cases x) as [[Hx Ex]|[[Hx [Sx Ex]]|[Hx [Sx Ex]]]]; rewrite Ex; try apply Rabs_lt_inv in Hx; lra.
Qed.

Lemma RN_0 : RN 0 = 0.
Proof.
  unfold RN. rewrite rnd_0, Rabs_R0. rewrite Rlt_bool_true; auto. apply bpow_gt_0.
Qed.

Lemma RN_pos : forall x, 0 <= x -> 0 <= RN x.
Proof. intros x H; rewrite <- RN_0; apply RN_mono; auto. Qed.
Lemma RN_neg : forall x, x <= 0 -> RN x <= 0.
Proof. intros x H; rewrite <- RN_0; apply RN_mono; auto. Qed.

Lemma RN_id : forall x : f32, fin x -> RN (fr x) = fr x.
Proof.
  intros x F; unfold RN. rewrite rnd_id by auto. rewrite Rlt_bool_true; auto. apply fin_fr_lt; auto.
Qed.

Lemma RN_le_fr : forall (r : R) (f : f32), notnan f -> r <= fr f -> RN r <= fr f.
Proof.
  intros r f N H. destruct (is_finite f) eqn:F.
  - rewrite <- (RN_id f) by auto. apply RN_mono; auto.
  - destruct f as [s|s| |s m e Hx]; try discriminate. simpl in *.
    destruct s; [|apply RN_bound].
    assert (RN r = - BIG) as ->; [|lra].
    destruct (RN_cases r) as [[Hx Ex]|[[Hx [Sx Ex]]|[Hx [Sx Ex]]]]; auto.
    + assert (rnd r <= rnd (- bpow radix2 128)) as M.
      { apply rnd_mono. pose proof bpow128_lt_BIG; lra. }
      rewrite rnd_opp, rnd_bpow in M by lia. apply Rabs_lt_inv in Hx; lra.
    + pose proof BIG_pos; lra.
Qed.

Lemma RN_opp : forall x, RN (- x) = - RN x.
Proof.
  intro x; unfold RN. rewrite rnd_opp, Rabs_Ropp.
  destruct (Rlt_bool_spec (Rabs (rnd x)) (bpow radix2 128)) as [H|H]; auto.
  destruct (Req_dec x 0) as [->|Z].
  - rewrite rnd_0, Rabs_R0 in H. pose proof (bpow_gt_0 radix2 128). lra.
  - destruct (Rlt_bool_spec x 0); destruct (Rlt_bool_spec (-x) 0); lra.
Qed.

Lemma fr_neg : forall x : f32, notnan x -> notnan (fneg x) /\ fr (fneg x) = - fr x.
Proof.
  intros [s|s| |s m e H] N; try discriminate; simpl; split; auto; try lra.
  - destruct s; simpl; lra.
  - change (B2R (Bopp (B754_finite s m e H)) = - B2R (B754_finite s m e H)). apply B2R_Bopp.
Qed.

Lemma fr_le_RN : forall (r : R) (f : f32), notnan f -> fr f <= r -> fr f <= RN r.
Proof.
  intros r f N H. destruct (fr_neg f N) as [N' E].
  assert (RN (- r) <= fr (fneg f)) as G. { apply RN_le_fr; auto. rewrite E; lra. }
  rewrite RN_opp, E in G. lra.
Qed.

Lemma RN_small : forall r, Rabs r <= bpow radix2 127 -> RN r = rnd r /\ Rabs (rnd r) <= bpow radix2 127.
Proof.
  intros r H. assert (Rabs (rnd r) <= bpow radix2 127) as G.
  { apply abs_round_le_generic; try typeclasses eauto; auto.
    apply generic_format_bpow. unfold SpecFloat.fexp, SpecFloat.emin; lia. }
  split; auto. unfold RN. rewrite Rlt_bool_true; auto.
  eapply Rle_lt_trans; [apply G|]. apply bpow_lt; lia.
Qed.

(** ** Arithmetic *)

Lemma overflow_fr : forall (z : f32) s, B2SF z = binary_overflow 24 128 mode_NE s ->
  notnan z /\ fr z = if s then - BIG else BIG.
Proof.
  intros z s H. unfold binary_overflow in H. simpl in H.
  destruct z as [s'|s'| |s' m e Hx]; simpl in *; try discriminate.
  injection H as ->. auto.
Qed.

Lemma Bsign_B2R : forall x : f32, fin x -> (Bsign x = true -> B2R x <= 0) /\ (Bsign x = false -> 0 <= B2R x).
Proof.
  intros [s|s| |s m e H] F; try discriminate; simpl; split; intro; try lra; subst s;
  unfold F2R; simpl; pose proof (bpow_gt_0 radix2 e).
  - assert (IZR (Z.neg m) <= 0) by (apply IZR_le; lia). nra.
  - assert (0 <= IZR (Z.pos m)) by (apply IZR_le; lia). nra.
Qed.

Lemma fin_fr : forall x : f32, fin x -> notnan x /\ fr x = B2R x.
Proof. intros x F; split; [apply fin_notnan|apply fr_fin]; auto. Qed.

Lemma RN_over : forall r s, bpow radix2 128 <= Rabs (rnd r) ->
  (s = true -> r <= 0) -> (s = false -> 0 <= r) -> RN r = if s then - BIG else BIG.
Proof.
  intros r s H T F. unfold RN. rewrite Rlt_bool_false by auto.
  destruct s.
  - specialize (T eq_refl). rewrite Rlt_bool_true; auto.
    destruct (Req_dec r 0) as [->|]; [|lra]. rewrite rnd_0, Rabs_R0 in H. pose proof (bpow_gt_0 radix2 128); lra.
  - specialize (F eq_refl). rewrite Rlt_bool_false; auto.
Qed.

Lemma fr_fadd : forall x y : f32, fin x -> fin y ->
  notnan (fadd x y) /\ fr (fadd x y) = RN (fr x + fr y).
Proof.
  intros x y Fx Fy. pose proof (Bplus_correct 24 128 Hp32 Hm32 mode_NE x y Fx Fy) as H.
  fold (rnd (B2R x + B2R y)) in H. fold (fadd x y) in H.
  rewrite (fr_fin x), (fr_fin y) by auto.
  destruct (Rlt_bool_spec (Rabs (rnd (B2R x + B2R y))) (bpow radix2 128)) as [L|L].
  - destruct H as [E [F _]]. destruct (fin_fr _ F) as [N ->]. split; auto.
    rewrite E. unfold RN. rewrite Rlt_bool_true; auto.
  - destruct H as [E S]. destruct (overflow_fr _ _ E) as [N ->]. split; auto.
    destruct (Bsign_B2R x Fx), (Bsign_B2R y Fy). rewrite <- S in *.
    symmetry; apply RN_over; auto; intro B.
    + specialize (H B); specialize (H1 B); lra.
    + specialize (H0 B); specialize (H2 B); lra.
Qed.

Lemma fsub_fadd : forall x y : f32, fin x -> fin y ->
  notnan (fsub x y) /\ fr (fsub x y) = RN (fr x - fr y).
Proof.
  intros x y Fx Fy. pose proof (Bminus_correct 24 128 Hp32 Hm32 mode_NE x y Fx Fy) as H.
  fold (rnd (B2R x - B2R y)) in H. fold (fsub x y) in H.
  rewrite (fr_fin x), (fr_fin y) by auto.
  destruct (Rlt_bool_spec (Rabs (rnd (B2R x - B2R y))) (bpow radix2 128)) as [L|L].
  - destruct H as [E [F _]]. destruct (fin_fr _ F) as [N ->]. split; auto.
    rewrite E. unfold RN. rewrite Rlt_bool_true; auto.
  - destruct H as [E S]. destruct (overflow_fr _ _ E) as [N ->]. split; auto.
    destruct (Bsign_B2R x Fx), (Bsign_B2R y Fy). 
    symmetry; apply RN_over; auto; intro B; rewrite B in S.
    + assert (Bsign y = false) as B' by (destruct (Bsign y); auto; discriminate).
      specialize (H B); specialize (H2 B'); lra.
    + assert (Bsign y = true) as B' by (destruct (Bsign y); auto; discriminate).
      specialize (H0 B); specialize (H1 B'); lra.
Qed.
Definition fr_fsub := fsub_fadd.

Lemma fr_fmul : forall x y : f32, fin x -> fin y ->
  notnan (fmul x y) /\ fr (fmul x y) = RN (fr x * fr y).
Proof.
  intros x y Fx Fy. pose proof (Bmult_correct 24 128 Hp32 Hm32 mode_NE x y) as H.
  fold (rnd (B2R x * B2R y)) in H. fold (fmul x y) in H.
  rewrite (fr_fin x), (fr_fin y) by auto.
  destruct (Rlt_bool_spec (Rabs (rnd (B2R x * B2R y))) (bpow radix2 128)) as [L|L].
  - destruct H as [E [F _]]. rewrite Fx, Fy in F. destruct (fin_fr _ F) as [N ->]. split; auto.
    rewrite E. unfold RN. rewrite Rlt_bool_true; auto.
  - destruct (overflow_fr _ _ H) as [N ->]. split; auto.
    destruct (Bsign_B2R x Fx), (Bsign_B2R y Fy).
    symmetry; apply RN_over; auto; destruct (Bsign x), (Bsign y); simpl; intro; try discriminate;
    repeat match goal with HH : _ = _ -> _ |- _ => first [specialize (HH eq_refl) | clear HH] end; nra.
Qed.

Lemma fr_fdiv : forall x y : f32, fin x -> fin y -> fr y <> 0 ->
  notnan (fdiv x y) /\ fr (fdiv x y) = RN (fr x / fr y).
Proof.
  intros x y Fx Fy Zy. rewrite fr_fin in Zy by auto.
  pose proof (Bdiv_correct 24 128 Hp32 Hm32 mode_NE x y Zy) as H.
  fold (rnd (B2R x / B2R y)) in H. fold (fdiv x y) in H.
  rewrite (fr_fin x), (fr_fin y) by auto.
  destruct (Rlt_bool_spec (Rabs (rnd (B2R x / B2R y))) (bpow radix2 128)) as [L|L].
  - destruct H as [E [F _]]. rewrite Fx in F. destruct (fin_fr _ F) as [N ->]. split; auto.
    rewrite E. unfold RN. rewrite Rlt_bool_true; auto.
  - destruct (overflow_fr _ _ H) as [N ->]. split; auto.
    destruct (Bsign_B2R x Fx), (Bsign_B2R y Fy).
    assert (forall b, Bsign y = b -> if b then / B2R y <= 0 else 0 <= / B2R y) as I.
    { intros [|] B; apply Rlt_le; [apply Rinv_lt_0_compat|apply Rinv_0_lt_compat].
      - specialize (H2 B); lra.
      - specialize (H3 B); lra. }
    specialize (I _ eq_refl). unfold Rdiv.
    symmetry; apply RN_over; auto; destruct (Bsign x), (Bsign y); simpl in *; intro; try discriminate;
    repeat match goal with HH : _ = _ -> _ |- _ => first [specialize (HH eq_refl) | clear HH] end; nra.
Qed.

(** Sums and differences with one infinite operand. *)
Lemma fadd_inf_l : forall (x d : f32), notnan x -> fin d -> fin x \/ fadd x d = x.
Proof.
  intros [s|s| |s m e H] d N F; try discriminate; auto.
  right. destruct d as [s'|s'| |s' m' e' H']; try discriminate; reflexivity.
Qed.
Lemma fsub_inf_l : forall (x d : f32), notnan x -> fin d -> fin x \/ fsub x d = x.
Proof.
  intros [s|s| |s m e H] d N F; try discriminate; auto.
  right. destruct d as [s'|s'| |s' m' e' H']; try discriminate; reflexivity.
Qed.

(** Adding something non-negative never decreases, subtracting never increases. *)
Lemma fadd_ge : forall x d : f32, notnan x -> fin d -> 0 <= fr d ->
  notnan (fadd x d) /\ fr x <= fr (fadd x d).
Proof.
  intros x d N Fd P. destruct (fadd_inf_l x d N Fd) as [F|E].
  - destruct (fr_fadd x d F Fd) as [N' ->]. split; auto. apply fr_le_RN; auto; lra.
  - rewrite E; split; auto; lra.
Qed.
Lemma fsub_le : forall x d : f32, notnan x -> fin d -> 0 <= fr d ->
  notnan (fsub x d) /\ fr (fsub x d) <= fr x.
Proof.
  intros x d N Fd P. destruct (fsub_inf_l x d N Fd) as [F|E].
  - destruct (fr_fsub x d F Fd) as [N' ->]. split; auto. apply RN_le_fr; auto; lra.
  - rewrite E; split; auto; lra.
Qed.

Lemma fin_of_RN : forall (z : f32) r, notnan z -> fr z = RN r -> Rabs r <= bpow radix2 127 -> fin z.
Proof.
  intros z r N E H. destruct (RN_small r H) as [E' B]. apply fin_of_fr; auto.
  rewrite E, E'. eapply Rle_lt_trans; [apply B|]. apply bpow_lt; lia.
Qed.

(** ** Relative error *)
From Flocq Require Import Relative Plus_error.

Definition ue : R := / 16777216. (* 2^-24 *)

Lemma ue_val : / 2 * bpow radix2 (- 24 + 1) = ue.
Proof. unfold ue. simpl. lra. Qed.

Lemma ue_bounds : 0 < ue < / 1000000.
Proof. unfold ue; lra. Qed.

Lemma rnd_rel : forall x, bpow radix2 (-126) <= Rabs x ->
  exists e, Rabs e <= ue /\ rnd x = x * (1 + e).
Proof.
  intros x H. rewrite <- ue_val.
  apply (relative_error_N_FLT_ex radix2 (-149) 24 Hp32 (fun x => negb (Z.even x)) x). exact H.
Qed.

Lemma rnd_plus_rel : forall x y : f32, fin x -> fin y ->
  exists e, Rabs e <= ue /\ rnd (fr x + fr y) = (fr x + fr y) * (1 + e).
Proof.
  intros x y Fx Fy. rewrite (fr_fin x), (fr_fin y) by auto.
  destruct (FLT_plus_error_N_ex radix2 (-149) 24 (fun x => negb (Z.even x)) (B2R x) (B2R y)) as (e & He & E).
  - apply generic_format_B2R.
  - apply generic_format_B2R.
  - exists e. split; [|exact E].
    eapply Rle_trans; [apply He|].
    assert (u_ro radix2 24 = ue) as -> by (unfold u_ro; apply ue_val).
    pose proof ue_bounds. apply Rmult_le_reg_r with (1 + ue); [lra|].
    unfold Rdiv. rewrite Rmult_assoc, Rinv_l by lra. nra.
Qed.

Lemma rnd_minus_rel : forall x y : f32, fin x -> fin y ->
  exists e, Rabs e <= ue /\ rnd (fr x - fr y) = (fr x - fr y) * (1 + e).
Proof.
  intros x y Fx Fy. destruct (fr_neg y (fin_notnan y Fy)) as [N E].
  assert (fin (fneg y)) as Fn by (unfold fneg; rewrite is_finite_Bopp; auto).
  destruct (rnd_plus_rel x (fneg y) Fx Fn) as (e & He & H). rewrite E in H.
  exists e; split; auto.
Qed.

(** Doubling is exact. *)
Lemma format_double : forall x : f32, rnd (2 * fr x) = 2 * fr x.
Proof.
  intro x. assert (generic_format radix2 (SpecFloat.fexp 24 128) (2 * fr x)) as G.
  2:{ apply round_generic; [typeclasses eauto|exact G]. }
  assert (forall s : bool, generic_format radix2 (SpecFloat.fexp 24 128) (2 * (if s then - BIG else BIG))) as I.
  { intros [|]; unfold BIG.
    - replace (2 * - bpow radix2 300) with (- bpow radix2 301).
      + apply generic_format_opp, generic_format_bpow. unfold SpecFloat.fexp, SpecFloat.emin; lia.
      + change 301%Z with (1 + 300)%Z. rewrite bpow_plus. change (bpow radix2 1) with 2. ring.
    - replace (2 * bpow radix2 300) with (bpow radix2 301).
      + apply generic_format_bpow. unfold SpecFloat.fexp, SpecFloat.emin; lia.
      + change 301%Z with (1 + 300)%Z. rewrite bpow_plus. change (bpow radix2 1) with 2. ring. }
  assert (forall y : f32, generic_format radix2 (SpecFloat.fexp 24 128) (2 * B2R y)) as K.
  { intro y. apply generic_format_FLT.
    destruct (FLT_format_B2R 24 128 Hp32 y) as [[m e] E1 E2 E3].
    exists (Float radix2 m (e + 1)).
    - rewrite E1. unfold F2R; simpl. rewrite bpow_plus. change (bpow radix2 1) with 2. ring.
    - exact E2.
    - simpl in *. lia. }
  destruct x as [s|s| |s m e H]; simpl fr; auto.
  - exact (K (B754_zero s)).
  - exact (K B754_nan).
  - exact (K (B754_finite s m e H)).
Qed.

(** Non-negative, possibly infinite sums. *)
Lemma fadd_pos_pos : forall x y : f32, notnan x -> notnan y -> 0 <= fr x -> 0 <= fr y ->
  notnan (fadd x y) /\ fr (fadd x y) = RN (fr x + fr y).
Proof.
  assert (forall r, BIG <= r -> RN r = BIG) as R.
  { intros r H. destruct (RN_cases r) as [[Hx Ex]|[[Hx [Sx Ex]]|[Hx [Sx Ex]]]]; auto.
    - assert (rnd (bpow radix2 128) <= rnd r) as M.
      { apply rnd_mono. pose proof bpow128_lt_BIG; lra. }
      rewrite rnd_bpow in M by lia. apply Rabs_lt_inv in Hx; lra.
    - pose proof BIG_pos; lra. }
  intros x y Nx Ny Px Py. pose proof BIG_pos.
  destruct (is_finite x) eqn:Fx; destruct (is_finite y) eqn:Fy.
  - apply fr_fadd; auto.
  - destruct y as [s|s| |s m e Hy]; try discriminate. simpl in Py. destruct s; [lra|].
    destruct x as [s|s| |s m e Hx]; try discriminate; simpl fadd; simpl fr; split; auto; symmetry; apply R; simpl in *; lra.
  - destruct x as [s|s| |s m e Hx]; try discriminate. simpl in Px. destruct s; [lra|].
    destruct y as [s|s| |s m e Hy]; try discriminate; simpl fadd; simpl fr; split; auto; symmetry; apply R; simpl in *; lra.
  - destruct x as [s|s| |s m e Hx]; try discriminate. simpl in Px. destruct s; [lra|].
    destruct y as [s|s| |s m e Hy]; try discriminate. simpl in Py. destruct s; [lra|].
    split; auto. simpl. symmetry; apply R; lra.
Qed.
