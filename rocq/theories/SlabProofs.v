(** * The scalar slab test never rejects a ray that passes through the box *)
Require Import List ZArith Bool Reals Lra Lia.
From Flocq Require Import Core BinarySingleNaN.
From Verif Require Import F32 F32Facts Vec RayModel AabbModel SpecGeom AabbProofs MeasureProofs.
Import ListNotations.
Local Open Scope R_scope.

Lemma prod_near : forall q t e1 e2, 0 < t -> Rabs e1 <= ue -> Rabs e2 <= ue ->
  q <= t * (1 - 2 * ue) -> q * (1 + e1) * (1 + e2) <= t.
Proof.
  intros q t e1 e2 T H1 H2 Q. pose proof ue_bounds.
  apply Rabs_le_inv in H1. apply Rabs_le_inv in H2.
  assert (0 <= (1 + e1) * (1 + e2) <= (1 + ue) * (1 + ue)) as [P1 P2].
  { split; [apply Rmult_le_pos; lra|]. apply Rmult_le_compat; lra. }
  rewrite Rmult_assoc.
  destruct (Rle_or_lt q 0) as [N|N].
  - apply Rle_trans with 0; [|lra]. 
    rewrite <- (Rmult_0_l ((1 + e1) * (1 + e2))). apply Rmult_le_compat_r; lra.
  - apply Rle_trans with ((t * (1 - 2 * ue)) * ((1 + ue) * (1 + ue))).
    + apply Rmult_le_compat; lra.
    + rewrite Rmult_assoc. rewrite <- (Rmult_1_r t) at 2. apply Rmult_le_compat_l; [lra|].
      unfold ue. lra.
Qed.

Lemma prod_far : forall q t e1 e2, 0 < t -> Rabs e1 <= ue -> Rabs e2 <= ue ->
  t * (1 + 3 * ue) <= q -> t <= q * (1 + e1) * (1 + e2).
Proof.
  intros q t e1 e2 T H1 H2 Q. pose proof ue_bounds.
  apply Rabs_le_inv in H1. apply Rabs_le_inv in H2.
  assert ((1 - ue) * (1 - ue) <= (1 + e1) * (1 + e2)) as P.
  { apply Rmult_le_compat; lra. }
  rewrite Rmult_assoc.
  apply Rle_trans with ((t * (1 + 3 * ue)) * ((1 - ue) * (1 - ue))).
  - rewrite Rmult_assoc. rewrite <- (Rmult_1_r t) at 1. apply Rmult_le_compat_l; [lra|].
    unfold ue. lra.
  - apply Rmult_le_compat; auto.
    + apply Rmult_le_pos; lra.
    + apply Rmult_le_pos; lra.
Qed.

Lemma fr_f1 : fr f1 = 1.
Proof. unfold fr, f1, B2R, F2R; simpl. lra. Qed.

Lemma inv_facts : forall d : f32, dir_normal d ->
  is_finite (fdiv f1 d) = true /\ fr d <> 0 /\
  exists e, Rabs e <= ue /\ fr (fdiv f1 d) = / fr d * (1 + e).
Proof.
  intros d [F [L U]]. unfold fval in *. rewrite <- fr_fin in * by auto.
  pose proof (bpow_gt_0 radix2 (-126)).
  assert (fr d <> 0) as Z by (intro Z; rewrite Z, Rabs_R0 in L; lra).
  destruct (fr_fdiv f1 d eq_refl F Z) as [N E]. rewrite fr_f1 in E. unfold Rdiv in E.
  rewrite Rmult_1_l in E.
  assert (Rabs (/ fr d) = / Rabs (fr d)) as A by (apply Rabs_inv).
  assert (bpow radix2 (-126) <= Rabs (/ fr d) <= bpow radix2 126) as [B1 B2].
  { rewrite A. split.
    - change (-126)%Z with (- (126))%Z. rewrite bpow_opp. apply Rinv_le_contravar; lra.
    - rewrite <- (Rinv_inv (bpow radix2 126)). rewrite <- bpow_opp. apply Rinv_le_contravar; auto. }
  assert (Rabs (/ fr d) <= bpow radix2 127) as B3.
  { eapply Rle_trans; [apply B2|]. apply bpow_le; lia. }
  split; [eapply fin_of_RN; eauto|]. split; auto.
  destruct (rnd_rel _ B1) as (e & He & Ee). exists e; split; auto.
  rewrite E. destruct (RN_small _ B3) as [-> _]. auto.
Qed.

Lemma axis_normal : forall (lo hi o d : f32) t,
  is_finite lo = true -> is_finite hi = true -> is_finite o = true ->
  Rabs (fr lo) <= bpow radix2 113 -> Rabs (fr hi) <= bpow radix2 113 -> Rabs (fr o) <= bpow radix2 113 ->
  dir_normal d -> 0 < t ->
  fr lo <= fr o + t * (1 - 2 * ue) * fr d <= fr hi ->
  fr lo <= fr o + t * (1 + 3 * ue) * fr d <= fr hi ->
  let s := flt d f0 in
  let A := fmul (fsub (if s then hi else lo) o) (fdiv f1 d) in
  let B := fmul (fsub (if negb s then hi else lo) o) (fdiv f1 d) in
  notnan A /\ notnan B /\ fr A <= RN t /\ RN t <= fr B.
Proof.
  intros lo hi o d t Fl Fh Fo Bl Bh Bo Hd T [P1 P2] [P3 P4] s A B.
  pose proof ue_bounds as U.
  destruct (inv_facts d Hd) as (Fi & Z & e2 & He2 & Ei).
  destruct (extent_facts o lo Fo Fl Bo Bl) as (Fsl & Esl & _).
  destruct (extent_facts o hi Fo Fh Bo Bh) as (Fsh & Esh & _).
  assert (forall x : f32, is_finite x = true -> Rabs (fr x) <= bpow radix2 113 ->
    exists e, Rabs e <= ue /\ fr (fsub x o) = (fr x - fr o) * (1 + e)) as G.
  { intros x Fx Bx. destruct (rnd_minus_rel x o Fx Fo) as (e & He & E). exists e; split; auto.
    destruct (extent_facts o x Fo Fx Bo Bx) as (_ & -> & _).
    assert (Rabs (fr x - fr o) <= bpow radix2 127) as D.
    { apply Rabs_le_inv in Bx. apply Rabs_le_inv in Bo. pose proof bpow_114.
      apply Rle_trans with (bpow radix2 114); [apply Rabs_le; lra|apply bpow_le; lia]. }
    destruct (RN_small _ D) as [-> _]. auto. }
  destruct (G lo Fl Bl) as (el & Hel & El). destruct (G hi Fh Bh) as (eh & Heh & Eh).
  assert (forall x : f32, is_finite x = true -> is_finite (fsub x o) = true -> forall e,
     fr (fsub x o) = (fr x - fr o) * (1 + e) ->
     notnan (fmul (fsub x o) (fdiv f1 d)) /\
     fr (fmul (fsub x o) (fdiv f1 d)) = RN ((fr x - fr o) / fr d * (1 + e) * (1 + e2))) as M.
  { intros x Fx Fs e Ee. destruct (fr_fmul _ _ Fs Fi) as [N E]. split; auto.
    rewrite E, Ee, Ei. f_equal. field; auto. }
  destruct (M lo Fl Fsl el El) as [Nl Ql]. destruct (M hi Fh Fsh eh Eh) as [Nh Qh].
  assert (notnan d) as Nd by (apply fin_notnan, Hd).
  unfold A, B, s. clear A B s M G.
  destruct (flt d f0) eqn:S; simpl negb; cbv iota.
  - apply flt_spec in S; auto. change (fr f0) with 0 in S.
    split; [auto|]. split; [auto|]. rewrite Ql, Qh. split; apply RN_mono.
    + apply prod_near; auto. apply Rmult_le_reg_r with (- fr d); [lra|].
      replace ((fr hi - fr o) / fr d * - fr d) with (- (fr hi - fr o)) by (field; auto). lra.
    + apply prod_far; auto. apply Rmult_le_reg_r with (- fr d); [lra|].
      replace ((fr lo - fr o) / fr d * - fr d) with (- (fr lo - fr o)) by (field; auto). lra.
  - apply flt_false in S; auto. change (fr f0) with 0 in S.
    split; [auto|]. split; [auto|]. rewrite Ql, Qh. split; apply RN_mono.
    + apply prod_near; auto. apply Rmult_le_reg_r with (fr d); [lra|].
      replace ((fr lo - fr o) / fr d * fr d) with (fr lo - fr o) by (field; auto). lra.
    + apply prod_far; auto. apply Rmult_le_reg_r with (fr d); [lra|].
      replace ((fr hi - fr o) / fr d * fr d) with (fr hi - fr o) by (field; auto). lra.
Qed.

(** Non-zero differences do not round to zero. *)
Lemma fsub_neg : forall x o : f32, is_finite x = true -> is_finite o = true ->
  fr x < fr o -> fr (fsub x o) < 0.
Proof.
  intros x o Fx Fo L. destruct (fr_fsub x o Fx Fo) as [N E].
  destruct (rnd_minus_rel x o Fx Fo) as (e & He & R). pose proof ue_bounds.
  apply Rabs_le_inv in He. pose proof BIG_pos.
  rewrite E. destruct (RN_cases (fr x - fr o)) as [[_ ->]|[[_ [S _]]|[_ [_ ->]]]]; try lra.
  rewrite R. nra.
Qed.

Lemma mul_inf : forall y : f32, notnan y -> fr y <> 0 ->
  fmul y (B754_infinity false) = B754_infinity (Rlt_bool (fr y) 0).
Proof.
  intros [s|s| |s m e H] N Z; try discriminate.
  - elim Z; reflexivity.
  - simpl. pose proof BIG_pos. destruct s; [rewrite Rlt_bool_true|rewrite Rlt_bool_false]; auto; lra.
  - assert (fmul (B754_finite s m e H) (B754_infinity false) = B754_infinity s) as ->.
    { destruct s; reflexivity. }
    f_equal. destruct (Bsign_B2R (B754_finite s m e H) eq_refl) as [A B]. simpl Bsign in A, B.
    change (B2R (B754_finite s m e H)) with (fr (B754_finite s m e H)) in A, B.
    destruct s; symmetry; [apply Rlt_bool_true; specialize (A eq_refl)|apply Rlt_bool_false; specialize (B eq_refl)]; lra.
Qed.

Lemma axis_zero : forall (lo hi o : f32) t,
  is_finite lo = true -> is_finite hi = true -> is_finite o = true ->
  flt lo o = true -> flt o hi = true ->
  let d := B754_zero false in
  let s := flt d f0 in
  let A := fmul (fsub (if s then hi else lo) o) (fdiv f1 d) in
  let B := fmul (fsub (if negb s then hi else lo) o) (fdiv f1 d) in
  notnan A /\ notnan B /\ fr A <= RN t /\ RN t <= fr B.
Proof.
  intros lo hi o t Fl Fh Fo L U d s A B.
  apply flt_spec in L; auto using fin_notnan. apply flt_spec in U; auto using fin_notnan.
  change (fdiv f1 d) with (B754_infinity false : f32) in A, B.
  change s with false in A, B. simpl negb in B. cbv iota in A, B.
  pose proof (fsub_neg lo o Fl Fo L) as N1.
  assert (0 < fr (fsub hi o)) as P1.
  { destruct (fr_fsub hi o Fh Fo) as [N E]. destruct (fr_fsub o hi Fo Fh) as [N' E'].
    pose proof (fsub_neg o hi Fo Fh U) as Q. rewrite E' in Q.
    replace (fr o - fr hi) with (- (fr hi - fr o)) in Q by ring. rewrite RN_opp in Q. rewrite E. lra. }
  destruct (fr_fsub lo o Fl Fo) as [Nl _]. destruct (fr_fsub hi o Fh Fo) as [Nh _].
  unfold A, B. rewrite !mul_inf by (auto; lra).
  rewrite Rlt_bool_true by auto. rewrite Rlt_bool_false by lra.
  simpl. split; auto. split; auto. split; apply RN_bound.
Qed.

Lemma intersect_accept : forall a r,
  let i := r_inv r in let o := r_origin r in
  let A1 := fmul (fsub (vx (bb_index a (r_sx r))) (vx o)) (vx i) in
  let B1 := fmul (fsub (vx (bb_index a (negb (r_sx r)))) (vx o)) (vx i) in
  let A2 := fmul (fsub (vy (bb_index a (r_sy r))) (vy o)) (vy i) in
  let B2 := fmul (fsub (vy (bb_index a (negb (r_sy r)))) (vy o)) (vy i) in
  let A3 := fmul (fsub (vz (bb_index a (r_sz r))) (vz o)) (vz i) in
  let B3 := fmul (fsub (vz (bb_index a (negb (r_sz r)))) (vz o)) (vz i) in
  forall T,
  notnan A1 -> notnan A2 -> notnan A3 -> notnan B1 -> notnan B2 -> notnan B3 -> notnan (r_tmin r) ->
  fr A1 <= T -> fr A2 <= T -> fr A3 <= T -> T <= fr B1 -> T <= fr B2 -> T <= fr B3 -> fr (r_tmin r) < T ->
  exists x, intersect a r = Some x /\ notnan x /\ T <= fr x.
Proof.
  intros a r i o A1 B1 A2 B2 A3 B3 T NA1 NA2 NA3 NB1 NB2 NB3 Nt HA1 HA2 HA3 HB1 HB2 HB3 Ht.
  unfold intersect. fold i o. fold A1 B1 A2 B2 A3 B3. cbv zeta.
  assert (fgt A1 B2 = false) as -> by (apply flt_false; auto; lra).
  assert (fgt A2 B1 = false) as -> by (apply flt_false; auto; lra).
  simpl orb; cbv iota.
  set (rmin := if fgt A2 A1 then A2 else A1).
  set (rmax := if flt B2 B1 then B2 else B1).
  assert (notnan rmin /\ fr rmin <= T) as [Nm Hm] by (unfold rmin; destruct (fgt A2 A1); auto).
  assert (notnan rmax /\ T <= fr rmax) as [NM HM] by (unfold rmax; destruct (flt B2 B1); auto).
  assert (fgt rmin B3 = false) as -> by (apply flt_false; auto; lra).
  assert (fgt A3 rmax = false) as -> by (apply flt_false; auto; lra).
  simpl orb; cbv iota.
  set (rmax' := if flt B3 rmax then B3 else rmax).
  assert (notnan rmax' /\ T <= fr rmax') as [NM' HM'] by (unfold rmax'; destruct (flt B3 rmax); auto).
  assert (fgt rmax' (r_tmin r) = true) as -> by (apply flt_spec; auto; lra).
  exists rmax'; auto.
Qed.

(** Core: with a slack of a few units in the last place around [t]. *)
Lemma intersect_core : forall b o d t0 t,
  box_within f1e34 b -> vwithin f1e34 o -> axes_fine b o d -> 0 < t -> fr f1em4 < RN t ->
  ray_point_in b o d (t * (1 - 2 * ue)) -> ray_point_in b o d (t * (1 + 3 * ue)) ->
  exists x, intersect b (ray_set_t (ray_new o d) t0) = Some x /\ notnan x /\ RN t <= fr x.
Proof.
  intros b o d t0 t [W1 W2] Wo (X1 & X2 & X3) T Tm (P1 & P2 & P3) (Q1 & Q2 & Q3).
  destruct (vwithin_fin _ W1) as [(F1 & F2 & F3) (B1 & B2 & B3)].
  destruct (vwithin_fin _ W2) as [(G1 & G2 & G3) (C1 & C2 & C3)].
  destruct (vwithin_fin _ Wo) as [(O1 & O2 & O3) (D1 & D2 & D3)].
  assert (forall lo hi o d : f32,
    is_finite lo = true -> is_finite hi = true -> is_finite o = true ->
    Rabs (fr lo) <= bpow radix2 113 -> Rabs (fr hi) <= bpow radix2 113 -> Rabs (fr o) <= bpow radix2 113 ->
    axis_fine lo hi o d ->
    fval lo <= fval o + t * (1 - 2 * ue) * fval d <= fval hi ->
    fval lo <= fval o + t * (1 + 3 * ue) * fval d <= fval hi ->
    let s := flt d f0 in
    let A := fmul (fsub (if s then hi else lo) o) (fdiv f1 d) in
    let B := fmul (fsub (if negb s then hi else lo) o) (fdiv f1 d) in
    notnan A /\ notnan B /\ fr A <= RN t /\ RN t <= fr B) as AX.
  { intros lo hi o' d' Fl Fh Fo Bl Bh Bo [Hd|[Hd [L U]]] Y1 Y2.
    - destruct Hd as [Fd Hd]. unfold fval in *. rewrite <- !fr_fin in Y1, Y2 by auto.
      apply axis_normal; auto. split; auto.
    - subst d'. apply axis_zero; auto. }
  destruct (AX _ _ _ _ F1 G1 O1 B1 C1 D1 X1 P1 Q1) as (NA1 & NB1 & HA1 & HB1).
  destruct (AX _ _ _ _ F2 G2 O2 B2 C2 D2 X2 P2 Q2) as (NA2 & NB2 & HA2 & HB2).
  destruct (AX _ _ _ _ F3 G3 O3 B3 C3 D3 X3 P3 Q3) as (NA3 & NB3 & HA3 & HB3).
  clear AX.
  assert (forall (s : bool), vx (bb_index b s) = if s then vx (bmax b) else vx (bmin b)) as I1 by (intros [|]; auto).
  assert (forall (s : bool), vy (bb_index b s) = if s then vy (bmax b) else vy (bmin b)) as I2 by (intros [|]; auto).
  assert (forall (s : bool), vz (bb_index b s) = if s then vz (bmax b) else vz (bmin b)) as I3 by (intros [|]; auto).
  apply (intersect_accept b (ray_set_t (ray_new o d) t0) (RN t));
    unfold ray_set_t, ray_new, vdivs; cbn [r_inv r_origin r_sx r_sy r_sz r_tmin vx vy vz];
    rewrite ?I1, ?I2, ?I3; auto.
Qed.

Lemma fr_1em4 : fr f1em4 = 13743895 * / 137438953472.
Proof. unfold fr, f1em4, B2R, F2R; simpl. lra. Qed.

Definition f1em4_succ : f32 := @B754_finite 24 128 false 13743896 (-37) eq_refl.
Lemma fr_1em4_succ : fr f1em4_succ = 13743896 * / 137438953472.
Proof. unfold fr, f1em4_succ, B2R, F2R; simpl. lra. Qed.

Lemma RN_gt_tmin : forall t, fr f1em4 * (1 + 2 * ue) <= t -> fr f1em4 < RN t.
Proof.
  intros t H. apply Rlt_le_trans with (fr f1em4_succ).
  - rewrite fr_1em4, fr_1em4_succ. lra.
  - apply fr_le_RN; [reflexivity|]. eapply Rle_trans; [|apply H].
    rewrite fr_1em4, fr_1em4_succ. unfold ue. lra.
Qed.

Lemma ray_point_between : forall b o d t1 t2 t, t1 <= t <= t2 ->
  ray_point_in b o d t1 -> ray_point_in b o d t2 -> ray_point_in b o d t.
Proof.
  intros b o d t1 t2 t H (A1 & A2 & A3) (B1 & B2 & B3).
  assert (forall lo hi o d : R, lo <= o + t1 * d <= hi -> lo <= o + t2 * d <= hi -> lo <= o + t * d <= hi) as G.
  { intros lo hi o' d' X Y. destruct (Rle_or_lt 0 d'); split; nra. }
  split; [|split]; apply G; auto.
Qed.

Lemma intersect_complete : forall b o d t0 t1 t2,
  box_within f1e34 b -> vwithin f1e34 o -> axes_fine b o d ->
  fval f1em4 <= t1 -> t1 * (1 + / 2097152) <= t2 ->
  ray_point_in b o d t1 -> ray_point_in b o d t2 ->
  exists x, intersect b (ray_set_t (ray_new o d) t0) = Some x /\ fnan x = false /\
            fgt x f1em4 = true /\ (ffinite x -> t1 <= fval x).
Proof.
  intros b o d t0 t1 t2 W Wo X L1 L2 P1 P2.
  change (fval f1em4) with (fr f1em4) in L1.
  assert (0 < fr f1em4) as Z by (rewrite fr_1em4; lra).
  set (t := t1 * (1 + 4 * ue)).
  assert (t1 <= t * (1 - 2 * ue) <= t2) as R1 by (unfold t, ue; split; nra).
  assert (t1 <= t * (1 + 3 * ue) <= t2) as R2 by (unfold t, ue; split; nra).
  assert (fr f1em4 < RN t) as G by (apply RN_gt_tmin; unfold t, ue; nra).
  destruct (intersect_core b o d t0 t) as (x & E & N & H); auto.
  - unfold t, ue; nra.
  - eapply ray_point_between; eauto.
  - eapply ray_point_between; eauto.
  - exists x. split; auto. split; auto. split.
    + apply flt_spec; auto. lra.
    + intro F. unfold ffinite, fval in *. rewrite <- fr_fin by auto.
      apply Rle_trans with (RN t); auto.
      assert (Rabs (RN t) < BIG) as RB.
      { apply Rle_lt_trans with (fr x); [rewrite Rabs_pos_eq by lra; auto|].
        pose proof (fin_fr_lt x F) as K. apply Rabs_lt_inv in K. pose proof bpow128_lt_BIG; lra. }
      destruct (RN_cases t) as [[_ E']|[[_ [_ E']]|[_ [_ E']]]];
        try (rewrite E', ?Rabs_Ropp, Rabs_pos_eq in RB by (apply Rlt_le, BIG_pos); lra).
      rewrite E'.
      destruct (rnd_rel t) as (e & He & ->).
      { rewrite Rabs_pos_eq by (unfold t, ue; nra).
        apply Rle_trans with (fr f1em4).
        - rewrite fr_1em4. apply Rle_trans with (bpow radix2 (-14)); [apply bpow_le; lia|]. simpl. lra.
        - unfold t, ue; nra. }
      apply Rabs_le_inv in He. unfold t. unfold ue in *. nra.
Qed.
