(** * Rounding errors of the triangle test *)
Require Import List ZArith Bool Reals Lia Lra Psatz.
From Flocq Require Import Core BinarySingleNaN Relative.
From Verif Require Import F32 F32Facts Vec RayModel SpecGeom TriModel SpecTri TriProofs.
Local Open Scope R_scope.

Lemma rnd_err : forall x, Rabs (rnd x - x) <= ue * Rabs x + bpow radix2 (-150).
Proof.
  intro x. destruct (error_N_FLT radix2 (-149) 24 Hp32 (fun x => negb (Z.even x)) x) as (e & n & He & Hn & _ & E).
  assert (Rabs e <= ue) as He' by (rewrite <- ue_val; first [exact He | eapply Rle_trans; [exact He|apply Rle_refl]]). clear He. rename He' into He.
  unfold rnd, round_mode.
  match goal with |- Rabs (?a - x) <= _ => replace a with (x * (1 + e) + n) by (symmetry; exact E) end.
  replace (x * (1 + e) + n - x) with (x * e + n) by ring. eapply Rle_trans; [apply Rabs_triang|].
  rewrite Rabs_mult. replace (bpow radix2 (-150)) with (/ 2 * bpow radix2 (-149)) by (change (-149)%Z with (-150 + 1)%Z; rewrite bpow_plus; simpl (bpow radix2 1); lra).
  pose proof (Rabs_pos x). nra.
Qed.

(** [x] is [X] up to [c] units of [ue * S], and [X] is at most [m * S]. *)
Definition approx (S : R) (x : f32) (X c m : R) : Prop := fin x /\ Rabs (fr x - X) <= c * ue * S /\ Rabs X <= m * S.
Definition scale (S : R) : Prop := 1 <= S <= bpow radix2 60.

Lemma approx_abs : forall S x X c m, scale S -> approx S x X c m -> Rabs (fr x) <= (m + c / 1000000) * S.
Proof.
  intros S x X c m [S1 _] (_ & E & M). pose proof ue_bounds.
  replace (fr x) with ((fr x - X) + X) by ring. eapply Rle_trans; [apply Rabs_triang|].
  pose proof (Rabs_pos (fr x - X)). assert (0 <= c) by (assert (0 <= c * (ue * S)) by lra; assert (0 < ue * S) by nra; nra).
  assert (c * ue * S <= c * / 1000000 * S) by (apply Rmult_le_compat_r; [lra|apply Rmult_le_compat_l; lra]). lra.
Qed.
Lemma approx_c : forall S x X c m, scale S -> approx S x X c m -> 0 <= c.
Proof.
  intros S x X c m [S1 _] (_ & E & M). pose proof ue_bounds. pose proof (Rabs_pos (fr x - X)).
  assert (0 < ue * S) by nra. nra.
Qed.
Lemma approx_m : forall S x X c m, scale S -> approx S x X c m -> 0 <= m.
Proof. intros S x X c m [S1 _] (_ & E & M). pose proof (Rabs_pos X). nra. Qed.

Lemma big_127 : forall k S, scale S -> k <= bpow radix2 60 -> k * S <= bpow radix2 127.
Proof.
  intros k S [A B] K. change 127%Z with (60 + (60 + 7))%Z. rewrite !bpow_plus. pose proof (bpow_gt_0 radix2 60).
  assert (1 <= bpow radix2 7) by (simpl; lra). 
  apply Rle_trans with (bpow radix2 60 * S); [apply Rmult_le_compat_r; lra|]. apply Rmult_le_compat_l; [lra|]. nra.
Qed.
Lemma small_150 : bpow radix2 (-150) <= / 1000000 * ue.
Proof. unfold ue. simpl. lra. Qed.
Lemma p60 : 1000000000 <= bpow radix2 60.
Proof. simpl. lra. Qed.

(** Result of an operation whose exact value on the floats is [z]. *)
Lemma approx_rnd : forall S (x : f32) z X c1 m M, scale S -> notnan x -> fr x = RN z ->
  Rabs (rnd z - z) <= ue * Rabs z + bpow radix2 (-150) ->
  Rabs z <= M * S -> M <= 1000000000 -> Rabs (z - X) <= c1 * ue * S -> Rabs X <= m * S ->
  approx S x X (c1 + M + / 1000000) m.
Proof.
  intros S x z X c1 m M HS N E R Bz LM Ez BX. pose proof p60 as P. pose proof ue_bounds as U. pose proof small_150 as Sm.
  assert (Rabs z <= bpow radix2 127) as Z by (eapply Rle_trans; [exact Bz|]; apply big_127; auto; lra).
  assert (fin x) as F by (eapply fin_of_RN; eauto).
  split; auto. split; auto. rewrite E. destruct (RN_small z Z) as [-> _]. destruct HS as [S1 _].
  replace (rnd z - X) with ((rnd z - z) + (z - X)) by ring. eapply Rle_trans; [apply Rabs_triang|].
  assert (ue * Rabs z <= ue * (M * S)) by (apply Rmult_le_compat_l; lra).
  assert (/ 1000000 * ue <= / 1000000 * ue * S) by nra. lra.
Qed.
Lemma approx_sub : forall S x y X Y c1 m1 c2 m2 c m, scale S -> approx S x X c1 m1 -> approx S y Y c2 m2 ->
  m1 + m2 + (c1 + c2) / 1000000 <= 1000000000 ->
  c1 + c2 + (m1 + m2 + (c1 + c2) / 1000000) + / 1000000 <= c -> m1 + m2 <= m -> approx S (fsub x y) (X - Y) c m.
Proof.
  intros S x y X Y c1 m1 c2 m2 c m HS Ax Ay L Lc Lm.
  pose proof (approx_abs _ _ _ _ _ HS Ax) as Bx. pose proof (approx_abs _ _ _ _ _ HS Ay) as By.
  destruct Ax as (Fx & Ex & Mx). destruct Ay as (Fy & Ey & My). destruct (fr_fsub x y Fx Fy) as [N E].
  assert (approx S (fsub x y) (X - Y) (c1 + c2 + (m1 + m2 + (c1 + c2) / 1000000) + / 1000000) (m1 + m2)) as (F & G & H).
  { eapply approx_rnd; eauto.
    - apply rnd_err.
    - unfold Rminus. eapply Rle_trans; [apply Rabs_triang|]. rewrite Rabs_Ropp. lra.
    - replace (fr x - fr y - (X - Y)) with ((fr x - X) - (fr y - Y)) by ring. unfold Rminus at 1.
      eapply Rle_trans; [apply Rabs_triang|]. rewrite Rabs_Ropp. lra.
    - unfold Rminus. eapply Rle_trans; [apply Rabs_triang|]. rewrite Rabs_Ropp. lra. }
  destruct HS as [S1 _]. pose proof ue_bounds. split; auto. split; [eapply Rle_trans; [exact G|]|eapply Rle_trans; [exact H|]].
  - apply Rmult_le_compat_r; [lra|]. apply Rmult_le_compat_r; lra.
  - apply Rmult_le_compat_r; lra.
Qed.
Lemma approx_add : forall S x y X Y c1 m1 c2 m2 c m, scale S -> approx S x X c1 m1 -> approx S y Y c2 m2 ->
  m1 + m2 + (c1 + c2) / 1000000 <= 1000000000 ->
  c1 + c2 + (m1 + m2 + (c1 + c2) / 1000000) + / 1000000 <= c -> m1 + m2 <= m -> approx S (fadd x y) (X + Y) c m.
Proof.
  intros S x y X Y c1 m1 c2 m2 c m HS Ax Ay L Lc Lm.
  pose proof (approx_abs _ _ _ _ _ HS Ax) as Bx. pose proof (approx_abs _ _ _ _ _ HS Ay) as By.
  destruct Ax as (Fx & Ex & Mx). destruct Ay as (Fy & Ey & My). destruct (fr_fadd x y Fx Fy) as [N E].
  assert (approx S (fadd x y) (X + Y) (c1 + c2 + (m1 + m2 + (c1 + c2) / 1000000) + / 1000000) (m1 + m2)) as (F & G & H).
  { eapply approx_rnd; eauto.
    - apply rnd_err.
    - eapply Rle_trans; [apply Rabs_triang|]. lra.
    - replace (fr x + fr y - (X + Y)) with ((fr x - X) + (fr y - Y)) by ring.
      eapply Rle_trans; [apply Rabs_triang|]. lra.
    - eapply Rle_trans; [apply Rabs_triang|]. lra. }
  destruct HS as [S1 _]. pose proof ue_bounds. split; auto. split; [eapply Rle_trans; [exact G|]|eapply Rle_trans; [exact H|]].
  - apply Rmult_le_compat_r; [lra|]. apply Rmult_le_compat_r; lra.
  - apply Rmult_le_compat_r; lra.
Qed.
Lemma approx_mul : forall S1 S2 x y X Y c1 m1 c2 m2 c m, scale S1 -> scale S2 -> scale (S1 * S2) ->
  approx S1 x X c1 m1 -> approx S2 y Y c2 m2 ->
  (m1 + c1 / 1000000) * (m2 + c2 / 1000000) <= 1000000000 ->
  c1 * (m2 + c2 / 1000000) + m1 * c2 + (m1 + c1 / 1000000) * (m2 + c2 / 1000000) + / 1000000 <= c -> m1 * m2 <= m ->
  approx (S1 * S2) (fmul x y) (X * Y) c m.
Proof.
  intros S1 S2 x y X Y c1 m1 c2 m2 c m H1 H2 H12 Ax Ay L Lc Lm.
  pose proof (approx_abs _ _ _ _ _ H1 Ax) as Bx. pose proof (approx_abs _ _ _ _ _ H2 Ay) as By.
  pose proof (approx_c _ _ _ _ _ H1 Ax) as C1. pose proof (approx_c _ _ _ _ _ H2 Ay) as C2.
  pose proof (approx_m _ _ _ _ _ H1 Ax) as M1. pose proof (approx_m _ _ _ _ _ H2 Ay) as M2.
  destruct Ax as (Fx & Ex & Mx). destruct Ay as (Fy & Ey & My). destruct (fr_fmul x y Fx Fy) as [N E].
  pose proof ue_bounds as U. destruct H1 as [A1 _]. destruct H2 as [A2 _].
  assert (approx (S1 * S2) (fmul x y) (X * Y)
    ((c1 * (m2 + c2 / 1000000) + m1 * c2) + (m1 + c1 / 1000000) * (m2 + c2 / 1000000) + / 1000000) (m1 * m2)) as (F & G & H).
  { eapply approx_rnd; eauto.
    - apply rnd_err.
    - rewrite Rabs_mult. apply Rle_trans with (((m1 + c1 / 1000000) * S1) * ((m2 + c2 / 1000000) * S2)); [|apply Req_le; ring].
      apply Rmult_le_compat; auto using Rabs_pos.
    - replace (fr x * fr y - X * Y) with ((fr x - X) * fr y + X * (fr y - Y)) by ring.
      eapply Rle_trans; [apply Rabs_triang|]. rewrite !Rabs_mult.
      apply Rle_trans with ((c1 * ue * S1) * ((m2 + c2 / 1000000) * S2) + (m1 * S1) * (c2 * ue * S2)); [|apply Req_le; ring].
      apply Rplus_le_compat; apply Rmult_le_compat; auto using Rabs_pos.
    - rewrite Rabs_mult. apply Rle_trans with ((m1 * S1) * (m2 * S2)); [|apply Req_le; ring].
      apply Rmult_le_compat; auto using Rabs_pos. }
  assert (1 <= S1 * S2) as A12 by (destruct H12; auto).
  split; auto. split; [eapply Rle_trans; [exact G|]|eapply Rle_trans; [exact H|]].
  - apply Rmult_le_compat_r; [lra|]. apply Rmult_le_compat_r; lra.
  - apply Rmult_le_compat_r; lra.
Qed.
Lemma approx_exact : forall S x, 0 < S -> fin x -> Rabs (fr x) <= S -> approx S x (fr x) 0 1.
Proof. intros S x S0 F B. split; auto. rewrite Rminus_diag_eq, Rabs_R0 by auto. split; lra. Qed.

(** ** Vectors *)
Definition apv (S : R) (x : vec3) (X : rvec) (c m : R) : Prop :=
  approx S (vx x) (rx X) c m /\ approx S (vy x) (ry X) c m /\ approx S (vz x) (rz X) c m.
Notation rs := (real_scalars (/ 100000)).
Notation rsub := (sub3 rs).
Notation rcross := (cross3 rs).
Notation rdot := (dot3 rs).

Lemma apv_sub : forall S x y X Y c1 m1 c2 m2 c m, scale S -> apv S x X c1 m1 -> apv S y Y c2 m2 ->
  m1 + m2 + (c1 + c2) / 1000000 <= 1000000000 ->
  c1 + c2 + (m1 + m2 + (c1 + c2) / 1000000) + / 1000000 <= c -> m1 + m2 <= m -> apv S (vsub x y) (rsub X Y) c m.
Proof.
  intros S x y [[X1 X2] X3] [[Y1 Y2] Y3] c1 m1 c2 m2 c m HS (A1 & A2 & A3) (B1 & B2 & B3) L Lc Lm.
  split; [|split]; eapply approx_sub; eauto.
Qed.
Lemma apv_cross : forall S1 S2 x y X Y c1 m1 c2 m2 c m cp mp, scale S1 -> scale S2 -> scale (S1 * S2) ->
  apv S1 x X c1 m1 -> apv S2 y Y c2 m2 ->
  (m1 + c1 / 1000000) * (m2 + c2 / 1000000) <= 1000000000 ->
  c1 * (m2 + c2 / 1000000) + m1 * c2 + (m1 + c1 / 1000000) * (m2 + c2 / 1000000) + / 1000000 <= cp -> m1 * m2 <= mp ->
  mp + mp + (cp + cp) / 1000000 <= 1000000000 ->
  cp + cp + (mp + mp + (cp + cp) / 1000000) + / 1000000 <= c -> mp + mp <= m -> apv (S1 * S2) (vcross x y) (rcross X Y) c m.
Proof.
  intros S1 S2 x y [[X1 X2] X3] [[Y1 Y2] Y3] c1 m1 c2 m2 c m cp mp H1 H2 H12 (A1 & A2 & A3) (B1 & B2 & B3) L Lc Lm L' Lc' Lm'.
  cbn [rx ry rz fst snd] in *.
  assert (forall u v U V, approx S1 u U c1 m1 -> approx S2 v V c2 m2 -> approx (S1 * S2) (fmul u v) (U * V) cp mp /\ approx (S1 * S2) (fmul v u) (V * U) cp mp) as G.
  { intros u v U V Au Av. split; [eapply approx_mul; eauto|]. rewrite fmul_comm, (Rmult_comm V U). eapply approx_mul; eauto. }
  split; [|split]; cbn [vcross vx vy vz cross3 real_scalars s_sub s_mul rx ry rz fst snd]; (eapply approx_sub; [exact H12| | |exact L'|exact Lc'|exact Lm']);
    first [solve [eapply (fun u v U V p q => proj1 (G u v U V p q)); auto] | solve [eapply (fun u v U V p q => proj2 (G u v U V p q)); auto]].
Qed.
Lemma ap_dot : forall S1 S2 x y X Y c1 m1 c2 m2 c m cp mp cs, scale S1 -> scale S2 -> scale (S1 * S2) ->
  apv S1 x X c1 m1 -> apv S2 y Y c2 m2 ->
  (m1 + c1 / 1000000) * (m2 + c2 / 1000000) <= 1000000000 ->
  c1 * (m2 + c2 / 1000000) + m1 * c2 + (m1 + c1 / 1000000) * (m2 + c2 / 1000000) + / 1000000 <= cp -> m1 * m2 <= mp ->
  mp + mp + (cp + cp) / 1000000 <= 1000000000 ->
  cp + cp + (mp + mp + (cp + cp) / 1000000) + / 1000000 <= cs ->
  (mp + mp) + mp + (cs + cp) / 1000000 <= 1000000000 ->
  cs + cp + ((mp + mp) + mp + (cs + cp) / 1000000) + / 1000000 <= c -> mp + mp + mp <= m -> approx (S1 * S2) (vdot x y) (rdot X Y) c m.
Proof.
  intros S1 S2 x y [[X1 X2] X3] [[Y1 Y2] Y3] c1 m1 c2 m2 c m cp mp cs H1 H2 H12 (A1 & A2 & A3) (B1 & B2 & B3) L Lc Lm L1 Lc1 L2 Lc2 Lm2.
  cbn [rx ry rz fst snd] in *. unfold vdot. cbn [dot3 real_scalars s_add s_mul].
  assert (forall u v U V, approx S1 u U c1 m1 -> approx S2 v V c2 m2 -> approx (S1 * S2) (fmul u v) (U * V) cp mp) as G.
  { intros u v U V Au Av. eapply approx_mul; eauto. }
  eapply approx_add; [exact H12| |apply G; auto|exact L2|exact Lc2|exact Lm2].
  eapply approx_add; [exact H12|apply G; auto|apply G; auto|exact L1|exact Lc1|apply Rle_refl].
Qed.

(** ** The quotients *)
Lemma quot_err : forall a n : f32, fin a -> fin n -> bpow radix2 (-20) <= Rabs (fr a) <= bpow radix2 80 -> Rabs (fr n) <= bpow radix2 80 ->
  fin (fmul (fdiv f1 a) n) /\
  Rabs (fr (fmul (fdiv f1 a) n) * fr a - fr n) <= 201 / 100 * ue * Rabs (fr n) + bpow radix2 (-150) * Rabs (fr a).
Proof.
  intros a n Fa Fn [La Ua] Un. pose proof (mag_recip a Fa La) as [Ff Bf]. set (f := fdiv f1 a) in *.
  assert (fr a <> 0) as NZ by (intro Z; rewrite Z, Rabs_R0 in La; pose proof (bpow_gt_0 radix2 (-20)); lra).
  destruct (fr_fdiv f1 a eq_refl Fa NZ) as [_ Ef]. fold f in Ef.
  assert (fr f1 = 1) as E1 by (simpl; unfold F2R; simpl; lra). rewrite E1 in Ef.
  assert (Rabs (1 / fr a) <= bpow radix2 127 /\ bpow radix2 (-126) <= Rabs (1 / fr a)) as [G1 G2].
  { unfold Rdiv. rewrite Rmult_1_l, Rabs_inv. pose proof (bpow_gt_0 radix2 (-20)). split.
    - apply Rle_trans with (/ bpow radix2 (-20)); [apply Rinv_le; lra|]. rewrite <- bpow_opp. apply bpow_le. lia.
    - apply Rle_trans with (/ bpow radix2 80); [rewrite <- bpow_opp; apply bpow_le; lia|]. apply Rinv_le; lra. }
  destruct (RN_small _ G1) as [R1 _]. rewrite R1 in Ef. destruct (rnd_rel _ G2) as (e & He & Ee). rewrite Ee in Ef. clear R1 Ee.
  destruct (fr_fmul f n Ff Fn) as [Nu Eu].
  assert (Rabs (fr f * fr n) <= bpow radix2 127) as G3.
  { rewrite Rabs_mult. apply Rle_trans with (bpow radix2 20 * bpow radix2 80).
    - apply Rmult_le_compat; auto using Rabs_pos.
    - rewrite <- bpow_plus. apply bpow_le. lia. }
  split; [eapply fin_of_RN; eauto|]. destruct (RN_small _ G3) as [R2 _]. rewrite R2 in Eu.
  pose proof (rnd_err (fr f * fr n)) as Er. rewrite <- Eu in Er. set (u := fr (fmul f n)) in *.
  assert (fr f * fr a = 1 + e) as Efa by (rewrite Ef; field; auto).
  replace (u * fr a - fr n) with ((u - fr f * fr n) * fr a + fr n * e) by (replace (fr n * e) with (fr n * (fr f * fr a) - fr n) by (rewrite Efa; ring); ring).
  eapply Rle_trans; [apply Rabs_triang|]. rewrite !Rabs_mult. pose proof ue_bounds as U. pose proof (Rabs_pos (fr n)) as Pn. pose proof (Rabs_pos (fr a)) as Pa.
  assert (Rabs (u - fr f * fr n) * Rabs (fr a) <= (ue * Rabs (fr f * fr n) + bpow radix2 (-150)) * Rabs (fr a)) as K1 by (apply Rmult_le_compat_r; auto).
  assert (Rabs (fr f * fr n) * Rabs (fr a) = Rabs (fr n) * Rabs (1 + e)) as K2.
  { rewrite <- Efa, !Rabs_mult. ring. }
  assert (Rabs (1 + e) <= 1 + ue) as K3 by (eapply Rle_trans; [apply Rabs_triang|]; rewrite Rabs_R1; lra).
  assert (Rabs (fr n) * Rabs (1 + e) <= Rabs (fr n) * (1 + ue)) as K4 by (apply Rmult_le_compat_l; auto).
  assert (Rabs (fr n) * Rabs e <= Rabs (fr n) * ue) as K5 by (apply Rmult_le_compat_l; auto).
  assert (ue * (Rabs (fr f * fr n) * Rabs (fr a)) <= ue * (Rabs (fr n) * (1 + ue))) as K6 by (apply Rmult_le_compat_l; lra).
  assert (ue * (Rabs (fr n) * (1 + ue)) + Rabs (fr n) * ue <= 201 / 100 * ue * Rabs (fr n)) as K7.
  { replace (ue * (Rabs (fr n) * (1 + ue)) + Rabs (fr n) * ue) with ((2 + ue) * (ue * Rabs (fr n))) by ring.
    assert (0 <= ue * Rabs (fr n)) by nra. nra. }
  lra.
Qed.

Section Test.
  Variables (B D : R) (tr : tri) (r : ray).
  Hypothesis HB : 1 <= B <= bpow radix2 20.
  Hypothesis HD : 1 <= D <= bpow radix2 20.
  Definition vin (b : R) (v : vec3) : Prop :=
    (fin (vx v) /\ Rabs (fr (vx v)) <= b) /\ (fin (vy v) /\ Rabs (fr (vy v)) <= b) /\ (fin (vz v) /\ Rabs (fr (vz v)) <= b).
  Hypothesis H0 : vin B (tv0 tr).
  Hypothesis H1 : vin B (tv1 tr).
  Hypothesis H2 : vin B (tv2 tr).
  Hypothesis Ho : vin B (r_origin r).
  Hypothesis Hd : vin D (r_dir r).
  Definition rvf (v : vec3) : rvec := (fr (vx v), fr (vy v), fr (vz v)).

  Let v0 := rvf (tv0 tr). Let v1 := rvf (tv1 tr). Let v2 := rvf (tv2 tr). Let o := rvf (r_origin r). Let d := rvf (r_dir r).
  Let S := B * (D * B).
  Let S3 := B * (B * B).

  Lemma scale_le : forall x y j k, 1 <= x <= bpow radix2 j -> 1 <= y <= bpow radix2 k -> 1 <= x * y <= bpow radix2 (j + k).
  Proof. intros x y j k [X1 X2] [Y1 Y2]. rewrite bpow_plus. split; [nra|]. apply Rmult_le_compat; lra. Qed.
  Lemma scale_of : forall x k, (k <= 60)%Z -> 1 <= x <= bpow radix2 k -> scale x.
  Proof. intros x k K [X1 X2]. split; auto. eapply Rle_trans; [exact X2|]. apply bpow_le; auto. Qed.
  Lemma sB : scale B. Proof. apply (scale_of B 20); [lia|auto]. Qed.
  Lemma sD : scale D. Proof. apply (scale_of D 20); [lia|auto]. Qed.
  Lemma sDB : scale (D * B). Proof. apply (scale_of _ 40); [lia|]. apply (scale_le D B 20 20); auto. Qed.
  Lemma sBB : scale (B * B). Proof. apply (scale_of _ 40); [lia|]. apply (scale_le B B 20 20); auto. Qed.
  Lemma sS : scale S. Proof. apply (scale_of _ 60); [lia|]. apply (scale_le B (D * B) 20 40); auto. apply (scale_le D B 20 20); auto. Qed.
  Lemma sS' : scale (D * (B * B)). Proof. replace (D * (B * B)) with S by (unfold S; ring). apply sS. Qed.
  Lemma sS3 : scale S3. Proof. apply (scale_of _ 60); [lia|]. apply (scale_le B (B * B) 20 40); auto. apply (scale_le B B 20 20); auto. Qed.

  Lemma vin_apv : forall b v, scale b -> vin b v -> apv b v (rvf v) 0 1.
  Proof.
    intros b v [S1 _] ((F1 & B1) & (F2 & B2) & (F3 & B3)). split; [|split]; cbn [rvf rx ry rz fst snd]; apply approx_exact; auto; lra.
  Qed.
  Lemma e_apv : forall v, vin B v -> apv B (vsub v (tv0 tr)) (rsub (rvf v) v0) (201 / 100) 2.
  Proof.
    intros v Hv. pose proof sB. eapply apv_sub; [auto|apply vin_apv; eauto|apply vin_apv; eauto| | |]; lra.
  Qed.
  Let e1 := vsub (tv1 tr) (tv0 tr). Let e2 := vsub (tv2 tr) (tv0 tr).
  Let s := vsub (r_origin r) (tv0 tr).
  Let h := vcross (r_dir r) e2. Let q := vcross s e1.
  Let a := vdot e1 h.
  Let nu := vdot s h. Let nv := vdot (r_dir r) q. Let nt := vdot e2 q.
  Let E1 := rsub v1 v0. Let E2 := rsub v2 v0. Let Os := rsub o v0.
  Let H := rcross d E2. Let Q := rcross Os E1.
  Let A := facing v0 v1 v2 d.
  Let U := rdot Os H. Let V := rdot d Q. Let W := rdot E2 Q.

  Lemma h_apv : apv (D * B) h H (125 / 10) 4.
  Proof.
    eapply apv_cross with (cp := 402 / 100 + / 100) (mp := 2); [apply sD|apply sB|apply sDB|apply vin_apv; [apply sD|exact Hd]|apply e_apv; exact H2| | | | | |]; lra.
  Qed.
  Lemma q_apv : apv (B * B) q Q (325 / 10) 8.
  Proof.
    eapply apv_cross with (cp := 1206 / 100) (mp := 4); [apply sB|apply sB|apply sBB|apply e_apv; exact Ho|apply e_apv; exact H1| | | | | |]; lra.
  Qed.
  Lemma dot_eh : forall v, vin B v -> approx S (vdot (vsub v (tv0 tr)) h) (rdot (rsub (rvf v) v0) H) 165 24.
  Proof.
    intros v Hv.
    eapply ap_dot with (cp := 4105 / 100) (mp := 8) (cs := 982 / 10); [apply sB|apply sDB|apply sS|apply e_apv; exact Hv|apply h_apv| | | | | | | |]; lra.
  Qed.
  Lemma a_ap : approx S a A 165 24.
  Proof.
    pose proof (dot_eh (tv1 tr) H1) as K. unfold A. unfold a, e1.
    replace (facing v0 v1 v2 d) with (rdot (rsub (rvf (tv1 tr)) v0) H); [exact K|]. symmetry. rewrite <- (facing_det v0 v1 v2 d (/ 100000)). reflexivity.
  Qed.
  Lemma u_ap : approx S nu U 165 24.
  Proof. apply dot_eh. exact Ho. Qed.
  Lemma v_ap : approx S nv V 165 24.
  Proof.
    assert (S = D * (B * B)) as E by (unfold S; ring). rewrite E.
    eapply ap_dot with (cp := 406 / 10) (mp := 8) (cs := 973 / 10); [apply sD|apply sBB|apply sS'|apply vin_apv; [apply sD|exact Hd]|apply q_apv| | | | | | | |]; lra.
  Qed.
  Lemma t_ap : approx S3 nt W 375 48.
  Proof.
    eapply ap_dot with (cp := 9715 / 100) (mp := 16) (cs := 2264 / 10); [apply sB|apply sBB|apply sS3|apply e_apv; exact H2|apply q_apv| | | | | | | |]; lra.
  Qed.

  (** ** Errors of the three quotients *)
  Lemma quotient : forall (n : f32) N c m S', scale S' -> approx S' n N c m -> m + c / 1000000 <= 1000 -> bpow radix2 (-20) <= Rabs (fr a) ->
    fin (fmul (fdiv f1 a) n) /\
    Rabs (fr (fmul (fdiv f1 a) n) * A - N) <=
      ue * (165 * S * Rabs (fr (fmul (fdiv f1 a) n)) + (c + 201 / 100 * (m + c / 1000000)) * S' + / 100 * S).
  Proof.
    intros n N c m S' HS' An Lm La. pose proof a_ap as Aa. pose proof (approx_abs _ _ _ _ _ sS Aa) as Ba.
    pose proof (approx_abs _ _ _ _ _ HS' An) as Bn. pose proof (approx_c _ _ _ _ _ HS' An) as Pc. pose proof (approx_m _ _ _ _ _ HS' An) as Pm.
    destruct Aa as (Fa & Ea & _). destruct An as (Fn & En & _). pose proof sS as [S1 S2]. pose proof HS' as [T1 T2].
    assert (bpow radix2 80 = bpow radix2 60 * 1048576) as E80 by (change 80%Z with (60 + 20)%Z; rewrite bpow_plus; simpl (bpow radix2 20); lra).
    assert (Rabs (fr a) <= bpow radix2 80) as Ua.
    { rewrite E80. eapply Rle_trans; [exact Ba|]. pose proof (bpow_gt_0 radix2 60). nra. }
    assert (Rabs (fr n) <= bpow radix2 80) as Un.
    { rewrite E80. eapply Rle_trans; [exact Bn|]. pose proof (bpow_gt_0 radix2 60).
      apply Rle_trans with (1000 * S'); [apply Rmult_le_compat_r; lra|]. nra. }
    destruct (quot_err a n Fa Fn (conj La Ua) Un) as (Fu & Eu). split; auto. set (u := fr (fmul (fdiv f1 a) n)) in *.
    replace (u * A - N) with (- (u * (fr a - A)) + (u * fr a - fr n) + (fr n - N)) by ring.
    eapply Rle_trans; [apply Rabs_triang|]. eapply Rle_trans; [apply Rplus_le_compat_r; apply Rabs_triang|].
    rewrite Rabs_Ropp, Rabs_mult. pose proof ue_bounds as Ub. pose proof small_150 as Sm.
    assert (Rabs u * Rabs (fr a - A) <= Rabs u * (165 * ue * S)) as K1 by (apply Rmult_le_compat_l; [apply Rabs_pos|auto]).
    assert (201 / 100 * ue * Rabs (fr n) <= 201 / 100 * ue * ((m + c / 1000000) * S')) as K2 by (apply Rmult_le_compat_l; lra).
    assert (bpow radix2 (-150) * Rabs (fr a) <= (/ 1000000 * ue) * ((24 + 165 / 1000000) * S)) as K3.
    { apply Rmult_le_compat; auto using Rabs_pos. apply bpow_ge_0. }
    assert ((/ 1000000 * ue) * ((24 + 165 / 1000000) * S) <= ue * (/ 100 * S)) as K4.
    { replace ((/ 1000000 * ue) * ((24 + 165 / 1000000) * S)) with (ue * S * (/ 1000000 * (24 + 165 / 1000000))) by ring.
      replace (ue * (/ 100 * S)) with (ue * S * / 100) by ring. apply Rmult_le_compat_l; [nra|lra]. }
    replace (ue * (165 * S * Rabs u + (c + 201 / 100 * (m + c / 1000000)) * S' + / 100 * S)) with
      (Rabs u * (165 * ue * S) + (c * ue * S' + 201 / 100 * ue * ((m + c / 1000000) * S')) + ue * (/ 100 * S)) by ring.
    lra.
  Qed.
  Let u := fmul (fdiv f1 a) nu. Let v := fmul (fdiv f1 a) nv. Let t := fmul (fdiv f1 a) nt.
  Lemma coords_err : bpow radix2 (-20) <= Rabs (fr a) ->
    (fin u /\ Rabs (fr u * A - U) <= ue * S * (165 * Rabs (fr u) + 214)) /\
    (fin v /\ Rabs (fr v * A - V) <= ue * S * (165 * Rabs (fr v) + 214)) /\
    (fin t /\ Rabs (fr t * A - W) <= ue * (S * (165 * Rabs (fr t) + 1) + 472 * S3)).
  Proof.
    intro La. pose proof sS as [S1 _]. pose proof sS3 as [T1 _]. pose proof ue_bounds as Ub.
    destruct (quotient nu U 165 24 S sS u_ap ltac:(lra) La) as (Fu & Eu).
    destruct (quotient nv V 165 24 S sS v_ap ltac:(lra) La) as (Fv & Ev).
    destruct (quotient nt W 375 48 S3 sS3 t_ap ltac:(lra) La) as (Ft & Et).
    fold u in Fu, Eu. fold v in Fv, Ev. fold t in Ft, Et.
    split; [|split]; (split; [assumption|]); (eapply Rle_trans; [first [exact Eu|exact Ev|exact Et]|]).
    - rewrite (Rmult_assoc ue S). apply Rmult_le_compat_l; lra.
    - rewrite (Rmult_assoc ue S). apply Rmult_le_compat_l; lra.
    - apply Rmult_le_compat_l; lra.
  Qed.

  Lemma accepted : fgt a (fneg f1em5) && flt a f1em5 = false -> fr f1em5 <= Rabs (fr a).
  Proof.
    intro K. destruct a_ap as (Fa & _). pose proof (fin_notnan _ Fa) as Na.
    assert (notnan f1em5) as Ne by reflexivity. destruct (fr_neg f1em5 Ne) as [Nn En].
    apply andb_false_iff in K as [K|K].
    - unfold fgt in K. change (flt (fneg f1em5) a = false) in K. apply flt_false in K; auto. rewrite En in K.
      rewrite <- Rabs_Ropp. eapply Rle_trans; [|apply Rle_abs]. lra.
    - apply flt_false in K; auto. eapply Rle_trans; [exact K|apply Rle_abs].
  Qed.
  Lemma eps_20 : bpow radix2 (-20) <= fr f1em5.
  Proof. destruct eps_bounds. lra. Qed.
  Lemma fr_one : fr f1 = 1.
  Proof. simpl; unfold F2R; simpl; lra. Qed.
  Lemma fr_zero : fr f0 = 0.
  Proof. reflexivity. Qed.

  (** What the test reports is right up to rounding. *)
  Lemma accepted_near : bpow radix2 (-20) <= Rabs (fr a) -> fle f0 u = true -> fle u f1 = true -> flt v f0 = false -> fgt (fadd u v) f1 = false -> A <> 0 ->
    exists w1 w2 T,
      rx o + T * rx d = (1 - w1 - w2) * rx v0 + w1 * rx v1 + w2 * rx v2 /\
      ry o + T * ry d = (1 - w1 - w2) * ry v0 + w1 * ry v1 + w2 * ry v2 /\
      rz o + T * rz d = (1 - w1 - w2) * rz v0 + w1 * rz v1 + w2 * rz v2 /\
      - (379 * ue * S / Rabs A) <= w1 /\ - (379 * ue * S / Rabs A) <= w2 /\ w1 + w2 <= 1 + 2 * (379 * ue * S / Rabs A) + 2 * ue /\
      fin t /\ Rabs (fr t - T) <= ue * (S * (165 * Rabs (fr t) + 1) + 472 * S3) / Rabs A.
  Proof.
    intros La Ku0 Ku1 Kv0 Kuv NZ.
    destruct (coords_err La) as ((Fu & Eu) & (Fv & Ev) & (Ft & Et)).
    assert (0 < Rabs A) as PA by (apply Rabs_pos_lt; auto). pose proof sS as [S1 _]. pose proof ue_bounds as Ub.
    pose proof (fin_notnan _ Fu) as Nu. pose proof (fin_notnan _ Fv) as Nv.
    apply fle_spec in Ku0; [|reflexivity|auto]. apply fle_spec in Ku1; [|auto|reflexivity].
    apply flt_false in Kv0; [|auto|reflexivity]. rewrite fr_zero in Ku0, Kv0. rewrite fr_one in Ku1.
    destruct (fr_fadd u v Fu Fv) as [Ns Es].
    unfold fgt in Kuv. change (flt f1 (fadd u v) = false) in Kuv. apply flt_false in Kuv; [|reflexivity|auto]. rewrite fr_one, Es in Kuv.
    assert (fr v <= 1) as Kv1.
    { destruct (Rle_or_lt (fr v) 1) as [|C]; auto. exfalso. assert (fr v <= RN (fr u + fr v)) by (apply fr_le_RN; auto; lra). lra. }
    assert (fr u + fr v <= 1 + 2 * ue) as Ksum.
    { assert (Rabs (fr u + fr v) <= bpow radix2 127) as Bs.
      { rewrite Rabs_pos_eq by lra. apply Rle_trans with 2; [lra|]. change 2 with (bpow radix2 1). apply bpow_le. lia. }
      destruct (RN_small _ Bs) as [Rs _]. rewrite Rs in Kuv. destruct (rnd_plus_rel u v Fu Fv) as (e & He & Ee). rewrite Ee in Kuv.
      apply Rabs_le_inv in He. destruct (Rle_or_lt (fr u + fr v) 1); [lra|]. nra. }
    rewrite (Rabs_pos_eq (fr u)) in Eu by lra. rewrite (Rabs_pos_eq (fr v)) in Ev by lra.
    assert (forall x X, 0 <= x <= 1 -> Rabs (x * A - X) <= ue * S * (165 * x + 214) -> Rabs (x - X / A) <= 379 * ue * S / Rabs A) as G.
    { intros x X Lx Ex. replace (x - X / A) with ((x * A - X) * / A) by (field; auto). rewrite Rabs_mult, Rabs_inv. unfold Rdiv.
      apply Rmult_le_compat_r; [apply Rlt_le, Rinv_0_lt_compat; auto|]. eapply Rle_trans; [exact Ex|].
      replace (379 * ue * S) with (ue * S * 379) by ring. apply Rmult_le_compat_l; [nra|lra]. }
    pose proof (G _ _ (conj Ku0 Ku1) Eu) as Gu. pose proof (G _ _ (conj Kv0 Kv1) Ev) as Gv.
    apply Rabs_le_inv in Gu. apply Rabs_le_inv in Gv. set (e := 379 * ue * S / Rabs A) in *.
    exists (U / A), (V / A), (W / A).
    destruct (cramer v0 v1 v2 o d (/ 100000)) as (Cx & Cy & Cz). fold E1 E2 Os in Cx, Cy, Cz. fold H Q A in Cx, Cy, Cz. fold U V W in Cx, Cy, Cz.
    assert (forall so sd se1 se2 c0 c1 c2 : R, so * A = - W * sd + U * se1 + V * se2 -> se1 = c1 - c0 -> se2 = c2 - c0 ->
      forall co, so = co - c0 -> co + W / A * sd = (1 - U / A - V / A) * c0 + U / A * c1 + V / A * c2) as Lin.
    { intros so sd se1 se2 c0 c1 c2 Eq -> -> co ->. apply Rmult_eq_reg_r with A; auto.
      replace ((co + W / A * sd) * A) with (co * A + W * sd) by (field; auto).
      replace (((1 - U / A - V / A) * c0 + U / A * c1 + V / A * c2) * A) with (c0 * A + U * (c1 - c0) + V * (c2 - c0)) by (field; auto). lra. }
    split; [eapply Lin; [exact Cx| | |]; reflexivity|]. split; [eapply Lin; [exact Cy| | |]; reflexivity|]. split; [eapply Lin; [exact Cz| | |]; reflexivity|].
    split; [lra|]. split; [lra|]. split; [lra|]. split; auto.
    replace (fr t - W / A) with ((fr t * A - W) * / A) by (field; auto). rewrite Rabs_mult, Rabs_inv. unfold Rdiv.
    apply Rmult_le_compat_r; [apply Rlt_le, Rinv_0_lt_compat; auto|exact Et].
  Qed.

  Lemma hit_near : forall r', tri_intersect tr r = (true, r') -> A <> 0 ->
    exists w1 w2 T,
      rx o + T * rx d = (1 - w1 - w2) * rx v0 + w1 * rx v1 + w2 * rx v2 /\
      ry o + T * ry d = (1 - w1 - w2) * ry v0 + w1 * ry v1 + w2 * ry v2 /\
      rz o + T * rz d = (1 - w1 - w2) * rz v0 + w1 * rz v1 + w2 * rz v2 /\
      - (379 * ue * S / Rabs A) <= w1 /\ - (379 * ue * S / Rabs A) <= w2 /\ w1 + w2 <= 1 + 2 * (379 * ue * S / Rabs A) + 2 * ue /\
      fin (r_t r') /\ Rabs (fr (r_t r') - T) <= ue * (S * (165 * Rabs (fr (r_t r')) + 1) + 472 * S3) / Rabs A.
  Proof.
    intros r' Hit NZ. destruct (tri_intersect_true _ _ _ Hit) as (Ka & Ku0 & Ku1 & Kv0 & Kuv & _ & _ & Er).
    fold e1 e2 in Ka, Ku0, Ku1, Kv0, Kuv, Er. fold h in Ka, Ku0, Ku1, Kv0, Kuv, Er. fold a s in Ka, Ku0, Ku1, Kv0, Kuv, Er.
    fold q in Ku0, Ku1, Kv0, Kuv, Er. fold nu nv nt in Ku0, Ku1, Kv0, Kuv, Er. fold u v t in Ku0, Ku1, Kv0, Kuv, Er.
    pose proof (accepted Ka) as La. pose proof eps_20 as L20.
    assert (r_t r' = t) as -> by (rewrite Er; reflexivity). apply accepted_near; auto. lra.
  Qed.

  (** The same for a lane of the packet test, with its threshold 1e-6. *)
  Lemma eps6_20 : bpow radix2 (-20) <= fr f1em6.
  Proof. rewrite fr_fin by reflexivity. cbn [B2R f1em6]. unfold F2R. simpl. lra. Qed.
  Lemma accepted6 : (fle a (fneg f1em6) || fge a f1em6) = true -> bpow radix2 (-20) <= Rabs (fr a).
  Proof.
    intro K. pose proof a_ap as (Fa & _ & _). pose proof (fin_notnan _ Fa) as Na.
    assert (notnan f1em6) as Ne by reflexivity. destruct (fr_neg f1em6 Ne) as [Nn En]. pose proof eps6_20 as L.
    apply orb_true_iff in K as [K|K].
    - apply fle_spec in K; auto. rewrite En in K. rewrite <- Rabs_Ropp. eapply Rle_trans; [|apply Rle_abs]. lra.
    - unfold fge in K. change (fle f1em6 a = true) in K. apply fle_spec in K; auto. eapply Rle_trans; [|apply Rle_abs]. lra.
  Qed.
  Lemma lane_near : forall z, lane_test (tv0 tr) (tv1 tr) (tv2 tr) (r_origin r) (r_dir r) (r_tmin r) (r_t r) = Some z -> A <> 0 ->
    exists w1 w2 T,
      rx o + T * rx d = (1 - w1 - w2) * rx v0 + w1 * rx v1 + w2 * rx v2 /\
      ry o + T * ry d = (1 - w1 - w2) * ry v0 + w1 * ry v1 + w2 * ry v2 /\
      rz o + T * rz d = (1 - w1 - w2) * rz v0 + w1 * rz v1 + w2 * rz v2 /\
      - (379 * ue * S / Rabs A) <= w1 /\ - (379 * ue * S / Rabs A) <= w2 /\ w1 + w2 <= 1 + 2 * (379 * ue * S / Rabs A) + 2 * ue /\
      fin z /\ Rabs (fr z - T) <= ue * (S * (165 * Rabs (fr z) + 1) + 472 * S3) / Rabs A.
  Proof.
    intros z Hit NZ. unfold lane_test, lane_test_with in Hit. cbv zeta in Hit.
    match type of Hit with (if ?b then _ else _) = _ => destruct b eqn:K; try discriminate end.
    fold e1 e2 in Hit, K. fold h in Hit, K. fold a s in Hit, K. fold q in Hit, K. fold nu nv nt in Hit, K. fold u v t in Hit, K.
    assert (z = t) as -> by congruence. clear Hit.
    apply andb_true_iff in K as [K _]. apply andb_true_iff in K as [K K3]. apply andb_true_iff in K as [K1 K2].
    apply andb_true_iff in K2 as [U0 U1]. apply andb_true_iff in K3 as [V0 V1]. pose proof (accepted6 K1) as La.
    destruct (coords_err La) as ((Fu & _) & (Fv & _) & _). pose proof (fin_notnan _ Fu) as Nu. pose proof (fin_notnan _ Fv) as Nv.
    destruct (fr_fadd u v Fu Fv) as [Ns _].
    unfold fge in U0, V0. change (fle f0 u = true) in U0. change (fle f0 v = true) in V0.
    apply accepted_near; auto.
    - apply flt_false; [auto|reflexivity|]. apply fle_spec in V0; [|reflexivity|auto]. exact V0.
    - change (flt f1 (fadd u v) = false). apply flt_false; [reflexivity|auto|]. apply fle_spec in V1; [|auto|reflexivity]. exact V1.
  Qed.

  (** Whatever is well inside is reported. *)
  Lemma near_hit : forall w0 w1 w2 T, w0 + w1 + w2 = 1 ->
    rx o + T * rx d = w0 * rx v0 + w1 * rx v1 + w2 * rx v2 ->
    ry o + T * ry d = w0 * ry v0 + w1 * ry v1 + w2 * ry v2 ->
    rz o + T * rz d = w0 * rz v0 + w1 * rz v1 + w2 * rz v2 ->
    let margin := Rabs A - 165 * ue * S in
    fr f1em5 <= margin ->
    let e := 379 * ue * S / margin in 2 * e <= w0 -> 2 * e <= w1 -> 2 * e <= w2 ->
    let et := ue * (S * (165 * Rabs T + 1) + 472 * S3) / margin in
    fin (r_tmin r) -> fin (r_t r) -> fr (r_tmin r) < T - et -> T + et < fr (r_t r) ->
    exists r', tri_intersect tr r = (true, r') /\ fin (r_t r') /\ Rabs (fr (r_t r') - T) <= et.
  Proof.
    intros w0 w1 w2 T Sw Hx Hy Hz margin Lm e L0 L1 L2 et Fmin Fmax Lmin Lmax.
    assert (w0 = 1 - w1 - w2) as Ew by lra. subst w0.
    destruct (cramer_unique v0 v1 v2 o d (/ 100000) T w1 w2 Hx Hy Hz) as (EW & EU & EV).
    fold E1 E2 Os in EW, EU, EV. fold H Q A in EW, EU, EV. fold U V W in EW, EU, EV.
    pose proof a_ap as (Fa & Ea & _). pose proof eps_20 as L20. pose proof (bpow_gt_0 radix2 (-20)) as P20.
    assert (margin <= Rabs (fr a)) as La.
    { unfold margin. pose proof (Rabs_triang (fr a) (A - fr a)) as Tr. replace (fr a + (A - fr a)) with A in Tr by ring.
      rewrite (Rabs_minus_sym A) in Tr. lra. }
    destruct (coords_err ltac:(lra)) as ((Fu & Eu) & (Fv & Ev) & (Ft & Et)). pose proof sS as [S1 _]. pose proof ue_bounds as Ub.
    assert (0 < margin) as Pm by lra. assert (0 < ue * S) as PuS by nra.
    assert (0 <= e) as Pe by (unfold e; apply Rmult_le_pos; [nra|apply Rlt_le, Rinv_0_lt_compat; auto]).
    assert (forall x X k : R, Rabs (x * A - X * A) <= ue * S * 165 * Rabs x + k -> Rabs (x - X) * margin <= ue * S * 165 * Rabs X + k) as G.
    { intros x X k Ex. replace (x * A - X * A) with ((x - X) * A) in Ex by ring. rewrite Rabs_mult in Ex.
      pose proof (Rabs_triang (x - X) X) as Tr. replace (x - X + X) with x in Tr by ring. unfold margin.
      pose proof (Rabs_pos (x - X)). assert (ue * S * 165 * Rabs x <= ue * S * 165 * (Rabs (x - X) + Rabs X)) by (apply Rmult_le_compat_l; lra).
      lra. }
    rewrite EU in Eu. rewrite EV in Ev. rewrite EW in Et.
    assert (forall x X, 0 <= X <= 1 -> Rabs (x * A - X * A) <= ue * S * (165 * Rabs x + 214) -> Rabs (x - X) <= e) as G1.
    { intros x X LX Ex. apply Rmult_le_reg_r with margin; auto. unfold e. unfold Rdiv. rewrite Rmult_assoc, Rinv_l, Rmult_1_r by lra.
      eapply Rle_trans; [apply (G x X (ue * S * 214)); lra|]. rewrite (Rabs_pos_eq X) by lra.
      assert (ue * S * 165 * X <= ue * S * 165 * 1) by (apply Rmult_le_compat_l; lra). lra. }
    assert (0 <= w1 <= 1) as I1 by lra. assert (0 <= w2 <= 1) as I2 by lra. pose proof (G1 _ _ I1 Eu) as Gu. pose proof (G1 _ _ I2 Ev) as Gv. apply Rabs_le_inv in Gu. apply Rabs_le_inv in Gv.
    assert (Rabs (fr t - T) <= et) as Gt.
    { apply Rmult_le_reg_r with margin; auto. unfold et. unfold Rdiv. rewrite Rmult_assoc, Rinv_l, Rmult_1_r by lra.
      eapply Rle_trans; [apply (G (fr t) T (ue * (S + 472 * S3))); lra|]. lra. }
    exists (ray_set_t r t). split; [|split; [exact Ft|exact Gt]]. apply Rabs_le_inv in Gt.
    pose proof (fin_notnan _ Fu) as Nu. pose proof (fin_notnan _ Fv) as Nv. pose proof (fin_notnan _ Ft) as Nt. pose proof (fin_notnan _ Fa) as Na.
    destruct (fr_fadd u v Fu Fv) as [Ns Es]. assert (notnan f1em5) as Ne by reflexivity. destruct (fr_neg f1em5 Ne) as [Nn En].
    apply tri_intersect_intro; fold e1 e2; fold h; fold a s; fold q; fold nu nv nt; fold u v t.
    - apply andb_false_iff. assert (fr f1em5 <= Rabs (fr a)) as K by lra. unfold Rabs in K. destruct (Rcase_abs (fr a)).
      + left. change (flt (fneg f1em5) a = false). apply flt_false; auto. rewrite En. lra.
      + right. apply flt_false; auto.
    - apply fle_spec; [reflexivity|auto|]. rewrite fr_zero. lra.
    - apply fle_spec; [auto|reflexivity|]. rewrite fr_one. lra.
    - apply flt_false; [auto|reflexivity|]. rewrite fr_zero. lra.
    - change (flt f1 (fadd u v) = false). apply flt_false; [reflexivity|auto|]. rewrite Es. apply RN_le_fr; [reflexivity|]. rewrite fr_one. lra.
    - apply flt_spec; [apply fin_notnan; auto|auto|lra].
    - apply flt_spec; [auto|apply fin_notnan; auto|lra].
  Qed.
End Test.
