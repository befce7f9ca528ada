(** * Rounding errors of the camera's direction *)
Require Import List ZArith Bool Reals Lia Lra Psatz.
From Flocq Require Import Core BinarySingleNaN Relative.
From Verif Require Import F32 F32Facts Vec RayModel SpecGeom TriModel SpecTri TriProofs TriError CameraModel.
Local Open Scope R_scope.

Lemma fr_fsqrt : forall x : f32, fin x -> 0 < fr x -> fin (fsqrt x) /\ fr (fsqrt x) = rnd (sqrt (fr x)).
Proof.
  intros x F P. destruct (@Bsqrt_correct 24 128 Hp32 Hm32 mode_NE x) as (A & B & _). fold (fsqrt x) in A, B.
  assert (fin (fsqrt x)) as G.
  { rewrite B. rewrite fr_fin in P by auto. destruct x as [s|s| |s m e Hb]; auto; try discriminate.
    destruct s; auto. exfalso. revert P. unfold B2R. apply Rle_not_lt. apply F2R_le_0. cbn. lia. }
  split; [exact G|]. rewrite (fr_fin _ G), (fr_fin _ F). exact A.
Qed.

Definition sq (w : vec3) : R := fr (vx w) * fr (vx w) + fr (vy w) * fr (vy w) + fr (vz w) * fr (vz w).

Lemma eta : bpow radix2 (-150) <= / 1000 * ue * bpow radix2 (-60).
Proof.
  assert (bpow radix2 (-150) = bpow radix2 (-90) * bpow radix2 (-60)) as -> by (rewrite <- bpow_plus; reflexivity).
  apply Rmult_le_compat_r; [apply bpow_ge_0|]. unfold ue. simpl. lra.
Qed.

(** One rounded operation, in terms of a bound on its exact value. *)
Lemma rnd_step : forall (z : f32) r M, notnan z -> fr z = RN r -> Rabs r <= M -> M <= bpow radix2 127 ->
  fin z /\ Rabs (fr z - r) <= ue * Rabs r + bpow radix2 (-150).
Proof.
  intros z r M N E B L. assert (Rabs r <= bpow radix2 127) as B' by lra.
  split; [apply (fin_of_RN z r N E B')|]. rewrite E. destruct (RN_small r B') as [-> _]. apply rnd_err.
Qed.

Lemma dot_err : forall w : vec3, fin (vx w) -> fin (vy w) -> fin (vz w) ->
  bpow radix2 (-60) <= sq w <= bpow radix2 100 ->
  fin (vdot w w) /\ Rabs (fr (vdot w w) - sq w) <= 7 / 2 * ue * sq w.
Proof.
  intros w F1 F2 F3 [Lo Hi]. unfold vdot.
  set (a := fr (vx w)) in *. set (b := fr (vy w)) in *. set (c := fr (vz w)) in *.
  assert (sq w = a * a + b * b + c * c) as E by reflexivity. rewrite E in *. clear E.
  pose proof ue_bounds as U. pose proof eta as H150.
  set (eps := bpow radix2 (-150)) in *. set (lo := bpow radix2 (-60)) in *.
  assert (0 <= eps) by apply bpow_ge_0. assert (0 < lo) by apply bpow_gt_0.
  assert (bpow radix2 101 <= bpow radix2 127) as LL by (apply bpow_le; lia).
  assert (bpow radix2 101 = 2 * bpow radix2 100) as E101 by (change 101%Z with (1 + 100)%Z; rewrite bpow_plus; reflexivity).
  assert (0 < bpow radix2 100) as PH by apply bpow_gt_0. set (hi := bpow radix2 100) in *.
  assert (0 <= a * a) by apply Rle_0_sqr. assert (0 <= b * b) by apply Rle_0_sqr. assert (0 <= c * c) by apply Rle_0_sqr.
  destruct (fr_fmul _ _ F1 F1) as [N1 E1]. destruct (fr_fmul _ _ F2 F2) as [N2 E2]. destruct (fr_fmul _ _ F3 F3) as [N3 E3].
  fold a in E1. fold b in E2. fold c in E3.
  destruct (rnd_step _ _ hi N1 E1) as [G1 R1]; [rewrite Rabs_pos_eq; lra|lra|].
  destruct (rnd_step _ _ hi N2 E2) as [G2 R2]; [rewrite Rabs_pos_eq; lra|lra|].
  destruct (rnd_step _ _ hi N3 E3) as [G3 R3]; [rewrite Rabs_pos_eq; lra|lra|].
  fold eps in R1, R2, R3. rewrite (Rabs_pos_eq (a * a)) in R1 by lra. rewrite (Rabs_pos_eq (b * b)) in R2 by lra. rewrite (Rabs_pos_eq (c * c)) in R3 by lra.
  destruct (fr_fadd _ _ G1 G2) as [N4 E4].
  set (p := fr (fmul (vx w) (vx w))) in *. set (q := fr (fmul (vy w) (vy w))) in *. set (r := fr (fmul (vz w) (vz w))) in *.
  apply Rabs_le_inv in R1. apply Rabs_le_inv in R2. apply Rabs_le_inv in R3.
  set (Q := a * a + b * b + c * c) in *.
  assert (eps <= / 1000 * ue * Q) as HE by nra.
  assert (Rabs (p + q) <= (1 + / 1000) * Q) as BPQ by (apply Rabs_le; unfold Q in *; split; nra).
  destruct (rnd_step _ _ _ N4 E4 BPQ) as [G4 R4]; [nra|]. fold eps in R4.
  set (s := fr (fadd (fmul (vx w) (vx w)) (fmul (vy w) (vy w)))) in *.
  assert (Rabs (s - (p + q)) <= 1002 / 1000 * ue * Q) as R4' by nra. clear R4. apply Rabs_le_inv in R4'.
  destruct (fr_fadd _ _ G4 G3) as [N5 E5]. fold s r in E5.
  assert (s + r - Q <= 2006 / 1000 * ue * Q /\ - (2006 / 1000 * ue * Q) <= s + r - Q) as [D1 D2] by (unfold Q in *; split; lra).
  assert (Rabs (s + r) <= (1 + / 1000) * Q) as BS by (apply Rabs_le; split; nra).
  destruct (rnd_step _ _ _ N5 E5 BS) as [G5 R5]; [nra|]. fold eps in R5.
  split; [exact G5|].
  assert (Rabs (fr (fadd (fadd (fmul (vx w) (vx w)) (fmul (vy w) (vy w))) (fmul (vz w) (vz w))) - (s + r)) <= 1002 / 1000 * ue * Q) as R5' by nra.
  apply Rabs_le_inv in R5'. apply Rabs_le. split; nra.
Qed.

Lemma normalize_err : forall w : vec3, fin (vx w) -> fin (vy w) -> fin (vz w) ->
  bpow radix2 (-60) <= sq w <= bpow radix2 100 ->
  forall g, g = vx \/ g = vy \/ g = vz ->
  fin (g (vnormalize w)) /\ Rabs (fr (g (vnormalize w)) - fr (g w) / sqrt (sq w)) <= 7 * ue.
Proof.
  intros w F1 F2 F3 Hq g Hg. destruct (dot_err w F1 F2 F3 Hq) as [FS ES].
  pose proof ue_bounds as U. destruct Hq as [Lo Hi].
  set (Q := sq w) in *. set (s := vdot w w) in *.
  assert (0 < bpow radix2 (-60)) as Plo by apply bpow_gt_0.
  assert (0 < Q) as PQ by lra.
  apply Rabs_le_inv in ES.
  assert (0 < fr s) as PS by nra.
  set (N := sqrt Q). assert (0 < N) as PN by (apply sqrt_lt_R0; auto).
  assert (N * N = Q) as NN by (apply sqrt_sqrt; lra).
  assert (bpow radix2 (-30) <= N) as NLo.
  { unfold N. rewrite <- (sqrt_square (bpow radix2 (-30))) by apply bpow_ge_0. apply sqrt_le_1_alt. rewrite <- bpow_plus. exact Lo. }
  assert (N <= bpow radix2 50) as NHi.
  { unfold N. rewrite <- (sqrt_square (bpow radix2 50)) by apply bpow_ge_0. apply sqrt_le_1_alt. rewrite <- bpow_plus. exact Hi. }
  destruct (fr_fsqrt s FS PS) as [FQ EQ].
  set (T := sqrt (fr s)) in *. assert (0 < T) as PT by (apply sqrt_lt_R0; auto).
  assert (T * T = fr s) as TT by (apply sqrt_sqrt; lra).
  assert (T <= N * (1 + 9 / 5 * ue)) as T1.
  { apply Rnot_lt_le. intro C. assert (0 <= N * (1 + 9 / 5 * ue)) as Z by nra.
    pose proof (Rmult_le_0_lt_compat _ _ _ _ Z Z C C) as K. rewrite TT in K.
    assert (N * (1 + 9 / 5 * ue) * (N * (1 + 9 / 5 * ue)) = Q * (1 + 18 / 5 * ue + 81 / 25 * (ue * ue))) as E by (rewrite <- NN; field).
    rewrite E in K. clear E. assert (0 <= Q * (ue * ue)) by (apply Rmult_le_pos; [lra|apply Rle_0_sqr]). nra. }
  assert (N * (1 - 9 / 5 * ue) <= T) as T2.
  { apply Rnot_lt_le. intro C. assert (0 <= T) as Z by lra.
    pose proof (Rmult_le_0_lt_compat _ _ _ _ Z Z C C) as K. rewrite TT in K.
    assert (N * (1 - 9 / 5 * ue) * (N * (1 - 9 / 5 * ue)) = Q * (1 - 18 / 5 * ue + 81 / 25 * (ue * ue))) as E by (rewrite <- NN; field).
    rewrite E in K. clear E. assert (Q * (ue * ue) <= Q * (/ 1000000 * ue)) by (apply Rmult_le_compat_l; [lra|apply Rmult_le_compat_r; lra]). nra. }
  assert (bpow radix2 (-126) <= Rabs T) as TB.
  { rewrite Rabs_pos_eq by lra. assert (bpow radix2 (-126) <= bpow radix2 (-31)) by (apply bpow_le; lia).
    assert (bpow radix2 (-30) = 2 * bpow radix2 (-31)) by (change (-30)%Z with (1 + -31)%Z; rewrite bpow_plus; reflexivity). nra. }
  destruct (rnd_rel T TB) as (e3 & He3 & E3). rewrite E3 in EQ. apply Rabs_le_inv in He3.
  set (q := fr (fsqrt s)) in *.
  assert (q <= N * (1 + 3 * ue)) as Q1 by nra.
  assert (N * (1 - 3 * ue) <= q) as Q2 by nra.
  assert (0 < q) as Pq by nra.
  assert (fin f1) as Ff1 by reflexivity.
  destruct (fr_fdiv f1 (fsqrt s) Ff1 FQ) as [NI EI]; [fold q; lra|].
  assert (fr f1 = 1) as Ef1 by (simpl; unfold F2R; simpl; lra). rewrite Ef1 in EI. fold q in EI.
  assert (0 < / q) as PI by (apply Rinv_0_lt_compat; auto).
  assert (/ q * q = 1) as IQ by (apply Rinv_l; lra).
  assert (1 / q = / q) as E1q by lra. rewrite E1q in EI.
  assert (N * / q <= 1 + 4 * ue) as I1.
  { apply Rmult_le_reg_r with q; auto. rewrite Rmult_assoc, IQ. nra. }
  assert (1 - 4 * ue <= N * / q) as I2.
  { apply Rmult_le_reg_r with q; auto. rewrite Rmult_assoc, IQ. nra. }
  assert (/ q <= bpow radix2 31) as I3.
  { assert (bpow radix2 31 * bpow radix2 (-30) = 2) as E by (rewrite <- bpow_plus; reflexivity). pose proof (bpow_gt_0 radix2 31).
    apply Rmult_le_reg_r with q; auto. rewrite IQ. assert (bpow radix2 31 * bpow radix2 (-30) <= bpow radix2 31 * N) by (apply Rmult_le_compat_l; lra).
    assert (bpow radix2 31 * (N * (1 - 3 * ue)) <= bpow radix2 31 * q) by (apply Rmult_le_compat_l; lra). nra. }
  assert (bpow radix2 (-51) <= / q) as I4.
  { assert (bpow radix2 (-51) * bpow radix2 50 = / 2) as E by (rewrite <- bpow_plus; reflexivity). pose proof (bpow_gt_0 radix2 (-51)).
    apply Rmult_le_reg_r with q; auto. rewrite IQ. assert (bpow radix2 (-51) * N <= bpow radix2 (-51) * bpow radix2 50) by (apply Rmult_le_compat_l; lra).
    assert (bpow radix2 (-51) * q <= bpow radix2 (-51) * (N * (1 + 3 * ue))) by (apply Rmult_le_compat_l; lra). nra. }
  assert (Rabs (/ q) <= bpow radix2 127) as BI by (rewrite Rabs_pos_eq by lra; eapply Rle_trans; [exact I3|apply bpow_le; lia]).
  pose proof (fin_of_RN _ _ NI EI BI) as FI.
  destruct (RN_small _ BI) as [ERN _]. rewrite ERN in EI.
  assert (bpow radix2 (-126) <= Rabs (/ q)) as BI2 by (rewrite Rabs_pos_eq by lra; eapply Rle_trans; [|exact I4]; apply bpow_le; lia).
  destruct (rnd_rel _ BI2) as (e4 & He4 & E4). rewrite E4 in EI. apply Rabs_le_inv in He4.
  set (v := fr (fdiv f1 (fsqrt s))) in *.
  assert (N * v <= 1 + 51 / 10 * ue) as V1 by (rewrite EI; assert (N * (/ q * (1 + e4)) = (N * / q) * (1 + e4)) as -> by ring; nra).
  assert (1 - 51 / 10 * ue <= N * v) as V2 by (rewrite EI; assert (N * (/ q * (1 + e4)) = (N * / q) * (1 + e4)) as -> by ring; nra).
  assert (fin (g w) /\ fr (g w) * fr (g w) <= Q /\ g (vnormalize w) = fmul (g w) (fdiv f1 (fsqrt s))) as (Fg & Bg & Eg).
  { unfold Q, sq. pose proof (Rle_0_sqr (fr (vx w))). pose proof (Rle_0_sqr (fr (vy w))). pose proof (Rle_0_sqr (fr (vz w))). unfold Rsqr in *.
    destruct Hg as [-> | [-> | ->]]; (split; [assumption|split; [lra|reflexivity]]). }
  rewrite Eg. set (a := fr (g w)) in *.
  assert (Rabs a <= N) as An.
  { apply Rabs_le. assert (a * a <= N * N) by lra. split; nra. }
  set (x := a / N). assert (a = x * N) as Ax by (unfold x; field; lra).
  assert (Rabs x <= 1) as Xn.
  { unfold x, Rdiv. rewrite Rabs_mult, (Rabs_pos_eq (/ N)) by (apply Rlt_le, Rinv_0_lt_compat; auto).
    apply Rmult_le_reg_r with N; auto. rewrite Rmult_assoc, Rinv_l by lra. lra. }
  destruct (fr_fmul _ _ Fg FI) as [NM EM]. fold a v in EM.
  assert (a * v = x * (N * v)) as Eav by (rewrite Ax; ring). rewrite Eav in EM.
  set (y := N * v) in *.
  assert (Rabs (y - 1) <= 51 / 10 * ue) as Yn by (apply Rabs_le; lra).
  assert (Rabs (x * y) <= 1001 / 1000) as Bxy.
  { rewrite Rabs_mult. pose proof (Rabs_pos x). assert (Rabs y <= 1001 / 1000) by (apply Rabs_le; lra). pose proof (Rabs_pos y).
    replace (1001 / 1000) with (1 * (1001 / 1000)) by ring. apply Rmult_le_compat; lra. }
  assert (2 <= bpow radix2 127) as L127 by (change 2 with (bpow radix2 1); apply bpow_le; lia).
  destruct (rnd_step _ _ 2 NM EM ltac:(lra) L127) as [FM RM].
  split; [exact FM|]. fold N. fold x.
  assert (bpow radix2 (-150) <= / 1000 * ue) as H150.
  { eapply Rle_trans; [apply eta|]. assert (bpow radix2 (-60) <= 1) as B by (change 1 with (bpow radix2 0); apply bpow_le; lia).
    rewrite <- (Rmult_1_r (/ 1000 * ue)) at 2. apply Rmult_le_compat_l; lra. }
  assert (ue * Rabs (x * y) <= ue * (1001 / 1000)) as K by (apply Rmult_le_compat_l; lra).
  assert (Rabs (x * y - x) <= 51 / 10 * ue) as D.
  { replace (x * y - x) with (x * (y - 1)) by ring. rewrite Rabs_mult. pose proof (Rabs_pos (y - 1)). pose proof (Rabs_pos x).
    replace (51 / 10 * ue) with (1 * (51 / 10 * ue)) by ring. apply Rmult_le_compat; lra. }
  set (z := fr (fmul (g w) (fdiv f1 (fsqrt s)))) in *.
  replace (z - x) with ((z - x * y) + (x * y - x)) by ring. eapply Rle_trans; [apply Rabs_triang|]. lra.
Qed.

(** ** From the exact pixel to the ray *)
Lemma fr_of_u32 : forall x : Z, (0 <= x < 4294967296)%Z ->
  fin (f_of_Z x) /\ Rabs (fr (f_of_Z x) - IZR x) <= ue * IZR x.
Proof.
  intros x [A B]. pose proof (binary_normalize_correct 24 128 Hp32 Hm32 mode_NE x 0 false) as H. cbv zeta in H. fold (f_of_Z x) in H.
  assert (F2R (Float radix2 x 0) = IZR x) as E by (unfold F2R; simpl; ring). rewrite E in H. fold (rnd (IZR x)) in H.
  assert (0 <= IZR x) as P by (apply (IZR_le 0); auto).
  assert (IZR x <= bpow radix2 32) as Q by (change (bpow radix2 32) with (IZR 4294967296); apply IZR_le; lia).
  assert (Rabs (IZR x) <= bpow radix2 127) as L by (rewrite Rabs_pos_eq by auto; eapply Rle_trans; [exact Q|apply bpow_le; lia]).
  destruct (RN_small _ L) as [_ L']. rewrite Rlt_bool_true in H by (eapply Rle_lt_trans; [exact L'|apply bpow_lt; lia]).
  destruct H as (H1 & H2 & _). split; [exact H2|]. rewrite fr_fin, H1 by exact H2.
  destruct (Z.eq_dec x 0) as [-> |N].
  - rewrite rnd_0. rewrite Rminus_0_r, Rabs_R0. lra.
  - assert (1 <= IZR x) as P1 by (apply (IZR_le 1); lia).
    destruct (rnd_rel (IZR x)) as (e & He & Ee).
    { rewrite Rabs_pos_eq by auto. apply Rle_trans with (bpow radix2 0); [apply bpow_le; lia|exact P1]. }
    rewrite Ee. replace (IZR x * (1 + e) - IZR x) with (e * IZR x) by ring. rewrite Rabs_mult, (Rabs_pos_eq (IZR x)) by auto.
    apply Rmult_le_compat_r; auto.
Qed.

Lemma scale1 : scale 1.
Proof. unfold scale. split; [lra|]. change 1 with (bpow radix2 0). apply bpow_le. lia. Qed.

Lemma uv_err : forall (x : Z) (iw : f32), (0 <= x < 4294967296)%Z -> fin iw -> 0 <= fr iw -> IZR x * fr iw <= 1 ->
  approx 1 (fmul (f_of_Z x) iw) (IZR x * fr iw) (21 / 10) 1.
Proof.
  intros x iw Hx Fi Pi L. destruct (fr_of_u32 x Hx) as [Fx Ex]. destruct (fr_fmul _ _ Fx Fi) as [N E].
  assert (0 <= IZR x) as P by (apply (IZR_le 0); lia). pose proof ue_bounds as U.
  assert (0 <= IZR x * fr iw) as P' by (apply Rmult_le_pos; auto).
  assert (Rabs (fr (f_of_Z x) * fr iw - IZR x * fr iw) <= ue) as D.
  { replace (fr (f_of_Z x) * fr iw - IZR x * fr iw) with ((fr (f_of_Z x) - IZR x) * fr iw) by ring. rewrite Rabs_mult, (Rabs_pos_eq (fr iw)) by auto.
    apply Rle_trans with (ue * IZR x * fr iw); [apply Rmult_le_compat_r; auto|]. rewrite Rmult_assoc.
    rewrite <- (Rmult_1_r ue) at 2. apply Rmult_le_compat_l; lra. }
  assert (approx 1 (fmul (f_of_Z x) iw) (IZR x * fr iw) (1 + 1001 / 1000 + / 1000000) 1) as (F & G & H).
  { eapply approx_rnd; [apply scale1|exact N|exact E|apply rnd_err| |lra| |].
    - apply Rabs_le. apply Rabs_le_inv in D. lra.
    - lra.
    - rewrite Rabs_pos_eq; lra. }
  split; [auto|]. split; [|auto]. lra.
Qed.

(** A computed vector [seen_vec] near an exact vector [target] that is not too
    short: its normalisation is near the exact unit vector. *)
Section Near.
Variables (seen_vec : vec3) (target : (vec3 -> f32) -> R) (Sz : R).
Hypothesis HS : 1 <= Sz <= bpow radix2 40.
Hypothesis seen_err : forall g, g = vx \/ g = vy \/ g = vz ->
  fin (g seen_vec) /\ Rabs (fr (g seen_vec) - target g) <= 20 * ue * Sz /\ Rabs (target g) <= 4 * Sz.
Definition dist2_of : R := target vx * target vx + target vy * target vy + target vz * target vz.
Hypothesis HL : Sz / 1024 <= sqrt dist2_of.

Lemma abs_coord : forall a b d L, 0 <= L -> L * L = a * a + b * b + d * d ->
  Rabs a <= L /\ Rabs b <= L /\ Rabs d <= L /\ Rabs a + Rabs b + Rabs d <= 2 * L.
Proof.
  intros a b d L P E.
  assert (forall t, Rabs t * Rabs t = t * t) as Q by (intro t; rewrite <- Rabs_mult; apply Rabs_pos_eq, Rle_0_sqr).
  pose proof (Q a). pose proof (Q b). pose proof (Q d).
  pose proof (Rabs_pos a). pose proof (Rabs_pos b). pose proof (Rabs_pos d).
  set (u := Rabs a) in *. set (v := Rabs b) in *. set (w := Rabs d) in *.
  assert (L * L = u * u + v * v + w * w) as E' by lra. clear E Q H H0 H1.
  split; [nra|]. split; [nra|]. split; [nra|].
  apply Rnot_lt_le. intro C.
  assert (0 <= 2 * L) as Z by lra.
  pose proof (Rmult_le_0_lt_compat _ _ _ _ Z Z C C) as K. pose proof (Rle_0_sqr (u - v)). pose proof (Rle_0_sqr (u - w)). pose proof (Rle_0_sqr (v - w)).
  unfold Rsqr in *. nra.
Qed.

Lemma near_range : fin (vx seen_vec) /\ fin (vy seen_vec) /\ fin (vz seen_vec) /\
  bpow radix2 (-60) <= sq seen_vec <= bpow radix2 100.
Proof.
  pose proof (seen_err vx (or_introl eq_refl)) as (F1 & E1 & _).
  pose proof (seen_err vy (or_intror (or_introl eq_refl))) as (F2 & E2 & _).
  pose proof (seen_err vz (or_intror (or_intror eq_refl))) as (F3 & E3 & _).
  pose proof ue_bounds as U.
  set (W1 := target vx) in *. set (W2 := target vy) in *. set (W3 := target vz) in *.
  set (w1 := fr (vx seen_vec)) in *. set (w2 := fr (vy seen_vec)) in *. set (w3 := fr (vz seen_vec)) in *.
  set (L := sqrt dist2_of) in *. assert (dist2_of = W1 * W1 + W2 * W2 + W3 * W3) as ED by reflexivity.
  assert (0 < L) as PL by lra.
  assert (0 <= dist2_of) as PD by (rewrite ED; pose proof (Rle_0_sqr W1); pose proof (Rle_0_sqr W2); pose proof (Rle_0_sqr W3); unfold Rsqr in *; lra).
  assert (L * L = W1 * W1 + W2 * W2 + W3 * W3) as LL by (rewrite <- ED; apply sqrt_sqrt; auto).
  assert (sq seen_vec = w1 * w1 + w2 * w2 + w3 * w3) as EQ by reflexivity.
  set (l := sqrt (sq seen_vec)). assert (0 <= l) as Pl by apply sqrt_pos.
  assert (l * l = w1 * w1 + w2 * w2 + w3 * w3) as ll.
  { rewrite <- EQ. apply sqrt_sqrt. rewrite EQ. pose proof (Rle_0_sqr w1); pose proof (Rle_0_sqr w2); pose proof (Rle_0_sqr w3); unfold Rsqr in *; lra. }
  destruct (abs_coord _ _ _ _ (Rlt_le _ _ PL) LL) as (A1 & A2 & A3 & A4).
  destruct (abs_coord _ _ _ _ Pl ll) as (B1 & B2 & B3 & B4).
  set (dl := 20 * ue * Sz) in *.
  assert (0 < dl) as Pd by (unfold dl; apply Rmult_lt_0_compat; lra).
  assert (Rabs (l - L) <= 2 * dl) as Dl.
  { assert (Rabs (l - L) * (l + L) <= (2 * dl) * (l + L)) as M.
    { rewrite <- (Rabs_pos_eq (l + L)) at 1 by lra. rewrite <- Rabs_mult.
      replace ((l - L) * (l + L)) with ((w1 - W1) * (w1 + W1) + (w2 - W2) * (w2 + W2) + (w3 - W3) * (w3 + W3)).
      2: { transitivity (l * l - L * L); [rewrite ll, LL; ring|ring]. }
      assert (forall p q, Rabs (p - q) <= dl -> Rabs ((p - q) * (p + q)) <= dl * (Rabs p + Rabs q)) as T.
      { intros p q H. rewrite Rabs_mult. apply Rmult_le_compat; auto using Rabs_pos. apply Rabs_triang. }
      pose proof (T _ _ E1). pose proof (T _ _ E2). pose proof (T _ _ E3).
      eapply Rle_trans; [eapply Rle_trans; [apply Rabs_triang|apply Rplus_le_compat_r, Rabs_triang]|].
      assert (dl * (Rabs w1 + Rabs w2 + Rabs w3 + (Rabs W1 + Rabs W2 + Rabs W3)) <= dl * (2 * l + 2 * L)) as Z by (apply Rmult_le_compat_l; lra).
      lra. }
    apply Rmult_le_reg_r with (l + L); lra. }
  apply Rabs_le_inv in Dl.
  assert (2 * dl <= Sz / 2048) as Ld by (unfold dl, ue; lra).
  assert (Sz / 2048 <= l) as Ll by lra.
  split; [exact F1|]. split; [exact F2|]. split; [exact F3|].
  { rewrite EQ, <- ll. split.
    - assert (bpow radix2 (-30) <= l) as K.
      { apply Rle_trans with (/ 2048); [simpl; lra|lra]. }
      replace (bpow radix2 (-60)) with (bpow radix2 (-30) * bpow radix2 (-30)) by (rewrite <- bpow_plus; reflexivity).
      apply Rmult_le_compat; auto using bpow_ge_0.
    - pose proof (seen_err vx (or_introl eq_refl)) as (_ & _ & T1). pose proof (seen_err vy (or_intror (or_introl eq_refl))) as (_ & _ & T2).
      pose proof (seen_err vz (or_intror (or_intror eq_refl))) as (_ & _ & T3). fold W1 in T1. fold W2 in T2. fold W3 in T3.
      assert (L <= 12 * Sz) as K1.
      { apply Rnot_lt_le. intro C. assert (0 <= 12 * Sz) as Z by lra. pose proof (Rmult_le_0_lt_compat _ _ _ _ Z Z C C) as K. rewrite LL in K.
        assert (forall t, Rabs t <= 4 * Sz -> t * t <= 16 * (Sz * Sz)) as T.
        { intros t Ht. assert (Rabs t * Rabs t <= (4 * Sz) * (4 * Sz)) as J by (apply Rmult_le_compat; auto using Rabs_pos).
          rewrite <- Rabs_mult, (Rabs_pos_eq (t * t)) in J by apply Rle_0_sqr. lra. }
        pose proof (T _ T1). pose proof (T _ T2). pose proof (T _ T3). pose proof (Rle_0_sqr Sz). unfold Rsqr in *. lra. }
      assert (l <= bpow radix2 50) as K2.
      { assert (bpow radix2 50 = 1024 * bpow radix2 40) as -> by (change 50%Z with (10 + 40)%Z; rewrite bpow_plus; reflexivity). lra. }
      replace (bpow radix2 100) with (bpow radix2 50 * bpow radix2 50) by (rewrite <- bpow_plus; reflexivity).
      apply Rmult_le_compat; auto. }
Qed.

Lemma near_aim : forall g, g = vx \/ g = vy \/ g = vz ->
  fin (g (vnormalize seen_vec)) /\
  Rabs (fr (g (vnormalize seen_vec)) - target g / sqrt dist2_of) <= (60 * (Sz / sqrt dist2_of) + 7) * ue.
Proof.
  destruct near_range as (_ & _ & _ & Rg).
  pose proof (seen_err vx (or_introl eq_refl)) as (F1 & E1 & _).
  pose proof (seen_err vy (or_intror (or_introl eq_refl))) as (F2 & E2 & _).
  pose proof (seen_err vz (or_intror (or_intror eq_refl))) as (F3 & E3 & _).
  pose proof ue_bounds as U.
  set (W1 := target vx) in *. set (W2 := target vy) in *. set (W3 := target vz) in *.
  set (w1 := fr (vx seen_vec)) in *. set (w2 := fr (vy seen_vec)) in *. set (w3 := fr (vz seen_vec)) in *.
  set (L := sqrt dist2_of) in *. assert (dist2_of = W1 * W1 + W2 * W2 + W3 * W3) as ED by reflexivity.
  assert (0 < L) as PL by lra.
  assert (0 <= dist2_of) as PD by (rewrite ED; pose proof (Rle_0_sqr W1); pose proof (Rle_0_sqr W2); pose proof (Rle_0_sqr W3); unfold Rsqr in *; lra).
  assert (L * L = W1 * W1 + W2 * W2 + W3 * W3) as LL by (rewrite <- ED; apply sqrt_sqrt; auto).
  assert (sq seen_vec = w1 * w1 + w2 * w2 + w3 * w3) as EQ by reflexivity.
  set (l := sqrt (sq seen_vec)). assert (0 <= l) as Pl by apply sqrt_pos.
  assert (l * l = w1 * w1 + w2 * w2 + w3 * w3) as ll.
  { rewrite <- EQ. apply sqrt_sqrt. rewrite EQ. pose proof (Rle_0_sqr w1); pose proof (Rle_0_sqr w2); pose proof (Rle_0_sqr w3); unfold Rsqr in *; lra. }
  destruct (abs_coord _ _ _ _ (Rlt_le _ _ PL) LL) as (A1 & A2 & A3 & A4).
  destruct (abs_coord _ _ _ _ Pl ll) as (B1 & B2 & B3 & B4).
  set (dl := 20 * ue * Sz) in *.
  assert (0 < dl) as Pd by (unfold dl; apply Rmult_lt_0_compat; lra).
  assert (Rabs (l - L) <= 2 * dl) as Dl.
  { assert (Rabs (l - L) * (l + L) <= (2 * dl) * (l + L)) as M.
    { rewrite <- (Rabs_pos_eq (l + L)) at 1 by lra. rewrite <- Rabs_mult.
      replace ((l - L) * (l + L)) with ((w1 - W1) * (w1 + W1) + (w2 - W2) * (w2 + W2) + (w3 - W3) * (w3 + W3)).
      2: { transitivity (l * l - L * L); [rewrite ll, LL; ring|ring]. }
      assert (forall p q, Rabs (p - q) <= dl -> Rabs ((p - q) * (p + q)) <= dl * (Rabs p + Rabs q)) as T.
      { intros p q H. rewrite Rabs_mult. apply Rmult_le_compat; auto using Rabs_pos. apply Rabs_triang. }
      pose proof (T _ _ E1). pose proof (T _ _ E2). pose proof (T _ _ E3).
      eapply Rle_trans; [eapply Rle_trans; [apply Rabs_triang|apply Rplus_le_compat_r, Rabs_triang]|].
      assert (dl * (Rabs w1 + Rabs w2 + Rabs w3 + (Rabs W1 + Rabs W2 + Rabs W3)) <= dl * (2 * l + 2 * L)) as Z by (apply Rmult_le_compat_l; lra).
      lra. }
    apply Rmult_le_reg_r with (l + L); lra. }
  apply Rabs_le_inv in Dl.
  assert (2 * dl <= Sz / 2048) as Ld by (unfold dl, ue; lra).
  assert (Sz / 2048 <= l) as Ll by lra.
  assert (0 < l) as Pl' by lra.
  assert (forall w W, Rabs (w - W) <= dl -> Rabs w <= l -> Rabs (w / l - W / L) <= 3 * dl * / L) as Near.
  { intros w W H1 H2.
    replace (w / l - W / L) with (((w - W) + (w / l) * (L - l)) * / L) by (field; lra).
    rewrite Rabs_mult, (Rabs_pos_eq (/ L)) by (apply Rlt_le, Rinv_0_lt_compat; auto).
    apply Rmult_le_compat_r; [apply Rlt_le, Rinv_0_lt_compat; auto|].
    eapply Rle_trans; [apply Rabs_triang|]. rewrite Rabs_mult.
    assert (Rabs (w / l) <= 1) as K.
    { unfold Rdiv. rewrite Rabs_mult, (Rabs_pos_eq (/ l)) by (apply Rlt_le, Rinv_0_lt_compat; auto).
      apply Rmult_le_reg_r with l; auto. rewrite Rmult_assoc, Rinv_l by lra. lra. }
    assert (Rabs (L - l) <= 2 * dl) as K2 by (apply Rabs_le; lra).
    assert (Rabs (w / l) * Rabs (L - l) <= 1 * (2 * dl)) by (apply Rmult_le_compat; auto using Rabs_pos). lra. }
  intros g Hg. destruct (normalize_err seen_vec F1 F2 F3 Rg g Hg) as [FN EN]. split; [exact FN|].
  assert (Rabs (fr (g seen_vec) / l - target g / L) <= 3 * dl * / L) as K.
  { destruct Hg as [-> | [-> | ->]]; apply Near; auto. }
  replace (fr (g (vnormalize seen_vec)) - target g / L) with
    ((fr (g (vnormalize seen_vec)) - fr (g seen_vec) / l) + (fr (g seen_vec) / l - target g / L)) by ring.
  eapply Rle_trans; [apply Rabs_triang|].
  replace ((60 * (Sz / L) + 7) * ue) with (7 * ue + 3 * dl * / L) by (unfold dl, Rdiv; ring).
  fold l in EN. lra.
Qed.
End Near.

Section Aim.
Variables (c : camera) (x y : Z) (Sz : R).
Definition all_coords (P : f32 -> Prop) : Prop :=
  forall g, g = vx \/ g = vy \/ g = vz -> P (g (c_pos c)) /\ P (g (c_right c)) /\ P (g (c_up c)) /\ P (g (c_p1 c)).
Hypothesis Hx : (0 <= x < 4294967296)%Z.
Hypothesis Hy : (0 <= y < 4294967296)%Z.
Hypothesis Fw : fin (c_inv_width c).
Hypothesis Fh : fin (c_inv_height c).
Hypothesis Pw : 0 <= fr (c_inv_width c).
Hypothesis Ph : 0 <= fr (c_inv_height c).
Hypothesis Uw : IZR x * fr (c_inv_width c) <= 1.
Hypothesis Uh : IZR y * fr (c_inv_height c) <= 1.
Hypothesis HS : 1 <= Sz <= bpow radix2 40.
Hypothesis HC : all_coords (fun f => fin f /\ Rabs (fr f) <= Sz).

Definition target (g : vec3 -> f32) : R :=
  fr (g (c_p1 c)) + (IZR x * fr (c_inv_width c)) * fr (g (c_right c)) + (IZR y * fr (c_inv_height c)) * fr (g (c_up c)) - fr (g (c_pos c)).
Definition seen_vec : vec3 :=
  vsub (vadd (vadd (c_p1 c) (scalev (fmul (f_of_Z x) (c_inv_width c)) (c_right c))) (scalev (fmul (f_of_Z y) (c_inv_height c)) (c_up c))) (c_pos c).

Lemma seen_err : forall g, g = vx \/ g = vy \/ g = vz ->
  fin (g seen_vec) /\ Rabs (fr (g seen_vec) - target g) <= 20 * ue * Sz /\ Rabs (target g) <= 4 * Sz.
Proof.
  intros g Hg. destruct (HC g Hg) as ((F1 & B1) & (F2 & B2) & (F3 & B3) & F4 & B4).
  assert (scale Sz) as S1.
  { split; [lra|]. eapply Rle_trans; [apply HS|]. apply bpow_le. lia. }
  assert (0 < Sz) as S0 by lra.
  pose proof scale1 as Sc1. assert (scale (1 * Sz)) as S2 by (rewrite Rmult_1_l; auto).
  pose proof (uv_err x _ Hx Fw Pw Uw) as A. pose proof (uv_err y _ Hy Fh Ph Uh) as B.
  pose proof (approx_exact Sz _ S0 F1 B1) as C1. pose proof (approx_exact Sz _ S0 F2 B2) as C2.
  pose proof (approx_exact Sz _ S0 F3 B3) as C3. pose proof (approx_exact Sz _ S0 F4 B4) as C4.
  assert (approx (1 * Sz) (fmul (fmul (f_of_Z x) (c_inv_width c)) (g (c_right c))) (IZR x * fr (c_inv_width c) * fr (g (c_right c))) (32 / 10) 1) as D1
    by (eapply approx_mul; [exact Sc1|exact S1|exact S2|exact A|exact C2|lra|lra|lra]).
  assert (approx (1 * Sz) (fmul (fmul (f_of_Z y) (c_inv_height c)) (g (c_up c))) (IZR y * fr (c_inv_height c) * fr (g (c_up c))) (32 / 10) 1) as D2
    by (eapply approx_mul; [exact Sc1|exact S1|exact S2|exact B|exact C3|lra|lra|lra]).
  rewrite Rmult_1_l in D1, D2.
  assert (approx Sz (g seen_vec) (target g) 20 4) as (R1 & R2 & R3).
  { assert (g seen_vec = fsub (fadd (fadd (g (c_p1 c)) (fmul (fmul (f_of_Z x) (c_inv_width c)) (g (c_right c)))) (fmul (fmul (f_of_Z y) (c_inv_height c)) (g (c_up c)))) (g (c_pos c))) as ->
      by (destruct Hg as [-> | [-> | ->]]; reflexivity).
    unfold target.
    eapply (approx_sub Sz _ _ _ _ (153 / 10) 3 0 1); [exact S1| |exact C1|lra|lra|lra].
    eapply (approx_add Sz _ _ _ _ (83 / 10) 2 (32 / 10) 1); [exact S1| |exact D2|lra|lra|lra].
    eapply (approx_add Sz _ _ _ _ 0 1 (32 / 10) 1); [exact S1|exact C4|exact D1|lra|lra|lra]. }
  auto.
Qed.

Definition dist2 : R := dist2_of target.
Hypothesis HL : Sz / 1024 <= sqrt dist2.
Lemma aim_range : fin (vx seen_vec) /\ fin (vy seen_vec) /\ fin (vz seen_vec) /\
  bpow radix2 (-60) <= sq seen_vec <= bpow radix2 100.
Proof. exact (near_range seen_vec target Sz HS seen_err HL). Qed.
Lemma aim : forall g, g = vx \/ g = vy \/ g = vz ->
  fin (g (vnormalize seen_vec)) /\
  Rabs (fr (g (vnormalize seen_vec)) - target g / sqrt dist2) <= (60 * (Sz / sqrt dist2) + 7) * ue.
Proof. exact (near_aim seen_vec target Sz HS seen_err HL). Qed.
End Aim.

(** ** Unit length *)
Lemma unit_length : forall w : vec3, fin (vx w) -> fin (vy w) -> fin (vz w) ->
  bpow radix2 (-60) <= sq w <= bpow radix2 100 ->
  Rabs (sq (vnormalize w) - 1) <= 64 * ue.
Proof.
  intros w F1 F2 F3 H.
  destruct (normalize_err w F1 F2 F3 H vx (or_introl eq_refl)) as [_ E1].
  destruct (normalize_err w F1 F2 F3 H vy (or_intror (or_introl eq_refl))) as [_ E2].
  destruct (normalize_err w F1 F2 F3 H vz (or_intror (or_intror eq_refl))) as [_ E3].
  pose proof ue_bounds as U. pose proof (bpow_gt_0 radix2 (-60)).
  assert (0 < sqrt (sq w)) as PN by (apply sqrt_lt_R0; lra). assert (sqrt (sq w) * sqrt (sq w) = sq w) as NN by (apply sqrt_sqrt; lra).
  set (N := sqrt (sq w)) in *.
  set (a := fr (vx w) / N) in *. set (b := fr (vy w) / N) in *. set (d := fr (vz w) / N) in *.
  assert (1 * 1 = a * a + b * b + d * d) as E.
  { assert (a * a + b * b + d * d = sq w * / (N * N)) as -> by (unfold a, b, d, sq; field; lra). rewrite NN. rewrite Rinv_r; lra. }
  destruct (abs_coord a b d 1 ltac:(lra) E) as (A1 & A2 & A3 & A4).
  unfold sq. set (p := fr (vx (vnormalize w))) in *. set (q := fr (vy (vnormalize w))) in *. set (r := fr (vz (vnormalize w))) in *.
  replace (p * p + q * q + r * r - 1) with ((p - a) * (2 * a + (p - a)) + (q - b) * (2 * b + (q - b)) + (r - d) * (2 * d + (r - d))).
  2: { transitivity (p * p + q * q + r * r - (a * a + b * b + d * d)); [ring|rewrite <- E; ring]. }
  assert (forall u v, Rabs (u - v) <= 7 * ue -> Rabs v <= 1 -> Rabs ((u - v) * (2 * v + (u - v))) <= 7 * ue * (2 * Rabs v + 7 * ue)) as T.
  { intros u v H1 H2. rewrite Rabs_mult. apply Rmult_le_compat; auto using Rabs_pos. eapply Rle_trans; [apply Rabs_triang|].
    rewrite Rabs_mult, (Rabs_pos_eq 2) by lra. lra. }
  pose proof (T _ _ E1 A1). pose proof (T _ _ E2 A2). pose proof (T _ _ E3 A3).
  eapply Rle_trans; [eapply Rle_trans; [apply Rabs_triang|apply Rplus_le_compat_r, Rabs_triang]|].
  assert (7 * ue * (7 * ue) <= 7 * ue * / 10000) by (apply Rmult_le_compat_l; lra).
  assert (7 * ue * (2 * (Rabs a + Rabs b + Rabs d)) <= 7 * ue * 4) by (apply Rmult_le_compat_l; lra).
  lra.
Qed.
