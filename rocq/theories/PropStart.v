(** * Property C88: the camera the demos start with *)
Require Import List ZArith Bool Reals Machin Lia Lra.
From Flocq Require Import Core BinarySingleNaN.
From Verif Require Import F32 F32Facts Vec RayModel AabbModel Base SpecGeom AabbProofs PropBox TriModel SpecTri TriProofs TriError
  SpecMeasure PropMeasure CameraModel SpecCamera CameraProofs PropCamera SpecTransform PropTransform PropView ControlModel StartModel PropControl.
Import ListNotations.
Local Open Scope R_scope.

Lemma start_vals : fval (vx start_pos) = 0 /\ fval (vy start_pos) = 3 / 2 /\ fval (vz start_pos) = -100.
Proof.
  assert (fadd f1 fhalf = @B754_finite 24 128 false 12582912 (-23) eq_refl) as E1 by (apply B2SF_inj; vm_compute; reflexivity).
  assert (fneg (f_of_Z 100) = @B754_finite 24 128 true 13107200 (-17) eq_refl) as E2 by (apply B2SF_inj; vm_compute; reflexivity).
  unfold start_pos. cbn [vx vy vz]. rewrite E1, E2. split; [reflexivity|]. unfold fval, B2R, F2R. simpl. split; lra.
Qed.
Lemma axis_vals : fval f0 = 0 /\ fval f1 = 1.
Proof. split; [reflexivity|]. unfold f1, fval, B2R, F2R; simpl; lra. Qed.
Lemma start_sized : sized 128 start_pos /\ sized 128 axis_z.
Proof.
  destruct start_vals as (A & B & C). destruct axis_vals as [Z O].
  split; intros g [-> |[-> | ->]]; unfold axis_z; cbn [vx vy vz]; (split; [vm_compute; reflexivity|]).
  - rewrite A, Rabs_R0. lra.
  - rewrite B. apply Rabs_le. lra.
  - rewrite C. apply Rabs_le. lra.
  - rewrite Z, Rabs_R0. lra.
  - rewrite Z, Rabs_R0. lra.
  - rewrite O. apply Rabs_le. lra.
Qed.

(** The screen stored in the start camera is the one at distance one in front
    of (0, 1.5, -100) along z: the point at the fractions a, b of its edges is
    (t aspect (1 - 2 a), 1.5 + t (1 - 2 b), -99), up to rounding, where t is what
    [tan] returns. *)
Theorem C88_screen : forall tan w h k, let v := start_view tan w h in let t := fval (screen_size tan v) in
  1 <= k <= 2 ^ 10 -> ffinite (screen_size tan v) -> Rabs t <= k -> ffinite (v_aspect v) -> Rabs (fval (v_aspect v)) <= k ->
  forall a b, 0 <= a <= 1 -> 0 <= b <= 1 ->
  let near x y := Rabs (x - y) <= 78 * (k * 128 * k) / 2 ^ 24 in
  near (stored_point (v_cam v) a b 0) (t * fval (v_aspect v) * (1 - 2 * a)) /\
  near (stored_point (v_cam v) a b 1) (3 / 2 + t * (1 - 2 * b)) /\
  near (stored_point (v_cam v) a b 2) (-99).
Proof.
  intros tan w h k v t Hk Ft Bt Fa Ba a b Ha Hb near.
  assert (v = set_screen tan v start_pos axis_z (vcross axis_z vec_y)) as Ev by reflexivity.
  destruct start_sized as [Sp Sd]. destruct start_vals as (A & B & C). destruct axis_vals as [Z O].
  assert (forall i, Rabs (stored_point (v_cam v) a b i - screen_point start_pos axis_z t (fval (v_aspect v)) a b i) <= 78 * (k * 128 * k) / 2 ^ 24) as S.
  { intro i. rewrite <- ue_24. rewrite Ev at 1. apply (screen_ok tan v start_pos axis_z 128 k); auto. simpl; lra. }
  unfold near. split; [|split].
  - pose proof (S 0%nat) as S0. unfold screen_point, comp, rightwards, upwards, axis_z in S0. cbn [vget vx vy vz] in S0. rewrite A, Z, O in S0.
    match type of S0 with Rabs (_ - ?e) <= _ => replace e with (t * fval (v_aspect v) * (1 - 2 * a)) in S0 by ring end. exact S0.
  - pose proof (S 1%nat) as S0. unfold screen_point, comp, rightwards, upwards, axis_z in S0. cbn [vget vx vy vz] in S0. rewrite B, Z in S0.
    match type of S0 with Rabs (_ - ?e) <= _ => replace e with (3 / 2 + t * (1 - 2 * b)) in S0 by ring end. exact S0.
  - pose proof (S 2%nat) as S0. unfold screen_point, comp, rightwards, upwards, axis_z in S0. cbn [vget vx vy vz] in S0. rewrite C, Z, O in S0.
    match type of S0 with Rabs (_ - ?e) <= _ => replace e with (-99) in S0 by ring end. exact S0.
Qed.

(** The field of view is meant to be 90 degrees, but it is converted to
    radians twice: the angle given to [tan] is not PI / 4 but a 57th of it,
    whatever the size of the window. *)
Theorem C88_angle : exists angle, (forall tan w h, screen_size tan (start_view tan w h) = tan angle) /\
  ffinite angle /\ Rabs (fval angle - PI / 4 * (PI / 180)) <= / 1000000 /\ fval angle < PI / 4 / 50.
Proof.
  exists (fdiv (fmul (to_radians (f_of_Z 90)) fhalf) (fdiv f180 f_pi)). split; [reflexivity|].
  assert (fdiv (fmul (to_radians (f_of_Z 90)) fhalf) (fdiv f180 f_pi) = @B754_finite 24 128 false 14718622 (-30) eq_refl) as -> by (apply B2SF_inj; vm_compute; reflexivity).
  split; [reflexivity|].
  assert (fval (@B754_finite 24 128 false 14718622 (-30) eq_refl) = 14718622 / 1073741824) as -> by (unfold fval, B2R, F2R; simpl; lra).
  pose proof pi_bounds as [PL PU].
  assert (31415926 / 10000000 * (31415926 / 10000000) <= PI * PI <= 31415928 / 10000000 * (31415928 / 10000000)) as [QL QU] by (split; apply Rmult_le_compat; lra).
  replace (PI / 4 * (PI / 180)) with (PI * PI / 720) by field. split; [apply Rabs_le; lra|lra].
Qed.

(** ** Pixels *)
Lemma quotient_near : forall a b : Z, (1 <= a < 4294967296)%Z -> (1 <= b < 4294967296)%Z ->
  let q := fdiv (f_of_Z a) (f_of_Z b) in ffinite q /\ Rabs (fval q - IZR a / IZR b) <= 4 / 2 ^ 24 * (IZR a / IZR b).
Proof.
  intros a b Ha Hb q. destruct (fr_of_u32 a ltac:(lia)) as [Fa Ea]. destruct (fr_of_u32 b ltac:(lia)) as [Fb Eb].
  assert (1 <= IZR a <= 4294967296) as BA by (split; apply IZR_le; lia). assert (1 <= IZR b <= 4294967296) as BB by (split; apply IZR_le; lia).
  set (A := IZR a) in *. set (B := IZR b) in *. set (x := fr (f_of_Z a)) in *. set (y := fr (f_of_Z b)) in *.
  set (Q := A / B). assert (A = Q * B) as EQ by (unfold Q; field; lra).
  assert (0 < Q) as PQ by (unfold Q; apply Rdiv_lt_0_compat; lra).
  assert (Q <= 4294967296) as UQ by (apply Rmult_le_reg_r with B; [lra|]; rewrite <- EQ; lra).
  assert (/ 4294967296 <= Q) as LQ by (apply Rmult_le_reg_r with B; [lra|]; rewrite <- EQ; lra).
  pose proof ue_bounds as U. apply Rabs_le_inv in Ea. apply Rabs_le_inv in Eb.
  assert (0 < ue * B <= / 1000000 * B) as UB by (split; [apply Rmult_lt_0_compat; lra|apply Rmult_le_compat_r; lra]).
  assert (0 < ue * A <= / 1000000 * A) as UA by (split; [apply Rmult_lt_0_compat; lra|apply Rmult_le_compat_r; lra]).
  assert (0 < y) as Py by lra. assert (0 < x) as Px by lra.
  assert (x / y <= Q * (1 + 21 / 10 * ue)) as H1.
  { apply Rmult_le_reg_r with y; [exact Py|]. replace (x / y * y) with x by (field; lra).
    apply Rle_trans with (Q * (1 + 21 / 10 * ue) * (B - ue * B)); [|apply Rmult_le_compat_l; [apply Rmult_le_pos; lra|lra]].
    replace (Q * (1 + 21 / 10 * ue) * (B - ue * B)) with (A * ((1 + 21 / 10 * ue) * (1 - ue))) by (rewrite EQ; ring).
    apply Rle_trans with (A * (1 + ue)); [lra|]. apply Rmult_le_compat_l; [lra|].
    assert (ue * ue <= / 1000000 * ue) by (apply Rmult_le_compat_r; lra). lra. }
  assert (Q * (1 - 21 / 10 * ue) <= x / y) as H2.
  { apply Rmult_le_reg_r with y; [exact Py|]. replace (x / y * y) with x by (field; lra).
    apply Rle_trans with (Q * (1 - 21 / 10 * ue) * (B + ue * B)); [apply Rmult_le_compat_l; [apply Rmult_le_pos; lra|lra]|].
    replace (Q * (1 - 21 / 10 * ue) * (B + ue * B)) with (A * ((1 - 21 / 10 * ue) * (1 + ue))) by (rewrite EQ; ring).
    apply Rle_trans with (A * (1 - ue)); [|lra]. apply Rmult_le_compat_l; [lra|].
    assert (0 <= ue * ue) by (apply Rmult_le_pos; lra). lra. }
  assert (fr (f_of_Z b) <> 0) as NZ by (fold y; lra).
  destruct (fr_fdiv (f_of_Z a) (f_of_Z b) Fa Fb NZ) as [Nd Ed]. fold x y q in Ed. fold q in Nd.
  assert (0 < ue * Q <= / 1000000 * Q) as UQ2 by (split; [apply Rmult_lt_0_compat; lra|apply Rmult_le_compat_r; lra]).
  assert (0 < x / y) as Pxy by (apply Rdiv_lt_0_compat; lra).
  assert (4294967296 * 2 <= bpow radix2 127) as Big by (simpl; lra).
  assert (Rabs (x / y) <= bpow radix2 127) as Bd by (rewrite Rabs_pos_eq by lra; lra).
  pose proof (fin_of_RN _ _ Nd Ed Bd) as Fd. split; [exact Fd|].
  destruct (RN_small _ Bd) as [R1 _]. rewrite R1 in Ed. pose proof (rnd_err (x / y)) as E1. rewrite <- Ed in E1.
  rewrite (Rabs_pos_eq (x / y)) in E1 by lra. unfold fval. rewrite <- (fr_fin _ Fd).
  assert (ue * (x / y) <= ue * (101 / 100 * Q)) as E2 by (apply Rmult_le_compat_l; lra).
  assert (bpow radix2 (-150) <= 1 / 100 * (ue * / 4294967296)) as T by (unfold ue; simpl; lra).
  assert (ue * / 4294967296 <= ue * Q) as T2 by (apply Rmult_le_compat_l; lra).
  replace (4 / 2 ^ 24 * Q) with (4 * (ue * Q)) by (unfold ue; simpl; lra).
  apply Rabs_le_inv in E1. apply Rabs_le. lra.
Qed.

(** The aspect ratio is w / h and a pixel is the fraction x / w of the width
    and y / h of the height of the screen, up to rounding. *)
Theorem C88_pixels : forall tan w h, let v := start_view tan w h in
  (1 <= w)%nat -> (1 <= h)%nat -> (Z.of_nat w < 2 ^ 32)%Z -> (Z.of_nat h < 2 ^ 32)%Z ->
  let near f x := ffinite f /\ Rabs (fval f - x) <= 4 / 2 ^ 24 * x in
  near (v_aspect v) (INR w / INR h) /\ near (c_inv_width (v_cam v)) (1 / INR w) /\ near (c_inv_height (v_cam v)) (1 / INR h).
Proof.
  intros tan w h v Hw Hh Lw Lh near. change (2 ^ 32)%Z with 4294967296%Z in *. rewrite !INR_IZR_INZ.
  assert (f_of_Z 1 = f1) as E1 by (apply B2SF_inj; vm_compute; reflexivity).
  unfold near. split; [apply quotient_near; lia|].
  change (c_inv_width (v_cam v)) with (fdiv f1 (f_of_Z (Z.of_nat w))). change (c_inv_height (v_cam v)) with (fdiv f1 (f_of_Z (Z.of_nat h))).
  rewrite <- E1. split; apply (quotient_near 1); lia.
Qed.

(** ** Nothing moves while nothing is pressed *)
Lemma zero_mul : forall s (r : f32), ffinite r -> exists s', fmul (B754_zero s) r = B754_zero s'.
Proof. intros s [sr|sr| |sr mr er Hr] F; try discriminate F; eexists; reflexivity. Qed.
Lemma sub_zero : forall s, fsub f0 (B754_zero s) = f0 /\ fsub f1 (B754_zero s) = f1.
Proof. intros []; split; apply B2SF_inj; vm_compute; reflexivity. Qed.
Lemma vec_same : forall a b : vec3, B2SF (vx a) = B2SF (vx b) -> B2SF (vy a) = B2SF (vy b) -> B2SF (vz a) = B2SF (vz b) -> a = b.
Proof. intros [] []; cbn; intros X Y Z. apply B2SF_inj in X. apply B2SF_inj in Y. apply B2SF_inj in Z. congruence. Qed.

Definition finite_camera (c : camera) : Prop := vfinite (c_right c) /\ vfinite (c_up c).

Lemma idle_move : forall tan w h s, translate tan (start_view tan w h) (V3 (B754_zero s) (B754_zero s) (B754_zero s)) = start_view tan w h.
Proof.
  intros tan w h s. set (v := start_view tan w h).
  assert (v = set_screen tan v start_pos axis_z (vcross axis_z vec_y)) as Ev by reflexivity.
  unfold translate. change (v_direction v) with axis_z. change (c_pos (v_cam v)) with start_pos. cbn [vx vy vz].
  match goal with |- set_screen _ _ ?p _ _ = _ => assert (p = start_pos) as -> by (destruct s; apply vec_same; vm_compute; reflexivity) end.
  symmetry. exact Ev.
Qed.
Lemma idle_turn : forall tan w h s z, finite_camera (v_cam (start_view tan w h)) ->
  translate_target tan (start_view tan w h) (V3 (B754_zero s) (B754_zero s) z) = start_view tan w h.
Proof.
  intros tan w h s z [(F1 & F2 & F3) (G1 & G2 & G3)]. set (v := start_view tan w h) in *.
  assert (v = set_screen tan v start_pos axis_z (vcross axis_z vec_y)) as Ev by reflexivity.
  unfold translate_target. change (v_direction v) with axis_z. change (c_pos (v_cam v)) with start_pos. cbn [vx vy vz].
  assert (vsub (vsub axis_z (scalev (B754_zero s) (c_right (v_cam v)))) (scalev (B754_zero s) (c_up (v_cam v))) = axis_z) as ->.
  { destruct (c_right (v_cam v)) as [r1 r2 r3]. destruct (c_up (v_cam v)) as [u1 u2 u3]. cbn [vx vy vz] in *.
    destruct (zero_mul s r1 F1) as (s1 & E1). destruct (zero_mul s r2 F2) as (s2 & E2). destruct (zero_mul s r3 F3) as (s3 & E3).
    destruct (zero_mul s u1 G1) as (s4 & E4). destruct (zero_mul s u2 G2) as (s5 & E5). destruct (zero_mul s u3 G3) as (s6 & E6).
    unfold vsub, vmap2, scalev, axis_z. cbn [vx vy vz]. rewrite E1, E2, E3, E4, E5, E6. rewrite !(proj1 (sub_zero _)), !(proj2 (sub_zero _)). reflexivity. }
  cbv zeta. assert (vnormalize axis_z = axis_z) as -> by (apply vec_same; vm_compute; reflexivity).
  symmetry. exact Ev.
Qed.

(** Whatever happens, as long as no key is pressed (and the clock and the
    platform's [tan] give finite numbers), the camera stays exactly as it was
    and the binary BVH is drawn. *)
Theorem C88_idle : forall tan w h history, finite_camera (v_cam (start_view tan w h)) ->
  (forall k, ~ In (KeyChange (Some k) true) history) ->
  (forall millis rendered, In (EventsCleared millis rendered) history -> ffinite (fdiv millis (f_of_Z 100))) ->
  eye (control_run tan history (control_start (start_view tan w h))) = start_view tan w h /\
  use (control_run tan history (control_start (start_view tan w h))) = UseBvh.
Proof.
  intros tan w h history Fc. set (v := start_view tan w h) in *.
  assert (forall s, (forall k, down (keys s) k = false) -> eye s = v -> use s = UseBvh ->
    (forall k, ~ In (KeyChange (Some k) true) history) -> (forall millis rendered, In (EventsCleared millis rendered) history -> ffinite (fdiv millis (f_of_Z 100))) ->
    eye (control_run tan history s) = v /\ use (control_run tan history s) = UseBvh) as G.
  { induction history as [|ev history IH]; intros s K Ev Us NK NT; [auto|]. cbn [control_run].
    apply IH; [| | |intros k I; apply (NK k); right; exact I|intros ms r I; apply (NT ms r); right; exact I].
    - intro k. rewrite PropControl.down_step. destruct ev as [[k'|] b| | |ms r|]; auto. destruct (key_eq_dec k' k) as [-> |]; auto.
      destruct b; [elim (NK k); left; reflexivity|reflexivity].
    - destruct ev as [[k'|] b| | |ms r|]; cbn [handle eye]; auto. rewrite (K Escape). rewrite (PropControl.C87_offsets (keys s)). cbv zeta. rewrite !K. cbn iota.
      change (1 * PropControl.steps false false)%Z with 0%Z. cbn [eye]. rewrite Ev.
      assert (f_of_Z 0 = B754_zero false) as -> by (apply B2SF_inj; vm_compute; reflexivity).
      destruct (zero_mul false _ (NT ms r (or_introl eq_refl))) as (sg & E). unfold vscale. cbn [vx vy vz]. change f0 with (@B754_zero 24 128 false). rewrite E.
      unfold v. rewrite idle_move. unfold vover. cbn [vx vy vz].
      assert (exists s2, fdiv (B754_zero sg) (f_of_Z 10) = B754_zero s2) as (s2 & ->) by (exists sg; destruct sg; apply B2SF_inj; vm_compute; reflexivity).
      apply idle_turn. exact Fc.
    - destruct ev as [[k'|] b| | |ms r|]; cbn [handle use]; auto. rewrite (K Escape). destruct (offsets (keys s)). cbn [use]. unfold choose. rewrite !K. exact Us. }
  intros NK NT. apply G; auto.
Qed.

(** The visualizer's window, with a [tan] that returns 1: the conditions of
    the theorems hold, also for a history with a released key and a tick. *)
Example C88_nonvacuous : let tan := fun _ : f32 => f1 in let v := start_view tan 1280 720 in
  ffinite (screen_size tan v) /\ Rabs (fval (screen_size tan v)) <= 2 /\ ffinite (v_aspect v) /\ Rabs (fval (v_aspect v)) <= 2 /\
  finite_camera (v_cam v) /\ ffinite (fdiv (f_of_Z 16) (f_of_Z 100)) /\
  (forall k, ~ In (KeyChange (Some k) true) [EventsCleared (f_of_Z 16) true; KeyChange (Some W) false; EventsCleared (f_of_Z 16) true]).
Proof.
  cbv zeta. split; [reflexivity|]. split; [change (screen_size _ _) with f1; rewrite (proj2 axis_vals); apply Rabs_le; lra|].
  split; [vm_compute; reflexivity|]. split.
  { change (v_aspect _) with (fdiv (f_of_Z 1280) (f_of_Z 720)).
    assert (fdiv (f_of_Z 1280) (f_of_Z 720) = @B754_finite 24 128 false 14913081 (-23) eq_refl) as -> by (apply B2SF_inj; vm_compute; reflexivity).
    unfold fval, B2R, F2R. simpl. apply Rabs_le. lra. }
  split; [repeat split; vm_compute; reflexivity|]. split; [vm_compute; reflexivity|].
  intros k [X|[X|[X|[]]]]; discriminate X.
Qed.
