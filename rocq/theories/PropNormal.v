(** * Property C82, the colour: a drawn triangle has the colour of its normal *)
Require Import List ZArith Bool Lia Arith.
Require Import Reals Lra.
From Flocq Require Import Core BinarySingleNaN.
From Verif Require Import F32 F32Facts Vec Base SlabProofs SpecGeom TriModel SpecTri TriError SpatialShare BinOrder CameraModel SpecCamera CameraProofs VisualModel SpecNormal PropBox.
Import ListNotations.
Local Open Scope R_scope.

Lemma fr255 : fin (f_of_Z 255) /\ fr (f_of_Z 255) = 255.
Proof.
  assert (f_of_Z 255 = @B754_finite 24 128 false 16711680 (-16) eq_refl) as -> by (apply B2SF_inj; vm_compute; reflexivity).
  split; [reflexivity|]. unfold fr. cbn [B2R]. unfold F2R. simpl. lra.
Qed.

Lemma u8_val : forall x : f32, fin x -> 0 <= fr x -> fr x < 256 -> f_as_u8 x = Zfloor (fr x).
Proof.
  intros x F P L. rewrite fr_fin in * by auto.
  assert (Z.max 0 (Z.min 255 (Btrunc x)) = Zfloor (B2R x)) as E.
  { rewrite Btrunc_floor by auto. assert (0 <= Zfloor (B2R x))%Z by (apply Zfloor_lub; exact P).
    assert (Zfloor (B2R x) < 256)%Z by (apply lt_IZR; eapply Rle_lt_trans; [apply Zfloor_lb|exact L]). lia. }
  unfold f_as_u8, f_to_Z_sat. destruct x as [s|s| |s m e H]; try discriminate; exact E.
Qed.

(** One colour channel: 255 times the component, cut off below at zero and
    above at one, rounded down. *)
Definition channel (v : f32) : Z := f_as_u8 (fmul (fmin (fmax v f0) f1) (f_of_Z 255)).

Lemma channel_near : forall v, ffinite v ->
  shade (fval v) - 1 - / 2 ^ 15 <= IZR (channel v) <= shade (fval v) + / 2 ^ 15.
Proof.
  intros v F. assert (notnan v) as Nv by (destruct v; try discriminate; reflexivity).
  assert (fr f0 = 0) as E0 by reflexivity.
  assert (fin f1 /\ fr f1 = 1) as [F1 E1].
  { assert (f1 = @B754_finite 24 128 false 8388608 (-23) eq_refl) as -> by (apply B2SF_inj; vm_compute; reflexivity).
    split; [reflexivity|]. unfold fr. cbn [B2R]. unfold F2R. simpl. lra. }
  assert (notnan (fmax v f0)) as Nm by (apply fmax_notnan; auto).
  assert (notnan f1) as N1 by reflexivity.
  set (w := fmin (fmax v f0) f1).
  assert (notnan w) as Nw by (apply fmin_notnan; auto).
  assert (fr w = Rmin (Rmax (fr v) 0) 1) as Ew by (unfold w; rewrite fr_fmin, fr_fmax by auto; rewrite E0, E1; reflexivity).
  assert (0 <= fr w <= 1) as Bw.
  { rewrite Ew. unfold Rmin, Rmax. repeat destruct (Rle_dec _ _); lra. }
  assert (forall x : f32, notnan x -> 0 <= fr x <= 1 -> fin x) as Fs.
  { intros x N B. pose proof bpow128_lt_BIG. assert (1 < bpow radix2 128) by (simpl; lra).
    destruct x as [s|s| |s m e H']; try discriminate; try reflexivity; exfalso; simpl in B; destruct s; lra. }
  pose proof (Fs w Nw Bw) as Fw.
  destruct fr255 as [F255 E255]. destruct (fr_fmul w (f_of_Z 255) Fw F255) as [Np Ep]. rewrite E255 in Ep.
  assert (Rabs (fr w * 255) <= bpow radix2 127) as Bz by (rewrite Rabs_pos_eq by lra; apply Rle_trans with 255; [lra|simpl; lra]).
  assert (fin (fmul w (f_of_Z 255))) as Fp by (eapply fin_of_RN; eauto).
  destruct (RN_small _ Bz) as [R1 _]. rewrite R1 in Ep.
  pose proof (rnd_err (fr w * 255)) as Er. rewrite (Rabs_pos_eq (fr w * 255)) in Er by lra. rewrite <- Ep in Er.
  set (p := fmul w (f_of_Z 255)) in *.
  assert (Rabs (fr p - fr w * 255) <= / 2 ^ 15) as Er2.
  { eapply Rle_trans; [exact Er|]. pose proof small_150. pose proof ue_bounds. unfold ue in *.
    assert (bpow radix2 (-24) * (fr w * 255) <= bpow radix2 (-24) * 255) by (apply Rmult_le_compat_l; [apply bpow_ge_0|lra]). simpl in *. lra. }
  apply Rabs_le_inv in Er2.
  assert (0 <= fr p) as P0.
  { rewrite Ep. rewrite <- (round_0 radix2 (SpecFloat.fexp 24 128) (round_mode mode_NE)). apply round_le; [apply fexp_correct; reflexivity|apply valid_rnd_round_mode|lra]. }
  assert (fr p < 256) as P1 by (simpl in Er2; lra).
  unfold channel. fold w. fold p. rewrite (u8_val p Fp P0 P1).
  pose proof (Zfloor_lb (fr p)). pose proof (Zfloor_ub (fr p)).
  assert (shade (fval v) = fr w * 255) as ->.
  { rewrite Ew. unfold shade, fval. rewrite (fr_fin v F). unfold Rmin, Rmax. repeat destruct (Rle_dec _ _); lra. }
  lra.
Qed.

(** The bytes of a pixel that shows a triangle. *)
Theorem C82_channel : forall tris p tr, nth_error tris p = Some tr -> forall i, (i < 3)%nat -> ffinite (vget (tri_normal tr) i) ->
  exists b, nth_error (pixel_bytes tris (Some p)) i = Some b /\
    shade (comp (tri_normal tr) i) - 1 - / 2 ^ 15 <= IZR b <= shade (comp (tri_normal tr) i) + / 2 ^ 15.
Proof.
  intros tris p tr E i Hi F. exists (channel (vget (tri_normal tr) i)). split; [|apply channel_near; exact F].
  cbn [pixel_bytes]. rewrite E. destruct i as [|[|[|i]]]; [reflexivity..|lia].
Qed.

(** The normal stored with a triangle is the exact one, of length one, up to rounding. *)
Theorem C82_normal : forall tr e, 1 <= e <= 2 ^ 20 -> edges_ok tr e ->
  e * e / 1024 <= length_of (exact_normal tr) -> forall i, (i < 3)%nat ->
  ffinite (vget (tri_normal tr) i) /\
  Rabs (comp (tri_normal tr) i - exact_normal tr i / length_of (exact_normal tr)) <= (60 * (e * e / length_of (exact_normal tr)) + 7) / 2 ^ 24.
Proof.
  intros tr e He [Fv Be] HL.
  assert (scale e) as Se by (split; [lra|apply Rle_trans with (2 ^ 20); [lra|simpl; lra]]).
  assert (1 <= e * e) as L1 by (replace 1 with (1 * 1) by ring; apply Rmult_le_compat; lra).
  assert (e * e <= 2 ^ 20 * 2 ^ 20) as U1 by (apply Rmult_le_compat; lra).
  assert (scale (e * e)) as See by (split; [exact L1|apply Rle_trans with (2 ^ 20 * 2 ^ 20); [exact U1|simpl; lra]]).
  assert (forall a b : f32, ffinite a -> ffinite b -> Rabs (fval b - fval a) <= e -> approx e (fsub b a) (fval b - fval a) (1 + / 1000000) 1) as Es.
  { intros a b Fa Fb B. destruct (fr_fsub b a Fb Fa) as [N E]. rewrite (fr_fin b Fb), (fr_fin a Fa) in E. unfold fval in *.
    replace (1 + / 1000000) with (0 + 1 + / 1000000) by ring.
    apply (approx_rnd e (fsub b a) (B2R b - B2R a)); auto.
    - apply rnd_err.
    - lra.
    - lra.
    - rewrite Rminus_diag_eq by auto. rewrite Rabs_R0. lra.
    - lra. }
  set (a := tv0 tr) in *. set (b := tv1 tr) in *. set (c := tv2 tr) in *.
  assert (apv e (vsub b a) (edge a b 0, edge a b 1, edge a b 2) (1 + / 1000000) 1) as A1.
  { split; [|split]; [destruct (Fv 0%nat ltac:(lia)) as (X & Y & _); apply (Es (vx a) (vx b)); auto; apply (Be 0%nat); lia
      |destruct (Fv 1%nat ltac:(lia)) as (X & Y & _); apply (Es (vy a) (vy b)); auto; apply (Be 1%nat); lia
      |destruct (Fv 2%nat ltac:(lia)) as (X & Y & _); apply (Es (vz a) (vz b)); auto; apply (Be 2%nat); lia]. }
  assert (apv e (vsub c a) (edge a c 0, edge a c 1, edge a c 2) (1 + / 1000000) 1) as A2.
  { split; [|split]; [destruct (Fv 0%nat ltac:(lia)) as (X & _ & Y); apply (Es (vx a) (vx c)); auto; apply (Be 0%nat); lia
      |destruct (Fv 1%nat ltac:(lia)) as (X & _ & Y); apply (Es (vy a) (vy c)); auto; apply (Be 1%nat); lia
      |destruct (Fv 2%nat ltac:(lia)) as (X & _ & Y); apply (Es (vz a) (vz c)); auto; apply (Be 2%nat); lia]. }
  pose proof (apv_cross e e _ _ _ _ _ _ _ _ 9 2 (31 / 10) 1 Se Se See A1 A2 ltac:(lra) ltac:(lra) ltac:(lra) ltac:(lra) ltac:(lra) ltac:(lra)) as (X0 & X1 & X2).
  set (w := vcross (vsub b a) (vsub c a)) in *.
  set (n := exact_normal tr) in *.
  assert (approx (e * e) (vx w) (n 0%nat) 9 2 /\ approx (e * e) (vy w) (n 1%nat) 9 2 /\ approx (e * e) (vz w) (n 2%nat) 9 2) as (Y0 & Y1 & Y2) .
  { assert (forall x A B, A = B -> approx (e * e) x A 9 2 -> approx (e * e) x B 9 2) as Q by (intros x A B <-; auto).
    split; [|split]; [eapply Q; [|exact X0]|eapply Q; [|exact X1]|eapply Q; [|exact X2]];
      unfold n, exact_normal; cbn [cross cross3 real_scalars s_sub s_mul rx ry rz fst snd]; fold a b c; ring. }
  clear X0 X1 X2.
  set (T := fun g : vec3 -> f32 => fr (g (V3 f0 (fz 1) (fz 2)))).
  set (W := fun g : vec3 -> f32 => if Req_EM_T (T g) 0 then n 0%nat else if Req_EM_T (T g) 1 then n 1%nat else n 2%nat).
  assert (fr (fz 1) = 1 /\ fr (fz 2) = 2) as [V1 V2].
  { assert (fz 1 = @B754_finite 24 128 false 8388608 (-23) eq_refl) as -> by (apply B2SF_inj; vm_compute; reflexivity).
    assert (fz 2 = @B754_finite 24 128 false 8388608 (-22) eq_refl) as -> by (apply B2SF_inj; vm_compute; reflexivity).
    unfold fr. cbn [B2R]. unfold F2R. simpl. lra. }
  assert (fr f0 = 0) as V0 by reflexivity.
  assert (W vx = n 0%nat /\ W vy = n 1%nat /\ W vz = n 2%nat) as (W0 & W1 & W2).
  { unfold W, T. cbn [vx vy vz]. rewrite V0, V1, V2. repeat (destruct (Req_EM_T _ _); try lra); auto. }
  assert (forall g, g = vx \/ g = vy \/ g = vz -> fin (g w) /\ Rabs (fr (g w) - W g) <= 20 * ue * (e * e) /\ Rabs (W g) <= 4 * (e * e)) as Er.
  { pose proof ue_bounds. assert (0 <= ue * (e * e)) by (apply Rmult_le_pos; lra).
    intros g [-> | [-> | ->]]; [rewrite W0; destruct Y0 as (F & E & B)|rewrite W1; destruct Y1 as (F & E & B)|rewrite W2; destruct Y2 as (F & E & B)];
      (split; [exact F|split; lra]). }
  assert (sqrt (dist2_of W) = length_of n) as EL by (unfold dist2_of, length_of; rewrite W0, W1, W2; reflexivity).
  assert (1 <= e * e <= bpow radix2 40) as HS by (split; [auto|]; replace (bpow radix2 40) with (2 ^ 20 * 2 ^ 20) by (simpl; lra); auto).
  assert (e * e / 1024 <= sqrt (dist2_of W)) as HL' by (rewrite EL; exact HL).
  pose proof (near_aim w W (e * e) HS Er HL') as N. rewrite EL in N.
  assert (forall g, g = vx \/ g = vy \/ g = vz -> forall i, n i = W g -> vget (tri_normal tr) i = g (vnormalize w) ->
    ffinite (vget (tri_normal tr) i) /\ Rabs (comp (tri_normal tr) i - n i / length_of n) <= (60 * (e * e / length_of n) + 7) / 2 ^ 24) as G.
  { intros g Hg i Et Ev. unfold comp. rewrite Ev, Et. destruct (N g Hg) as [F B]. split; [exact F|]. unfold fval. rewrite <- (fr_fin _ F).
    replace ((60 * (e * e / length_of n) + 7) / 2 ^ 24) with ((60 * (e * e / length_of n) + 7) * ue) by (unfold ue; simpl; lra). exact B. }
  intros i Hi. destruct i as [|[|[|i]]]; [..|lia]; [apply (G vx)|apply (G vy)|apply (G vz)]; auto.
Qed.

Lemma shade_lip : forall x y d, Rabs (x - y) <= d -> Rabs (shade x - shade y) <= 255 * d.
Proof.
  intros x y d H. pose proof (Rabs_pos (x - y)). apply Rabs_le_inv in H. apply Rabs_le. unfold shade, Rmax, Rmin.
  repeat destruct (Rle_dec _ _); lra.
Qed.

(** Together: each byte is 255 times the component of the exact unit normal. *)
Theorem C82_shade : forall tris p tr e, nth_error tris p = Some tr -> 1 <= e <= 2 ^ 20 -> edges_ok tr e ->
  e * e / 1024 <= length_of (exact_normal tr) -> forall i, (i < 3)%nat ->
  exists b, nth_error (pixel_bytes tris (Some p)) i = Some b /\
    -2 < IZR b - shade (exact_normal tr i / length_of (exact_normal tr)) < 1.
Proof.
  intros tris p tr e E He Ok HL i Hi. destruct (C82_normal tr e He Ok HL i Hi) as [F B].
  destruct (C82_channel tris p tr E i Hi F) as (b & Eb & Bb). exists b. split; [exact Eb|].
  set (L := length_of (exact_normal tr)) in *.
  assert (1 <= e * e) as L1 by (replace 1 with (1 * 1) by ring; apply Rmult_le_compat; lra).
  assert (0 < L) as PL by lra.
  assert (e * e / L <= 1024) as Q.
  { apply Rmult_le_reg_r with L; [exact PL|]. unfold Rdiv. rewrite Rmult_assoc, Rinv_l by lra. lra. }
  pose proof (shade_lip _ _ _ B) as Sl. apply Rabs_le_inv in Sl.
  assert (255 * ((60 * (e * e / L) + 7) / 2 ^ 24) <= 95 / 100) by lra. simpl in *. lra.
Qed.

(** A slanted triangle, seen from the front and from the back. *)
Definition slanted : tri := Tri (V3 (fz 1) f0 f0) (V3 f0 (fz 1) f0) (V3 f0 f0 (fz 1)).
Definition slanted_back : tri := Tri (V3 (fz 1) f0 f0) (V3 f0 f0 (fz 1)) (V3 f0 (fz 1) f0).
Example C82_shade_nonvacuous :
  edges_ok slanted 1 /\ edges_ok slanted_back 1 /\
  (forall i, (i < 3)%nat -> exact_normal slanted i = 1 /\ exact_normal slanted_back i = -1) /\
  1 * 1 / 1024 <= length_of (exact_normal slanted) /\ 1 * 1 / 1024 <= length_of (exact_normal slanted_back) /\
  pixel_bytes [slanted; slanted_back] (Some 0%nat) = [147; 147; 147; 255]%Z /\
  pixel_bytes [slanted; slanted_back] (Some 1%nat) = [0; 0; 0; 255]%Z.
Proof.
  assert (fval (fz 1) = 1) as V1 by (vm_compute; lra).
  assert (fval f0 = 0) as V0 by reflexivity.
  assert (forall i, (i < 3)%nat -> exact_normal slanted i = 1 /\ exact_normal slanted_back i = -1) as N.
  { intros i Hi. unfold exact_normal, edge, comp, slanted, slanted_back. cbn [tv0 tv1 tv2].
    destruct i as [|[|[|i]]]; [..|lia]; cbn [cross vget vx vy vz]; rewrite V0, V1; lra. }
  assert (forall i, (i < 3)%nat -> Rabs (edge (tv0 slanted) (tv1 slanted) i) <= 1 /\ Rabs (edge (tv0 slanted) (tv2 slanted) i) <= 1) as B.
  { intros i Hi. unfold edge, comp, slanted. cbn [tv0 tv1 tv2].
    destruct i as [|[|[|i]]]; [..|lia]; cbn [vget vx vy vz]; rewrite V0, V1; split; apply Rabs_le; lra. }
  assert (forall i, (i < 3)%nat -> ffinite (vget (tv0 slanted) i) /\ ffinite (vget (tv1 slanted) i) /\ ffinite (vget (tv2 slanted) i)) as F.
  { intros i Hi. destruct i as [|[|[|i]]]; [..|lia]; repeat split; reflexivity. }
  assert (forall f, (forall i, (i < 3)%nat -> f i = 1) \/ (forall i, (i < 3)%nat -> f i = -1) -> 1 * 1 / 1024 <= length_of f) as L.
  { intros f H. unfold length_of.
    assert (f 0%nat * f 0%nat + f 1%nat * f 1%nat + f 2%nat * f 2%nat = 3) as ->.
    { destruct H as [H|H]; rewrite !H by lia; lra. }
    apply Rle_trans with (sqrt 1); [rewrite sqrt_1; lra|]. apply sqrt_le_1; lra. }
  split; [split; [exact F|exact B]|]. split.
  { split.
    - intros i Hi. destruct (F i Hi) as (X & Y & Z). split; [exact X|]. split; [exact Z|exact Y].
    - intros i Hi. destruct (B i Hi) as (X & Y). split; [exact Y|exact X]. }
  split; [exact N|]. split; [apply L; left; intros i Hi; apply (N i Hi)|]. split; [apply L; right; intros i Hi; apply (N i Hi)|].
  split; vm_compute; reflexivity.
Qed.
