(** * Property C73: moving the demo camera *)
Require Import List ZArith Bool Reals Machin Lia Lra.
From Flocq Require Import Core BinarySingleNaN.
From Verif Require Import F32 F32Facts Vec RayModel AabbModel Base SpecGeom AabbProofs PropBox TriModel SpecTri TriProofs TriError
  SpecMeasure PropMeasure CameraModel SpecCamera CameraProofs PropCamera SpecTransform PropTransform.
Import ListNotations.
Local Open Scope R_scope.

Lemma approx_scale : forall S S' x X c m, scale S -> S <= S' -> approx S x X c m -> approx S' x X c m.
Proof.
  intros S S' x X c m HS L A. pose proof (approx_c _ _ _ _ _ HS A). pose proof (approx_m _ _ _ _ _ HS A). pose proof ue_bounds.
  destruct A as (F & E & M). split; [auto|]. split.
  - eapply Rle_trans; [exact E|]. apply Rmult_le_compat_l; [apply Rmult_le_pos; lra|auto].
  - eapply Rle_trans; [exact M|]. apply Rmult_le_compat_l; auto.
Qed.
Lemma sized_comp : forall m v i, 0 < m -> sized m v -> approx m (vget v i) (comp v i) 0 1 /\ fin (vget v i) /\ Rabs (comp v i) <= m.
Proof.
  intros m v i M H. assert (coordinate (fun v => vget v i) \/ exists g, coordinate g /\ vget v i = g v) as K.
  { right. destruct i as [|[|i]]; [exists vx|exists vy|exists vz]; split; try reflexivity; unfold coordinate; auto. }
  assert (exists g, coordinate g /\ vget v i = g v) as (g & Hg & E) by (destruct i as [|[|i]]; [exists vx|exists vy|exists vz]; split; try reflexivity; unfold coordinate; auto).
  destruct (H g Hg) as [F B]. unfold comp. rewrite E. split; [|auto].
  unfold fval in *. rewrite <- (fr_fin _ F) in *. apply approx_exact; auto.
Qed.

(** [d x Y] is computed exactly. *)
Lemma cross_y : forall m d i, 1 <= m -> m <= bpow radix2 60 -> sized m d ->
  approx m (vget (vcross d vec_y) i) (rightwards d i) 0 1.
Proof.
  intros m d i M M' H. destruct (H vx cx) as [Fx Bx]. destruct (H vy cy) as [Fy By]. destruct (H vz cz) as [Fz Bz].
  assert (forall x : f32, fin x -> fin (fmul x f0) /\ fr (fmul x f0) = 0 /\ fin (fmul f0 x) /\ fr (fmul f0 x) = 0) as Z.
  { intros x F. destruct (fr_fmul x f0 F eq_refl) as [N1 E1]. destruct (fr_fmul f0 x eq_refl F) as [N2 E2].
    rewrite fr_f0 in E1, E2. rewrite Rmult_0_r, RN_0 in E1. rewrite Rmult_0_l, RN_0 in E2.
    assert (Rabs 0 < BIG) as B by (rewrite Rabs_R0; apply BIG_pos).
    split; [apply fin_of_fr; auto; rewrite E1; auto|]. split; [auto|]. split; [apply fin_of_fr; auto; rewrite E2; auto|auto]. }
  assert (forall x : f32, fin x -> fin (fmul x f1) /\ fr (fmul x f1) = fr x /\ fin (fmul f1 x) /\ fr (fmul f1 x) = fr x) as O.
  { intros x F. destruct (fr_fmul x f1 F eq_refl) as [N1 E1]. destruct (fr_fmul f1 x eq_refl F) as [N2 E2].
    rewrite fr_f1 in E1, E2. rewrite Rmult_1_r, RN_id in E1 by auto. rewrite Rmult_1_l, RN_id in E2 by auto.
    assert (Rabs (fr x) < BIG) as B by (eapply Rlt_trans; [apply fin_fr_lt; auto|apply bpow128_lt_BIG]).
    split; [apply fin_of_fr; auto; rewrite E1; auto|]. split; [auto|]. split; [apply fin_of_fr; auto; rewrite E2; auto|auto]. }
  assert (forall (x y : f32) (r : R) (w : f32), fin x -> fin y -> fin w -> (r = fr w \/ r = - fr w) -> fr x - fr y = r -> Rabs r <= m ->
     approx m (fsub x y) r 0 1) as Sb.
  { intros x y r w F1 F2 F3 Hr E B. destruct (fr_fsub x y F1 F2) as [N Es]. rewrite E in Es.
    assert (RN r = r) as Er by (destruct Hr as [-> | ->]; [apply RN_id; auto|rewrite RN_opp, RN_id by auto; auto]). rewrite Er in Es.
    assert (fin (fsub x y)) as F.
    { apply fin_of_fr; auto. rewrite Es. eapply Rle_lt_trans; [exact B|]. eapply Rle_lt_trans; [exact M'|]. unfold BIG. apply bpow_lt. reflexivity. }
    split; [exact F|]. rewrite Es, Rminus_diag_eq, Rabs_R0 by auto. split; lra. }
  unfold vcross, vec_y. destruct i as [|[|i]]; cbn [vget vx vy vz rightwards].
  - destruct (Z _ Fy) as (A1 & A2 & _). destruct (O _ Fz) as (_ & _ & B1 & B2).
    apply (Sb _ _ _ (vz d) A1 B1 Fz); [right; unfold fval; rewrite (fr_fin _ Fz); reflexivity| |rewrite Rabs_Ropp; auto].
    rewrite A2, B2. unfold fval. rewrite (fr_fin _ Fz). ring.
  - destruct (Z _ Fz) as (A1 & A2 & _). destruct (Z _ Fx) as (_ & _ & B1 & B2).
    apply (Sb _ _ _ f0 A1 B1 eq_refl); [left; symmetry; apply fr_f0|rewrite A2, B2; ring|rewrite Rabs_R0; lra].
  - destruct (O _ Fx) as (A1 & A2 & _). destruct (Z _ Fy) as (_ & _ & B1 & B2).
    apply (Sb _ _ _ (vx d) A1 B1 Fx); [left; unfold fval; rewrite (fr_fin _ Fx); reflexivity| |exact Bx].
    rewrite A2, B2. unfold fval. rewrite (fr_fin _ Fx). ring.
Qed.
Lemma y_approx : forall m i, 1 <= m -> approx m (vget vec_y i) (upwards i) 0 1.
Proof.
  intros m i M. destruct i as [|[|i]]; cbn [vget vec_y vx vy vz upwards]; (split; [reflexivity|]); rewrite ?fr_f0, ?fr_f1, Rminus_diag_eq, ?Rabs_R0, ?Rabs_R1 by auto; split; lra.
Qed.

Lemma vget_vadd : forall a b i, vget (vadd a b) i = fadd (vget a i) (vget b i).
Proof. intros a b [|[|i]]; reflexivity. Qed.
Lemma vget_vsub : forall a b i, vget (vsub a b) i = fsub (vget a i) (vget b i).
Proof. intros a b [|[|i]]; reflexivity. Qed.
Lemma vget_vscale : forall a k i, vget (vscale a k) i = fmul (vget a i) k.
Proof. intros a k [|[|i]]; reflexivity. Qed.
Lemma vget_scalev : forall a k i, vget (scalev k a) i = fmul k (vget a i).
Proof. intros a k [|[|i]]; reflexivity. Qed.

Lemma comp_fin : forall S v i X c m, approx S (vget v i) X c m -> comp v i = fr (vget v i).
Proof. intros S v i X c m (F & _). unfold comp, fval. symmetry. apply fr_fin. exact F. Qed.

Section Screen.
  Variables (tan : f32 -> f32) (v : view) (pos d : vec3) (m k : R).
  Hypothesis (Hm : 1 <= m <= 2 ^ 20) (Hk : 1 <= k <= 2 ^ 10) (Sp : sized m pos) (Sd : sized m d).
  Hypothesis (Ft : ffinite (screen_size tan v)) (Bt : Rabs (fval (screen_size tan v)) <= k).
  Hypothesis (Fa : ffinite (v_aspect v)) (Ba : Rabs (fval (v_aspect v)) <= k).
  Lemma screen_ok : let c := v_cam (set_screen tan v pos d (vcross d vec_y)) in
    forall i a b, 0 <= a <= 1 -> 0 <= b <= 1 ->
    Rabs (stored_point c a b i - screen_point pos d (fval (screen_size tan v)) (fval (v_aspect v)) a b i) <= 78 * ue * (k * m * k).
  Proof.
    intros c i a b Ha Hb.
    assert (scale m) as Sm by (apply (scale_le m 20 Hm); lia). assert (scale k) as Sk by (apply (scale_le k 10 Hk); lia).
    assert (1 <= k * m) as L1 by (replace 1 with (1 * 1) by ring; apply Rmult_le_compat; lra).
    assert (1 <= k * m * k) as L2 by (replace 1 with (1 * 1) by ring; apply Rmult_le_compat; lra).
    assert (k * m <= 2 ^ 10 * 2 ^ 20) as U1 by (apply Rmult_le_compat; lra).
    assert (k * m * k <= 2 ^ 10 * 2 ^ 20 * 2 ^ 10) as U2 by (apply Rmult_le_compat; lra).
    assert (scale (k * m)) as Skm by (apply (scale_le _ 30); [split; [exact L1|simpl in *; lra]|lia]).
    assert (scale (k * m * k)) as S by (apply (scale_le _ 40); [split; [exact L2|simpl in *; lra]|lia]).
    set (T := k * m * k) in *.
    assert (m <= T) as LmT by (unfold T; assert (m <= k * m) by nra; nra).
    assert (k * m <= T) as LkT by (unfold T; nra).
    set (t := screen_size tan v) in *. set (A := v_aspect v) in *.
    assert (approx k t (fval t) 0 1) as At by (unfold fval in *; rewrite <- (fr_fin t Ft) in *; apply approx_exact; auto; lra).
    assert (approx k A (fval A) 0 1) as Aa by (unfold fval in *; rewrite <- (fr_fin A Fa) in *; apply approx_exact; auto; lra).
    destruct (sized_comp m pos i ltac:(lra) Sp) as (Ap & _ & Bp). destruct (sized_comp m d i ltac:(lra) Sd) as (Ad & _ & Bd).
    pose proof (cross_y m d i (proj1 Hm) (proj2 Sm) Sd) as Ar. pose proof (y_approx m i (proj1 Hm)) as Ay.
    set (R := rightwards d i) in *. set (Y := upwards i) in *. set (C := comp pos i + comp d i) in *.
    set (r := vget (vcross d vec_y) i) in *. set (y := vget vec_y i) in *.
    assert (approx T (fmul (fmul t r) A) (fval t * R * fval A) (203 / 100) 1) as AX.
    { apply (approx_mul (k * m) k _ _ _ _ (101 / 100) 1 0 1); [exact Skm|exact Sk|exact S| |exact Aa|lra|lra|lra].
      apply (approx_mul k m _ _ _ _ 0 1 0 1); [exact Sk|exact Sm|exact Skm|exact At|exact Ar|lra|lra|lra]. }
    assert (approx T (fmul t y) (fval t * Y) (101 / 100) 1) as AY.
    { apply (approx_scale (k * m)); auto. apply (approx_mul k m _ _ _ _ 0 1 0 1); [exact Sk|exact Sm|exact Skm|exact At|exact Ay|lra|lra|lra]. }
    assert (approx T (fadd (vget pos i) (vget d i)) C (201 / 100) 2) as AC.
    { apply (approx_scale m); auto. apply (approx_add m _ _ _ _ 0 1 0 1); auto; lra. }
    set (X := fval t * R * fval A) in *. set (W := fval t * Y) in *.
    set (p1 := fadd (fsub (fadd (vget pos i) (vget d i)) (fmul (fmul t r) A)) (fmul t y)).
    set (p2 := fadd (fadd (fadd (vget pos i) (vget d i)) (fmul (fmul t r) A)) (fmul t y)).
    set (p3 := fsub (fsub (fadd (vget pos i) (vget d i)) (fmul (fmul t r) A)) (fmul t y)).
    assert (approx T p1 (C - X + W) (121 / 10) 4) as A1.
    { apply (approx_add T _ _ _ _ (706 / 100) 3 (101 / 100) 1); [exact S| |exact AY|lra|lra|lra].
      apply (approx_sub T _ _ _ _ (201 / 100) 2 (203 / 100) 1); [exact S|exact AC|exact AX|lra|lra|lra]. }
    assert (approx T p2 (C + X + W) (121 / 10) 4) as A2.
    { apply (approx_add T _ _ _ _ (706 / 100) 3 (101 / 100) 1); [exact S| |exact AY|lra|lra|lra].
      apply (approx_add T _ _ _ _ (201 / 100) 2 (203 / 100) 1); [exact S|exact AC|exact AX|lra|lra|lra]. }
    assert (approx T p3 (C - X - W) (121 / 10) 4) as A3.
    { apply (approx_sub T _ _ _ _ (706 / 100) 3 (101 / 100) 1); [exact S| |exact AY|lra|lra|lra].
      apply (approx_sub T _ _ _ _ (201 / 100) 2 (203 / 100) 1); [exact S|exact AC|exact AX|lra|lra|lra]. }
    assert (approx T (fsub p2 p1) (2 * X) (325 / 10) 8) as ARt.
    { replace (2 * X) with ((C + X + W) - (C - X + W)) by ring. apply (approx_sub T _ _ _ _ (121 / 10) 4 (121 / 10) 4); auto; lra. }
    assert (approx T (fsub p3 p1) (- 2 * W) (325 / 10) 8) as AUp.
    { replace (- 2 * W) with ((C - X - W) - (C - X + W)) by ring. apply (approx_sub T _ _ _ _ (121 / 10) 4 (121 / 10) 4); auto; lra. }
    assert (vget (c_p1 c) i = p1 /\ vget (c_right c) i = fsub p2 p1 /\ vget (c_up c) i = fsub p3 p1) as (E1 & E2 & E3).
    { unfold c, set_screen. cbv zeta. cbn [v_cam c_p1 c_right c_up]. rewrite !vget_vsub, !vget_vadd, !vget_vsub, !vget_vadd, !vget_vscale, !vget_scalev. repeat split; reflexivity. }
    unfold stored_point, comp. rewrite E1, E2, E3. unfold fval at 1 2 3.
    rewrite <- (fr_fin p1), <- (fr_fin (fsub p2 p1)), <- (fr_fin (fsub p3 p1)); [|apply AUp|apply ARt|apply A1].
    destruct A1 as (_ & D1 & _). destruct ARt as (_ & D2 & _). destruct AUp as (_ & D3 & _).
    unfold screen_point. fold C. fold R. fold Y.
    replace (fr p1 + a * fr (fsub p2 p1) + b * fr (fsub p3 p1) - (C + (2 * a - 1) * (fval t * fval A) * R + (1 - 2 * b) * fval t * Y))
      with ((fr p1 - (C - X + W)) + a * (fr (fsub p2 p1) - 2 * X) + b * (fr (fsub p3 p1) - - 2 * W)) by (unfold X, W; ring).
    eapply Rle_trans; [apply Rabs_triang|]. eapply Rle_trans; [apply Rplus_le_compat_r, Rabs_triang|].
    rewrite !Rabs_mult, (Rabs_pos_eq a), (Rabs_pos_eq b) by lra.
    pose proof ue_bounds. assert (0 <= ue * T) by (apply Rmult_le_pos; lra).
    assert (a * Rabs (fr (fsub p2 p1) - 2 * X) <= 1 * (325 / 10 * ue * T)) by (apply Rmult_le_compat; auto using Rabs_pos; lra).
    assert (b * Rabs (fr (fsub p3 p1) - - 2 * W) <= 1 * (325 / 10 * ue * T)) by (apply Rmult_le_compat; auto using Rabs_pos; lra).
    lra.
  Qed.
End Screen.

Lemma ue_24 : forall c q, c * ue * q = c * q / 2 ^ 24.
Proof. intros c q. unfold ue. simpl. lra. Qed.

(** ** C73 *)

(** Whatever the platform's [tan] returns for half the field of view: after
    [translate] and after [translate_target] the screen stored in the camera
    -- corner and edges, from which [generate_ray] takes its rays (C67) -- is the
    screen at distance one in front of the new position, in the new direction. *)
Theorem C73_screen : forall tan v offset v' m k,
  v' = translate tan v offset \/ v' = translate_target tan v offset ->
  1 <= m <= 2 ^ 20 -> 1 <= k <= 2 ^ 10 -> sized m (c_pos (v_cam v')) -> sized m (v_direction v') ->
  ffinite (screen_size tan v) -> Rabs (fval (screen_size tan v)) <= k ->
  ffinite (v_aspect v) -> Rabs (fval (v_aspect v)) <= k ->
  forall i a b, 0 <= a <= 1 -> 0 <= b <= 1 ->
  Rabs (stored_point (v_cam v') a b i -
        screen_point (c_pos (v_cam v')) (v_direction v') (fval (screen_size tan v)) (fval (v_aspect v)) a b i)
    <= 78 * (k * m * k) / 2 ^ 24.
Proof.
  intros tan v offset v' m k Hv Hm Hk Sp Sd Ft Bt Fa Ba i a b Ha Hb. rewrite <- ue_24.
  destruct Hv as [-> | ->].
  - unfold translate in *. cbv zeta in *. 
    exact (screen_ok tan v _ _ m k Hm Hk Sp Sd Ft Bt Fa Ba i a b Ha Hb).
  - unfold translate_target in *. cbv zeta in *.
    exact (screen_ok tan v _ _ m k Hm Hk Sp Sd Ft Bt Fa Ba i a b Ha Hb).
Qed.

(** [translate] moves the camera by [x] to the left, [y] up and [z] ahead, and
    changes nothing else but the screen. *)
Theorem C73_moves : forall tan v offset m, 1 <= m <= 2 ^ 20 ->
  sized m (c_pos (v_cam v)) -> sized 2 (v_direction v) -> sized m offset ->
  let v' := translate tan v offset in
  (forall i, ffinite (vget (c_pos (v_cam v')) i) /\
     Rabs (comp (c_pos (v_cam v')) i -
           (comp (c_pos (v_cam v)) i - comp offset 0 * rightwards (v_direction v) i + comp offset 1 * upwards i
              + comp offset 2 * comp (v_direction v) i)) <= 26 * m / 2 ^ 24) /\
  v_direction v' = v_direction v /\ v_aspect v' = v_aspect v /\ v_fov v' = v_fov v /\
  c_inv_width (v_cam v') = c_inv_width (v_cam v) /\ c_inv_height (v_cam v') = c_inv_height (v_cam v).
Proof.
  intros tan v offset m Hm Sp Sd So v'. split; [|repeat split].
  intro i.
  assert (scale m) as Sm by (apply (scale_le m 20 Hm); lia).
  assert (1 <= 2 <= 2 ^ 20) as H2 by (simpl; lra). assert (scale 2) as S2 by (apply (scale_le 2 20 H2); lia).
  assert (scale (m * 2)) as S by (apply (scale_le _ 21); [split; [lra|simpl in *; lra]|lia]).
  destruct (sized_comp m _ i ltac:(lra) Sp) as (Ap & _ & _). destruct (sized_comp 2 _ i ltac:(lra) Sd) as (Ad & _ & _).
  destruct (sized_comp m _ 0 ltac:(lra) So) as (A0 & F0 & B0). destruct (sized_comp m _ 1 ltac:(lra) So) as (A1 & _ & _). destruct (sized_comp m _ 2 ltac:(lra) So) as (A2 & _ & _).
  pose proof (cross_y 2 _ i ltac:(lra) (proj2 S2) Sd) as Ar. pose proof (y_approx 2 i ltac:(lra)) as Ay.
  assert (approx m (fneg (vget offset 0)) (- comp offset 0) 0 1) as An.
  { destruct (fr_neg (vget offset 0) (fin_notnan _ F0)) as [Nn En].
    assert (fin (fneg (vget offset 0))) as Fn by (unfold fneg; rewrite is_finite_Bopp; exact F0).
    split; [exact Fn|]. rewrite En. destruct A0 as (_ & E & L). rewrite Rabs_Ropp. split; [|exact L].
    replace (- fr (vget offset 0) - - comp offset 0) with (- (fr (vget offset 0) - comp offset 0)) by ring. rewrite Rabs_Ropp. exact E. }
  assert (vget (c_pos (v_cam v')) i = fadd (vget (c_pos (v_cam v)) i)
    (fadd (fadd (fmul (fneg (vget offset 0)) (vget (vcross (v_direction v) vec_y) i)) (fmul (vget offset 1) (vget vec_y i)))
          (fmul (vget offset 2) (vget (v_direction v) i)))) as E.
  { unfold v', translate, set_screen. cbv zeta. cbn [v_cam c_pos]. rewrite !vget_vadd, !vget_scalev. reflexivity. }
  assert (approx (m * 2) (vget (c_pos (v_cam v')) i)
    (comp (c_pos (v_cam v)) i + (- comp offset 0 * rightwards (v_direction v) i + comp offset 1 * upwards i + comp offset 2 * comp (v_direction v) i)) 13 4) as K.
  { rewrite E.
    apply (approx_add (m * 2) _ _ _ _ 0 1 (81 / 10) 3); [exact S|apply (approx_scale m); [exact Sm|lra|exact Ap]| |lra|lra|lra].
    apply (approx_add (m * 2) _ _ _ _ (404 / 100) 2 (101 / 100) 1); [exact S| | |lra|lra|lra].
    - apply (approx_add (m * 2) _ _ _ _ (101 / 100) 1 (101 / 100) 1); [exact S| | |lra|lra|lra].
      + apply (approx_mul m 2 _ _ _ _ 0 1 0 1); [exact Sm|exact S2|exact S|exact An|exact Ar|lra|lra|lra].
      + apply (approx_mul m 2 _ _ _ _ 0 1 0 1); [exact Sm|exact S2|exact S|exact A1|exact Ay|lra|lra|lra].
    - apply (approx_mul m 2 _ _ _ _ 0 1 0 1); [exact Sm|exact S2|exact S|exact A2|exact Ad|lra|lra|lra]. }
  split; [apply K|]. rewrite (comp_fin _ _ _ _ _ _ K). destruct K as (_ & G & _).
  replace (26 * m / 2 ^ 24) with (13 * ue * (m * 2)) by (unfold ue; simpl; lra).
  match goal with |- Rabs (?a - ?b) <= _ => match type of G with Rabs (_ - ?c) <= _ => replace b with c by ring end end. exact G.
Qed.

(** [translate_target] turns the camera towards the point the offset points to
    on the old screen: the new direction is the exact unit vector up to
    rounding, and everything else but the screen stays. *)
Theorem C73_turns : forall tan v offset m q, 1 <= m <= 2 ^ 20 -> 1 <= q <= 2 ^ 20 ->
  sized m (v_direction v) -> sized m (c_right (v_cam v)) -> sized m (c_up (v_cam v)) -> sized q offset ->
  let t := turned (v_direction v) (c_right (v_cam v)) (c_up (v_cam v)) (comp offset 0) (comp offset 1) in
  q * m / 1024 <= length_of t ->
  let v' := translate_target tan v offset in
  (forall i, (i < 3)%nat -> ffinite (vget (v_direction v') i) /\
     Rabs (comp (v_direction v') i - t i / length_of t) <= (60 * (q * m / length_of t) + 7) / 2 ^ 24) /\
  c_pos (v_cam v') = c_pos (v_cam v) /\ v_aspect v' = v_aspect v /\ v_fov v' = v_fov v /\
  c_inv_width (v_cam v') = c_inv_width (v_cam v) /\ c_inv_height (v_cam v') = c_inv_height (v_cam v).
Proof.
  intros tan v offset m q Hm Hq Sd Sr Su So t HL v'. split; [|repeat split].
  assert (scale m) as Sm by (apply (scale_le m 20 Hm); lia). assert (scale q) as Sq by (apply (scale_le q 20 Hq); lia).
  assert (1 <= q * m) as L1 by (replace 1 with (1 * 1) by ring; apply Rmult_le_compat; lra).
  assert (q * m <= 2 ^ 20 * 2 ^ 20) as U1 by (apply Rmult_le_compat; lra).
  assert (scale (q * m)) as S by (apply (scale_le _ 40); [split; [exact L1|simpl in *; lra]|lia]).
  set (w := vsub (vsub (v_direction v) (scalev (vx offset) (c_right (v_cam v)))) (scalev (vy offset) (c_up (v_cam v)))).
  set (W := fun g : vec3 -> f32 => fr (g (v_direction v)) - fr (vx offset) * fr (g (c_right (v_cam v))) - fr (vy offset) * fr (g (c_up (v_cam v)))).
  destruct (So vx cx) as [Fox Box]. destruct (So vy cy) as [Foy Boy].
  assert (forall g, coordinate g -> approx (q * m) (g w) (W g) 8 3) as Aw.
  { intros g Hg. destruct (Sd g Hg) as [Fd Bd]. destruct (Sr g Hg) as [Fr Br]. destruct (Su g Hg) as [Fu Bu].
    unfold fval in *. rewrite <- (fr_fin _ Fd) in Bd. rewrite <- (fr_fin _ Fr) in Br. rewrite <- (fr_fin _ Fu) in Bu. rewrite <- (fr_fin _ Fox) in Box. rewrite <- (fr_fin _ Foy) in Boy.
    assert (g w = fsub (fsub (g (v_direction v)) (fmul (vx offset) (g (c_right (v_cam v))))) (fmul (vy offset) (g (c_up (v_cam v))))) as ->
      by (destruct Hg as [-> | [-> | ->]]; reflexivity).
    assert (forall m' x, 1 <= m' -> fin x -> Rabs (fr x) <= m' -> approx m' x (fr x) 0 1) as Ex by (intros m' x M1 F B; apply approx_exact; auto; lra).
    unfold W.
    apply (approx_sub (q * m) _ _ _ _ (303 / 100) 2 (101 / 100) 1); [exact S| | |lra|lra|lra].
    - apply (approx_sub (q * m) _ _ _ _ 0 1 (101 / 100) 1); [exact S| | |lra|lra|lra].
      + apply (approx_scale m); [exact Sm|nra|apply Ex; auto; lra].
      + apply (approx_mul q m _ _ _ _ 0 1 0 1); [exact Sq|exact Sm|exact S|apply Ex; auto; lra|apply Ex; auto; lra|lra|lra|lra].
    - apply (approx_mul q m _ _ _ _ 0 1 0 1); [exact Sq|exact Sm|exact S|apply Ex; auto; lra|apply Ex; auto; lra|lra|lra|lra]. }
  assert (forall g, g = vx \/ g = vy \/ g = vz -> fin (g w) /\ Rabs (fr (g w) - W g) <= 20 * ue * (q * m) /\ Rabs (W g) <= 4 * (q * m)) as Er.
  { intros g Hg. destruct (Aw g Hg) as (F & E & B). pose proof ue_bounds. assert (0 <= ue * (q * m)) by (apply Rmult_le_pos; lra).
    split; [auto|]. split; lra. }
  assert (W vx = t 0%nat /\ W vy = t 1%nat /\ W vz = t 2%nat) as (W0 & W1 & W2).
  { unfold W, t, turned, comp, fval. cbn [vget].
    rewrite (fr_fin _ Fox), (fr_fin _ Foy).
    destruct (Sd vx cx) as [D1 _], (Sd vy cy) as [D2 _], (Sd vz cz) as [D3 _].
    destruct (Sr vx cx) as [R1 _], (Sr vy cy) as [R2 _], (Sr vz cz) as [R3 _].
    destruct (Su vx cx) as [U1' _], (Su vy cy) as [U2 _], (Su vz cz) as [U3 _].
    rewrite (fr_fin _ D1), (fr_fin _ D2), (fr_fin _ D3), (fr_fin _ R1), (fr_fin _ R2), (fr_fin _ R3), (fr_fin _ U1'), (fr_fin _ U2), (fr_fin _ U3). auto. }
  assert (sqrt (dist2_of W) = length_of t) as EL by (unfold dist2_of, length_of; rewrite W0, W1, W2; reflexivity).
  assert (1 <= q * m <= bpow radix2 40) as HS by (split; [auto|]; replace (bpow radix2 40) with (2 ^ 20 * 2 ^ 20) by (simpl; lra); auto).
  assert (q * m / 1024 <= sqrt (dist2_of W)) as HL' by (rewrite EL; exact HL).
  pose proof (near_aim w W (q * m) HS Er HL') as N. rewrite EL in N.
  assert (forall g, g = vx \/ g = vy \/ g = vz -> forall i, t i = W g -> vget (v_direction v') i = g (vnormalize w) ->
    ffinite (vget (v_direction v') i) /\ Rabs (comp (v_direction v') i - t i / length_of t) <= (60 * (q * m / length_of t) + 7) / 2 ^ 24) as G.
  { intros g Hg i Et Ev. unfold comp. rewrite Ev, Et. destruct (N g Hg) as [F B]. split; [exact F|]. unfold fval. rewrite <- (fr_fin _ F).
    replace ((60 * (q * m / length_of t) + 7) / 2 ^ 24) with ((60 * (q * m / length_of t) + 7) * ue) by (unfold ue; simpl; lra). exact B. }
  intros i Hi. destruct i as [|[|[|i]]]; [..|lia]; [apply (G vx)|apply (G vy)|apply (G vz)]; auto.
Qed.

(** The screen is as wide as the field of view says: the argument [generate]
    passes to [tan] is half the angle, in radians. *)
Lemma pi_bounds : 31415926 / 10000000 < PI < 31415928 / 10000000.
Proof.
  pose proof (PI_2_3_7_ineq 4) as [L U]. cbn [Nat.mul Nat.add sum_f_R0] in L, U. unfold tg_alt, PI_2_3_7_tg, Ratan_seq in L, U.
  cbn -[Rmult Rplus Rdiv Rinv IZR INR] in L, U. rewrite !INR_IZR_INZ in L, U. cbn in L, U. lra.
Qed.
Theorem C73_angle : forall tan v, ffinite (v_fov v) -> Rabs (fval (v_fov v)) <= 360 ->
  exists x, screen_size tan v = tan x /\ ffinite x /\ Rabs (fval x - fval (v_fov v) / 2 * PI / 180) <= 16 / 2 ^ 24.
Proof.
  intros tan v F B. exists (fdiv (fmul (v_fov v) fhalf) (fdiv f180 f_pi)). split; [reflexivity|].
  set (y := v_fov v) in *. assert (fin y) as Fy by exact F.
  unfold fval in B. rewrite <- (fr_fin y Fy) in B.
  assert (fin (fdiv f180 f_pi)) as FD by (vm_compute; reflexivity).
  assert (fr (fdiv f180 f_pi) = 15019744 / 262144) as VD.
  { rewrite (fr_fin _ FD). replace (fdiv f180 f_pi) with (@B754_finite 24 128 false 15019744 (-18) eq_refl) by (apply B2SF_inj; vm_compute; reflexivity).
    unfold B2R, F2R. simpl. lra. }
  assert (fr fhalf = 1 / 2) as Vh by (rewrite fr_fin by reflexivity; unfold fhalf, B2R, F2R; simpl; lra).
  destruct (fr_fmul y fhalf Fy eq_refl) as [N1 E1]. rewrite Vh in E1.
  assert (bpow radix2 127 >= 1000000) as BB by (apply Rle_ge; change 1000000 with (IZR 1000000); eapply Rle_trans; [|apply (bpow_le radix2 20 127); lia]; simpl; lra).
  assert (0 < bpow radix2 (-150) <= / 1000000000000) as SS.
  { split; [apply bpow_gt_0|]. eapply Rle_trans; [apply (bpow_le radix2 (-150) (-40)); lia|]. simpl. lra. }
  assert (Rabs (fr y * (1 / 2)) <= 180) as B1 by (rewrite Rabs_mult, (Rabs_pos_eq (1 / 2)) by lra; lra).
  destruct (rnd_step _ _ 180 N1 E1 B1 ltac:(lra)) as [F1 D1].
  set (h := fmul y fhalf) in *.
  assert (Rabs (fr h) <= 181) as Bh by (unfold ue in D1; split_Rabs; lra).
  destruct (fr_fdiv h (fdiv f180 f_pi) F1 FD) as [N2 E2]; [rewrite VD; lra|].
  rewrite VD in E2. replace (fr h / (15019744 / 262144)) with (fr h * (262144 / 15019744)) in E2 by (field).
  assert (Rabs (fr h * (262144 / 15019744)) <= 4) as B2 by (rewrite Rabs_mult, (Rabs_pos_eq (262144 / 15019744)) by lra; lra).
  destruct (rnd_step _ _ 4 N2 E2 B2 ltac:(lra)) as [F2 D2]. split; [exact F2|].
  unfold fval. rewrite <- (fr_fin _ F2), <- (fr_fin _ Fy). pose proof pi_bounds as [PL PU].
  set (x := fdiv h (fdiv f180 f_pi)) in *.
  assert (Rabs (fr y / 2 * (PI / 180 - 262144 / 15019744)) <= 36 / 100000000) as D3.
  { rewrite Rabs_mult. assert (Rabs (PI / 180 - 262144 / 15019744) <= 2 / 1000000000) as A by (apply Rabs_le; lra).
    assert (Rabs (fr y / 2) <= 180) as A' by (replace (fr y / 2) with (fr y * (1/2)) by lra; exact B1).
    pose proof (Rabs_pos (fr y / 2)). pose proof (Rabs_pos (PI / 180 - 262144 / 15019744)). nra. }
  unfold ue in D1, D2. replace (fr y / 2 * PI / 180) with (fr y / 2 * (PI / 180 - 262144 / 15019744) + fr y / 2 * (262144 / 15019744)) by lra.
  simpl. split_Rabs; lra.
Qed.

(** A camera at (0, 2, 0) looking along z, moved and turned. *)
Definition demo_view : view := View (Camera (V3 f0 f2 f0) (V3 (fneg f2) f0 f0) (V3 f0 (fneg f2) f0) (V3 f1 (fz 3) f1) fhalf fhalf) (V3 f0 f0 f1) f1 f2.
Lemma sized_check : forall (m : f32) v, ffinite m -> vfinite v -> vwithin m v -> sized (fval m) v.
Proof.
  intros m v Fm (F1 & F2 & F3) [(A1 & A2 & A3) (B1 & B2 & B3)]. cbn [vsplat vx vy vz] in *.
  destruct (fr_neg m (fin_notnan _ Fm)) as [Nn En].
  assert (forall x : f32, fin x -> fle (fneg m) x = true -> fle x m = true -> ffinite x /\ Rabs (fval x) <= fval m) as G.
  { intros x F A B. split; [exact F|]. apply fle_spec in A; [|exact Nn|apply fin_notnan; auto]. apply fle_spec in B; [|apply fin_notnan; auto|apply fin_notnan; auto].
    rewrite En in A. unfold fval. rewrite <- (fr_fin x F), <- (fr_fin m Fm). apply Rabs_le. lra. }
  intros g [-> | [-> | ->]]; apply G; auto.
Qed.
Example C73_nonvacuous : let tan := fun _ : f32 => f1 in
  let moved := translate tan demo_view (V3 f1 f1 f2) in let turned_view := translate_target tan demo_view (V3 fhalf f0 f0) in
  sized 4 (c_pos (v_cam moved)) /\ sized 4 (v_direction moved) /\ sized 4 (c_pos (v_cam turned_view)) /\ sized 4 (v_direction turned_view) /\
  sized 4 (c_pos (v_cam demo_view)) /\ sized 2 (v_direction demo_view) /\ sized 4 (V3 f1 f1 f2) /\
  sized 2 (c_right (v_cam demo_view)) /\ sized 2 (c_up (v_cam demo_view)) /\ sized 1 (V3 fhalf f0 f0) /\
  1 * 2 / 1024 <= length_of (turned (v_direction demo_view) (c_right (v_cam demo_view)) (c_up (v_cam demo_view)) (/ 2) 0) /\
  feq (vz (c_pos (v_cam moved))) f2 = true /\ feq (vx (v_direction turned_view)) (vz (v_direction turned_view)) = true.
Proof.
  cbv zeta.
  assert (fval f1 = 1) as V1 by (unfold f1, fval, B2R, F2R; simpl; lra).
  assert (fval f2 = 2) as V2 by (unfold f2, fval, B2R, F2R; simpl; lra).
  assert (fval (fadd f2 f2) = 4) as V4.
  { assert (fadd f2 f2 = @B754_finite 24 128 false 8388608 (-21) eq_refl) as -> by (apply B2SF_inj; vm_compute; reflexivity). unfold fval, B2R, F2R; simpl; lra. }
  assert (forall v, vfinite v -> vwithin (fadd f2 f2) v -> sized 4 v) as S4 by (intros v A B; rewrite <- V4; apply sized_check; auto; vm_compute; reflexivity).
  assert (forall v, vfinite v -> vwithin f2 v -> sized 2 v) as S2 by (intros v A B; rewrite <- V2; apply sized_check; auto; vm_compute; reflexivity).
  assert (forall v, vfinite v -> vwithin f1 v -> sized 1 v) as S1 by (intros v A B; rewrite <- V1; apply sized_check; auto; vm_compute; reflexivity).
  repeat match goal with |- sized _ _ /\ _ => split; [first [apply S4|apply S2|apply S1]; repeat split; vm_compute; reflexivity|] end.
  split; [|split; vm_compute; reflexivity].
  apply Rle_trans with (sqrt 1); [rewrite sqrt_1; lra|]. unfold length_of. apply sqrt_le_1_alt.
  assert (turned (v_direction demo_view) (c_right (v_cam demo_view)) (c_up (v_cam demo_view)) (/ 2) 0 2 = 1) as ->.
  { unfold turned, comp. cbn [demo_view v_direction v_cam c_right c_up vget vx vy vz]. rewrite V1. assert (fval f0 = 0) as -> by reflexivity. ring. }
  match goal with |- 1 <= ?a * ?a + ?b * ?b + _ => pose proof (Rle_0_sqr a); pose proof (Rle_0_sqr b) end. unfold Rsqr in *. lra.
Qed.
