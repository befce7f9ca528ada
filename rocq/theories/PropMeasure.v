(** * Properties C06 (measures of boxes) and C69 (points on rays, reflection) *)
Require Import List ZArith Bool Reals Lia Lra.
From Flocq Require Import Core BinarySingleNaN.
From Verif Require Import F32 F32Facts Vec RayModel AabbModel Base SpecGeom AabbProofs PropBox TriModel SpecTri TriProofs TriError SpecMeasure.
Import ListNotations.

(** ** C06: predicates *)

(** A box is valid exactly if it contains a point. *)
Theorem C06_is_valid : forall b, is_valid b = true <-> exists p, in_box b p.
Proof.
  intro b. unfold is_valid. rewrite !andb_true_iff. split.
  - intros [[A B] C]. exists (bmin b). split; [|repeat split; auto].
    repeat split; apply fle_refl; first [apply (proj1 (fle_notnan _ _ A)) | apply (proj1 (fle_notnan _ _ B)) | apply (proj1 (fle_notnan _ _ C))].
  - intros [p [(A1 & A2 & A3) (B1 & B2 & B3)]]. repeat split; eapply fle_trans; eauto.
Qed.

(** [contains] is strict: it accepts exactly the interior points. *)
Theorem C06_contains : forall b p, contains b p = true <-> vlt (bmin b) p /\ vlt p (bmax b).
Proof.
  intros b p. unfold contains, vlt. rewrite !andb_true_iff. unfold fgt, flt. tauto.
Qed.

(** The full box contains every point with coordinates in [-1e34, 1e34], the
    empty box none; uniting with either gives the full, resp. the other box. *)
Theorem C01_full_empty : forall p, (in_box aabb_full p <-> vwithin f1e34 p) /\ ~ in_box aabb_new p /\
  forall b, box_within f1e34 b -> box_in (union_of aabb_full b) aabb_full /\ box_in (union_of aabb_new b) b.
Proof.
  intro p. split; [split; intros [A B]; split; auto|]. split.
  - intro H. assert (is_valid aabb_new = true) as K by (apply C06_is_valid; exists p; exact H). vm_compute in K. discriminate.
  - intros b [[A1 A2] [B1 B2]]. assert (vle (vsplat (fneg f1e34)) (vsplat (fneg f1e34))) as L by (repeat split; vm_compute; reflexivity).
    assert (vle (vsplat f1e34) (vsplat f1e34)) as U by (repeat split; vm_compute; reflexivity).
    assert (vok (bmin b) /\ vok (bmax b)) as [K1 K2] by (apply vle_ok in A2; apply vle_ok in B2; tauto).
    split; split; cbn [union_of aabb_full aabb_new bmin bmax]; first [apply vmin_glb; auto | apply vmax_lub; auto]; apply vle_refl; auto.
Qed.

(** ** C06: values *)
Local Open Scope R_scope.

Lemma sized_exact : forall m v g, 1 <= m -> sized m v -> coordinate g -> approx m (g v) (fval (g v)) 0 1.
Proof.
  intros m v g M H Hg. destruct (H g Hg) as [F B]. unfold fval in *. rewrite <- (fr_fin _ F) in *. apply approx_exact; auto; lra.
Qed.

Lemma cx : coordinate vx. Proof. left; auto. Qed.
Lemma cy : coordinate vy. Proof. right; left; auto. Qed.
Lemma cz : coordinate vz. Proof. right; right; auto. Qed.
Local Hint Resolve cx cy cz : core.

Lemma scale_le : forall m k, 1 <= m <= 2 ^ k -> (k <= 60)%nat -> scale m.
Proof.
  intros m k [A B] K. split; [auto|]. eapply Rle_trans; [exact B|].
  replace (bpow radix2 60) with (2 ^ 60) by (simpl; lra). apply Rle_pow; [lra|lia].
Qed.
Lemma p20_40 : 2 ^ 20 * 2 ^ 20 = 2 ^ 40.
Proof. rewrite <- pow_add. reflexivity. Qed.
Lemma scale2 : forall m, 1 <= m <= 2 ^ 20 -> scale (m * m).
Proof.
  intros m [A B]. apply (scale_le _ 40); [|lia]. split.
  - replace 1 with (1 * 1) by ring. apply Rmult_le_compat; lra.
  - rewrite <- p20_40. apply Rmult_le_compat; lra.
Qed.
Lemma scale3 : forall m, 1 <= m <= 2 ^ 20 -> scale (m * m * m).
Proof.
  intros m H. destruct (scale2 m H) as [A _]. destruct H as [H1 H2]. apply (scale_le _ 60); [|lia]. split.
  - replace 1 with (1 * 1) by ring. apply Rmult_le_compat; lra.
  - replace (2 ^ 60) with (2 ^ 40 * 2 ^ 20) by (rewrite <- pow_add; reflexivity). rewrite <- p20_40. repeat apply Rmult_le_compat; try lra.
Qed.

Lemma extent_approx : forall b m g, scale m -> sized m (bmin b) -> sized m (bmax b) -> coordinate g ->
  approx m (fsub (g (bmax b)) (g (bmin b))) (extent b g) (201 / 100) 2.
Proof.
  intros b m g S A B Hg. destruct S as [S1 S2]. unfold extent.
  eapply (approx_sub m _ _ _ _ 0 1 0 1); [split; auto|apply sized_exact; auto|apply sized_exact; auto|lra|lra|lra].
Qed.

Lemma approx_final : forall S x X c m, approx S x X c m -> ffinite x /\ Rabs (fval x - X) <= c * S / 2 ^ 24.
Proof.
  intros S x X c m (F & E & _). split; [exact F|]. unfold fval. rewrite <- (fr_fin _ F).
  replace (c * S / 2 ^ 24) with (c * ue * S) by (unfold ue; simpl; lra). exact E.
Qed.

(** [extend], [lengths] and [diagonal] give the exact extents up to rounding. *)
Theorem C06_extents : forall b m, 1 <= m <= 2 ^ 60 -> sized m (bmin b) -> sized m (bmax b) ->
  forall k g, nth_error [vx; vy; vz] k = Some g ->
  ffinite (extend b k) /\ Rabs (fval (extend b k) - extent b g) <= 3 * m / 2 ^ 24 /\
  g (lengths b) = extend b k /\ g (diagonal b) = extend b k.
Proof.
  intros b m M A B k g H. pose proof (scale_le m 60 M (Nat.le_refl _)) as S.
  assert (extend b k = fsub (g (bmax b)) (g (bmin b)) /\ coordinate g) as [E Hg].
  { destruct k as [|[|[|k]]]; cbn [nth_error] in H; [..|destruct k; discriminate]; (assert (g = vx \/ g = vy \/ g = vz) as K by (injection H; auto)); split; auto; injection H as <-; reflexivity. }
  destruct (approx_final _ _ _ _ _ (extent_approx b m g S A B Hg)) as [F V]. rewrite E. split; [exact F|]. split.
  - eapply Rle_trans; [exact V|]. simpl. lra.
  - destruct Hg as [-> | [-> | ->]]; split; reflexivity.
Qed.

(** [half_area] and [area] are half the surface (the sum without the factor 2)
    and [volume] the volume, up to rounding. *)
Theorem C06_half_area_value : forall b m, 1 <= m <= 2 ^ 20 -> sized m (bmin b) -> sized m (bmax b) ->
  ffinite (half_area b) /\ Rabs (fval (half_area b) - half_surface b) <= 60 * (m * m) / 2 ^ 24.
Proof.
  intros b m M A B. assert (scale m) as S by (apply (scale_le m 20 M); lia). pose proof (scale2 m M) as S2.
  pose proof (extent_approx b m vx S A B cx) as X. pose proof (extent_approx b m vy S A B cy) as Y. pose proof (extent_approx b m vz S A B cz) as Z.
  assert (half_surface b = (extent b vx + extent b vy) * extent b vz + extent b vx * extent b vy) as -> by (unfold half_surface; ring).
  eapply approx_final. unfold half_area. cbv zeta.
  eapply (approx_add (m * m) _ _ _ _ (327 / 10) 8 (124 / 10) 4); [exact S2| | |lra|lra|apply Rle_refl].
  - eapply (approx_mul m m _ _ _ _ (81 / 10) 4 (201 / 100) 2); [exact S|exact S|exact S2| |exact Z|lra|lra|lra].
    eapply (approx_add m _ _ _ _ (201 / 100) 2 (201 / 100) 2); [exact S|exact X|exact Y|lra|lra|lra].
  - eapply (approx_mul m m _ _ _ _ (201 / 100) 2 (201 / 100) 2); [exact S|exact S|exact S2|exact X|exact Y|lra|lra|lra].
Qed.

Theorem C06_area_value : forall b m, 1 <= m <= 2 ^ 20 -> sized m (bmin b) -> sized m (bmax b) -> vle (bmin b) (bmax b) ->
  ffinite (area b) /\ Rabs (fval (area b) - half_surface b) <= 60 * (m * m) / 2 ^ 24.
Proof.
  intros b m M A B V. assert (scale m) as S by (apply (scale_le m 20 M); lia). pose proof (scale2 m M) as S2.
  pose proof (extent_approx b m vx S A B cx) as X. pose proof (extent_approx b m vy S A B cy) as Y. pose proof (extent_approx b m vz S A B cz) as Z.
  set (e := lengths b) in *.
  assert (approx (m * m) (fadd (fadd (fmul (vx e) (vy e)) (fmul (vx e) (vz e))) (fmul (vy e) (vz e)))
     (extent b vx * extent b vy + extent b vx * extent b vz + extent b vy * extent b vz) 60 12) as K.
  { eapply (approx_add (m * m) _ _ _ _ (33 ) 8 (124 / 10) 4); [exact S2| | |lra|lra|lra].
    - eapply (approx_add (m * m) _ _ _ _ (124 / 10) 4 (124 / 10) 4); [exact S2| | |lra|lra|lra];
        (eapply (approx_mul m m _ _ _ _ (201 / 100) 2 (201 / 100) 2); [exact S|exact S|exact S2|try exact X; exact Y|try exact Z; exact Y|lra|lra|lra]) ||
        (eapply (approx_mul m m _ _ _ _ (201 / 100) 2 (201 / 100) 2); [exact S|exact S|exact S2|exact X|exact Z|lra|lra|lra]) ||
        (eapply (approx_mul m m _ _ _ _ (201 / 100) 2 (201 / 100) 2); [exact S|exact S|exact S2|exact X|exact Y|lra|lra|lra]).
    - eapply (approx_mul m m _ _ _ _ (201 / 100) 2 (201 / 100) 2); [exact S|exact S|exact S2|exact Y|exact Z|lra|lra|lra]. }
  replace (extent b vx * extent b vy + extent b vx * extent b vz + extent b vy * extent b vz) with (half_surface b) in K by (unfold half_surface; ring).
  destruct K as (F & E & _). unfold area. cbv zeta. fold e. set (r := fadd (fadd (fmul (vx e) (vy e)) (fmul (vx e) (vz e))) (fmul (vy e) (vz e))) in *.
  assert (forall g, coordinate g -> 0 <= extent b g) as P.
  { intros g Hg. unfold extent. assert (fle (g (bmin b)) (g (bmax b)) = true) as L by (destruct V as (V1 & V2 & V3); destruct Hg as [-> | [-> | ->]]; auto).
    destruct (A g Hg) as [Fa _]. destruct (B g Hg) as [Fb _]. apply fle_spec in L; [|apply fin_notnan; auto..].
    rewrite (fr_fin _ Fa), (fr_fin _ Fb) in L. unfold fval. lra. }
  assert (0 <= half_surface b) as PS.
  { unfold half_surface. pose proof (P vx cx). pose proof (P vy cy). pose proof (P vz cz).
    repeat apply Rplus_le_le_0_compat; apply Rmult_le_pos; auto. }
  assert (is_nan r = false) as N by (apply fin_notnan; auto).
  assert (is_finite (fmax f0 r) = true) as FM.
  { unfold fmax. repeat match goal with |- context [if ?c then _ else _] => destruct c end; auto. }
  split; [exact FM|].
  unfold fval. rewrite <- (fr_fin _ FM). rewrite fr_fmax; [|reflexivity|exact N].
  assert (fr f0 = 0) as E0 by reflexivity. rewrite E0.
  replace (60 * (m * m) / 2 ^ 24) with (60 * ue * (m * m)) by (unfold ue; simpl; lra).
  apply Rabs_le_inv in E. apply Rabs_le. unfold Rmax. destruct (Rle_dec 0 (fr r)); lra.
Qed.

Theorem C06_volume_value : forall b m, 1 <= m <= 2 ^ 20 -> sized m (bmin b) -> sized m (bmax b) ->
  ffinite (volume b) /\ Rabs (fval (volume b) - box_volume b) <= 42 * (m * m * m) / 2 ^ 24.
Proof.
  intros b m M A B. assert (scale m) as S by (apply (scale_le m 20 M); lia). pose proof (scale2 m M) as S2. pose proof (scale3 m M) as S3.
  pose proof (extent_approx b m vx S A B cx) as X. pose proof (extent_approx b m vy S A B cy) as Y. pose proof (extent_approx b m vz S A B cz) as Z.
  eapply approx_final. unfold volume, box_volume. cbv zeta.
  eapply (approx_mul (m * m) m _ _ _ _ (124 / 10) 4 (201 / 100) 2); [exact S2|exact S|exact S3| |exact Z|lra|lra|apply Rle_refl].
  eapply (approx_mul m m _ _ _ _ (201 / 100) 2 (201 / 100) 2); [exact S|exact S|exact S2|exact X|exact Y|lra|lra|lra].
Qed.

Example C06_value_nonvacuous : exists b, sized 2 (bmin b) /\ sized 2 (bmax b) /\ vle (bmin b) (bmax b) /\ half_surface b = 8.
Proof.
  assert (fval f0 = 0) as V0 by reflexivity.
  assert (fval f1 = 1) as V1 by (unfold f1, fval, B2R, F2R; simpl; lra).
  assert (fval f2 = 2) as V2 by (unfold f2, fval, B2R, F2R; simpl; lra).
  exists (Bb (V3 f0 f0 f0) 0 (V3 f2 f2 f1) 0). cbn [bmin bmax].
  split; [|split; [|split]].
  - intros g [-> | [-> | ->]]; (split; [reflexivity|]); cbn [vx vy vz]; rewrite V0, Rabs_R0; lra.
  - intros g [-> | [-> | ->]]; (split; [reflexivity|]); cbn [vx vy vz]; rewrite ?V1, ?V2, Rabs_pos_eq; lra.
  - repeat split; vm_compute; reflexivity.
  - unfold half_surface, extent. cbn [bmin bmax vx vy vz]. rewrite V0, V1, V2. lra.
Qed.

(** ** C69: points on a ray and reflection *)

(** [get_point_at] is the ray's point up to rounding. *)
Theorem C69_point_at : forall r t a b, 1 <= a -> 1 <= b -> a * b <= 2 ^ 60 ->
  ffinite t -> Rabs (fval t) <= a -> sized b (r_dir r) -> sized (a * b) (r_origin r) ->
  forall g, coordinate g ->
  ffinite (g (ray_point_at r t)) /\
  Rabs (fval (g (ray_point_at r t)) - (fval (g (r_origin r)) + fval t * fval (g (r_dir r)))) <= 4 * (a * b) / 2 ^ 24.
Proof.
  intros r t a b A B AB Ft Bt D O g Hg.
  assert (1 <= a * b) as P by (replace 1 with (1 * 1) by ring; apply Rmult_le_compat; lra).
  assert (scale a) as Sa by (apply (scale_le a 60); [split; [lra|]; eapply Rle_trans; [|exact AB]; rewrite <- (Rmult_1_r a) at 1; apply Rmult_le_compat; lra|lia]).
  assert (scale b) as Sb by (apply (scale_le b 60); [split; [lra|]; eapply Rle_trans; [|exact AB]; rewrite <- (Rmult_1_l b) at 1; apply Rmult_le_compat; lra|lia]).
  assert (scale (a * b)) as Sab by (apply (scale_le _ 60); [lra|lia]).
  assert (approx a t (fval t) 0 1) as At.
  { unfold fval in *. rewrite <- (fr_fin _ Ft) in *. apply approx_exact; auto; lra. }
  assert (g (ray_point_at r t) = fadd (g (r_origin r)) (fmul t (g (r_dir r)))) as -> by (destruct Hg as [-> | [-> | ->]]; reflexivity).
  assert (approx (a * b) (fadd (g (r_origin r)) (fmul t (g (r_dir r)))) (fval (g (r_origin r)) + fval t * fval (g (r_dir r))) 4 2) as K.
  { eapply (approx_add (a * b) _ _ _ _ 0 1 (11 / 10) 1); [exact Sab|apply sized_exact; auto| |lra|lra|lra].
    eapply (approx_mul a b _ _ _ _ 0 1 0 1); [exact Sa|exact Sb|exact Sab|exact At|apply sized_exact; auto|lra|lra|lra]. }
  exact (approx_final _ _ _ _ _ K).
Qed.

(** [reflect]: the new direction is the mirror image up to rounding, the new
    origin the hit point moved by [epsilon] along it, and the derived fields
    are those of a new ray. *)
Theorem C69_reflect : forall r hit n eps m, 1 <= m <= 2 ^ 60 -> sized m (r_dir r) -> sized m hit -> sized 1 n ->
  ffinite eps -> Rabs (fval eps) <= 1 ->
  let r' := ray_reflect r hit n eps in
  (forall g, coordinate g ->
     ffinite (g (r_dir r')) /\ Rabs (fval (g (r_dir r')) - mirror n (r_dir r) g) <= 38 * m / 2 ^ 24 /\
     ffinite (g (r_origin r')) /\
     Rabs (fval (g (r_origin r')) - (fval (g hit) + fval eps * mirror n (r_dir r) g)) <= 54 * m / 2 ^ 24) /\
  r' = ray_new (r_origin r') (r_dir r').
Proof.
  intros r hit n eps m M D H N Fe Be r'. split; [|reflexivity].
  pose proof (scale_le m 60 M (Nat.le_refl _)) as S.
  assert (scale 1) as S1 by (apply (scale_le 1 60); [split; [lra|simpl; lra]|lia]).
  assert (scale (1 * m)) as S1m by (rewrite Rmult_1_l; auto). assert (scale (1 * (1 * m))) as S11m by (rewrite Rmult_1_l; auto).
  assert (scale (1 * (1 * m) * 1)) as S111m by (rewrite Rmult_1_r; auto).
  assert (forall g, coordinate g -> approx m (g (r_dir r)) (fval (g (r_dir r))) 0 1) as AD by (intros; apply sized_exact; auto; lra).
  assert (forall g, coordinate g -> approx 1 (g n) (fval (g n)) 0 1) as AN by (intros; apply sized_exact; auto; lra).
  assert (forall g, coordinate g -> approx (1 * m) (fmul (g n) (g (r_dir r))) (fval (g n) * fval (g (r_dir r))) (11 / 10) 1) as AM.
  { intros g Hg. eapply (approx_mul 1 m _ _ _ _ 0 1 0 1); [exact S1|exact S|exact S1m|auto|auto|lra|lra|lra]. }
  assert (approx (1 * m) (vdot n (r_dir r)) (inner n (r_dir r)) 9 3) as AI.
  { unfold vdot, inner. eapply (approx_add (1 * m) _ _ _ _ (43 / 10) 2 (11 / 10) 1); [exact S1m| |auto|lra|lra|lra].
    eapply (approx_add (1 * m) _ _ _ _ (11 / 10) 1 (11 / 10) 1); [exact S1m|auto|auto|lra|lra|lra]. }
  assert (approx 1 f2 2 0 2) as A2.
  { split; [reflexivity|]. assert (fr f2 = 2) as -> by (simpl; unfold F2R; simpl; lra). rewrite Rminus_diag_eq, Rabs_R0 by auto. rewrite Rabs_pos_eq; lra. }
  assert (approx 1 eps (fval eps) 0 1) as AE.
  { unfold fval in *. rewrite <- (fr_fin _ Fe) in *. apply approx_exact; auto; lra. }
  assert (forall g, coordinate g -> approx m (g (r_dir r')) (mirror n (r_dir r) g) 38 7) as AR.
  { intros g Hg.
    assert (g (r_dir r') = fsub (g (r_dir r)) (fmul (fmul (g n) (vdot n (r_dir r))) f2)) as -> by (destruct Hg as [-> | [-> | ->]]; reflexivity).
    unfold mirror. replace (2 * inner n (r_dir r) * fval (g n)) with (fval (g n) * inner n (r_dir r) * 2) by ring.
    eapply (approx_sub m _ _ _ _ 0 1 (305 / 10) 6); [exact S|auto| |lra|lra|lra].
    replace m with (1 * (1 * m) * 1) at 1 by ring.
    eapply (approx_mul (1 * (1 * m)) 1 _ _ _ _ (121 / 10) 3 0 2); [exact S11m|exact S1|exact S111m| |exact A2|lra|lra|lra].
    eapply (approx_mul 1 (1 * m) _ _ _ _ 0 1 9 3); [exact S1|exact S1m|exact S11m|auto|exact AI|lra|lra|lra]. }
  intros g Hg. pose proof (AR g Hg) as K. destruct (approx_final _ _ _ _ _ K) as [F1 E1].
  assert (approx (m * 1) (fmul (g (r_dir r')) eps) (mirror n (r_dir r) g * fval eps) (451 / 10) 7) as KE.
  { eapply (approx_mul m 1 _ _ _ _ 38 7 0 1); [exact S|exact S1|rewrite Rmult_1_r; exact S|exact K|exact AE|lra|lra|lra]. }
  rewrite Rmult_1_r in KE.
  assert (approx m (g (r_origin r')) (fval (g hit) + mirror n (r_dir r) g * fval eps) 54 8) as KO.
  { assert (g (r_origin r') = fadd (g hit) (fmul (g (r_dir r')) eps)) as -> by (destruct Hg as [-> | [-> | ->]]; reflexivity).
    eapply (approx_add m _ _ _ _ 0 1 (451 / 10) 7); [exact S|apply sized_exact; auto; lra|exact KE|lra|lra|lra]. }
  destruct (approx_final _ _ _ _ _ KO) as [F2 E2]. rewrite (Rmult_comm (mirror _ _ _)) in E2.
  auto.
Qed.

(** [is_valid] says that a hit below 1e33 was recorded: false for a new or
    reset ray, true once [t] is any number below 1e33. *)
Theorem C69_is_valid : forall r,
  (forall t, ffinite t -> (ray_is_valid (ray_set_t r t) = true <-> fval t < fval f1e33)) /\
  (forall o d, ray_is_valid (ray_new o d) = false) /\ ray_is_valid (ray_reset r) = false.
Proof.
  intro r. split; [|split; [intros o d|]; vm_compute; reflexivity].
  intros t F. unfold ray_is_valid. cbn [ray_set_t r_t]. rewrite flt_spec; [|apply fin_notnan; auto|reflexivity].
  rewrite (fr_fin _ F), (fr_fin f1e33) by reflexivity. reflexivity.
Qed.

(** Hypotheses of [C69_reflect] and [C69_point_at]: a ray hitting a plane at 45 degrees. *)
Example C69_nonvacuous : exists r hit n eps, sized 2 (r_dir r) /\ sized 2 hit /\ sized 1 n /\ inner n n = 1 /\
  ffinite eps /\ Rabs (fval eps) <= 1 /\ mirror n (r_dir r) vy = 1 /\ mirror n (r_dir r) vx = 1.
Proof.
  assert (fval f0 = 0) as V0 by reflexivity.
  assert (fval f1 = 1) as V1 by (unfold f1, fval, B2R, F2R; simpl; lra).
  assert (fval (fneg f1) = -1) as Vm by (unfold fneg, fval; rewrite B2R_Bopp; change (B2R f1) with (fval f1); rewrite V1; ring).
  exists (ray_new (V3 f0 f1 f0) (V3 f1 (fneg f1) f0)), (V3 f1 f0 f0), (V3 f0 f1 f0), fhalf.
  assert (fval fhalf = / 2) as Vh by (unfold fhalf, fval, B2R, F2R; simpl; lra).
  repeat match goal with |- _ /\ _ => split end; try reflexivity;
    try (intros g [-> | [-> | ->]]; (split; [reflexivity|]); cbn [ray_new r_dir vx vy vz]; rewrite ?V0, ?V1, ?Vm; apply Rabs_le; lra).
  - unfold inner; cbn [vx vy vz]. rewrite V0, V1. ring.
  - rewrite Vh. apply Rabs_le; lra.
  - unfold mirror, inner; cbn [ray_new r_dir vx vy vz]. rewrite V0, V1, Vm. ring.
  - unfold mirror, inner; cbn [ray_new r_dir vx vy vz]. rewrite V0, V1, Vm. ring.
Qed.
