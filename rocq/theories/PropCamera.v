(** * Property C67: the rays of the demo camera *)
Require Import List ZArith Bool Reals Lia Lra.
From Flocq Require Import Core BinarySingleNaN.
From Verif Require Import F32 F32Facts Vec RayModel AabbModel Base SpecGeom AabbProofs PropBox SpecSlab TriModel SpecTri SpecMesh CameraModel SpecMeasure SpecCamera TriError CameraProofs.
Import ListNotations.

Lemma nth_error_Some_lt : forall A (l : list A) k a, nth_error l k = Some a -> (k < length l)%nat.
Proof. intros A l k a H. apply nth_error_Some. rewrite H. discriminate. Qed.

(** Lane [k] of the four-pixel packet is exactly the ray generated for pixel
    [k], including its reciprocal direction; so every theorem about packets of
    four rays applies to it with that ray's origin and direction. *)
Theorem C67_lanes : forall c x0 x1 x2 x3 y0 y1 y2 y3 k x y,
  nth_error [(x0, y0); (x1, y1); (x2, y2); (x3, y3)] k = Some (x, y) ->
  let p := generate_ray4 c x0 x1 x2 x3 y0 y1 y2 y3 in
  packet_ray p k = Ok (generate_ray c x y) /\
  lane_is p k (r_origin (generate_ray c x y)) (r_dir (generate_ray c x y)) /\
  V3 (wget (p_ix p) k) (wget (p_iy p) k) (wget (p_iz p) k) = r_inv (generate_ray c x y).
Proof.
  intros c x0 x1 x2 x3 y0 y1 y2 y3 k x y H p.
  assert (k < 4)%nat as K by (apply nth_error_Some_lt in H; exact H).
  assert (r_inv (generate_ray c x y) = vdivs f1 (r_dir (generate_ray c x y))) as EI by reflexivity.
  assert (forall a, (k < 4)%nat -> wget (wsplat a) k = a) as S1 by (intros a _; destruct k as [|[|[|[|]]]]; reflexivity || lia).
  assert (forall f a b, wget (w2 f a b) k = f (wget a k) (wget b k)) as S2 by (intros f a b; destruct k as [|[|[|]]]; reflexivity).
  assert (wget (V4 (f_of_Z x0) (f_of_Z x1) (f_of_Z x2) (f_of_Z x3)) k = f_of_Z x) as SX.
  { destruct k as [|[|[|[|]]]]; cbn [nth_error] in H; try lia; injection H as E1 E2; rewrite E1; reflexivity. }
  assert (wget (V4 (f_of_Z y0) (f_of_Z y1) (f_of_Z y2) (f_of_Z y3)) k = f_of_Z y) as SY.
  { destruct k as [|[|[|[|]]]]; cbn [nth_error] in H; try lia; injection H as E1 E2; rewrite E2; reflexivity. }
  assert (forall w, wget (V4 (fsqrt (wx w)) (fsqrt (wy w)) (fsqrt (wz w)) (fsqrt (ww w))) k = fsqrt (wget w k)) as SQ
    by (intro w; destruct k as [|[|[|]]]; reflexivity).
  assert (V3 (wget (p_ox p) k) (wget (p_oy p) k) (wget (p_oz p) k) = c_pos c) as EO.
  { unfold p, generate_ray4. cbv zeta. cbn [p_ox p_oy p_oz]. rewrite !S1 by exact K. destruct (c_pos c); reflexivity. }
  assert (V3 (wget (p_dx p) k) (wget (p_dy p) k) (wget (p_dz p) k) = r_dir (generate_ray c x y)) as ED.
  { unfold p, generate_ray4. cbv zeta. cbn [p_dx p_dy p_dz]. unfold wadd, wsub, wmul, wdiv.
    rewrite !S2, !SQ, !S2, !S1, SX, SY by exact K.
    unfold generate_ray, ray_new, vnormalize. cbv zeta. cbn [r_dir].
    unfold vscale, vdot, vsub, vadd, scalev, vmap2. cbn [vx vy vz]. reflexivity. }
  assert (V3 (wget (p_ix p) k) (wget (p_iy p) k) (wget (p_iz p) k) = vdivs f1 (r_dir (generate_ray c x y))) as EV.
  { rewrite <- ED. unfold p, generate_ray4. cbv zeta. cbn [p_ix p_iy p_iz p_dx p_dy p_dz]. unfold vdivs; cbn [vx vy vz].
    unfold wdiv at 1 4 7. rewrite !(S2 fdiv (wsplat f1)), !S1 by exact K. reflexivity. }
  assert (wget (p_t p) k = f1e34) as ET by (apply S1; exact K).
  split; [|split; [split; [exact K|split; [symmetry; exact EO|exact EV]]|rewrite EI; exact EV]].
  unfold packet_ray. apply Nat.ltb_lt in K. rewrite K. rewrite EO, ED, ET.
  unfold generate_ray, ray_new. reflexivity.
Qed.

(** The ray starts at the camera, with the default parameter range. *)
Theorem C67_start : forall c x y, r_origin (generate_ray c x y) = c_pos c /\
  r_tmin (generate_ray c x y) = DEFAULT_T_MIN /\ r_t (generate_ray c x y) = DEFAULT_T_MAX.
Proof. intros; repeat split. Qed.

Local Open Scope R_scope.

Lemma camera_parts : forall c x y m, camera_ok c x y m ->
  all_coords c (fun f => is_finite f = true /\ Rabs (fr f) <= m) /\
  is_finite (c_inv_width c) = true /\ is_finite (c_inv_height c) = true /\
  fr (c_inv_width c) = fval (c_inv_width c) /\ fr (c_inv_height c) = fval (c_inv_height c) /\
  (forall g, coordinate g -> target c x y g = to_pixel c x y g) /\ sqrt (dist2 c x y) = pixel_distance c x y.
Proof.
  intros c x y m (HC & Hx & Hy & Fw & Fh & Pw & Ph & Uw & Uh).
  assert (forall f, ffinite f -> fr f = fval f) as E by (intros f F; apply fr_fin; exact F).
  assert (forall g, coordinate g -> target c x y g = to_pixel c x y g) as T.
  { intros g Hg. unfold target, to_pixel. rewrite (E _ Fw), (E _ Fh).
    rewrite !(E (g _)); auto; apply (HC g Hg); auto. }
  split.
  { intros g Hg. assert (forall v, v = c_pos c \/ v = c_right c \/ v = c_up c \/ v = c_p1 c -> is_finite (g v) = true /\ Rabs (fr (g v)) <= m) as K.
    { intros v Hv. destruct (HC g Hg v Hv) as [F B]. split; [exact F|]. rewrite (E _ F). exact B. }
    repeat split; apply K; auto. }
  repeat split; auto. unfold dist2, dist2_of, pixel_distance. rewrite !T by (unfold coordinate; auto). reflexivity.
Qed.

(** The direction is the exact unit vector towards the pixel up to rounding:
    each coordinate is off by at most (60 m / distance + 7) * 2^-24, for
    cameras with coordinates up to m whose pixel is not closer than m / 1024. *)
Theorem C67_aim : forall c x y m, camera_ok c x y m -> 1 <= m <= 2 ^ 40 -> m / 1024 <= pixel_distance c x y ->
  forall g, coordinate g ->
  ffinite (g (r_dir (generate_ray c x y))) /\
  Rabs (fval (g (r_dir (generate_ray c x y))) - to_pixel c x y g / pixel_distance c x y)
    <= (60 * (m / pixel_distance c x y) + 7) / 2 ^ 24.
Proof.
  intros c x y m HC Hm HL g Hg. destruct (camera_parts c x y m HC) as (P1 & P2 & P3 & P4 & P5 & P6 & P7).
  destruct HC as (_ & Hx & Hy & _ & _ & Pw & Ph & Uw & Uh).
  assert (bpow radix2 40 = 2 ^ 40) as E40 by (simpl; lra).
  destruct (aim c x y m) with (g := g) as [F B]; auto; try (rewrite ?P4, ?P5, ?P7; assumption); try lra.
  - change (r_dir (generate_ray c x y)) with (vnormalize (seen_vec c x y)). split; [exact F|].
    rewrite (fr_fin _ F) in B. rewrite P6, P7 in B by auto. unfold fval at 1.
    replace ((60 * (m / pixel_distance c x y) + 7) / 2 ^ 24) with ((60 * (m / pixel_distance c x y) + 7) * ue) by (unfold ue, Rdiv; f_equal; f_equal; simpl; lra).
    exact B.
Qed.

(** ... and it is a unit vector up to 2^-18. *)
Theorem C67_unit : forall c x y m, camera_ok c x y m -> 1 <= m <= 2 ^ 40 -> m / 1024 <= pixel_distance c x y ->
  let d := r_dir (generate_ray c x y) in
  Rabs (fval (vx d) * fval (vx d) + fval (vy d) * fval (vy d) + fval (vz d) * fval (vz d) - 1) <= / 2 ^ 18.
Proof.
  intros c x y m HC Hm HL d. destruct (camera_parts c x y m HC) as (P1 & P2 & P3 & P4 & P5 & P6 & P7).
  destruct HC as (_ & Hx & Hy & _ & _ & Pw & Ph & Uw & Uh).
  assert (bpow radix2 40 = 2 ^ 40) as E40 by (simpl; lra).
  destruct (aim_range c x y m) as (F1 & F2 & F3 & Rg); auto; try (rewrite ?P4, ?P5, ?P7; assumption); try lra.
  pose proof (unit_length _ F1 F2 F3 Rg) as K.
  destruct (normalize_err _ F1 F2 F3 Rg vx (or_introl eq_refl)) as [G1 _].
  destruct (normalize_err _ F1 F2 F3 Rg vy (or_intror (or_introl eq_refl))) as [G2 _].
  destruct (normalize_err _ F1 F2 F3 Rg vz (or_intror (or_intror eq_refl))) as [G3 _].
  unfold sq in K. rewrite (fr_fin _ G1), (fr_fin _ G2), (fr_fin _ G3) in K.
  change d with (vnormalize (seen_vec c x y)). unfold fval.
  replace (/ 2 ^ 18) with (64 * ue) by (unfold ue; simpl; lra). exact K.
Qed.

(** A camera at the origin looking along z through a 2 x 2 screen at distance
    one, asked for the pixel in the centre and for a corner. *)
Definition demo_camera : camera :=
  Camera (V3 f0 f0 f0) (V3 f2 f0 f0) (V3 f0 (fneg f2) f0) (V3 (fneg f1) f1 f1) fhalf fhalf.

Example C67_nonvacuous : forall x y, (x = 0 \/ x = 1)%Z -> (y = 0 \/ y = 1)%Z ->
  camera_ok demo_camera x y 2 /\ 1 <= 2 <= 2 ^ 40 /\ 2 / 1024 <= pixel_distance demo_camera x y.
Proof.
  intros x y Hx Hy.
  assert (fval f0 = 0) as V0 by reflexivity.
  assert (fval f1 = 1) as V1 by (unfold f1, fval, B2R, F2R; simpl; lra).
  assert (fval f2 = 2) as V2 by (unfold f2, fval, B2R, F2R; simpl; lra).
  assert (fval fhalf = / 2) as Vh by (unfold fhalf, fval, B2R, F2R; simpl; lra).
  assert (forall a, fval (fneg a) = - fval a) as Vn by (intro a; unfold fval, fneg; apply B2R_Bopp).
  assert (0 <= IZR x <= 1 /\ 0 <= IZR y <= 1) as [Bx By] by (destruct Hx as [-> | ->], Hy as [-> | ->]; lra).
  split; [|split].
  - split.
    + intros g Hg v Hv. destruct Hg as [-> | [-> | ->]]; destruct Hv as [-> | [-> | [-> | ->]]]; cbn [demo_camera c_pos c_right c_up c_p1 vx vy vz];
        (split; [reflexivity|]; rewrite ?Vn, ?Rabs_Ropp, ?V0, ?V1, ?V2; rewrite Rabs_pos_eq; lra).
    + cbn [demo_camera c_inv_width c_inv_height]. rewrite Vh. repeat split; try lra; try lia.
  - split; [lra|]. simpl; lra.
  - unfold pixel_distance. apply Rle_trans with (sqrt 1); [rewrite sqrt_1; lra|]. apply sqrt_le_1_alt.
    assert (to_pixel demo_camera x y vz = 1) as ->.
    { unfold to_pixel. cbn [demo_camera c_pos c_right c_up c_p1 c_inv_width c_inv_height vz]. rewrite V0, V1. ring. }
    pose proof (Rle_0_sqr (to_pixel demo_camera x y vx)). pose proof (Rle_0_sqr (to_pixel demo_camera x y vy)). unfold Rsqr in *. lra.
Qed.

(** ** C68: the demo triangle *)
Local Close Scope R_scope.

(** The box contains the three vertices and is the least box that does. *)
Theorem C68_box : forall t, vwithin f1e34 (xyz (dt0 t)) -> vwithin f1e34 (xyz (dt1 t)) -> vwithin f1e34 (xyz (dt2 t)) ->
  in_box (demo_aabb t) (xyz (dt0 t)) /\ in_box (demo_aabb t) (xyz (dt1 t)) /\ in_box (demo_aabb t) (xyz (dt2 t)) /\
  (forall c, in_box c (xyz (dt0 t)) -> in_box c (xyz (dt1 t)) -> in_box c (xyz (dt2 t)) -> box_in (demo_aabb t) c).
Proof.
  intros t W0 W1 W2.
  assert (forall v, vwithin f1e34 v -> vok v) as OK by (intros v [A B]; apply vle_ok in B; tauto).
  assert (box_ok aabb_new) as B0 by (split; repeat split; reflexivity).
  pose proof (OK _ W0) as K0. pose proof (OK _ W1) as K1. pose proof (OK _ W2) as K2.
  unfold demo_aabb. set (b1 := grow aabb_new (xyz (dt0 t))). set (b2 := grow b1 (xyz (dt1 t))).
  assert (box_ok b1) as B1 by (apply grow_ok; auto). assert (box_ok b2) as B2 by (apply grow_ok; auto).
  assert (box_in b1 b2) as I1 by (apply grow_in; auto). assert (box_in b2 (grow b2 (xyz (dt2 t)))) as I2 by (apply grow_in; auto).
  split; [eapply in_box_mono; [exact I2|]; eapply in_box_mono; [exact I1|]; apply grow_pt; auto|].
  split; [eapply in_box_mono; [exact I2|]; apply grow_pt; auto|].
  split; [apply grow_pt; auto|].
  intros c P0 P1 P2. apply grow_least; [apply grow_least; auto|auto].
  pose proof (C01_grow_from_empty _ W0) as [Q1 Q2]. destruct P0 as [P0 P0'].
  split; eapply vle_trans; eauto.
Qed.

(** ... so demo scenes satisfy the enclosure hypothesis of the mesh theorems
    (C60) with no margin. *)
Theorem C68_inside : forall t, vwithin f1e34 (xyz (dt0 t)) -> vwithin f1e34 (xyz (dt1 t)) -> vwithin f1e34 (xyz (dt2 t)) ->
  tri_inside 0 (demo_aabb t) (demo_vertices t).
Proof.
  intros t W0 W1 W2. destruct (C68_box t W0 W1 W2) as (I0 & I1 & I2 & L).
  assert (forall f, fle (fneg f1e34) f = true -> fle f f1e34 = true -> ffinite f) as Fin.
  { intros f A B. pose proof (fle_notnan _ _ A) as [_ N]. apply fin_of_fr; auto.
    apply fle_spec in A; [|reflexivity|auto]. apply fle_spec in B; [|auto|reflexivity].
    assert (Rabs (fr f1e34) < BIG)%R as K by (eapply Rlt_trans; [apply fin_fr_lt; reflexivity|apply bpow128_lt_BIG]).
    destruct (fr_neg f1e34 eq_refl) as [_ E]. rewrite E in A.
    eapply Rle_lt_trans; [|exact K]. rewrite (Rabs_pos_eq (fr f1e34)) in * by lra. apply Rabs_le. lra. }
  assert (forall v, vwithin f1e34 v -> vfinite v) as VF.
  { intros v [(A1 & A2 & A3) (B1 & B2 & B3)]. cbn [vsplat vx vy vz] in *. split; [|split]; apply Fin; auto. }
  assert (vwithin f1e34 (bmin (demo_aabb t)) /\ vwithin f1e34 (bmax (demo_aabb t))) as [WA WB].
  { assert (box_in (demo_aabb t) aabb_full) as F by (apply L; auto).
    destruct F as [F1 F2]. cbn [aabb_full bmin bmax] in F1, F2. destruct I0 as [J1 J2].
    split; split; auto; eapply vle_trans; eauto; eapply vle_trans; eauto. }
  assert (forall a b, ffinite a -> ffinite b -> fle a b = true -> (fval a <= fval b)%R) as FV.
  { intros a b Fa Fb H. apply fle_spec in H; [|apply fin_notnan; auto..]. rewrite (fr_fin a Fa), (fr_fin b Fb) in H. exact H. }
  assert (forall v, vwithin f1e34 v -> in_box (demo_aabb t) v -> vertex_inside 0 (demo_aabb t) v) as G.
  { intros v W [(A1 & A2 & A3) (B1 & B2 & B3)]. pose proof (VF _ W) as (F1 & F2 & F3).
    pose proof (VF _ WA) as (M1 & M2 & M3). pose proof (VF _ WB) as (X1 & X2 & X3).
    split; [split; auto|]. rewrite !Rplus_0_r, !Rminus_0_r. auto 10. }
  split; [|split]; apply G; auto.
Qed.

Local Open Scope R_scope.

(** The centre is the exact centroid up to rounding. *)
Theorem C68_center : forall t m, 1 <= m <= 2 ^ 60 ->
  (forall g v, coordinate g -> v = dt0 t \/ v = dt1 t \/ v = dt2 t -> ffinite (g (xyz v)) /\ Rabs (fval (g (xyz v))) <= m) ->
  forall g, coordinate g ->
  ffinite (g (demo_center t)) /\
  Rabs (fval (g (demo_center t)) - (fval (g (xyz (dt0 t))) + fval (g (xyz (dt1 t))) + fval (g (xyz (dt2 t)))) / 3) <= 4 * m / 2 ^ 24.
Proof.
  intros t m Hm H g Hg.
  destruct (H g (dt0 t) Hg) as [F0 B0]; [auto|]. destruct (H g (dt1 t) Hg) as [F1 B1]; [auto|]. destruct (H g (dt2 t) Hg) as [F2 B2]; [auto|].
  assert (bpow radix2 60 = 2 ^ 60) as E60 by (simpl; lra).
  assert (scale m) as Sm by (split; lra). assert (0 < m) as M0 by lra.
  unfold fval in B0, B1, B2. rewrite <- (fr_fin _ F0) in B0. rewrite <- (fr_fin _ F1) in B1. rewrite <- (fr_fin _ F2) in B2.
  pose proof (approx_exact m _ M0 F0 B0) as A0. pose proof (approx_exact m _ M0 F1 B1) as A1. pose proof (approx_exact m _ M0 F2 B2) as A2.
  assert (f_third = @B754_finite 24 128 false 11184811 (-25) eq_refl) as E3 by (apply B2SF_inj; vm_compute; reflexivity).
  assert (fr f_third = 11184811 / 33554432) as V3 by (rewrite E3; simpl; unfold F2R; simpl; lra).
  assert (approx 1 f_third (/ 3) (34 / 100) (34 / 100)) as A3.
  { split; [rewrite E3; reflexivity|]. rewrite V3. unfold ue. split; [apply Rabs_le; lra|rewrite Rabs_pos_eq; lra]. }
  assert (scale (m * 1)) as Sm1 by (rewrite Rmult_1_r; auto).
  assert (approx (m * 1) (g (demo_center t)) ((fr (g (xyz (dt0 t))) + fr (g (xyz (dt1 t))) + fr (g (xyz (dt2 t)))) * / 3) 4 (102 / 100)) as (R1 & R2 & _).
  { assert (g (demo_center t) = fmul (fadd (fadd (g (xyz (dt0 t))) (g (xyz (dt1 t)))) (g (xyz (dt2 t)))) f_third) as ->
      by (destruct Hg as [-> | [-> | ->]]; reflexivity).
    eapply (approx_mul m 1 _ _ _ _ (51 / 10) 3 (34 / 100) (34 / 100)); [exact Sm|apply scale1|exact Sm1| |exact A3|lra|lra|lra].
    eapply (approx_add m _ _ _ _ (201 / 100) 2 0 1); [exact Sm| |exact A2|lra|lra|lra].
    eapply (approx_add m _ _ _ _ 0 1 0 1); [exact Sm|exact A0|exact A1|lra|lra|lra]. }
  split; [exact R1|]. unfold fval. rewrite <- (fr_fin _ R1), <- (fr_fin _ F0), <- (fr_fin _ F1), <- (fr_fin _ F2).
  unfold Rdiv at 1. replace (4 * m / 2 ^ 24) with (4 * ue * (m * 1)) by (unfold ue; simpl; lra). exact R2.
Qed.

Example C68_nonvacuous : exists t, vwithin f1e34 (xyz (dt0 t)) /\ vwithin f1e34 (xyz (dt1 t)) /\ vwithin f1e34 (xyz (dt2 t)) /\
  (forall g v, coordinate g -> v = dt0 t \/ v = dt1 t \/ v = dt2 t -> ffinite (g (xyz v)) /\ Rabs (fval (g (xyz v))) <= 2) /\
  xyz (dt0 t) <> xyz (dt1 t) /\ xyz (dt1 t) <> xyz (dt2 t).
Proof.
  exists (DemoTri (V4 f0 f0 f1 f1) (V4 f2 f0 f1 f1) (V4 f0 f2 (fneg f1) f1)).
  assert (fval f0 = 0) as V0 by reflexivity.
  assert (fval f1 = 1) as V1 by (unfold f1, fval, B2R, F2R; simpl; lra).
  assert (fval f2 = 2) as V2 by (unfold f2, fval, B2R, F2R; simpl; lra).
  assert (forall a, fval (fneg a) = - fval a) as Vn by (intro a; unfold fval, fneg; apply B2R_Bopp).
  split; [repeat split; vm_compute; reflexivity|]. split; [repeat split; vm_compute; reflexivity|]. split; [repeat split; vm_compute; reflexivity|].
  split.
  - intros g v Hg Hv. destruct Hg as [-> | [-> | ->]]; destruct Hv as [-> | [-> | ->]]; cbn [dt0 dt1 dt2 xyz wx wy wz vx vy vz];
      (split; [reflexivity|]; rewrite ?Vn, ?Rabs_Ropp, ?V0, ?V1, ?V2; rewrite Rabs_pos_eq; lra).
  - split; intro E; injection E; intros; discriminate.
Qed.
