(** * Accuracy of the slab tests *)
Require Import List ZArith Bool Reals Lra Lia.
From Flocq Require Import Core BinarySingleNaN Relative.
From Verif Require Import F32 F32Facts Vec RayModel AabbModel SpecGeom SpecSlab AabbProofs MeasureProofs SlabProofs.
Import ListNotations.
Local Open Scope R_scope.

Lemma fr_smin : forall x y : f32, notnan x -> notnan y -> notnan (smin x y) /\ fr (smin x y) = Rmin (fr x) (fr y).
Proof.
  intros x y A B. unfold smin. destruct (flt x y) eqn:E; split; auto.
  - apply flt_spec in E; auto. rewrite Rmin_left; lra.
  - apply flt_false in E; auto. rewrite Rmin_right; lra.
Qed.
Lemma fr_smax : forall x y : f32, notnan x -> notnan y -> notnan (smax x y) /\ fr (smax x y) = Rmax (fr x) (fr y).
Proof.
  intros x y A B. unfold smax. change (fgt x y) with (flt y x). destruct (flt y x) eqn:E; split; auto.
  - apply flt_spec in E; auto. rewrite Rmax_left; lra.
  - apply flt_false in E; auto. rewrite Rmax_right; lra.
Qed.

Definition glo (e : R) : R := e - 3 * ue * Rabs e.
Definition ghi (e : R) : R := e + 3 * ue * Rabs e.
Lemma glo_mono : forall a b, a <= b -> glo a <= glo b.
Proof.
  intros a b H. unfold glo. pose proof ue_bounds.
  unfold Rabs. destruct (Rcase_abs a), (Rcase_abs b); nra.
Qed.
Lemma ghi_mono : forall a b, a <= b -> ghi a <= ghi b.
Proof.
  intros a b H. unfold ghi. pose proof ue_bounds.
  unfold Rabs. destruct (Rcase_abs a), (Rcase_abs b); nra.
Qed.

(** [x] is a rounding of something within three half-ulps of [e]. *)
Definition apx (x : f32) (e : R) : Prop := notnan x /\ RN (glo e) <= fr x <= RN (ghi e).

Lemma apx_prod : forall (x : f32) q e1 e2, Rabs e1 <= ue -> Rabs e2 <= ue ->
  notnan x -> fr x = RN (q * (1 + e1) * (1 + e2)) -> apx x q.
Proof.
  intros x q e1 e2 H1 H2 N E. split; auto. rewrite E. pose proof ue_bounds.
  apply Rabs_le_inv in H1. apply Rabs_le_inv in H2.
  assert (Rabs (q * (1 + e1) * (1 + e2) - q) <= 3 * ue * Rabs q) as K.
  { replace (q * (1 + e1) * (1 + e2) - q) with (q * (e1 + e2 + e1 * e2)) by ring.
    rewrite Rabs_mult, Rmult_comm. apply Rmult_le_compat_r; [apply Rabs_pos|].
    apply Rabs_le. split; nra. }
  apply Rabs_le_inv in K. unfold glo, ghi. split; apply RN_mono; lra.
Qed.

Lemma apx_smin : forall x y a b, apx x a -> apx y b -> apx (smin x y) (Rmin a b).
Proof.
  intros x y a b [N1 [L1 U1]] [N2 [L2 U2]].
  destruct (fr_smin x y N1 N2) as [N E]. split; auto. rewrite E. clear E N.
  assert (RN (glo (Rmin a b)) <= RN (glo a)) by (apply RN_mono, glo_mono, Rmin_l).
  assert (RN (glo (Rmin a b)) <= RN (glo b)) by (apply RN_mono, glo_mono, Rmin_r).
  split; [apply Rmin_glb; lra|].
  pose proof (Rmin_l (fr x) (fr y)). pose proof (Rmin_r (fr x) (fr y)).
  unfold Rmin at 2. destruct (Rle_dec a b); lra.
Qed.
Lemma apx_smax : forall x y a b, apx x a -> apx y b -> apx (smax x y) (Rmax a b).
Proof.
  intros x y a b [N1 [L1 U1]] [N2 [L2 U2]].
  destruct (fr_smax x y N1 N2) as [N E]. split; auto. rewrite E. clear E N.
  assert (RN (ghi a) <= RN (ghi (Rmax a b))) by (apply RN_mono, ghi_mono, Rmax_l).
  assert (RN (ghi b) <= RN (ghi (Rmax a b))) by (apply RN_mono, ghi_mono, Rmax_r).
  split; [|apply Rmax_lub; lra].
  pose proof (Rmax_l (fr x) (fr y)). pose proof (Rmax_r (fr x) (fr y)).
  unfold Rmax at 1. destruct (Rle_dec a b); lra.
Qed.

(** Rounding error of a finite result. *)
Lemma rnd_abs : forall r, Rabs (rnd r - r) <= ue * Rabs r + bpow radix2 (-150).
Proof.
  intros r.
  destruct (error_N_FLT radix2 (-149) 24 Hp32 (fun x => negb (Z.even x)) r) as (e & h & He & Hh & _ & E).
  assert (rnd r = r * (1 + e) + h) as -> by exact E.
  assert (Rabs e <= ue) as He2 by (rewrite <- ue_val; exact He).
  replace (r * (1 + e) + h - r) with (r * e + h) by ring.
  eapply Rle_trans; [apply Rabs_triang|]. rewrite Rabs_mult.
  change (bpow radix2 (-149)) with (bpow radix2 (-150 + 1)) in Hh. rewrite bpow_plus_1 in Hh.
  change (IZR radix2) with 2 in Hh. pose proof (Rabs_pos r). nra.
Qed.

Lemma apx_near : forall x e, apx x e -> ffinite x -> near x e.
Proof.
  intros x e [N [L U]] F. unfold near, fval. rewrite <- fr_fin by auto.
  assert (fr x < BIG /\ - BIG < fr x) as [B1 B2].
  { pose proof (fin_fr_lt x F) as K. apply Rabs_lt_inv in K. pose proof bpow128_lt_BIG; lra. }
  pose proof ue_bounds as UB. pose proof (Rabs_pos e) as P.
  assert (Rabs (glo e) <= (1 + 3 * ue) * Rabs e) as A1.
  { unfold glo. eapply Rle_trans; [apply Rabs_triang|]. rewrite Rabs_Ropp, Rabs_mult, Rabs_Rabsolu.
    rewrite (Rabs_pos_eq (3 * ue)) by lra. lra. }
  assert (Rabs (ghi e) <= (1 + 3 * ue) * Rabs e) as A2.
  { unfold ghi. eapply Rle_trans; [apply Rabs_triang|]. rewrite Rabs_mult, Rabs_Rabsolu.
    rewrite (Rabs_pos_eq (3 * ue)) by lra. lra. }
  assert (bpow radix2 (-150) <= bpow radix2 (-149)) as PP by (apply bpow_le; lia).
  pose proof (rnd_abs (glo e)) as R1. apply Rabs_le_inv in R1.
  pose proof (rnd_abs (ghi e)) as R2. apply Rabs_le_inv in R2.
  assert (ue * ((1 + 3 * ue) * Rabs e) <= 2 * ue * Rabs e) as Q.
  { rewrite <- Rmult_assoc. apply Rmult_le_compat_r; auto. unfold ue. lra. }
  assert (ue * Rabs (glo e) <= 2 * ue * Rabs e) as Q1 by (eapply Rle_trans; [|apply Q]; apply Rmult_le_compat_l; lra).
  assert (ue * Rabs (ghi e) <= 2 * ue * Rabs e) as Q2 by (eapply Rle_trans; [|apply Q]; apply Rmult_le_compat_l; lra).
  assert (glo e - 2 * ue * Rabs e - bpow radix2 (-149) <= fr x) as LL.
  { destruct (Rle_or_lt (glo e) (fr x)) as [G|G]; [pose proof (bpow_gt_0 radix2 (-149)); nra|].
    destruct (RN_cases (glo e)) as [[_ E]|[[_ [_ E]]|[_ [_ E]]]]; [| |]; 
      try (rewrite E in L; lra).
    assert (RN (fr x) <= RN (glo e)) as M by (apply RN_mono; lra). rewrite RN_id in M by auto.
    rewrite E in M. lra. }
  assert (fr x <= ghi e + 2 * ue * Rabs e + bpow radix2 (-149)) as UU.
  { destruct (Rle_or_lt (fr x) (ghi e)) as [G|G]; [pose proof (bpow_gt_0 radix2 (-149)); nra|].
    destruct (RN_cases (ghi e)) as [[_ E]|[[_ [_ E]]|[_ [_ E]]]]; [| |]; 
      try (rewrite E in U; lra).
    assert (RN (ghi e) <= RN (fr x)) as M by (apply RN_mono; lra). rewrite RN_id in M by auto.
    rewrite E in M. lra. }
  unfold glo, ghi in LL, UU. fold ue. apply Rabs_le. split; lra.
Qed.

(** One plane. *)
Lemma plane_apx : forall x o d : f32,
  is_finite x = true -> is_finite o = true ->
  Rabs (fr x) <= bpow radix2 113 -> Rabs (fr o) <= bpow radix2 113 -> dir_normal d ->
  apx (fmul (fsub x o) (fdiv f1 d)) ((fval x - fval o) / fval d).
Proof.
  intros x o d Fx Fo Bx Bo Hd.
  destruct (inv_facts d Hd) as (Fi & Z & e2 & He2 & Ei).
  destruct (rnd_minus_rel x o Fx Fo) as (e & He & E).
  destruct (extent_facts o x Fo Fx Bo Bx) as (Fs & Es & _).
  assert (Rabs (fr x - fr o) <= bpow radix2 127) as D.
  { apply Rabs_le_inv in Bx. apply Rabs_le_inv in Bo. pose proof bpow_114.
    apply Rle_trans with (bpow radix2 114); [apply Rabs_le; lra|apply bpow_le; lia]. }
  destruct (RN_small _ D) as [R _]. rewrite R, E in Es.
  destruct (fr_fmul _ _ Fs Fi) as [N M].
  apply apx_prod with e e2; auto. rewrite M, Es, Ei. unfold fval.
  destruct Hd as [Fd _]. rewrite <- !fr_fin by auto. f_equal. field; auto.
Qed.

(** The two parameters the packet test computes for one ray. *)
Definition snear (lo hi o d : f32) : f32 :=
  smin (fmul (fsub lo o) (fdiv f1 d)) (fmul (fsub hi o) (fdiv f1 d)).
Definition sfar (lo hi o d : f32) : f32 :=
  smax (fmul (fsub lo o) (fdiv f1 d)) (fmul (fsub hi o) (fdiv f1 d)).
Definition near4 (b : aabb) (o d : vec3) : f32 :=
  smax (snear (vx (bmin b)) (vx (bmax b)) (vx o) (vx d))
  (smax (snear (vy (bmin b)) (vy (bmax b)) (vy o) (vy d))
        (snear (vz (bmin b)) (vz (bmax b)) (vz o) (vz d))).
Definition far4 (b : aabb) (o d : vec3) : f32 :=
  smin (sfar (vx (bmin b)) (vx (bmax b)) (vx o) (vx d))
  (smin (sfar (vy (bmin b)) (vy (bmax b)) (vy o) (vy d))
        (sfar (vz (bmin b)) (vz (bmax b)) (vz o) (vz d))).

Lemma near4_apx : forall b o d, box_within f1e34 b -> vwithin f1e34 o -> dirs_normal d ->
  apx (near4 b o d) (exact_entry b o d) /\ apx (far4 b o d) (exact_exit b o d).
Proof.
  intros b o d [W1 W2] Wo (X1 & X2 & X3).
  destruct (vwithin_fin _ W1) as [(F1 & F2 & F3) (B1 & B2 & B3)].
  destruct (vwithin_fin _ W2) as [(G1 & G2 & G3) (C1 & C2 & C3)].
  destruct (vwithin_fin _ Wo) as [(O1 & O2 & O3) (D1 & D2 & D3)].
  split.
  - unfold near4, exact_entry, snear, slab_in. 
    repeat first [apply apx_smax | apply apx_smin]; apply plane_apx; auto.
  - unfold far4, exact_exit, sfar, slab_out. 
    repeat first [apply apx_smax | apply apx_smin]; apply plane_apx; auto.
Qed.

(** Lanes of [bb_slabs4]. *)
Lemma slabs4_lane : forall b p i o d, lane_is p i o d ->
  wget (fst (bb_slabs4 b p)) i = near4 b o d /\ wget (snd (bb_slabs4 b p)) i = far4 b o d.
Proof.
  intros b p i o d (I & O & D).
  assert (forall A B : vec3, A = B -> vx A = vx B /\ vy A = vy B /\ vz A = vz B) as V by (intros; subst; auto).
  apply V in O. apply V in D. cbn [vx vy vz] in O, D. destruct O as (O1 & O2 & O3), D as (D1 & D2 & D3).
  unfold near4, far4, snear, sfar. rewrite O1, O2, O3, <- D1, <- D2, <- D3.
  destruct i as [|[|[|[|i]]]]; [| | | |lia]; split; reflexivity.
Qed.

Lemma intersect4_spec : forall b p,
  match intersect4 b p with
  | Some ts => ts = fst (bb_slabs4 b p) /\
      exists i, (i < 4)%nat /\ fgt (wget (snd (bb_slabs4 b p)) i) f0 = true /\
        fgt (wget (snd (bb_slabs4 b p)) i) (wget (fst (bb_slabs4 b p)) i) = true /\
        flt (wget (fst (bb_slabs4 b p)) i) (wget (p_t p) i) = true
  | None => forall i, (i < 4)%nat -> fgt (wget (snd (bb_slabs4 b p)) i) f0 &&
        fgt (wget (snd (bb_slabs4 b p)) i) (wget (fst (bb_slabs4 b p)) i) &&
        flt (wget (fst (bb_slabs4 b p)) i) (wget (p_t p) i) = false
  end.
Proof.
  intros b p. unfold intersect4. destruct (bb_slabs4 b p) as [mn mx]. cbn [fst snd].
  unfold many, mand, wcmp; cbn [m0 m1 m2 m3].
  change (wx (wsplat f0)) with f0. change (wy (wsplat f0)) with f0.
  change (wz (wsplat f0)) with f0. change (ww (wsplat f0)) with f0.
  match goal with |- context [if ?c then _ else _] => destruct c eqn:E end.
  - split; auto. rewrite !orb_true_iff, !andb_true_iff in E.
    destruct E as [[[E|E]|E]|E]; [exists 0%nat|exists 1%nat|exists 2%nat|exists 3%nat]; cbn [wget]; intuition lia.
  - rewrite !orb_false_iff in E. intros i I.
    destruct i as [|[|[|[|i]]]]; [| | | |lia]; cbn [wget]; tauto.
Qed.

(** Completeness of one lane. *)
Lemma axis_at : forall lo hi o d t,
  is_finite lo = true -> is_finite hi = true -> is_finite o = true ->
  Rabs (fr lo) <= bpow radix2 113 -> Rabs (fr hi) <= bpow radix2 113 -> Rabs (fr o) <= bpow radix2 113 ->
  axis_fine lo hi o d -> 0 < t ->
  fval lo <= fval o + t * (1 - 2 * ue) * fval d <= fval hi ->
  fval lo <= fval o + t * (1 + 3 * ue) * fval d <= fval hi ->
  notnan (snear lo hi o d) /\ notnan (sfar lo hi o d) /\
  fr (snear lo hi o d) <= RN t /\ RN t <= fr (sfar lo hi o d).
Proof.
  intros lo hi o d t Fl Fh Fo Bl Bh Bo X T Y1 Y2.
  assert (let s := flt d f0 in
    let A := fmul (fsub (if s then hi else lo) o) (fdiv f1 d) in
    let B := fmul (fsub (if negb s then hi else lo) o) (fdiv f1 d) in
    notnan A /\ notnan B /\ fr A <= RN t /\ RN t <= fr B) as K.
  { destruct X as [Hd|[Hd [L U]]].
    - destruct Hd as [Fd Hd]. unfold fval in *. rewrite <- !fr_fin in Y1, Y2 by auto.
      apply axis_normal; auto. split; auto.
    - subst d. apply axis_zero; auto. }
  cbv zeta in K. unfold snear, sfar. destruct (flt d f0); cbn [negb] in K; destruct K as (N1 & N2 & L & U).
  - destruct (fr_smin _ _ N2 N1) as [A ->]. destruct (fr_smax _ _ N2 N1) as [B ->].
    split; auto. split; auto. split; [eapply Rle_trans; [apply Rmin_r|]; auto|eapply Rle_trans; [|apply Rmax_l]; auto].
  - destruct (fr_smin _ _ N1 N2) as [A ->]. destruct (fr_smax _ _ N1 N2) as [B ->].
    split; auto. split; auto. split; [eapply Rle_trans; [apply Rmin_l|]; auto|eapply Rle_trans; [|apply Rmax_r]; auto].
Qed.

Lemma box_at : forall b o d t,
  box_within f1e34 b -> vwithin f1e34 o -> axes_fine b o d -> 0 < t ->
  ray_point_in b o d (t * (1 - 2 * ue)) -> ray_point_in b o d (t * (1 + 3 * ue)) ->
  notnan (near4 b o d) /\ notnan (far4 b o d) /\ fr (near4 b o d) <= RN t /\ RN t <= fr (far4 b o d).
Proof.
  intros b o d t [W1 W2] Wo (X1 & X2 & X3) T (P1 & P2 & P3) (Q1 & Q2 & Q3).
  destruct (vwithin_fin _ W1) as [(F1 & F2 & F3) (B1 & B2 & B3)].
  destruct (vwithin_fin _ W2) as [(G1 & G2 & G3) (C1 & C2 & C3)].
  destruct (vwithin_fin _ Wo) as [(O1 & O2 & O3) (D1 & D2 & D3)].
  destruct (axis_at _ _ _ _ _ F1 G1 O1 B1 C1 D1 X1 T P1 Q1) as (NA1 & NB1 & HA1 & HB1).
  destruct (axis_at _ _ _ _ _ F2 G2 O2 B2 C2 D2 X2 T P2 Q2) as (NA2 & NB2 & HA2 & HB2).
  destruct (axis_at _ _ _ _ _ F3 G3 O3 B3 C3 D3 X3 T P3 Q3) as (NA3 & NB3 & HA3 & HB3).
  unfold near4, far4.
  destruct (fr_smax _ _ NA2 NA3) as [M1 E1]. destruct (fr_smax _ _ NA1 M1) as [M2 E2].
  destruct (fr_smin _ _ NB2 NB3) as [M3 E3]. destruct (fr_smin _ _ NB1 M3) as [M4 E4].
  split; auto. split; auto. rewrite E2, E1, E4, E3.
  split; [repeat apply Rmax_lub; auto|repeat apply Rmin_glb; auto].
Qed.

Lemma RN_strict : forall a b, bpow radix2 (-126) <= a -> a * (1 + 3 * ue) <= b -> b <= bpow radix2 127 -> RN a < RN b.
Proof.
  intros a b A B U. pose proof (bpow_gt_0 radix2 (-126)) as P. pose proof ue_bounds.
  assert (a <= b) by (unfold ue in *; nra).
  destruct (RN_small a) as [-> _]; [rewrite Rabs_pos_eq; lra|].
  destruct (RN_small b) as [-> _]; [rewrite Rabs_pos_eq; lra|].
  destruct (rnd_rel a) as (e & He & ->); [rewrite Rabs_pos_eq; lra|].
  destruct (rnd_rel b) as (f & Hf & ->); [rewrite Rabs_pos_eq; lra|].
  apply Rabs_le_inv in He. apply Rabs_le_inv in Hf.
  apply Rle_lt_trans with (a * (1 + ue)); [nra|].
  apply Rlt_le_trans with ((a * (1 + 3 * ue)) * (1 - ue)); [unfold ue in *; nra|]. 
  apply Rmult_le_compat; try nra.
Qed.

Lemma lane_accept : forall b o d t1 t2 (t : f32),
  box_within f1e34 b -> vwithin f1e34 o -> axes_fine b o d ->
  bpow radix2 (-126) <= t1 -> t1 * (1 + / 1048576) <= t2 ->
  ray_point_in b o d t1 -> ray_point_in b o d t2 -> ffinite t -> t2 <= fval t -> t2 <= bpow radix2 127 ->
  fgt (far4 b o d) f0 = true /\ fgt (far4 b o d) (near4 b o d) = true /\ flt (near4 b o d) t = true.
Proof.
  intros b o d t1 t2 t W Wo X L1 L2 P1 P2 Ft T2 U.
  pose proof (bpow_gt_0 radix2 (-126)) as P.
  set (a := t1 * (1 + 3 * ue)). set (c := t1 * (1 + 8 * ue)).
  assert (ray_point_in b o d (a * (1 - 2 * ue))) as Q1
    by (apply ray_point_between with t1 t2; auto; unfold a, ue; split; nra).
  assert (ray_point_in b o d (a * (1 + 3 * ue))) as Q2
    by (apply ray_point_between with t1 t2; auto; unfold a, ue; split; nra).
  assert (ray_point_in b o d (c * (1 - 2 * ue))) as Q3
    by (apply ray_point_between with t1 t2; auto; unfold c, ue; split; nra).
  assert (ray_point_in b o d (c * (1 + 3 * ue))) as Q4
    by (apply ray_point_between with t1 t2; auto; unfold c, ue; split; nra).
  destruct (box_at b o d a) as (N1 & N2 & A & _); auto; [unfold a, ue; nra|].
  destruct (box_at b o d c) as (_ & _ & _ & B); auto; [unfold c, ue; nra|].
  assert (c <= t2) as CT by (unfold c, ue; nra).
  assert (RN a < RN c) as S by (apply RN_strict; unfold a, c, ue in *; nra).
  assert (0 <= RN a) as Z by (apply RN_pos; unfold a, ue; nra).
  assert (RN c <= fr t) as Y.
  { apply RN_le_fr; [apply fin_notnan; auto|]. unfold fval in T2. rewrite fr_fin by auto. lra. }
  split; [|split]; apply flt_spec; auto; try (apply fin_notnan; auto); try lra.
  change (fr f0) with 0. lra.
Qed.

(** ** The scalar test *)

(** Entry and exit plane of one axis, chosen by the sign of the direction. *)
Definition plane_in (lo hi o d : f32) : f32 := fmul (fsub (if flt d f0 then hi else lo) o) (fdiv f1 d).
Definition plane_out (lo hi o d : f32) : f32 := fmul (fsub (if negb (flt d f0) then hi else lo) o) (fdiv f1 d).

Lemma planes_facts : forall lo hi o d : f32,
  is_finite lo = true -> is_finite hi = true -> is_finite o = true ->
  Rabs (fr lo) <= bpow radix2 113 -> Rabs (fr hi) <= bpow radix2 113 -> Rabs (fr o) <= bpow radix2 113 ->
  dir_normal d -> fle lo hi = true ->
  apx (plane_in lo hi o d) (slab_in lo hi o d) /\ apx (plane_out lo hi o d) (slab_out lo hi o d) /\
  fr (plane_in lo hi o d) <= fr (plane_out lo hi o d).
Proof.
  intros lo hi o d Fl Fh Fo Bl Bh Bo Hd L.
  apply fle_spec in L; auto using fin_notnan.
  pose proof (plane_apx lo o d Fl Fo Bl Bo Hd) as Al. pose proof (plane_apx hi o d Fh Fo Bh Bo Hd) as Ah.
  destruct (inv_facts d Hd) as (Fi & Z & e & He & Ei).
  destruct (extent_facts o lo Fo Fl Bo Bl) as (Fsl & Esl & _).
  destruct (extent_facts o hi Fo Fh Bo Bh) as (Fsh & Esh & _).
  destruct (fr_fmul _ _ Fsl Fi) as [_ Ml]. destruct (fr_fmul _ _ Fsh Fi) as [_ Mh].
  assert (fr (fsub lo o) <= fr (fsub hi o)) as S by (rewrite Esl, Esh; apply RN_mono; lra).
  assert (notnan d) as Nd by (apply fin_notnan, Hd).
  pose proof ue_bounds. apply Rabs_le_inv in He.
  unfold slab_in, slab_out, plane_in, plane_out, fval in *.
  destruct Hd as [Fd _]. rewrite <- !fr_fin in * by auto.
  destruct (flt d f0) eqn:E; cbn [negb].
  - apply flt_spec in E; auto. change (fr f0) with 0 in E.
    assert (/ fr d < 0) as I by (apply Rinv_lt_0_compat; auto).
    assert ((fr hi - fr o) / fr d <= (fr lo - fr o) / fr d) as Q by (unfold Rdiv; nra).
    rewrite Rmin_right, Rmax_left by auto. split; auto. split; auto.
    rewrite Ml, Mh. apply RN_mono. assert (fr (fdiv f1 d) < 0) by (rewrite Ei; nra). nra.
  - apply flt_false in E; auto. change (fr f0) with 0 in E.
    assert (0 < / fr d) as I by (apply Rinv_0_lt_compat; lra).
    assert ((fr lo - fr o) / fr d <= (fr hi - fr o) / fr d) as Q by (unfold Rdiv; nra).
    rewrite Rmin_left, Rmax_right by auto. split; auto. split; auto.
    rewrite Ml, Mh. apply RN_mono. assert (0 < fr (fdiv f1 d)) by (rewrite Ei; nra). nra.
Qed.

Lemma intersect_value : forall b o d t0 x,
  box_within f1e34 b -> vwithin f1e34 o -> dirs_normal d -> vle (bmin b) (bmax b) ->
  intersect b (ray_set_t (ray_new o d) t0) = Some x ->
  apx x (exact_exit b o d) /\ exists y, apx y (exact_entry b o d) /\ fle y x = true.
Proof.
  intros b o d t0 x [W1 W2] Wo (X1 & X2 & X3) (L1 & L2 & L3) H.
  destruct (vwithin_fin _ W1) as [(F1 & F2 & F3) (B1 & B2 & B3)].
  destruct (vwithin_fin _ W2) as [(G1 & G2 & G3) (C1 & C2 & C3)].
  destruct (vwithin_fin _ Wo) as [(O1 & O2 & O3) (D1 & D2 & D3)].
  destruct (planes_facts _ _ _ _ F1 G1 O1 B1 C1 D1 X1 L1) as (I1 & J1 & K1).
  destruct (planes_facts _ _ _ _ F2 G2 O2 B2 C2 D2 X2 L2) as (I2 & J2 & K2).
  destruct (planes_facts _ _ _ _ F3 G3 O3 B3 C3 D3 X3 L3) as (I3 & J3 & K3).
  assert (forall (s : bool), vx (bb_index b s) = if s then vx (bmax b) else vx (bmin b)) as Y1 by (intros [|]; auto).
  assert (forall (s : bool), vy (bb_index b s) = if s then vy (bmax b) else vy (bmin b)) as Y2 by (intros [|]; auto).
  assert (forall (s : bool), vz (bb_index b s) = if s then vz (bmax b) else vz (bmin b)) as Y3 by (intros [|]; auto).
  unfold intersect, ray_set_t, ray_new, vdivs in H. cbn [r_inv r_origin r_sx r_sy r_sz r_tmin vx vy vz] in H.
  rewrite !Y1, !Y2, !Y3 in H.
  fold (plane_in (vx (bmin b)) (vx (bmax b)) (vx o) (vx d)) in H.
  fold (plane_in (vy (bmin b)) (vy (bmax b)) (vy o) (vy d)) in H.
  fold (plane_in (vz (bmin b)) (vz (bmax b)) (vz o) (vz d)) in H.
  fold (plane_out (vx (bmin b)) (vx (bmax b)) (vx o) (vx d)) in H.
  fold (plane_out (vy (bmin b)) (vy (bmax b)) (vy o) (vy d)) in H.
  fold (plane_out (vz (bmin b)) (vz (bmax b)) (vz o) (vz d)) in H.
  set (a1 := plane_in (vx (bmin b)) (vx (bmax b)) (vx o) (vx d)) in *.
  set (a2 := plane_in (vy (bmin b)) (vy (bmax b)) (vy o) (vy d)) in *.
  set (a3 := plane_in (vz (bmin b)) (vz (bmax b)) (vz o) (vz d)) in *.
  set (c1 := plane_out (vx (bmin b)) (vx (bmax b)) (vx o) (vx d)) in *.
  set (c2 := plane_out (vy (bmin b)) (vy (bmax b)) (vy o) (vy d)) in *.
  set (c3 := plane_out (vz (bmin b)) (vz (bmax b)) (vz o) (vz d)) in *.
  cbv zeta in H.
  assert (notnan a1 /\ notnan a2 /\ notnan a3) as (Na1 & Na2 & Na3) by (split; [apply I1|split; [apply I2|apply I3]]).
  assert (notnan c1 /\ notnan c2 /\ notnan c3) as (Nc1 & Nc2 & Nc3) by (split; [apply J1|split; [apply J2|apply J3]]).
  destruct (fgt a1 c2) eqn:T1; [discriminate|]. destruct (fgt a2 c1) eqn:T2; [discriminate|]. cbn [orb] in H.
  change (if fgt a2 a1 then a2 else a1) with (smax a2 a1) in H.
  change (if flt c2 c1 then c2 else c1) with (smin c2 c1) in H.
  destruct (fr_smax _ _ Na2 Na1) as [N1 E1]. destruct (fr_smin _ _ Nc2 Nc1) as [N2 E2].
  destruct (fgt (smax a2 a1) c3) eqn:T3; [discriminate|]. destruct (fgt a3 (smin c2 c1)) eqn:T4; [discriminate|]. cbn [orb] in H.
  change (if flt c3 (smin c2 c1) then c3 else smin c2 c1) with (smin c3 (smin c2 c1)) in H.
  destruct (fr_smin _ _ Nc3 N2) as [N3 E3].
  change DEFAULT_T_MIN with f1em4 in H.
  destruct (fgt (smin c3 (smin c2 c1)) f1em4); [|discriminate H].
  assert (forall a b : f32, Some a = Some b -> b = a) as SI by (intros a0 b0 E0; congruence).
  apply SI in H. subst x. clear SI.
  apply flt_false in T1; auto. apply flt_false in T2; auto. apply flt_false in T3; auto. apply flt_false in T4; auto.
  rewrite E1 in T3. rewrite E2 in T4.
  split.
  - assert (forall a b c : R, Rmin a (Rmin b c) = Rmin c (Rmin b a)) as RC.
    { intros a b' c. unfold Rmin. repeat (destruct (Rle_dec _ _)); lra. }
    unfold exact_exit. rewrite RC. repeat apply apx_smin; auto.
  - exists (smax a1 (smax a2 a3)). split.
    + unfold exact_entry. repeat apply apx_smax; auto.
    + destruct (fr_smax _ _ Na2 Na3) as [M1 Q1]. destruct (fr_smax _ _ Na1 M1) as [M2 Q2].
      apply fle_spec; auto. rewrite Q2, Q1, E3, E2.
      pose proof (Rmax_l (fr a2) (fr a1)). pose proof (Rmax_r (fr a2) (fr a1)).
      pose proof (Rmin_l (fr c2) (fr c1)). pose proof (Rmin_r (fr c2) (fr c1)).
      repeat apply Rmax_lub; repeat apply Rmin_glb; try lra.
Qed.
