(** * Property C58: 4-wide and packet traversals miss nothing either

    End to end for every tree whose boxes contain the primitives' boxes padded
    by 1e-4, and for the trees of the locally-ordered-clustering builder. *)
Require Import List ZArith Bool Arith Lia Permutation Reals Lra.
From Flocq Require Import Core BinarySingleNaN.
From Verif Require Import F32 F32Facts Vec RayModel Base AabbModel NodeModel IterModel MbvhModel SpecGeom SpecSlab SpecTree SpecTraverse SpecMbvh
  AabbProofs MeasureProofs SlabProofs Slab4Proofs IterProofs TraverseProofs ClosestProofs MbvhClient LocbModel LocbProofs
  PropBox PropSlab PropTraverse PropLocb PropNoMiss PropMbvh.
Import ListNotations.
Local Open Scope nat_scope.

(** ** Geometry *)

(** The numbers of magnitude at most [m], padded by 1e-4 in f32, move by at
    least [P]. *)
Definition pads_by (m : f32) (P : R) : Prop :=
  forall x : f32, fle (fneg m) x = true -> fle x m = true ->
  fin x /\ (Rabs (fr x) <= fr m)%R /\ (fr (fsub x f1em4) <= fr x - P)%R /\ (fr x + P <= fr (fadd x f1em4))%R.

Lemma pads_by_128 : pads_by f128 (92 / 1000000).
Proof. intros x A B. rewrite fr_128. apply pad4; auto. Qed.

Definition f32c : f32 := @B754_finite 24 128 false 8388608 (-18) eq_refl.
Lemma fr_32c : fr f32c = 32%R.
Proof. unfold f32c, fr. cbn [B2R]. unfold F2R. simpl. lra. Qed.

Lemma pads_by_32 : pads_by f32c (97 / 1000000).
Proof.
  intros x L U. destruct (fle_notnan _ _ U) as [N _].
  destruct (fr_neg f32c eq_refl) as [Nn En].
  apply fle_spec in L; auto. apply fle_spec in U; auto. rewrite En in L. rewrite fr_32c in *.
  pose proof fr_1em4_bounds as E5. pose proof ue_bounds as Ub.
  assert (fin x) as F.
  { apply fin_of_fr; auto. apply Rle_lt_trans with 32%R; [apply Rabs_le; lra|].
    change 32%R with (bpow radix2 5). apply bpow_lt. reflexivity. }
  assert (fin f1em4) as F5 by reflexivity.
  assert (forall r, (Rabs r <= 33)%R -> RN r = rnd r) as SM.
  { intros r Hr. apply RN_small. apply Rle_trans with (1 := Hr). apply Rle_trans with (bpow radix2 8); [simpl; lra|].
    apply bpow_le. lia. }
  destruct (fr_fsub x f1em4 F F5) as [N1 E1]. destruct (fr_fadd x f1em4 F F5) as [N2 E2].
  destruct (rnd_minus_rel x f1em4 F F5) as (e & He & R1). destruct (rnd_plus_rel x f1em4 F F5) as (e' & He' & R2).
  rewrite SM in E1 by (apply Rabs_le; lra). rewrite SM in E2 by (apply Rabs_le; lra).
  apply Rabs_le_inv in He. apply Rabs_le_inv in He'.
  split; auto. split; [apply Rabs_le; lra|]. split.
  - rewrite E1, R1. assert (- (321 / 10 * ue) <= (fr x - fr f1em4) * e <= 321 / 10 * ue)%R.
    { apply Rabs_le_inv. rewrite Rabs_mult. apply Rmult_le_compat; try apply Rabs_pos; apply Rabs_le; lra. }
    unfold ue in *. lra.
  - rewrite E2, R2. assert (- (321 / 10 * ue) <= (fr x + fr f1em4) * e' <= 321 / 10 * ue)%R.
    { apply Rabs_le_inv. rewrite Rabs_mult. apply Rmult_le_compat; try apply Rabs_pos; apply Rabs_le; lra. }
    unfold ue in *. lra.
Qed.

(** If the exact ray is in [b] at [s], it is in every box around the padded
    [b] at all parameters that differ from [s] by a relative [K]. *)
Lemma padded_point : forall m P K b big o d s,
  pads_by m P -> (0 < P)%R -> (K * (2 * fr m) <= P)%R ->
  box_within m b -> vwithin m o -> box_within f1e34 big -> box_in (with_offset b f1em4) big ->
  dirs_fine d -> ray_point_in b o d s ->
  axes_fine big o d /\ forall k, (Rabs k <= K)%R -> ray_point_in big o d (s * (1 + k)).
Proof.
  intros m P K b big o d s PB PP KP [W1 W2] Wo Wb [I1 I2] (D1 & D2 & D3) (P1 & P2 & P3).
  destruct W1 as [(L1 & L2 & L3) (L4 & L5 & L6)]. destruct W2 as [(M1 & M2 & M3) (M4 & M5 & M6)].
  destruct Wo as [(O1 & O2 & O3) (O4 & O5 & O6)].
  destruct I1 as (J1 & J2 & J3). destruct I2 as (J4 & J5 & J6).
  cbn [with_offset vsub vadd vmap2 vsplat bmin bmax vx vy vz] in *.
  assert (forall lo hi o d lo' hi' : f32,
    fle (fneg m) lo = true -> fle lo m = true -> fle (fneg m) hi = true -> fle hi m = true ->
    fle (fneg m) o = true -> fle o m = true -> fin lo' -> fin hi' ->
    fle lo' (fsub lo f1em4) = true -> fle (fadd hi f1em4) hi' = true -> dir_fine d ->
    (fval lo <= fval o + s * fval d <= fval hi)%R ->
    axis_fine lo' hi' o d /\
    (forall k, (Rabs k <= K)%R -> fval lo' <= fval o + s * (1 + k) * fval d <= fval hi')%R) as G.
  { clear - PB PP KP. intros lo hi o d lo' hi' A1 A2 A3 A4 A5 A6 Fl Fh B1 B2 Hd Hs.
    destruct (PB lo A1 A2) as (F1 & Q1 & R1 & _). destruct (PB hi A3 A4) as (F2 & Q2 & _ & R2).
    destruct (PB o A5 A6) as (F3 & Q3 & _ & _).
    pose proof (fle_notnan _ _ B1) as [N1 N2]. pose proof (fle_notnan _ _ B2) as [N3 N4].
    apply fle_spec in B1; auto. apply fle_spec in B2; auto.
    unfold fval in *. rewrite <- (fr_fin lo F1), <- (fr_fin hi F2), <- (fr_fin o F3) in Hs.
    rewrite <- (fr_fin lo' Fl), <- (fr_fin hi' Fh), <- (fr_fin o F3).
    split.
    - destruct Hd as [Hd|Hd]; [left; auto|right]. split; auto. subst d. simpl in Hs. rewrite Rmult_0_r, Rplus_0_r in Hs.
      split; apply flt_spec; auto using fin_notnan; lra.
    - intros k Hk. replace (fr o + s * (1 + k) * B2R d)%R with (fr o + s * B2R d + k * (s * B2R d))%R by ring.
      apply Rabs_le_inv in Q1. apply Rabs_le_inv in Q2. apply Rabs_le_inv in Q3.
      assert (- (K * (2 * fr m)) <= k * (s * B2R d) <= K * (2 * fr m))%R.
      { apply Rabs_le_inv. rewrite Rabs_mult. apply Rmult_le_compat; try apply Rabs_pos; auto. apply Rabs_le. lra. }
      lra. }
  destruct (vwithin_fin _ (proj1 Wb)) as [(F1 & F2 & F3) _]. destruct (vwithin_fin _ (proj2 Wb)) as [(F4 & F5 & F6) _].
  destruct (G _ _ _ _ _ _ L1 L4 M1 M4 O1 O4 F1 F4 J1 J4 D1 P1) as (X1 & Y1).
  destruct (G _ _ _ _ _ _ L2 L5 M2 M5 O2 O5 F2 F5 J2 J5 D2 P2) as (X2 & Y2).
  destruct (G _ _ _ _ _ _ L3 L6 M3 M6 O3 O6 F3 F6 J3 J6 D3 P3) as (X3 & Y3).
  split; [repeat split; auto|]. intros k Hk. repeat split; try apply Y1; try apply Y2; try apply Y3; auto.
Qed.

Lemma vwithin_mono : forall m m' v, fle (fneg m') (fneg m) = true -> fle m m' = true -> vwithin m v -> vwithin m' v.
Proof. intros m m' v A B [C D]. repeat split; eapply fle_trans; eauto; firstorder. Qed.

(** A real below a float by a few half-ulps rounds to something below it. *)
Lemma RN_below : forall (t : f32) T, fin t -> (bpow radix2 (-126) <= T)%R -> (T * (1 + 2 * ue) <= fr t)%R -> (RN T < fr t)%R.
Proof.
  intros t T Ft L U. pose proof ue_bounds. pose proof (bpow_gt_0 radix2 (-126)).
  destruct (rnd_rel T) as (e & He & Er); [rewrite Rabs_pos_eq; lra|]. apply Rabs_le_inv in He.
  assert (rnd T < fr t)%R as S by (rewrite Er; nra).
  pose proof (fin_fr_lt t Ft) as Hl. apply Rabs_lt_inv in Hl.
  destruct (RN_cases T) as [[_ ->]|[[Hx _]|[_ [Hx _]]]]; lra.
Qed.

Lemma min_s : forall s, (fval f1em4 <= s)%R -> (0 < s)%R /\ (bpow radix2 (-100) <= s)%R.
Proof.
  intros s S. change (fval f1em4) with (fr f1em4) in S. pose proof fr_1em4_bounds as Fb. split; [lra|].
  apply Rle_trans with (bpow radix2 (-20)); [apply bpow_le; lia|]. simpl. lra.
Qed.

(** The slot test of a 4-wide node for a ray. *)
Lemma padded_qhit : forall b big o d s r,
  box_within f128 b -> vwithin f128 o -> box_within f1e34 big -> box_in (with_offset b f1em4) big ->
  dirs_fine d -> (fval f1em4 <= s)%R -> ray_point_in b o d s ->
  forall t, r_origin r = o -> r_inv r = vdivs f1 d -> ffinite t -> (s <= fval t)%R -> fle t (r_t r) = true ->
  qhit r (box_of big) = true.
Proof.
  intros b big o d s r W Wo Wb I D S P t Eo Ei Ft St Tt.
  destruct (padded_point f128 (92 / 1000000) (6 * ue) b big o d s) as [X Y]; auto using pads_by_128;
    [lra|rewrite fr_128; unfold ue; lra|].
  destruct (min_s s S) as [S1 S2]. pose proof ue_bounds as Ub.
  assert (vwithin f1e34 o) as Wo' by (eapply vwithin_mono; [| |exact Wo]; vm_compute; reflexivity).
  destruct (box_at big o d (s * (1 - 3 * ue))) as (N1 & N2 & A & B); auto.
  - unfold ue; nra.
  - replace (s * (1 - 3 * ue) * (1 - 2 * ue))%R with (s * (1 + (- 5 * ue + 6 * ue * ue)))%R by ring. apply Y.
    apply Rabs_le. unfold ue. lra.
  - replace (s * (1 - 3 * ue) * (1 + 3 * ue))%R with (s * (1 + (- 9 * ue * ue)))%R by ring. apply Y.
    apply Rabs_le. unfold ue. lra.
  - unfold qhit. rewrite Eo, Ei. change (slab_far (box_of big) o (vdivs f1 d)) with (far4 big o d).
    change (slab_near (box_of big) o (vdivs f1 d)) with (near4 big o d).
    apply andb_true_iff. split; [apply fle_spec; auto; lra|].
    destruct (fle_notnan _ _ Tt) as [T1 T2]. apply fle_spec in Tt; auto.
    apply flt_spec; auto. apply Rle_lt_trans with (1 := A). apply Rlt_le_trans with (2 := Tt).
    apply RN_below; auto.
    + apply Rle_trans with (bpow radix2 (-100) * (1 - 3 * ue))%R; [|apply Rmult_le_compat_r; [unfold ue; lra|auto]].
      apply Rle_trans with (bpow radix2 (-100) * bpow radix2 (-1))%R.
      * rewrite <- bpow_plus. apply bpow_le. lia.
      * apply Rmult_le_compat_l; [apply bpow_ge_0|]. simpl. unfold ue. lra.
    + unfold fval in St. rewrite fr_fin by auto. unfold ue in *. nra.
Qed.

(** The packet tests: lane [i] of the packet is the ray. *)
Lemma padded_lane : forall b big o d s (t : f32),
  box_within f32c b -> vwithin f32c o -> box_within f1e34 big -> box_in (with_offset b f1em4) big ->
  dirs_fine d -> (fval f1em4 <= s)%R -> (s <= bpow radix2 127)%R -> ray_point_in b o d s -> ffinite t -> (s <= fval t)%R ->
  exists t1, box_within f1e34 big /\ vwithin f1e34 o /\ axes_fine big o d /\
    (bpow radix2 (-126) <= t1)%R /\ (t1 * (1 + / 1048576) <= s)%R /\ (s <= bpow radix2 127)%R /\
    ray_point_in big o d t1 /\ ray_point_in big o d s.
Proof.
  intros b big o d s t W Wo Wb I D S S' P Ft St.
  destruct (padded_point f32c (97 / 1000000) (17 * ue) b big o d s) as [X Y]; auto using pads_by_32;
    [lra|rewrite fr_32c; unfold ue; lra|].
  destruct (min_s s S) as [S1 S2].
  assert (vwithin f1e34 o) as Wo' by (eapply vwithin_mono; [| |exact Wo]; vm_compute; reflexivity).
  exists (s * (1 + (- 17 * ue)))%R. repeat (split; [assumption|]). split; [|split; [|split; [auto|split]]].
  - apply Rle_trans with (bpow radix2 (-100) * (1 + - 17 * ue))%R; [|apply Rmult_le_compat_r; [unfold ue; lra|auto]].
    apply Rle_trans with (bpow radix2 (-100) * bpow radix2 (-1))%R.
    * rewrite <- bpow_plus. apply bpow_le. lia.
    * apply Rmult_le_compat_l; [apply bpow_ge_0|]. simpl. unfold ue. lra.
  - unfold ue. nra.
  - apply Y. unfold ue. apply Rabs_le. lra.
  - replace s with (s * (1 + 0))%R by ring. apply Y. rewrite Rabs_R0. unfold ue. lra.
Qed.

(** The same two parameters in the association of the 4-wide packet test. *)
Definition near4w (b : aabb) (o d : vec3) : f32 :=
  smax (smax (snear (vx (bmin b)) (vx (bmax b)) (vx o) (vx d))
             (snear (vy (bmin b)) (vy (bmax b)) (vy o) (vy d)))
       (snear (vz (bmin b)) (vz (bmax b)) (vz o) (vz d)).
Definition far4w (b : aabb) (o d : vec3) : f32 :=
  smin (smin (sfar (vx (bmin b)) (vx (bmax b)) (vx o) (vx d))
             (sfar (vy (bmin b)) (vy (bmax b)) (vy o) (vy d)))
       (sfar (vz (bmin b)) (vz (bmax b)) (vz o) (vz d)).

Lemma box_at4 : forall b o d t,
  box_within f1e34 b -> vwithin f1e34 o -> axes_fine b o d -> (0 < t)%R ->
  ray_point_in b o d (t * (1 - 2 * ue)) -> ray_point_in b o d (t * (1 + 3 * ue)) ->
  notnan (near4w b o d) /\ notnan (far4w b o d) /\ (fr (near4w b o d) <= RN t)%R /\ (RN t <= fr (far4w b o d))%R.
Proof.
  intros b o d t [W1 W2] Wo (X1 & X2 & X3) T (P1 & P2 & P3) (Q1 & Q2 & Q3).
  destruct (vwithin_fin _ W1) as [(F1 & F2 & F3) (B1 & B2 & B3)].
  destruct (vwithin_fin _ W2) as [(G1 & G2 & G3) (C1 & C2 & C3)].
  destruct (vwithin_fin _ Wo) as [(O1 & O2 & O3) (D1 & D2 & D3)].
  destruct (axis_at _ _ _ _ _ F1 G1 O1 B1 C1 D1 X1 T P1 Q1) as (NA1 & NB1 & HA1 & HB1).
  destruct (axis_at _ _ _ _ _ F2 G2 O2 B2 C2 D2 X2 T P2 Q2) as (NA2 & NB2 & HA2 & HB2).
  destruct (axis_at _ _ _ _ _ F3 G3 O3 B3 C3 D3 X3 T P3 Q3) as (NA3 & NB3 & HA3 & HB3).
  unfold near4w, far4w.
  destruct (fr_smax _ _ NA1 NA2) as [M1 E1]. destruct (fr_smax _ _ M1 NA3) as [M2 E2].
  destruct (fr_smin _ _ NB1 NB2) as [M3 E3]. destruct (fr_smin _ _ M3 NB3) as [M4 E4].
  split; auto. split; auto. rewrite E2, E1, E4, E3.
  split; [repeat apply Rmax_lub; auto|repeat apply Rmin_glb; auto].
Qed.

Lemma qlane_accept : forall b p i o d t1 t2,
  lane_is p i o d -> box_within f1e34 b -> vwithin f1e34 o -> axes_fine b o d ->
  (bpow radix2 (-126) <= t1)%R -> (t1 * (1 + / 1048576) <= t2)%R -> (t2 <= bpow radix2 127)%R ->
  ray_point_in b o d t1 -> ray_point_in b o d t2 ->
  ffinite (wget (p_t p) i) -> (t2 <= fval (wget (p_t p) i))%R ->
  qhit4 p (box_of b) = true.
Proof.
  intros b p i o d t1 t2 (Li & Eo & Ed) W Wo X L1 L2 U P1 P2 Ft T2.
  pose proof (bpow_gt_0 radix2 (-126)) as P.
  set (a := (t1 * (1 + 3 * ue))%R). set (c := (t1 * (1 + 8 * ue))%R).
  assert (ray_point_in b o d (a * (1 - 2 * ue))) as Q1
    by (apply ray_point_between with t1 t2; auto; unfold a, ue; split; nra).
  assert (ray_point_in b o d (a * (1 + 3 * ue))) as Q2
    by (apply ray_point_between with t1 t2; auto; unfold a, ue; split; nra).
  assert (ray_point_in b o d (c * (1 - 2 * ue))) as Q3
    by (apply ray_point_between with t1 t2; auto; unfold c, ue; split; nra).
  assert (ray_point_in b o d (c * (1 + 3 * ue))) as Q4
    by (apply ray_point_between with t1 t2; auto; unfold c, ue; split; nra).
  destruct (box_at4 b o d a) as (N1 & N2 & A & _); auto; [unfold a, ue; nra|].
  destruct (box_at4 b o d c) as (_ & _ & _ & B); auto; [unfold c, ue; nra|].
  assert (c <= t2)%R as CT by (unfold c, ue; nra).
  assert (RN a < RN c)%R as S by (apply RN_strict; unfold a, c, ue in *; nra).
  assert (RN c <= fr (wget (p_t p) i))%R as Y.
  { apply RN_le_fr; [apply fin_notnan; auto|]. unfold fval in T2. rewrite fr_fin by auto. lra. }
  assert (qhit_lane p i (box_of b) = true) as H.
  { unfold qhit_lane.
    assert (slab_near4 (box_of b) (lane_origin p i) (lane_inv p i) = near4w b o d /\
            slab_far4 (box_of b) (lane_origin p i) (lane_inv p i) = far4w b o d) as [-> ->].
    { unfold lane_origin, lane_inv. rewrite <- Eo, Ed. split; reflexivity. }
    apply andb_true_iff. split; apply flt_spec; auto; try (apply fin_notnan; auto); lra. }
  unfold qhit4. destruct i as [|[|[|[|i]]]]; [| | | |lia]; rewrite H, ?orb_true_r; reflexivity.
Qed.

(** ** Trees *)

(** Every box on the way to primitive [p] contains [p]'s box padded by 1e-4,
    and no box is larger than 1e34. *)
Definition roomy (aabbs : list aabb) (indices : list nat) (t : tree) : Prop :=
  encloses (map (fun b => with_offset b f1em4) aabbs) indices t /\ all_recs (box_within f1e34) t.

Lemma paths_around : forall aabbs indices t, roomy aabbs indices t ->
  forall x p a, In x (tpaths t) -> In p (range_prims indices (fst x)) -> nth_error aabbs p = Some a ->
  Forall (fun bx => exists n, bx = box_of n /\ box_in (with_offset a f1em4) n /\ box_within f1e34 n) (snd x).
Proof.
  intros aabbs indices t [En Wi] x p a Ix Ip Ea.
  pose proof (map_nth_error (fun b => with_offset b f1em4) _ _ Ea) as Ea'.
  assert (In p (prims indices t) /\
    Forall (fun bx => exists n, bx = box_of n /\ box_in (with_offset a f1em4) n /\ box_within f1e34 n) (snd x)) as [_ G]; [|exact G].
  revert x Ix Ip. induction t as [i n|i n l IHl r IHr]; cbn [encloses all_recs tpaths t_rec] in *; intros x Ix Ip.
  - destruct Ix as [<-|[]]. cbn [fst snd] in *.
    assert (In p (prims indices (TLeaf i n))) as Q by exact Ip. split; auto.
    constructor; auto. exists n. split; auto. split; [|tauto]. destruct En as [En _].
    rewrite Forall_forall in En. apply (En p); auto.
  - destruct En as (En & El & Er), Wi as (Wn & Wl & Wr).
    apply in_map_iff in Ix as (y & <- & Iy). cbn [fst snd] in *.
    assert (In p (prims indices (TNode i n l r)) /\
       Forall (fun bx => exists n, bx = box_of n /\ box_in (with_offset a f1em4) n /\ box_within f1e34 n) (snd y)) as [Q G].
    { unfold prims. cbn [positions]. rewrite map_app. apply in_app_iff in Iy as [Iy|Iy].
      - destruct (IHl El Wl y Iy Ip) as [A B]. split; auto. apply in_or_app. left. exact A.
      - destruct (IHr Er Wr y Iy Ip) as [A B]. split; auto. apply in_or_app. right. exact A. }
    split; auto. constructor; auto. exists n. split; auto. split; auto. rewrite Forall_forall in En. apply (En p); auto.
Qed.

Lemma path_prim : forall indices t x p, In x (tpaths t) -> In p (range_prims indices (fst x)) -> In p (prims indices t).
Proof.
  intros indices t x p Ix Ip. unfold prims. rewrite positions_leaves.
  apply (in_map fst) in Ix. rewrite tpaths_leaves in Ix. apply in_map_iff in Ix as (n & En & In1). rewrite <- En in Ip.
  unfold range_prims in Ip. cbn [fst snd] in Ip. apply in_map_iff in Ip as (k & <- & Ik).
  apply in_map_iff. exists k. split; auto. apply in_flat_map. exists n. split; auto.
Qed.

Lemma path_of : forall indices n t p,
  Permutation (positions t) (seq 0 (length indices)) -> Permutation indices (seq 0 n) -> p < n ->
  exists x, In x (tpaths t) /\ In p (range_prims indices (fst x)).
Proof.
  intros indices n t p Dd Ee Lp.
  assert (In p indices) as Ip by (apply (Permutation_in _ (Permutation_sym Ee)); apply in_seq; lia).
  apply In_nth with (d := 0) in Ip as (k & Lk & Ek).
  assert (In k (positions t)) as Ik by (apply (Permutation_in _ (Permutation_sym Dd)); apply in_seq; lia).
  rewrite positions_leaves in Ik. apply in_flat_map in Ik as (nn & Inn & Ik).
  apply (in_map (fun n => (ex2 n, ex1 n))) in Inn. rewrite <- tpaths_leaves in Inn. apply in_map_iff in Inn as (x & Ex & Ix).
  exists x. split; auto. rewrite Ex. unfold range_prims. cbn [fst snd]. apply in_map_iff. exists k. split; auto.
Qed.

(** If every box on the way to primitive [i] passes the slot test, [i] is in a
    visited leaf. *)
Lemma visited : forall aabbs indices t hit leaves i b,
  roomy aabbs indices t -> Permutation (positions t) (seq 0 (length indices)) ->
  Permutation indices (seq 0 (length aabbs)) -> nth_error aabbs i = Some b ->
  (forall n, box_in (with_offset b f1em4) n -> box_within f1e34 n -> hit (box_of n) = true) ->
  submset (map fst (filter (fun x => forallb hit (snd x)) (tpaths t))) leaves ->
  In i (flat_map (range_prims indices) leaves).
Proof.
  intros aabbs indices t hit leaves i b Ro P1 P2 Eb H Sb.
  assert (i < length aabbs) as Li by (apply nth_error_Some; congruence).
  destruct (path_of indices (length aabbs) t i P1 P2 Li) as (x & Ix & Ip).
  apply in_flat_map. exists (fst x). split; auto. eapply submset_in; [exact Sb|].
  apply in_map_iff. exists x. split; auto. apply filter_In. split; auto.
  apply forallb_forall. intros bx Ibx.
  pose proof (paths_around aabbs indices t Ro x i b Ix Ip Eb) as G. rewrite Forall_forall in G.
  destruct (G bx Ibx) as (n & -> & A & B). auto.
Qed.

Lemma lowers_ray_fold : forall C (client : C -> nat -> ray -> C * ray), lowers_ray client ->
  forall ps c r, exists t, snd (client_fold client ps c r) = ray_set_t r t.
Proof.
  intros C client L ps. induction ps as [|p ps IH]; intros c r.
  - exists (r_t r). cbn. apply ray_set_same.
  - destruct (L c p r) as (t & E & _). destruct (IH (fst (client c p r)) (snd (client c p r))) as [t' E'].
    exists t'. unfold client_fold in *. cbn [fold_left fst snd]. rewrite (surjective_pairing (client c p r)).
    rewrite E' , E. reflexivity.
Qed.

Lemma lowers_t_fold : forall C (client : C -> nat -> packet -> C * packet), lowers_t client ->
  forall ps c r, exists t, snd (client_fold client ps c r) = packet_set_t r t.
Proof.
  intros C client L ps. induction ps as [|p ps IH]; intros c r.
  - exists (p_t r). cbn. apply packet_set_same.
  - destruct (L c p r) as (t & E & _). destruct (IH (fst (client c p r)) (snd (client c p r))) as [t' E'].
    exists t'. unfold client_fold in *. cbn [fold_left fst snd]. rewrite (surjective_pairing (client c p r)).
    rewrite E' , E. reflexivity.
Qed.

(** ** C58, for every roomy tree *)

(** A binary BVH and a ray: whatever the exact ray meets at or after [t_min]
    is yielded. *)
Lemma roomy_reached : forall indices aabbs t o d t0 i b s,
  Permutation (positions t) (seq 0 (length indices)) -> Permutation indices (seq 0 (length aabbs)) -> roomy aabbs indices t ->
  Forall (box_within f128) aabbs -> vwithin f128 o -> dirs_fine d ->
  nth_error aabbs i = Some b -> (fval f1em4 <= s)%R -> ray_point_in b o d s ->
  In i (flat_map (leaf_prims indices) (reached (hit_box (ray_set_t (ray_new o d) t0)) t)).
Proof.
  intros indices aabbs t o d t0 i b s P1 P2 [En Wi] W Wo Hd Eb S P.
  assert (box_within f128 b) as Wb by (rewrite Forall_forall in W; apply W; eapply nth_error_In; eauto).
  assert (In i (prims indices t)) as Ii.
  { apply (Permutation_in _ (Permutation_sym (prims_valid _ _ _ P1 P2))). apply in_seq. split; [lia|]. apply nth_error_Some. congruence. }
  destruct (reached_prim (hit_box (ray_set_t (ray_new o d) t0)) (map (fun b => with_offset b f1em4) aabbs) indices i (with_offset b f1em4)) with (t := t) as (n & I1 & I2); auto.
  - apply (map_nth_error (fun b => with_offset b f1em4)); auto.
  - eapply all_recs_impl; [|apply Wi]. intros n Wn Bn. apply (padded_hit b n o d s t0); auto.
  - apply in_flat_map. exists n. auto.
Qed.
Theorem C58_ray : forall C nodes indices aabbs t (client : C -> nat -> ray -> C * ray) turns c o d t0,
  traversable nodes indices t -> Permutation (positions t) (seq 0 (length indices)) ->
  Permutation indices (seq 0 (length aabbs)) -> roomy aabbs indices t -> enough t turns ->
  Forall (box_within f128) aabbs -> vwithin f128 o -> dirs_fine d -> only_t client ->
  exists ps rays c',
    iter_ray_indices nodes indices client turns c (ray_set_t (ray_new o d) t0) = Ok (ps, rays, c') /\
    forall i b s, nth_error aabbs i = Some b -> (fval f1em4 <= s)%R -> ray_point_in b o d s -> In i ps.
Proof.
  intros C nodes indices aabbs t client turns c o d t0 Tr P1 P2 Ro Fu W Wo Hd Ot.
  destruct (ray_vok o d t0 Wo Hd) as [V1 V2].
  destruct (C23_ray_indices C nodes indices t client turns c (ray_set_t (ray_new o d) t0)) as (ls & rs & c' & A & B & _); auto.
  eexists; eexists; eexists. split; [exact A|]. intros i b s Eb S P.
  eapply Permutation_in; [apply Permutation_flat_map; apply (Permutation_sym B)|].
  apply (roomy_reached indices aabbs t o d t0 i b s); auto.
Qed.

(** Closest hits through a binary BVH. *)
Theorem C58_closest : forall nodes indices aabbs t dist turns o d t0,
  traversable nodes indices t -> Permutation (positions t) (seq 0 (length indices)) ->
  Permutation indices (seq 0 (length aabbs)) -> roomy aabbs indices t -> enough t turns ->
  Forall (box_within f128) aabbs -> vwithin f128 o -> dirs_fine d -> flt f0 t0 = true ->
  (forall p x, dist p = Some x -> flt f0 x = true) ->
  (forall p x b, dist p = Some x -> nth_error aabbs p = Some b -> exists s, (fval f1em4 <= s)%R /\ ray_point_in b o d s) ->
  let r := ray_set_t (ray_new o d) t0 in
  exists ps rays, iter_ray_prims (length aabbs) nodes indices (closest_body dist) turns tt r = Ok (ps, rays, tt) /\
    last rays r = snd (client_fold (closest_body dist) (seq 0 (length aabbs)) tt r).
Proof.
  intros nodes indices aabbs t dist turns o d t0 Tr P1 P2 Ro Fu W Wo Hd Pt Pd Hs r.
  destruct (ray_vok o d t0 Wo Hd) as [V1 V2].
  destruct Tr as (Hn & Hi & Rp & T0 & Dp & F).
  apply (closest_hit_gen nodes indices (length aabbs) t dist r turns); auto.
  intros p x Ed Lp. apply nth_error_Some in Lp. destruct (nth_error aabbs p) as [b|] eqn:Eb; [|congruence].
  destruct (Hs p x b Ed Eb) as (s & S & P). apply (roomy_reached indices aabbs t o d t0 p b s); auto.
Qed.

(** A 4-wide BVH and a ray: whatever the exact ray meets at a distance not
    beyond the final [ray.t] is yielded. *)
Theorem C58_quad_ray : forall C mb ns indices aabbs t (client : C -> nat -> ray -> C * ray) turns c o d t0,
  made_from mb ns indices (length aabbs) t -> roomy aabbs indices t -> depth t <= 22 -> quad_enough mb turns ->
  Forall (box_within f128) aabbs -> vwithin f128 o -> dirs_fine d -> lowers_ray client ->
  let r := ray_set_t (ray_new o d) t0 in
  exists ps rays c',
    miter_ray_indices (m_nodes mb) (mb_indices mb) client turns c r = Ok (ps, rays, c') /\
    forall i b s, nth_error aabbs i = Some b -> (fval f1em4 <= s)%R -> ray_point_in b o d s ->
      ffinite (r_t (last rays r)) -> (s <= fval (r_t (last rays r)))%R -> In i ps.
Proof.
  intros C mb ns indices aabbs t client turns c o d t0 Hm Ro D Fu W Wo Hd Lo r.
  destruct (C27_ray_indices C mb ns indices (length aabbs) t client turns c r Hm D Fu Lo) as (mt & ls & rs & c' & _ & _ & E & S0 & _ & _ & Fo).
  exists (flat_map (range_prims indices) ls), rs, c'. split; auto.
  intros i b s Eb S P Ft St.
  assert (exists t', last rs r = ray_set_t r t') as [t' El].
  { rewrite <- (f_equal snd Fo : snd (client_fold _ _ _ _) = last rs r). apply lowers_ray_fold; auto. }
  destruct Hm as [(A & B & Cc & Dd & Ee & F & G & H & I) _].
  apply (visited aabbs indices t (qhit (last rs r)) ls i b); auto.
  intros n I1 I2. apply (padded_qhit b n o d s) with (r_t (last rs r)); auto; try (rewrite El; reflexivity).
  - rewrite Forall_forall in W. apply W. eapply nth_error_In; eauto.
  - apply fle_refl. apply fin_notnan. exact Ft.
Qed.

(** A 4-wide BVH and a packet: whatever the exact ray of lane [k] meets at a
    distance not beyond that lane's final distance is yielded. *)
Theorem C58_quad_packet : forall C mb ns indices aabbs t (client : C -> nat -> packet -> C * packet) turns c p,
  made_from mb ns indices (length aabbs) t -> roomy aabbs indices t -> depth t <= 22 -> quad_enough mb turns ->
  Forall (box_within f32c) aabbs -> lowers_t client ->
  exists ps packets c',
    miter_packet_indices (m_nodes mb) (mb_indices mb) client turns c p = Ok (ps, packets, c') /\
    forall k o d i b s, lane_is p k o d -> vwithin f32c o -> dirs_fine d ->
      nth_error aabbs i = Some b -> (fval f1em4 <= s <= bpow radix2 127)%R -> ray_point_in b o d s ->
      ffinite (wget (p_t (last packets p)) k) -> (s <= fval (wget (p_t (last packets p)) k))%R -> In i ps.
Proof.
  intros C mb ns indices aabbs t client turns c p Hm Ro D Fu W Lo.
  destruct (C27_packet_indices C mb ns indices (length aabbs) t client turns c p Hm D Fu Lo) as (mt & ls & rs & c' & _ & _ & E & S0 & _ & _ & Fo).
  exists (flat_map (range_prims indices) ls), rs, c'. split; auto.
  intros k o d i b s Lp Wo Hd Eb [S S'] P Ft St.
  assert (exists t', last rs p = packet_set_t p t') as [t' El].
  { rewrite <- (f_equal snd Fo : snd (client_fold _ _ _ _) = last rs p). apply lowers_t_fold; auto. }
  destruct Hm as [(A & B & Cc & Dd & Ee & F & G & H & I) _].
  apply (visited aabbs indices t (qhit4 (last rs p)) ls i b); auto.
  intros n I1 I2.
  destruct (padded_lane b n o d s (wget (p_t (last rs p)) k)) as (t1 & X1 & X2 & X3 & X4 & X5 & X6 & X7 & X8); auto.
  { rewrite Forall_forall in W. apply W. eapply nth_error_In; eauto. }
  apply (qlane_accept n (last rs p) k o d t1 s); auto. rewrite El. exact Lp.
Qed.

(** A binary BVH and a packet. *)
Theorem C58_packet : forall C nodes indices aabbs t (client : C -> nat -> packet -> C * packet) turns c p,
  traversable nodes indices t -> Permutation (positions t) (seq 0 (length indices)) ->
  Permutation indices (seq 0 (length aabbs)) -> roomy aabbs indices t -> enough t turns ->
  Forall (box_within f32c) aabbs -> lowers_t client -> packet_alive nodes p = true ->
  exists ps packets c',
    iter_packet_indices nodes indices client turns c p = Ok (ps, packets, c') /\
    forall k o d i b s, lane_is p k o d -> vwithin f32c o -> dirs_fine d ->
      nth_error aabbs i = Some b -> (fval f1em4 <= s <= bpow radix2 127)%R -> ray_point_in b o d s ->
      ffinite (wget (p_t (last packets p)) k) -> (s <= fval (wget (p_t (last packets p)) k))%R -> In i ps.
Proof.
  intros C nodes indices aabbs t client turns c p Tr P1 P2 [En Wi] Fu W Lo Al.
  destruct (C29_packet C nodes indices t client turns c p Tr Lo Al Fu) as (ls & rs & c' & E & S0 & _ & Fo).
  exists (flat_map (leaf_prims indices) ls), rs, c'. split; auto.
  intros k o d i b s Lp Wo Hd Eb [S S'] P Ft St.
  assert (exists t', last rs p = packet_set_t p t') as [t' El].
  { rewrite <- (f_equal snd Fo : snd (client_fold _ _ _ _) = last rs p). apply lowers_t_fold; auto. }
  assert (In i (prims indices t)) as Ii.
  { apply (Permutation_in _ (Permutation_sym (prims_valid _ _ _ P1 P2))). apply in_seq. split; [lia|]. apply nth_error_Some. congruence. }
  destruct (reached_prim (hit_box4 (last rs p)) (map (fun b => with_offset b f1em4) aabbs) indices i (with_offset b f1em4)) with (t := t) as (n & I1 & I2); auto.
  - apply (map_nth_error (fun b => with_offset b f1em4)); auto.
  - eapply all_recs_impl; [|apply Wi]. intros n Wn Bn.
    destruct (padded_lane b n o d s (wget (p_t (last rs p)) k)) as (t1 & X1 & X2 & X3 & X4 & X5 & X6 & X7 & X8); auto.
    { rewrite Forall_forall in W. apply W. eapply nth_error_In; eauto. }
    unfold hit_box4. destruct (C08_complete n (last rs p) k o d t1 s) as [ts ->]; auto. rewrite El. exact Lp.
  - apply in_flat_map. exists n. split; auto. eapply submset_in; eauto.
Qed.

(** Closest hits through a 4-wide BVH: for any distance function that only
    reports primitives whose box the exact ray meets between [t_min] and the
    reported distance, the loop ends with the brute-force result. *)
Theorem C58_quad_closest : forall mb ns indices aabbs t dist turns o d t0,
  made_from mb ns indices (length aabbs) t -> roomy aabbs indices t -> depth t <= 22 -> quad_enough mb turns ->
  Forall (box_within f128) aabbs -> vwithin f128 o -> dirs_fine d -> flt f0 t0 = true ->
  (forall p x, dist p = Some x -> flt f0 x = true) ->
  (forall p x b, dist p = Some x -> nth_error aabbs p = Some b ->
     ffinite x /\ exists s, (fval f1em4 <= s <= fval x)%R /\ ray_point_in b o d s) ->
  let r := ray_set_t (ray_new o d) t0 in
  exists ps rays, miter_ray_prims (length aabbs) (m_nodes mb) (mb_indices mb) (closest_body dist) turns tt r = Ok (ps, rays, tt) /\
    last rays r = snd (client_fold (closest_body dist) (seq 0 (length aabbs)) tt r).
Proof.
  intros mb ns indices aabbs t dist turns o d t0 Hm Ro D Fu W Wo Hd Pt Pd Hs r.
  pose proof Hm as [(A & B & Cc & Dd & Ee & F & G & H & I) _].
  apply (C27_closest_hit mb ns indices (length aabbs) t dist r turns); auto.
  intros p x y bx Ed Iy Ip Ib t' Ht'.
  assert (In p (seq 0 (length aabbs))) as Lp.
  { apply (Permutation_in _ (prims_valid _ _ _ Dd Ee)). eapply path_prim; eauto. }
  apply in_seq in Lp. destruct (nth_error aabbs p) as [b|] eqn:Eb; [|apply nth_error_None in Eb; lia].
  destruct (Hs p x b Ed Eb) as (Fx & s & (S1 & S2) & P).
  pose proof (paths_around aabbs indices t Ro y p b Iy Ip Eb) as Q. rewrite Forall_forall in Q.
  destruct (Q bx Ib) as (n & -> & Q1 & Q2).
  apply (padded_qhit b n o d s) with x; auto.
  - rewrite Forall_forall in W. apply W. eapply nth_error_In; eauto.
  - apply flt_fle; auto.
Qed.

(** ** Trees of the clustering builder *)

Lemma repr_i32 : forall ns t, repr ns t -> Forall (fun r => (ex2 r < 2147483648)%Z) (leaf_recs t) ->
  (Z.of_nat (length ns) <= 2147483648)%Z -> forall k n, In k (t_ids t) -> nth_error ns k = Some n -> (ex2 n < 2147483648)%Z.
Proof.
  intros ns t. induction t as [i m|i m l IHl r IHr]; cbn [repr leaf_recs t_ids]; intros Rp Lf Ln k n Ik En.
  - destruct Ik as [<-|[]]. destruct Rp as (E & _). assert (m = n) as <- by congruence.
    rewrite Forall_forall in Lf. apply Lf. simpl; auto.
  - apply Forall_app in Lf as [Lf1 Lf2]. destruct Rp as (E & E1 & E2 & E3 & R1 & R2).
    destruct Ik as [<-|Ik].
    + assert (m = n) as <- by congruence.
      assert (t_idx l < length ns) by (apply nth_error_Some; rewrite (repr_idx _ _ R1); congruence). lia.
    + apply in_app_iff in Ik as [Ik|Ik]; eauto.
Qed.

(** Node arrays as produced by the builders can be collapsed. *)
Lemma binary_of : forall ns indices n t,
  repr ns t -> t_idx t = 0 -> Permutation (t_ids t) (seq 0 (length ns)) ->
  Permutation (positions t) (seq 0 (length indices)) -> Permutation indices (seq 0 n) -> 1 <= n ->
  (Z.of_nat (length ns) <= 2147483648)%Z -> (Z.of_nat n <= 2147483648)%Z ->
  Forall (fun r => (1 <= ex1 r)%Z) (leaf_recs t) -> binary ns indices n t.
Proof.
  intros ns indices n t Rp T0 Pi P1 P2 N1 Ln Nn Lf.
  assert (length indices = n) as Li by (rewrite (Permutation_length P2), seq_length; auto).
  repeat (split; [first [assumption|lia]|]).
  unfold i32_nodes. apply Forall_forall. intros x Ix. apply In_nth_error in Ix as [k Ek].
  apply (repr_i32 ns t Rp) with k; auto.
  - rewrite Forall_forall in *. intros m Im. pose proof (Lf m Im) as C1.
    destruct (Z.ltb_spec (ex2 m) 0) as [Z0|Z0]; [lia|].
    assert (In (Z.to_nat (ex2 m)) (positions t)) as Ip.
    { rewrite positions_leaves. apply in_flat_map. exists m. split; auto. unfold leaf_positions. apply in_seq. lia. }
    apply (Permutation_in _ P1) in Ip. apply in_seq in Ip. lia.
  - apply (Permutation_in _ (Permutation_sym Pi)). apply in_seq. split; [lia|]. apply nth_error_Some. congruence.
Qed.

Lemma locb_roomy : forall fuel threads aabbs centers bv t,
  locb_input aabbs centers -> 1 <= threads -> 3 <= length aabbs -> Forall (box_within f2p60) aabbs ->
  locb_build fuel threads aabbs centers = Ok bv -> repr (nodes bv) t -> t_idx t = 0 ->
  roomy aabbs (prim_indices bv) t /\ binary (nodes bv) (prim_indices bv) (length aabbs) t /\
  length (nodes bv) = 2 * length aabbs - 1.
Proof.
  intros fuel threads aabbs centers bv t (L & N1 & M) T N3 W E Rp T0.
  destruct (locb_sound 14 fuel threads aabbs centers bv) as (t' & Rp' & T0' & Pi & P1 & P2 & Ln & L1 & _ & _ & Pd); auto; [lia|].
  assert (t' = t) as -> by (apply (repr_unique (nodes bv)); congruence).
  destruct (Nat.leb_spec (length aabbs) 2) as [C2|C2]; [lia|].
  destruct (Pd N3) as [En Wi].
  assert (Forall box_ok aabbs) as Ok by (eapply Forall_impl; [|apply W]; intros x; apply within_ok).
  split; [split|split].
  - apply En; auto.
  - eapply all_recs_impl; [|apply Wi; auto]. intros x. apply within_mono; vm_compute; reflexivity.
  - apply binary_of; auto; try lia. eapply Forall_impl; [|apply L1; auto]. simpl. intros r ->. lia.
  - auto.
Qed.

(** For LOC trees over three or more primitives ([depth t <= 22] always holds
    up to 23 primitives): the 4-wide BVH made of it, and the BVH itself
    traversed by packets. *)
Theorem C58_locb_quad_ray : forall C fuel threads aabbs centers bv mfuel mb t (client : C -> nat -> ray -> C * ray) turns c o d t0,
  locb_input aabbs centers -> 1 <= threads -> 3 <= length aabbs -> Forall (box_within f128) aabbs ->
  locb_build fuel threads aabbs centers = Ok bv -> repr (nodes bv) t -> t_idx t = 0 -> depth t <= 22 ->
  length (nodes bv) <= mfuel -> mbvh_construct mfuel bv = Ok mb -> quad_enough mb turns ->
  vwithin f128 o -> dirs_fine d -> lowers_ray client ->
  let r := ray_set_t (ray_new o d) t0 in
  exists ps rays c',
    miter_ray_indices (m_nodes mb) (mb_indices mb) client turns c r = Ok (ps, rays, c') /\
    forall i b s, nth_error aabbs i = Some b -> (fval f1em4 <= s)%R -> ray_point_in b o d s ->
      ffinite (r_t (last rays r)) -> (s <= fval (r_t (last rays r)))%R -> In i ps.
Proof.
  intros C fuel threads aabbs centers bv mfuel mb t client turns c o d t0 I T N3 W E Rp T0 D Mf Em Fu Wo Hd Lo.
  destruct (locb_roomy fuel threads aabbs centers bv t) as (Ro & Bi & _); auto.
  { eapply Forall_impl; [|apply W]. intros x. apply within_mono; vm_compute; reflexivity. }
  apply (C58_quad_ray C mb (nodes bv) (prim_indices bv) aabbs t); auto.
  split; auto. exists mfuel. split; [auto|]. left. destruct bv; exact Em.
Qed.

Theorem C58_locb_quad_packet : forall C fuel threads aabbs centers bv mfuel mb t (client : C -> nat -> packet -> C * packet) turns c p,
  locb_input aabbs centers -> 1 <= threads -> 3 <= length aabbs -> Forall (box_within f32c) aabbs ->
  locb_build fuel threads aabbs centers = Ok bv -> repr (nodes bv) t -> t_idx t = 0 -> depth t <= 22 ->
  length (nodes bv) <= mfuel -> mbvh_construct mfuel bv = Ok mb -> quad_enough mb turns ->
  lowers_t client ->
  exists ps packets c',
    miter_packet_indices (m_nodes mb) (mb_indices mb) client turns c p = Ok (ps, packets, c') /\
    forall k o d i b s, lane_is p k o d -> vwithin f32c o -> dirs_fine d ->
      nth_error aabbs i = Some b -> (fval f1em4 <= s <= bpow radix2 127)%R -> ray_point_in b o d s ->
      ffinite (wget (p_t (last packets p)) k) -> (s <= fval (wget (p_t (last packets p)) k))%R -> In i ps.
Proof.
  intros C fuel threads aabbs centers bv mfuel mb t client turns c p I T N3 W E Rp T0 D Mf Em Fu Lo.
  destruct (locb_roomy fuel threads aabbs centers bv t) as (Ro & Bi & _); auto.
  { eapply Forall_impl; [|apply W]. intros x. apply within_mono; vm_compute; reflexivity. }
  apply (C58_quad_packet C mb (nodes bv) (prim_indices bv) aabbs t); auto.
  split; auto. exists mfuel. split; [auto|]. left. destruct bv; exact Em.
Qed.

Theorem C58_locb_packet : forall C fuel threads aabbs centers bv t (client : C -> nat -> packet -> C * packet) turns c p,
  locb_input aabbs centers -> 1 <= threads -> 3 <= length aabbs -> Forall (box_within f32c) aabbs ->
  locb_build fuel threads aabbs centers = Ok bv -> repr (nodes bv) t -> t_idx t = 0 -> depth t <= 31 ->
  3 * length aabbs + 1 <= turns ->
  lowers_t client -> packet_alive (nodes bv) p = true ->
  exists ps packets c',
    iter_packet_indices (nodes bv) (prim_indices bv) client turns c p = Ok (ps, packets, c') /\
    forall k o d i b s, lane_is p k o d -> vwithin f32c o -> dirs_fine d ->
      nth_error aabbs i = Some b -> (fval f1em4 <= s <= bpow radix2 127)%R -> ray_point_in b o d s ->
      ffinite (wget (p_t (last packets p)) k) -> (s <= fval (wget (p_t (last packets p)) k))%R -> In i ps.
Proof.
  intros C fuel threads aabbs centers bv t client turns c p I T N3 W E Rp T0 D Fu Lo Al.
  destruct (locb_traversable fuel threads aabbs centers bv t) as (Tr & P1 & P2 & Sz & Sp); auto.
  destruct (locb_roomy fuel threads aabbs centers bv t) as (Ro & Bi & _); auto.
  { eapply Forall_impl; [|apply W]. intros x. apply within_mono; vm_compute; reflexivity. }
  apply (C58_packet C (nodes bv) (prim_indices bv) aabbs t); auto. unfold enough. lia.
Qed.

(** The whole 4-wide pipeline finds what brute force finds. *)
Theorem C58_locb_quad_closest : forall fuel threads aabbs centers bv mfuel mb t dist turns o d t0,
  locb_input aabbs centers -> 1 <= threads -> 3 <= length aabbs -> Forall (box_within f128) aabbs ->
  locb_build fuel threads aabbs centers = Ok bv -> repr (nodes bv) t -> t_idx t = 0 -> depth t <= 22 ->
  length (nodes bv) <= mfuel -> mbvh_construct mfuel bv = Ok mb -> quad_enough mb turns ->
  vwithin f128 o -> dirs_fine d -> flt f0 t0 = true ->
  (forall p x, dist p = Some x -> flt f0 x = true) ->
  (forall p x b, dist p = Some x -> nth_error aabbs p = Some b ->
     ffinite x /\ exists s, (fval f1em4 <= s <= fval x)%R /\ ray_point_in b o d s) ->
  let r := ray_set_t (ray_new o d) t0 in
  exists ps rays, miter_ray_prims (length aabbs) (m_nodes mb) (mb_indices mb) (closest_body dist) turns tt r = Ok (ps, rays, tt) /\
    last rays r = snd (client_fold (closest_body dist) (seq 0 (length aabbs)) tt r).
Proof.
  intros fuel threads aabbs centers bv mfuel mb t dist turns o d t0 I T N3 W E Rp T0 D Mf Em Fu Wo Hd Pt Pd Hs.
  destruct (locb_roomy fuel threads aabbs centers bv t) as (Ro & Bi & _); auto.
  { eapply Forall_impl; [|apply W]. intros x. apply within_mono; vm_compute; reflexivity. }
  apply (C58_quad_closest mb (nodes bv) (prim_indices bv) aabbs t); auto.
  split; auto. exists mfuel. split; [auto|]. left. destruct bv; exact Em.
Qed.

(** Up to 23 primitives nothing needs to be assumed about the tree: the
    collapse succeeds and closest-hit search equals brute force. *)
Theorem C58_locb_small : forall fuel threads aabbs centers bv dist o d t0,
  locb_input aabbs centers -> 1 <= threads -> 3 <= length aabbs <= 23 -> Forall (box_within f128) aabbs ->
  locb_build fuel threads aabbs centers = Ok bv ->
  vwithin f128 o -> dirs_fine d -> flt f0 t0 = true ->
  (forall p x, dist p = Some x -> flt f0 x = true) ->
  (forall p x b, dist p = Some x -> nth_error aabbs p = Some b ->
     ffinite x /\ exists s, (fval f1em4 <= s <= fval x)%R /\ ray_point_in b o d s) ->
  let r := ray_set_t (ray_new o d) t0 in
  exists mb ps rays, mbvh_construct 45 bv = Ok mb /\
    miter_ray_prims (length aabbs) (m_nodes mb) (mb_indices mb) (closest_body dist) 248 tt r = Ok (ps, rays, tt) /\
    last rays r = snd (client_fold (closest_body dist) (seq 0 (length aabbs)) tt r).
Proof.
  intros fuel threads aabbs centers bv dist o d t0 I T [N3 N23] W E Wo Hd Pt Pd Hs r.
  pose proof I as (L & N1 & M).
  destruct (locb_sound 14 fuel threads aabbs centers bv) as (t & Rp & T0 & Pi & _ & _ & Ln & _); auto; [lia|].
  destruct (locb_roomy fuel threads aabbs centers bv t) as (Ro & Bi & Ln'); auto.
  { eapply Forall_impl; [|apply W]. intros x. apply within_mono; vm_compute; reflexivity. }
  destruct (C26_construct bv (length aabbs) t 45 Bi) as (mb & mt & Em & _ & Ei & _ & _ & Lm & _); [lia|].
  assert (depth t <= 22) as D.
  { apply Permutation_length in Pi. rewrite t_ids_size, seq_length in Pi.
    pose proof (depth_leaves t). pose proof (size_leaves t). lia. }
  assert (length (prim_indices bv) = length aabbs) as Li.
  { destruct Bi as (_ & _ & _ & _ & Q & _). rewrite (Permutation_length Q). apply seq_length. }
  destruct (C58_locb_quad_closest fuel threads aabbs centers bv 45 mb t dist 248 o d t0) as (ps & rays & X & Y); auto; try lia.
  { unfold quad_enough. rewrite Ei, Li. lia. }
  exists mb, ps, rays. auto.
Qed.

(** ** A concrete case *)

(** The scene and ray of [C45_nonvacuous]; primitive 0 reported at distance 3,
    its box is met at 2.  Four copies of the ray make a packet; box 0 is
    within 32 (all six boxes are). *)
Definition dist58 (p : nat) : option f32 := if p =? 0 then Some (fz 3) else None.
Definition o58 : vec4 := V4 (fz (-1)) half_f (fz 1) f0.
Definition d58 : vec4 := V4 (fz 1) (B754_zero false) (B754_zero false) f0.
Definition p58 : packet := packet_new o58 o58 o58 o58 d58 d58 d58 d58.
Example C58_nonvacuous : locb_input lbs lcs /\ 3 <= length lbs <= 23 /\ Forall (box_within f128) lbs /\ Forall (box_within f32c) lbs /\
  (exists bv, locb_build 6 3 lbs lcs = Ok bv /\ packet_alive (nodes bv) p58 = true) /\
  vwithin f128 o45 /\ vwithin f32c o45 /\ dirs_fine d45 /\ flt f0 (fz 3) = true /\
  (forall p x b, dist58 p = Some x -> nth_error lbs p = Some b ->
     ffinite x /\ exists s, (fval f1em4 <= s <= fval x)%R /\ ray_point_in b o45 d45 s) /\
  (forall k, k < 4 -> lane_is p58 k o45 d45).
Proof.
  destruct C45_nonvacuous as (I & W & _ & _ & Wo & Hd & E0 & S & P).
  destruct C18_nonvacuous as (_ & _ & _ & bv & E & Ln & _).
  assert (length lbs = 6) as L6 by reflexivity.
  split; auto. split; [lia|]. split; auto.
  split; [unfold lbs; simpl map; repeat constructor; vm_compute; reflexivity|].
  split; [exists bv; split; auto; destruct (nodes bv); [discriminate|vm_compute; reflexivity]|].
  split; auto. split; [repeat split; vm_compute; reflexivity|]. split; auto. split; [vm_compute; reflexivity|]. split.
  { intros p x b Ed Eb. unfold dist58 in Ed. destruct (Nat.eqb_spec p 0) as [-> |]; [|discriminate].
    assert (b = lb 0) as -> by congruence. assert (x = fz 3) as -> by congruence. split; [reflexivity|].
    exists 2%R. replace (fval (fz 3)) with 3%R by (vm_compute; lra). split; auto. lra. }
  intros k Hk. destruct k as [|[|[|[|k]]]]; [| | | |lia]; (split; [lia|]; split; reflexivity).
Qed.

(** A packet client that does what a renderer does — it shortens the lanes
    that are farther than the primitive it is handed — is one of the clients
    the packet theorems are about. *)
Definition nearer (dist : nat -> f32) (c : unit) (i : nat) (p : packet) : unit * packet :=
  let f x := if flt (dist i) x then dist i else x in
  (tt, packet_set_t p (V4 (f (wx (p_t p))) (f (wy (p_t p))) (f (wz (p_t p))) (f (ww (p_t p))))).
Example C58_packet_client : forall dist, lowers_t (nearer dist).
Proof.
  intros dist c i p. eexists. split; [reflexivity|].
  assert (forall x, at_most (if flt (dist i) x then dist i else x) x) as A.
  { intro x. destruct (flt (dist i) x) eqn:E; [right; apply flt_fle; exact E|left; reflexivity]. }
  repeat split; apply A.
Qed.
