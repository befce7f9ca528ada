(** * Property C45: a BVH built by locally-ordered clustering misses nothing

    End to end: the builder, the box test with its rounding errors, and the
    iterator. *)
Require Import List ZArith Bool Arith Lia Permutation Reals Lra.
From Flocq Require Import Core BinarySingleNaN.
From Verif Require Import F32 F32Facts Vec RayModel Base AabbModel NodeModel IterModel SpecGeom SpecTree SpecTraverse AabbProofs MeasureProofs SlabProofs
  IterProofs TraverseProofs ClosestProofs LocbModel LocbProofs PropBox PropTraverse PropLocb.
Import ListNotations.
Local Open Scope nat_scope.

(** A direction component the box test can handle: its reciprocal is a normal
    number, or it is positive zero. *)
Definition dir_fine (d : f32) : Prop := dir_normal d \/ d = B754_zero false.
Definition dirs_fine (d : vec3) : Prop := dir_fine (vx d) /\ dir_fine (vy d) /\ dir_fine (vz d).

Lemma fr_1em4_bounds : (999 / 10000000 < fr f1em4 < 1001 / 10000000)%R.
Proof. rewrite fr_1em4. lra. Qed.

Lemma pad4 : forall x : f32, fle (fneg f128) x = true -> fle x f128 = true ->
  fin x /\ (Rabs (fr x) <= 128)%R /\
  (fr (fsub x f1em4) <= fr x - 92 / 1000000)%R /\ (fr x + 92 / 1000000 <= fr (fadd x f1em4))%R.
Proof.
  intros x L U. destruct (fle_notnan _ _ U) as [N _].
  destruct (fr_neg f128 eq_refl) as [Nn En].
  apply fle_spec in L; auto. apply fle_spec in U; auto. rewrite En in L. rewrite fr_128 in *.
  pose proof fr_1em4_bounds as E5. pose proof ue_bounds as Ub.
  assert (fin x) as F.
  { apply fin_of_fr; auto. apply Rle_lt_trans with 128%R; [apply Rabs_le; lra|].
    change 128%R with (bpow radix2 7). apply bpow_lt. reflexivity. }
  assert (fin f1em4) as F5 by reflexivity.
  assert (forall r, (Rabs r <= 129)%R -> RN r = rnd r) as SM.
  { intros r Hr. apply RN_small. apply Rle_trans with (1 := Hr). apply Rle_trans with (bpow radix2 8); [simpl; lra|].
    apply bpow_le. lia. }
  destruct (fr_fsub x f1em4 F F5) as [N1 E1]. destruct (fr_fadd x f1em4 F F5) as [N2 E2].
  destruct (rnd_minus_rel x f1em4 F F5) as (e & He & R1). destruct (rnd_plus_rel x f1em4 F F5) as (e' & He' & R2).
  rewrite SM in E1 by (apply Rabs_le; lra). rewrite SM in E2 by (apply Rabs_le; lra).
  apply Rabs_le_inv in He. apply Rabs_le_inv in He'.
  split; auto. split; [apply Rabs_le; lra|]. split.
  - rewrite E1, R1. assert (- (1281 / 10 * ue) <= (fr x - fr f1em4) * e <= 1281 / 10 * ue)%R.
    { apply Rabs_le_inv. rewrite Rabs_mult. apply Rmult_le_compat; try apply Rabs_pos; apply Rabs_le; lra. }
    unfold ue in *. lra.
  - rewrite E2, R2. assert (- (1281 / 10 * ue) <= (fr x + fr f1em4) * e' <= 1281 / 10 * ue)%R.
    { apply Rabs_le_inv. rewrite Rabs_mult. apply Rmult_le_compat; try apply Rabs_pos; apply Rabs_le; lra. }
    unfold ue in *. lra.
Qed.

Lemma axis_slack : forall lo hi o d s k : R,
  (Rabs lo <= 128 -> Rabs hi <= 128 -> Rabs o <= 128 -> Rabs k <= 6 * ue -> lo <= o + s * d <= hi ->
   lo - 92 / 1000000 <= o + s * (1 + k) * d <= hi + 92 / 1000000)%R.
Proof.
  intros lo hi o d s k A B C K H.
  apply Rabs_le_inv in A. apply Rabs_le_inv in B. apply Rabs_le_inv in C.
  replace (o + s * (1 + k) * d)%R with (o + s * d + k * (s * d))%R by ring.
  assert (- (6 * ue * 256) <= k * (s * d) <= 6 * ue * 256)%R.
  { apply Rabs_le_inv. rewrite Rabs_mult. apply Rmult_le_compat; try apply Rabs_pos; auto. apply Rabs_le. lra. }
  unfold ue in *. lra.
Qed.

(** If the exact ray meets [b] at [s], the box test accepts every box that
    contains [b] padded by 1e-4. *)
Lemma padded_hit : forall b big o d s t0,
  box_within f128 b -> vwithin f128 o -> box_within f1e34 big -> box_in (with_offset b f1em4) big ->
  dirs_fine d -> (fval f1em4 <= s)%R -> ray_point_in b o d s ->
  hit_box (ray_set_t (ray_new o d) t0) big = true.
Proof.
  intros b big o d s t0 [W1 W2] Wo Wb [I1 I2] (D1 & D2 & D3) S (P1 & P2 & P3).
  unfold hit_box.
  assert (vwithin f1e34 o) as Wo'.
  { destruct Wo as [A B]. split; eapply vle_trans; eauto; repeat split; vm_compute; reflexivity. }
  destruct W1 as [(L1 & L2 & L3) (L4 & L5 & L6)]. destruct W2 as [(M1 & M2 & M3) (M4 & M5 & M6)].
  destruct Wo as [(O1 & O2 & O3) (O4 & O5 & O6)].
  destruct I1 as (J1 & J2 & J3). destruct I2 as (J4 & J5 & J6).
  change (fval f1em4) with (fr f1em4) in S. pose proof fr_1em4_bounds as Fb. pose proof ue_bounds as Ub.
  cbn [with_offset vsub vadd vmap2 vsplat bmin bmax vx vy vz] in *.
  set (T := (s * (1 + 2 * ue))%R).
  assert (forall lo hi o d lo' hi' : f32,
    fle (fneg f128) lo = true -> fle lo f128 = true -> fle (fneg f128) hi = true -> fle hi f128 = true ->
    fle (fneg f128) o = true -> fle o f128 = true -> fin lo' -> fin hi' ->
    fle lo' (fsub lo f1em4) = true -> fle (fadd hi f1em4) hi' = true -> dir_fine d ->
    (fval lo <= fval o + s * fval d <= fval hi)%R ->
    axis_fine lo' hi' o d /\
    (fval lo' <= fval o + T * (1 - 2 * ue) * fval d <= fval hi')%R /\
    (fval lo' <= fval o + T * (1 + 3 * ue) * fval d <= fval hi')%R) as G.
  { clear - S Fb Ub. intros lo hi o d lo' hi' A1 A2 A3 A4 A5 A6 Fl Fh B1 B2 Hd Hs.
    destruct (pad4 lo A1 A2) as (F1 & Q1 & R1 & _). destruct (pad4 hi A3 A4) as (F2 & Q2 & _ & R2).
    destruct (pad4 o A5 A6) as (F3 & Q3 & _ & _).
    pose proof (fle_notnan _ _ B1) as [N1 N2]. pose proof (fle_notnan _ _ B2) as [N3 N4].
    apply fle_spec in B1; auto. apply fle_spec in B2; auto.
    unfold fval in *. rewrite <- (fr_fin lo F1), <- (fr_fin hi F2), <- (fr_fin o F3) in Hs.
    rewrite <- (fr_fin lo' Fl), <- (fr_fin hi' Fh), <- (fr_fin o F3).
    assert (forall k, (Rabs k <= 6 * ue)%R -> (fr lo' <= fr o + s * (1 + k) * B2R d <= fr hi')%R) as G.
    { intros k K. pose proof (axis_slack (fr lo) (fr hi) (fr o) (B2R d) s k Q1 Q2 Q3 K Hs). lra. }
    split; [|split].
    - destruct Hd as [Hd|Hd]; [left; auto|right]. split; auto. subst d. simpl in Hs. rewrite Rmult_0_r, Rplus_0_r in Hs.
      split; apply flt_spec; auto using fin_notnan; lra.
    - unfold T. replace (s * (1 + 2 * ue) * (1 - 2 * ue))%R with (s * (1 + (- (4 * ue * ue))))%R by ring. apply G.
      unfold ue. apply Rabs_le. lra.
    - unfold T. replace (s * (1 + 2 * ue) * (1 + 3 * ue))%R with (s * (1 + (5 * ue + 6 * ue * ue)))%R by ring. apply G.
      unfold ue. apply Rabs_le. lra. }
  destruct (vwithin_fin _ (proj1 Wb)) as [(F1 & F2 & F3) _]. destruct (vwithin_fin _ (proj2 Wb)) as [(F4 & F5 & F6) _].
  destruct (G _ _ _ _ _ _ L1 L4 M1 M4 O1 O4 F1 F4 J1 J4 D1 P1) as (X1 & Y1 & Z1).
  destruct (G _ _ _ _ _ _ L2 L5 M2 M5 O2 O5 F2 F5 J2 J5 D2 P2) as (X2 & Y2 & Z2).
  destruct (G _ _ _ _ _ _ L3 L6 M3 M6 O3 O6 F3 F6 J3 J6 D3 P3) as (X3 & Y3 & Z3).
  destruct (intersect_core big o d t0 T) as (x & -> & _); auto.
  - repeat split; auto.
  - unfold T. apply Rmult_lt_0_compat; unfold ue; lra.
  - apply RN_gt_tmin. unfold T. apply Rmult_le_compat_r; [unfold ue|]; lra.
  - repeat split; tauto.
  - repeat split; tauto.
Qed.

(** If all boxes around primitive [i] are hit, its leaf is reached. *)
Lemma reached_prim : forall hit aabbs indices i b, nth_error aabbs i = Some b ->
  forall t, encloses aabbs indices t -> all_recs (fun n => box_in b n -> hit n = true) t ->
  In i (prims indices t) -> exists n, In n (reached hit t) /\ In i (leaf_prims indices n).
Proof.
  intros hit aabbs indices i b Eb t. induction t as [k n|k n l IHl r IHr]; cbn [encloses all_recs reached t_rec].
  - intros _ _ I. exists n. split; [simpl; auto|exact I].
  - intros (_ & El & Er) (_ & Al & Ar) I. unfold prims in I. cbn [positions] in I. rewrite map_app in I.
    apply in_app_iff in I as [I|I].
    + destruct (IHl El Al I) as (m & M1 & M2). exists m. split; auto. apply in_app_iff. left.
      replace (hit (t_rec l)) with true; auto. symmetry. apply (all_root _ _ Al).
      pose proof (encloses_root _ _ _ El) as R. rewrite Forall_forall in R. apply (R i); auto.
    + destruct (IHr Er Ar I) as (m & M1 & M2). exists m. split; auto. apply in_app_iff. right.
      replace (hit (t_rec r)) with true; auto. symmetry. apply (all_root _ _ Ar).
      pose proof (encloses_root _ _ _ Er) as R. rewrite Forall_forall in R. apply (R i); auto.
Qed.

Lemma all_recs_impl : forall (P R : aabb -> Prop) t, (forall n, P n -> R n) -> all_recs P t -> all_recs R t.
Proof. intros P R t H; induction t as [i n|i n l IHl r IHr]; simpl; intuition. Qed.

Lemma within_mono : forall m m' b, fle (fneg m') (fneg m) = true -> fle m m' = true -> box_within m b -> box_within m' b.
Proof.
  intros m m' b A B [[C D] [E F]]. repeat split; eapply fle_trans; eauto; firstorder.
Qed.

(** ** C45 *)

Lemma locb_reached : forall fuel threads aabbs centers bv t o d t0 i b s,
  locb_input aabbs centers -> 1 <= threads -> Forall (box_within f128) aabbs ->
  locb_build fuel threads aabbs centers = Ok bv -> repr (nodes bv) t -> t_idx t = 0 ->
  vwithin f128 o -> dirs_fine d ->
  nth_error aabbs i = Some b -> (fval f1em4 <= s)%R -> ray_point_in b o d s ->
  In i (flat_map (leaf_prims (prim_indices bv)) (reached (hit_box (ray_set_t (ray_new o d) t0)) t)).
Proof.
  intros fuel threads aabbs centers bv t o d t0 i b s (L & N1 & M) T W E Rp T0 Wo Hd Eb S P.
  destruct (locb_sound 14 fuel threads aabbs centers bv) as (t' & Rp' & T0' & Pi & P1 & P2 & Ln & _ & _ & _ & Pd); auto; [lia|].
  assert (t' = t) as -> by (apply (repr_unique (nodes bv)); congruence).
  assert (Forall box_ok aabbs) as Ok by (eapply Forall_impl; [|apply W]; intros x; apply within_ok).
  assert (box_within f128 b) as Wb by (rewrite Forall_forall in W; apply W; eapply nth_error_In; eauto).
  assert (In i (prims (prim_indices bv) t)) as Ii.
  { apply (Permutation_in _ (Permutation_sym (prims_valid _ _ _ P1 P2))). apply in_seq. split; [lia|]. apply nth_error_Some. congruence. }
  assert (exists n, In n (reached (hit_box (ray_set_t (ray_new o d) t0)) t) /\ In i (leaf_prims (prim_indices bv) n)) as (n & I1 & I2).
  { destruct (Nat.leb_spec (length aabbs) 2) as [C2|C2].
    - destruct t as [k n|k n l r]; [exists n; split; [simpl; auto|exact Ii]|exfalso].
      apply Permutation_length in Pi. rewrite t_ids_size, seq_length, Ln in Pi. simpl in Pi.
      pose proof (size_leaves l). pose proof (size_leaves r). destruct l, r; simpl in Pi; lia.
    - destruct (Pd ltac:(lia)) as [En Wi].
      apply (reached_prim _ (pads aabbs) (prim_indices bv) i (with_offset b f1em4)); auto.
      + unfold pads. apply (map_nth_error (fun b => with_offset b f1em4)); auto.
      + eapply all_recs_impl; [|apply Wi].
        * intros n Wn Bn. apply (padded_hit b n o d s t0); auto. eapply within_mono; [| |exact Wn]; vm_compute; reflexivity.
        * eapply Forall_impl; [|apply W]. intros x. apply within_mono; vm_compute; reflexivity. }
  apply in_flat_map. exists n. auto.
Qed.

Lemma locb_traversable : forall fuel threads aabbs centers bv t,
  locb_input aabbs centers -> 1 <= threads -> locb_build fuel threads aabbs centers = Ok bv ->
  repr (nodes bv) t -> t_idx t = 0 -> depth t <= 31 ->
  traversable (nodes bv) (prim_indices bv) t /\ Permutation (positions t) (seq 0 (length (prim_indices bv))) /\
  Permutation (prim_indices bv) (seq 0 (length aabbs)) /\ t_size t <= 2 * length aabbs /\ length (positions t) = length aabbs.
Proof.
  intros fuel threads aabbs centers bv t (L & N1 & M) T E Rp T0 D.
  destruct (locb_sound 14 fuel threads aabbs centers bv) as (t' & Rp' & T0' & Pi & P1 & P2 & Ln & _); auto; [lia|].
  assert (t' = t) as -> by (apply (repr_unique (nodes bv)); congruence).
  assert (length (prim_indices bv) = length aabbs) as Li by (rewrite (Permutation_length P2); apply seq_length).
  split; [|split; [auto|split; [auto|split]]].
  - repeat split; auto.
    + rewrite Ln. destruct (length aabbs <=? 2); lia.
    + rewrite Li. lia.
    + apply Forall_forall. intros k Ik. apply (Permutation_in _ P1) in Ik. apply in_seq in Ik. lia.
  - apply Permutation_length in Pi. rewrite t_ids_size, seq_length, Ln in Pi. destruct (length aabbs <=? 2); lia.
  - rewrite (Permutation_length P1), seq_length. auto.
Qed.

Lemma ray_vok : forall o d t0, vwithin f128 o -> dirs_fine d ->
  vok (r_origin (ray_set_t (ray_new o d) t0)) /\ vok (r_dir (ray_set_t (ray_new o d) t0)).
Proof.
  intros o d t0 Wo Hd. cbn [ray_set_t ray_new r_origin r_dir]. split.
  - destruct Wo as [H _]. apply vle_ok in H; tauto.
  - assert (forall x, dir_fine x -> fnan x = false) as G by (intros x [[F _]|H]; [apply fin_notnan; auto|subst; auto]).
    destruct Hd as (H1 & H2 & H3). repeat split; apply G; auto.
Qed.

(** For any BVH the builder returns, every ray and every loop body that only
    changes [ray.t]: if the exact ray meets the box of primitive [i] at or
    after [t_min], then [i] is among the yielded primitives. *)
Theorem C45_no_miss : forall C fuel threads aabbs centers bv t (client : C -> nat -> ray -> C * ray) turns c o d t0 i b s,
  locb_input aabbs centers -> 1 <= threads -> Forall (box_within f128) aabbs ->
  locb_build fuel threads aabbs centers = Ok bv ->
  repr (nodes bv) t -> t_idx t = 0 -> depth t <= 31 -> 3 * length aabbs + 1 <= turns ->
  vwithin f128 o -> dirs_fine d -> only_t client ->
  nth_error aabbs i = Some b -> (fval f1em4 <= s)%R -> ray_point_in b o d s ->
  exists ps rays c',
    iter_ray_indices (nodes bv) (prim_indices bv) client turns c (ray_set_t (ray_new o d) t0) = Ok (ps, rays, c') /\ In i ps.
Proof.
  intros C fuel threads aabbs centers bv t client turns c o d t0 i b s I T W E Rp T0 D Fu Wo Hd Ot Eb S P.
  destruct (locb_traversable fuel threads aabbs centers bv t) as (Tr & P1 & P2 & Sz & Sp); auto.
  destruct (ray_vok o d t0 Wo Hd) as [V1 V2].
  destruct (C23_ray_indices C (nodes bv) (prim_indices bv) t client turns c (ray_set_t (ray_new o d) t0)) as (ls & rs & c' & A & B & _); auto.
  - unfold enough. lia.
  - eexists; eexists; eexists. split; [exact A|].
    eapply Permutation_in; [apply Permutation_flat_map; apply (Permutation_sym B)|].
    eapply locb_reached; eauto.
Qed.

(** With at most 32 primitives the depth condition always holds. *)
Theorem C45_no_miss_32 : forall C fuel threads aabbs centers bv (client : C -> nat -> ray -> C * ray) c o d t0 i b s,
  locb_input aabbs centers -> 1 <= threads -> length aabbs <= 32 -> Forall (box_within f128) aabbs ->
  locb_build fuel threads aabbs centers = Ok bv ->
  vwithin f128 o -> dirs_fine d -> only_t client ->
  nth_error aabbs i = Some b -> (fval f1em4 <= s)%R -> ray_point_in b o d s ->
  exists ps rays c',
    iter_ray_indices (nodes bv) (prim_indices bv) client 97 c (ray_set_t (ray_new o d) t0) = Ok (ps, rays, c') /\ In i ps.
Proof.
  intros C fuel threads aabbs centers bv client c o d t0 i b s I T L32 W E Wo Hd Ot Eb S P.
  pose proof I as (L & N1 & M).
  destruct (locb_sound 14 fuel threads aabbs centers bv) as (t & Rp & T0 & Pi & _ & _ & Ln & _); auto; [lia|].
  apply (C45_no_miss C fuel threads aabbs centers bv t client 97 c o d t0 i b s); auto; try lia.
  apply Permutation_length in Pi. rewrite t_ids_size, seq_length, Ln in Pi.
  pose proof (depth_leaves t). pose proof (size_leaves t). destruct (length aabbs <=? 2); lia.
Qed.

(** The whole pipeline finds what brute force finds: for any distance function
    that only reports primitives whose box the exact ray meets at or after
    [t_min], the closest-hit loop ends with the brute-force result. *)
Theorem C45_closest : forall fuel threads aabbs centers bv t dist turns o d t0,
  locb_input aabbs centers -> 1 <= threads -> Forall (box_within f128) aabbs ->
  locb_build fuel threads aabbs centers = Ok bv ->
  repr (nodes bv) t -> t_idx t = 0 -> depth t <= 31 -> 3 * length aabbs + 1 <= turns ->
  vwithin f128 o -> dirs_fine d -> flt f0 t0 = true ->
  (forall p x, dist p = Some x -> flt f0 x = true) ->
  (forall p x b, dist p = Some x -> nth_error aabbs p = Some b -> exists s, (fval f1em4 <= s)%R /\ ray_point_in b o d s) ->
  let r := ray_set_t (ray_new o d) t0 in
  exists ps rays, iter_ray_prims (length aabbs) (nodes bv) (prim_indices bv) (closest_body dist) turns tt r = Ok (ps, rays, tt) /\
    last rays r = snd (client_fold (closest_body dist) (seq 0 (length aabbs)) tt r).
Proof.
  intros fuel threads aabbs centers bv t dist turns o d t0 I T W E Rp T0 D Fu Wo Hd Pt Pd Hs r.
  destruct (locb_traversable fuel threads aabbs centers bv t) as (Tr & P1 & P2 & Sz & Sp); auto.
  destruct (ray_vok o d t0 Wo Hd) as [V1 V2].
  destruct Tr as (Hn & Hi & _ & _ & _ & F).
  apply (closest_hit_gen (nodes bv) (prim_indices bv) (length aabbs) t dist r turns); auto; [|lia].
  intros p x Ed Lp. apply nth_error_Some in Lp. destruct (nth_error aabbs p) as [b|] eqn:Eb; [|congruence].
  destruct (Hs p x b Ed Eb) as (s & S & P). eapply locb_reached; eauto.
Qed.

(** ** A concrete case *)

(** Six boxes (as in [C18_nonvacuous]); the ray from (-1, 0.5, 1) along x meets
    box 0 at distance 2, exactly. *)
Definition half_f : f32 := @B754_finite 24 128 false 8388608 (-24) eq_refl.
Definition o45 : vec3 := V3 (fz (-1)) half_f (fz 1).
Definition d45 : vec3 := V3 (fz 1) (B754_zero false) (B754_zero false).
Example C45_nonvacuous : locb_input lbs lcs /\ Forall (box_within f128) lbs /\ length lbs <= 32 /\
  (exists bv, locb_build 6 3 lbs lcs = Ok bv) /\ vwithin f128 o45 /\ dirs_fine d45 /\
  nth_error lbs 0 = Some (lb 0) /\ (fval f1em4 <= 2)%R /\ ray_point_in (lb 0) o45 d45 2.
Proof.
  destruct C18_nonvacuous as (I & _ & _ & bv & E & _).
  split; auto. split; [unfold lbs; simpl map; repeat constructor; vm_compute; reflexivity|].
  split; [unfold lbs; rewrite map_length; simpl; lia|]. split; [eauto|].
  split; [repeat split; vm_compute; reflexivity|]. split.
  { split; [left|split; right; reflexivity]. split; [reflexivity|].
    replace (fval (vx d45)) with 1%R by (vm_compute; lra). rewrite Rabs_R1.
    change 1%R with (bpow radix2 0). split; apply bpow_le; lia. }
  split; [reflexivity|]. split; [change (fval f1em4) with (fr f1em4); pose proof fr_1em4_bounds; lra|].
  unfold ray_point_in.
  replace (fval (vx o45)) with (-1)%R by (vm_compute; lra). replace (fval (vx d45)) with 1%R by (vm_compute; lra).
  replace (fval (vy d45)) with 0%R by (vm_compute; lra). replace (fval (vz d45)) with 0%R by (vm_compute; lra).
  replace (fval (vy o45)) with (1 / 2)%R by (vm_compute; lra). replace (fval (vz o45)) with 1%R by (vm_compute; lra).
  replace (fval (vx (bmin (lb 0)))) with 0%R by (vm_compute; lra). replace (fval (vx (bmax (lb 0)))) with 2%R by (vm_compute; lra).
  replace (fval (vy (bmin (lb 0)))) with 0%R by (vm_compute; lra). replace (fval (vy (bmax (lb 0)))) with 1%R by (vm_compute; lra).
  replace (fval (vz (bmin (lb 0)))) with 0%R by (vm_compute; lra). replace (fval (vz (bmax (lb 0)))) with 4%R by (vm_compute; lra).
  lra.
Qed.
