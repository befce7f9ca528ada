(** * C62: the slabs of the SAH builders are ordered sixteenths of the node's
    box, and inner nodes separate the centres by a border of them *)
Require Import List ZArith Bool Arith Lia Permutation Reals Lra.
From Flocq Require Import Core BinarySingleNaN.
From Verif Require Import F32 F32Facts Vec Base AabbModel NodeModel LocbModel SpecGeom SpecTree SpecBins AabbProofs
  IterProofs LocbProofs BinnedModel BinnedProofs SpecPlane SpecBinned BinOrder PropBinned.
Import ListNotations.
Local Open Scope nat_scope.

(** The coordinate of the centre of primitive [p]. *)
Definition coord (centers : list vec3) (axis p : nat) : f32 := vget (nth p centers (vsplat f0)) axis.

Lemma slab_bin_at : forall centers bounds axis p,
  SpecBinned.slab centers bounds axis p =
  bin_at (fadd (fmul (coord centers axis p) (fmul (fdiv f1 (fsub (vget (bmax bounds) axis) (vget (bmin bounds) axis))) f_bins))
               (fmul (fneg (vget (bmin bounds) axis)) (fmul (fdiv f1 (fsub (vget (bmax bounds) axis) (vget (bmin bounds) axis))) f_bins))).
Proof. intros centers bounds [|[|axis]] p; reflexivity. Qed.

(** ** Order *)
(** Slab numbers never fall along the axis, or (for a box turned inside out)
    never rise; whatever the box is, even with NaNs. *)
Theorem C62_order : forall centers bounds axis,
  (forall p q, is_finite (coord centers axis p) = true -> is_finite (coord centers axis q) = true ->
     fle (coord centers axis p) (coord centers axis q) = true -> SpecBinned.slab centers bounds axis p <= SpecBinned.slab centers bounds axis q) \/
  (forall p q, is_finite (coord centers axis p) = true -> is_finite (coord centers axis q) = true ->
     fle (coord centers axis p) (coord centers axis q) = true -> SpecBinned.slab centers bounds axis q <= SpecBinned.slab centers bounds axis p).
Proof.
  intros centers bounds axis.
  destruct (affine_mono (fmul (fdiv f1 (fsub (vget (bmax bounds) axis) (vget (bmin bounds) axis))) f_bins)
    (fmul (fneg (vget (bmin bounds) axis)) (fmul (fdiv f1 (fsub (vget (bmax bounds) axis) (vget (bmin bounds) axis))) f_bins))) as [M|M]; [left|right];
    intros p q Fp Fq L; apply fle_spec in L; try (apply fin_notnan; assumption); rewrite !slab_bin_at; apply M; auto.
Qed.

(** The same for the slabs of the spatial builder. *)
Theorem C62_order_spatial : forall lo hi, is_finite lo = true ->
  (forall x y, is_finite x = true -> is_finite y = true -> fle x y = true -> SpecPlane.slab lo hi x <= SpecPlane.slab lo hi y) \/
  (forall x y, is_finite x = true -> is_finite y = true -> fle x y = true -> SpecPlane.slab lo hi y <= SpecPlane.slab lo hi x).
Proof.
  intros lo hi Fl. destruct (plane_slab_mono lo hi Fl) as [M|M]; [left|right];
    intros x y Fx Fy L; apply fle_spec in L; try (apply fin_notnan; assumption); apply M; auto.
Qed.

(** They rise if the box is not empty or inside out. *)
Theorem C62_upright : forall centers bounds axis p q,
  let lo := vget (bmin bounds) axis in let hi := vget (bmax bounds) axis in
  is_finite lo = true -> is_finite hi = true -> flt lo hi = true ->
  is_finite (coord centers axis p) = true -> is_finite (coord centers axis q) = true ->
  fle (coord centers axis p) (coord centers axis q) = true ->
  SpecBinned.slab centers bounds axis p <= SpecBinned.slab centers bounds axis q.
Proof.
  intros centers bounds axis p q lo hi Fl Fh L Fp Fq Lp. apply fle_spec in Lp; try (apply fin_notnan; assumption).
  apply flt_spec in L; try (apply fin_notnan; assumption). rewrite !slab_bin_at. fold lo hi.
  destruct (inv_width lo hi Fl Fh L) as [N P].
  destruct (fmul_pos_fin _ f_bins N P eq_refl ltac:(rewrite fr_16; lra)) as [N' P'].
  apply affine_up; auto.
Qed.
Theorem C62_upright_spatial : forall lo hi x y, is_finite lo = true -> is_finite hi = true -> flt lo hi = true ->
  is_finite x = true -> is_finite y = true -> fle x y = true -> SpecPlane.slab lo hi x <= SpecPlane.slab lo hi y.
Proof.
  intros lo hi x y Fl Fh L Fx Fy Lx. apply fle_spec in Lx; try (apply fin_notnan; assumption).
  apply flt_spec in L; try (apply fin_notnan; assumption). apply plane_slab_up; auto.
Qed.

(** ** Sixteenths *)
Lemma slack_bound : forall lo hi c, moderate lo hi -> nearby lo hi c ->
  (6 * ue * (16 * (Rabs (fr c) + Rabs (fr lo)) / (fr hi - fr lo)) + bpow radix2 (-148) <= 16 * slack lo hi c / (fr hi - fr lo))%R.
Proof.
  intros lo hi c (Fl & Fh & W) (Fc & B). unfold slack. unfold fval in *. rewrite <- !fr_fin in * by assumption.
  set (w := (fr hi - fr lo)%R) in *. set (a := (Rabs (fr c) + Rabs (fr lo))%R) in *.
  assert (0 < w)%R as P by (pose proof (bpow_gt_0 radix2 (-100)); lra).
  assert (0 <= a)%R as A by (pose proof (Rabs_pos (fr c)); pose proof (Rabs_pos (fr lo)); unfold a; lra).
  apply Rmult_le_reg_r with w; auto.
  replace ((6 * ue * (16 * a / w) + bpow radix2 (-148)) * w)%R with (96 * ue * a + bpow radix2 (-148) * w)%R by (field; lra).
  replace (16 * (a / 2097152 + w * bpow radix2 (-100)) / w * w)%R with (16 * (a / 2097152) + 16 * (bpow radix2 (-100) * w))%R by (field; lra).
  assert (bpow radix2 (-148) <= bpow radix2 (-100))%R as Q by (apply bpow_le; lia).
  assert (bpow radix2 (-148) * w <= bpow radix2 (-100) * w)%R by (apply Rmult_le_compat_r; lra).
  assert (0 <= bpow radix2 (-100) * w)%R by (apply Rmult_le_pos; [apply bpow_ge_0|lra]).
  unfold ue. lra.
Qed.

Lemma slab_floor : forall centers bounds axis p,
  let lo := vget (bmin bounds) axis in let hi := vget (bmax bounds) axis in let c := coord centers axis p in
  moderate lo hi -> nearby lo hi c ->
  exists x, SpecBinned.slab centers bounds axis p = clamp15 (Zfloor x) /\
    (Rabs (x - sixteenths (fval lo) (fval hi) (fval c)) <= 16 * slack lo hi c / (fval hi - fval lo))%R.
Proof.
  intros centers bounds axis p lo hi c M N. pose proof (slack_bound _ _ _ M N) as Sb.
  destruct M as (Fl & Fh & W1 & W2), N as (Fc & B).
  rewrite slab_bin_at. fold lo hi c. unfold sixteenths. unfold fval in *. rewrite <- !fr_fin in * by assumption.
  destruct (binned_position lo hi Fl Fh W1 W2 c Fc B) as (Fv & D).
  set (v := fadd _ _) in *. exists (fr v). split; [apply bin_at_floor; auto|]. lra.
Qed.

(** A centre that lies in sixteenth [k] of the box, at least the rounding error
    away from its borders, gets slab [k]. *)
Theorem C62_sixteenth : forall centers bounds axis p k,
  let lo := vget (bmin bounds) axis in let hi := vget (bmax bounds) axis in let c := coord centers axis p in
  moderate lo hi -> nearby lo hi c ->
  well_inside (16 * slack lo hi c / (fval hi - fval lo)) (sixteenths (fval lo) (fval hi) (fval c)) k ->
  SpecBinned.slab centers bounds axis p = k.
Proof.
  intros centers bounds axis p k lo hi c M N (K & L & U).
  destruct (slab_floor centers bounds axis p M N) as (x & -> & D). eapply clamp_near; eauto.
Qed.

(** For the spatial builder, where the offset from the lower side is formed
    first, the error is relative to the position itself. *)
Theorem C62_sixteenth_spatial : forall lo hi x k, moderate lo hi -> is_finite x = true ->
  (Rabs (fval x - fval lo) <= bpow radix2 20 * (fval hi - fval lo))%R ->
  let pos := sixteenths (fval lo) (fval hi) (fval x) in
  well_inside (Rabs pos / 2097152 + bpow radix2 (-100)) pos k ->
  SpecPlane.slab lo hi x = k.
Proof.
  intros lo hi x k (Fl & Fh & W1 & W2) Fx B pos (K & L & U).
  assert (pos = 16 * (fr x - fr lo) / (fr hi - fr lo))%R as Ep by (unfold pos, sixteenths, fval; rewrite <- !fr_fin by assumption; reflexivity).
  clearbody pos. unfold fval in *. rewrite <- !fr_fin in * by assumption.
  destruct (plane_position lo hi Fl Fh W1 W2 x Fx B) as (Fv & D).
  change (SpecPlane.slab lo hi x) with (bin_at (fmul (fdiv f1 (thick lo hi)) (fsub x lo))).
  rewrite bin_at_floor by auto. apply (clamp_near _ pos (Rabs pos / 2097152 + bpow radix2 (-100))); auto. rewrite <- Ep in D.
  assert (bpow radix2 (-148) <= bpow radix2 (-100))%R by (apply bpow_le; lia).
  pose proof (Rabs_pos pos). unfold ue in D. lra.
Qed.

(** The borders at which the spatial builder cuts are [k] sixteenths. *)
Theorem C62_border : forall lo hi k, moderate lo hi -> k <= 16 ->
  (Rabs (fval lo) <= bpow radix2 20 * (fval hi - fval lo))%R ->
  is_finite (border lo hi k) = true /\
  (Rabs (fval (border lo hi k) - exact_border (fval lo) (fval hi) k) <= (Rabs (fval lo) + (fval hi - fval lo)) / 2097152)%R.
Proof.
  intros lo hi k (Fl & Fh & W1 & W2) K B. unfold exact_border.
  change (fval lo) with (B2R lo) in *. change (fval hi) with (B2R hi) in *. rewrite <- (fr_fin lo), <- (fr_fin hi) in * by assumption.
  destruct (border_position lo hi Fl Fh W1 W2 k K B) as (F & D). split; auto.
  unfold fval. rewrite <- fr_fin by auto. 
  assert (0 < fr hi - fr lo)%R by (pose proof (bpow_gt_0 radix2 (-100)); lra). pose proof (Rabs_pos (fr lo)). unfold ue in D. lra.
Qed.

(** ** Inner nodes *)
(** At every inner node of the tree, under every schedule, both sides are
    non-empty and separated by one of the 15 borders of one axis ... *)
Theorem C62_separated : forall ppl aabbs centers b t i nd l r,
  binned_input aabbs centers -> binned_build ppl aabbs centers b ->
  repr (nodes b) t -> t_idx t = 0 -> subtree (TNode i nd l r) t ->
  prims (prim_indices b) l <> [] /\ prims (prim_indices b) r <> [] /\
  exists axis k, axis < 3 /\ 1 <= k <= 15 /\
    Forall (fun p => SpecBinned.slab centers nd axis p < k) (prims (prim_indices b) l) /\
    Forall (fun p => k <= SpecBinned.slab centers nd axis p) (prims (prim_indices b) r).
Proof.
  intros ppl aabbs centers b t i nd l r I B Rp T0 Su.
  destruct (binned_result _ _ _ _ I B) as (u & R & U0 & _ & Ps & _ & _ & Sh & Pi & _).
  pose proof (result_prims _ _ _ _ u I B Ps) as Pr.
  rewrite (repr_unique (nodes b) t u) in Su by (auto; congruence).
  destruct (ssep_tree centers (prim_indices b) u (prim_indices b)) with (i := i) (nd := nd) (l := l) (r := r)
    as (N1 & N2 & axis & k & A & H1 & H2); auto.
  - rewrite Sh, Pi. unfold sah_of. apply sah_sep.
  - split; auto. split; auto. exists axis, k. split; auto. split; [|split; auto].
    assert (forall p, SpecBinned.slab centers nd axis p <= 15) as L15 by (intro p; unfold SpecBinned.slab, compute_bin_index; lia).
    destruct (prims (prim_indices b) l) as [|p pl]; [congruence|]. destruct (prims (prim_indices b) r) as [|q qr]; [congruence|].
    apply Forall_inv in H1, H2. specialize (L15 q). unfold SpecBinned.slab in *. lia.
Qed.

(** ... so that along this axis all (finite) centres on one side are strictly
    below all centres on the other side ... *)
Theorem C62_ordered : forall ppl aabbs centers b t i nd l r,
  binned_input aabbs centers -> Forall vfinite centers -> binned_build ppl aabbs centers b ->
  repr (nodes b) t -> t_idx t = 0 -> subtree (TNode i nd l r) t ->
  exists axis, axis < 3 /\
   ((forall p q, In p (prims (prim_indices b) l) -> In q (prims (prim_indices b) r) ->
       flt (coord centers axis p) (coord centers axis q) = true) \/
    (forall p q, In p (prims (prim_indices b) l) -> In q (prims (prim_indices b) r) ->
       flt (coord centers axis q) (coord centers axis p) = true)).
Proof.
  intros ppl aabbs centers b t i nd l r I Fc B Rp T0 Su.
  destruct (C62_separated _ _ _ _ _ _ _ _ _ I B Rp T0 Su) as (_ & _ & axis & k & A & _ & H1 & H2).
  assert (forall p, is_finite (coord centers axis p) = true) as F.
  { intro p. unfold coord. destruct (Nat.lt_ge_cases p (length centers)) as [Lp|Lp].
    - rewrite Forall_forall in Fc. destruct (Fc (nth p centers (vsplat f0))) as (X & Y & Z); [apply nth_In; auto|].
      destruct axis as [|[|axis]]; assumption.
    - rewrite nth_overflow by auto. destruct axis as [|[|axis]]; reflexivity. }
  rewrite Forall_forall in H1, H2. exists axis. split; auto.
  assert (forall p, F32Facts.notnan (coord centers axis p)) as N by (intro p; apply fin_notnan; auto).
  destruct (C62_order centers nd axis) as [M|M]; [left|right]; intros p q Ip Iq; specialize (H1 p Ip); specialize (H2 q Iq); cbv beta in *.
  - destruct (flt (coord centers axis p) (coord centers axis q)) eqn:E; auto. apply flt_false in E; auto.
    specialize (M q p (F q) (F p)). rewrite fle_spec in M by auto. specialize (M E). lia.
  - destruct (flt (coord centers axis q) (coord centers axis p)) eqn:E; auto. apply flt_false in E; auto.
    specialize (M p q (F p) (F q)). rewrite fle_spec in M by auto. specialize (M E). lia.
Qed.

(** ... and if the node's box is of moderate size, on the two sides of the
    plane at [k] sixteenths of it, up to the rounding error. *)
Theorem C62_plane : forall ppl aabbs centers b t i nd l r,
  binned_input aabbs centers -> binned_build ppl aabbs centers b ->
  repr (nodes b) t -> t_idx t = 0 -> subtree (TNode i nd l r) t ->
  exists axis k, axis < 3 /\ 1 <= k <= 15 /\
   let lo := vget (bmin nd) axis in let hi := vget (bmax nd) axis in
   let plane := exact_border (fval lo) (fval hi) k in
   moderate lo hi ->
   (forall p, In p (prims (prim_indices b) l) -> nearby lo hi (coord centers axis p) ->
      fval (coord centers axis p) < plane + slack lo hi (coord centers axis p))%R /\
   (forall p, In p (prims (prim_indices b) r) -> nearby lo hi (coord centers axis p) ->
      plane - slack lo hi (coord centers axis p) <= fval (coord centers axis p))%R.
Proof.
  intros ppl aabbs centers b t i nd l r I B Rp T0 Su.
  destruct (C62_separated _ _ _ _ _ _ _ _ _ I B Rp T0 Su) as (_ & _ & axis & k & A & K & H1 & H2).
  exists axis, k. split; auto. split; auto. intros lo hi plane M. rewrite Forall_forall in H1, H2.
  assert (0 < fval hi - fval lo)%R as W by (destruct M as (_ & _ & W & _); pose proof (bpow_gt_0 radix2 (-100)); lra).
  assert (forall x, sixteenths (fval lo) (fval hi) x * ((fval hi - fval lo) / 16) = x - fval lo)%R as E16 by (intro x; unfold sixteenths; field; lra).
  assert (plane = fval lo + INR k * ((fval hi - fval lo) / 16))%R as Ep by (unfold plane, exact_border; field).
  assert (forall s, 16 * s / (fval hi - fval lo) * ((fval hi - fval lo) / 16) = s)%R as Es by (intro s; field; lra).
  split; intros p Ip Np; destruct (slab_floor centers nd axis p M Np) as (x & E & D); fold lo hi in D; apply Rabs_le_inv in D.
  - specialize (H1 p Ip). cbv beta in H1. rewrite E in H1. unfold clamp15 in H1.
    assert (Zfloor x < Z.of_nat k)%Z as Lz by lia. 
    assert (x < INR k)%R as Lx.
    { rewrite INR_IZR_INZ. pose proof (Zfloor_ub x). assert (Zfloor x + 1 <= Z.of_nat k)%Z as L1 by lia. apply IZR_le in L1. rewrite plus_IZR in L1. lra. }
    assert (sixteenths (fval lo) (fval hi) (fval (coord centers axis p)) < INR k + 16 * slack lo hi (coord centers axis p) / (fval hi - fval lo))%R as Lt by lra.
    apply (Rmult_lt_compat_r ((fval hi - fval lo) / 16)) in Lt; [|lra]. rewrite E16, Rmult_plus_distr_r, Es in Lt. lra.
  - specialize (H2 p Ip). cbv beta in H2. rewrite E in H2. unfold clamp15 in H2.
    assert (Z.of_nat k <= Zfloor x)%Z as Lz by lia.
    assert (INR k <= x)%R as Lx. { rewrite INR_IZR_INZ. pose proof (Zfloor_lb x). apply IZR_le in Lz. lra. }
    assert (INR k - 16 * slack lo hi (coord centers axis p) / (fval hi - fval lo) <= sixteenths (fval lo) (fval hi) (fval (coord centers axis p)))%R as Le by lra.
    apply (Rmult_le_compat_r ((fval hi - fval lo) / 16)) in Le; [|lra]. rewrite E16, Rmult_minus_distr_r, Es in Le. lra.
Qed.

(** ** The hypotheses can be met *)
Lemma fval_num : forall (x : f32) s m e H, x = @B754_finite 24 128 s m e H -> fval x = F2R (Float radix2 (cond_Zopp s (Zpos m)) e).
Proof. intros x s m e H ->. reflexivity. Qed.

Definition unit_box : aabb := Bb (vsplat f0) 0 (vsplat f_bins) 0.
(** 5.5 lies in sixteenth 5 of the interval from 0 to 16. *)
Definition half_past_5 : f32 := fdiv (f_of_Z 11) (f_of_Z 2).
Lemma val_half : fval half_past_5 = (11 / 2)%R.
Proof.
  assert (half_past_5 = @B754_finite 24 128 false 11534336 (-21) eq_refl) as -> by (apply B2SF_inj; vm_compute; reflexivity).
  unfold fval, B2R, F2R. simpl. lra.
Qed.
Lemma val_16 : fval f_bins = 16%R. Proof. unfold fval. rewrite <- fr_fin by reflexivity. apply fr_16. Qed.
Lemma val_0 : fval f0 = 0%R. Proof. reflexivity. Qed.
Lemma moderate_16 : moderate f0 f_bins.
Proof.
  split; [reflexivity|]. split; [reflexivity|]. rewrite val_16, val_0. split.
  - apply Rle_trans with (bpow radix2 0); [apply bpow_le; lia|simpl; lra].
  - apply Rle_trans with (bpow radix2 4); [simpl; lra|apply bpow_le; lia].
Qed.
Example C62_nonvacuous : SpecBinned.slab [vsplat half_past_5] unit_box 1 0 = 5 /\ SpecPlane.slab f0 f_bins half_past_5 = 5.
Proof.
  assert (bpow radix2 20 = 1048576)%R as P20 by (simpl; lra).
  assert (bpow radix2 (-100) <= / 1024)%R as P100.
  { apply Rle_trans with (bpow radix2 (-10)); [apply bpow_le; lia|simpl; lra]. }
  pose proof (bpow_gt_0 radix2 (-100)) as Q100.
  split.
  - apply C62_sixteenth.
    + exact moderate_16.
    + split; [reflexivity|]. cbn [coord nth vget vsplat vy unit_box bmin bmax]. change (vget (vsplat ?x) 1) with x.
      change (coord [vsplat half_past_5] 1 0) with half_past_5. rewrite val_half, val_16, val_0, P20, Rabs_R0, Rabs_pos_eq by lra. lra.
    + change (coord [vsplat half_past_5] 1 0) with half_past_5. change (vget (bmin unit_box) 1) with f0. change (vget (bmax unit_box) 1) with f_bins.
      unfold well_inside, sixteenths, slack. rewrite val_half, val_16, val_0, Rabs_R0, Rabs_pos_eq by lra. simpl INR.
      split; [lia|]. split; right; lra.
  - apply C62_sixteenth_spatial.
    + exact moderate_16.
    + reflexivity.
    + rewrite val_half, val_16, val_0, P20, Rabs_pos_eq by lra. lra.
    + unfold well_inside, sixteenths. rewrite val_half, val_16, val_0, Rabs_pos_eq by lra. simpl INR. split; [lia|]. split; right; lra.
Qed.

(** [C62_separated], [C62_ordered] and [C62_plane] apply to the root of a build. *)
Example C62_build_nonvacuous : exists b t i nd l r, binned_input five (map center five) /\ Forall vfinite (map center five) /\
  binned_build None five (map center five) b /\ repr (nodes b) t /\ t_idx t = 0 /\ subtree (TNode i nd l r) t.
Proof.
  destruct C53_nonvacuous as (b & t & i & nd & l & r & B & R & T0 & Su & _). exists b, t, i, nd, l, r.
  split; [repeat split; simpl; lia|]. split; [|auto]. repeat constructor; vm_compute; reflexivity.
Qed.
