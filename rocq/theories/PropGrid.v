(** * Property C75: the cells of the Morton grid *)
Require Import List ZArith NArith Bool Arith Lia Reals Lra Permutation.
From Flocq Require Import Core BinarySingleNaN.
From Verif Require Import F32 F32Facts Vec AabbModel SpecGeom SpecSlab SlabProofs MonoProofs TriError UtilsModel SpecBins SpecGrid BinOrder GridProofs BinnedModel PropUtils PropBox PropBins.
Import ListNotations.
Local Open Scope nat_scope.

Lemma cell_slack : forall d lo hi c, (1 <= d <= 1024)%Z -> moderate lo hi -> nearby lo hi c ->
  (6 * ue * (IZR d * (Rabs (fr c) + Rabs (fr lo)) / (fr hi - fr lo)) + bpow radix2 (-148) <= IZR d * slack lo hi c / (fr hi - fr lo))%R.
Proof.
  intros d lo hi c D (Fl & Fh & W) (Fc & B). unfold slack. unfold fval in *. rewrite <- !fr_fin in * by assumption.
  set (w := (fr hi - fr lo)%R) in *. set (a := (Rabs (fr c) + Rabs (fr lo))%R) in *.
  assert (1 <= IZR d)%R as D1 by (apply IZR_le; lia).
  assert (0 < w)%R as P by (pose proof (bpow_gt_0 radix2 (-100)); lra).
  assert (0 <= a)%R as A by (pose proof (Rabs_pos (fr c)); pose proof (Rabs_pos (fr lo)); unfold a; lra).
  apply Rmult_le_reg_r with w; auto.
  replace ((6 * ue * (IZR d * a / w) + bpow radix2 (-148)) * w)%R with (6 * ue * (IZR d * a) + bpow radix2 (-148) * w)%R by (field; lra).
  replace (IZR d * (a / 2097152 + w * bpow radix2 (-100)) / w * w)%R with (IZR d * a / 2097152 + IZR d * (bpow radix2 (-100) * w))%R by (field; lra).
  assert (bpow radix2 (-148) <= bpow radix2 (-100))%R as Q by (apply bpow_le; lia).
  assert (bpow radix2 (-148) * w <= bpow radix2 (-100) * w)%R by (apply Rmult_le_compat_r; lra).
  assert (0 <= bpow radix2 (-100) * w)%R by (apply Rmult_le_pos; [apply bpow_ge_0|lra]).
  assert (0 <= IZR d * a)%R by (apply Rmult_le_pos; lra).
  assert (1 * (bpow radix2 (-100) * w) <= IZR d * (bpow radix2 (-100) * w))%R by (apply Rmult_le_compat_r; lra).
  unfold ue. lra.
Qed.

Lemma coord_cell : forall e d lo hi c k, (1 <= d <= 1024)%Z -> grid_dim e = d -> in_cell d lo hi c k ->
  let s := fmul (f_of_Z d) (fdiv f1 (fsub hi lo)) in
  grid_coord e (fadd (fmul c s) (fmul (fneg lo) s)) = k.
Proof.
  intros e d lo hi c k D <- (M & N & I) s. pose proof (cell_slack _ _ _ _ D M N) as Sb.
  destruct M as (Fl & Fh & W1 & W2), N as (Fc & B). unfold cells in I. unfold fval in *. rewrite <- !fr_fin in * by assumption.
  destruct (cell_position lo hi (grid_dim e) D Fl Fh W1 W2 c Fc B) as (Fv & G). fold s in Fv, G.
  rewrite coord_floor by auto. eapply cell_near; [|exact I]. lra.
Qed.

(** ** Cells
    A point whose coordinates lie in the cells [kx], [ky], [kz] of the grid of
    [dim] cells per axis laid over the box gets the code of these cells. *)
Theorem C75_cell : forall b dim p kx ky kz, (1 <= dim <= 1024)%Z ->
  in_cell dim (vx (bmin b)) (vx (bmax b)) (vx p) kx ->
  in_cell dim (vy (bmin b)) (vy (bmax b)) (vy p) ky ->
  in_cell dim (vz (bmin b)) (vz (bmax b)) (vz p) kz ->
  encode (encoder_new b dim) p = morton_encode kx ky kz.
Proof.
  intros b dim p kx ky kz D X Y Z. unfold encode. cbv zeta.
  rewrite <- (coord_cell (encoder_new b dim) dim _ _ _ _ D eq_refl X), <- (coord_cell (encoder_new b dim) dim _ _ _ _ D eq_refl Y),
    <- (coord_cell (encoder_new b dim) dim _ _ _ _ D eq_refl Z). reflexivity.
Qed.

(** ** Order *)
Lemma encode_mono : forall x y z x' y' z', (x' < 1024)%N -> (y' < 1024)%N -> (z' < 1024)%N ->
  (x <= x')%N -> (y <= y')%N -> (z <= z')%N -> (morton_encode x y z <= morton_encode x' y' z')%N.
Proof.
  intros x y z x' y' z' Hx Hy Hz Lx Ly Lz.
  apply N.le_trans with (morton_encode x' y z).
  { destruct (N.eq_dec x x') as [->|Nx]; [lia|]. destruct (C35_monotone x y z x') as (A & _); try lia; specialize (A ltac:(lia)); lia. }
  apply N.le_trans with (morton_encode x' y' z).
  { destruct (N.eq_dec y y') as [->|Nx]; [lia|]. destruct (C35_monotone x' y z y') as (_ & A & _); try lia; specialize (A ltac:(lia)); lia. }
  destruct (N.eq_dec z z') as [->|Nx]; [lia|]. destruct (C35_monotone x' y' z z') as (_ & _ & A); try lia; specialize (A ltac:(lia)); lia.
Qed.

Lemma coord_up : forall e d lo hi c c', (1 <= d <= 1024)%Z -> grid_dim e = d -> is_finite lo = true -> is_finite hi = true -> flt lo hi = true ->
  is_finite c = true -> is_finite c' = true -> fle c c' = true ->
  let s := fmul (f_of_Z d) (fdiv f1 (fsub hi lo)) in
  (grid_coord e (fadd (fmul c s) (fmul (fneg lo) s)) <= grid_coord e (fadd (fmul c' s) (fmul (fneg lo) s)))%N.
Proof.
  intros e d lo hi c c' D <- Fl Fh L Fc Fc' Lc s.
  apply fle_spec in Lc; try (apply fin_notnan; assumption). apply flt_spec in L; try (apply fin_notnan; assumption).
  destruct (inv_width lo hi Fl Fh L) as [N P]. destruct (dim_val (grid_dim e) D) as [Fd Vd].
  destruct (fmul_pos_fin _ (f_of_Z (grid_dim e)) N P Fd ltac:(rewrite Vd; apply IZR_lt; lia)) as [N' P'].
  rewrite fmul_swap in N', P'. fold s in N', P'.
  apply coord_mono; auto. apply affine_coord; auto.
Qed.

(** Codes respect the order of points: a point with no larger coordinate does
    not get a larger code.  For every upright finite box, however small or flat. *)
Theorem C75_order : forall b dim p q, (1 <= dim <= 1024)%Z -> upright b -> finite3 p -> finite3 q -> below p q ->
  (encode (encoder_new b dim) p <= encode (encoder_new b dim) q)%N.
Proof.
  intros b dim p q D ((Lx & Ly & Lz) & (Hx & Hy & Hz) & Ux & Uy & Uz) (Px & Py & Pz) (Qx & Qy & Qz) (Bx & By & Bz).
  unfold encode. cbv zeta. pose proof (grid_in_range (encoder_new b dim)) as R. change (grid_dim (encoder_new b dim)) with dim in R.
  assert (forall g, grid_coord (encoder_new b dim) g < 1024)%N as R'.
  { intro g. specialize (R g ltac:(lia)). lia. }
  apply encode_mono; auto.
  - exact (coord_up (encoder_new b dim) dim _ _ _ _ D eq_refl Lx Hx Ux Px Qx Bx).
  - exact (coord_up (encoder_new b dim) dim _ _ _ _ D eq_refl Ly Hy Uy Py Qy By).
  - exact (coord_up (encoder_new b dim) dim _ _ _ _ D eq_refl Lz Hz Uz Pz Qz Bz).
Qed.

(** So in the sorted index list a primitive whose centre has no larger
    coordinate than another's comes first, unless both have the same code. *)
Theorem C75_sorted : forall b dim centers i j p q cp cq, (1 <= dim <= 1024)%Z -> upright b ->
  let idx := fst (get_sorted_indices (encoder_new b dim) centers) in
  nth_error idx i = Some p -> nth_error idx j = Some q ->
  nth_error centers p = Some cp -> nth_error centers q = Some cq ->
  finite3 cp -> finite3 cq -> below cp cq -> j < i ->
  encode (encoder_new b dim) cp = encode (encoder_new b dim) cq /\ q < p.
Proof.
  intros b dim centers i j p q cp cq D U idx Ei Ej Ep Eq Fp Fq B L.
  pose proof (C75_order b dim cp cq D U Fp Fq B) as O.
  pose proof (C36_sorted_permutation (encoder_new b dim) centers) as S. destruct (get_sorted_indices (encoder_new b dim) centers) as [ix codes]. unfold idx in *. clear idx. simpl in *.
  destruct S as (-> & P & S). destruct (S j i q p L Ej Ei) as (cb & ca & Eb & Ea & Q).
  rewrite nth_error_map, Eq in Eb. rewrite nth_error_map, Ep in Ea. simpl in Eb, Ea.
  assert (cb = encode (encoder_new b dim) cq) as Hb by congruence. assert (ca = encode (encoder_new b dim) cp) as Ha by congruence.
  rewrite Hb, Ha in Q. destruct Q as [Q|[Q1 Q2]]; [lia|]. split; auto.
Qed.

(** A grid of 48 cells per axis over the box from 0 to 16: the coordinate 5.5 lies
    in the middle of cell 16, and 16 on the upper side of the last cell. *)
Definition grid_box : aabb := Bb (vsplat f0) 0 (vsplat f_bins) 0.
Lemma cell_of_half : in_cell 48 f0 f_bins half_past_5 16.
Proof.
  assert (bpow radix2 20 = 1048576)%R as P20 by (simpl; lra).
  assert (bpow radix2 (-100) <= / 1024)%R as P100.
  { apply Rle_trans with (bpow radix2 (-10)); [apply bpow_le; lia|simpl; lra]. }
  pose proof (bpow_gt_0 radix2 (-100)) as Q100.
  split; [exact moderate_16|]. split.
  - split; [reflexivity|]. rewrite val_half, val_16, val_0, P20, Rabs_R0, Rabs_pos_eq by lra. lra.
  - unfold inside_cell, cells, slack. rewrite val_half, val_16, val_0, Rabs_R0, Rabs_pos_eq by lra.
    split; [reflexivity|]. split; right; simpl; lra.
Qed.
Lemma cell_of_top : in_cell 48 f0 f_bins f_bins 47.
Proof.
  assert (bpow radix2 20 = 1048576)%R as P20 by (simpl; lra).
  assert (bpow radix2 (-100) <= / 1024)%R as P100.
  { apply Rle_trans with (bpow radix2 (-10)); [apply bpow_le; lia|simpl; lra]. }
  pose proof (bpow_gt_0 radix2 (-100)) as Q100.
  split; [exact moderate_16|]. split.
  - split; [reflexivity|]. rewrite val_16, val_0, P20, Rabs_R0, Rabs_pos_eq by lra. lra.
  - unfold inside_cell, cells, slack. rewrite val_16, val_0, Rabs_R0, Rabs_pos_eq by lra.
    split; [reflexivity|]. split; [right; simpl; lra|left; reflexivity].
Qed.
(** The first hypothesis of [C75_cell] is met inside the grid and on its border;
    the boxes and points of [C75_order] and [C75_sorted] exist. *)
Example C75_nonvacuous :
  encode (encoder_new grid_box 48) (V3 half_past_5 half_past_5 f_bins) = morton_encode 16 16 47 /\
  upright grid_box /\ finite3 (vsplat half_past_5) /\ finite3 (vsplat f_bins) /\ below (vsplat half_past_5) (vsplat f_bins) /\
  fst (get_sorted_indices (encoder_new grid_box 48) [vsplat f_bins; vsplat half_past_5]) = [1; 0].
Proof.
  split; [apply C75_cell; [lia|apply cell_of_half|apply cell_of_half|apply cell_of_top]|].
  repeat split; vm_compute; reflexivity.
Qed.
