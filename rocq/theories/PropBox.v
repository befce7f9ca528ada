(** * Properties C01-C06, C44: boxes *)
Require Import List ZArith Bool Reals Lra Lia.
From Flocq Require Import Core BinarySingleNaN.
From Verif Require Import F32 F32Facts Vec AabbModel SpecGeom AabbProofs MeasureProofs.
Import ListNotations.

(** Concrete values for the non-vacuity examples. *)
Definition fz (z : Z) : f32 := f_of_Z z.
Definition pt (x y z : Z) : vec3 := V3 (fz x) (fz y) (fz z).
Definition bx (a b c d e f : Z) : aabb := Bb (pt a b c) 7 (pt d e f) 9.

Ltac conc := repeat (first [split | constructor]); vm_compute; reflexivity.

(** ** C01 *)
Theorem C01_grow : forall a p, box_ok a -> vok p ->
  box_in a (grow a p) /\ in_box (grow a p) p /\
  (forall c, box_in a c -> in_box c p -> box_in (grow a p) c) /\
  same_extras (grow a p) a.
Proof.
  intros a p A P. split; [apply grow_in; auto|]. split; [apply grow_pt; auto|].
  split; [intros; apply grow_least; auto|split; reflexivity].
Qed.

Theorem C01_grow_bb : forall a b, box_ok a -> box_ok b ->
  box_in a (grow_bb a b) /\ box_in b (grow_bb a b) /\
  (forall c, box_in a c -> box_in b c -> box_in (grow_bb a b) c) /\
  same_extras (grow_bb a b) a.
Proof.
  intros a b A B. split; [apply grow_bb_in_l; auto|]. split; [apply grow_bb_in_r; auto|].
  split; [intros; apply grow_bb_least; auto|split; reflexivity].
Qed.

Theorem C01_grow_bbs : forall a bs, box_ok a -> Forall box_ok bs ->
  box_in a (grow_bbs a bs) /\ Forall (fun b => box_in b (grow_bbs a bs)) bs /\
  (forall c, box_in a c -> Forall (fun b => box_in b c) bs -> box_in (grow_bbs a bs) c) /\
  same_extras (grow_bbs a bs) a.
Proof.
  intros a bs A B. destruct (fold_grow_bb bs a A B) as (_ & I2 & I3 & I4 & I5).
  destruct (grow_bbs_eq bs a) as (E1 & E2 & E3 & E4).
  unfold box_in in *. rewrite E1, E2. unfold same_extras. rewrite E3, E4. auto.
Qed.

Theorem C01_union_of : forall a b, box_ok a -> box_ok b ->
  box_in a (union_of a b) /\ box_in b (union_of a b) /\
  (forall c, box_in a c -> box_in b c -> box_in (union_of a b) c) /\
  ex1 (union_of a b) = 0%Z /\ ex2 (union_of a b) = 0%Z.
Proof.
  intros a b A B. split; [apply grow_bb_in_l; auto|]. split; [apply grow_bb_in_r; auto|].
  split; [intros; apply grow_bb_least; auto|split; reflexivity].
Qed.

(** Everything that was inside before is inside afterwards. *)
Theorem C01_keeps_points : forall a b q, box_in a b -> in_box a q -> in_box b q.
Proof. intros; eapply in_box_mono; eauto. Qed.

(** In particular a box grown from the empty box by one point is that point. *)
Theorem C01_grow_from_empty : forall p, vwithin f1e34 p -> box_in (grow aabb_new p) (Bb p 0 p 0).
Proof.
  intros p [A B]. assert (vok p) as V by (apply vle_ok in B; tauto).
  unfold grow, aabb_new, box_in; cbn [bmin bmax]. split.
  - apply vmin_glb; [exact B|apply vle_refl; auto].
  - apply vmax_lub; [exact A|apply vle_refl; auto].
Qed.

Example C01_nonvacuous : exists a p, box_ok a /\ vok p /\ ~ in_box a p /\ is_valid a = true.
Proof.
  exists (bx 0 0 0 1 2 3), (pt 5 (-1) 2). split; [conc|]. split; [conc|]. split; [|reflexivity].
  intros [_ (H & _)]. vm_compute in H. discriminate.
Qed.

(** ** C02 *)
Theorem C02_intersection : forall a b p, box_ok a -> box_ok b ->
  (in_box (intersection a b) p <-> in_box a p /\ in_box b p).
Proof. exact intersection_in_box. Qed.
Theorem C02_intersection_extras : forall a b, ex1 (intersection a b) = 0%Z /\ ex2 (intersection a b) = 0%Z.
Proof. split; reflexivity. Qed.
Theorem C02_shrink : forall a b p, box_ok a -> box_ok b ->
  (in_box (shrink a b) p <-> in_box a p /\ in_box b p) /\ same_extras (shrink a b) a.
Proof. intros a b p A B. split; [exact (intersection_in_box a b p A B)|split; reflexivity]. Qed.

Example C02_nonvacuous : exists a b p, box_ok a /\ box_ok b /\ in_box a p /\ in_box b p /\ ~ box_in a b /\ ~ box_in b a.
Proof.
  exists (bx 0 0 0 4 4 4), (bx 2 (-1) 0 6 3 4), (pt 3 1 2).
  split; [conc|]. split; [conc|]. split; [conc|]. split; [conc|].
  split; intros [(H & H1 & _) (H2 & H3 & _)]; vm_compute in H, H1, H2, H3; discriminate.
Qed.

(** ** C03 *)
Theorem C03_union_of_list_covers : forall bs, Forall box_ok bs ->
  Forall (fun b => box_in b (union_of_list bs)) bs.
Proof. intros bs H; apply union_of_list_covers; auto. Qed.

Theorem C03_empty_list : is_valid (union_of_list []) = false /\ forall p, ~ in_box (union_of_list []) p.
Proof.
  split; [vm_compute; reflexivity|]. intros p [(A & _) (B & _)].
  pose proof (fle_trans _ _ _ A B) as T. vm_compute in T. discriminate.
Qed.

(** ** C04 *)
Theorem C04_offset : forall a d, box_ok a -> ffinite d -> fle f0 d = true ->
  box_in a (with_offset a d) /\ same_extras (with_offset a d) a.
Proof. intros a d A F P. destruct (with_offset_in a d A F P) as (_ & B & C); auto. Qed.

Example C04_nonvacuous : exists a d, box_ok a /\ ffinite d /\ fle f0 d = true /\ ~ box_in (with_offset a d) a.
Proof.
  exists (bx 0 0 0 1 2 3), f1em4. split; [conc|]. split; [reflexivity|]. split; [reflexivity|].
  intros [(H & _) _]. vm_compute in H. discriminate.
Qed.

(** Padding is monotone (used below). *)
Lemma fsub_mono : forall x y d : f32, notnan x -> notnan y -> fin d -> (fr x <= fr y)%R ->
  notnan (fsub x d) /\ notnan (fsub y d) /\ (fr (fsub x d) <= fr (fsub y d))%R.
Proof.
  intros x y d Nx Ny Fd L. pose proof BIG_pos. pose proof bpow128_lt_BIG.
  assert (forall z : f32, notnan z -> is_finite z = false ->
     (z = B754_infinity true \/ z = B754_infinity false) /\ fsub z d = z) as I.
  { intros [|s| |] N F; try discriminate. split; [destruct s; auto|]. destruct d; try discriminate; reflexivity. }
  destruct (is_finite x) eqn:Fx; destruct (is_finite y) eqn:Fy.
  - destruct (fr_fsub x d Fx Fd) as [N1 E1], (fr_fsub y d Fy Fd) as [N2 E2].
    split; auto. split; auto. rewrite E1, E2. apply RN_mono. lra.
  - destruct (I y Ny Fy) as [D E]. rewrite E. destruct (fr_fsub x d Fx Fd) as [N1 E1].
    split; auto. split; auto. pose proof (fr_bound (fsub x d)). pose proof (fin_fr_lt x Fx) as Q.
    destruct D as [ -> | -> ]; simpl in *; [|lra]. apply Rabs_lt_inv in Q. lra.
  - destruct (I x Nx Fx) as [D E]. rewrite E. destruct (fr_fsub y d Fy Fd) as [N1 E1].
    split; auto. split; auto. pose proof (fr_bound (fsub y d)). pose proof (fin_fr_lt y Fy) as Q.
    destruct D as [ -> | -> ]; simpl in *; [lra|]. apply Rabs_lt_inv in Q. lra.
  - destruct (I x Nx Fx) as [_ ->], (I y Ny Fy) as [_ ->]. auto.
Qed.

Lemma fadd_fsub : forall x d : f32, fin d -> fadd x d = fsub x (fneg d).
Proof.
  intros x d F. destruct x, d; try discriminate; try reflexivity.
  all: unfold fadd, fsub, fneg, Bplus, Bminus; simpl; rewrite ?negb_involutive; reflexivity.
Qed.

Lemma fin_neg : forall d : f32, fin d -> fin (fneg d).
Proof. intros d F. unfold fneg. rewrite is_finite_Bopp. auto. Qed.

Lemma fle_fsub : forall x y d : f32, fle x y = true -> fin d -> fle (fsub x d) (fsub y d) = true.
Proof.
  intros x y d L F. destruct (fle_notnan _ _ L) as [A B]. apply fle_spec in L; auto.
  destruct (fsub_mono x y d A B F L) as (P & Q & S). apply fle_spec; auto.
Qed.
Lemma fle_fadd : forall x y d : f32, fle x y = true -> fin d -> fle (fadd x d) (fadd y d) = true.
Proof. intros x y d L F. rewrite !fadd_fsub by auto. apply fle_fsub; auto using fin_neg. Qed.

Theorem C04_offset_mono : forall a b d, ffinite d -> box_in a b -> box_in (with_offset a d) (with_offset b d).
Proof.
  intros a b d F [(A & B & C) (D & E & G)]. split; repeat split; cbn; auto using fle_fsub, fle_fadd.
Qed.

(** C03, tightness: the result lies in the [1e-4]-padding of every box that
    contains all listed boxes. *)
Theorem C03_union_of_list_tight : forall bs c, bs <> [] -> Forall (box_within f1e34) bs ->
  Forall (fun b => box_in b c) bs -> box_in (union_of_list bs) (with_offset c f1em4).
Proof.
  intros bs c Ne W H. unfold union_of_list. apply C04_offset_mono; [reflexivity|].
  assert (Forall box_ok bs) as K.
  { eapply Forall_impl; [|apply H]. intros b Hb. apply box_in_ok in Hb; tauto. }
  destruct (fold_grow_bb bs aabb_new aabb_new_ok K) as (_ & _ & _ & I4 & _). apply I4; auto.
  destruct bs as [|b bs]; [congruence|]. inversion W as [|? ? [Wn Wx] _]; subst. inversion H as [|? ? [Hn Hx] _]; subst.
  split; cbn [bmin bmax aabb_new].
  - eapply vle_trans; [apply Hn|]. apply Wn.
  - eapply vle_trans; [|apply Hx]. apply Wx.
Qed.

Example C03_nonvacuous : exists bs c, length bs = 3 /\ Forall box_ok bs /\ Forall (box_within f1e34) bs /\
  Forall (fun b => box_in b c) bs.
Proof.
  exists [bx 0 0 0 1 1 1; bx 5 (-3) 2 6 0 9; bx (-9) 1 1 (-8) 4 4], (bx (-10) (-10) (-10) 10 10 10).
  split; [reflexivity|]. split; [|split]; conc.
Qed.

(** ** C05 *)
Theorem C05_from_points : forall ps, Forall vok ps -> Forall (in_box (from_points ps)) ps.
Proof. intros ps H; apply from_points_covers; auto. Qed.
Theorem C05_aabb_macro : forall ps, Forall vok ps -> Forall (in_box (aabb_macro ps)) ps.
Proof. intros ps H; apply aabb_macro_covers; auto. Qed.

(** [128.0] *)
Definition f128 : f32 := @B754_finite 24 128 false 8388608 (-16) eq_refl.
Lemma fr_128 : fr f128 = 128%R.
Proof. unfold fr, f128, B2R, F2R; cbn [Fnum Fexp cond_Zopp bpow]. simpl. lra. Qed.
Lemma fr_1em5 : (1 / 100001 < fr f1em5 <= 1 / 99999)%R.
Proof. unfold fr, f1em5, B2R, F2R; cbn [Fnum Fexp cond_Zopp bpow]. simpl. lra. Qed.

Lemma pad_strict : forall x : f32, fle (fneg f128) x = true -> fle x f128 = true ->
  flt (fsub x f1em5) x = true /\ flt x (fadd x f1em5) = true.
Proof.
  intros x L U. destruct (fle_notnan _ _ U) as [N _].
  destruct (fr_neg f128 eq_refl) as [Nn En].
  apply fle_spec in L; auto. apply fle_spec in U; auto. rewrite En in L. rewrite fr_128 in *.
  pose proof fr_1em5 as E5. pose proof ue_bounds as Ub.
  assert (fin x) as F.
  { apply fin_of_fr; auto. apply Rle_lt_trans with 128%R; [apply Rabs_le; lra|].
    change 128%R with (bpow radix2 7). apply bpow_lt. reflexivity. }
  assert (fin f1em5) as F5 by reflexivity.
  assert (forall r, (Rabs r <= 129)%R -> RN r = rnd r) as SM.
  { intros r Hr. apply RN_small. apply Rle_trans with (1 := Hr). apply Rle_trans with (bpow radix2 8); [simpl; lra|].
    apply bpow_le. lia. }
  destruct (fr_fsub x f1em5 F F5) as [N1 E1]. destruct (fr_fadd x f1em5 F F5) as [N2 E2].
  destruct (rnd_minus_rel x f1em5 F F5) as (e & He & R1). destruct (rnd_plus_rel x f1em5 F F5) as (e' & He' & R2).
  rewrite SM in E1 by (apply Rabs_le; lra). rewrite SM in E2 by (apply Rabs_le; lra).
  apply Rabs_le_inv in He. apply Rabs_le_inv in He'.
  split; apply flt_spec; auto.
  - rewrite E1, R1. assert (- (129 * ue) <= (fr x - fr f1em5) * e <= 129 * ue)%R.
    { apply Rabs_le_inv. rewrite Rabs_mult. apply Rmult_le_compat; try apply Rabs_pos; apply Rabs_le; lra. }
    unfold ue in *. lra.
  - rewrite E2, R2. assert (- (129 * ue) <= (fr x + fr f1em5) * e' <= 129 * ue)%R.
    { apply Rabs_le_inv. rewrite Rabs_mult. apply Rmult_le_compat; try apply Rabs_pos; apply Rabs_le; lra. }
    unfold ue in *. lra.
Qed.

Lemma flt_le : forall x y z : f32, flt x y = true -> fle y z = true -> flt x z = true.
Proof.
  intros x y z A B. pose proof (flt_notnan _ _ A) as [N1 N2]. pose proof (fle_notnan _ _ B) as [_ N3].
  apply flt_spec in A; auto. apply fle_spec in B; auto. apply flt_spec; auto. lra.
Qed.
Lemma fle_lt : forall x y z : f32, fle x y = true -> flt y z = true -> flt x z = true.
Proof.
  intros x y z A B. pose proof (fle_notnan _ _ A) as [N1 N2]. pose proof (flt_notnan _ _ B) as [_ N3].
  apply fle_spec in A; auto. apply flt_spec in B; auto. apply flt_spec; auto. lra.
Qed.

(** [contains] is strict; the 1e-5 padding suffices for coordinates up to 128. *)
Theorem C05_from_points_contains : forall ps, Forall (vwithin f128) ps ->
  Forall (fun p => contains (from_points ps) p = true) ps.
Proof.
  intros ps W.
  assert (Forall vok ps) as K.
  { eapply Forall_impl; [|apply W]. intros p [_ H]. apply vle_ok in H; tauto. }
  destruct (fold_grow ps aabb_new aabb_new_ok K) as (I1 & _ & I3 & I4 & _).
  set (b := fold_left grow ps aabb_new) in *.
  assert (box_in b (Bb (vsplat (fneg f128)) 0 (vsplat f128) 0)) as [Bn Bx].
  { apply I4; [split; conc|]. eapply Forall_impl; [|apply W]. intros p [A B]; split; auto. }
  rewrite Forall_forall in *. intros p Ip.
  destruct (I3 p Ip) as [(A1 & A2 & A3) (A4 & A5 & A6)]. destruct (W p Ip) as [(W1 & W2 & W3) (W4 & W5 & W6)].
  destruct Bn as (N1 & N2 & N3). destruct Bx as (X1 & X2 & X3). cbn [bmin bmax vsplat vx vy vz] in *.
  unfold contains, from_points, with_offset, vsub, vadd, vmap2, fgt. fold b. cbn [bmin bmax vsplat vx vy vz].
  rewrite !andb_true_iff.
  assert (forall lo q hi : f32, fle (fneg f128) lo = true -> fle lo q = true -> fle q hi = true -> fle hi f128 = true ->
    Bltb (fsub lo f1em5) q = true /\ flt q (fadd hi f1em5) = true) as G.
  { intros lo q hi Q1 Q2 Q3 Q4. split.
    - apply (flt_le _ lo); auto. apply pad_strict; auto. eapply fle_trans; [apply Q2|]. eapply fle_trans; eauto.
    - apply (fle_lt _ hi); auto. apply pad_strict; auto. eapply fle_trans; [apply Q1|]. eapply fle_trans; eauto. }
  split; [split|]; apply G; auto.
Qed.

(** ... but not beyond: a caller who expects [contains] of the points the box
    was made from is wrong for larger coordinates. *)
Theorem C05_contains_refuted : exists ps p, Forall (vwithin f1e34) ps /\ In p ps /\ contains (from_points ps) p = false.
Proof.
  exists [pt 1000 0 0; pt 1001 1 1], (pt 1000 0 0). split; [conc|]. split; [left; reflexivity|vm_compute; reflexivity].
Qed.

Example C05_nonvacuous : exists ps, length ps = 3 /\ Forall vok ps /\ Forall (vwithin f128) ps.
Proof. exists [pt 1 2 3; pt (-5) 6 7; pt 100 (-100) 0]. split; [reflexivity|]. split; conc. Qed.

(** ** C06 *)
Theorem C06_center : forall b, box_within f1e34 b -> vle (bmin b) (bmax b) -> in_box b (center b).
Proof. exact center_in. Qed.
Theorem C06_longest_axis : forall b, box_within f1e34 b ->
  longest_axis b < 3 /\ forall k, k < 3 -> fle (extend b k) (extend b (longest_axis b)) = true.
Proof. exact longest_axis_max. Qed.
Theorem C06_longest_extent : forall b, longest_extent b = extend b (longest_axis b).
Proof. exact longest_extent_eq. Qed.
Theorem C06_half_area_nonneg : forall b, box_within f1e34 b -> vle (bmin b) (bmax b) -> fle f0 (half_area b) = true.
Proof. exact half_area_nonneg. Qed.
Theorem C06_half_area_mono : forall a b, box_within f1e34 a -> box_within f1e34 b ->
  vle (bmin a) (bmax a) -> box_in a b -> fle (half_area a) (half_area b) = true.
Proof. exact half_area_mono. Qed.
Theorem C06_area_nonneg : forall b, fle f0 (area b) = true.
Proof. exact area_nonneg. Qed.

Example C06_nonvacuous : exists a b, box_within f1e34 a /\ box_within f1e34 b /\ vle (bmin a) (bmax a) /\
  vle (bmin b) (bmax b) /\ box_in a b /\ ~ box_in b a.
Proof.
  exists (bx 0 0 0 1 2 3), (bx (-1) 0 0 1 5 3).
  split; [conc|]. split; [conc|]. split; [conc|]. split; [conc|]. split; [conc|].
  intros [(H & _) _]. vm_compute in H. discriminate.
Qed.

(** ** C44 *)
Theorem C44_transformed : forall b m,
  Forall vok (map (transform_point m) (all_corners b)) ->
  Forall (fun c => in_box (transformed b m) (transform_point m c)) (all_corners b).
Proof.
  intros b m K. pose proof (C05_from_points _ K) as H. unfold transformed.
  rewrite Forall_map in H. exact H.
Qed.

Example C44_nonvacuous : exists b m, Forall vok (map (transform_point m) (all_corners b)) /\
  length (all_corners b) = 8 /\ transformed b m <> b.
Proof.
  exists (bx 0 0 0 1 2 3), (Mat (V4 (fz 2) f0 f0 f0) (V4 f0 (fz 3) f1 f0) (V4 f0 f0 f1 f0) (V4 (fz 5) f0 f0 f1)).
  split; [conc|]. split; [reflexivity|]. intro E. apply (f_equal (fun b => feq (vx (bmax b)) f1)) in E.
  vm_compute in E. discriminate.
Qed.

(** The eight corners really are the corners, whenever [min + (max - min)]
    is exactly [max] on each axis. *)
Definition veq (a b : vec3) : Prop :=
  feq (vx a) (vx b) = true /\ feq (vy a) (vy b) = true /\ feq (vz a) (vz b) = true.
Definition corner (b : aabb) (sx sy sz : bool) : vec3 :=
  V3 (vx (if sx then bmax b else bmin b)) (vy (if sy then bmax b else bmin b)) (vz (if sz then bmax b else bmin b)).

Lemma feq_fr : forall x y : f32, fin x -> fin y -> (feq x y = true <-> fr x = fr y).
Proof.
  intros x y Fx Fy. unfold feq. rewrite !fr_fin by auto. rewrite Beqb_correct by auto.
  split; intro H.
  - destruct (Req_bool_spec (B2R x) (B2R y)); auto; discriminate.
  - rewrite H. destruct (Req_bool_spec (B2R y) (B2R y)); auto; congruence.
Qed.

Lemma fr_add0 : forall x : f32, fin x -> fin (fadd x f0) /\ fr (fadd x f0) = fr x.
Proof.
  intros x F. destruct (fr_fadd x f0 F eq_refl) as [N E].
  change (fr f0) with 0%R in E. rewrite Rplus_0_r, RN_id in E by auto. split; auto.
  apply fin_of_fr; auto. rewrite E. eapply Rlt_trans; [apply fin_fr_lt; auto|apply bpow128_lt_BIG].
Qed.

Theorem C44_corners : forall b, box_finite b ->
  veq (vadd (bmin b) (lengths b)) (bmax b) ->
  forall sx sy sz, exists c, In c (all_corners b) /\ veq c (corner b sx sy sz).
Proof.
  intros [[ax ay az] e1 [cx cy cz] e2] [(A1 & A2 & A3) (C1 & C2 & C3)] (E1 & E2 & E3) sx sy sz.
  unfold ffinite in *. cbn [bmin bmax vx vy vz vadd vmap2 lengths vsub] in *.
  set (lx := fsub cx ax) in *. set (ly := fsub cy ay) in *. set (lz := fsub cz az) in *.
  assert (forall x : f32, fin x -> feq x x = true) as R by (intros; apply feq_fr; auto).
  assert (forall x y : f32, feq x y = true -> fin y -> fin x) as Fq.
  { intros x y Q F. destruct x as [|[]| |], y as [|[]| |]; try discriminate; auto. }
  assert (forall x, fin x -> feq (fadd x f0) x = true) as Z1.
  { intros x F. destruct (fr_add0 x F). apply feq_fr; auto. }
  assert (forall x, fin x -> feq (fadd (fadd x f0) f0) x = true) as Z2.
  { intros x F. destruct (fr_add0 x F) as [F1 Q1]. destruct (fr_add0 _ F1) as [F2 Q2]. apply feq_fr; auto. congruence. }
  assert (forall x l c, fin x -> fin c -> feq (fadd x l) c = true -> feq (fadd (fadd x f0) l) c = true) as Z3.
  { intros x l c F Fc Q. destruct (fr_add0 x F) as [F1 Q1].
    assert (fin l) as Fl.
    { destruct l as [|[]| |]; auto; destruct x, c; try discriminate. }
    pose proof (Fq _ _ Q Fc) as Fs.
    destruct (fr_fadd x l F Fl) as [N E]. destruct (fr_fadd (fadd x f0) l F1 Fl) as [N' E'].
    rewrite Q1, <- E in E'. apply feq_fr; auto.
    - apply fin_of_fr; auto. rewrite E'. eapply Rlt_trans; [apply fin_fr_lt; auto|apply bpow128_lt_BIG].
    - rewrite E'. apply feq_fr; auto. }
  assert (forall x l c, fin x -> fin c -> feq (fadd x l) c = true -> feq (fadd (fadd x l) f0) c = true) as Z4.
  { intros x l c F Fc Q. pose proof (Fq _ _ Q Fc) as Fs. destruct (fr_add0 _ Fs) as [F1 Q1].
    apply feq_fr; auto. rewrite Q1. apply feq_fr; auto. }
  unfold all_corners, corner, lengths, vadd, vsub, vmap2, veq. cbn [bmin bmax vx vy vz]. fold lx ly lz.
  destruct sx, sy, sz; cbn [In bmin bmax vx vy vz];
    first [ exists (V3 cx cy cz); solve [split; [tauto|]; cbn [vx vy vz]; auto]
          | exists (V3 ax ay az); solve [split; [tauto|]; cbn [vx vy vz]; auto]
          | eexists; split; [do 2 right; left; reflexivity|]; cbn [vx vy vz]; solve [auto 10]
          | eexists; split; [do 3 right; left; reflexivity|]; cbn [vx vy vz]; solve [auto 10]
          | eexists; split; [do 4 right; left; reflexivity|]; cbn [vx vy vz]; solve [auto 10]
          | eexists; split; [do 5 right; left; reflexivity|]; cbn [vx vy vz]; solve [auto 10]
          | eexists; split; [do 6 right; left; reflexivity|]; cbn [vx vy vz]; solve [auto 10]
          | eexists; split; [do 7 right; left; reflexivity|]; cbn [vx vy vz]; solve [auto 10] ].
Qed.

Example C44_corners_nonvacuous : exists b, box_finite b /\ veq (vadd (bmin b) (lengths b)) (bmax b).
Proof. exists (bx 0 0 0 1 2 3). split; conc. Qed.
