(** * Where the spatial builder can panic *)
Require Import List Arith Lia ZArith Bool Permutation Reals Lra.
From Flocq Require Import Core BinarySingleNaN.
From Verif Require Import F32 F32Facts Vec AabbModel Base NodeModel UtilsModel UtilsProofs LocbModel SpawnModel SpawnProofs
  SpecGeom MeasureProofs SpecSlab SlabProofs MonoProofs SpecPlane TriError SpatialShare TriModel SpecBins BinOrder BinnedModel SpatialModel SpecSpatial SpecPanic SpatialPlan SpatialProofs.
Import ListNotations.
Local Open Scope R_scope.

(** ** The bin of a coordinate grows with the coordinate *)
Lemma fmax_nan0 : forall v : f32, fnan v = true -> fr (fmax v f0) = 0.
Proof. intros v N. unfold fmax. rewrite N. reflexivity. Qed.

Lemma scale_bin_mono : forall (i v w : f32), is_nan i = true \/ Bsign i = false ->
  notnan v -> notnan w -> fr v <= fr w -> fr (fmax (fmul i v) f0) <= fr (fmax (fmul i w) f0).
Proof.
  intros i v w Hi Nv Nw L. rewrite !(fmul_swap i). pose proof BIG_pos.
  destruct i as [s|s| |s m e H'].
  - assert (forall v : f32, fr (fmax (fmul v (B754_zero s)) f0) = 0) as Z0.
    { intros [t|t| |t m e H']; destruct s; try destruct t; reflexivity. }
    rewrite !Z0. lra.
  - destruct Hi as [Hi|Hi]; [discriminate Hi|]. simpl in Hi. subst s. rewrite !inf_mul_pos by auto.
    destruct (flt f0 v) eqn:Ev; [|destruct (flt f0 w); lra].
    apply flt_spec in Ev; auto. assert (flt f0 w = true) as -> by (apply flt_spec; auto; lra). lra.
  - assert (forall z : f32, fmul z B754_nan = B754_nan) as En by (intros [| | |]; reflexivity). rewrite !En. lra.
  - destruct Hi as [Hi|Hi]; [discriminate Hi|]. simpl in Hi. subst s.
    assert (0 < fr (@B754_finite 24 128 false m e H')) as Ph
      by (rewrite fr_fin by auto; apply (F2R_gt_0 radix2 (Float radix2 (Zpos m) e)); reflexivity).
    destruct (fmul_mono _ _ (@B754_finite 24 128 false m e H') Nv Nw eq_refl Ph L) as (A' & B' & C'). apply fmax_mono; auto.
Qed.

Lemma scale_bin_low : forall (i v : f32), is_nan i = true \/ Bsign i = false ->
  v = B754_infinity true \/ v = B754_nan -> fr (fmax (fmul i v) f0) = 0.
Proof.
  intros i v Hi Hv. pose proof BIG_pos. destruct Hv as [-> | ->].
  - assert (fr (fmax (B754_infinity true) f0) = 0) as ZI by (rewrite fr_fmax by auto; apply Rmax_right; simpl; lra).
    destruct i as [s|s| |s m e H']; destruct Hi as [Hi|Hi]; try discriminate Hi; try (simpl in Hi; subst s); auto.
  - destruct i; auto.
Qed.

Lemma fin_not_big : forall x : f32, fin x -> - BIG < fr x < BIG.
Proof. intros x F. pose proof (fin_fr_lt x F) as H. apply Rabs_def2 in H. pose proof bpow128_lt_BIG. lra. Qed.

Lemma sub_bin_mono : forall (i l x y : f32), is_nan i = true \/ Bsign i = false ->
  notnan x -> notnan y -> fr x <= fr y -> fr (fmax (fmul i (fsub x l)) f0) <= fr (fmax (fmul i (fsub y l)) f0).
Proof.
  intros i l x y Hi Nx Ny L. pose proof BIG_pos as BP.
  assert (forall v, 0 <= fr (fmax (fmul i v) f0)) as P0 by (intro v; apply (pos_part (fmul i v))).
  destruct l as [s|s| |s m e H'].
  all: try (assert (forall z : f32, fsub z B754_nan = B754_nan) as En by (intros [| | |]; reflexivity); rewrite !En; lra).
  2:{ destruct s.
      - (* minus infinity *)
        assert (forall z : f32, notnan z -> z = B754_infinity true /\ fsub z (B754_infinity true) = B754_nan \/
                  - BIG < fr z /\ fsub z (B754_infinity true) = B754_infinity false) as G.
        { intros [sz|[|]| |sz mz ez Hz] Nz; try discriminate Nz; auto; right; (split; [|reflexivity]); try (simpl; lra).
          apply fin_not_big. reflexivity. }
        destruct (G x Nx) as [[_ ->]|[Lx ->]]; [rewrite scale_bin_low by auto; apply P0|].
        destruct (G y Ny) as [[-> _]|[_ ->]]; [exfalso; simpl in L; lra|lra].
      - rewrite scale_bin_low; [apply P0|auto|]. destruct x as [sx|[|]| |sx mx ex Hx]; try discriminate Nx; auto. }
  all: match goal with |- fr (fmax (fmul _ (fsub _ ?l0)) f0) <= _ => set (l := l0) in * end.
  all: assert (fin l) as Fl by reflexivity; clearbody l.
  all: destruct (is_finite x) eqn:Fx; [destruct (is_finite y) eqn:Fy|].
  all: try (destruct (fsub_mono x y l Fx Fy Fl L) as (A & B & C); apply scale_bin_mono; auto; fail).
  1,3: destruct y as [|[|]| |]; try discriminate;
    [exfalso; pose proof (fin_not_big _ Fx); simpl in L; lra|];
    assert (fsub (B754_infinity false) l = B754_infinity false) as -> by (destruct l; try discriminate; reflexivity);
    apply scale_bin_mono; auto; [apply (fr_fsub x l Fx Fl)|apply (fr_bound (fsub x l))].
  all: destruct x as [|[|]| |]; try discriminate.
  all: try (assert (fsub (B754_infinity true) l = B754_infinity true) as -> by (destruct l; try discriminate; reflexivity);
    rewrite scale_bin_low by auto; apply P0).
  all: destruct (is_finite y) eqn:Fy; [exfalso; pose proof (fin_not_big _ Fy); simpl in L; lra|].
  all: destruct y as [|[|]| |]; try discriminate; try (exfalso; simpl in L; lra); lra.
Qed.

Lemma spatial_bin_mono : forall (i l x y : f32), is_nan i = true \/ Bsign i = false ->
  notnan x -> notnan y -> fr x <= fr y -> (spatial_bin i l x <= spatial_bin i l y)%nat.
Proof. intros i l x y Hi Nx Ny L. apply (bin_at_mono (fmul i (fsub x l)) (fmul i (fsub y l))). apply sub_bin_mono; auto. Qed.

(** ** The slabs do not run backwards *)
(** NaN, or not below zero and not the negative zero. *)
Definition upward (x : f32) : Prop := is_nan x = true \/ Bsign x = false.

Lemma sign_fr : forall x : f32, notnan x -> 0 < fr x -> Bsign x = false.
Proof.
  intros [s|s| |s m e H] N L; try discriminate N; destruct s; auto; exfalso.
  - simpl in L. lra.
  - simpl in L. pose proof BIG_pos. lra.
  - assert (fr (@B754_finite 24 128 true m e H) < 0); [|lra].
    rewrite fr_fin by auto. apply (F2R_lt_0 radix2 (Float radix2 (Zneg m) e)). reflexivity.
Qed.
Lemma fr_sign : forall x : f32, Bsign x = false -> 0 <= fr x.
Proof.
  intros [s|s| |s m e H] E; simpl in E; subst; try (simpl; lra).
  - simpl. pose proof BIG_pos. lra.
  - rewrite fr_fin by auto. apply (Bsign_B2R _ (eq_refl : is_finite (@B754_finite 24 128 false m e H) = true)). reflexivity.
Qed.

Lemma div_upward : forall x y : f32, upward x -> upward y -> upward (fdiv x y).
Proof.
  intros x y Hx Hy. unfold upward in *.
  destruct x as [s|s| |s m e H]; try (destruct Hx as [Hx|Hx]; [discriminate Hx|simpl in Hx; subst s]);
  destruct y as [s'|s'| |s' m' e' H']; try (destruct Hy as [Hy|Hy]; [discriminate Hy|simpl in Hy; subst s']); auto.
  right.
  assert (0 < B2R (@B754_finite 24 128 false m' e' H')) as P by (apply (F2R_gt_0 radix2 (Float radix2 (Zpos m') e')); reflexivity).
  pose proof (Bdiv_correct 24 128 Hp32 Hm32 mode_NE (B754_finite false m e H) (B754_finite false m' e' H') ltac:(lra)) as C.
  fold (fdiv (B754_finite false m e H) (B754_finite false m' e' H')) in C.
  destruct (Rlt_bool _ _).
  - destruct C as (_ & F & C). apply C. apply fin_notnan. exact F.
  - destruct (fdiv _ _) as [s|s| |s m2 e2 H2]; try discriminate C.
    change (binary_overflow 24 128 mode_NE _) with (SpecFloat.S754_infinity false) in C. injection C as ->. reflexivity.
Qed.

Lemma bins_upward : upward f_bins.
Proof. right. vm_compute. reflexivity. Qed.

Lemma sub_sign : forall a b : f32, fin a -> fin b -> fr b <= fr a ->
  Bsign (fsub a b) = false \/ fr a = fr b /\ Bsign a = true /\ Bsign b = false.
Proof.
  intros a b Fa Fb L. destruct (Rle_lt_or_eq_dec _ _ L) as [Lt|E].
  - left. pose proof (Bminus_correct 24 128 Hp32 Hm32 mode_NE a b Fa Fb) as H. fold (fsub a b) in H.
    rewrite !fr_fin in Lt by auto.
    destruct (Rlt_bool _ _).
    + destruct H as (_ & _ & H). rewrite H. rewrite Rcompare_Gt by lra. reflexivity.
    + destruct H as (H & S). destruct (Bsign_B2R a Fa) as [A1 A2], (Bsign_B2R b Fb) as [B1 B2].
      destruct (Bsign a) eqn:Sa.
      * exfalso. assert (Bsign b = false) as Sb by (destruct (Bsign b); auto; discriminate).
        specialize (A1 eq_refl). specialize (B2 Sb). lra.
      * destruct (fsub a b) as [s|s| |s m2 e2 H2]; try discriminate H.
        change (binary_overflow 24 128 mode_NE _) with (SpecFloat.S754_infinity false) in H. injection H as ->. reflexivity.
  - pose proof (Bminus_correct 24 128 Hp32 Hm32 mode_NE a b Fa Fb) as H. fold (fsub a b) in H.
    rewrite !fr_fin in E by auto. rewrite !fr_fin by auto.
    assert (B2R a - B2R b = 0) as Z by lra. rewrite Z in H. rewrite round_0 in H by (apply valid_rnd_N).
    rewrite Rabs_R0, Rlt_bool_true in H by apply bpow_gt_0. destruct H as (_ & _ & H). rewrite Rcompare_Eq in H by auto.
    destruct (Bsign a), (Bsign b); simpl in H; auto.
Qed.

Lemma add_sign_zero : forall p h : f32, fin p -> fin h -> Bsign h = false -> fr (fadd p h) = 0 -> Bsign (fadd p h) = false.
Proof.
  intros p h Fp Fh Sh E. pose proof (Bplus_correct 24 128 Hp32 Hm32 mode_NE p h Fp Fh) as H. fold (fadd p h) in H.
  destruct (Rlt_bool_spec (Rabs (round radix2 (SpecFloat.fexp 24 128) (round_mode mode_NE) (B2R p + B2R h))) (bpow radix2 128)) as [L|L].
  - destruct H as (R & F & S). rewrite S. destruct (rnd_plus_rel p h Fp Fh) as (e & He & Ee).
    apply Rabs_le_inv in He. pose proof ue_bounds.
    rewrite fr_fin in E by auto. rewrite R in E. change (rnd (B2R p + B2R h) = 0) in E.
    rewrite !fr_fin in Ee by auto. rewrite Ee in E.
    apply Rmult_integral in E as [E|E]; [|exfalso; lra]. rewrite Rcompare_Eq by auto. rewrite Sh. apply andb_false_r.
  - destruct H as (R & _). exfalso. destruct (overflow_fr _ _ R) as [_ O]. rewrite O in E. pose proof BIG_pos. destruct (Bsign p); lra.
Qed.

Lemma next_upward : forall p h : f32, upward h -> upward (fsub (fadd p h) (fsub p h)).
Proof.
  intros p h [Hh|Hh].
  - left. destruct h; try discriminate Hh. destruct p; reflexivity.
  - destruct (is_finite p) eqn:Fp.
    2:{ left. destruct p as [|s| |]; try discriminate Fp; [|reflexivity].
        destruct h as [| | |]; try destruct s; simpl in Hh; try subst; reflexivity. }
    destruct (is_finite h) eqn:Fh.
    2:{ destruct h as [|s| |]; try discriminate Fh; [|left; destruct p; reflexivity]. simpl in Hh. subst s. right.
        destruct p; try discriminate Fp; reflexivity. }
    destruct (fr_fadd p h Fp Fh) as [Na Ea], (fr_fsub p h Fp Fh) as [Ns Es]. pose proof (fr_sign _ Hh) as P.
    assert (fr (fsub p h) <= fr (fadd p h)) as L by (rewrite Ea, Es; apply RN_mono; lra).
    destruct (is_finite (fadd p h)) eqn:Fa.
    2:{ destruct (fadd p h) as [|s| |] eqn:Eq; try discriminate Fa; try discriminate Na.
        destruct (is_finite (fsub p h)) eqn:Fs.
        - right. destruct s; [exfalso; pose proof (fin_not_big _ Fs); simpl in L; lra|]. destruct (fsub p h); try discriminate Fs; reflexivity.
        - destruct (fsub p h) as [|t| |]; try discriminate Fs; try discriminate Ns. destruct s, t; try (left; reflexivity); right; try reflexivity.
          exfalso. simpl in L. pose proof BIG_pos. lra. }
    destruct (is_finite (fsub p h)) eqn:Fs.
    2:{ destruct (fsub p h) as [|t| |]; try discriminate Fs; try discriminate Ns. right.
        destruct t; [destruct (fadd p h); try discriminate Fa; reflexivity|]. exfalso. pose proof (fin_not_big _ Fa). simpl in L. lra. }
    destruct (sub_sign _ _ Fa Fs L) as [S|(E & S1 & S2)]; [right; auto|].
    exfalso. pose proof (fr_sign _ S2) as Q. rewrite <- E in Q.
    assert (fr (fadd p h) <= 0) as Q' by (rewrite fr_fin by auto; apply (Bsign_B2R _ Fa); auto).
    assert (fr (fadd p h) = 0) as Z by lra. pose proof (add_sign_zero p h Fp Fh Hh Z). congruence.
Qed.

Lemma width_upward : forall lo hi : f32, notnan lo -> notnan hi -> fr lo <= fr hi ->
  upward (fsub hi lo) \/ fr lo = 0 /\ fr hi = 0.
Proof.
  intros lo hi Nl Nh L. pose proof BIG_pos.
  destruct (is_finite lo) eqn:Fl.
  - destruct (is_finite hi) eqn:Fh.
    + destruct (sub_sign hi lo Fh Fl L) as [S|(E & S1 & S2)]; [left; right; auto|]. right.
      pose proof (fr_sign _ S2). assert (fr hi <= 0) by (rewrite fr_fin by auto; apply (Bsign_B2R _ Fh); auto). lra.
    + left. right. destruct hi as [|[|]| |]; try discriminate; [exfalso; pose proof (fin_not_big _ Fl); simpl in L; lra|].
      destruct lo; try discriminate Fl; reflexivity.
  - left. destruct lo as [|[|]| |]; try discriminate.
    + destruct hi as [|[|]| |]; try discriminate; [right; reflexivity|left; reflexivity|right; reflexivity|right; reflexivity].
    + destruct (is_finite hi) eqn:Fh; [exfalso; pose proof (fin_not_big _ Fh); simpl in L; lra|].
      destruct hi as [|[|]| |]; try discriminate; [exfalso; simpl in L; lra|left; reflexivity].
Qed.

(** A slab number exists for both ends of a box, in this order. *)
Lemma bins_ordered : forall lo hi a b : f32, upward (fsub hi lo) -> notnan a -> notnan b -> fr a <= fr b ->
  let inv := fdiv f1 (fdiv (fsub hi lo) f_bins) in (spatial_bin inv lo a <= spatial_bin inv lo b)%nat.
Proof.
  intros lo hi a b U Na Nb L inv. apply spatial_bin_mono; auto. unfold inv.
  apply div_upward; [right; reflexivity|]. apply div_upward; [auto|apply bins_upward].
Qed.
(** A flat node at zero: every reference inside is in the first slab. *)
Lemma bins_flat : forall i lo a : f32, fr lo = 0 -> fr a = 0 -> notnan lo -> notnan a -> spatial_bin i lo a = 0%nat.
Proof.
  intros i lo a El Ea Nl Na.
  assert (forall z : f32, notnan z -> fr z = 0 -> exists s, z = B754_zero s) as Z.
  { intros [s|s| |s m e H] Nz Ez; try discriminate Nz; [eauto| |].
    - exfalso. pose proof BIG_pos. destruct s; simpl in Ez; lra.
    - exfalso. rewrite fr_fin in Ez by auto.
      destruct s; [assert (B2R (@B754_finite 24 128 true m e H) < 0) by (apply (F2R_lt_0 radix2 (Float radix2 (Zneg m) e)); reflexivity)
                  |assert (0 < B2R (@B754_finite 24 128 false m e H)) by (apply (F2R_gt_0 radix2 (Float radix2 (Zpos m) e)); reflexivity)]; lra. }
  destruct (Z lo Nl El) as (s & ->), (Z a Na Ea) as (s' & ->).
  assert (exists s2, fsub (B754_zero s') (B754_zero s) = B754_zero s2) as (s2 & E) by (destruct s, s'; eauto).
  unfold spatial_bin. rewrite E. destruct i as [t|t| |t m e H]; destruct s2; try destruct t; reflexivity.
Qed.

Local Open Scope nat_scope.

(** ** Planning *)
Section Plan.
  Variable sorter : nat -> list sref -> list sref.
  Hypothesis sorter_perm : forall a l, Permutation (sorter a l) l.
  Variable prims : list tri.
  Variables (leaf_size : nat).
  Let n := length prims.

  Lemma get_in : forall A (l : list A) i, i < length l -> exists a, get l i = Ok a /\ nth_error l i = Some a.
  Proof.
    intros A l i L. destruct (nth_error l i) as [a|] eqn:E; [|apply nth_error_None in E; lia].
    exists a. split; auto. apply get_Ok. auto.
  Qed.
  Lemma swap_in : forall A (l : list A) i j, i < length l -> j < length l -> exists l', swap l i j = Ok l' /\ length l' = length l.
  Proof.
    intros A l i j Li Lj. unfold swap. destruct (get_in _ l i Li) as (a & _ & ->), (get_in _ l j Lj) as (b & _ & ->).
    eexists. split; [reflexivity|]. rewrite !upd_length. auto.
  Qed.

  Lemma chop_runs : forall axis mn bs p k j bins cur, p < n -> exists r, chop prims axis mn bs p k j bins cur = Ok r.
  Proof.
    intros axis mn bs p. induction k as [|k IH]; intros j bins cur L; cbn [chop]; [eauto|].
    destruct (get_in _ prims p L) as (t & -> & _). cbn [bind]. destruct (tri_split _ _ _). destruct (nth j bins empty_bin). apply IH. auto.
  Qed.
  Definition bins_fit (axis : nat) (inv lo : f32) (refs : list sref) : Prop :=
    forall r, In r refs -> is_valid (s_box r) = true ->
      spatial_bin inv lo (vget (bmin (s_box r)) axis) <= spatial_bin inv lo (vget (bmax (s_box r)) axis).
  Lemma fill_runs : forall axis mn bs inv refs bins, small n refs -> bins_fit axis inv mn refs ->
    exists r, fill_bins prims axis mn bs inv refs bins = Ok r.
  Proof.
    induction refs as [|r refs IH]; intros bins Sm F; cbn [fill_bins]; [eauto|]. cbv zeta.
    destruct (is_valid (s_box r)) eqn:V; cbn [negb]; [|eauto].
    pose proof (F r (or_introl eq_refl) V) as L. destruct (Nat.ltb_spec (spatial_bin inv mn (vget (bmax (s_box r)) axis)) (spatial_bin inv mn (vget (bmin (s_box r)) axis))); [lia|].
    inversion Sm as [|? ? S1 S2]; subst.
    match goal with |- context [chop ?a ?b ?c ?d ?e ?f ?g ?h ?i] => destruct (chop_runs b c d e f g h i S1) as ([b1 c1] & ->) end.
    cbn [bind]. destruct (nth _ b1 empty_bin). destruct (nth _ _ empty_bin). apply IH; auto.
    intros r' I' V'. apply F; auto. right. auto.
  Qed.

  Lemma valid_axis : forall b axis, is_valid b = true -> fle (vget (bmin b) axis) (vget (bmax b) axis) = true.
  Proof.
    intros [[x1 y1 z1] e1 [x2 y2 z2] e2] axis V. unfold is_valid in V. cbn in V. apply andb_prop in V as [V V3]. apply andb_prop in V as [V1 V2].
    destruct axis as [|[|a]]; auto.
  Qed.
  Lemma valid_le : forall b axis, is_valid b = true ->
    notnan (vget (bmin b) axis) /\ notnan (vget (bmax b) axis) /\ (fr (vget (bmin b) axis) <= fr (vget (bmax b) axis))%R.
  Proof.
    intros b axis V. apply (valid_axis b axis) in V. destruct (fle_notnan _ _ V) as [N1 N2]. apply fle_spec in V; auto.
  Qed.

  (** A pass that starts with an upward interval does not panic, and neither
      do the passes after it. *)
  Lemma upward_fit : forall axis lo hi refs, upward (fsub hi lo) -> bins_fit axis (fdiv f1 (fdiv (fsub hi lo) f_bins)) lo refs.
  Proof.
    intros axis lo hi refs U r _ V. destruct (valid_le _ axis V) as (N1 & N2 & L). apply (bins_ordered lo hi); auto.
  Qed.
  Lemma pass_next : forall refs split axis lo hi split' lo' hi',
    run_binning_pass prims refs split axis lo hi = Ok (split', Some (lo', hi')) ->
    lo' = fsub (ss_pos split') (fdiv (fsub hi lo) f_bins) /\ hi' = fadd (ss_pos split') (fdiv (fsub hi lo) f_bins).
  Proof.
    intros refs split axis lo hi split' lo' hi' E. unfold run_binning_pass in E. cbv zeta in E.
    destruct (fill_bins _ _ _ _ _ _ _) as [b| | |]; cbn [bind] in E; try discriminate E.
    destruct (spatial_pass _ _ _ _ _ _ _ _ _ _) as [s [|]]; [|discriminate E].
    assert (s = split') as -> by congruence. split; congruence.
  Qed.
  Lemma pass_runs : forall refs split axis lo hi, small n refs -> bins_fit axis (fdiv f1 (fdiv (fsub hi lo) f_bins)) lo refs ->
    exists r, run_binning_pass prims refs split axis lo hi = Ok r.
  Proof.
    intros refs split axis lo hi Sm F. unfold run_binning_pass. cbv zeta.
    destruct (fill_runs axis lo (fdiv (fsub hi lo) f_bins) _ refs (repeat empty_bin BINS) Sm F) as (b & ->). cbn [bind].
    destruct (spatial_pass _ _ _ _ _ _ _ _ _ _). eauto.
  Qed.
  Lemma passes_up : forall k refs split axis lo hi, small n refs -> upward (fsub hi lo) ->
    exists r, binning_passes prims k refs split axis lo hi = Ok r.
  Proof.
    induction k as [|k IH]; intros refs split axis lo hi Sm U; cbn [binning_passes]; [eauto|].
    destruct (pass_runs refs split axis lo hi Sm (upward_fit _ _ _ _ U)) as ([split' [[lo' hi']|]] & E); rewrite E; cbn [bind]; [|eauto].
    destruct (pass_next _ _ _ _ _ _ _ _ E) as [-> ->]. apply IH; auto. apply next_upward.
    apply div_upward; [auto|apply bins_upward].
  Qed.
  Lemma zero_next : forall (lo hi : f32) p, fr lo = 0%R -> fr hi = 0%R -> notnan lo -> notnan hi ->
    upward (fsub (fadd p (fdiv (fsub hi lo) f_bins)) (fsub p (fdiv (fsub hi lo) f_bins))) \/
    (p = B754_zero true /\ fsub hi lo = B754_zero true).
  Proof.
    intros lo hi p El Eh Nl Nh. pose proof BIG_pos as BP.
    assert (forall z : f32, notnan z -> fr z = 0%R -> exists s, z = B754_zero s) as Z.
    { intros [s|s| |s m e H] Nz Ez; try discriminate Nz; [eauto| |].
      - exfalso. destruct s; simpl in Ez; lra.
      - exfalso. rewrite fr_fin in Ez by auto.
        destruct s; [assert (B2R (@B754_finite 24 128 true m e H) < 0)%R by (apply (F2R_lt_0 radix2 (Float radix2 (Zneg m) e)); reflexivity)
                    |assert (0 < B2R (@B754_finite 24 128 false m e H))%R by (apply (F2R_gt_0 radix2 (Float radix2 (Zpos m) e)); reflexivity)]; lra. }
    destruct (Z lo Nl El) as (s & ->), (Z hi Nh Eh) as (s' & ->).
    assert (fsub (B754_zero s') (B754_zero s) = B754_zero false \/ fsub (B754_zero s') (B754_zero s) = B754_zero true) as [E|E]
      by (destruct s, s'; auto).
    - left. apply next_upward. apply div_upward; [rewrite E; right; reflexivity|apply bins_upward].
    - rewrite E. assert (fdiv (B754_zero true) f_bins = B754_zero true) as -> by (apply B2SF_inj; vm_compute; reflexivity).
      destruct p as [[|]|[|]| |t m e H]; auto; left; try (right; reflexivity); try (left; reflexivity).
      assert (fadd (B754_finite t m e H) (B754_zero true) = B754_finite t m e H) as -> by reflexivity.
      assert (fsub (B754_finite t m e H) (B754_zero true) = B754_finite t m e H) as -> by reflexivity.
      destruct (sub_sign (B754_finite t m e H) (B754_finite t m e H) eq_refl eq_refl ltac:(lra)) as [S|(_ & S1 & S2)]; [right; auto|congruence].
  Qed.
  Definition flat_refs (axis : nat) (refs : list sref) : Prop :=
    forall r, In r refs -> is_valid (s_box r) = true ->
      fr (vget (bmin (s_box r)) axis) = 0%R /\ fr (vget (bmax (s_box r)) axis) = 0%R.
  Lemma passes_flat : forall k refs split axis lo hi, small n refs -> flat_refs axis refs ->
    fr lo = 0%R -> fr hi = 0%R -> notnan lo -> notnan hi ->
    exists r, binning_passes prims k refs split axis lo hi = Ok r.
  Proof.
    induction k as [|k IH]; intros refs split axis lo hi Sm F El Eh Nl Nh; cbn [binning_passes]; [eauto|].
    assert (bins_fit axis (fdiv f1 (fdiv (fsub hi lo) f_bins)) lo refs) as Fit.
    { intros r Ir V. destruct (F r Ir V) as [E1 E2]. destruct (valid_le _ axis V) as (N1 & N2 & _).
      rewrite !bins_flat by auto. auto. }
    destruct (pass_runs refs split axis lo hi Sm Fit) as ([split' [[lo' hi']|]] & E); rewrite E; cbn [bind]; [|eauto].
    destruct (pass_next _ _ _ _ _ _ _ _ E) as [-> ->].
    destruct (zero_next lo hi (ss_pos split') El Eh Nl Nh) as [U|[-> ->]]; [apply passes_up; auto|].
    assert (fdiv (B754_zero true) f_bins = B754_zero true) as -> by (apply B2SF_inj; vm_compute; reflexivity).
    apply IH; auto; reflexivity.
  Qed.
  Definition inside_box (bounds : aabb) (refs : list sref) : Prop := forall r, In r refs -> ~ sticks_out bounds r.
  Lemma outside_or : forall bounds refs, (exists r, In r refs /\ sticks_out bounds r) \/ inside_box bounds refs.
  Proof.
    intros bounds refs. induction refs as [|r refs [(r' & I & S)|IH]].
    - right. intros r [].
    - left. exists r'. split; [right; auto|auto].
    - set (ok := fun axis => (fle (vget (bmin bounds) axis) (vget (bmin (s_box r)) axis) && fle (vget (bmax (s_box r)) axis) (vget (bmax bounds) axis))%bool).
      destruct (is_valid (s_box r)) eqn:V.
      + destruct (ok 0) eqn:E0; [|left; exists r; split; [left; auto|split; auto; exists 0; split; [lia|exact E0]]].
        destruct (ok 1) eqn:E1; [|left; exists r; split; [left; auto|split; auto; exists 1; split; [lia|exact E1]]].
        destruct (ok 2) eqn:E2; [|left; exists r; split; [left; auto|split; auto; exists 2; split; [lia|exact E2]]].
        right. intros r' [<-|I'] S; [|exact (IH r' I' S)]. destruct S as (_ & axis & La & F). change (ok axis = false) in F.
        destruct axis as [|[|[|axis]]]; [congruence|congruence|congruence|lia].
      + right. intros r' [<-|I'] S; [|exact (IH r' I' S)]. destruct S as (V' & _). congruence.
  Qed.
  Lemma inside_axis : forall bounds refs r axis, axis < 3 -> inside_box bounds refs -> In r refs -> is_valid (s_box r) = true ->
    fle (vget (bmin bounds) axis) (vget (bmin (s_box r)) axis) = true /\ fle (vget (bmax (s_box r)) axis) (vget (bmax bounds) axis) = true.
  Proof.
    intros bounds refs r axis La I Ir V. specialize (I r Ir).
    destruct (fle (vget (bmin bounds) axis) (vget (bmin (s_box r)) axis)) eqn:E1;
    destruct (fle (vget (bmax (s_box r)) axis) (vget (bmax bounds) axis)) eqn:E2; auto; exfalso; apply I; split; auto; exists axis;
      rewrite E1, E2; auto.
  Qed.
  Lemma passes_novalid : forall k refs split axis lo hi, small n refs -> (forall r, In r refs -> is_valid (s_box r) = false) ->
    exists r, binning_passes prims k refs split axis lo hi = Ok r.
  Proof.
    induction k as [|k IH]; intros refs split axis lo hi Sm F; cbn [binning_passes]; [eauto|].
    assert (bins_fit axis (fdiv f1 (fdiv (fsub hi lo) f_bins)) lo refs) as Fit by (intros r Ir V; rewrite F in V by auto; discriminate).
    destruct (pass_runs refs split axis lo hi Sm Fit) as ([split' [[lo' hi']|]] & E); rewrite E; cbn [bind]; [|eauto]. apply IH; auto.
  Qed.
  Lemma passes_inside : forall k bounds refs split axis, axis < 3 -> small n refs -> inside_box bounds refs ->
    exists r, binning_passes prims k refs split axis (vget (bmin bounds) axis) (vget (bmax bounds) axis) = Ok r.
  Proof.
    intros k bounds refs split axis La Sm I.
    destruct (existsb (fun r => is_valid (s_box r)) refs) eqn:Ex.
    2:{ apply passes_novalid; auto. intros r Ir. destruct (is_valid (s_box r)) eqn:V; auto.
        assert (existsb (fun r => is_valid (s_box r)) refs = true) by (apply existsb_exists; eauto). congruence. }
    apply existsb_exists in Ex as (r0 & I0 & V0).
    destruct (inside_axis _ _ _ _ La I I0 V0) as [A B]. destruct (valid_le _ axis V0) as (N1 & N2 & L).
    destruct (fle_notnan _ _ A) as [Nl _]. destruct (fle_notnan _ _ B) as [_ Nh].
    apply fle_spec in A; auto. apply fle_spec in B; auto.
    destruct (width_upward (vget (bmin bounds) axis) (vget (bmax bounds) axis) Nl Nh ltac:(lra)) as [U|[E1 E2]].
    - apply passes_up; auto.
    - apply passes_flat; auto. intros r Ir V. destruct (inside_axis _ _ _ _ La I Ir V) as [A' B'].
      destruct (valid_le _ axis V) as (M1 & M2 & L'). apply fle_spec in A'; auto. apply fle_spec in B'; auto. lra.
  Qed.
  Lemma find_spatial_runs : forall bounds refs, small n refs -> inside_box bounds refs ->
    exists split, find_spatial_split prims bounds refs = Ok split.
  Proof.
    intros bounds refs Sm I. unfold find_spatial_split. cbn [for_each].
    destruct (passes_inside BINNING_PASSES bounds refs ssplit_new 0 ltac:(lia) Sm I) as (s0 & ->). cbn [bind].
    destruct (passes_inside BINNING_PASSES bounds refs s0 1 ltac:(lia) Sm I) as (s1 & ->). cbn [bind].
    destruct (passes_inside BINNING_PASSES bounds refs s1 2 ltac:(lia) Sm I) as (s2 & ->). cbn [bind]. eauto.
  Qed.

  (** The axis of a spatial split. *)
  Lemma pass_axis : forall mn bs axis l lc rc cur i split found, ss_axis split < 3 -> axis < 3 ->
    ss_axis (fst (spatial_pass axis mn bs l lc rc cur i split found)) < 3.
  Proof.
    induction l as [|[b c] l IH]; intros lc rc cur i split found H1 H2; cbn [spatial_pass]; auto.
    destruct l as [|[b' c'] l]; auto. cbv zeta. destruct (flt _ _); apply IH; auto.
  Qed.
  Lemma passes_axis : forall k refs split axis lo hi split', ss_axis split < 3 -> axis < 3 ->
    binning_passes prims k refs split axis lo hi = Ok split' -> ss_axis split' < 3.
  Proof.
    induction k as [|k IH]; intros refs split axis lo hi split' H1 H2 E; cbn [binning_passes] in E; [congruence|].
    unfold run_binning_pass in E. cbv zeta in E.
    destruct (fill_bins _ _ _ _ _ _ _) as [b| | |]; cbn [bind] in E; try discriminate E.
    match type of E with context [spatial_pass ?a ?b ?c ?d ?e ?f ?g ?h ?i ?j] =>
      pose proof (pass_axis b c a d e f g h i j H1 H2) as Ax; destruct (spatial_pass a b c d e f g h i j) as [s [|]] end;
    cbn [bind fst] in E, Ax; [|congruence]. eapply IH; [exact Ax|exact H2|exact E].
  Qed.
  Lemma find_spatial_axis : forall bounds refs split, find_spatial_split prims bounds refs = Ok split -> ss_axis split < 3.
  Proof.
    intros bounds refs split E. unfold find_spatial_split in E. cbn [for_each] in E.
    destruct (binning_passes _ _ _ _ 0 _ _) as [s0| | |] eqn:E0; cbn [bind] in E; try discriminate E.
    destruct (binning_passes _ _ _ _ 1 _ _) as [s1| | |] eqn:E1; cbn [bind] in E; try discriminate E.
    destruct (binning_passes _ _ _ _ 2 _ _) as [s2| | |] eqn:E2; cbn [bind] in E; try discriminate E.
    assert (s2 = split) as -> by congruence.
    apply passes_axis in E0; [|cbn; lia|lia]. apply passes_axis in E1; [|auto|lia]. apply passes_axis in E2; auto.
  Qed.

  (** ** Object splits *)
  Definition in_range (len : nat) (s : osplit) : Prop := forall j, o_index s = Some j -> 0 < j < len.
  Lemma object_pass_range : forall axis len l box i best, i + length l = len -> in_range len best ->
    in_range len (object_pass axis len l (skipn 1 (suffix_boxes l)) box i best).
  Proof.
    intros axis len. induction l as [|r l IH]; intros box i best E G; cbn [object_pass]; auto.
    cbn [suffix_boxes skipn]. destruct l as [|r' l]; [exact G|].
    remember (r' :: l) as l2 eqn:El. assert (suffix_boxes l2 = hd aabb_new (suffix_boxes l2) :: skipn 1 (suffix_boxes l2)) as Es
      by (subst l2; reflexivity).
    rewrite Es. cbv zeta. cbn [length] in E. assert (0 < length l2) by (subst l2; cbn [length]; lia).
    apply IH; [lia|]. destruct (flt _ _); auto. intros j Ej. cbn [o_index] in Ej. injection Ej as <-. lia.
  Qed.
  Lemma find_object_range : forall len refs, all3 (fun l => length l = len) refs -> in_range len (find_object_split refs).
  Proof.
    intros len refs (L0 & L1 & L2). unfold find_object_split. cbn [fold_left]. unfold object_axis. cbv zeta.
    assert (in_range len osplit_new) as I0 by (intros j E; discriminate E).
    rewrite L0, L1, L2. apply object_pass_range; [lia|]. apply object_pass_range; [lia|]. apply object_pass_range; [lia|auto].
  Qed.

  (** The cost found is below the initial one, or no split was found. *)
  Definition cheap (s : osplit) : Prop := flt fMAX (o_cost s) = false /\ notnan (o_cost s).
  Lemma cheap_less : forall s c i a l r, cheap s -> flt c (o_cost s) = true -> cheap (Os c i a l r).
  Proof.
    intros s c i a l r (A & N) F. destruct (flt_notnan _ _ F) as [Nc _]. split; auto. cbn [o_cost].
    apply flt_spec in F; auto. apply flt_false in A; auto. apply flt_false; auto. lra.
  Qed.
  Lemma object_pass_cheap : forall axis len l after box i best, cheap best -> cheap (object_pass axis len l after box i best).
  Proof.
    intros axis len. induction l as [|r l IH]; intros after box i best G; cbn [object_pass]; auto. destruct after as [|a after]; auto. cbv zeta.
    apply IH. match goal with |- cheap (if ?b then _ else _) => destruct b eqn:F end; auto. eapply cheap_less; eauto.
  Qed.
  Lemma find_object_cheap : forall refs, cheap (find_object_split refs).
  Proof.
    intro refs. unfold find_object_split. cbn [fold_left]. unfold object_axis. cbv zeta.
    apply object_pass_cheap, object_pass_cheap, object_pass_cheap. split; reflexivity.
  Qed.
  Lemma no_plane : forall s, cheap s -> flt (fmin fMAX (o_cost s)) (o_cost s) = false.
  Proof.
    intros s (A & N). change (fnan (o_cost s) = false) in N. unfold fmin. change (fnan fMAX) with false. rewrite N.
    destruct (flt (o_cost s) fMAX) eqn:E; [apply flt_irrefl|auto].
  Qed.

  (** ** Spatial splits *)
  Lemma classify_runs : forall axis pos k w i le rb L R, i + k = rb -> le <= i -> rb <= length w ->
    exists w' le' rb' L' R', classify axis pos k w i le rb L R = Ok (w', le', rb', L', R') /\ length w' = length w /\ le' <= le + k.
  Proof.
    intros axis pos. induction k as [|k IH]; intros w i le rb L R E1 E2 E3; cbn [classify].
    - do 5 eexists. split; [reflexivity|]. split; auto. lia.
    - destruct (get_in _ w i ltac:(lia)) as (r & -> & _). cbn [bind].
      destruct (fle _ pos).
      { destruct (swap_in _ w i le ltac:(lia) ltac:(lia)) as (w1 & -> & Lw). cbn [bind].
        destruct (IH w1 (S i) (S le) rb (grow_bb L (s_box r)) R ltac:(lia) ltac:(lia) ltac:(lia)) as (w' & le' & rb' & L' & R' & E & A & B).
        do 5 eexists. split; [exact E|]. split; lia. }
      destruct (fge _ pos).
      { destruct (swap_in _ w i (rb - 1) ltac:(lia) ltac:(lia)) as (w1 & -> & Lw). cbn [bind].
        destruct (IH w1 i le (rb - 1) L (grow_bb R (s_box r)) ltac:(lia) ltac:(lia) ltac:(lia)) as (w' & le' & rb' & L' & R' & E & A & B).
        do 5 eexists. split; [exact E|]. split; lia. }
      destruct (IH w (S i) le rb L R ltac:(lia) ltac:(lia) ltac:(lia)) as (w' & le' & rb' & L' & R' & E & A & B).
      do 5 eexists. split; [exact E|]. split; lia.
  Qed.
  Lemma swap_same : forall A (l : list A) i l', swap l i i = Ok l' -> l' = l.
  Proof.
    intros A l i l' E. unfold swap in E. destruct (nth_error l i) as [a|] eqn:Ei; [|discriminate E]. injection E as <-.
    assert (i < length l) as Li by (apply nth_error_Some; congruence).
    apply nth_error_ext. intro k. destruct (Nat.eq_dec i k) as [->|N].
    - rewrite nth_error_upd_same by (rewrite upd_length; auto). auto.
    - rewrite !nth_error_upd_other by auto. auto.
  Qed.
  Lemma classify_left : forall axis pos k w i rb L R w' le' rb' L' R', i + k = rb -> rb <= length w ->
    classify axis pos k w i i rb L R = Ok (w', le', rb', L', R') -> le' = i + k ->
    forall j r, i <= j < i + k -> nth_error w j = Some r -> fle (vget (bmax (s_box r)) axis) pos = true.
  Proof.
    intros axis pos. induction k as [|k IH]; intros w i rb L R w' le' rb' L' R' E1 E3 E Ele j r Hj Er; [lia|].
    cbn [classify] in E. destruct (get_in _ w i ltac:(lia)) as (r0 & G & G'). rewrite G in E. cbn [bind] in E.
    destruct (fle (vget (bmax (s_box r0)) axis) pos) eqn:F.
    { destruct (swap w i i) as [w1| | |] eqn:Sw; cbn [bind] in E; try discriminate E. apply swap_same in Sw as ->.
      destruct (Nat.eq_dec j i) as [->|Nj]; [congruence|].
      eapply IH with (j := j) (r := r); [| |exact E| | |exact Er]; lia. }
    exfalso. destruct (fge _ pos).
    { destruct (swap_in _ w i (rb - 1) ltac:(lia) ltac:(lia)) as (w1 & Sw & Lw). rewrite Sw in E. cbn [bind] in E.
      destruct (classify_runs axis pos k w1 i i (rb - 1) L (grow_bb R (s_box r0)) ltac:(lia) ltac:(lia) ltac:(lia)) as (? & le2 & ? & ? & ? & E2 & _ & B).
      assert (le2 = le') by congruence. lia. }
    destruct (classify_runs axis pos k w (S i) i rb L R ltac:(lia) ltac:(lia) ltac:(lia)) as (? & le2 & ? & ? & ? & E2 & _ & B).
    assert (le2 = le') by congruence. lia.
  Qed.

  Lemma straddle_runs : forall axis pos k w le rb re lc rc L R, small n w -> le + k = rb -> rb <= re -> re <= length w ->
    exists r, straddle prims axis pos k w le rb re lc rc L R = Ok r.
  Proof.
    intros axis pos. induction k as [|k IH]; intros w le rb re lc rc L R Sm E1 E2 E3; cbn [straddle]; [eauto|].
    destruct (get_in _ w le ltac:(lia)) as (r & -> & Er). cbn [bind].
    pose proof (small_nth _ _ _ _ Sm Er) as Sr. destruct (get_in _ prims (s_prim r) Sr) as (t & -> & _). cbn [bind].
    destruct (tri_split _ _ _) as [lb rbx]. destruct (0 <? length w - re) eqn:Sp.
    { apply Nat.ltb_lt in Sp. rewrite set_Ok by lia. cbn [bind]. rewrite set_Ok by (rewrite upd_length; lia). cbn [bind].
      apply IH; [|lia|lia|rewrite !upd_length; lia]. apply small_upd; auto. apply small_upd; auto. }
    destruct (lc <? rc); [apply IH; auto; lia|].
    destruct (swap_in _ w (rb - 1) le ltac:(lia) ltac:(lia)) as (w1 & Sw & Lw). rewrite Sw. cbn [bind].
    apply IH; [|lia|lia|lia]. destruct (swap_perm _ _ _ _ _ Sw) as (P & _). eapply small_perm; [symmetry; exact P|auto].
  Qed.
  (** Neither side of the straddling references stays empty. *)
  Lemma straddle_both : forall axis pos k w le rb re lc rc L R w' rb' re' L' R',
    straddle prims axis pos k w le rb re lc rc L R = Ok (w', rb', re', L', R') ->
    le + k = rb -> rb <= re -> lc = le -> rc = re - rb ->
    (0 < lc \/ 0 < rc /\ 1 <= k \/ 2 <= k) -> (0 < rc \/ 1 <= k) -> 0 < rb' < re'.
  Proof.
    intros axis pos. induction k as [|k IH]; intros w le rb re lc rc L R w' rb' re' L' R' E E1 E2 -> -> H1 H2; cbn [straddle] in E.
    - assert (rb' = rb /\ re' = re) as [-> ->] by (split; congruence). lia.
    - destruct (get w le) as [r| | |]; cbn [bind] in E; try discriminate.
      destruct (get prims (s_prim r)) as [t| | |]; cbn [bind] in E; try discriminate.
      destruct (tri_split t axis pos) as [lb rbx]. destruct (0 <? length w - re).
      { destruct (set w re _) as [w1| | |]; cbn [bind] in E; try discriminate.
        destruct (set w1 le _) as [w2| | |]; cbn [bind] in E; try discriminate.
        eapply IH; [exact E|lia|lia|lia|lia|lia|lia]. }
      destruct (Nat.ltb_spec le (re - rb)).
      { eapply IH; [exact E|lia|lia|lia|lia|lia|lia]. }
      destruct (swap w (rb - 1) le) as [w1| | |]; cbn [bind] in E; try discriminate.
      eapply IH; [exact E|lia|lia|lia|lia|lia|lia].
  Qed.

  (** Everything on the left of the plane. *)
  Definition all_left (len : nat) (l : list sref) (axis : nat) (pos : f32) : Prop :=
    forall r, In r (firstn len l) -> fle (vget (bmax (s_box r)) axis) pos = true.
  Lemma in_firstn : forall A (l : list A) k x, In x (firstn k l) -> exists j, j < k /\ nth_error l j = Some x.
  Proof.
    intros A l k x I. apply In_nth_error in I as (j & E). assert (j < length (firstn k l)) as L by (apply nth_error_Some; congruence).
    rewrite firstn_length in L. exists j. split; [lia|].
    rewrite <- (firstn_skipn k l), nth_error_app1 by (rewrite firstn_length; lia). auto.
  Qed.
  Lemma spatial_runs : forall begin len w split, 2 <= len -> all3 (fun l => len <= length l) w -> all3 (small n) w ->
    match apply_spatial_split prims begin len w split with
    | Ok (w', c) => 0 < c_right_begin c < c_right_end c \/
        all_left len (pick w (ss_axis split)) (ss_axis split) (ss_pos split) /\ 0 < begin /\ len / 2 <= begin
    | _ => all_left len (pick w (ss_axis split)) (ss_axis split) (ss_pos split) /\ 0 < begin /\ len / 2 <= begin
    end.
  Proof.
    intros begin len w split L2 Lw Sm. unfold apply_spatial_split. cbv zeta.
    pose proof (all3_pick _ _ _ (ss_axis split) Lw) as La. pose proof (all3_pick _ _ _ (ss_axis split) Sm) as Sa. cbv beta in La.
    set (l := pick w (ss_axis split)) in *. set (axis := ss_axis split) in *. set (pos := ss_pos split).
    destruct (classify_runs axis pos len l 0 0 len aabb_new aabb_new ltac:(lia) ltac:(lia) La) as (w1 & le1 & rb1 & L1 & R1 & E & Lw1 & B1).
    pose proof E as Ec. apply (classify_ok n (length l)) in Ec; [|split; auto|lia|lia|lia]. destruct Ec as ((_ & Sw1) & B2).
    rewrite E. cbn [bind]. unfold fallback. cbv zeta.
    assert (len / 2 < len) as Ld by (apply Nat.div_lt; lia). assert (1 <= len / 2) as Lp by (apply Nat.div_le_lower_bound; lia).
    destruct (((le1 =? 0) || (len - rb1 =? 0)) && (le1 =? rb1)) eqn:C.
    - apply andb_prop in C as [C1 C2]. apply Nat.eqb_eq in C2. apply orb_prop in C1.
      destruct (Nat.ltb_spec 0 le1) as [P|P].
      + destruct C1 as [C1|C1]; apply Nat.eqb_eq in C1; [lia|]. assert (le1 = len) as -> by lia. subst rb1.
        assert (all_left len l axis pos) as AL.
        { intros r Ir. apply in_firstn in Ir as (j & Hj & Er).
          apply (classify_left axis pos len l 0 len _ _ _ _ _ _ _ ltac:(lia) La E ltac:(lia) j r); auto. lia. }
        remember (len / 2) as h.
        destruct (Nat.ltb_spec h begin) as [Lb|Lb]; cbn [bind]; [split; [auto|lia]|].
        rewrite Nat.sub_diag. cbn [straddle bind c_right_begin c_right_end].
        destruct (Nat.eq_dec h begin) as [->|Nb]; [right; split; [auto|lia]|left; lia].
      + assert (le1 = 0) as -> by lia. subst rb1. cbn [bind]. rewrite Nat.sub_diag. cbn [straddle bind c_right_begin c_right_end].
        left. rewrite Nat.sub_0_r, Nat.add_0_l. remember (len / 2) as h. lia.
    - cbn [bind].
      destruct (straddle_runs axis pos (rb1 - le1) w1 le1 rb1 len le1 (len - rb1) L1 R1 Sw1 ltac:(lia) ltac:(lia) ltac:(lia))
        as ([[[[w3 rb3] re3] L3] R3] & E3).
      rewrite E3. cbn [bind c_right_begin c_right_end]. left.
      apply straddle_both in E3; auto; try lia.
      + apply andb_false_iff in C as [C|C]; [apply orb_false_iff in C as [C1 C2]; apply Nat.eqb_neq in C1; lia|apply Nat.eqb_neq in C].
        destruct (Nat.eq_dec le1 0) as [->|]; [|lia]. destruct (Nat.eq_dec rb1 len); lia.
      + apply andb_false_iff in C as [C|C]; [apply orb_false_iff in C as [C1 C2]; apply Nat.eqb_neq in C2; lia|apply Nat.eqb_neq in C].
        lia.
  Qed.

  (** ** The whole planning *)
  Lemma sort_in : forall len (w : per_axis (list sref)) axis r,
    all3 (fun l => len <= length l) w ->
    In r (firstn len (pick (sort_refs sorter len w) axis)) <-> In r (firstn len (pick w axis)).
  Proof.
    intros len [[w0 w1] w2] axis r (L0 & L1 & L2). cbn [pick] in *.
    assert (forall a l, len <= length l -> In r (firstn len (sorter a (firstn len l) ++ skipn len l)) <-> In r (firstn len l)) as G.
    { intros a l Ll. assert (length (sorter a (firstn len l)) = len) as E by (rewrite (Permutation_length (sorter_perm a _)), firstn_length; lia).
      rewrite firstn_app, E, Nat.sub_diag, app_nil_r, <- E at 1. rewrite firstn_all. split; apply Permutation_in; [apply sorter_perm|symmetry; apply sorter_perm]. }
    destruct axis as [|[|a]]; unfold sort_refs; cbn [pick]; apply G; auto.
  Qed.

  Lemma plan_runs : forall threshold W t bounds w, w_size t <= W -> all3 (okw n W) w ->
    match plan_task sorter prims leaf_size threshold t bounds w with
    | Ok (_, Leaf) => True
    | Ok (_, Divide c) => 0 < c_right_begin c < c_right_end c \/
        one_sided sorter prims t bounds w /\ 0 < w_begin t /\ w_size t / 2 <= w_begin t
    | _ => one_sided sorter prims t bounds w /\ 0 < w_begin t /\ w_size t / 2 <= w_begin t \/
        exists r, In r (its_refs t w 0) /\ sticks_out bounds r
    end.
  Proof.
    intros threshold W t bounds w L O. unfold plan_task.
    destruct ((w_size t <=? 1) || (MAX_DEPTH <=? w_depth t)) eqn:C; [auto|].
    apply orb_false_elim in C as [C1 C2]. apply Nat.leb_gt in C1.
    assert (all3 (fun l => w_size t <= length l) w) as Lw by (eapply all3_imp; [|exact O]; intros x [Lx _]; lia).
    unfold one_sided. fold (sorted_refs sorter t w). remember (sorted_refs sorter t w) as w1 eqn:Ew1. unfold its_refs at 1 2 3 4.
    assert (all3 (okw n W) w1) as O1 by (rewrite Ew1; unfold sorted_refs; destruct (w_sorted t); auto; apply sort_ok; auto).
    assert (forall axis r, In r (firstn (w_size t) (pick w1 axis)) <-> In r (its_refs t w axis)) as Sin.
    { intros axis r. rewrite Ew1. unfold sorted_refs. destruct (w_sorted t); [reflexivity|]. apply sort_in. auto. }
    clear Ew1. cbv zeta.
    assert (all3 (fun l => w_size t <= length l) w1) as Lw1 by (eapply all3_imp; [|exact O1]; intros x [Lx _]; lia).
    assert (all3 (small n) w1) as Sw1 by (eapply all3_imp; [|exact O1]; intros x [_ Sx]; auto).
    assert (small n (firstn (w_size t) (pick w1 0))) as Sr by (apply small_firstn; apply (all3_pick _ _ _ 0 Sw1)).
    assert (in_range (w_size t) (find_object_split (map3 (firstn (w_size t)) w1))) as Rg.
    { apply find_object_range. apply (all3_map _ _ (fun l => w_size t <= length l) (fun l => length l = w_size t)); auto.
      intros x Lx. rewrite firstn_length. lia. }
    set (os := find_object_split (map3 (firstn (w_size t)) w1)) in *.
    match goal with |- context [if ?b then find_spatial_split prims bounds ?r else Ok ssplit_new] => destruct b eqn:Eo end.
    - destruct (find_spatial_split prims bounds (firstn (w_size t) (pick w1 0))) as [ss| | |] eqn:Es; cbn [bind].
      2,3,4: right; destruct (outside_or bounds (firstn (w_size t) (pick w1 0))) as [(r & Ir & Er)|In0];
        [exists r; split; [apply Sin; auto|auto]
        |exfalso; destruct (find_spatial_runs bounds (firstn (w_size t) (pick w1 0)) Sr In0) as (x & Ex2); congruence].
      pose proof (find_spatial_axis _ _ _ Es) as Ax.
      destruct (fge _ _).
      { destruct (leaf_size <? w_size t); [|auto]. unfold apply_object_split.
        assert (w_size t / 2 < w_size t) as Ld by (apply Nat.div_lt; lia). assert (1 <= w_size t / 2) as Lp by (apply Nat.div_le_lower_bound; lia).
        remember (w_size t / 2) as h. destruct (Nat.ltb_spec h (w_size t)); [|lia]. cbn [negb bind c_right_begin c_right_end]. left. lia. }
      destruct (flt _ _).
      { pose proof (spatial_runs (w_begin t) (w_size t) w1 ss C1 Lw1 Sw1) as SR.
        assert (all_left (w_size t) (pick w1 (ss_axis ss)) (ss_axis ss) (ss_pos ss) ->
          forall r, In r (its_refs t w (ss_axis ss)) -> fle (vget (bmax (s_box r)) (ss_axis ss)) (ss_pos ss) = true) as Al.
        { intros AL r Ir. apply AL. apply (proj2 (Sin (ss_axis ss) r)). exact Ir. }
        destruct (apply_spatial_split _ _ _ _ _) as [[w2 c]| | |]; cbn [bind].
        - destruct SR as [SR|(S1 & S2)]; [left; exact SR|right]. split; [exists ss; split; [exact Ax|split; [first [reflexivity|exact Es]|exact (Al S1)]]|exact S2].
        - left. destruct SR as (S1 & S2). split; [exists ss; split; [exact Ax|split; [first [exact Es|reflexivity]|exact (Al S1)]]|exact S2].
        - left. destruct SR as (S1 & S2). split; [exists ss; split; [exact Ax|split; [first [exact Es|reflexivity]|exact (Al S1)]]|exact S2].
        - left. destruct SR as (S1 & S2). split; [exists ss; split; [exact Ax|split; [first [exact Es|reflexivity]|exact (Al S1)]]|exact S2]. }
      destruct (o_index os) as [ix|] eqn:Ei; [|auto]. pose proof (Rg ix Ei) as Rx. unfold apply_object_split.
      destruct (Nat.ltb_spec ix (w_size t)); [|lia]. cbn [negb bind c_right_begin c_right_end]. left. lia.
    - cbn [bind]. destruct (fge _ _).
      { destruct (leaf_size <? w_size t); [|auto]. unfold apply_object_split.
        assert (w_size t / 2 < w_size t) as Ld by (apply Nat.div_lt; lia). assert (1 <= w_size t / 2) as Lp by (apply Nat.div_le_lower_bound; lia).
        remember (w_size t / 2) as h. destruct (Nat.ltb_spec h (w_size t)); [|lia]. cbn [negb bind c_right_begin c_right_end]. left. lia. }
      change (ss_cost ssplit_new) with fMAX. rewrite (no_plane os (find_object_cheap _)).
      destruct (o_index os) as [ix|] eqn:Ei; [|auto]. pose proof (Rg ix Ei) as Rx. unfold apply_object_split.
      destruct (Nat.ltb_spec ix (w_size t)); [|lia]. cbn [negb bind c_right_begin c_right_end]. left. lia.
  Qed.
End Plan.

(** ** History of the tasks *)
Section Hist.
  Variable sorter : nat -> list sref -> list sref.
  Hypothesis sorter_perm : forall a l, Permutation (sorter a l) l.
  Variables (ppl : option nat) (prims : list tri) (aabbs : list aabb) (centers : list vec3).
  Hypothesis Hlen : length prims = length aabbs.
  Hypothesis Hpos : 1 <= length aabbs.
  Hypothesis Hsmall : (Z.of_nat (max_refs (length aabbs)) <= 536870912)%Z.
  Let M := max_refs (length aabbs).
  Notation pst := (qstep sorter prims (max_leaf_size ppl) (spatial_threshold aabbs)).
  Notation given := (spatial_task sorter ppl aabbs prims centers).
  Notation decides := (decides sorter ppl aabbs prims).
  Notation step := (SpawnModel.step QRun w_size pst WORK_THRESHOLD).
  Notation reachable := (SpawnModel.reachable QRun w_size pst WORK_THRESHOLD).
  Notation init := (initial (spatial_start aabbs centers) (spatial_root aabbs)).
  Notation width t := (w_split_end t - w_begin t).

  (** One step, seen on the multiset of running and waiting tasks. *)
  Lemma step_view : forall s s', step s s' -> exists x rest, Permutation (items (s_threads s)) (x ++ rest) /\
    (x = [] /\ s_mem s' = s_mem s /\ Permutation (items (s_threads s')) rest \/
     (exists t, x = [(t, None)] /\ s_mem s' = s_mem s /\ Permutation (items (s_threads s')) ((t, Some (QRun t)) :: rest)) \/
     (exists t p p', x = [(t, Some p)] /\ pst p (s_mem s) = PStep p' (s_mem s') /\
        Permutation (items (s_threads s')) ((t, Some p') :: rest) /\
        exists j st subs, nth_error (s_threads s) j = Some (Th (Some (t, p)) st subs)) \/
     (exists t, x = [(t, Some (QRet None))] /\ s_mem s' = s_mem s /\ Permutation (items (s_threads s')) rest) \/
     (exists t a b, x = [(t, Some (QRet (Some (a, b))))] /\ s_mem s' = s_mem s /\
        Permutation (items (s_threads s')) ((a, None) :: (b, None) :: rest))).
  Proof.
    intros s s' St. inversion St; subst; clear St; cbn [s_mem s_threads];
      (destruct (upd_mid _ _ _ _ H) as (l1 & l2 & -> & Hl & Hu)); rewrite Hu; clear Hu.
    - exists [(t, None)], (map (fun t => (t, None)) st ++ items (l1 ++ l2)). split; [rewrite items_mid; auto|].
      right. left. exists t. split; auto. split; auto. rewrite items_mid. apply Permutation_refl.
    - exists [(t, Some p)], (map (fun t => (t, None)) st ++ items (l1 ++ l2)). split; [rewrite items_mid; auto|].
      right. right. left. exists t, p, p'. split; auto. split; auto. split; [rewrite items_mid; apply Permutation_refl|].
      exists j, st, subs. auto.
    - assert (p = QRet None) as ->.
      { destruct p; cbn [qstep] in H0; cbv zeta in H0; try discriminate H0; [| | | |congruence];
        repeat match type of H0 with context [match ?x with _ => _ end] => destruct x; try discriminate H0 end. }
      exists [(t, Some (QRet None))], (map (fun t => (t, None)) st ++ items (l1 ++ l2)). split; [rewrite items_mid; auto|].
      do 3 right. left. exists t. split; auto. split; auto. rewrite items_mid. apply Permutation_refl.
    - assert (p = QRet (Some (a, b))) as ->.
      { destruct p; cbn [qstep] in H0; cbv zeta in H0; try discriminate H0; [| | | |congruence];
        repeat match type of H0 with context [match ?x with _ => _ end] => destruct x; try discriminate H0 end. }
      exists [(t, Some (QRet (Some (a, b))))], (map (fun t => (t, None)) st ++ items (l1 ++ l2)). split; [rewrite items_mid; auto|].
      do 4 right. exists t, a, b. split; auto. split; auto. rewrite items_mid. simpl. apply (ordered_perm witem w_size) in H1.
      apply (Permutation_map (fun t => (t, @None pprog))) in H1. simpl in H1.
      refine (Permutation_app_tail _ (Permutation_sym H1)).
    - assert (p = QRet (Some (a, b))) as ->.
      { destruct p; cbn [qstep] in H0; cbv zeta in H0; try discriminate H0; [| | | |congruence];
        repeat match type of H0 with context [match ?x with _ => _ end] => destruct x; try discriminate H0 end. }
      exists [(t, Some (QRet (Some (a, b))))], (map (fun t => (t, None)) st ++ items (l1 ++ l2)). split; [rewrite items_mid; auto|].
      do 4 right. exists t, a, b. split; auto. split; auto.
      match goal with |- Permutation (items (?a ++ ?b)) _ => replace (items (a ++ b)) with (items a ++ items b) by (symmetry; apply flat_map_app) end.
      rewrite items_mid. rewrite Permutation_app_comm. simpl. apply (ordered_perm witem w_size) in H1.
      apply (Permutation_map (fun t => (t, @None pprog))) in H1. simpl in H1.
      refine (Permutation_app_tail _ (Permutation_sym H1)).
    - exists [], (items (l1 ++ {| t_cur := None; t_stack := []; t_subs := k :: subs |} :: l2)). split; auto. left. split; auto. split; auto.
      rewrite !items_mid. auto.
  Qed.

  (** Where a task stands. *)
  Definition shape (t : witem) : Prop := w_begin t <= w_end t /\ w_end t <= w_split_end t /\ w_split_end t <= M.
  Definition child_ok (t : witem) (c : children) : Prop :=
    shape t /\ c_right_begin c <= c_right_end c /\ w_size t <= c_right_end c <= width t /\ 2 <= w_size t /\
    (w_split_end t = M \/ w_split_end t = w_end t) /\
    exists bounds w w', given t bounds w /\ decides t bounds w = Ok (w', Divide c).

  Lemma reach_item : forall s t p, reachable init s -> In (t, p) (items (s_threads s)) ->
    exists e c f, e_t e = t /\ open_ok sorter prims (max_leaf_size ppl) (spatial_threshold aabbs) aabbs centers (s_mem s) e c f p /\
      length (p_nodes (s_mem s)) = 2 * M + 1 /\ length (p_idx (s_mem s)) = M /\ forall a, length (pick (p_refs (s_mem s)) a) = M.
  Proof.
    intros s t p R I. destruct (reach_inv sorter sorter_perm prims (max_leaf_size ppl) (spatial_threshold aabbs) aabbs centers Hpos Hsmall s R) as (g & V).
    apply in_split in I as (l1 & l2 & E).
    assert (Permutation (items (s_threads s)) ((t, p) :: l1 ++ l2)) as P by (rewrite E; symmetry; apply Permutation_middle).
    assert (exists C e c f, g = plug C (GOpen e c f p) /\ e_t e = t) as (C & e & c & f & -> & Et) by (eapply perm_in; [exact V|exact P]).
    pose proof (i_agree _ _ _ _ _ _ _ _ V) as W. apply plug_agree in W. cbn [agree] in W.
    exists e, c, f. split; auto. split; [exact W|]. split; [apply (i_nodes _ _ _ _ _ _ _ _ V)|].
    split; [apply (i_idx _ _ _ _ _ _ _ _ V)|apply (i_refs _ _ _ _ _ _ _ _ V)].
  Qed.
  Lemma thread_item : forall (s : state witem pmem pprog) j t p st subs, nth_error (s_threads s) j = Some (Th (Some (t, p)) st subs) -> In (t, Some p) (items (s_threads s)).
  Proof.
    intros s j t p st subs E. unfold items. apply in_flat_map. exists (Th (Some (t, p)) st subs).
    split; [eapply nth_error_In; eauto|]. left. reflexivity.
  Qed.

  (** A task about to plan. *)
  Lemma run_given : forall s j t t' st subs, reachable init s -> nth_error (s_threads s) j = Some (Th (Some (t, QRun t')) st subs) ->
    t' = t /\ exists bounds w, given t bounds w /\ shape t /\ (w_split_end t = M \/ w_split_end t = w_end t) /\
      all3 (okw (length prims) (width t)) w /\ nth_error (p_nodes (s_mem s)) (w_node t) = Some bounds /\
      w = map3 (fun l => window l (w_begin t) (width t)) (p_refs (s_mem s)).
  Proof.
    intros s j t t' st subs R E. destruct (reach_item _ _ _ R (thread_item _ _ _ _ _ _ E)) as (e & c & f & <- & W & _).
    cbn [open_ok] in W. destruct W as (-> & -> & -> & Wn & Ww & Wf). split; auto. exists (e_box e), (e_w e).
    pose proof Wf as (W1 & W2 & W3 & (_ & W4) & W5). change (M) with (max_refs (length aabbs)).
    split; [|split; [unfold shape; tauto|split; [exact W3|split; [rewrite Hlen; exact W5|split; [exact Wn|symmetry; exact Ww]]]]].
    exact W4.
  Qed.

  (** What the tasks in flight come from. *)
  Definition ub_item (x : witem * option pprog) : Prop :=
    match x with
    | (t, Some (QAlloc t' c)) | (t, Some (QChildren t' c _)) => t' = t /\ child_ok t c
    | (t, Some QUb) => exists c, child_ok t c /\
        (Z.of_nat (w_split_end t - (w_begin t + c_right_end c)) < left_split_count (w_split_end t - (w_begin t + c_right_end c)) c)%Z
    | _ => True
    end.
  Lemma move_right_or : forall (l : list sref) rb re sh, rb <= re -> re <= length l ->
    (exists l', move_right l rb re sh = Ok l') \/ (Z.of_nat (length l) < Z.of_nat re + sh)%Z.
  Proof.
    intros l rb re sh B L. unfold move_right. destruct (Z.ltb_spec 0 sh) as [P|P]; [|left; eauto].
    destruct (Z.ltb_spec (Z.of_nat (length l)) (Z.of_nat re + sh)) as [Q|Q]; [right; lia|]. left.
    destruct (move_backward_spec _ l rb (re - rb) (re + Z.to_nat sh) (S (length l))) as (l' & E' & _); try lia.
    replace (rb + (re - rb)) with re in E' by lia. rewrite E'. exists l'. reflexivity.
  Qed.
  Lemma run_ub : forall s t p p' m', reachable init s -> In (t, Some p) (items (s_threads s)) ->
    (exists j st subs, nth_error (s_threads s) j = Some (Th (Some (t, p)) st subs)) ->
    pst p (s_mem s) = PStep p' m' -> ub_item (t, Some p) -> ub_item (t, Some p').
  Proof.
    intros s t p p' m' R I (j & st & subs & Ej) E U. destruct (reach_item _ _ _ R I) as (e & c & f & Et & W & Ln & Li & Lr).
    destruct p as [t0|t0|t0 first|t0 ch|t0 ch lft|r| |]; cbn [qstep] in E; try discriminate E.
    - destruct (run_given _ _ _ _ _ _ R Ej) as (-> & bounds & w & G & Sh & Sp & O & Wn & Ew). rewrite Wn in E. cbv zeta in E.
      rewrite <- Ew in E. destruct (plan_task _ _ _ _ _ _ _) as [[w2 [|ch]]| | |] eqn:Ep.
      + assert (p' = QLeaf t) as -> by congruence. exact Logic.I.
      + assert (p' = QAlloc t ch) as -> by congruence. cbn [ub_item]. split; auto.
        assert (w_size t <= width t) as LW by (destruct Sh; unfold w_size; lia).
        destruct (plan_ok sorter sorter_perm prims (max_leaf_size ppl) (length prims) _ (width t) _ _ _ _ _ LW O Ep) as (_ & B1 & B2 & _ & B3).
        unfold child_ok. split; [exact Sh|]. split; [lia|]. split; [lia|]. split; [lia|]. split; [exact Sp|]. exists bounds, w, w2. split; [exact G|exact Ep].
      + assert (p' = QPanic) as -> by congruence. exact Logic.I.
      + exfalso. apply (plan_ub sorter prims (max_leaf_size ppl) (spatial_threshold aabbs) t bounds w). exact Ep.
      + assert (p' = QPanic) as -> by congruence. exact Logic.I.
    - assert (p' = QLeafAt t0 (p_count (s_mem s))) as -> by congruence. exact Logic.I.
    - cbn [open_ok] in W. destruct W as (-> & _ & -> & Lf & _ & Wn & _). unfold e_node in Wn. rewrite Wn in E.
      rewrite Li in E. destruct (Nat.ltb_spec M (first + w_size (e_t e))) as [Q|Q]; [unfold e_len in Lf; lia|].
      assert (p' = QRet None) as -> by congruence. exact Logic.I.
    - destruct (_ <=? _); [assert (p' = QPanic) as -> by congruence; exact Logic.I|].
      assert (p' = QChildren t0 ch (p_ctr (s_mem s))) as -> by congruence. exact U.
    - destruct U as (-> & U). cbn [open_ok] in W. destruct W as (Ht & _ & _ & Lf & _ & _ & Wn & _). unfold e_node in Wn. rewrite <- Ht in Wn.
      rewrite Wn in E. rewrite Ln in E.
      destruct (Nat.leb_spec (2 * M + 1) (S lft)) as [Q|Q]; [exfalso; change (max_refs (length aabbs)) with M in Lf; lia|].
      cbv zeta in E. set (re := w_begin t + c_right_end ch) in *. set (rb := w_begin t + c_right_begin ch) in *.
      set (sh := left_split_count (w_split_end t - re) ch) in *.
      pose proof U as ((S1 & S2 & S3) & B1 & B2 & B3 & Sp & _).
      assert (re <= w_split_end t) as Bre by (unfold re; lia).
      assert ((exists x, move3 (p_refs (s_mem s)) rb re sh = Ok x) \/ (Z.of_nat M < Z.of_nat re + sh)%Z) as [(x & Ex)|Bad].
      { unfold move3.
        destruct (move_right_or (pick (p_refs (s_mem s)) 0) rb re sh ltac:(lia) ltac:(rewrite Lr; lia)) as [(x0 & ->)|B]; [|right; rewrite Lr in B; exact B].
        destruct (move_right_or (pick (p_refs (s_mem s)) 1) rb re sh ltac:(lia) ltac:(rewrite Lr; lia)) as [(x1 & ->)|B]; [|right; rewrite Lr in B; exact B].
        destruct (move_right_or (pick (p_refs (s_mem s)) 2) rb re sh ltac:(lia) ltac:(rewrite Lr; lia)) as [(x2 & ->)|B]; [|right; rewrite Lr in B; exact B].
        left. cbn [bind]. eauto. }
      + rewrite Ex in E. match type of E with PStep ?q _ = _ => assert (p' = q) as -> by congruence end. exact Logic.I.
      + assert (ub_item (t, Some QUb)) as G.
        { exists ch. split; [exact U|]. fold re. fold sh.
          destruct Sp as [Sp|Sp].
          - rewrite Sp in *. lia.
          - assert (w_split_end t - re = 0) as Z0 by (unfold re; unfold w_size in B2; lia).
            assert (sh = 0%Z) as Z1 by (unfold sh, left_split_count; rewrite Z0; reflexivity). lia. }
        destruct (move3 _ _ _ _) as [x| | |]; [match type of E with PStep ?q _ = _ => assert (p' = q) as -> by congruence end; exact Logic.I| | |];
          (assert (p' = QUb) as -> by congruence; exact G).
  Qed.
  Lemma ub_items : forall s, reachable init s -> Forall ub_item (items (s_threads s)).
  Proof.
    intros s R. induction R as [|s s' R IH St].
    - constructor; [exact Logic.I|constructor].
    - destruct (step_view _ _ St) as (x & rest & P & V).
      assert (Forall ub_item (x ++ rest)) as F by (eapply Permutation_Forall; [exact P|exact IH]). apply Forall_app in F as (Fx & Fr).
      destruct V as [(-> & _ & P')|[(t & -> & _ & P')|[(t & p & p' & -> & E & P' & Th)|[(t & -> & _ & P')|(t & a & b & -> & _ & P')]]]];
        (eapply Permutation_Forall; [symmetry; exact P'|]); auto.
      + constructor; [exact Logic.I|auto].
      + constructor; [|auto]. eapply run_ub; [exact R| |exact Th|exact E|inversion Fx; auto].
        eapply Permutation_in; [symmetry; exact P|left; reflexivity].
      + constructor; [exact Logic.I|]. constructor; [exact Logic.I|auto].
  Qed.
  Theorem ub_source : forall s j t st subs, reachable init s -> nth_error (s_threads s) j = Some (Th (Some (t, QUb)) st subs) ->
    exists c, child_ok t c /\
      (Z.of_nat (w_split_end t - (w_begin t + c_right_end c)) < left_split_count (w_split_end t - (w_begin t + c_right_end c)) c)%Z.
  Proof.
    intros s j t st subs R E. pose proof (ub_items s R) as F. rewrite Forall_forall in F. exact (F _ (thread_item _ _ _ _ _ _ E)).
  Qed.

  (** ** Panics *)
  Definition bad_plan : Prop := exists t bounds w, given t bounds w /\
    (one_sided sorter prims t bounds w /\ 0 < w_begin t /\ w_size t / 2 <= w_begin t \/
     exists r, In r (its_refs t w 0) /\ sticks_out bounds r).
  Definition item_ok (x : witem * option pprog) : Prop :=
    shape (fst x) /\ w_begin (fst x) < w_end (fst x) /\
    match snd x with
    | Some (QAlloc _ c) | Some (QChildren _ c _) => 0 < c_right_begin c < c_right_end c
    | Some (QRet (Some (a, b))) => shape a /\ w_begin a < w_end a /\ shape b /\ w_begin b < w_end b /\
        width a + width b = width (fst x)
    | Some QPanic => False
    | _ => True
    end.
  Definition weight (x : witem * option pprog) : nat :=
    match snd x with
    | Some (QChildren _ _ _) | Some (QRet (Some _)) => 2 * (width (fst x) - 2)
    | Some QUb => 0
    | _ => 2 * (width (fst x) - 1)
    end.
  Definition total (l : list (witem * option pprog)) : nat := list_sum (map weight l).
  Lemma total_perm : forall l l', Permutation l l' -> total l = total l'.
  Proof. intros l l' P. unfold total. induction P; simpl; lia. Qed.
  Definition roomy (s : state witem pmem pprog) : Prop :=
    Forall item_ok (items (s_threads s)) /\ p_ctr (s_mem s) + total (items (s_threads s)) + 1 <= 2 * M.

  Lemma run_room : forall s t p p' m', reachable init s -> In (t, Some p) (items (s_threads s)) ->
    (exists j st subs, nth_error (s_threads s) j = Some (Th (Some (t, p)) st subs)) ->
    pst p (s_mem s) = PStep p' m' -> item_ok (t, Some p) -> p_ctr (s_mem s) < 2 * M ->
    bad_plan \/ item_ok (t, Some p') /\ p_ctr m' + weight (t, Some p') <= p_ctr (s_mem s) + weight (t, Some p).
  Proof.
    intros s t p p' m' R I (j & st & subs & Ej) E (Sh & Ne & U) Ctr. cbn [fst snd] in *.
    destruct (reach_item _ _ _ R I) as (e & c & f & Et & W & Ln & Li & Lr).
    pose proof (ub_items s R) as F. rewrite Forall_forall in F. specialize (F _ I).
    destruct p as [t0|t0|t0 first|t0 ch|t0 ch lft|r| |]; cbn [qstep] in E; try discriminate E.
    - destruct (run_given _ _ _ _ _ _ R Ej) as (-> & bounds & w & G & _ & Sp & O & Wn & Ew). rewrite Wn in E. cbv zeta in E.
      rewrite <- Ew in E. assert (w_size t <= width t) as LW by (destruct Sh; unfold w_size; lia).
      pose proof (plan_runs sorter sorter_perm prims (max_leaf_size ppl) (spatial_threshold aabbs) (width t) t bounds w LW O) as PR.
      destruct (plan_task _ _ _ _ _ _ _) as [[w2 [|ch]]| | |] eqn:Ep.
      + right. assert (p' = QLeaf t) as -> by congruence. assert (p_ctr m' = p_ctr (s_mem s)) as ->.
        { match type of E with PStep _ ?q = _ => assert (m' = q) as -> by congruence end. reflexivity. }
        split; [split; [exact Sh|split; [exact Ne|exact Logic.I]]|]. apply le_n.
      + destruct PR as [PR|PR]; [right|left; exists t, bounds, w; auto].
        assert (p' = QAlloc t ch) as -> by congruence. assert (p_ctr m' = p_ctr (s_mem s)) as ->.
        { match type of E with PStep _ ?q = _ => assert (m' = q) as -> by congruence end. reflexivity. }
        split; [split; [exact Sh|split; [exact Ne|exact PR]]|]. apply le_n.
      + left. exists t, bounds, w. auto.
      + left. exists t, bounds, w. auto.
      + left. exists t, bounds, w. auto.
    - right. assert (p' = QLeafAt t0 (p_count (s_mem s))) as -> by congruence. assert (p_ctr m' = p_ctr (s_mem s)) as ->.
      { match type of E with PStep _ ?q = _ => assert (m' = q) as -> by congruence end. reflexivity. }
      split; [split; [exact Sh|split; [exact Ne|exact Logic.I]]|]. apply le_n.
    - right. destruct (nth_error (p_nodes (s_mem s)) (w_node t0)) as [nd|]; [|discriminate E].
      destruct (_ <? _); (match type of E with PStep ?q ?r = _ => assert (p' = q) as -> by congruence; assert (m' = r) as -> by congruence end);
        (split; [split; [exact Sh|split; [exact Ne|exact Logic.I]]|]); cbn [p_ctr weight snd fst]; lia.
    - right. destruct F as (_ & (_ & _ & B2 & B3 & _)). 
      destruct (Nat.leb_spec (length (p_nodes (s_mem s))) (p_ctr (s_mem s))) as [Q|Q]; [rewrite Ln in Q; lia|].
      match type of E with PStep ?q ?r = _ => assert (p' = q) as -> by congruence; assert (m' = r) as -> by congruence end.
      split; [split; [exact Sh|split; [exact Ne|exact U]]|]. cbn [p_ctr weight snd fst]. lia.
    - right. destruct F as (-> & ((S1 & S2 & S3) & B1 & B2 & B3 & _)). destruct (nth_error (p_nodes (s_mem s)) (w_node t)) as [nd|]; [|discriminate E].
      destruct (_ <=? _).
      { match type of E with PStep ?q ?r = _ => assert (p' = q) as -> by congruence; assert (m' = r) as -> by congruence end.
        split; [split; [exact Sh|split; [exact Ne|exact Logic.I]]|]. cbn [p_ctr weight snd fst]. lia. }
      cbv zeta in E. destruct (move3 _ _ _ _) as [x| | |].
      2,3,4: (match type of E with PStep ?q ?r = _ => assert (p' = q) as -> by congruence; assert (m' = r) as -> by congruence end;
        split; [split; [exact Sh|split; [exact Ne|exact Logic.I]]|]; cbn [p_ctr weight snd fst]; lia).
      match type of E with PStep ?q ?r = _ => assert (p' = q) as -> by congruence; assert (m' = r) as -> by congruence end.
      split; [split; [exact Sh|split; [exact Ne|]]|]; cbn [p_ctr weight snd fst]; [|lia].
      unfold shape. cbn [w_begin w_end w_split_end]. unfold w_size in B2. lia.
  Qed.

  Theorem room : forall s, reachable init s -> bad_plan \/ roomy s.
  Proof.
    intros s R. induction R as [|s s' R [B|(F & C)] St]; [right|left; exact B|].
    - assert (length aabbs <= M) as Ge by (unfold M, max_refs; lia).
      split; cbn [initial s_threads s_mem items flat_map th_items t_cur t_stack map app].
      + constructor; [|constructor]. split; [|split; [|exact Logic.I]]; unfold shape, spatial_root; cbn [fst w_begin w_end w_split_end]; fold M; lia.
      + unfold total. cbn [map list_sum fold_right]. unfold weight, spatial_root. cbn [fst snd w_begin w_split_end]. fold M.
        unfold spatial_start. cbn [p_ctr]. lia.
    - destruct (step_view _ _ St) as (x & rest & P & V).
      rewrite (total_perm _ _ P) in C. unfold roomy.
      assert (Forall item_ok (x ++ rest)) as F' by (eapply Permutation_Forall; [exact P|exact F]). apply Forall_app in F' as (Fx & Fr).
      destruct V as [(-> & -> & P')|[(t & -> & -> & P')|[(t & p & p' & -> & E & P' & Th)|[(t & -> & -> & P')|(t & a & b & -> & -> & P')]]]];
        rewrite (total_perm _ _ P').
      + right. split; [|exact C]. eapply Permutation_Forall; [symmetry; exact P'|]. auto.
      + right. split; [|exact C]. eapply Permutation_Forall; [symmetry; exact P'|]. inversion Fx as [|? ? H1 H2]; subst.
        constructor; [|auto]. exact H1.
      + inversion Fx as [|? ? H1 H2]; subst. change (total ([(t, Some p)] ++ rest)) with (weight (t, Some p) + total rest) in C.
        destruct (run_room s t p p' (s_mem s') R) as [B|(G1 & G2)]; [|exact Th|exact E|exact H1|lia|left; exact B|].
        { eapply Permutation_in; [symmetry; exact P|left; reflexivity]. }
        right. split; [eapply Permutation_Forall; [symmetry; exact P'|]; constructor; auto|].
        change (total ((t, Some p') :: rest)) with (weight (t, Some p') + total rest). lia.
      + right. split; [eapply Permutation_Forall; [symmetry; exact P'|]; auto|].
        change (total ([(t, Some (QRet None))] ++ rest)) with (weight (t, Some (QRet None)) + total rest) in C. lia.
      + inversion Fx as [|? ? H1 H2]; subst. destruct H1 as (_ & _ & Sa & Na & Sb & Nb & Wd). cbn [fst] in Wd.
        right. split; [eapply Permutation_Forall; [symmetry; exact P'|]; constructor; [split; [exact Sa|split; [exact Na|exact Logic.I]]|constructor; [split; [exact Sb|split; [exact Nb|exact Logic.I]]|auto]]|].
        change (total ([(t, Some (QRet (Some (a, b))))] ++ rest)) with (2 * (width t - 2) + total rest) in C.
        change (total ((a, None) :: (b, None) :: rest)) with (2 * (width a - 1) + (2 * (width b - 1) + total rest)).
        destruct Sa as (? & ? & ?), Sb as (? & ? & ?). lia.
  Qed.

  Theorem panic_source : forall s j t st subs, reachable init s -> nth_error (s_threads s) j = Some (Th (Some (t, QPanic)) st subs) -> bad_plan.
  Proof.
    intros s j t st subs R E. destruct (room s R) as [B|(F & _)]; auto. exfalso. rewrite Forall_forall in F.
    exact (proj2 (proj2 (F _ (thread_item _ _ _ _ _ _ E)))).
  Qed.
End Hist.
