(** * Property C72: transforming a box *)
Require Import List ZArith Bool Reals Lia Lra.
From Flocq Require Import Core BinarySingleNaN.
From Verif Require Import F32 F32Facts Vec RayModel AabbModel Base SpecGeom AabbProofs PropBox TriModel SpecTri TriProofs TriError
  SpecMeasure PropMeasure SpecTransform.
Import ListNotations.
Local Open Scope R_scope.

Lemma approx_weak : forall S x X c m c' m', scale S -> approx S x X c m -> c <= c' -> m <= m' -> approx S x X c' m'.
Proof.
  intros S x X c m c' m' [S1 _] (F & E & M) Lc Lm. pose proof ue_bounds. split; [auto|]. split.
  - eapply Rle_trans; [exact E|]. apply Rmult_le_compat_r; [lra|]. apply Rmult_le_compat_r; lra.
  - eapply Rle_trans; [exact M|]. apply Rmult_le_compat_r; lra.
Qed.
Lemma approx_m' : forall S x X c m m', approx S x X c m -> Rabs X <= m' * S -> approx S x X c m'.
Proof. intros S x X c m m' (F & E & M) L. split; auto. Qed.

Lemma fr_f0 : fr f0 = 0.
Proof. unfold fr, f0. simpl. reflexivity. Qed.
Lemma fr_f1 : fr f1 = 1.
Proof. unfold fr, f1, B2R, F2R; cbn [Fnum Fexp cond_Zopp bpow]. simpl. lra. Qed.

(** ** The corners *)
(** Along one axis: the lower bound, the upper bound, and the other ways
    [all_corners] computes them. *)
Definition side (s : R) (lo hi : f32) (up : bool) (x : f32) : Prop :=
  approx s x (fval (if up then hi else lo)) 7 1.

Section Axis.
  Variables (s : R) (lo hi : f32).
  Hypothesis (Hs : scale s) (Fl : fin lo) (Fh : fin hi) (Bl : Rabs (fval lo) <= s) (Bh : Rabs (fval hi) <= s).
  Let P : 0 < s := ltac:(destruct Hs; lra).
  Lemma side_lo : approx s lo (fval lo) 0 1.
  Proof. unfold fval in *. rewrite <- (fr_fin lo Fl) in *. apply approx_exact; auto. Qed.
  Lemma side_hi : approx s hi (fval hi) 0 1.
  Proof. unfold fval in *. rewrite <- (fr_fin hi Fh) in *. apply approx_exact; auto. Qed.
  Lemma side_0 : approx s f0 0 0 0.
  Proof. split; [reflexivity|]. rewrite fr_f0, Rminus_0_r, Rabs_R0. split; lra. Qed.
  Lemma side_len : approx s (fsub hi lo) (fval hi - fval lo) (201 / 100) 2.
  Proof. apply (approx_sub s _ _ _ _ 0 1 0 1); auto using side_lo, side_hi; lra. Qed.
  (** Adding zero, or the length. *)
  Lemma add_0 : forall x X c, approx s x X c 1 -> c <= 10 -> approx s (fadd x f0) X (c + 101 / 100) 1.
  Proof.
    intros x X c A L. pose proof (approx_c _ _ _ _ _ Hs A).
    replace X with (X + 0) by ring.
    apply (approx_add s x f0 X 0 c 1 0 0); [exact Hs|exact A|exact side_0|lra|lra|lra].
  Qed.
  Lemma add_len : forall x c, approx s x (fval lo) c 1 -> c <= 2 -> approx s (fadd x (fsub hi lo)) (fval hi) (c + 502 / 100) 1.
  Proof.
    intros x c A L. pose proof (approx_c _ _ _ _ _ Hs A).
    apply (approx_m' _ _ _ _ 3); [|lra].
    replace (fval hi) with (fval lo + (fval hi - fval lo)) by ring.
    apply (approx_add s x (fsub hi lo) _ _ c 1 (201 / 100) 2); [exact Hs|exact A|exact side_len|lra|lra|lra].
  Qed.
  Lemma ax_lo : side s lo hi false lo.
  Proof. eapply approx_weak; [exact Hs|exact side_lo|lra|lra]. Qed.
  Lemma ax_hi : side s lo hi true hi.
  Proof. eapply approx_weak; [exact Hs|exact side_hi|lra|lra]. Qed.
  Lemma ax_lo0 : side s lo hi false (fadd lo f0).
  Proof. eapply approx_weak; [exact Hs|apply add_0; [exact side_lo|lra]|lra|lra]. Qed.
  Lemma ax_lo00 : side s lo hi false (fadd (fadd lo f0) f0).
  Proof. eapply approx_weak; [exact Hs|apply add_0; [apply add_0; [exact side_lo|lra]|lra]|lra|lra]. Qed.
  Lemma ax_len : side s lo hi true (fadd lo (fsub hi lo)).
  Proof. eapply approx_weak; [exact Hs|apply add_len; [exact side_lo|lra]|lra|lra]. Qed.
  Lemma ax_0len : side s lo hi true (fadd (fadd lo f0) (fsub hi lo)).
  Proof. eapply approx_weak; [exact Hs|apply add_len; [apply add_0; [exact side_lo|lra]|lra]|lra|lra]. Qed.
  Lemma ax_len0 : side s lo hi true (fadd (fadd lo (fsub hi lo)) f0).
  Proof. eapply approx_weak; [exact Hs|apply add_0; [apply add_len; [exact side_lo|lra]|lra]|lra|lra]. Qed.
End Axis.

Definition at_corner (s : R) (b : aabb) (ux uy uz : bool) (c : vec3) : Prop :=
  side s (vx (bmin b)) (vx (bmax b)) ux (vx c) /\ side s (vy (bmin b)) (vy (bmax b)) uy (vy c) /\
  side s (vz (bmin b)) (vz (bmax b)) uz (vz c).

Lemma corners_at : forall s b, scale s -> sized s (bmin b) -> sized s (bmax b) ->
  (forall c, In c (all_corners b) -> exists ux uy uz, at_corner s b ux uy uz c) /\
  (forall ux uy uz, exists c, In c (all_corners b) /\ at_corner s b ux uy uz c).
Proof.
  intros s b Hs A B.
  destruct (A vx cx) as [Fx Bx], (A vy cy) as [Fy By], (A vz cz) as [Fz Bz].
  destruct (B vx cx) as [Gx Cx], (B vy cy) as [Gy Cy], (B vz cz) as [Gz Cz].
  assert (forall c, In c (all_corners b) -> exists ux uy uz, at_corner s b ux uy uz c) as K1.
  { intros c H. unfold all_corners, lengths in H. cbv zeta in H.
    destruct H as [<- | [<- | [<- | [<- | [<- | [<- | [<- | [<- | []]]]]]]]].
    - exists false, false, false. split; [|split]; apply ax_lo; auto.
    - exists true, true, true. split; [|split]; apply ax_hi; auto.
    - exists true, false, false. split; [apply ax_len; auto|]. split; apply ax_lo0; auto.
    - exists false, true, false. split; [apply ax_lo0; auto|]. split; [apply ax_len; auto|apply ax_lo0; auto].
    - exists false, false, true. split; [apply ax_lo0; auto|]. split; [apply ax_lo0; auto|apply ax_len; auto].
    - exists true, true, false. split; [apply ax_len0; auto|]. split; [apply ax_0len; auto|apply ax_lo00; auto].
    - exists true, false, true. split; [apply ax_len0; auto|]. split; [apply ax_lo00; auto|apply ax_0len; auto].
    - exists false, true, true. split; [apply ax_lo00; auto|]. split; [apply ax_len0; auto|apply ax_0len; auto]. }
  split; [exact K1|].
  intros ux uy uz.
  set (i := (match ux, uy, uz with false, false, false => 0 | true, true, true => 1 | true, false, false => 2 | false, true, false => 3
    | false, false, true => 4 | true, true, false => 5 | true, false, true => 6 | false, true, true => 7 end)%nat).
  exists (nth i (all_corners b) (bmin b)). split; [apply nth_In; subst i; destruct ux, uy, uz; simpl; lia|].
  subst i. destruct ux, uy, uz; (split; [|split]); cbn [nth all_corners];
    first [apply ax_lo; auto; fail|apply ax_hi; auto; fail|apply ax_lo0; auto; fail|apply ax_len; auto; fail|
           apply ax_lo00; auto; fail|apply ax_0len; auto; fail|apply ax_len0; auto; fail].
Qed.

(** ** The image of a corner *)
Section Map.
  Variables (s k : R) (m : mat4) (b : aabb).
  Hypothesis (Hs : 1 <= s <= 2 ^ 20) (Hk : 1 <= k <= 2 ^ 20) (E : entries k m).
  Hypothesis (A : sized s (bmin b)) (B : sized s (bmax b)).
  Lemma sc_s : scale s. Proof. apply (scale_le s 20 Hs). lia. Qed.
  Lemma sc_k : scale k. Proof. apply (scale_le k 20 Hk). lia. Qed.
  Lemma sc_ks : scale (k * s).
  Proof.
    apply (scale_le _ 40); [|lia]. split.
    - replace 1 with (1 * 1) by ring. apply Rmult_le_compat; lra.
    - rewrite <- p20_40. apply Rmult_le_compat; lra.
  Qed.
  Definition at_ (g : vec3 -> f32) (up : bool) : R := fval (g (if up then bmax b else bmin b)).
  Lemma image_approx : forall g row ux uy uz c, In (g, row) axes -> at_corner s b ux uy uz c ->
    approx (k * s) (g (transform_point m c)) (image m row (at_ vx ux) (at_ vy uy) (at_ vz uz)) 42 4.
  Proof.
    intros g row ux uy uz c H (X & Y & Z). pose proof sc_s as Ss. pose proof sc_k as Sk. pose proof sc_ks as Sks.
    assert (forall col, In col [mx m; my m; mz m; mw m] -> approx k (row col) (fval (row col)) 0 1) as Ec.
    { intros col Hc. destruct (E g row col H Hc) as [F L]. unfold fval in *. rewrite <- (fr_fin _ F) in *. apply approx_exact; auto. lra. }
    assert (forall col x X, In col [mx m; my m; mz m; mw m] -> approx s x X 7 1 ->
       approx (k * s) (fmul (row col) x) (fval (row col) * X) (801 / 100) 1) as Pr.
    { intros col x X0 Hc Ax. apply (approx_mul k s _ _ _ _ 0 1 7 1); auto; lra. }
    assert (approx s f1 1 7 1) as One.
    { split; [reflexivity|]. rewrite fr_f1, Rminus_diag_eq, Rabs_R0, Rabs_R1 by auto. pose proof ue_bounds. destruct Ss. split; [|lra].
      apply Rmult_le_pos; [|lra]. apply Rmult_le_pos; lra. }
    assert (forall w : f32, w = fadd (fadd (fadd (fmul (row (mx m)) (vx c)) (fmul (row (my m)) (vy c))) (fmul (row (mz m)) (vz c))) (fmul (row (mw m)) f1) ->
      approx (k * s) w (image m row (at_ vx ux) (at_ vy uy) (at_ vz uz)) 42 4) as G.
    { intros w ->. unfold image.
      assert (fval (row (mw m)) = fval (row (mw m)) * 1) as -> by ring.
      apply (approx_add (k * s) _ _ _ _ (2906 / 100) 3 (801 / 100) 1); [exact Sks| | |lra|lra|lra].
      - apply (approx_add (k * s) _ _ _ _ (1803 / 100) 2 (801 / 100) 1); [exact Sks| | |lra|lra|lra].
        + apply (approx_add (k * s) _ _ _ _ (801 / 100) 1 (801 / 100) 1); [exact Sks| | |lra|lra|lra].
          * apply Pr; [simpl; auto|]. destruct ux; exact X.
          * apply Pr; [simpl; auto|]. destruct uy; exact Y.
        + apply Pr; [simpl; auto|]. destruct uz; exact Z.
      - apply Pr; [simpl; auto|]. exact One. }
    assert (approx (k * s) (g (transform_point m c)) (image m row (at_ vx ux) (at_ vy uy) (at_ vz uz)) 42 4) as K.
    { apply G. destruct H as [H|[H|[H|[]]]]; injection H as <- <-; reflexivity. }
    exact K.
  Qed.
End Map.

(** ** The least box around points *)
Lemma fold_attained : forall g, coordinate g -> forall ps a, vok (bmin a) -> vok (bmax a) -> Forall vok ps ->
  (fr (g (bmin (fold_left grow ps a))) = fr (g (bmin a)) \/ exists p, In p ps /\ fr (g (bmin (fold_left grow ps a))) = fr (g p)) /\
  (fr (g (bmax (fold_left grow ps a))) = fr (g (bmax a)) \/ exists p, In p ps /\ fr (g (bmax (fold_left grow ps a))) = fr (g p)).
Proof.
  intros g Hg. assert (forall v, vok v -> notnan (g v)) as N by (intros v (N1 & N2 & N3); destruct Hg as [-> | [-> | ->]]; auto).
  induction ps as [|p ps IH]; intros a A B H; cbn [fold_left]; [split; auto|].
  inversion H as [|q qs Hp Hps]; subst.
  destruct (grow_ok a p (conj A B) Hp) as [A' B'].
  destruct (IH (grow a p) A' B' Hps) as [I1 I2].
  assert (g (bmin (grow a p)) = fmin (g (bmin a)) (g p)) as E1 by (destruct Hg as [-> | [-> | ->]]; reflexivity).
  assert (g (bmax (grow a p)) = fmax (g (bmax a)) (g p)) as E2 by (destruct Hg as [-> | [-> | ->]]; reflexivity).
  rewrite E1 in I1. rewrite E2 in I2. rewrite fr_fmin in I1 by auto. rewrite fr_fmax in I2 by auto.
  split.
  - destruct I1 as [I1|[q [Iq I1]]]; [|right; exists q; split; [right; auto|auto]].
    unfold Rmin in I1. destruct (Rle_dec (fr (g (bmin a))) (fr (g p))); [left; auto|right; exists p; split; [left; auto|auto]].
  - destruct I2 as [I2|[q [Iq I2]]]; [|right; exists q; split; [right; auto|auto]].
    unfold Rmax in I2. destruct (Rle_dec (fr (g (bmax a))) (fr (g p))); [right; exists p; split; [left; auto|auto]|left; auto].
Qed.

Lemma approx_pad : forall S x X c m c', scale S -> approx S x X c m -> c <= 100 -> m <= 100 -> c + m + 1 / 1000 <= c' ->
  approx S (fsub x f1em5) (X - fr f1em5) c' (m + 1) /\ approx S (fadd x f1em5) (X + fr f1em5) c' (m + 1).
Proof.
  intros S x X c m c' HS A Lc Lm L. pose proof fr_1em5 as P5. pose proof (approx_c _ _ _ _ _ HS A). pose proof (approx_m _ _ _ _ _ HS A).
  assert (approx S f1em5 (fr f1em5) 0 (1 / 50000)) as D.
  { split; [reflexivity|]. rewrite Rminus_diag_eq, Rabs_R0 by auto. destruct HS. split; [lra|]. rewrite Rabs_pos_eq by lra. lra. }
  split; [apply (approx_sub S _ _ _ _ c m 0 (1 / 50000))|apply (approx_add S _ _ _ _ c m 0 (1 / 50000))]; auto; lra.
Qed.

Section Box.
  Variables (S : R) (ps : list vec3).
  Hypothesis (HS : scale S) (S100 : S <= bpow radix2 40) (Hne : ps <> []).
  Hypothesis (Hv : forall g p, coordinate g -> In p ps -> approx S (g p) (fr (g p)) 0 5).
  Lemma ps_ok : Forall vok ps.
  Proof. apply Forall_forall. intros p I. split; [|split]; apply fin_notnan; [destruct (Hv vx p cx I)|destruct (Hv vy p cy I)|destruct (Hv vz p cz I)]; auto. Qed.
  Lemma fr_1e34 : 9 * bpow radix2 100 <= fr f1e34 <= bpow radix2 120.
  Proof. unfold fr, f1e34, B2R, F2R; cbn [Fnum Fexp cond_Zopp]. replace (bpow radix2 100) with (bpow radix2 89 * 2048) by (change 100%Z with (89 + 11)%Z; rewrite bpow_plus; simpl; lra).
    change 120%Z with (89 + 31)%Z. rewrite bpow_plus. pose proof (bpow_gt_0 radix2 89). simpl (bpow radix2 31). split; [|]; (rewrite Rmult_comm || idtac); nra. Qed.
  Lemma value_small : forall g p, coordinate g -> In p ps -> Rabs (fr (g p)) <= bpow radix2 100.
  Proof.
    intros g p Hg I. eapply Rle_trans; [apply (approx_abs _ _ _ _ _ HS (Hv g p Hg I))|].
    apply Rle_trans with (8 * bpow radix2 40); [destruct HS; nra|].
    change 100%Z with (40 + 60)%Z. rewrite bpow_plus. pose proof (bpow_gt_0 radix2 40). rewrite Rmult_comm. apply Rmult_le_compat_l; simpl; lra.
  Qed.
  Definition face (g : vec3 -> f32) (up : bool) : f32 := g (if up then bmax (from_points ps) else bmin (from_points ps)).
  Lemma from_points_values : forall g, coordinate g ->
    (ffinite (face g false) /\ ffinite (face g true)) /\
    (forall p, In p ps -> fval (face g false) <= fr (g p) - fr f1em5 + 6 * ue * S /\ fr (g p) + fr f1em5 - 6 * ue * S <= fval (face g true)) /\
    (exists p, In p ps /\ fr (g p) - fr f1em5 - 6 * ue * S <= fval (face g false)) /\
    (exists p, In p ps /\ fval (face g true) <= fr (g p) + fr f1em5 + 6 * ue * S).
  Proof.
    intros g Hg. destruct (fold_attained g Hg ps aabb_new (proj1 aabb_new_ok) (proj2 aabb_new_ok) ps_ok) as [L U].
    destruct (fold_grow ps aabb_new aabb_new_ok ps_ok) as ([O1 O2] & _ & I3 & _).
    set (b := fold_left grow ps aabb_new) in *. rewrite Forall_forall in I3.
    assert (face g false = fsub (g (bmin b)) f1em5) as E0 by (unfold face, from_points, with_offset; fold b; destruct Hg as [-> | [-> | ->]]; reflexivity).
    assert (face g true = fadd (g (bmax b)) f1em5) as E1 by (unfold face, from_points, with_offset; fold b; destruct Hg as [-> | [-> | ->]]; reflexivity).
    assert (forall v, vok v -> notnan (g v)) as N by (intros v (N1 & N2 & N3); destruct Hg as [-> | [-> | ->]]; auto).
    assert (forall p, In p ps -> fr (g (bmin b)) <= fr (g p) /\ fr (g p) <= fr (g (bmax b))) as Bd.
    { intros p I. destruct (I3 p I) as [(A1 & A2 & A3) (B1 & B2 & B3)]. pose proof ps_ok as K. rewrite Forall_forall in K. specialize (K p I).
      destruct Hg as [-> | [-> | ->]]; split; apply fle_spec; auto; try apply (N _ O1); try apply (N _ O2); try apply (N _ K). }
    assert (fr (g (bmin aabb_new)) = fr f1e34 /\ fr (g (bmax aabb_new)) = - fr f1e34) as [Z1 Z2].
    { destruct (fr_neg f1e34 eq_refl) as [_ Q]. rewrite <- Q. destruct Hg as [-> | [-> | ->]]; split; reflexivity. }
    pose proof fr_1e34 as F34.
    destruct ps as [|p0 ps0] eqn:Eps; [contradiction|]. rewrite <- Eps in *.
    assert (In p0 ps) as I0 by (rewrite Eps; left; auto).
    pose proof (value_small g p0 Hg I0) as V0. apply Rabs_le_inv in V0. pose proof (bpow_gt_0 radix2 100) as P100.
    assert (exists p, In p ps /\ fr (g (bmin b)) = fr (g p)) as (pl & Il & El).
    { destruct L as [L|L]; auto. exfalso. destruct (Bd p0 I0) as [Q _]. rewrite L, Z1 in Q. lra. }
    assert (exists p, In p ps /\ fr (g (bmax b)) = fr (g p)) as (pu & Iu & Eu).
    { destruct U as [U|U]; auto. exfalso. destruct (Bd p0 I0) as [_ Q]. rewrite U, Z2 in Q. lra. }
    assert (forall x p, notnan x -> In p ps -> fr x = fr (g p) -> approx S x (fr (g p)) 0 5) as Sub.
    { intros x p Nx I E. destruct (Hv g p Hg I) as (F & G & M). split; [|rewrite E; auto].
      apply fin_of_fr; auto. rewrite E. eapply Rle_lt_trans; [apply value_small; auto|]. unfold BIG. apply bpow_lt. reflexivity. }
    pose proof (Sub _ pl (N _ O1) Il El) as Al. pose proof (Sub _ pu (N _ O2) Iu Eu) as Au.
    destruct (approx_pad S _ _ _ _ 6 HS Al) as [Pl _]; [lra|lra|lra|]. destruct (approx_pad S _ _ _ _ 6 HS Au) as [_ Pu]; [lra|lra|lra|].
    rewrite <- E0 in Pl. rewrite <- E1 in Pu.
    assert (fin (g (bmin b))) as Fb by apply Al. assert (fin (g (bmax b))) as Fb' by apply Au.
    destruct Pl as (Fl & Gl & _). destruct Pu as (Fu & Gu & _). rewrite (fr_fin _ Fl) in Gl. rewrite (fr_fin _ Fu) in Gu.
    apply Rabs_le_inv in Gl. apply Rabs_le_inv in Gu. unfold fval.
    split; [split; auto|]. split; [|split; [exists pl; split; auto; lra|exists pu; split; auto; lra]].
    intros p I. destruct (Bd p I) as [Q1 Q2].
    destruct (approx_pad S _ _ _ _ 6 HS (Hv g p Hg I)) as [Pl Pu]; [lra|lra|lra|].
    destruct Pl as (Fl' & Gl' & _). destruct Pu as (Fu' & Gu' & _). apply Rabs_le_inv in Gl'. apply Rabs_le_inv in Gu'.
    assert (fin (g p)) as Fp by apply (Hv g p Hg I).
    destruct (fr_fsub (g (bmin b)) f1em5 Fb eq_refl) as [_ R1]. destruct (fr_fsub (g p) f1em5 Fp eq_refl) as [_ R2].
    destruct (fr_fadd (g (bmax b)) f1em5 Fb' eq_refl) as [_ R3]. destruct (fr_fadd (g p) f1em5 Fp eq_refl) as [_ R4].
    assert (fr (face g false) <= fr (fsub (g p) f1em5)) as M1 by (rewrite E0, R1, R2; apply RN_mono; lra).
    assert (fr (fadd (g p) f1em5) <= fr (face g true)) as M2 by (rewrite E1, R3, R4; apply RN_mono; lra).
    rewrite (fr_fin _ Fl) in M1. rewrite (fr_fin _ Fu) in M2. split; lra.
  Qed.
End Box.

Section Transformed.
  Variables (s k : R) (m : mat4) (b : aabb).
  Hypothesis (Hs : 1 <= s <= 2 ^ 20) (Hk : 1 <= k <= 2 ^ 20) (E : entries k m).
  Hypothesis (A : sized s (bmin b)) (B : sized s (bmax b)).
  Let ps := map (transform_point m) (all_corners b).
  Lemma axes_coordinate : forall g row, In (g, row) axes -> coordinate g.
  Proof. intros g row [H|[H|[H|[]]]]; injection H as <- <-; [apply cx|apply cy|apply cz]. Qed.
  Lemma coordinate_axes : forall g, coordinate g -> exists row, In (g, row) axes.
  Proof. intros g [-> | [-> | ->]]; eexists; unfold axes; simpl; eauto. Qed.
  Lemma ps_approx : forall g p, coordinate g -> In p ps -> approx (k * s) (g p) (fr (g p)) 0 5.
  Proof.
    intros g p Hg I. apply in_map_iff in I. destruct I as (c & <- & Ic).
    destruct (corners_at s b (sc_s s Hs) A B) as [K _]. destruct (K c Ic) as (ux & uy & uz & H).
    destruct (coordinate_axes g Hg) as [row Hr].
    pose proof (image_approx s k m b Hs Hk E g row ux uy uz c Hr H) as G.
    pose proof (approx_abs _ _ _ _ _ (sc_ks s k Hs Hk) G) as L. destruct (sc_ks s k Hs Hk) as [S1 _].
    split; [apply G|]. rewrite Rminus_diag_eq, Rabs_R0 by auto. split; lra.
  Qed.
  Lemma ks_40 : k * s <= bpow radix2 40.
  Proof. replace (bpow radix2 40) with (2 ^ 20 * 2 ^ 20) by (simpl; lra). apply Rmult_le_compat; lra. Qed.
  Lemma trans_values : forall g row, In (g, row) axes ->
    let lo := g (bmin (transformed b m)) in let hi := g (bmax (transformed b m)) in
    (ffinite lo /\ ffinite hi) /\
    (forall x y z, real_in b x y z ->
      fval lo <= image m row x y z - fr f1em5 + 48 * ue * (k * s) /\
      image m row x y z + fr f1em5 - 48 * ue * (k * s) <= fval hi) /\
    (exists ux uy uz, image m row (at_ b vx ux) (at_ b vy uy) (at_ b vz uz) - fr f1em5 - 48 * ue * (k * s) <= fval lo) /\
    (exists ux uy uz, fval hi <= image m row (at_ b vx ux) (at_ b vy uy) (at_ b vz uz) + fr f1em5 + 48 * ue * (k * s)).
  Proof.
    intros g row Hr. cbv zeta. pose proof (axes_coordinate g row Hr) as Hg.
    assert (ps <> []) as Ne by (subst ps; unfold all_corners; discriminate).
    destruct (from_points_values (k * s) ps (sc_ks s k Hs Hk) ks_40 Ne ps_approx g Hg) as (F & C & (pl & Il & Cl) & (pu & Iu & Cu)).
    change (face ps g false) with (g (bmin (transformed b m))) in *. change (face ps g true) with (g (bmax (transformed b m))) in *.
    destruct (corners_at s b (sc_s s Hs) A B) as [K1 K2].
    assert (forall ux uy uz c, In c (all_corners b) -> at_corner s b ux uy uz c ->
      Rabs (fr (g (transform_point m c)) - image m row (at_ b vx ux) (at_ b vy uy) (at_ b vz uz)) <= 42 * ue * (k * s)) as G.
    { intros ux uy uz c Ic H. apply (image_approx s k m b Hs Hk E g row ux uy uz c Hr H). }
    split; [exact F|]. split; [|split].
    - intros x y z (X & Y & Z).
      set (up := fun (a : f32) (low : bool) => if Rle_dec 0 (fval a) then negb low else low).
      assert (forall (a lo hi : f32) t, fval lo <= t <= fval hi ->
        fval a * fval (if up a true then hi else lo) <= fval a * t <= fval a * fval (if up a false then hi else lo)) as Mono.
      { intros a lo hi t [T1 T2]. unfold up. destruct (Rle_dec 0 (fval a)) as [P|P]; cbn [negb]; split.
        1, 2: apply Rmult_le_compat_l; lra.
        all: apply Rmult_le_compat_neg_l; lra. }
      assert (forall low, image m row (at_ b vx (up (row (mx m)) low)) (at_ b vy (up (row (my m)) low)) (at_ b vz (up (row (mz m)) low)) =
         fval (row (mx m)) * fval (if up (row (mx m)) low then vx (bmax b) else vx (bmin b)) +
         fval (row (my m)) * fval (if up (row (my m)) low then vy (bmax b) else vy (bmin b)) +
         fval (row (mz m)) * fval (if up (row (mz m)) low then vz (bmax b) else vz (bmin b)) + fval (row (mw m))) as Im.
      { intro low. unfold image, at_. destruct (up (row (mx m)) low), (up (row (my m)) low), (up (row (mz m)) low); reflexivity. }
      destruct (Mono (row (mx m)) _ _ _ X) as [X1 X2]. destruct (Mono (row (my m)) _ _ _ Y) as [Y1 Y2]. destruct (Mono (row (mz m)) _ _ _ Z) as [Z1 Z2].
      pose proof (Im true) as I1. pose proof (Im false) as I2.
      assert (forall low, exists c, In c (all_corners b) /\ at_corner s b (up (row (mx m)) low) (up (row (my m)) low) (up (row (mz m)) low) c) as Cn
        by (intro low; apply K2).
      destruct (Cn true) as (c1 & J1 & H1). destruct (Cn false) as (c2 & J2 & H2).
      pose proof (G _ _ _ _ J1 H1) as G1. pose proof (G _ _ _ _ J2 H2) as G2. apply Rabs_le_inv in G1. apply Rabs_le_inv in G2.
      destruct (C (transform_point m c1) (in_map _ _ _ J1)) as [D1 _]. destruct (C (transform_point m c2) (in_map _ _ _ J2)) as [_ D2].
      rewrite I1 in G1. rewrite I2 in G2. unfold image. split; lra.
    - apply in_map_iff in Il. destruct Il as (c & <- & Ic). destruct (K1 c Ic) as (ux & uy & uz & H). exists ux, uy, uz.
      pose proof (G _ _ _ _ Ic H) as G1. apply Rabs_le_inv in G1. lra.
    - apply in_map_iff in Iu. destruct Iu as (c & <- & Ic). destruct (K1 c Ic) as (ux & uy & uz & H). exists ux, uy, uz.
      pose proof (G _ _ _ _ Ic H) as G1. apply Rabs_le_inv in G1. lra.
  Qed.
End Transformed.

Lemma ue_48 : forall q, 48 * ue * q = 48 * q / 2 ^ 24.
Proof. intro q. unfold ue. simpl. lra. Qed.

(** ** C72 *)

(** The exact image of every point of the box -- not only of its corners --
    under the affine part of the matrix is inside the transformed box, up to
    48 rounding units of the largest possible product; the padding of 1e-5
    counts in its favour. *)
Theorem C72_encloses : forall b m s k, 1 <= s <= 2 ^ 20 -> 1 <= k <= 2 ^ 20 ->
  sized s (bmin b) -> sized s (bmax b) -> entries k m ->
  box_finite (transformed b m) /\
  forall g row x y z, In (g, row) axes -> real_in b x y z ->
    fval (g (bmin (transformed b m))) + 1 / 100001 - 48 * (k * s) / 2 ^ 24 <= image m row x y z <=
    fval (g (bmax (transformed b m))) - 1 / 100001 + 48 * (k * s) / 2 ^ 24.
Proof.
  intros b m s k Hs Hk A B E. pose proof fr_1em5 as P5.
  assert (forall g row, In (g, row) axes -> ffinite (g (bmin (transformed b m))) /\ ffinite (g (bmax (transformed b m)))) as F
    by (intros g row Hr; apply (trans_values s k m b Hs Hk E A B g row Hr)).
  split.
  - destruct (F vx wx) as [F1 F2]; [simpl; auto|]. destruct (F vy wy) as [F3 F4]; [simpl; auto|]. destruct (F vz wz) as [F5 F6]; [simpl; auto|].
    repeat split; auto.
  - intros g row x y z Hr In. destruct (trans_values s k m b Hs Hk E A B g row Hr) as (_ & C & _).
    destruct (C x y z In) as [C1 C2]. rewrite !ue_48 in *. split; lra.
Qed.

(** So if entries and coordinates are so small that their products are at most
    3, it is inside without any allowance, and strictly. *)
Theorem C72_strictly : forall b m s k, 1 <= s -> 1 <= k -> k * s <= 3 ->
  sized s (bmin b) -> sized s (bmax b) -> entries k m ->
  forall g row x y z, In (g, row) axes -> real_in b x y z ->
    fval (g (bmin (transformed b m))) < image m row x y z < fval (g (bmax (transformed b m))).
Proof.
  intros b m s k Hs Hk L A B E g row x y z Hr Hi.
  assert (1 <= s <= 2 ^ 20 /\ 1 <= k <= 2 ^ 20) as [Hs' Hk'].
  { assert (3 <= 2 ^ 20) by (simpl; lra). assert (s <= k * s) by nra. assert (k <= k * s) by nra. lra. }
  destruct (C72_encloses b m s k Hs' Hk' A B E) as [_ C]. specialize (C g row x y z Hr Hi). 
  assert (48 * (k * s) / 2 ^ 24 < 1 / 100001) by (simpl; lra). lra.
Qed.

(** And it is no larger than that: each of its faces is that near (and nearer
    than the padding) to the image of a corner of the box. *)
Theorem C72_tight : forall b m s k, 1 <= s <= 2 ^ 20 -> 1 <= k <= 2 ^ 20 ->
  sized s (bmin b) -> sized s (bmax b) -> vle (bmin b) (bmax b) -> entries k m ->
  forall g row, In (g, row) axes ->
  (exists x y z, real_in b x y z /\
     image m row x y z <= fval (g (bmin (transformed b m))) + 1 / 99999 + 48 * (k * s) / 2 ^ 24) /\
  (exists x y z, real_in b x y z /\
     fval (g (bmax (transformed b m))) <= image m row x y z + 1 / 99999 + 48 * (k * s) / 2 ^ 24).
Proof.
  intros b m s k Hs Hk A B V E g row Hr. pose proof fr_1em5 as P5.
  destruct (trans_values s k m b Hs Hk E A B g row Hr) as (_ & _ & (ux & uy & uz & L) & (vx' & vy' & vz' & U)).
  assert (forall h up, coordinate h -> fval (h (bmin b)) <= at_ b h up <= fval (h (bmax b))) as In1.
  { intros h up Hh. destruct (A h Hh) as [F1 _]. destruct (B h Hh) as [F2 _].
    assert (fval (h (bmin b)) <= fval (h (bmax b))) as Le.
    { unfold fval. rewrite <- (fr_fin _ F1), <- (fr_fin _ F2). apply fle_spec; [apply fin_notnan; exact F1|apply fin_notnan; exact F2|].
      destruct V as (V1 & V2 & V3). destruct Hh as [-> | [-> | ->]]; auto. }
    unfold at_. destruct up; lra. }
  rewrite !ue_48 in *.
  split.
  - exists (at_ b vx ux), (at_ b vy uy), (at_ b vz uz). split; [|lra]. split; [|split]; apply In1; [apply cx|apply cy|apply cz].
  - exists (at_ b vx vx'), (at_ b vy vy'), (at_ b vz vz'). split; [|lra]. split; [|split]; apply In1; [apply cx|apply cy|apply cz].
Qed.

(** A box of size 2 turned by 45 degrees about z (entries 0.7071068, rounded)
    and moved. *)
Definition f_r2 : f32 := fdiv (f_of_Z 7071068) (f_of_Z 10000000).
Definition turn : mat4 := Mat (V4 f_r2 f_r2 f0 f0) (V4 (fneg f_r2) f_r2 f0 f0) (V4 f0 f0 f1 f0) (V4 f1 f0 f0 f1).
Example C72_nonvacuous : let b := bx (-1) (-1) 0 1 1 1 in
  sized 1 (bmin b) /\ sized 1 (bmax b) /\ vle (bmin b) (bmax b) /\ entries 1 turn /\ 1 * 1 <= 3 /\ real_in b (1 / 2) 0 (1 / 3) /\
  flt (vx (bmax (transformed b turn))) (fz 2) = false /\ flt (vx (bmax (transformed b turn))) (fz 3) = true.
Proof.
  cbv zeta.
  assert (forall x : f32, (ffinite x /\ fle (fneg f1) x = true /\ fle x f1 = true) -> ffinite x /\ Rabs (fval x) <= 1) as W.
  { intros x (F & L & U). split; auto. destruct (fr_neg f1 eq_refl) as [N1 E1].
    apply fle_spec in L; [|exact N1|apply fin_notnan; exact F]. apply fle_spec in U; [|apply fin_notnan; exact F|reflexivity].
    rewrite E1 in L. rewrite fr_f1 in *. unfold fval. rewrite <- (fr_fin x F). apply Rabs_le. lra. }
  split; [|split; [|split; [|split; [|split; [lra|split; [|split; vm_compute; reflexivity]]]]]].
  - intros g [-> | [-> | ->]]; apply W; repeat split; vm_compute; reflexivity.
  - intros g [-> | [-> | ->]]; apply W; repeat split; vm_compute; reflexivity.
  - repeat split; vm_compute; reflexivity.
  - intros g row col [H|[H|[H|[]]]] Hc; injection H as <- <-;
      (destruct Hc as [<- | [<- | [<- | [<- | []]]]]; apply W; repeat split; vm_compute; reflexivity).
  - repeat split; cbn [bx bmin bmax vx vy vz]; unfold fval, fz, B2R, F2R; cbn; lra.
Qed.
