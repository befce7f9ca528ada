(** * The box tests are monotone: what passes the test of a box passes the
    test of every box around it *)
Require Import List ZArith Bool Arith Lia Permutation Reals Lra.
From Flocq Require Import Core BinarySingleNaN.
From Verif Require Import F32 F32Facts Vec RayModel Base AabbModel NodeModel MbvhModel SpecGeom SpecSlab SpecTree SpecTraverse SpecMbvh
  AabbProofs SlabProofs Slab4Proofs PropBox.
Import ListNotations.
Local Open Scope R_scope.

(** ** One plane *)

Definition plane (x o i : f32) : f32 := fmul (fsub x o) i.

Lemma fmul_mono : forall x y i : f32, notnan x -> notnan y -> fin i -> 0 < fr i -> fr x <= fr y ->
  notnan (fmul x i) /\ notnan (fmul y i) /\ fr (fmul x i) <= fr (fmul y i).
Proof.
  intros x y i Nx Ny Fi Pi L. pose proof BIG_pos. pose proof bpow128_lt_BIG.
  assert (Bsign i = false) as Si.
  { destruct (Bsign_B2R i Fi) as [A _]. destruct (Bsign i); auto. specialize (A eq_refl). rewrite fr_fin in Pi by auto. lra. }
  assert (forall z : f32, notnan z -> is_finite z = false ->
     (z = B754_infinity true \/ z = B754_infinity false) /\ fmul z i = z) as I.
  { intros [|s| |] N F; try discriminate. split; [destruct s; auto|]. 
    destruct i as [s'|s'| |s' m e E]; try discriminate; cbn [Bsign] in Si; subst s'.
    - exfalso. unfold fr in Pi. cbn in Pi. lra.
    - destruct s; reflexivity. }
  destruct (is_finite x) eqn:Fx; destruct (is_finite y) eqn:Fy.
  - destruct (fr_fmul x i Fx Fi) as [N1 E1], (fr_fmul y i Fy Fi) as [N2 E2].
    split; auto. split; auto. rewrite E1, E2. apply RN_mono. apply Rmult_le_compat_r; lra.
  - destruct (I y Ny Fy) as [D E]. rewrite E. destruct (fr_fmul x i Fx Fi) as [N1 E1].
    split; auto. split; auto. pose proof (fr_bound (fmul x i)). pose proof (fin_fr_lt x Fx) as Q.
    destruct D as [-> | ->]; simpl in *; [|lra]. apply Rabs_lt_inv in Q. lra.
  - destruct (I x Nx Fx) as [D E]. rewrite E. destruct (fr_fmul y i Fy Fi) as [N1 E1].
    split; auto. split; auto. pose proof (fr_bound (fmul y i)). pose proof (fin_fr_lt y Fy) as Q.
    destruct D as [-> | ->]; simpl in *; [lra|]. apply Rabs_lt_inv in Q. lra.
  - destruct (I x Nx Fx) as [_ ->], (I y Ny Fy) as [_ ->]. auto.
Qed.

Lemma fmul_anti : forall x y i : f32, notnan x -> notnan y -> fin i -> fr i < 0 -> fr x <= fr y ->
  notnan (fmul x i) /\ notnan (fmul y i) /\ fr (fmul y i) <= fr (fmul x i).
Proof.
  intros x y i Nx Ny Fi Pi L. pose proof BIG_pos. pose proof bpow128_lt_BIG.
  assert (Bsign i = true) as Si.
  { destruct (Bsign_B2R i Fi) as [_ A]. destruct (Bsign i); auto. specialize (A eq_refl). rewrite fr_fin in Pi by auto. lra. }
  assert (forall z : f32, notnan z -> is_finite z = false ->
     exists s, z = B754_infinity s /\ fmul z i = B754_infinity (negb s)) as I.
  { intros [|s| |] N F; try discriminate. exists s. split; auto.
    destruct i as [s'|s'| |s' m e E]; try discriminate; cbn [Bsign] in Si; subst s'.
    - exfalso. unfold fr in Pi. cbn in Pi. lra.
    - destruct s; reflexivity. }
  destruct (is_finite x) eqn:Fx; destruct (is_finite y) eqn:Fy.
  - destruct (fr_fmul x i Fx Fi) as [N1 E1], (fr_fmul y i Fy Fi) as [N2 E2].
    split; auto. split; auto. rewrite E1, E2. apply RN_mono. nra.
  - destruct (I y Ny Fy) as (s & D & E). rewrite E. destruct (fr_fmul x i Fx Fi) as [N1 E1].
    split; auto. split; auto. pose proof (fr_bound (fmul x i)). pose proof (fin_fr_lt x Fx) as Q.
    subst y. destruct s; simpl in *; [|lra]. apply Rabs_lt_inv in Q. lra.
  - destruct (I x Nx Fx) as (s & D & E). rewrite E. destruct (fr_fmul y i Fy Fi) as [N1 E1].
    split; auto. split; auto. pose proof (fr_bound (fmul y i)). pose proof (fin_fr_lt y Fy) as Q.
    subst x. destruct s; simpl in *; [lra|]. apply Rabs_lt_inv in Q. lra.
  - destruct (I x Nx Fx) as (s & -> & ->), (I y Ny Fy) as (s' & -> & ->). split; auto. split; auto.
    destruct s, s'; simpl in *; lra.
Qed.

(** ** One axis *)

(** [lo, hi] inside [lo', hi'] along an axis: the planes of the outer box are
    met earlier on the near side and later on the far side. *)
Lemma axis_mono : forall lo hi lo' hi' o d : f32, notnan lo -> notnan hi ->
  fle lo' lo = true -> fle hi hi' = true -> fin o -> axis_fine lo hi o d ->
  let i := fdiv f1 d in
  let s := flt d f0 in
  let N := plane (if s then hi else lo) o i in let F := plane (if s then lo else hi) o i in
  let N' := plane (if s then hi' else lo') o i in let F' := plane (if s then lo' else hi') o i in
  notnan N /\ notnan F /\ notnan N' /\ notnan F' /\ fr N' <= fr N /\ fr F <= fr F' /\
  (fle lo hi = true -> fr N <= fr F).
Proof.
  intros lo hi lo' hi' o d Nl Nh L H Fo A i s N F N' F'.
  destruct (fle_notnan _ _ L) as [Nl' _]. destruct (fle_notnan _ _ H) as [_ Nh'].
  pose proof L as Ls. apply fle_spec in L; auto. pose proof H as Hs. apply fle_spec in H; auto.
  destruct A as [Dn|(-> & A1 & A2)].
  - destruct (inv_facts d Dn) as (Fi & Zd & e & He & Ei). fold i in Fi, Ei. pose proof ue_bounds. apply Rabs_le_inv in He.
    assert (notnan d) as Nd by (destruct Dn as [Fd _]; apply fin_notnan; exact Fd).
    destruct (fsub_mono lo' lo o Nl' Nl Fo L) as (P1 & P2 & P3). destruct (fsub_mono hi hi' o Nh Nh' Fo H) as (Q1 & Q2 & Q3).
    assert (s = true /\ fr i < 0 \/ s = false /\ 0 < fr i) as [[Es Pi]|[Es Pi]].
    { destruct (Rtotal_order (fr d) 0) as [B|[B|B]]; [left|lra|right]; rewrite Ei.
      - split; [apply flt_spec; auto; reflexivity|]. assert (/ fr d < 0) by (apply Rinv_lt_0_compat; auto). nra.
      - split; [apply flt_false; auto; change (fr f0) with 0; lra|]. assert (0 < / fr d) by (apply Rinv_0_lt_compat; auto). nra. }
    + destruct (fmul_anti _ _ i P1 P2 Fi Pi P3) as (a1 & a2 & a3). destruct (fmul_anti _ _ i Q1 Q2 Fi Pi Q3) as (b1 & b2 & b3).
      unfold N, F, N', F', plane. rewrite Es. repeat (split; [assumption|]).
      intro V. apply fle_spec in V; auto. destruct (fsub_mono lo hi o Nl Nh Fo V) as (c1 & c2 & c3).
      apply (fmul_anti _ _ i c1 c2 Fi Pi c3).
    + destruct (fmul_mono _ _ i P1 P2 Fi Pi P3) as (a1 & a2 & a3). destruct (fmul_mono _ _ i Q1 Q2 Fi Pi Q3) as (b1 & b2 & b3).
      unfold N, F, N', F', plane. rewrite Es. repeat (split; [assumption|]).
      intro V. apply fle_spec in V; auto. destruct (fsub_mono lo hi o Nl Nh Fo V) as (c1 & c2 & c3).
      apply (fmul_mono _ _ i c1 c2 Fi Pi c3).
  - change s with false in N, F, N', F'. cbv iota in N, F, N', F'.
    change i with (B754_infinity false : f32) in N, F, N', F'.
    assert (forall x : f32, notnan x -> fr x < fr o -> plane x o (B754_infinity false) = B754_infinity true) as Lo.
    { intros x Nx Lx. unfold plane. destruct (fsub_mono x o o Nx (fin_notnan _ Fo) Fo ltac:(lra)) as (M1 & _ & _).
      assert (fr (fsub x o) < 0) as M.
      { destruct (is_finite x) eqn:Fx; [apply fsub_neg; auto|].
        assert (fsub x o = x) as -> by (destruct x as [|b| |]; try discriminate; destruct o; try discriminate; reflexivity).
        destruct x as [|[]| |]; try discriminate; simpl in *; pose proof BIG_pos; [lra|].
        pose proof (fr_bound o). lra. }
      rewrite mul_inf by (auto; lra). rewrite Rlt_bool_true by auto. reflexivity. }
    assert (forall x : f32, notnan x -> fr o < fr x -> plane x o (B754_infinity false) = B754_infinity false) as Hi.
    { intros x Nx Lx. unfold plane. destruct (fsub_mono o x o (fin_notnan _ Fo) Nx Fo ltac:(lra)) as (_ & M1 & _).
      assert (0 < fr (fsub x o)) as M.
      { destruct (is_finite x) eqn:Fx.
        - destruct (fr_fsub x o Fx Fo) as [_ E]. destruct (fr_fsub o x Fo Fx) as [_ E']. pose proof (fsub_neg o x Fo Fx Lx) as Q.
          rewrite E' in Q. replace (fr o - fr x) with (- (fr x - fr o)) in Q by ring. rewrite RN_opp in Q. rewrite E. lra.
        - assert (fsub x o = x) as -> by (destruct x as [|b| |]; try discriminate; destruct o; try discriminate; reflexivity).
          destruct x as [|[]| |]; try discriminate; simpl in *; pose proof BIG_pos; [|lra].
          pose proof (fr_bound o). lra. }
      rewrite mul_inf by (auto; lra). rewrite Rlt_bool_false by lra. reflexivity. }
    apply flt_spec in A1; auto using fin_notnan. apply flt_spec in A2; auto using fin_notnan.
    unfold N, F, N', F'. rewrite (Lo lo), (Lo lo'), (Hi hi), (Hi hi') by (auto; lra).
    pose proof BIG_pos. simpl. repeat (split; [first [reflexivity|lra]|]). intros _. lra.
Qed.

(** ** The binary test *)

Definition hi2 (a b : f32) : f32 := if flt a b then b else a.
Definition lo2 (a b : f32) : f32 := if flt b a then b else a.
Definition slab_test (N1 F1 N2 F2 N3 F3 tmin : f32) : option f32 :=
  if fgt N1 F2 || fgt N2 F1 then None else
  let ray_min := hi2 N1 N2 in
  let ray_max := lo2 F1 F2 in
  if fgt ray_min F3 || fgt N3 ray_max then None else
  let ray_max := lo2 ray_max F3 in
  if fgt ray_max tmin then Some ray_max else None.

Lemma slab_test_mono : forall N1 F1 N2 F2 N3 F3 N1' F1' N2' F2' N3' F3' tmin x,
  notnan N1 -> notnan F1 -> notnan N2 -> notnan F2 -> notnan N3 -> notnan F3 ->
  notnan N1' -> notnan F1' -> notnan N2' -> notnan F2' -> notnan N3' -> notnan F3' -> notnan tmin ->
  fr N1' <= fr N1 -> fr F1 <= fr F1' -> fr N2' <= fr N2 -> fr F2 <= fr F2' -> fr N3' <= fr N3 -> fr F3 <= fr F3' ->
  slab_test N1 F1 N2 F2 N3 F3 tmin = Some x ->
  exists y, slab_test N1' F1' N2' F2' N3' F3' tmin = Some y /\ fle x y = true.
Proof.
  intros N1 F1 N2 F2 N3 F3 N1' F1' N2' F2' N3' F3' tmin x n1 f1' n2 f2' n3 f3' m1 g1 m2 g2 m3 g3 nt L1 U1 L2 U2 L3 U3 E.
  assert (forall u v, fgt u v = flt v u) as Fg by reflexivity. unfold slab_test in *. cbv zeta in E |- *. rewrite !Fg in E |- *.
  destruct (flt F2 N1) eqn:A1; [cbn [orb] in E; discriminate E|]. destruct (flt F1 N2) eqn:A2; [cbn [orb] in E; discriminate E|]. cbn [orb] in E.
  apply flt_false in A1; auto. apply flt_false in A2; auto.
  set (mn := hi2 N1 N2) in *. set (mx := lo2 F1 F2) in *.
  assert (notnan mn /\ fr N1 <= fr mn /\ fr N2 <= fr mn /\ (mn = N1 \/ mn = N2)) as (Nm & M1 & M2 & M3).
  { unfold mn, hi2, lo2. destruct (flt N1 N2) eqn:B; [apply flt_spec in B|apply flt_false in B]; auto; repeat split; auto; lra. }
  assert (notnan mx /\ fr mx <= fr F1 /\ fr mx <= fr F2) as (Nx & X1 & X2).
  { unfold mx, hi2, lo2. destruct (flt F2 F1) eqn:B; [apply flt_spec in B|apply flt_false in B]; auto; repeat split; auto; lra. }
  destruct (flt F3 mn) eqn:A3; [cbn [orb] in E; discriminate E|]. destruct (flt mx N3) eqn:A4; [cbn [orb] in E; discriminate E|]. cbn [orb] in E.
  apply flt_false in A3; auto. apply flt_false in A4; auto.
  set (fx := lo2 mx F3) in *.
  assert (notnan fx /\ fr fx <= fr F3 /\ fr fx <= fr mx /\ (fx = F3 \/ fx = mx)) as (Nf & Y1 & Y2 & Y3).
  { unfold fx, hi2, lo2. destruct (flt F3 mx) eqn:B; [apply flt_spec in B|apply flt_false in B]; auto; repeat split; auto; lra. }
  destruct (flt tmin fx) eqn:A5; [|discriminate E]. assert (x = fx) as -> by congruence. apply flt_spec in A5; auto.
  assert (flt F2' N1' = false) as -> by (apply flt_false; auto; lra).
  assert (flt F1' N2' = false) as -> by (apply flt_false; auto; lra). cbn [orb].
  set (mn' := hi2 N1' N2') in *. set (mx' := lo2 F1' F2') in *.
  assert (notnan mn' /\ (mn' = N1' \/ mn' = N2')) as (Nm' & M3') by (unfold mn', hi2, lo2; destruct (flt N1' N2'); auto).
  assert (notnan mx' /\ (mx' = F1' \/ mx' = F2')) as (Nx' & X3') by (unfold mx', hi2, lo2; destruct (flt F2' F1'); auto).
  assert (fr mn' <= fr mn) as Lm by (destruct M3' as [-> | ->]; lra).
  assert (fr mx <= fr mx') as Lx by (destruct X3' as [-> | ->]; lra).
  assert (flt F3' mn' = false) as -> by (apply flt_false; auto; lra).
  assert (flt mx' N3' = false) as -> by (apply flt_false; auto; lra). cbn [orb].
  set (fx' := lo2 mx' F3') in *.
  assert (notnan fx' /\ fr fx <= fr fx') as (Nf' & Lf) by (unfold fx', hi2, lo2; destruct (flt F3' mx'); split; auto; lra).
  assert (flt tmin fx' = true) as -> by (apply flt_spec; auto; lra).
  exists fx'. split; auto. apply fle_spec; auto.
Qed.

Lemma sel_index : forall (s : bool) (b : aabb) (f : vec3 -> f32),
  f (bb_index b s) = (if s then f (bmax b) else f (bmin b)) /\ f (bb_index b (negb s)) = (if s then f (bmin b) else f (bmax b)).
Proof. intros [] b f; auto. Qed.

Section Boxes.
  Variables (a b : aabb) (o d : vec3).
  Hypothesis Ha : box_ok a.
  Hypothesis Hab : box_in a b.
  Hypothesis Ho : vfinite o.
  Hypothesis Hf : axes_fine a o d.

  Let near (x : aabb) (f : vec3 -> f32) : f32 := plane (if flt (f d) f0 then f (bmax x) else f (bmin x)) (f o) (fdiv f1 (f d)).
  Let far (x : aabb) (f : vec3 -> f32) : f32 := plane (if flt (f d) f0 then f (bmin x) else f (bmax x)) (f o) (fdiv f1 (f d)).

  Lemma axes_mono : forall f, (f = vx \/ f = vy \/ f = vz) ->
    notnan (near a f) /\ notnan (far a f) /\ notnan (near b f) /\ notnan (far b f) /\
    fr (near b f) <= fr (near a f) /\ fr (far a f) <= fr (far b f) /\
    (fle (f (bmin a)) (f (bmax a)) = true -> fr (near a f) <= fr (far a f)).
  Proof.
    destruct Ha as [(a1 & a2 & a3) (a4 & a5 & a6)], Hab as [(b1 & b2 & b3) (b4 & b5 & b6)], Ho as (o1 & o2 & o3), Hf as (c1 & c2 & c3).
    intros f [-> |[-> | ->]]; unfold near, far; apply axis_mono; auto.
  Qed.

  Lemma ray_slab : forall x t0, intersect x (ray_set_t (ray_new o d) t0) =
    slab_test (near x vx) (far x vx) (near x vy) (far x vy) (near x vz) (far x vz) f1em4.
  Proof.
    intros x t0. unfold intersect, slab_test. cbn [r_origin r_inv r_sx r_sy r_sz r_tmin ray_set_t ray_new vdivs vx vy vz]. cbv zeta.
    unfold near, far, plane.
    destruct (flt (vx d) f0), (flt (vy d) f0), (flt (vz d) f0); reflexivity.
  Qed.

  Lemma intersect_mono : forall t0 x, intersect a (ray_set_t (ray_new o d) t0) = Some x ->
    exists y, intersect b (ray_set_t (ray_new o d) t0) = Some y /\ fle x y = true.
  Proof.
    intros t0 x E. rewrite ray_slab in *.
    destruct (axes_mono vx) as (p1 & p2 & p3 & p4 & p5 & p6 & _); auto.
    destruct (axes_mono vy) as (q1 & q2 & q3 & q4 & q5 & q6 & _); auto.
    destruct (axes_mono vz) as (r1 & r2 & r3 & r4 & r5 & r6 & _); auto.
    apply (slab_test_mono (near a vx) (far a vx) (near a vy) (far a vy) (near a vz) (far a vz)); auto.
  Qed.

  Lemma intersects_mono : forall t0, intersects a (ray_set_t (ray_new o d) t0) = true -> intersects b (ray_set_t (ray_new o d) t0) = true.
  Proof.
    intros t0 E.
    assert (forall x, intersects x (ray_set_t (ray_new o d) t0) = true <->
      exists y, slab_test (near x vx) (far x vx) (near x vy) (far x vy) (near x vz) (far x vz) f0 = Some y) as G.
    { intro x. unfold intersects, slab_test. cbn [r_origin r_inv r_sx r_sy r_sz r_tmin ray_set_t ray_new vdivs vx vy vz]. cbv zeta.
      assert (forall (c1 c2 c3 : bool) z, (if c1 then false else if c2 then false else c3) = true <->
         exists y : f32, (if c1 then None else if c2 then None else if c3 then Some z else None) = Some y) as K.
      { intros c1 c2 c3 z. destruct c1, c2, c3; split; try discriminate; eauto; intros [y Y]; discriminate. }
      unfold near, far, plane.
      destruct (flt (vx d) f0), (flt (vy d) f0), (flt (vz d) f0); apply K. }
    apply G. apply G in E as [y E].
    destruct (axes_mono vx) as (p1 & p2 & p3 & p4 & p5 & p6 & _); auto.
    destruct (axes_mono vy) as (q1 & q2 & q3 & q4 & q5 & q6 & _); auto.
    destruct (axes_mono vz) as (r1 & r2 & r3 & r4 & r5 & r6 & _); auto.
    destruct (slab_test_mono (near a vx) (far a vx) (near a vy) (far a vy) (near a vz) (far a vz)
      (near b vx) (far b vx) (near b vy) (far b vy) (near b vz) (far b vz) f0 y) as (z & Ez & _); eauto.
  Qed.

  (** ** The branch-free tests *)
  Hypothesis Hv : vle (bmin a) (bmax a).

  (** Smaller and larger of the two planes. *)
  Lemma ordered_axis : forall f, (f = vx \/ f = vy \/ f = vz) ->
    let i := fdiv f1 (f d) in
    let t0 x := plane (f (bmin x)) (f o) i in let t1 x := plane (f (bmax x)) (f o) i in
    notnan (smin (t0 a) (t1 a)) /\ notnan (smax (t0 a) (t1 a)) /\ notnan (smin (t0 b) (t1 b)) /\ notnan (smax (t0 b) (t1 b)) /\
    fr (smin (t0 b) (t1 b)) <= fr (smin (t0 a) (t1 a)) /\ fr (smax (t0 a) (t1 a)) <= fr (smax (t0 b) (t1 b)).
  Proof.
    intros f Hfx i t0 t1. destruct (axes_mono f Hfx) as (p1 & p2 & p3 & p4 & p5 & p6 & p7).
    assert (fle (f (bmin a)) (f (bmax a)) = true) as V by (destruct Hv as (v1 & v2 & v3); destruct Hfx as [-> |[-> | ->]]; auto).
    specialize (p7 V).
    assert (near a f = t0 a /\ far a f = t1 a /\ near b f = t0 b /\ far b f = t1 b \/
            near a f = t1 a /\ far a f = t0 a /\ near b f = t1 b /\ far b f = t0 b) as [(e1 & e2 & e3 & e4)|(e1 & e2 & e3 & e4)]
      by (unfold near, far, t0, t1, i; destruct (flt (f d) f0); auto).
    - rewrite e1, e2, e3, e4 in *.
      destruct (fr_smin (t0 a) (t1 a)) as [s1 s2]; auto. destruct (fr_smax (t0 a) (t1 a)) as [s3 s4]; auto.
      destruct (fr_smin (t0 b) (t1 b)) as [s5 s6]; auto. destruct (fr_smax (t0 b) (t1 b)) as [s7 s8]; auto.
      repeat (split; [assumption|]). rewrite s2, s4, s6, s8. rewrite !Rmin_left, !Rmax_right by lra. lra.
    - rewrite e1, e2, e3, e4 in *.
      destruct (fr_smin (t0 a) (t1 a)) as [s1 s2]; auto. destruct (fr_smax (t0 a) (t1 a)) as [s3 s4]; auto.
      destruct (fr_smin (t0 b) (t1 b)) as [s5 s6]; auto. destruct (fr_smax (t0 b) (t1 b)) as [s7 s8]; auto.
      repeat (split; [assumption|]). rewrite s2, s4, s6, s8. rewrite !Rmin_right, !Rmax_left by lra. lra.
  Qed.

  Lemma max3_mono : forall x y z x' y' z', notnan x -> notnan y -> notnan z -> notnan x' -> notnan y' -> notnan z' ->
    fr x' <= fr x -> fr y' <= fr y -> fr z' <= fr z ->
    (notnan (smax x (smax y z)) /\ notnan (smax x' (smax y' z')) /\ fr (smax x' (smax y' z')) <= fr (smax x (smax y z))) /\
    (notnan (smax (smax x y) z) /\ notnan (smax (smax x' y') z') /\ fr (smax (smax x' y') z') <= fr (smax (smax x y) z)) /\
    (notnan (smin x (smin y z)) /\ notnan (smin x' (smin y' z')) /\ fr (smin x' (smin y' z')) <= fr (smin x (smin y z))) /\
    (notnan (smin (smin x y) z) /\ notnan (smin (smin x' y') z') /\ fr (smin (smin x' y') z') <= fr (smin (smin x y) z)).
  Proof.
    assert (forall x y x' y', notnan x -> notnan y -> notnan x' -> notnan y' -> fr x' <= fr x -> fr y' <= fr y ->
      (notnan (smax x y) /\ notnan (smax x' y') /\ fr (smax x' y') <= fr (smax x y)) /\
      (notnan (smin x y) /\ notnan (smin x' y') /\ fr (smin x' y') <= fr (smin x y))) as K.
    { intros x y x' y' n1 n2 n3 n4 L1 L2. destruct (fr_smax x y) as [a1 a2]; auto. destruct (fr_smax x' y') as [a3 a4]; auto.
      destruct (fr_smin x y) as [b1 b2]; auto. destruct (fr_smin x' y') as [b3 b4]; auto. rewrite a2, a4, b2, b4.
      split; (split; [auto|split; [auto|]]); [apply Rmax_case_strong; intros; apply Rmax_case_strong; intros; lra|
        apply Rmin_case_strong; intros; apply Rmin_case_strong; intros; lra]. }
    intros x y z x' y' z' n1 n2 n3 n4 n5 n6 L1 L2 L3.
    destruct (K y z y' z') as [(a1 & a2 & a3) (b1 & b2 & b3)]; auto. destruct (K x y x' y') as [(c1 & c2 & c3) (d1 & d2 & d3)]; auto.
    split; [apply (K x (smax y z) x' (smax y' z')); auto|].
    split; [apply (K (smax x y) z (smax x' y') z'); auto|].
    split; [apply (K x (smin y z) x' (smin y' z')); auto|apply (K (smin x y) z (smin x' y') z'); auto].
  Qed.

  Let inv := V3 (fdiv f1 (vx d)) (fdiv f1 (vy d)) (fdiv f1 (vz d)).

  Lemma slabs_mono :
    (notnan (slab_near (box_of a) o inv) /\ notnan (slab_far (box_of a) o inv) /\ notnan (slab_near (box_of b) o inv) /\ notnan (slab_far (box_of b) o inv) /\
     fr (slab_near (box_of b) o inv) <= fr (slab_near (box_of a) o inv) /\ fr (slab_far (box_of a) o inv) <= fr (slab_far (box_of b) o inv)) /\
    (notnan (slab_near4 (box_of a) o inv) /\ notnan (slab_far4 (box_of a) o inv) /\ notnan (slab_near4 (box_of b) o inv) /\ notnan (slab_far4 (box_of b) o inv) /\
     fr (slab_near4 (box_of b) o inv) <= fr (slab_near4 (box_of a) o inv) /\ fr (slab_far4 (box_of a) o inv) <= fr (slab_far4 (box_of b) o inv)).
  Proof.
    destruct (ordered_axis vx) as (p1 & p2 & p3 & p4 & p5 & p6); auto.
    destruct (ordered_axis vy) as (q1 & q2 & q3 & q4 & q5 & q6); auto.
    destruct (ordered_axis vz) as (r1 & r2 & r3 & r4 & r5 & r6); auto.
    pose proof (max3_mono _ _ _ _ _ _ p1 q1 r1 p3 q3 r3 p5 q5 r5) as (M1 & M2 & _).
    pose proof (max3_mono _ _ _ _ _ _ p4 q4 r4 p2 q2 r2 p6 q6 r6) as (_ & _ & M3 & M4).
    unfold slab_near, slab_far, slab_near4, slab_far4, box_of, inv, vmul, vsub, vmap2. cbn [fst snd vx vy vz].
    unfold plane in *. tauto.
  Qed.
End Boxes.
