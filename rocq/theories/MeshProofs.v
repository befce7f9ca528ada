(** * Triangle meshes: what a reported hit says about the triangle's box, and
    loops over triangles as closest-hit searches *)
Require Import List ZArith Bool Arith Lia Permutation Reals Lra.
From Flocq Require Import Core BinarySingleNaN.
From Verif Require Import F32 F32Facts Vec RayModel Base AabbModel NodeModel IterModel MbvhModel SpecGeom SpecSlab SpecTree SpecTraverse SpecMbvh
  AabbProofs TriModel SpecTri SpecMesh TriProofs PropTri PropTriError TraverseProofs ClosestProofs.
Import ListNotations.
Local Open Scope R_scope.

(** ** Geometry *)


(** A combination with weights at least [-e] of numbers at least [lo] and of
    size at most [b]. *)
Lemma weights_low : forall e w0 w1 w2 x0 x1 x2 b lo, 0 <= e -> - e <= w0 -> - e <= w1 -> - e <= w2 -> w0 + w1 + w2 = 1 ->
  lo <= x0 -> lo <= x1 -> lo <= x2 -> x0 <= b -> x1 <= b -> x2 <= b -> - b <= x0 -> - b <= x1 -> - b <= x2 ->
  lo - 4 * b * e <= w0 * x0 + w1 * x1 + w2 * x2.
Proof.
  intros e w0 w1 w2 x0 x1 x2 b lo He L0 L1 L2 Sw A0 A1 A2 B0 B1 B2 C0 C1 C2.
  assert (forall y z z', y <= z -> y <= z' -> z <= b -> z' <= b -> - b <= y ->
     e * ((z - y) + (z' - y)) <= 4 * b * e) as K.
  { intros y z z' Y Y' Zb Zb' Yb. assert (e * ((z - y) + (z' - y)) <= e * (4 * b)) by (apply Rmult_le_compat_l; lra). lra. }
  assert (forall w z y, - e <= w -> y <= z -> 0 <= (w + e) * (z - y)) as P by (intros; apply Rmult_le_pos; lra).
  destruct (Rle_dec x0 x1), (Rle_dec x1 x2), (Rle_dec x0 x2).
  all: first
   [ assert (x0 <= x1) by lra; assert (x0 <= x2) by lra; pose proof (K x0 x1 x2 ltac:(lra) ltac:(lra) B1 B2 C0);
     pose proof (P w1 x1 x0 L1 ltac:(lra)); pose proof (P w2 x2 x0 L2 ltac:(lra));
     replace w0 with (1 - w1 - w2) by lra; lra
   | assert (x1 <= x0) by lra; assert (x1 <= x2) by lra; pose proof (K x1 x0 x2 ltac:(lra) ltac:(lra) B0 B2 C1);
     pose proof (P w0 x0 x1 L0 ltac:(lra)); pose proof (P w2 x2 x1 L2 ltac:(lra));
     replace w1 with (1 - w0 - w2) by lra; lra
   | assert (x2 <= x0) by lra; assert (x2 <= x1) by lra; pose proof (K x2 x0 x1 ltac:(lra) ltac:(lra) B0 B1 C2);
     pose proof (P w0 x0 x2 L0 ltac:(lra)); pose proof (P w1 x1 x2 L1 ltac:(lra));
     replace w2 with (1 - w0 - w1) by lra; lra ].
Qed.

Lemma weights_between : forall e w0 w1 w2 x0 x1 x2 b lo hi, 0 <= e -> - e <= w0 -> - e <= w1 -> - e <= w2 -> w0 + w1 + w2 = 1 ->
  lo <= x0 <= hi -> lo <= x1 <= hi -> lo <= x2 <= hi -> Rabs x0 <= b -> Rabs x1 <= b -> Rabs x2 <= b ->
  lo - 4 * b * e <= w0 * x0 + w1 * x1 + w2 * x2 <= hi + 4 * b * e.
Proof.
  intros e w0 w1 w2 x0 x1 x2 b lo hi He L0 L1 L2 Sw A0 A1 A2 B0 B1 B2.
  apply Rabs_le_inv in B0. apply Rabs_le_inv in B1. apply Rabs_le_inv in B2.
  split; [apply weights_low; lra|].
  pose proof (weights_low e w0 w1 w2 (- x0) (- x1) (- x2) b (- hi)) as K. lra.
Qed.

(** The ray's point at [s], near the parameter [t] where the ray passes near
    the triangle, is near the triangle's box. *)
Lemma near_box : forall margin e b d dl bx tr o dir t s, 0 <= e -> Rabs (s - t) <= dl ->
  coords_within b (tv0 tr) -> coords_within b (tv1 tr) -> coords_within b (tv2 tr) -> coords_within d dir ->
  tri_inside margin bx tr ->
  near_triangle e (rv (tv0 tr)) (rv (tv1 tr)) (rv (tv2 tr)) (rv o) (rv dir) t ->
  ray_point_near (4 * b * e + d * dl - margin) bx o dir s.
Proof.
  intros margin e b d dl bx tr o dir t s He Hs W0 W1 W2 Wd (M0 & M1 & M2) (w0 & w1 & w2 & L0 & L1 & L2 & Sw & Ex & Ey & Ez).
  unfold rv, rx, ry, rz in Ex, Ey, Ez. cbn [fst snd] in Ex, Ey, Ez.
  destruct W0 as (_ & P01 & P02 & P03), W1 as (_ & P11 & P12 & P13), W2 as (_ & P21 & P22 & P23), Wd as (_ & D1 & D2 & D3).
  destruct M0 as (_ & M01 & M02 & M03), M1 as (_ & M11 & M12 & M13), M2 as (_ & M21 & M22 & M23).
  assert (forall lo hi x0 x1 x2 ox dx, lo + margin <= x0 <= hi - margin -> lo + margin <= x1 <= hi - margin -> lo + margin <= x2 <= hi - margin ->
    Rabs x0 <= b -> Rabs x1 <= b -> Rabs x2 <= b -> Rabs dx <= d ->
    ox + t * dx = w0 * x0 + w1 * x1 + w2 * x2 ->
    lo - (4 * b * e + d * dl - margin) <= ox + s * dx <= hi + (4 * b * e + d * dl - margin)) as G.
  { intros lo hi x0 x1 x2 ox dx A0 A1 A2 B0 B1 B2 Hd E.
    pose proof (weights_between e w0 w1 w2 x0 x1 x2 b (lo + margin) (hi - margin) He L0 L1 L2 Sw A0 A1 A2 B0 B1 B2) as K.
    replace (ox + s * dx) with (ox + t * dx + (s - t) * dx) by ring. rewrite E.
    assert (- (dl * d) <= (s - t) * dx <= dl * d).
    { apply Rabs_le_inv. rewrite Rabs_mult. apply Rmult_le_compat; auto using Rabs_pos. }
    lra. }
  split; [exact (G _ _ _ _ _ _ _ M01 M11 M21 P01 P11 P21 D1 Ex)|split; [exact (G _ _ _ _ _ _ _ M02 M12 M22 P02 P12 P22 D2 Ey)|exact (G _ _ _ _ _ _ _ M03 M13 M23 P03 P13 P23 D3 Ez)]].
Qed.

(** ** The parameter at which the box is met *)

Section Clamp.
  Variables b d A far m0 : R.
  Hypothesis Hb : 1 <= b.
  Hypothesis Hd : 1 <= d.
  Hypothesis HA : 0 < A.
  Hypothesis Hfar : 1 <= far.
  Hypothesis Hc : clearance b d A far <= / 4.
  Hypothesis Hm0 : 0 < m0 <= / 1000.

  Definition e_of : R := half_ulp * (758 * (b * b * d) / A + 2).
  Definition err (x : R) : R := half_ulp * (b * b * d * (165 * Rabs x + 1) + 472 * (b * b * b)) / A.

  Lemma hu_pos : 0 < half_ulp. Proof. unfold half_ulp. lra. Qed.
  Lemma bbd_pos : 1 <= b * b * d. Proof. nra. Qed.
  Lemma bbb_pos : 1 <= b * b * b. Proof. nra. Qed.

  Lemma e_pos : 0 <= e_of.
  Proof.
    unfold e_of. pose proof hu_pos. pose proof bbd_pos. apply Rmult_le_pos; [lra|].
    assert (0 <= 758 * (b * b * d) / A) by (apply Rle_mult_inv_pos; lra). lra.
  Qed.

  Lemma err_mono : forall x y, Rabs x <= Rabs y -> err x <= err y.
  Proof.
    intros x y H. unfold err, Rdiv. pose proof hu_pos. pose proof bbd_pos.
    apply Rmult_le_compat_r; [left; apply Rinv_0_lt_compat; auto|]. apply Rmult_le_compat_l; [lra|].
    apply Rplus_le_compat_r. apply Rmult_le_compat_l; lra.
  Qed.
  Lemma err_pos : forall x, 0 <= err x.
  Proof.
    intro x. unfold err, Rdiv. pose proof hu_pos. pose proof bbd_pos. pose proof bbb_pos. pose proof (Rabs_pos x).
    apply Rmult_le_pos; [|left; apply Rinv_0_lt_compat; auto]. apply Rmult_le_pos; [lra|].
    assert (0 <= b * b * d * (165 * Rabs x + 1)) by (apply Rmult_le_pos; lra). lra.
  Qed.

  Lemma clearance_eq : clearance b d A far = 4 * b * e_of + d * err far.
  Proof. unfold clearance, e_of, err. rewrite (Rabs_pos_eq far) by lra. field. lra. Qed.

  Lemma err_far : err far <= / 4.
  Proof.
    pose proof clearance_eq as C. pose proof e_pos as Pe. pose proof (err_pos far) as Pf.
    assert (0 <= b * e_of) by (apply Rmult_le_pos; lra). assert (err far <= d * err far) by nra. lra.
  Qed.

  (** Below distance 1, the parameter can be moved up to [m0]. *)
  Lemma below_one : forall x t, m0 <= x -> Rabs (x - t) <= err x -> t < m0 -> x <= 1.
  Proof.
    intros x t Hx He Ht. pose proof err_far as Ef. pose proof (err_mono 1 far) as E1.
    rewrite (Rabs_pos_eq 1), (Rabs_pos_eq far) in E1 by lra. specialize (E1 Hfar).
    apply Rabs_le_inv in He. unfold err in He, E1, Ef |- *. rewrite (Rabs_pos_eq x) in He by lra. rewrite (Rabs_pos_eq 1) in E1 by lra.
    rewrite (Rabs_pos_eq far) in E1, Ef by lra.
    pose proof hu_pos. pose proof bbd_pos as P1. pose proof bbb_pos as P2.
    set (p := b * b * d) in *. set (q := b * b * b) in *. clearbody p q.
    assert (0 < / A) as PI by (apply Rinv_0_lt_compat; auto).
    unfold Rdiv in *.
    assert (half_ulp * (p * (165 * x + 1) + 472 * q) * / A = half_ulp * p * 165 * / A * x + half_ulp * (p + 472 * q) * / A) as E by ring.
    assert (half_ulp * (p * (165 * 1 + 1) + 472 * q) * / A = half_ulp * p * 165 * / A + half_ulp * (p + 472 * q) * / A) as F by ring.
    rewrite E in He. rewrite F in E1.
    assert (0 <= half_ulp * p * 165 * / A) by (repeat apply Rmult_le_pos; lra).
    assert (0 <= half_ulp * (p + 472 * q) * / A) by (repeat apply Rmult_le_pos; lra).
    set (u := half_ulp * p * 165 * / A) in *. set (w := half_ulp * (p + 472 * q) * / A) in *. clearbody u w.
    nra.
  Qed.

  (** Binary BVHs: a parameter at least [m0]. *)
  Lemma clamp_low : forall x t, m0 <= x -> Rabs (x - t) <= err x ->
    exists s, m0 <= s /\ Rabs (s - t) <= err far.
  Proof.
    intros x t Hx He. destruct (Rle_dec m0 t) as [L|L].
    - exists t. split; auto. unfold Rminus. rewrite Rplus_opp_r, Rabs_R0. apply err_pos.
    - pose proof (below_one x t Hx He ltac:(lra)) as X1. exists m0. split; [lra|].
      pose proof (err_mono x far) as E. rewrite (Rabs_pos_eq x), (Rabs_pos_eq far) in E by lra. specialize (E ltac:(lra)).
      apply Rabs_le_inv in He. apply Rabs_le. lra.
  Qed.

  (** 4-wide BVHs: a parameter between [m0] and the reported distance. *)
  Lemma clamp_both : forall x t, m0 <= x -> Rabs (x - t) <= err x -> t <= far ->
    exists s, m0 <= s <= x /\ s <= far /\ Rabs (s - t) <= err far.
  Proof.
    intros x t Hx He Hf. destruct (Rle_dec m0 t) as [L|L].
    - destruct (Rle_dec t x) as [U|U].
      + exists t. split; auto. split; auto. unfold Rminus. rewrite Rplus_opp_r, Rabs_R0. apply err_pos.
      + exists x. split; [lra|]. split; [lra|]. eapply Rle_trans; [exact He|]. apply err_mono. rewrite !Rabs_pos_eq; lra.
    - pose proof (below_one x t Hx He ltac:(lra)) as X1. exists m0. split; [lra|]. split; [lra|].
      pose proof (err_mono x far) as E. rewrite (Rabs_pos_eq x), (Rabs_pos_eq far) in E by lra. specialize (E ltac:(lra)).
      apply Rabs_le_inv in He. apply Rabs_le. lra.
  Qed.

  Lemma four_b_e : 4 * b * e_of <= / 4.
  Proof. pose proof clearance_eq as C. pose proof (err_pos far) as Pf. assert (0 <= d * err far) by nra. lra. Qed.

  (** A ray that reaches out of the scene within [far] meets triangles before. *)
  Lemma near_far : forall tr o dir t,
    coords_within b (tv0 tr) -> coords_within b (tv1 tr) -> coords_within b (tv2 tr) -> coords_within b o -> reaches b far dir ->
    near_triangle e_of (rv (tv0 tr)) (rv (tv1 tr)) (rv (tv2 tr)) (rv o) (rv dir) t -> t <= far.
  Proof.
    intros tr o dir t W0 W1 W2 Wo Hr (w0 & w1 & w2 & L0 & L1 & L2 & Sw & Ex & Ey & Ez).
    unfold rv, rx, ry, rz in Ex, Ey, Ez. cbn [fst snd] in Ex, Ey, Ez.
    destruct W0 as (_ & P01 & P02 & P03), W1 as (_ & P11 & P12 & P13), W2 as (_ & P21 & P22 & P23), Wo as (_ & O1 & O2 & O3).
    assert (forall x0 x1 x2 ox dx, Rabs x0 <= b -> Rabs x1 <= b -> Rabs x2 <= b -> Rabs ox <= b ->
      2 * b + 1 <= far * Rabs dx -> ox + t * dx = w0 * x0 + w1 * x1 + w2 * x2 -> t <= far) as G.
    { intros x0 x1 x2 ox dx B0 B1 B2 Bo F E. destruct (Rle_dec t far) as [|N]; auto. exfalso.
      pose proof (weights_between e_of w0 w1 w2 x0 x1 x2 b (- b) b e_pos L0 L1 L2 Sw
        ltac:(apply Rabs_le_inv; auto) ltac:(apply Rabs_le_inv; auto) ltac:(apply Rabs_le_inv; auto) B0 B1 B2) as K.
      rewrite <- E in K. pose proof four_b_e as F4.
      assert (Rabs (t * dx) <= 2 * b + / 2) as T by (apply Rabs_le_inv in Bo; apply Rabs_le; lra).
      rewrite Rabs_mult in T. assert (far * Rabs dx <= Rabs t * Rabs dx).
      { apply Rmult_le_compat_r; [apply Rabs_pos|]. rewrite Rabs_pos_eq; lra. }
      lra. }
    destruct Hr as [Hr|[Hr|Hr]].
    - exact (G _ _ _ _ _ P01 P11 P21 O1 Hr Ex).
    - exact (G _ _ _ _ _ P02 P12 P22 O2 Hr Ey).
    - exact (G _ _ _ _ _ P03 P13 P23 O3 Hr Ez).
  Qed.
End Clamp.

(** ** Loops over triangles *)

(** Replacing the loop body by one that does the same on all rays that can
    occur. *)
Lemma bvh_run_ext : forall R H inter closer found nodes indices C (c1 c2 : C -> nat -> R -> C * R) (P : R -> Prop),
  (forall c p r, P r -> c1 c p r = c2 c p r /\ P (snd (c1 c p r))) ->
  forall fuel c r s, P r ->
  bvh_run R H inter closer found nodes indices C c1 fuel c r s = bvh_run R H inter closer found nodes indices C c2 fuel c r s.
Proof.
  intros R H inter closer found nodes indices C c1 c2 P E fuel. induction fuel as [|k IH]; intros c r s Pr; auto.
  cbn [bvh_run]. destruct (bvh_turn R H inter closer found nodes indices r s) as [[t s']| | |]; auto. cbn [bind].
  destruct t as [p| |]; auto. destruct (E c p r Pr) as [E1 E2]. rewrite <- E1. destruct (c1 c p r) as [c' r']. rewrite (IH c' r' s' E2). reflexivity.
Qed.
Lemma mbvh_run_ext : forall R inter found nodes indices C (c1 c2 : C -> nat -> R -> C * R) (P : R -> Prop),
  (forall c p r, P r -> c1 c p r = c2 c p r /\ P (snd (c1 c p r))) ->
  forall fuel c r s, P r ->
  mbvh_run R inter found nodes indices C c1 fuel c r s = mbvh_run R inter found nodes indices C c2 fuel c r s.
Proof.
  intros R inter found nodes indices C c1 c2 P E fuel. induction fuel as [|k IH]; intros c r s Pr; auto.
  cbn [mbvh_run]. destruct (mbvh_turn R inter found nodes indices r s) as [[t s']| | |]; auto. cbn [bind].
  destruct t as [p| |]; auto. destruct (E c p r Pr) as [E1 E2]. rewrite <- E1. destruct (c1 c p r) as [c' r']. rewrite (IH c' r' s' E2). reflexivity.
Qed.
Lemma client_fold_ext : forall R C (c1 c2 : C -> nat -> R -> C * R) (P : R -> Prop),
  (forall c p r, P r -> c1 c p r = c2 c p r /\ P (snd (c1 c p r))) ->
  forall ps c r, P r -> client_fold c1 ps c r = client_fold c2 ps c r.
Proof.
  intros R C c1 c2 P E ps. induction ps as [|p ps IH]; intros c r Pr; auto.
  destruct (E c p r Pr) as [E1 E2]. unfold client_fold in *. cbn [fold_left fst snd]. rewrite <- E1.
  rewrite (surjective_pairing (c1 c p r)). apply IH; auto.
Qed.

Lemma tri_test_cap : forall v0 v1 v2 o d tmin t0 t1, fle t1 t0 = true ->
  tri_test f32_scalars v0 v1 v2 o d tmin t1 =
  match tri_test f32_scalars v0 v1 v2 o d tmin t0 with Some x => if flt x t1 then Some x else None | None => None end.
Proof.
  intros v0 v1 v2 o d tmin t0 t1 L. unfold tri_test. cbn [f32_scalars s_lt s_le s_neps s_eps s_div s_one s_mul s_zero s_add].
  repeat match goal with |- (if ?b then _ else _) = _ => destruct b eqn:?; auto end.
  - apply andb_prop in Heqb2 as [H1 H2]. 
    assert (flt (fmul (fdiv f1 (dot3 f32_scalars (sub3 f32_scalars v1 v0) (cross3 f32_scalars d (sub3 f32_scalars v2 v0))))
      (dot3 f32_scalars (sub3 f32_scalars v2 v0) (cross3 f32_scalars (sub3 f32_scalars o v0) (sub3 f32_scalars v1 v0)))) t0 = true) as H3
      by (eapply flt_le_trans; eauto).
    rewrite H1, H3. cbn [andb]. rewrite H2. reflexivity.
  - match goal with |- context [if ?b then _ else _] => destruct b eqn:B; auto end.
    apply andb_prop in B as [B1 B2]. rewrite B1 in Heqb2. cbn [andb] in Heqb2. rewrite Heqb2. reflexivity.
Qed.

(** Where the triangles meet the ray, up to [t0]. *)
Definition mesh_dist (tris : list tri) (r : ray) (p : nat) : option f32 :=
  match nth_error tris p with
  | Some tr => tri_test f32_scalars (trip (tv0 tr)) (trip (tv1 tr)) (trip (tv2 tr)) (trip (r_origin r)) (trip (r_dir r)) (r_tmin r) (r_t r)
  | None => None
  end.

Definition shorter (r0 r : ray) : Prop := exists t, r = ray_set_t r0 t /\ fle t (r_t r0) = true.

Lemma mesh_is_closest : forall tris r0 c p r, shorter r0 r ->
  mesh_body tris c p r = closest_body (mesh_dist tris r0) c p r /\ shorter r0 (snd (mesh_body tris c p r)).
Proof.
  intros tris r0 c p r (t & -> & L). unfold mesh_body, closest_body, mesh_dist.
  destruct (nth_error tris p) as [tr|]; [|split; [auto|exists t; auto]].
  unfold tri_intersect. cbn [r_origin r_dir r_tmin r_t ray_set_t].
  rewrite (tri_test_cap _ _ _ _ _ _ (r_t r0) t L).
  destruct (tri_test _ _ _ _ _ _ _ (r_t r0)) as [x|]; [destruct (flt x t) eqn:X|]; cbn [snd fst].
  - split; auto. exists x. split; auto. eapply fle_trans; [apply flt_fle; exact X|auto].
  - split; auto. exists t. auto.
  - split; auto. exists t. auto.
Qed.

Lemma mesh_dist_hit : forall tris r p x, mesh_dist tris r p = Some x <->
  exists tr, nth_error tris p = Some tr /\ tri_intersect tr r = (true, ray_set_t r x).
Proof.
  intros tris r p x. unfold mesh_dist, tri_intersect. split.
  - destruct (nth_error tris p) as [tr|]; [|discriminate]. intro E. exists tr. rewrite E. auto.
  - intros (tr & -> & E). destruct (tri_test _ _ _ _ _ _ _ _) as [y|]; [|discriminate]. 
    assert (r_t (ray_set_t r y) = r_t (ray_set_t r x)) as F by congruence. cbn in F. congruence.
Qed.

(** ** Packets: one lane at a time *)

Lemma lane_test_cap : forall v0 v1 v2 o d tmin t0 t1, fle t1 t0 = true ->
  lane_test v0 v1 v2 o d tmin t1 =
  match lane_test v0 v1 v2 o d tmin t0 with Some x => if flt x t1 then Some x else None | None => None end.
Proof.
  intros v0 v1 v2 o d tmin t0 t1 L. unfold lane_test, lane_test_with. cbv zeta.
  match goal with |- context [flt ?x t1] => set (tv := x) end.
  repeat match goal with |- context [?a && flt tv _] => set (g := a) end.
  match goal with |- context [?a && (g && flt tv t1)] => set (gg := a) end.
  destruct gg, g; cbn [andb]; auto.
  destruct (flt tv t1) eqn:E; [rewrite (flt_le_trans _ _ _ E L), E; reflexivity|].
  destruct (flt tv t0); [rewrite E|]; reflexivity.
Qed.

(** Where the triangles meet lane [k] of the packet. *)
Definition mesh_dist4 (tris : list tri) (p : packet) (t_min : vec4) (k : nat) (i : nat) : option f32 :=
  match nth_error tris i with
  | Some tr => lane_result tr p t_min k
  | None => None
  end.

Lemma tri4_lane : forall tr p t_min k,
  exists w, snd (tri_intersect4 tr p t_min) = packet_set_t p w /\ (forall j, at_most (wget w j) (wget (p_t p) j)) /\
    wget w k = match lane_result tr p t_min k with Some x => x | None => wget (p_t p) k end.
Proof.
  intros tr p t_min k. destruct (tri4_lanes tr p t_min) as (m & tv & H & E). rewrite E.
  destruct (many m) eqn:M; cbn [snd].
  - exists (wselect m tv (p_t p)). split; auto. split.
    + intro j. rewrite wselect_get. specialize (H j). destruct (lane_result tr p t_min j) as [x|] eqn:R.
      * destruct H as [-> ->]. right. unfold lane_result, lane_test, lane_test_with in R. cbv zeta in R.
        match type of R with (if ?c then _ else _) = _ => destruct c eqn:B; [|discriminate] end.
        apply andb_prop in B as [_ B]. apply andb_prop in B as [_ B].
        assert (flt x (wget (p_t p) j) = true) as L by (assert (forall a b : f32, Some a = Some b -> a = b) as IS by congruence; rewrite <- (IS _ _ R); exact B).
        apply flt_fle. exact L.
      * rewrite H. left. reflexivity.
    + rewrite wselect_get. specialize (H k). destruct (lane_result tr p t_min k) as [x|].
      * destruct H as [-> ->]. reflexivity.
      * rewrite H. reflexivity.
  - exists (p_t p). split; [destruct p; reflexivity|]. split; [left; reflexivity|].
    specialize (H k). destruct (lane_result tr p t_min k) as [x|]; auto.
    destruct H as [H _]. rewrite (many_false _ M) in H. discriminate.
Qed.

Lemma wle_lanes : forall a b, (forall j, at_most (wget a j) (wget b j)) -> wle a b.
Proof. intros a b H. split; [exact (H 0%nat)|split; [exact (H 1%nat)|split; [exact (H 2%nat)|exact (H 3%nat)]]]. Qed.

Lemma mesh_lowers : forall tris t_min, lowers_t (mesh_body4 tris t_min).
Proof.
  intros tris t_min c i p. unfold mesh_body4. destruct (nth_error tris i) as [tr|]; cbn [snd].
  - destruct (tri4_lane tr p t_min 0) as (w & E & A & _). exists w. split; auto. apply wle_lanes; auto.
  - exists (p_t p). split; [destruct p; reflexivity|apply wle_refl].
Qed.

(** Lane [k] of the packet loop is a closest-hit search. *)
Lemma mesh_lane : forall tris p0 t_min k r0 ps w, fle (wget w k) (wget (p_t p0) k) = true ->
  wget (p_t (snd (client_fold (mesh_body4 tris t_min) ps tt (packet_set_t p0 w)))) k =
  r_t (snd (client_fold (closest_body (mesh_dist4 tris p0 t_min k)) ps tt (ray_set_t r0 (wget w k)))).
Proof.
  intros tris p0 t_min k r0 ps. induction ps as [|i ps IH]; intros w L; [reflexivity|].
  unfold client_fold in *. cbn [fold_left fst snd].
  rewrite (surjective_pairing (mesh_body4 tris t_min tt i (packet_set_t p0 w))).
  rewrite (surjective_pairing (closest_body (mesh_dist4 tris p0 t_min k) tt i (ray_set_t r0 (wget w k)))).
  destruct (fst (mesh_body4 tris t_min tt i (packet_set_t p0 w))), (fst (closest_body (mesh_dist4 tris p0 t_min k) tt i (ray_set_t r0 (wget w k)))).
  assert (exists w', snd (mesh_body4 tris t_min tt i (packet_set_t p0 w)) = packet_set_t p0 w' /\ fle (wget w' k) (wget (p_t p0) k) = true /\
    snd (closest_body (mesh_dist4 tris p0 t_min k) tt i (ray_set_t r0 (wget w k))) = ray_set_t r0 (wget w' k)) as (w' & E1 & E2 & E3).
  2: { rewrite E1, E3. apply IH. exact E2. }
  unfold mesh_body4, closest_body, mesh_dist4. destruct (nth_error tris i) as [tr|]; cbn [snd]; [|exists w; auto].
  destruct (tri4_lane tr (packet_set_t p0 w) t_min k) as (w' & E & A & G). exists w'. rewrite E. split; [reflexivity|].
  cbn [r_t ray_set_t]. cbn [p_t packet_set_t] in A, G.
  assert (fle (wget w' k) (wget (p_t p0) k) = true) as L'.
  { destruct (A k) as [-> |B]; auto. eapply fle_trans; eauto. }
  split; auto. rewrite G. clear G A E L' w'.
  unfold lane_result. change (lane_o (packet_set_t p0 w) k) with (lane_o p0 k). change (lane_d (packet_set_t p0 w) k) with (lane_d p0 k).
  change (p_t (packet_set_t p0 w)) with w.
  rewrite (lane_test_cap _ _ _ _ _ _ (wget (p_t p0) k) (wget w k) L).
  destruct (lane_test _ _ _ _ _ _ (wget (p_t p0) k)) as [x|]; [destruct (flt x (wget w k))|]; reflexivity.
Qed.

Lemma mesh_dist4_hit : forall tris p t_min k i x, (k < 4)%nat -> mesh_dist4 tris p t_min k i = Some x ->
  exists tr m p', nth_error tris i = Some tr /\ tri_intersect4 tr p t_min = (Some m, p') /\ mget m k = true /\ wget (p_t p') k = x.
Proof.
  intros tris p t_min k i x K E. unfold mesh_dist4 in E. destruct (nth_error tris i) as [tr|]; [|discriminate].
  destruct (tri4_lanes tr p t_min) as (m & tv & H & F). pose proof (H k) as Hk. rewrite E in Hk. destruct Hk as [M T].
  rewrite (many_intro m k M) in F. exists tr, m, (packet_set_t p (wselect m tv (p_t p))).
  split; auto. split; auto. split; auto. cbn [p_t packet_set_t]. rewrite wselect_get, M. exact T.
Qed.
