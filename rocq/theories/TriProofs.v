(** * Proofs about the triangle tests *)
Require Import List ZArith Bool Reals Lra Lia Psatz.
From Flocq Require Import Core BinarySingleNaN.
From Verif Require Import F32 F32Facts Vec RayModel AabbModel SpecGeom Base TriModel SpecTri.
Import ListNotations.
Local Open Scope R_scope.

(** ** The text with glam's vector operations *)
Lemma tri_intersect_src_eq : forall t r, tri_intersect_src t r = tri_intersect t r.
Proof.
  intros [v0 v1 v2] r. unfold tri_intersect_src, tri_intersect, tri_test.
  cbn [tv0 tv1 tv2 trip f32_scalars sub3 cross3 dot3 s_add s_sub s_mul s_div s_lt s_le s_zero s_one s_eps s_neps].
  unfold vsub, vmap2, vcross, vdot, fgt, flt. cbn [vx vy vz].
  repeat match goal with |- context [if ?b then _ else _] => destruct b end; reflexivity.
Qed.

(** ** Exact correctness *)
Section exact.
  Variables (v0 v1 v2 o d : rvec) (tmin tmax eps : R).

  Lemma facing_det :
    dot3 (real_scalars eps) (sub3 (real_scalars eps) v1 v0)
         (cross3 (real_scalars eps) d (sub3 (real_scalars eps) v2 v0)) = facing v0 v1 v2 d.
  Proof.
    destruct v0 as [[x0 y0] z0], v1 as [[x1 y1] z1], v2 as [[x2 y2] z2], d as [[dx dy] dz].
    unfold facing, rx, ry, rz in *; cbn [fst snd] in *; simpl. ring.
  Qed.

  Let a := facing v0 v1 v2 d.
  Let e1 := sub3 (real_scalars eps) v1 v0.
  Let e2 := sub3 (real_scalars eps) v2 v0.
  Let s := sub3 (real_scalars eps) o v0.
  Let h := cross3 (real_scalars eps) d e2.
  Let q := cross3 (real_scalars eps) s e1.
  Let U := dot3 (real_scalars eps) s h.
  Let V := dot3 (real_scalars eps) d q.
  Let W := dot3 (real_scalars eps) e2 q.

  (** Cramer's rule. *)
  Lemma cramer :
    rx s * a = - W * rx d + U * rx e1 + V * rx e2 /\
    ry s * a = - W * ry d + U * ry e1 + V * ry e2 /\
    rz s * a = - W * rz d + U * rz e1 + V * rz e2.
  Proof.
    subst a e1 e2 s h q U V W.
    destruct v0 as [[x0 y0] z0], v1 as [[x1 y1] z1], v2 as [[x2 y2] z2], d as [[dx dy] dz], o as [[ox oy] oz].
    unfold facing, rx, ry, rz in *; cbn [fst snd] in *; simpl. repeat split; ring.
  Qed.

  (** The converse: coordinates are unique. *)
  Lemma cramer_unique : forall t u v,
    rx o + t * rx d = (1 - u - v) * rx v0 + u * rx v1 + v * rx v2 ->
    ry o + t * ry d = (1 - u - v) * ry v0 + u * ry v1 + v * ry v2 ->
    rz o + t * rz d = (1 - u - v) * rz v0 + u * rz v1 + v * rz v2 ->
    W = t * a /\ U = u * a /\ V = v * a.
  Proof.
    intros t u v Hx Hy Hz. subst a e1 e2 s h q U V W.
    destruct v0 as [[x0 y0] z0], v1 as [[x1 y1] z1], v2 as [[x2 y2] z2], d as [[dx dy] dz], o as [[ox oy] oz].
    unfold facing, rx, ry, rz in *; cbn [fst snd] in *; simpl in *.
    assert (ox - x0 = u * (x1 - x0) + v * (x2 - x0) - t * dx) as Ex by lra.
    assert (oy - y0 = u * (y1 - y0) + v * (y2 - y0) - t * dy) as Ey by lra.
    assert (oz - z0 = u * (z1 - z0) + v * (z2 - z0) - t * dz) as Ez by lra.
    rewrite Ex, Ey, Ez. repeat split; ring.
  Qed.

  Lemma tri_test_some : forall t, tri_test (real_scalars eps) v0 v1 v2 o d tmin tmax = Some t ->
    (a <= - eps \/ eps <= a) /\ 0 <= / a * U <= 1 /\ 0 <= / a * V /\ / a * U + / a * V <= 1 /\
    t = / a * W /\ tmin < t < tmax.
  Proof.
    intros t H. unfold tri_test in H. rewrite facing_det in H. fold a e1 e2 s in H. fold h in H. fold q in H.
    fold U V W in H. cbn [s_lt s_le s_one s_zero s_eps s_neps s_div s_mul s_add real_scalars] in H.
    destruct (Rlt_bool_spec (- eps) a), (Rlt_bool_spec a eps); cbn [andb] in H; try discriminate;
    destruct (Rle_bool_spec 0 (1 / a * U)), (Rle_bool_spec (1 / a * U) 1); cbn [andb negb] in H; try discriminate;
    destruct (Rlt_bool_spec (1 / a * V) 0), (Rlt_bool_spec 1 (1 / a * U + 1 / a * V)); cbn [orb] in H; try discriminate;
    destruct (Rlt_bool_spec tmin (1 / a * W)), (Rlt_bool_spec (1 / a * W) tmax); cbn [andb] in H; try discriminate;
    injection H as <-; unfold Rdiv in *; rewrite ?Rmult_1_l in *; repeat split; auto; lra.
  Qed.

  Lemma tri_test_intro : a <= - eps \/ eps <= a -> 0 <= / a * U <= 1 -> 0 <= / a * V -> / a * U + / a * V <= 1 ->
    tmin < / a * W < tmax -> tri_test (real_scalars eps) v0 v1 v2 o d tmin tmax = Some (/ a * W).
  Proof.
    intros Ha Hu Hv Huv Ht.
    unfold tri_test. rewrite facing_det. fold a e1 e2 s. fold h. fold q. fold U V W.
    cbn [s_lt s_le s_one s_zero s_eps s_neps s_div s_mul s_add real_scalars].
    assert (1 / a = / a) as -> by (unfold Rdiv; ring).
    destruct (Rlt_bool_spec (- eps) a), (Rlt_bool_spec a eps); cbn [andb]; try lra;
    (rewrite (Rle_bool_true 0), (Rle_bool_true (/ a * U)) by lra; cbn [andb negb];
     rewrite (Rlt_bool_false (/ a * V)), (Rlt_bool_false 1) by lra; cbn [orb];
     rewrite (Rlt_bool_true tmin), (Rlt_bool_true _ tmax) by lra; reflexivity).
  Qed.
End exact.

Lemma tri_test_exact : forall v0 v1 v2 o d tmin tmax eps, 0 < eps ->
  Rabs (facing v0 v1 v2 d) >= eps ->
  forall t, tri_test (real_scalars eps) v0 v1 v2 o d tmin tmax = Some t <->
            tmin < t < tmax /\ on_triangle v0 v1 v2 o d t.
Proof.
  intros v0 v1 v2 o d tmin tmax eps E A t.
  assert (facing v0 v1 v2 d <> 0) as NZ.
  { intro Z. rewrite Z, Rabs_R0 in A. lra. }
  split.
  - intro H. apply tri_test_some in H. destruct H as (Ha & Hu & Hv & Huv & -> & Ht). split; auto.
    destruct (cramer v0 v1 v2 o d eps) as (Cx & Cy & Cz).
    set (a := facing v0 v1 v2 d) in *.
    match goal with |- context [/ a * ?w] => set (W := w) in * end.
    match type of Hu with context [/ a * ?w] => set (U := w) in * end.
    match type of Hv with context [/ a * ?w] => set (V := w) in * end.
    exists (1 - / a * U - / a * V), (/ a * U), (/ a * V).
    repeat split; try lra;
    [clear Cy Cz; rename Cx into C|clear Cx Cz; rename Cy into C|clear Cx Cy; rename Cz into C];
    destruct v0 as [[x0 y0] z0], v1 as [[x1 y1] z1], v2 as [[x2 y2] z2], d as [[dx dy] dz], o as [[ox oy] oz];
    cbn [rx ry rz fst snd sub3 s_sub real_scalars] in *; 
    apply (Rmult_eq_reg_r a); auto;
    match type of C with ?l = _ => match goal with |- (?p + _) * a = (_ * ?p0 + _ + _) * a =>
       replace l with ((p - p0) * a) in C by reflexivity end end;
    field_simplify; auto; lra.
  - intros ((T1 & T2) & w0 & w1 & w2 & W0 & W1 & W2 & S & Hx & Hy & Hz).
    assert (w0 = 1 - w1 - w2) as -> by lra.
    destruct (cramer_unique v0 v1 v2 o d eps t w1 w2 Hx Hy Hz) as (EW & EU & EV).
    assert (forall k, / facing v0 v1 v2 d * (k * facing v0 v1 v2 d) = k) as Q by (intro; field; auto).
    rewrite (tri_test_intro v0 v1 v2 o d tmin tmax eps); rewrite ?EW, ?EU, ?EV, ?Q; auto; try lra.
    unfold Rabs in A; destruct (Rcase_abs _); lra.
Qed.

Lemma tri_test_parallel : forall v0 v1 v2 o d tmin tmax eps, Rabs (facing v0 v1 v2 d) < eps ->
  tri_test (real_scalars eps) v0 v1 v2 o d tmin tmax = None.
Proof.
  intros. unfold tri_test. rewrite facing_det. cbn [s_lt s_eps s_neps real_scalars].
  apply Rabs_def2 in H. rewrite !Rlt_bool_true by lra. reflexivity.
Qed.

(** ** The f32 test only shortens *)
Lemma tri_test_f32_some : forall v0 v1 v2 o d tmin tmax t,
  tri_test f32_scalars v0 v1 v2 o d tmin tmax = Some t -> flt tmin t = true /\ flt t tmax = true.
Proof.
  intros v0 v1 v2 o d tmin tmax t. unfold tri_test.
  repeat match goal with |- (if ?b then _ else _) = _ -> _ => destruct b eqn:?; try discriminate end.
  intro H; injection H as <-. apply andb_true_iff in Heqb2. exact Heqb2.
Qed.

(** ** The packet test, lane by lane *)
Lemma fmul_comm : forall x y : f32, fmul x y = fmul y x.
Proof.
  intros x y. apply B2SF_inj. unfold fmul.
  destruct x as [sx|sx| |sx mx ex Hx], y as [sy|sy| |sy my ey Hy];
    cbn [Bmult B2SF]; try (rewrite xorb_comm; reflexivity); try reflexivity.
  rewrite !B2SF_SF2B. rewrite xorb_comm, Pos.mul_comm, Z.add_comm. reflexivity.
Qed.

Lemma if_some_bool : forall {A} (b : bool) (x : A),
  match (if b then Some x else None) with Some _ => true | None => false end = b.
Proof. intros A [|] x; reflexivity. Qed.

(** The cross product in the order of factors the packet code uses. *)
Definition crossp (a b : vec3) : vec3 :=
  V3 (fsub (fmul (vy a) (vz b)) (fmul (vz a) (vy b)))
     (fsub (fmul (vz a) (vx b)) (fmul (vx a) (vz b)))
     (fsub (fmul (vx a) (vy b)) (fmul (vy a) (vx b))).
Lemma crossp_eq : forall a b, crossp a b = vcross a b.
Proof.
  intros. unfold crossp, vcross.
  rewrite (fmul_comm (vz a) (vy b)), (fmul_comm (vx a) (vz b)), (fmul_comm (vy a) (vx b)). reflexivity.
Qed.

(** One lane of [tri_intersect4] (proof device). *)
Definition lane_test_with (cr : vec3 -> vec3 -> vec3) (v0 v1 v2 o d : vec3) (tmin t : f32) : option f32 :=
  let e1 := vsub v1 v0 in
  let e2 := vsub v2 v0 in
  let h := cr d e2 in
  let a := vdot e1 h in
  let f := fdiv f1 a in
  let s := vsub o v0 in
  let u := fmul f (vdot s h) in
  let q := cr s e1 in
  let v := fmul f (vdot d q) in
  let tv := fmul f (vdot e2 q) in
  if (fle a (fneg f1em6) || fge a f1em6) && (fge u f0 && fle u f1) && (fge v f0 && fle (fadd u v) f1) &&
     (fge tv tmin && flt tv t)
  then Some tv else None.
Definition lane_test := lane_test_with vcross.
Lemma lane_test_p : forall v0 v1 v2 o d tmin t,
  lane_test_with crossp v0 v1 v2 o d tmin t = lane_test v0 v1 v2 o d tmin t.
Proof. intros. unfold lane_test, lane_test_with. rewrite !crossp_eq. reflexivity. Qed.

Definition lane_o (p : packet) (i : nat) : vec3 := V3 (wget (p_ox p) i) (wget (p_oy p) i) (wget (p_oz p) i).
Definition lane_d (p : packet) (i : nat) : vec3 := V3 (wget (p_dx p) i) (wget (p_dy p) i) (wget (p_dz p) i).

Lemma mget_and : forall a b i, mget (mand a b) i = mget a i && mget b i.
Proof. intros a b [|[|[|i]]]; reflexivity. Qed.
Lemma wselect_get : forall m a b i, wget (wselect m a b) i = if mget m i then wget a i else wget b i.
Proof. intros m a b [|[|[|i]]]; reflexivity. Qed.
Lemma many_false : forall m, many m = false -> forall i, mget m i = false.
Proof.
  intros [a b c d] H. unfold many in H; cbn in H.
  repeat (apply orb_false_iff in H; destruct H as [H ?]). subst. intros [|[|[|i]]]; reflexivity.
Qed.
Lemma many_true : forall m, many m = true -> exists i, (i < 4)%nat /\ mget m i = true.
Proof.
  intros [a b c d] H. unfold many in H; cbn in H.
  repeat (apply orb_true_iff in H; destruct H as [H|H]).
  - exists 0%nat; split; [lia|exact H].
  - exists 1%nat; split; [lia|exact H].
  - exists 2%nat; split; [lia|exact H].
  - exists 3%nat; split; [lia|exact H].
Qed.
Lemma many_intro : forall m i, mget m i = true -> many m = true.
Proof.
  intros m i H. destruct (many m) eqn:E; auto. rewrite (many_false _ E) in H. discriminate.
Qed.

(** What lane [i] of the packet test does. *)
Definition lane_result (tr : tri) (p : packet) (t_min : vec4) (i : nat) : option f32 :=
  lane_test (tv0 tr) (tv1 tr) (tv2 tr) (lane_o p i) (lane_d p i) (wget t_min i) (wget (p_t p) i).

(** Unfold the lane structure, leaving the scalar operations opaque. *)
Ltac open_lanes :=
  cbv beta iota zeta delta [mget wget mand mor wcmp wneg wsplat wadd wsub wmul wdiv w2 wx wy wz ww
    lane_o lane_d crossp vdot vsub vmap2 vx vy vz m0 m1 m2 m3].

Lemma tri4_lanes : forall tr p t_min, exists m tv,
  (forall i, match lane_result tr p t_min i with
             | Some t => mget m i = true /\ wget tv i = t
             | None => mget m i = false end) /\
  tri_intersect4 tr p t_min =
    if many m then (Some m, packet_set_t p (wselect m tv (p_t p))) else (None, p).
Proof.
  intros tr p t_min. unfold tri_intersect4.
  match goal with |- context [if negb (many ?m) then (None, p) else
                               if negb (many ?m2) then (None, p) else
                               if negb (many ?m3) then (None, p) else
                               if negb (many ?m4) then (None, p) else (Some ?m4, packet_set_t p (wselect ?m4 ?tv _))] =>
     exists m4, tv;
     assert (forall i, mget m4 i = true -> mget m3 i = true) as I3
       by (intro i; rewrite mget_and; intro H; apply andb_true_iff in H; tauto);
     assert (forall i, mget m3 i = true -> mget m2 i = true) as I2
       by (intro i; rewrite mget_and; intro H; apply andb_true_iff in H; tauto);
     assert (forall i, mget m2 i = true -> mget m i = true) as I1
       by (intro i; rewrite mget_and; intro H; apply andb_true_iff in H; tauto);
     assert (forall i, wget tv i =
       (let e1 := vsub (tv1 tr) (tv0 tr) in let e2 := vsub (tv2 tr) (tv0 tr) in
        let h := crossp (lane_d p i) e2 in let a := vdot e1 h in let f := fdiv f1 a in
        let q := crossp (vsub (lane_o p i) (tv0 tr)) e1 in fmul f (vdot e2 q))) as TVE
       by (intros [|[|[|i]]]; open_lanes; reflexivity);
     assert (forall i, mget m4 i = match lane_test_with crossp (tv0 tr) (tv1 tr) (tv2 tr) (lane_o p i) (lane_d p i)
                                     (wget t_min i) (wget (p_t p) i) with Some _ => true | None => false end) as E4
       by (intro i; unfold lane_test_with; cbn zeta;
           rewrite if_some_bool; destruct i as [|[|[|i]]]; open_lanes; reflexivity);
     set (M4 := m4) in *; clearbody M4; set (M3 := m3) in *; clearbody M3; set (M2 := m2) in *; clearbody M2;
     set (M1 := m) in *; clearbody M1; set (TV := tv) in *; clearbody TV end.
  split.
  - intro i. unfold lane_result. rewrite <- lane_test_p. specialize (E4 i). specialize (TVE i).
    unfold lane_test_with in *. cbn zeta in *.
    match goal with |- context [if ?b then _ else _] => destruct b end; auto.
  - destruct (many M4) eqn:F4; cbn [negb].
    + destruct (many_true _ F4) as (i & _ & Hi).
      rewrite (many_intro M3 i), (many_intro M2 i), (many_intro M1 i) by auto. reflexivity.
    + repeat match goal with |- context [if negb (many ?m) then _ else _] => destruct (many m); cbn [negb]; auto end.
Qed.

(** ** Magnitudes: no operation of the test overflows on moderate input *)
Definition mag (k : Z) (x : f32) : Prop := fin x /\ Rabs (fr x) <= bpow radix2 k.

Lemma mag_of_RN : forall (z : f32) r k, notnan z -> fr z = RN r -> Rabs r <= bpow radix2 k ->
  (-149 <= k <= 127)%Z -> mag k z.
Proof.
  intros z r k N E B K.
  assert (Rabs r <= bpow radix2 127) as B' by (eapply Rle_trans; [apply B|apply bpow_le; lia]).
  split; [eapply fin_of_RN; eauto|]. rewrite E. destruct (RN_small r B') as [-> _].
  unfold Rabs in B. apply Rabs_le. rewrite <- (rnd_bpow k) by lia. rewrite <- rnd_opp.
  destruct (Rcase_abs r); split; apply rnd_mono; pose proof (bpow_gt_0 radix2 k); lra.
Qed.

Lemma mag_add : forall k x y, (-150 <= k <= 126)%Z -> mag k x -> mag k y -> mag (k + 1) (fadd x y).
Proof.
  intros k x y K [Fx Bx] [Fy By]. destruct (fr_fadd x y Fx Fy) as [N E].
  eapply mag_of_RN; eauto; [|lia]. rewrite bpow_plus. change (bpow radix2 1) with 2.
  eapply Rle_trans; [apply Rabs_triang|lra].
Qed.

Lemma mag_sub : forall k x y, (-150 <= k <= 126)%Z -> mag k x -> mag k y -> mag (k + 1) (fsub x y).
Proof.
  intros k x y K [Fx Bx] [Fy By]. destruct (fr_fsub x y Fx Fy) as [N E].
  eapply mag_of_RN; eauto; [|lia]. rewrite bpow_plus. change (bpow radix2 1) with 2.
  unfold Rminus. eapply Rle_trans; [apply Rabs_triang|]. rewrite Rabs_Ropp. lra.
Qed.

Lemma mag_mul : forall j k x y, (-149 <= j + k <= 127)%Z -> mag j x -> mag k y -> mag (j + k) (fmul x y).
Proof.
  intros j k x y K [Fx Bx] [Fy By]. destruct (fr_fmul x y Fx Fy) as [N E].
  eapply mag_of_RN; eauto. rewrite Rabs_mult, bpow_plus.
  apply Rmult_le_compat; auto using Rabs_pos.
Qed.

Lemma mag_le : forall j k x, (j <= k)%Z -> mag j x -> mag k x.
Proof. intros j k x H [F B]; split; auto. eapply Rle_trans; [apply B|apply bpow_le; auto]. Qed.

(** 2^20. *)
Definition f2p20 : f32 := @B754_finite 24 128 false 8388608 (-3) eq_refl.

Lemma fr_f2p20 : fr f2p20 = bpow radix2 20.
Proof. simpl. unfold F2R; simpl. lra. Qed.

Lemma within_mag : forall x : f32, fle (fneg f2p20) x = true -> fle x f2p20 = true -> mag 20 x.
Proof.
  intros x A B. pose proof (fle_notnan _ _ B) as [N _].
  apply fle_spec in A; auto. apply fle_spec in B; auto.
  destruct (fr_neg f2p20 eq_refl) as [_ E]. rewrite E, fr_f2p20 in A. rewrite fr_f2p20 in B.
  assert (Rabs (fr x) <= bpow radix2 20) as M by (apply Rabs_le; lra).
  split; auto. apply fin_of_fr; auto. eapply Rle_lt_trans; [apply M|]. unfold BIG. apply bpow_lt; lia.
Qed.

Definition vmag (k : Z) (v : vec3) : Prop := mag k (vx v) /\ mag k (vy v) /\ mag k (vz v).
Lemma vwithin_mag : forall v, vwithin f2p20 v -> vmag 20 v.
Proof. intros v [[A [B C]] [D [E F]]]; split; [|split]; apply within_mag; auto. Qed.

Lemma vmag_sub : forall k a b, (-150 <= k <= 126)%Z -> vmag k a -> vmag k b -> vmag (k + 1) (vsub a b).
Proof. intros k a b K (A & B & C) (D & E & F). unfold vsub, vmap2. split; [|split]; cbn [vx vy vz]; apply mag_sub; auto. Qed.

Lemma vmag_cross : forall j k a b, (-149 <= j + k <= 126)%Z -> vmag j a -> vmag k b -> vmag (j + k + 1) (vcross a b).
Proof.
  intros j k a b K (A & B & C) (D & E & F). unfold vcross.
  split; [|split]; cbn [vx vy vz]; (apply mag_sub; [lia|apply mag_mul; auto; lia|
    rewrite Z.add_comm; apply mag_mul; auto; lia]).
Qed.

Lemma mag_dot : forall j k a b, (-149 <= j + k <= 125)%Z -> vmag j a -> vmag k b -> mag (j + k + 2) (vdot a b).
Proof.
  intros j k a b K (A & B & C) (D & E & F). unfold vdot.
  replace (j + k + 2)%Z with (j + k + 1 + 1)%Z by lia.
  apply mag_add; [lia| |].
  - apply mag_add; [lia| |]; apply mag_mul; auto; lia.
  - apply (mag_le (j + k)); [lia|]. apply mag_mul; auto; lia.
Qed.

Lemma fr_f1em5 : fr f1em5 = IZR 10995116 * bpow radix2 (-40).
Proof. reflexivity. Qed.
Lemma fr_f1em6 : fr f1em6 = IZR 8796093 * bpow radix2 (-43).
Proof. reflexivity. Qed.

Lemma eps_bounds : bpow radix2 (-20) <= fr f1em6 /\ fr f1em6 < fr f1em5.
Proof. rewrite fr_f1em5, fr_f1em6. simpl. lra. Qed.

Lemma mag_recip : forall a : f32, fin a -> bpow radix2 (-20) <= Rabs (fr a) -> mag 20 (fdiv f1 a).
Proof.
  intros a Fa B. assert (fr a <> 0) as NZ.
  { intro Z. rewrite Z, Rabs_R0 in B. pose proof (bpow_gt_0 radix2 (-20)); lra. }
  destruct (fr_fdiv f1 a eq_refl Fa NZ) as [N E].
  eapply mag_of_RN; eauto; [|lia].
  unfold Rdiv. rewrite Rabs_mult, Rabs_inv by auto.
  assert (fr f1 = 1) as -> by (simpl; unfold F2R; simpl; lra).
  rewrite Rabs_R1, Rmult_1_l. change 20%Z with (- - 20)%Z. rewrite bpow_opp.
  apply Rinv_le; [apply bpow_gt_0|exact B].
Qed.

Lemma feq_of_le : forall x y : f32, fle x y = true -> fle y x = true -> feq x y = true.
Proof.
  intros x y A B. pose proof (fle_notnan _ _ A) as [Nx Ny].
  assert (fr x = fr y) as E by (apply fle_spec in A; apply fle_spec in B; auto; lra).
  destruct (is_finite x) eqn:Fx, (is_finite y) eqn:Fy.
  - unfold feq. rewrite Beqb_correct by auto. rewrite !fr_fin in E by auto. rewrite E. apply Req_bool_true; auto.
  - destruct y as [|s| |]; try discriminate. destruct x as [ | | |], s; try discriminate; auto.
  - destruct x as [|s| |]; try discriminate. destruct y as [ | | |], s; try discriminate; auto.
  - destruct x as [|s| |], y as [|s'| |]; try discriminate. destruct s, s'; auto; discriminate.
Qed.

(** ** Scalar and packet test *)
Lemma tri_intersect_true : forall tr r r', tri_intersect tr r = (true, r') ->
  let e1 := vsub (tv1 tr) (tv0 tr) in let e2 := vsub (tv2 tr) (tv0 tr) in
  let h := vcross (r_dir r) e2 in let a := vdot e1 h in let f := fdiv f1 a in
  let s := vsub (r_origin r) (tv0 tr) in let u := fmul f (vdot s h) in
  let q := vcross s e1 in let v := fmul f (vdot (r_dir r) q) in let t := fmul f (vdot e2 q) in
  fgt a (fneg f1em5) && flt a f1em5 = false /\ fle f0 u = true /\ fle u f1 = true /\
  flt v f0 = false /\ fgt (fadd u v) f1 = false /\ flt (r_tmin r) t = true /\ flt t (r_t r) = true /\
  r' = ray_set_t r t.
Proof.
  intros tr r r' H. rewrite <- tri_intersect_src_eq in H. unfold tri_intersect_src in H. cbn zeta in *.
  repeat match type of H with (if ?b then _ else _) = _ => destruct b eqn:?; try discriminate end.
  injection H as <-.
  apply negb_false_iff in Heqb0. apply andb_true_iff in Heqb0. apply orb_false_iff in Heqb1.
  apply andb_true_iff in Heqb2. tauto.
Qed.

Lemma tri_intersect_intro : forall tr r,
  let e1 := vsub (tv1 tr) (tv0 tr) in let e2 := vsub (tv2 tr) (tv0 tr) in
  let h := vcross (r_dir r) e2 in let a := vdot e1 h in let f := fdiv f1 a in
  let s := vsub (r_origin r) (tv0 tr) in let u := fmul f (vdot s h) in
  let q := vcross s e1 in let v := fmul f (vdot (r_dir r) q) in let t := fmul f (vdot e2 q) in
  fgt a (fneg f1em5) && flt a f1em5 = false -> fle f0 u = true -> fle u f1 = true ->
  flt v f0 = false -> fgt (fadd u v) f1 = false -> flt (r_tmin r) t = true -> flt t (r_t r) = true ->
  tri_intersect tr r = (true, ray_set_t r t).
Proof.
  intros. rewrite <- tri_intersect_src_eq. unfold tri_intersect_src. fold e1 e2. fold h. fold a. fold f s.
  fold u. fold q. fold v. fold t. cbv zeta. unfold fgt, flt in *. rewrite H, H0, H1, H2, H3, H4, H5. reflexivity.
Qed.

Lemma scalar_lane : forall tr r r',
  vwithin f2p20 (tv0 tr) -> vwithin f2p20 (tv1 tr) -> vwithin f2p20 (tv2 tr) ->
  vwithin f2p20 (r_origin r) -> vwithin f2p20 (r_dir r) ->
  tri_intersect tr r = (true, r') ->
  lane_test (tv0 tr) (tv1 tr) (tv2 tr) (r_origin r) (r_dir r) (r_tmin r) (r_t r) = Some (r_t r').
Proof.
  intros tr r r' M0 M1 M2 MO MD H. apply vwithin_mag in M0, M1, M2, MO, MD.
  apply tri_intersect_true in H. cbn zeta in H.
  unfold lane_test, lane_test_with.
  assert (vmag 21 (vsub (tv1 tr) (tv0 tr))) as E1 by (apply (vmag_sub 20); auto; lia).
  assert (vmag 21 (vsub (tv2 tr) (tv0 tr))) as E2 by (apply (vmag_sub 20); auto; lia).
  assert (vmag 21 (vsub (r_origin r) (tv0 tr))) as S by (apply (vmag_sub 20); auto; lia).
  cbn zeta.
  set (e1 := vsub (tv1 tr) (tv0 tr)) in *. set (e2 := vsub (tv2 tr) (tv0 tr)) in *.
  set (s := vsub (r_origin r) (tv0 tr)) in *.
  assert (vmag 42 (vcross (r_dir r) e2)) as Hh by (apply (vmag_cross 20 21); auto; lia).
  assert (vmag 43 (vcross s e1)) as Hq by (apply (vmag_cross 21 21); auto; lia).
  set (h := vcross (r_dir r) e2) in *. set (q := vcross s e1) in *.
  assert (mag 65 (vdot e1 h)) as Ha by (apply (mag_dot 21 42); auto; lia).
  assert (mag 65 (vdot s h)) as Hsh by (apply (mag_dot 21 42); auto; lia).
  assert (mag 65 (vdot (r_dir r) q)) as Hdq by (apply (mag_dot 20 43); auto; lia).
  set (a := vdot e1 h) in *.
  destruct H as (A & U0 & U1 & V0 & UV & T0 & T1 & ->).
  destruct eps_bounds as [EB1 EB2]. pose proof (bpow_gt_0 radix2 (-20)) as EB0.
  assert (fle a (fneg f1em6) || fge a f1em6 = true /\ bpow radix2 (-20) <= Rabs (fr a)) as [A1 A2].
  { destruct Ha as [Fa _]. pose proof (fin_notnan _ Fa) as Na.
    destruct (fr_neg f1em5 eq_refl) as [N5 R5]. destruct (fr_neg f1em6 eq_refl) as [N6 R6].
    unfold fgt in A. apply andb_false_iff in A. destruct A as [A|A].
    - change (flt (fneg f1em5) a = false) in A. apply flt_false in A; auto. rewrite R5 in A. split.
      + rewrite (proj2 (fle_spec a (fneg f1em6) Na N6)); [reflexivity|]. rewrite R6; lra.
      + rewrite Rabs_left1 by lra. lra.
    - apply flt_false in A; auto. split.
      + unfold fge. change (fle a (fneg f1em6) || fle f1em6 a = true).
        rewrite (proj2 (fle_spec f1em6 a eq_refl Na)); [apply orb_true_r|]. lra.
      + rewrite Rabs_right by lra. lra. }
  pose proof (mag_recip a (proj1 Ha) A2) as Hf. set (f := fdiv f1 a) in *.
  assert (mag 85 (fmul f (vdot s h))) as Hu by (apply (mag_mul 20 65); auto; lia).
  assert (mag 85 (fmul f (vdot (r_dir r) q))) as Hv by (apply (mag_mul 20 65); auto; lia).
  assert (mag 86 (fadd (fmul f (vdot s h)) (fmul f (vdot (r_dir r) q)))) as Huv by (apply (mag_add 85); auto; lia).
  rewrite A1. unfold fge. change (Bleb f0 (fmul f (vdot s h))) with (fle f0 (fmul f (vdot s h))).
  rewrite U0, U1.
  assert (forall x : f32, fin x -> flt x f0 = false -> Bleb f0 x = true) as L0.
  { intros x Fx Hx. apply (proj2 (fle_spec f0 x eq_refl (fin_notnan _ Fx))).
    apply flt_false in Hx; auto using fin_notnan. }
  rewrite (L0 _ (proj1 Hv) V0).
  assert (fle (fadd (fmul f (vdot s h)) (fmul f (vdot (r_dir r) q))) f1 = true) as L1.
  { apply fle_spec; auto using fin_notnan; [apply fin_notnan, Huv|].
    unfold fgt in UV. apply flt_false in UV; auto. apply fin_notnan, Huv. }
  rewrite L1. apply flt_fle in T0 as T0'. unfold fle in T0'. rewrite T0', T1. reflexivity.
Qed.

Lemma lane_scalar : forall tr r t,
  lane_test (tv0 tr) (tv1 tr) (tv2 tr) (r_origin r) (r_dir r) (r_tmin r) (r_t r) = Some t ->
  tri_intersect tr r = (true, ray_set_t r t) \/ feq t (r_tmin r) = true \/
  (let a := vdot (vsub (tv1 tr) (tv0 tr)) (vcross (r_dir r) (vsub (tv2 tr) (tv0 tr))) in
   flt (fneg f1em5) a = true /\ flt a f1em5 = true).
Proof.
  intros tr r t H. unfold lane_test, lane_test_with in H. cbn zeta in *.
  match type of H with (if ?b then _ else _) = _ => destruct b eqn:B; try discriminate end.
  match type of H with Some ?x = Some ?y => assert (y = x) as -> by congruence end. clear H.
  apply andb_true_iff in B as [B B4]. apply andb_true_iff in B as [B B3]. apply andb_true_iff in B as [B1 B2].
  apply andb_true_iff in B2 as [U0 U1]. apply andb_true_iff in B3 as [V0 V1]. apply andb_true_iff in B4 as [T0 T1].
  match goal with |- _ \/ _ \/ (flt _ ?a = _ /\ _) => destruct (fgt a (fneg f1em5) && flt a f1em5) eqn:A end.
  { right; right. apply andb_true_iff in A. exact A. }
  match goal with |- _ \/ ?x = _ \/ _ => destruct x eqn:Q; [auto|left] end.
  apply tri_intersect_intro; auto.
  - match goal with |- flt ?x ?y = false => destruct (flt x y) eqn:F; auto end. exfalso.
    unfold fge in V0. pose proof (flt_notnan _ _ F) as [N1 N2]. apply flt_spec in F; auto.
    apply (proj1 (fle_spec _ _ N2 N1)) in V0. lra.
  - match goal with |- fgt ?x ?y = false => destruct (fgt x y) eqn:F; auto end. exfalso.
    unfold fgt in F. match type of F with Bltb ?x ?y = _ => change (flt x y = true) in F end.
    pose proof (flt_notnan _ _ F) as [N1 N2]. apply flt_spec in F; auto.
    apply (proj1 (fle_spec _ _ N2 N1)) in V1. lra.
  - unfold fge in T0. match type of T0 with Bleb ?x ?y = _ => change (fle x y = true) in T0; set (t := y) in * end.
    pose proof (fle_notnan _ _ T0) as [N1 N2]. apply flt_spec; auto. apply fle_spec in T0; auto.
    destruct (Rle_lt_or_eq_dec _ _ T0) as [|E]; auto. exfalso.
    enough (feq t (r_tmin r) = true) as QQ by congruence.
    assert (fle t (r_tmin r) = true) as G by (apply fle_spec; auto; lra).
    assert (fle (r_tmin r) t = true) as G' by (apply fle_spec; auto; lra).
    apply feq_of_le; auto.
Qed.
