(** * Properties C37, C38, C46, C47: triangles *)
Require Import List ZArith Bool Reals Lra Lia.
From Flocq Require Import Core BinarySingleNaN.
From Verif Require Import F32 F32Facts Vec RayModel AabbModel SpecGeom AabbProofs Base TriModel SpecTri TriProofs PropBox.
Import ListNotations.
Local Open Scope nat_scope.

(** Lane [i] of a packet, as the ray that [RayPacket4::ray] returns but with
    the lower bound the caller passed to [intersect4]. *)
Definition lane_ray (p : packet) (t_min : vec4) (i : nat) : res ray :=
  do r <- packet_ray p i;
  Ok (Ray (r_origin r) (wget t_min i) (r_dir r) (r_t r) (r_inv r) (r_sx r) (r_sy r) (r_sz r)).

(** ** C37 *)

(** The ray changes only if the call returns true, and then only its [t],
    which becomes smaller and stays above [t_min]. *)
Theorem C37_scalar : forall tr r b r', tri_intersect tr r = (b, r') ->
  (b = true -> exists t, r' = ray_set_t r t /\ flt (r_tmin r) t = true /\ flt t (r_t r) = true) /\
  (b = false -> r' = r).
Proof.
  intros tr r b r' H. unfold tri_intersect in H.
  destruct (tri_test _ _ _ _ _ _ _ _) as [t|] eqn:E; injection H as <- <-; split; intro K; try discriminate; auto.
  apply tri_test_f32_some in E. exists t; tauto.
Qed.

(** "Exactly when it set [ray.t]": a call that returned false left [t], a call
    that returned true made it strictly smaller. *)
Theorem C37_scalar_iff : forall tr r b r', tri_intersect tr r = (b, r') ->
  (b = true <-> flt (r_t r') (r_t r) = true).
Proof.
  intros tr r b r' H. destruct (C37_scalar _ _ _ _ H) as [A B]. split.
  - intro T. destruct (A T) as (t & -> & _ & L). exact L.
  - intro L. destruct b; auto. rewrite (B eq_refl) in L. rewrite flt_irrefl in L. discriminate.
Qed.

(** The source text with glam's vector operations is the function above. *)
Theorem C37_source : forall tr r, tri_intersect_src tr r = tri_intersect tr r.
Proof. exact tri_intersect_src_eq. Qed.

(** The packet version: [None] leaves the packet alone; [Some flags] changes
    nothing but [t], has some flag set, and each lane's [t] is lowered (and not
    below its [t_min]) exactly if its flag is set. *)
Theorem C37_packet : forall tr p t_min o p', tri_intersect4 tr p t_min = (o, p') ->
  match o with
  | None => p' = p
  | Some m =>
      p' = packet_set_t p (p_t p') /\ (exists i, i < 4 /\ mget m i = true) /\
      forall i, i < 4 ->
        if mget m i then flt (wget (p_t p') i) (wget (p_t p) i) = true /\ fle (wget t_min i) (wget (p_t p') i) = true
        else wget (p_t p') i = wget (p_t p) i
  end.
Proof.
  intros tr p t_min o p' H. destruct (tri4_lanes tr p t_min) as (m & tv & L & E). rewrite E in H.
  destruct (many m) eqn:M; injection H as <- <-; auto.
  split; [reflexivity|]. split; [apply many_true; auto|].
  intros i _. specialize (L i). cbn [p_t packet_set_t]. rewrite wselect_get.
  unfold lane_result, lane_test, lane_test_with in L. cbn zeta in L.
  match type of L with context [if ?b then _ else _] => destruct b eqn:B end.
  - destruct L as [-> L]. apply andb_true_iff in B as [_ B]. apply andb_true_iff in B as [B1 B2].
    rewrite L. split; auto.
  - rewrite L. reflexivity.
Qed.

(** ** C38 *)

(** The code's formulas, over exact reals and with its threshold 1e-5: for a
    triangle that is not nearly parallel to the ray, the test succeeds with
    [t] exactly if the point at [t] is in the triangle and in the open
    interval; otherwise nothing is reported. *)
Theorem C38_exact : forall v0 v1 v2 origin direction t_min t_max,
  (Rabs (facing v0 v1 v2 direction) >= / 100000)%R ->
  forall t, tri_test (real_scalars (/ 100000)) v0 v1 v2 origin direction t_min t_max = Some t <->
            (t_min < t < t_max)%R /\ on_triangle v0 v1 v2 origin direction t.
Proof. intros. apply tri_test_exact; auto. lra. Qed.

Theorem C38_parallel : forall v0 v1 v2 origin direction t_min t_max,
  (Rabs (facing v0 v1 v2 direction) < / 100000)%R ->
  tri_test (real_scalars (/ 100000)) v0 v1 v2 origin direction t_min t_max = None.
Proof. intros. apply tri_test_parallel; auto. Qed.

(** The hit is unique, so "the distance" is well defined. *)
Theorem C38_unique : forall v0 v1 v2 origin direction t t',
  facing v0 v1 v2 direction <> 0%R ->
  on_triangle v0 v1 v2 origin direction t -> on_triangle v0 v1 v2 origin direction t' -> t = t'.
Proof.
  intros v0 v1 v2 o d t t' NZ (w0 & w1 & w2 & _ & _ & _ & S & Hx & Hy & Hz) (w0' & w1' & w2' & _ & _ & _ & S' & Hx' & Hy' & Hz').
  assert (w0 = 1 - w1 - w2)%R as -> by lra. assert (w0' = 1 - w1' - w2')%R as -> by lra.
  destruct (cramer_unique v0 v1 v2 o d 0 t w1 w2 Hx Hy Hz) as (E & _).
  destruct (cramer_unique v0 v1 v2 o d 0 t' w1' w2' Hx' Hy' Hz') as (E' & _).
  rewrite E' in E. apply Rmult_eq_reg_r in E; auto.
Qed.

(** ** C46: the packet test and the scalar test *)

(** A lane whose ray the scalar test accepts is flagged, with the same [t]
    bit for bit (coordinates within 2^20, so that nothing overflows). *)
Theorem C46_scalar_to_packet : forall tr p t_min i r r',
  lane_ray p t_min i = Ok r ->
  vwithin f2p20 (tv0 tr) -> vwithin f2p20 (tv1 tr) -> vwithin f2p20 (tv2 tr) ->
  vwithin f2p20 (r_origin r) -> vwithin f2p20 (r_dir r) ->
  tri_intersect tr r = (true, r') ->
  exists m p', tri_intersect4 tr p t_min = (Some m, p') /\ mget m i = true /\ wget (p_t p') i = r_t r'.
Proof.
  intros tr p t_min i r r' L M0 M1 M2 MO MD H.
  unfold lane_ray, packet_ray in L. destruct (i <? 4) eqn:I; [|discriminate]. cbn [bind] in L. injection L as <-.
  destruct (tri4_lanes tr p t_min) as (m & tv & LR & E). specialize (LR i).
  assert (lane_result tr p t_min i = Some (r_t r')) as R.
  { unfold lane_result. apply (scalar_lane tr _ r' M0 M1 M2 MO MD H). }
  rewrite R in LR. destruct LR as [Hm Ht].
  rewrite (many_intro m i Hm) in E. exists m, (packet_set_t p (wselect m tv (p_t p))).
  split; [exact E|]. split; [exact Hm|]. cbn [p_t packet_set_t]. rewrite wselect_get, Hm. exact Ht.
Qed.

(** Conversely a flagged lane is a scalar hit with the same [t], except where
    the two differ on purpose: the packet test takes [t = t_min] and has the
    smaller threshold 1e-6 for the determinant. *)
Theorem C46_packet_to_scalar : forall tr p t_min i r m p',
  lane_ray p t_min i = Ok r -> tri_intersect4 tr p t_min = (Some m, p') -> mget m i = true ->
  let t := wget (p_t p') i in
  let det := vdot (vsub (tv1 tr) (tv0 tr)) (vcross (r_dir r) (vsub (tv2 tr) (tv0 tr))) in
  tri_intersect tr r = (true, ray_set_t r t) \/ feq t (wget t_min i) = true \/
  (flt (fneg f1em5) det = true /\ flt det f1em5 = true).
Proof.
  intros tr p t_min i r m p' L H F. cbn zeta.
  unfold lane_ray, packet_ray in L. destruct (i <? 4) eqn:I; [|discriminate]. cbn [bind] in L. injection L as <-.
  destruct (tri4_lanes tr p t_min) as (m' & tv & LR & E). specialize (LR i). rewrite E in H.
  destruct (many m'); [|discriminate]. injection H as -> <-.
  cbn [p_t packet_set_t r_dir]. rewrite wselect_get, F.
  destruct (lane_result tr p t_min i) as [t|] eqn:R; [|congruence]. destruct LR as [_ ->].
  unfold lane_result in R.
  apply (lane_scalar tr (Ray (lane_o p i) (wget t_min i) (lane_d p i) (wget (p_t p) i)
           (vdivs f1 (lane_d p i)) (flt (vx (lane_d p i)) f0) (flt (vy (lane_d p i)) f0) (flt (vz (lane_d p i)) f0)) t R).
Qed.

(** ** C47: split *)

(** Each vertex is in the box of its side. *)
Lemma grow_any : forall a p, box_ok a -> box_in a (grow a p) /\ box_ok (grow a p).
Proof.
  assert (forall x y : f32, notnan x -> fle (fmin x y) x = true) as A.
  { intros x y N. destruct (is_nan y) eqn:Y; [|apply fmin_le_l; auto].
    unfold fmin. unfold fnan. rewrite N, Y. apply fle_refl; auto. }
  assert (forall x y : f32, notnan x -> fle x (fmax x y) = true) as B.
  { intros x y N. destruct (is_nan y) eqn:Y; [|apply fmax_ge_l; auto].
    unfold fmax. unfold fnan. rewrite N, Y. apply fle_refl; auto. }
  intros a p O.
  assert (box_in a (grow a p)) as I.
  { destruct O as [(X & Y & Z) (X' & Y' & Z')]. unfold box_in, grow, vmin, vmax, vmap2, vle; cbn [bmin bmax vx vy vz].
    repeat split; auto. }
  split; auto. apply box_in_ok in I. tauto.
Qed.

Lemma grow_if_mono : forall q p lr, box_ok (fst lr) -> box_ok (snd lr) ->
  (box_in (fst lr) (fst (grow_if q p lr)) /\ box_ok (fst (grow_if q p lr))) /\
  (box_in (snd lr) (snd (grow_if q p lr)) /\ box_ok (snd (grow_if q p lr))).
Proof.
  intros q p [l r] A B. destruct q; cbn [grow_if fst snd] in *; split; try (apply grow_any; auto);
    (split; [apply box_in_refl|]; auto).
Qed.

Lemma split_if_mono : forall q p lr, box_ok (fst lr) -> box_ok (snd lr) ->
  (box_in (fst lr) (fst (split_if q p lr)) /\ box_ok (fst (split_if q p lr))) /\
  (box_in (snd lr) (snd (split_if q p lr)) /\ box_ok (snd (split_if q p lr))).
Proof.
  intros q p [l r] A B. destruct q; cbn [split_if fst snd] in *; split; try (apply grow_any; auto);
    (split; [apply box_in_refl|]; auto).
Qed.

Lemma grow_if_pt : forall (q : bool) p lr, box_ok (fst lr) -> box_ok (snd lr) -> vok p ->
  in_box (if q then fst (grow_if q p lr) else snd (grow_if q p lr)) p.
Proof. intros [|] p [l r] A B P; cbn [grow_if fst snd] in *; apply grow_pt; auto. Qed.

Theorem C47_vertices_partial : forall tr axis position k,
  forall v, vok v -> nth_error [tv0 tr; tv1 tr; tv2 tr] k = Some v ->
  in_box (if fle (vget v axis) position then fst (tri_split tr axis position) else snd (tri_split tr axis position)) v.
Proof.
  intros tr axis position k v Nv Hv; unfold tri_split. cbn zeta.
  set (q0 := fle (vget (tv0 tr) axis) position). set (q1 := fle (vget (tv1 tr) axis) position).
  set (q2 := fle (vget (tv2 tr) axis) position).
  set (s01 := split_edge axis position (tv0 tr) (tv1 tr)). set (s12 := split_edge axis position (tv1 tr) (tv2 tr)).
  set (s20 := split_edge axis position (tv2 tr) (tv0 tr)).
  set (lr0 := (aabb_new, aabb_new)).
  assert (box_ok (fst lr0)) as A0 by apply aabb_new_ok. assert (box_ok (snd lr0)) as B0 by apply aabb_new_ok.
  destruct (grow_if_mono q0 (tv0 tr) lr0 A0 B0) as [[I1 A1] [J1 B1]].
  pose proof (grow_if_pt q0 (tv0 tr) lr0 A0 B0) as P0.
  set (lr1 := grow_if q0 (tv0 tr) lr0) in *.
  destruct (grow_if_mono q1 (tv1 tr) lr1 A1 B1) as [[I2 A2] [J2 B2]].
  pose proof (grow_if_pt q1 (tv1 tr) lr1 A1 B1) as P1.
  set (lr2 := grow_if q1 (tv1 tr) lr1) in *.
  destruct (grow_if_mono q2 (tv2 tr) lr2 A2 B2) as [[I3 A3] [J3 B3]].
  pose proof (grow_if_pt q2 (tv2 tr) lr2 A2 B2) as P2.
  set (lr3 := grow_if q2 (tv2 tr) lr2) in *.
  destruct (split_if_mono (xorb q0 q1) s01 lr3 A3 B3) as [[I4 A4] [J4 B4]].
  set (lr4 := split_if (xorb q0 q1) s01 lr3) in *.
  destruct (split_if_mono (xorb q1 q2) s12 lr4 A4 B4) as [[I5 A5] [J5 B5]].
  set (lr5 := split_if (xorb q1 q2) s12 lr4) in *.
  destruct (split_if_mono (xorb q2 q0) s20 lr5 A5 B5) as [[I6 A6] [J6 B6]].
  set (lr6 := split_if (xorb q2 q0) s20 lr5) in *.
  destruct k as [|[|[|k]]]; cbn [nth_error] in Hv; [| | |destruct k; discriminate]; injection Hv as <-.
  - fold q0. destruct q0; eapply in_box_mono; try exact (P0 Nv); eauto 8 using box_in_trans.
  - fold q1. destruct q1; eapply in_box_mono; try exact (P1 Nv); eauto 8 using box_in_trans.
  - fold q2. destruct q2; eapply in_box_mono; try exact (P2 Nv); eauto 8 using box_in_trans.
Qed.

Lemma tri_split_ok : forall tr axis position, box_ok (fst (tri_split tr axis position)) /\ box_ok (snd (tri_split tr axis position)).
Proof.
  intros tr axis position. unfold tri_split. cbn zeta.
  assert (forall q p lr, box_ok (fst lr) /\ box_ok (snd lr) -> box_ok (fst (grow_if q p lr)) /\ box_ok (snd (grow_if q p lr))) as G
    by (intros q p lr (A & B); destruct (grow_if_mono q p lr A B) as [[_ X] [_ Y]]; auto).
  assert (forall q p lr, box_ok (fst lr) /\ box_ok (snd lr) -> box_ok (fst (split_if q p lr)) /\ box_ok (snd (split_if q p lr))) as H
    by (intros q p lr (A & B); destruct (split_if_mono q p lr A B) as [[_ X] [_ Y]]; auto).
  apply H, H, H, G, G, G. split; apply aabb_new_ok.
Qed.

(** Where an edge crosses the plane (one end is at most [position] on the axis,
    the other is not), the point the code computes for the crossing is in both
    boxes. *)
Lemma split_if_pt : forall (q : bool) p lr, box_ok (fst lr) -> box_ok (snd lr) -> vok p -> q = true ->
  in_box (fst (split_if q p lr)) p /\ in_box (snd (split_if q p lr)) p.
Proof. intros q p [l r] A B P ->; cbn [split_if fst snd] in *. split; apply grow_pt; auto. Qed.
Theorem C47_edges_partial : forall tr axis position k a b,
  nth_error [(tv0 tr, tv1 tr); (tv1 tr, tv2 tr); (tv2 tr, tv0 tr)] k = Some (a, b) ->
  fle (vget a axis) position <> fle (vget b axis) position ->
  vok (split_edge axis position a b) ->
  in_box (fst (tri_split tr axis position)) (split_edge axis position a b) /\
  in_box (snd (tri_split tr axis position)) (split_edge axis position a b).
Proof.
  intros tr axis position k a b Hk Cr Vp; unfold tri_split. cbn zeta.
  set (q0 := fle (vget (tv0 tr) axis) position). set (q1 := fle (vget (tv1 tr) axis) position).
  set (q2 := fle (vget (tv2 tr) axis) position).
  set (s01 := split_edge axis position (tv0 tr) (tv1 tr)). set (s12 := split_edge axis position (tv1 tr) (tv2 tr)).
  set (s20 := split_edge axis position (tv2 tr) (tv0 tr)).
  set (lr0 := (aabb_new, aabb_new)).
  assert (box_ok (fst lr0)) as A0 by apply aabb_new_ok. assert (box_ok (snd lr0)) as B0 by apply aabb_new_ok.
  destruct (grow_if_mono q0 (tv0 tr) lr0 A0 B0) as [[I1 A1] [J1 B1]]. set (lr1 := grow_if q0 (tv0 tr) lr0) in *.
  destruct (grow_if_mono q1 (tv1 tr) lr1 A1 B1) as [[I2 A2] [J2 B2]]. set (lr2 := grow_if q1 (tv1 tr) lr1) in *.
  destruct (grow_if_mono q2 (tv2 tr) lr2 A2 B2) as [[I3 A3] [J3 B3]]. set (lr3 := grow_if q2 (tv2 tr) lr2) in *.
  destruct (split_if_mono (xorb q0 q1) s01 lr3 A3 B3) as [[I4 A4] [J4 B4]].
  pose proof (split_if_pt (xorb q0 q1) s01 lr3 A3 B3) as P0.
  set (lr4 := split_if (xorb q0 q1) s01 lr3) in *.
  destruct (split_if_mono (xorb q1 q2) s12 lr4 A4 B4) as [[I5 A5] [J5 B5]].
  pose proof (split_if_pt (xorb q1 q2) s12 lr4 A4 B4) as P1.
  set (lr5 := split_if (xorb q1 q2) s12 lr4) in *.
  destruct (split_if_mono (xorb q2 q0) s20 lr5 A5 B5) as [[I6 A6] [J6 B6]].
  pose proof (split_if_pt (xorb q2 q0) s20 lr5 A5 B5) as P2.
  set (lr6 := split_if (xorb q2 q0) s20 lr5) in *.
  assert (forall x y : bool, x <> y -> xorb x y = true) as X by (intros [|] [|] N; auto; contradiction N; reflexivity).
  destruct k as [|[|[|k]]]; cbn [nth_error] in Hk; [| | |destruct k; discriminate]; injection Hk as <- <-.
  - destruct (P0 Vp (X _ _ Cr)) as [Q1 Q2]. split; [eapply in_box_mono; try exact Q1; eauto 8 using box_in_trans|eapply in_box_mono; try exact Q2; eauto 8 using box_in_trans].
  - destruct (P1 Vp (X _ _ Cr)) as [Q1 Q2]. split; [eapply in_box_mono; try exact Q1; eauto 8 using box_in_trans|eapply in_box_mono; try exact Q2; eauto 8 using box_in_trans].
  - apply P2; auto.
Qed.
(** The two boxes need not cover the triangle: a point of this triangle is in
    neither of them (the split points are computed as [a * t * (b - a)]
    instead of [a + t * (b - a)]). *)
Definition lossy_tri : tri := Tri (pt (-5) (-3) 1) (pt (-5) 2 8) (pt 5 8 (-2)).
Definition lossy_point : vec3 := V3 (fdiv (fz (-5)) (fz 2)) (fz 1) (fz 2).

(** [p] is a convex combination of the vertices with the weights 1/2, 1/4, 1/4. *)
Definition mixed (tr : tri) (p : vec3) : Prop :=
  forall axis, axis < 3 ->
    fval (vget p axis) = (/ 2 * fval (vget (tv0 tr) axis) + / 4 * fval (vget (tv1 tr) axis) + / 4 * fval (vget (tv2 tr) axis))%R.

Definition in_boxb (b : aabb) (p : vec3) : bool :=
  fle (vx (bmin b)) (vx p) && fle (vy (bmin b)) (vy p) && fle (vz (bmin b)) (vz p) &&
  fle (vx p) (vx (bmax b)) && fle (vy p) (vy (bmax b)) && fle (vz p) (vz (bmax b)).
Lemma in_boxb_false : forall b p, in_boxb b p = false -> ~ in_box b p.
Proof.
  intros b p H [(A & B & C) (D & E & F)]. unfold in_boxb in H.
  rewrite A, B, C, D, E, F in H. discriminate.
Qed.

Lemma fval_SF : forall (x : f32) s m e, B2SF x = SpecFloat.S754_finite s m e -> fval x = F2R (Float radix2 (cond_Zopp s (Zpos m)) e).
Proof. intros x s m e H. destruct x; cbn in H; try discriminate. injection H as -> -> ->. reflexivity. Qed.

Theorem C47_covers_refuted : mixed lossy_tri lossy_point /\
  ~ in_box (fst (tri_split lossy_tri 0 (fz 1))) lossy_point /\
  ~ in_box (snd (tri_split lossy_tri 0 (fz 1))) lossy_point.
Proof.
  split; [|split; apply in_boxb_false; vm_compute; reflexivity].
  intros axis A. destruct axis as [|[|[|axis]]]; [| | |lia]; cbn [vget lossy_tri lossy_point tv0 tv1 tv2 pt vx vy vz];
    repeat match goal with |- context [fval ?x] =>
      let y := eval vm_compute in (B2SF x) in
      match y with SpecFloat.S754_finite ?s ?m ?e => rewrite (fval_SF x s m e) by (vm_compute; reflexivity) end end;
    unfold F2R; cbn; lra.
Qed.

(** ** Non-vacuity *)

(** The triangle (0,0,5) (4,0,5) (0,4,5) and the ray from (1,1,0) along z: hit
    at 5; with the packet of four such rays, one of which misses. *)
Definition ex_tri : tri := Tri (pt 0 0 5) (pt 4 0 5) (pt 0 4 5).
Definition ex_tray : ray := ray_new (pt 1 1 0) (pt 0 0 1).
Definition ex_pt4 (x y z : Z) : vec4 := V4 (fz x) (fz y) (fz z) f0.
Definition ex_tpacket : packet :=
  packet_new (ex_pt4 1 1 0) (ex_pt4 9 9 0) (ex_pt4 1 2 0) (ex_pt4 1 1 7)
             (ex_pt4 0 0 1) (ex_pt4 0 0 1) (ex_pt4 0 0 1) (ex_pt4 0 0 1).

Example C37_nonvacuous :
  fst (tri_intersect ex_tri ex_tray) = true /\ feq (r_t (snd (tri_intersect ex_tri ex_tray))) (fz 5) = true /\
  fst (tri_intersect ex_tri (ray_new (pt 9 9 0) (pt 0 0 1))) = false.
Proof. repeat split; vm_compute; reflexivity. Qed.

Example C37_packet_nonvacuous :
  fst (tri_intersect4 ex_tri ex_tpacket (wsplat f1em4)) = Some (M4 true false true false).
Proof. vm_compute; reflexivity. Qed.

Definition within20b (v : vec3) : bool :=
  fle (fneg f2p20) (vx v) && fle (fneg f2p20) (vy v) && fle (fneg f2p20) (vz v) &&
  fle (vx v) f2p20 && fle (vy v) f2p20 && fle (vz v) f2p20.
Lemma within20b_ok : forall v, within20b v = true -> vwithin f2p20 v.
Proof.
  intros v H. unfold within20b in H. repeat (apply andb_true_iff in H; destruct H as [H ?]).
  split; repeat split; assumption.
Qed.

Lemma fst_true : forall {A} (x : bool * A), fst x = true -> exists r, x = (true, r).
Proof. intros A [[|] r] H; [exists r; reflexivity|discriminate]. Qed.

(** Lane 0 of that packet satisfies the hypotheses of [C46_scalar_to_packet]. *)
Example C46_nonvacuous : exists r, lane_ray ex_tpacket (wsplat f1em4) 0 = Ok r /\
  vwithin f2p20 (tv0 ex_tri) /\ vwithin f2p20 (tv1 ex_tri) /\ vwithin f2p20 (tv2 ex_tri) /\
  vwithin f2p20 (r_origin r) /\ vwithin f2p20 (r_dir r) /\ exists r', tri_intersect ex_tri r = (true, r').
Proof.
  eexists _. split; [reflexivity|].
  split; [apply within20b_ok; vm_compute; reflexivity|]. split; [apply within20b_ok; vm_compute; reflexivity|].
  split; [apply within20b_ok; vm_compute; reflexivity|]. split; [apply within20b_ok; vm_compute; reflexivity|].
  split; [apply within20b_ok; vm_compute; reflexivity|].
  apply fst_true. vm_compute. reflexivity.
Qed.

Example C38_nonvacuous : exists v0 v1 v2 o d,
  (Rabs (facing v0 v1 v2 d) >= / 100000)%R /\ on_triangle v0 v1 v2 o d 5%R.
Proof.
  exists (0, 0, 5)%R, (4, 0, 5)%R, (0, 4, 5)%R, (1, 1, 0)%R, (0, 0, 1)%R. split.
  - unfold facing, rx, ry, rz; cbn. match goal with |- (Rabs ?x >= _)%R => replace x with (-16)%R by ring end.
    rewrite Rabs_left; lra.
  - exists (/ 2)%R, (/ 4)%R, (/ 4)%R. unfold rx, ry, rz; cbn. lra.
Qed.
