(** * Property C47, continued: what the boxes of a split triangle contain *)
Require Import List ZArith Bool Reals Lia Lra.
From Flocq Require Import Core BinarySingleNaN.
From Verif Require Import F32 F32Facts Vec RayModel AabbModel Base SpecGeom AabbProofs PropBox TriModel SpecTri TriProofs PropTri SpecMeasure PropMeasure SpecTransform PropTransform.
Import ListNotations.

(** The vertices on a side of the plane ([true] is the lower side), and the
    points the program computes for the edges that cross it. *)
Definition on_side (tr : tri) (axis : nat) (position : f32) (low : bool) : list vec3 :=
  filter (fun v => Bool.eqb (fle (vget v axis) position) low) [tv0 tr; tv1 tr; tv2 tr].
Definition crossings (tr : tri) (axis : nat) (position : f32) : list vec3 :=
  map (fun e => split_edge axis position (fst e) (snd e))
    (filter (fun e => xorb (fle (vget (fst e) axis) position) (fle (vget (snd e) axis) position))
       [(tv0 tr, tv1 tr); (tv1 tr, tv2 tr); (tv2 tr, tv0 tr)]).

Lemma split_fold : forall tr axis position,
  fst (tri_split tr axis position) = fold_left grow (on_side tr axis position true ++ crossings tr axis position) aabb_new /\
  snd (tri_split tr axis position) = fold_left grow (on_side tr axis position false ++ crossings tr axis position) aabb_new.
Proof.
  intros tr axis position. unfold tri_split, on_side, crossings. cbv zeta. cbn [filter fst snd].
  destruct (fle (vget (tv0 tr) axis) position), (fle (vget (tv1 tr) axis) position), (fle (vget (tv2 tr) axis) position);
    split; reflexivity.
Qed.

(** Each of the two boxes is the least box around the vertices on its side and
    the points computed for the edges that cross the plane. *)
Theorem C47_boxes_partial : forall tr axis position, vok (tv0 tr) -> vok (tv1 tr) -> vok (tv2 tr) ->
  Forall vok (crossings tr axis position) ->
  forall low, let b := if low : bool then fst (tri_split tr axis position) else snd (tri_split tr axis position) in
  let ps := on_side tr axis position low ++ crossings tr axis position in
  Forall (in_box b) ps /\ forall c, box_in aabb_new c -> Forall (in_box c) ps -> box_in b c.
Proof.
  intros tr axis position K0 K1 K2 Kc low. cbv zeta.
  destruct (split_fold tr axis position) as [E1 E2].
  assert (Forall vok (on_side tr axis position low ++ crossings tr axis position)) as K.
  { apply Forall_app. split; auto. apply Forall_forall. intros v I. apply filter_In in I. destruct I as [[<- | [<- | [<- | []]]] _]; auto. }
  destruct (fold_grow _ aabb_new aabb_new_ok K) as (_ & _ & I3 & I4 & _).
  destruct low; [rewrite E1|rewrite E2]; split; auto.
Qed.

Local Open Scope R_scope.
(** The exact point with barycentric coordinates [u v w]. *)
Definition bary (a b c : vec3) (u v w : R) (g : vec3 -> f32) : R := u * fval (g a) + v * fval (g b) + w * fval (g c).

Lemma box_convex : forall b p q r u v w, in_box b p -> in_box b q -> in_box b r ->
  vfinite p -> vfinite q -> vfinite r -> box_finite b -> 0 <= u -> 0 <= v -> 0 <= w -> u + v + w = 1 ->
  real_in b (bary p q r u v w vx) (bary p q r u v w vy) (bary p q r u v w vz).
Proof.
  intros b p q r u v w P Q R Fp Fq Fr [Fb1 Fb2] U V W S.
  assert (forall lo hi x y z : f32, fin lo -> fin hi -> fin x -> fin y -> fin z -> 
    fle lo x = true -> fle x hi = true -> fle lo y = true -> fle y hi = true -> fle lo z = true -> fle z hi = true ->
    fval lo <= u * fval x + v * fval y + w * fval z <= fval hi) as G.
  { intros lo hi x y z F1 F2 F3 F4 F5 L1 L2 L3 L4 L5 L6. unfold fval.
    rewrite <- (fr_fin lo F1), <- (fr_fin hi F2), <- (fr_fin x F3), <- (fr_fin y F4), <- (fr_fin z F5).
    apply fle_spec in L1, L2, L3, L4, L5, L6; try (apply fin_notnan; assumption).
    set (X := fr x) in *. set (Y := fr y) in *. set (Z := fr z) in *. split.
    - apply Rle_trans with (u * fr lo + v * fr lo + w * fr lo); [replace (u * fr lo + v * fr lo + w * fr lo) with ((u + v + w) * fr lo) by ring; rewrite S; lra|].
      assert (u * fr lo <= u * X) by (apply Rmult_le_compat_l; auto). assert (v * fr lo <= v * Y) by (apply Rmult_le_compat_l; auto).
      assert (w * fr lo <= w * Z) by (apply Rmult_le_compat_l; auto). lra.
    - apply Rle_trans with (u * fr hi + v * fr hi + w * fr hi); [|replace (u * fr hi + v * fr hi + w * fr hi) with ((u + v + w) * fr hi) by ring; rewrite S; lra].
      assert (u * X <= u * fr hi) by (apply Rmult_le_compat_l; auto). assert (v * Y <= v * fr hi) by (apply Rmult_le_compat_l; auto).
      assert (w * Z <= w * fr hi) by (apply Rmult_le_compat_l; auto). lra. }
  destruct P as [(P1 & P2 & P3) (P4 & P5 & P6)], Q as [(Q1 & Q2 & Q3) (Q4 & Q5 & Q6)], R as [(R1 & R2 & R3) (R4 & R5 & R6)].
  destruct Fp as (? & ? & ?), Fq as (? & ? & ?), Fr as (? & ? & ?), Fb1 as (? & ? & ?), Fb2 as (? & ? & ?).
  unfold bary. split; [|split]; apply G; auto.
Qed.

Lemma hull_finite : forall ps, Forall vfinite ps -> box_finite (fold_left grow ps aabb_new).
Proof.
  intros ps F.
  assert (Forall vok ps) as K by (eapply Forall_impl; [|exact F]; intros v (A & B & C); repeat split; apply fin_notnan; auto).
  destruct (fold_grow ps aabb_new aabb_new_ok K) as ((O1 & O2) & _).
  assert (forall g, coordinate g -> ffinite (g (bmin (fold_left grow ps aabb_new))) /\ ffinite (g (bmax (fold_left grow ps aabb_new)))) as G.
  { intros g Hg. destruct (fold_attained g Hg ps aabb_new (proj1 aabb_new_ok) (proj2 aabb_new_ok) K) as [L U].
    assert (forall v, vok v -> notnan (g v)) as N by (intros v (N1 & N2 & N3); destruct Hg as [-> | [-> | ->]]; auto).
    assert (forall v, vfinite v -> fin (g v)) as Fg by (intros v (N1 & N2 & N3); destruct Hg as [-> | [-> | ->]]; auto).
    assert (forall x y : f32, notnan x -> fin y -> fr x = fr y -> fin x) as T.
    { intros x y Nx Fy E. apply fin_of_fr; auto. rewrite E. eapply Rlt_trans; [apply fin_fr_lt; auto|apply bpow128_lt_BIG]. }
    rewrite Forall_forall in F.
    split.
    - destruct L as [L|[p [I L]]]; eapply T; try exact L; auto. destruct Hg as [-> | [-> | ->]]; reflexivity.
    - destruct U as [U|[p [I U]]]; eapply T; try exact U; auto. destruct Hg as [-> | [-> | ->]]; reflexivity. }
  destruct (G vx cx), (G vy cy), (G vz cz). repeat split; auto.
Qed.

(** So each box covers the exact triangle between any three of these points, *)
Theorem C47_between_partial : forall tr axis position, vfinite (tv0 tr) -> vfinite (tv1 tr) -> vfinite (tv2 tr) ->
  Forall vfinite (crossings tr axis position) ->
  forall low p q r u v w,
  let b := if low : bool then fst (tri_split tr axis position) else snd (tri_split tr axis position) in
  let ps := on_side tr axis position low ++ crossings tr axis position in
  In p ps -> In q ps -> In r ps -> 0 <= u -> 0 <= v -> 0 <= w -> u + v + w = 1 ->
  real_in b (bary p q r u v w vx) (bary p q r u v w vy) (bary p q r u v w vz).
Proof.
  intros tr axis position F0 F1 F2 Fc low p q r u v w b ps Ip Iq Ir U V W S.
  assert (Forall vfinite ps) as F.
  { apply Forall_app. split; auto. apply Forall_forall. intros x I. apply filter_In in I. destruct I as [[<- | [<- | [<- | []]]] _]; auto. }
  assert (forall x, vfinite x -> vok x) as K by (intros x (A & B & C); repeat split; apply fin_notnan; auto).
  destruct (C47_boxes_partial tr axis position (K _ F0) (K _ F1) (K _ F2) (Forall_impl _ K Fc) low) as [H _].
  fold b in H. fold ps in H. rewrite Forall_forall in H, F.
  assert (box_finite b) as Fb.
  { destruct (split_fold tr axis position) as [E1 E2]. subst b ps. destruct low; [rewrite E1|rewrite E2]; apply hull_finite; apply Forall_forall; auto. }
  apply box_convex; auto.
Qed.

(** and a triangle that is not crossed by the plane is covered as a whole. *)
Theorem C47_uncut_partial : forall tr axis position low, vfinite (tv0 tr) -> vfinite (tv1 tr) -> vfinite (tv2 tr) ->
  fle (vget (tv0 tr) axis) position = low -> fle (vget (tv1 tr) axis) position = low -> fle (vget (tv2 tr) axis) position = low ->
  forall u v w, 0 <= u -> 0 <= v -> 0 <= w -> u + v + w = 1 ->
  let b := if low : bool then fst (tri_split tr axis position) else snd (tri_split tr axis position) in
  real_in b (bary (tv0 tr) (tv1 tr) (tv2 tr) u v w vx) (bary (tv0 tr) (tv1 tr) (tv2 tr) u v w vy) (bary (tv0 tr) (tv1 tr) (tv2 tr) u v w vz).
Proof.
  intros tr axis position low F0 F1 F2 E0 E1 E2 u v w U V W S b.
  assert (crossings tr axis position = []) as Ec by (unfold crossings; cbn [filter fst snd]; rewrite E0, E1, E2; destruct low; reflexivity).
  assert (on_side tr axis position low = [tv0 tr; tv1 tr; tv2 tr]) as Eo by (unfold on_side; cbn [filter]; rewrite E0, E1, E2; destruct low; reflexivity).
  apply C47_between_partial; auto; try (rewrite Ec; constructor); rewrite Eo, Ec; simpl; auto.
Qed.

Example C47_uncut_nonvacuous : let tr := Tri (pt 0 0 0) (pt 1 2 0) (pt 2 1 3) in
  vfinite (tv0 tr) /\ vfinite (tv1 tr) /\ vfinite (tv2 tr) /\ fle (vget (tv0 tr) 0) (fz 2) = true /\ fle (vget (tv1 tr) 0) (fz 2) = true /\
  fle (vget (tv2 tr) 0) (fz 2) = true.
Proof. repeat split; vm_compute; reflexivity. Qed.
(** A triangle cut by the plane: the crossing points are computed and finite. *)
Example C47_between_nonvacuous : length (crossings lossy_tri 0 (fz 1)) = 2%nat /\ length (on_side lossy_tri 0 (fz 1) true) = 2%nat /\
  Forall vfinite (crossings lossy_tri 0 (fz 1)) /\ vfinite (tv0 lossy_tri) /\ vfinite (tv1 lossy_tri) /\ vfinite (tv2 lossy_tri).
Proof.
  split; [reflexivity|]. split; [reflexivity|]. split.
  - change (crossings lossy_tri 0 (fz 1)) with [split_edge 0 (fz 1) (tv1 lossy_tri) (tv2 lossy_tri); split_edge 0 (fz 1) (tv2 lossy_tri) (tv0 lossy_tri)].
    constructor; [|constructor; [|constructor]]; repeat split; vm_compute; reflexivity.
  - repeat split; vm_compute; reflexivity.
Qed.
