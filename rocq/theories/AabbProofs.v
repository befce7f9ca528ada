(** * Proofs about boxes *)
Require Import List ZArith Bool Reals Lra Lia.
From Flocq Require Import Core BinarySingleNaN.
From Verif Require Import F32 F32Facts Vec RayModel AabbModel SpecGeom.
Import ListNotations.
Local Open Scope R_scope.

Lemma vle_refl : forall a, vok a -> vle a a.
Proof. intros a (A & B & C); repeat split; apply fle_refl; auto. Qed.

Lemma vle_trans : forall a b c, vle a b -> vle b c -> vle a c.
Proof. intros a b c (A1 & A2 & A3) (B1 & B2 & B3); repeat split; eapply fle_trans; eauto. Qed.

Lemma vle_ok : forall a b, vle a b -> vok a /\ vok b.
Proof.
  intros a b (A1 & A2 & A3).
  apply fle_notnan in A1. apply fle_notnan in A2. apply fle_notnan in A3. 
  unfold vok, fnan; tauto.
Qed.

Lemma vlt_vle : forall a b, vlt a b -> vle a b.
Proof. intros a b (A1 & A2 & A3); repeat split; apply flt_fle; auto. Qed.

Lemma fmin_le_l : forall x y : f32, notnan x -> notnan y -> fle (fmin x y) x = true.
Proof.
  intros x y Nx Ny. apply fle_spec; auto using fmin_notnan. rewrite fr_fmin by auto. apply Rmin_l.
Qed.
Lemma fmin_le_r : forall x y : f32, notnan x -> notnan y -> fle (fmin x y) y = true.
Proof.
  intros x y Nx Ny. apply fle_spec; auto using fmin_notnan. rewrite fr_fmin by auto. apply Rmin_r.
Qed.
Lemma fmin_glb : forall x y z : f32, fle z x = true -> fle z y = true -> fle z (fmin x y) = true.
Proof. intros x y z A B; unfold fmin. destruct (fnan x), (fnan y), (flt y x); auto. Qed.
Lemma fmax_ge_l : forall x y : f32, notnan x -> notnan y -> fle x (fmax x y) = true.
Proof.
  intros x y Nx Ny. apply fle_spec; auto using fmax_notnan. rewrite fr_fmax by auto. apply Rmax_l.
Qed.
Lemma fmax_ge_r : forall x y : f32, notnan x -> notnan y -> fle y (fmax x y) = true.
Proof.
  intros x y Nx Ny. apply fle_spec; auto using fmax_notnan. rewrite fr_fmax by auto. apply Rmax_r.
Qed.
Lemma fmax_lub : forall x y z : f32, fle x z = true -> fle y z = true -> fle (fmax x y) z = true.
Proof. intros x y z A B; unfold fmax. destruct (fnan x), (fnan y), (flt x y); auto. Qed.

Lemma vmin_ok : forall a b, vok a -> vok b -> vok (vmin a b).
Proof. intros a b (A1 & A2 & A3) (B1 & B2 & B3); repeat split; apply fmin_notnan; auto. Qed.
Lemma vmax_ok : forall a b, vok a -> vok b -> vok (vmax a b).
Proof. intros a b (A1 & A2 & A3) (B1 & B2 & B3); repeat split; apply fmax_notnan; auto. Qed.
Lemma vmin_le_l : forall a b, vok a -> vok b -> vle (vmin a b) a.
Proof. intros a b (A1 & A2 & A3) (B1 & B2 & B3); repeat split; apply fmin_le_l; auto. Qed.
Lemma vmin_le_r : forall a b, vok a -> vok b -> vle (vmin a b) b.
Proof. intros a b (A1 & A2 & A3) (B1 & B2 & B3); repeat split; apply fmin_le_r; auto. Qed.
Lemma vmin_glb : forall a b c, vle c a -> vle c b -> vle c (vmin a b).
Proof. intros a b c (A1 & A2 & A3) (B1 & B2 & B3); repeat split; apply fmin_glb; auto. Qed.
Lemma vmax_ge_l : forall a b, vok a -> vok b -> vle a (vmax a b).
Proof. intros a b (A1 & A2 & A3) (B1 & B2 & B3); repeat split; apply fmax_ge_l; auto. Qed.
Lemma vmax_ge_r : forall a b, vok a -> vok b -> vle b (vmax a b).
Proof. intros a b (A1 & A2 & A3) (B1 & B2 & B3); repeat split; apply fmax_ge_r; auto. Qed.
Lemma vmax_lub : forall a b c, vle a c -> vle b c -> vle (vmax a b) c.
Proof. intros a b c (A1 & A2 & A3) (B1 & B2 & B3); repeat split; apply fmax_lub; auto. Qed.

Lemma box_in_refl : forall a, box_ok a -> box_in a a.
Proof. intros a [A B]; split; apply vle_refl; auto. Qed.
Lemma box_in_trans : forall a b c, box_in a b -> box_in b c -> box_in a c.
Proof. intros a b c [A B] [C D]; split; eapply vle_trans; eauto. Qed.
Lemma box_in_ok : forall a b, box_in a b -> box_ok a /\ box_ok b.
Proof. intros a b [A B]; apply vle_ok in A; apply vle_ok in B; unfold box_ok; tauto. Qed.
Lemma in_box_mono : forall a b p, box_in a b -> in_box a p -> in_box b p.
Proof. intros a b p [A B] [C D]; split; eapply vle_trans; eauto. Qed.

(** ** C01 *)
Lemma grow_ok : forall a p, box_ok a -> vok p -> box_ok (grow a p).
Proof. intros a p [A B] P; split; simpl; auto using vmin_ok, vmax_ok. Qed.
Lemma grow_in : forall a p, box_ok a -> vok p -> box_in a (grow a p).
Proof. intros a p [A B] P; split; simpl; auto using vmin_le_l, vmax_ge_l. Qed.
Lemma grow_pt : forall a p, box_ok a -> vok p -> in_box (grow a p) p.
Proof. intros a p [A B] P; split; simpl; auto using vmin_le_r, vmax_ge_r. Qed.
Lemma grow_least : forall a p c, box_in a c -> in_box c p -> box_in (grow a p) c.
Proof. intros a p c [A B] [C D]; split; simpl; auto using vmin_glb, vmax_lub. Qed.

Lemma grow_bb_ok : forall a b, box_ok a -> box_ok b -> box_ok (grow_bb a b).
Proof. intros a b [A B] [C D]; split; simpl; auto using vmin_ok, vmax_ok. Qed.
Lemma grow_bb_in_l : forall a b, box_ok a -> box_ok b -> box_in a (grow_bb a b).
Proof. intros a b [A B] [C D]; split; simpl; auto using vmin_le_l, vmax_ge_l. Qed.
Lemma grow_bb_in_r : forall a b, box_ok a -> box_ok b -> box_in b (grow_bb a b).
Proof. intros a b [A B] [C D]; split; simpl; auto using vmin_le_r, vmax_ge_r. Qed.
Lemma grow_bb_least : forall a b c, box_in a c -> box_in b c -> box_in (grow_bb a b) c.
Proof. intros a b c [A B] [C D]; split; simpl; auto using vmin_glb, vmax_lub. Qed.

Lemma union_grow_bb : forall a b, union_of a b = Bb (bmin (grow_bb a b)) 0 (bmax (grow_bb a b)) 0.
Proof. reflexivity. Qed.

Lemma grow_bbs_eq : forall bs a,
  bmin (grow_bbs a bs) = bmin (fold_left grow_bb bs a) /\
  bmax (grow_bbs a bs) = bmax (fold_left grow_bb bs a) /\
  ex1 (grow_bbs a bs) = ex1 a /\ ex2 (grow_bbs a bs) = ex2 a.
Proof.
  assert (forall bs a mn mx, mn = bmin a -> mx = bmax a ->
    fold_left (fun '(mn, mx) b => (vmin mn (bmin b), vmax mx (bmax b))) bs (mn, mx) =
    (bmin (fold_left grow_bb bs a), bmax (fold_left grow_bb bs a))) as G.
  { induction bs as [|b bs IH]; intros a mn mx -> ->; simpl; auto. }
  intros bs a; unfold grow_bbs. rewrite (G bs a) by auto. auto.
Qed.

Lemma fold_grow_bb : forall bs a, box_ok a -> Forall box_ok bs ->
  box_ok (fold_left grow_bb bs a) /\ box_in a (fold_left grow_bb bs a) /\
  Forall (fun b => box_in b (fold_left grow_bb bs a)) bs /\
  (forall c, box_in a c -> Forall (fun b => box_in b c) bs -> box_in (fold_left grow_bb bs a) c) /\
  same_extras (fold_left grow_bb bs a) a.
Proof.
  induction bs as [|b bs IH]; intros a A H; simpl.
  - split; [auto|]. split; [apply box_in_refl; auto|]. split; [constructor|].
    split; [auto|]. split; reflexivity.
  - inversion H as [|b' bs' Hb Hbs]; subst.
    destruct (IH (grow_bb a b)) as (I1 & I2 & I3 & I4 & I5); auto using grow_bb_ok.
    split; [auto|]. split; [|split; [|split]].
    + apply box_in_trans with (grow_bb a b); auto using grow_bb_in_l.
    + constructor; auto. apply box_in_trans with (grow_bb a b); auto using grow_bb_in_r.
    + intros c C1 C2. inversion C2; subst. apply I4; auto. apply grow_bb_least; auto.
    + exact I5.
Qed.

Lemma fold_grow : forall ps a, box_ok a -> Forall vok ps ->
  box_ok (fold_left grow ps a) /\ box_in a (fold_left grow ps a) /\
  Forall (in_box (fold_left grow ps a)) ps /\
  (forall c, box_in a c -> Forall (in_box c) ps -> box_in (fold_left grow ps a) c) /\
  same_extras (fold_left grow ps a) a.
Proof.
  induction ps as [|p ps IH]; intros a A H; simpl.
  - split; [auto|]. split; [apply box_in_refl; auto|]. split; [constructor|].
    split; [auto|]. split; reflexivity.
  - inversion H as [|b' bs' Hb Hbs]; subst.
    destruct (IH (grow a p)) as (I1 & I2 & I3 & I4 & I5); auto using grow_ok.
    split; [auto|]. split; [|split; [|split]].
    + apply box_in_trans with (grow a p); auto using grow_in.
    + constructor; auto. eapply in_box_mono; [apply I2|]. apply grow_pt; auto.
    + intros c C1 C2. inversion C2; subst. apply I4; auto. apply grow_least; auto.
    + exact I5.
Qed.

(** ** C02 *)
Lemma intersection_in_box : forall a b p, box_ok a -> box_ok b ->
  (in_box (intersection a b) p <-> in_box a p /\ in_box b p).
Proof.
  intros a b p [A B] [C D]; unfold in_box, intersection; simpl; split.
  - intros [H1 H2]; split; split.
    + eapply vle_trans; [|apply H1]. apply vmax_ge_l; auto.
    + eapply vle_trans; [apply H2|]. apply vmin_le_l; auto.
    + eapply vle_trans; [|apply H1]. apply vmax_ge_r; auto.
    + eapply vle_trans; [apply H2|]. apply vmin_le_r; auto.
  - intros [[H1 H2] [H3 H4]]; split; auto using vmax_lub, vmin_glb.
Qed.

(** ** C04 *)
Lemma with_offset_in : forall a d, box_ok a -> is_finite d = true -> fle f0 d = true ->
  box_ok (with_offset a d) /\ box_in a (with_offset a d) /\ same_extras (with_offset a d) a.
Proof.
  intros a d [A B] F P.
  apply fle_spec in P; [|reflexivity|apply fin_notnan; auto]. simpl in P.
  assert (forall x, fnan x = false -> notnan (fsub x d) /\ fle (fsub x d) x = true) as S.
  { intros x N. destruct (fsub_le x d N F P) as [N' L]. split; auto. apply fle_spec; auto. }
  assert (forall x, fnan x = false -> notnan (fadd x d) /\ fle x (fadd x d) = true) as S'.
  { intros x N. destruct (fadd_ge x d N F P) as [N' L]. split; auto. apply fle_spec; auto. }
  destruct A as (A1 & A2 & A3), B as (B1 & B2 & B3).
  repeat split; simpl; try apply S; try apply S'; auto.
Qed.

Lemma f1em4_pos : is_finite f1em4 = true /\ fle f0 f1em4 = true.
Proof. split; vm_compute; auto. Qed.
Lemma f1em5_pos : is_finite f1em5 = true /\ fle f0 f1em5 = true.
Proof. split; vm_compute; auto. Qed.

Lemma aabb_new_ok : box_ok aabb_new.
Proof. repeat split. Qed.

(** ** C03 *)
Lemma union_of_list_covers : forall bs, Forall box_ok bs ->
  box_ok (union_of_list bs) /\ Forall (fun b => box_in b (union_of_list bs)) bs.
Proof.
  intros bs H. destruct (fold_grow_bb bs aabb_new aabb_new_ok H) as (I1 & I2 & I3 & I4 & I5).
  destruct f1em4_pos as [F P].
  destruct (with_offset_in _ f1em4 I1 F P) as (J1 & J2 & J3).
  split; auto. unfold union_of_list. eapply Forall_impl; [|apply I3].
  intros b Hb; simpl in Hb. eapply box_in_trans; eauto.
Qed.

(** ** C05 *)
Lemma from_points_covers : forall ps, Forall vok ps ->
  box_ok (from_points ps) /\ Forall (in_box (from_points ps)) ps.
Proof.
  intros ps H. destruct (fold_grow ps aabb_new aabb_new_ok H) as (I1 & I2 & I3 & I4 & I5).
  destruct f1em5_pos as [F P].
  destruct (with_offset_in _ f1em5 I1 F P) as (J1 & J2 & J3).
  split; auto. unfold from_points. eapply Forall_impl; [|apply I3].
  intros b Hb; simpl in Hb. eapply in_box_mono; eauto.
Qed.
Lemma aabb_macro_covers : forall ps, Forall vok ps ->
  box_ok (aabb_macro ps) /\ Forall (in_box (aabb_macro ps)) ps.
Proof.
  intros ps H. destruct (fold_grow ps aabb_new aabb_new_ok H) as (I1 & I2 & I3 & I4 & I5).
  destruct f1em4_pos as [F P].
  destruct (with_offset_in _ f1em4 I1 F P) as (J1 & J2 & J3).
  split; auto. unfold aabb_macro. eapply Forall_impl; [|apply I3].
  intros b Hb; simpl in Hb. eapply in_box_mono; eauto.
Qed.
