(** * The leaf size of the spatial-split builder *)
Require Import List Arith Lia ZArith Bool Reals Lra Permutation.
From Flocq Require Import Core BinarySingleNaN.
From Verif Require Import F32 F32Facts Vec AabbModel SpecGeom Base NodeModel BinnedModel TriModel SpatialModel SpecSpatial SpatialPlan
  SpatialProofs SpatialShare SlabProofs LocbProofs.
Import ListNotations.
Local Open Scope nat_scope.

Lemma fin_le_max : forall x : f32, fin x -> fle x fMAX = true.
Proof.
  intros x F. apply fle_spec; [apply fin_notnan; auto|reflexivity|]. rewrite fr_fin by auto.
  pose proof (abs_B2R_le_emax_minus_prec 24 128 eq_refl x) as H.
  apply Rabs_le_inv in H. destruct H as (_ & H). eapply Rle_trans; [exact H|].
  unfold fr, fMAX, B2R, F2R. cbn [Fnum Fexp cond_Zopp]. rewrite <- !IZR_Zpower by lia. cbn [Z.sub Z.add].
  rewrite <- mult_IZR, <- minus_IZR. apply IZR_le. vm_compute. discriminate.
Qed.

(** The largest cost of a node that is not divided: [half_area * (count - 1)]. *)
Definition f2p40 : f32 := f_of_Z 1099511627776.
Lemma fr_2p40 : fin f2p40 /\ fr f2p40 = bpow radix2 40.
Proof.
  split; [reflexivity|]. rewrite fr_fin by reflexivity. 
  assert (f2p40 = @B754_finite 24 128 false 8388608 17 eq_refl) as -> by (apply B2SF_inj; vm_compute; reflexivity).
  unfold B2R, F2R. cbn [Fnum Fexp cond_Zopp]. rewrite <- !IZR_Zpower by lia. rewrite <- mult_IZR. apply f_equal. vm_compute. reflexivity.
Qed.
Lemma bound_sub : forall e (p q : f32), (0 <= e < 127)%Z -> fin p -> fin q -> (Rabs (fr p) <= bpow radix2 e)%R -> (Rabs (fr q) <= bpow radix2 e)%R ->
  fin (fsub p q) /\ (Rabs (fr (fsub p q)) <= bpow radix2 (1 + e))%R.
Proof.
  intros e p q L Fp Fq Hp Hq. destruct (fr_fsub p q Fp Fq) as [Nn E]. apply (op_bound _ _ (1 + e) ltac:(lia) Nn E).
  rewrite bpow_plus. change (bpow radix2 1) with 2%R. apply Rabs_le_inv in Hp. apply Rabs_le_inv in Hq. apply Rabs_le. lra.
Qed.
Lemma bound_add : forall e (p q : f32), (0 <= e < 127)%Z -> fin p -> fin q -> (Rabs (fr p) <= bpow radix2 e)%R -> (Rabs (fr q) <= bpow radix2 e)%R ->
  fin (fadd p q) /\ (Rabs (fr (fadd p q)) <= bpow radix2 (1 + e))%R.
Proof.
  intros e p q L Fp Fq Hp Hq. destruct (fr_fadd p q Fp Fq) as [Nn E]. apply (op_bound _ _ (1 + e) ltac:(lia) Nn E).
  rewrite bpow_plus. change (bpow radix2 1) with 2%R. apply Rabs_le_inv in Hp. apply Rabs_le_inv in Hq. apply Rabs_le. lra.
Qed.
Lemma bound_mul : forall (p q : f32) e f, (0 <= e)%Z -> (0 <= f)%Z -> (e + f <= 127)%Z -> fin p -> fin q ->
  (Rabs (fr p) <= bpow radix2 e)%R -> (Rabs (fr q) <= bpow radix2 f)%R ->
  fin (fmul p q) /\ (Rabs (fr (fmul p q)) <= bpow radix2 (e + f))%R.
Proof.
  intros p q e f L1 L2 L3 Fp Fq Hp Hq. destruct (fr_fmul p q Fp Fq) as [Nn E]. apply (op_bound _ _ (e + f) ltac:(lia) Nn E).
  rewrite Rabs_mult, bpow_plus. apply Rmult_le_compat; auto using Rabs_pos.
Qed.
Lemma bpow_weaken : forall x e f, (e <= f)%Z -> (Rabs x <= bpow radix2 e)%R -> (Rabs x <= bpow radix2 f)%R.
Proof. intros x e f L H. eapply Rle_trans; [exact H|]. apply bpow_le; auto. Qed.
Lemma half_area_40 : forall b, box_within f2p40 b -> fin (half_area b) /\ (Rabs (fr (half_area b)) <= bpow radix2 84)%R.
Proof.
  intros b [[(A1 & A2 & A3) (B1 & B2 & B3)] [(C1 & C2 & C3) (D1 & D2 & D3)]]. destruct fr_2p40 as (Ff & Ef).
  pose proof (within_fin f2p40 40 _ Ff Ef A1 B1) as [Fx1 Bx1].
  pose proof (within_fin f2p40 40 _ Ff Ef A2 B2) as [Fy1 By1].
  pose proof (within_fin f2p40 40 _ Ff Ef A3 B3) as [Fz1 Bz1].
  pose proof (within_fin f2p40 40 _ Ff Ef C1 D1) as [Fx2 Bx2].
  pose proof (within_fin f2p40 40 _ Ff Ef C2 D2) as [Fy2 By2].
  pose proof (within_fin f2p40 40 _ Ff Ef C3 D3) as [Fz2 Bz2].
  unfold half_area, diagonal, vsub; cbn [vx vy vz vmap2].
  destruct (bound_sub 40 _ _ ltac:(lia) Fx2 Fx1 Bx2 Bx1) as [F1 G1]. destruct (bound_sub 40 _ _ ltac:(lia) Fy2 Fy1 By2 By1) as [F2 G2].
  destruct (bound_sub 40 _ _ ltac:(lia) Fz2 Fz1 Bz2 Bz1) as [F3 G3].
  set (dx := fsub (vx (bmax b)) _) in *. set (dy := fsub (vy (bmax b)) _) in *. set (dz := fsub (vz (bmax b)) _) in *.
  destruct (bound_add 41 _ _ ltac:(lia) F1 F2 G1 G2) as [F4 G4].
  destruct (bound_mul _ _ 42 41 ltac:(lia) ltac:(lia) ltac:(lia) F4 F3 G4 G3) as [F5 G5].
  destruct (bound_mul _ _ 41 41 ltac:(lia) ltac:(lia) ltac:(lia) F1 F2 G1 G2) as [F6 G6].
  apply (bpow_weaken _ _ 83) in G6; [|lia].
  destruct (bound_add 83 _ _ ltac:(lia) F5 F6 G5 G6) as [F7 G7]. split; auto.
Qed.
Lemma fn_30 : forall k, (Z.of_nat k <= 2 ^ 30)%Z -> fin (fn k) /\ (Rabs (fr (fn k)) <= bpow radix2 30)%R.
Proof.
  intros k H. pose proof (binary_normalize_correct 24 128 Hp32 Hm32 mode_NE (Z.of_nat k) 0 false) as C.
  cbv zeta in C. fold (f_of_Z (Z.of_nat k)) in C. fold (fn k) in C.
  assert (F2R (Float radix2 (Z.of_nat k) 0) = IZR (Z.of_nat k)) as E by (unfold F2R; simpl; lra).
  rewrite E in C. fold (rnd (IZR (Z.of_nat k))) in C.
  assert (0 <= rnd (IZR (Z.of_nat k)) <= bpow radix2 30)%R as [B0 B1].
  { split; [apply rnd_pos; apply IZR_le; lia|]. rewrite <- (rnd_bpow 30) by lia. apply rnd_mono.
    change (bpow radix2 30) with (IZR (2 ^ 30)). apply IZR_le. auto. }
  rewrite Rlt_bool_true in C.
  - destruct C as (C1 & C2 & _). split; auto. rewrite fr_fin by auto. rewrite C1. rewrite Rabs_pos_eq by auto. auto.
  - rewrite Rabs_pos_eq by auto. eapply Rle_lt_trans; [exact B1|]. apply bpow_lt. lia.
Qed.
Lemma cost_fin : forall b k, box_within f2p40 b -> (Z.of_nat k <= 2 ^ 30)%Z -> fin (fmul (half_area b) (fsub (fn k) f1)).
Proof.
  intros b k B L. destruct (half_area_40 b B) as (Fh & Bh). destruct (fn_30 k L) as (Fk & Bk).
  assert (fin f1 /\ (Rabs (fr f1) <= bpow radix2 30)%R) as (F1 & B1).
  { split; [reflexivity|]. rewrite fr_f1, Rabs_R1. change 1%R with (bpow radix2 0). apply bpow_le. lia. }
  destruct (bound_sub 30 _ _ ltac:(lia) Fk F1 Bk B1) as (F2 & B2).
  destruct (bound_mul _ _ 84 31 ltac:(lia) ltac:(lia) ltac:(lia) Fh F2 Bh B2) as (F3 & _). auto.
Qed.

(** [fmin x fMAX] is never NaN, and if it is not below [fMAX] it is at least
    any finite number. *)
Lemma fmin_max_ge : forall x m, fin m -> flt (fmin x fMAX) fMAX = false -> fge (fmin x fMAX) m = true.
Proof.
  intros x m F H.
  assert (notnan (fmin x fMAX)) as N.
  { unfold fmin. destruct (fnan x) eqn:Ex; [reflexivity|].
    replace (fnan fMAX) with false by reflexivity. destruct (flt fMAX x); [reflexivity|exact Ex]. }
  unfold fge. apply fle_spec; [apply fin_notnan; auto|exact N|].
  assert (notnan m) as Nm by (apply fin_notnan; auto).
  pose proof (proj1 (fle_spec m fMAX Nm eq_refl) (fin_le_max m F)).
  pose proof (proj1 (flt_false (fmin x fMAX) fMAX N eq_refl) H). lra.
Qed.

Definition max_cost (b : aabb) (k : nat) : f32 := fmul (half_area b) (fsub (fn k) f1).

Lemma object_none : forall axis len l after box i best, (o_index best = None -> o_cost best = fMAX) ->
  o_index (object_pass axis len l after box i best) = None -> o_cost (object_pass axis len l after box i best) = fMAX.
Proof.
  intros axis len. induction l as [|r l IH]; intros after box i best H; [exact H|].
  destruct after as [|a after]; [exact H|]. cbn [object_pass]. apply IH.
  destruct (flt _ _); [discriminate|exact H].
Qed.
Lemma split_none : forall refs, o_index (find_object_split refs) = None -> o_cost (find_object_split refs) = fMAX.
Proof.
  intro refs. unfold find_object_split. cbn [fold_left]. unfold object_axis.
  apply object_none. apply object_none. apply object_none. reflexivity.
Qed.

Section Leaf.
  Variable sorter : nat -> list sref -> list sref.
  Hypothesis sorter_perm : forall a l, Permutation (sorter a l) l.
  Variables (prims : list tri) (lsize : nat) (th : f32).
  Notation plan := (plan_task sorter prims lsize th).
  Notation stree := (seq_tree sorter prims lsize th).

  Definition leaf_reason (d : nat) (bounds : aabb) (k : nat) : Prop :=
    k <= 1 \/ 64 <= d \/ k <= lsize \/ ~ fin (max_cost bounds k).
  Lemma plan_leaf : forall t bounds w w', plan t bounds w = Ok (w', Leaf) -> leaf_reason (w_depth t) bounds (w_size t).
  Proof.
    intros t bounds w w' E. unfold plan_task in E. unfold leaf_reason.
    destruct (Nat.leb_spec (w_size t) 1) as [L1|L1]; [auto|]. cbn [orb] in E.
    destruct (Nat.leb_spec MAX_DEPTH (w_depth t)) as [L2|L2]; [right; left; exact L2|]. cbv zeta in E.
    set (w1 := if w_sorted t then w else sort_refs sorter (w_size t) w) in E.
    pose proof (split_none (map3 (firstn (w_size t)) w1)) as Sn.
    set (os := find_object_split (map3 (firstn (w_size t)) w1)) in *.
    match type of E with bind ?x _ = _ => destruct x as [ss| | |]; cbn [bind] in E; try discriminate E end.
    fold (max_cost bounds (w_size t)) in E.
    destruct (fge _ (max_cost bounds (w_size t))) eqn:G.
    - destruct (Nat.ltb_spec lsize (w_size t)) as [L3|L3]; [|auto].
      match type of E with bind ?x _ = _ => destruct x as [[w2 c]| | |]; cbn [bind] in E; discriminate E end.
    - destruct (flt _ (o_cost os)) eqn:Lt.
      + match type of E with bind ?x _ = _ => destruct x as [[w2 c]| | |]; cbn [bind] in E; discriminate E end.
      + destruct (o_index os) as [i|].
        * match type of E with bind ?x _ = _ => destruct x as [[w2 c]| | |]; cbn [bind] in E; discriminate E end.
        * right; right; right. intro F. rewrite (Sn eq_refl) in *.
          rewrite (fmin_max_ge _ _ F Lt) in G. discriminate G.
  Qed.

  Fixpoint a_reasons (d : nat) (T : atree) : Prop :=
    match T with
    | ALeaf b ids => leaf_reason d b (length ids)
    | ANode _ _ _ l r => a_reasons (S d) l /\ a_reasons (S d) r
    end.

  Variable n : nat.
  Lemma seq_leaf : forall k t bounds w W T, w_size t <= W -> W = w_split_end t - w_begin t -> w_begin t <= w_end t ->
    all3 (okw n W) w -> stree k t bounds w = Ok T -> a_reasons (w_depth t) T.
  Proof.
    assert (forall t bounds w (w1 : per_axis (list sref)) W, w_size t <= W -> all3 (okw n W) w1 -> plan t bounds w = Ok (w1, Leaf) ->
      a_reasons (w_depth t) (ALeaf bounds (map s_prim (firstn (w_size t) (pick w1 0))))) as Lf.
    { intros t bounds w w1 W LW ((L0 & _) & _) Ep. cbn [a_reasons]. rewrite map_length, firstn_length.
      rewrite Nat.min_l by (rewrite L0; exact LW).
      eapply plan_leaf; eauto. }
    induction k as [|k IH]; intros t bounds w W T LW EW LB O E; rewrite stree_eq in E;
      (destruct (plan t bounds w) as [[w1 d]| | |] eqn:Ep; cbn [bind] in E; try discriminate E);
      (destruct (plan_ok sorter sorter_perm prims lsize n th W _ _ _ _ _ LW O Ep) as (Ow & Od)).
    - destruct d as [|c]; [|discriminate E].
      match type of E with Ok ?x = Ok _ => assert (T = x) as -> by congruence end. eapply Lf; eauto.
    - destruct d as [|c].
      { match type of E with Ok ?x = Ok _ => assert (T = x) as -> by congruence end. eapply Lf; eauto. }
      clear Lf. destruct Od as (Crb & Cre & Hd & H2).
      set (rb := c_right_begin c) in *. set (re := c_right_end c) in *.
      set (sh := left_split_count (w_split_end t - (w_begin t + re)) c) in *.
      pose proof (move3_window n w1 0 W rb re sh) as Mv.
      destruct Ow as ((L0 & F0) & (L1 & F1) & (L2 & F2)).
      specialize (Mv ltac:(split; [|split]; lia) ltac:(lia) ltac:(lia) ltac:(intros _; split; [|split]; lia)).
      assert (map3 (fun l => window l 0 W) w1 = w1) as Ew1.
      { unfold map3. rewrite <- L0 at 1. rewrite <- L1 at 1. rewrite <- L2 at 1. rewrite !window_all. destruct w1 as [[x y] z]; auto. }
      rewrite Ew1 in Mv.
      destruct (move3 w1 rb re sh) as [w2| | |] eqn:Em; cbn [bind] in E; try discriminate E.
      destruct Mv as (_ & (M0 & M1 & M2) & Sm). destruct Sm as (Q0 & Q1 & Q2); [repeat split; auto|].
      assert (rb <= W) as LrbW by lia.
      assert (forall l, length l = W -> small n l -> okw n rb (firstn rb l) /\ okw n (W - rb) (skipn rb l)) as G.
      { intros l Ll Sl. unfold small in Sl. rewrite <- (firstn_skipn rb l) in Sl. apply Forall_app in Sl as (Sa & Sb).
        split; split; auto; [rewrite firstn_length|rewrite skipn_length]; lia. }
      destruct (G _ M0 Q0) as (G0 & H0). destruct (G _ M1 Q1) as (G1 & H1). destruct (G _ M2 Q2) as (G2 & H2').
      match type of E with bind ?x _ = _ => destruct x as [Tl| | |] eqn:El; cbn [bind] in E; try discriminate E end.
      match type of E with bind ?x _ = _ => destruct x as [Tr| | |] eqn:Er; cbn [bind] in E; try discriminate E end.
      match type of E with Ok ?x = Ok _ => assert (T = x) as -> by congruence end. clear E.
      cbn [a_reasons]. split.
      + apply (IH _ _ _ rb) in El; cbn [w_size w_begin w_end w_split_end w_depth] in *; auto; try lia;
          [unfold w_size; cbn [w_begin w_end]; lia|repeat split; first [apply G0|apply G1|apply G2]].
      + apply (IH _ _ _ (W - rb)) in Er; cbn [w_size w_begin w_end w_split_end w_depth] in *; auto; try lia;
          [unfold w_size; cbn [w_begin w_end]; lia|repeat split; first [apply H0|apply H1|apply H2']].
  Qed.
End Leaf.
