(** * The clustering builder as a whole *)
Require Import List ZArith Bool Arith NArith Lia Permutation Reals Lra.
From Flocq Require Import Core BinarySingleNaN.
From Verif Require Import F32 F32Facts Vec Base AabbModel NodeModel UtilsModel UtilsProofs MortonProofs SpecGeom SpecTree
  AabbProofs MeasureProofs PropBox LocbModel LocbNN LocbMerge LocbForest.
Import ListNotations.

(** 2^60 and 2^61. *)
Definition f2p60 : f32 := @B754_finite 24 128 false 8388608 37 eq_refl.
Definition f2p61 : f32 := @B754_finite 24 128 false 8388608 38 eq_refl.
Lemma fr_2p60 : fr f2p60 = bpow radix2 60.
Proof. unfold fr, f2p60, B2R, F2R. cbn [Fnum Fexp cond_Zopp]. change (IZR 8388608) with (bpow radix2 23). rewrite <- bpow_plus. reflexivity. Qed.
Lemma fr_2p61 : fr f2p61 = bpow radix2 61.
Proof. unfold fr, f2p61, B2R, F2R. cbn [Fnum Fexp cond_Zopp]. change (IZR 8388608) with (bpow radix2 23). rewrite <- bpow_plus. reflexivity. Qed.

Lemma rnd_bound : forall r e, (-149 <= e)%Z -> (Rabs r <= bpow radix2 e)%R -> (Rabs (rnd r) <= bpow radix2 e)%R.
Proof.
  intros r e L H. apply Rabs_le_inv in H. apply Rabs_le.
  rewrite <- (rnd_bpow e L). rewrite <- rnd_opp. split; apply rnd_mono; lra.
Qed.
Lemma op_bound : forall (z : f32) r e, (-149 <= e <= 127)%Z -> is_nan z = false -> fr z = RN r -> (Rabs r <= bpow radix2 e)%R ->
  is_finite z = true /\ (Rabs (fr z) <= bpow radix2 e)%R.
Proof.
  intros z r e L N E H.
  assert (Rabs r <= bpow radix2 127)%R as H' by (eapply Rle_trans; [apply H|apply bpow_le; lia]).
  split; [apply (fin_of_RN z r); auto|].
  rewrite E. destruct (RN_small r H') as [E' _]. rewrite E'. apply rnd_bound; auto; lia.
Qed.

Lemma within_fin : forall m e x, is_finite m = true -> fr m = bpow radix2 e -> fle (fneg m) x = true -> fle x m = true ->
  is_finite x = true /\ (Rabs (fr x) <= bpow radix2 e)%R.
Proof.
  intros m e x Fm Em A B. destruct (fle_notnan _ _ B) as [Nx Nm]. destruct (fr_neg m Nm) as [Nn En].
  apply fle_spec in A; auto. apply fle_spec in B; auto. rewrite En, Em in A. rewrite Em in B.
  assert (Rabs (fr x) <= bpow radix2 e)%R as C by (apply Rabs_le; lra).
  split; auto. apply fin_of_fr; auto. eapply Rle_lt_trans; [apply C|]. rewrite <- Em.
  pose proof (fin_fr_lt m Fm) as G. rewrite Rabs_pos_eq in G by (rewrite Em; apply bpow_ge_0).
  pose proof bpow128_lt_BIG. lra.
Qed.
Lemma fin_within : forall m e x, is_finite m = true -> fr m = bpow radix2 e -> is_finite x = true -> (Rabs (fr x) <= bpow radix2 e)%R ->
  fle (fneg m) x = true /\ fle x m = true.
Proof.
  intros m e x Fm Em Fx H. pose proof (fin_notnan _ Fm) as Nm. destruct (fr_neg m Nm) as [Nn En].
  apply Rabs_le_inv in H. split; apply fle_spec; auto; try (apply fin_notnan; auto); rewrite ?En, ?Em; lra.
Qed.

Lemma half_area_bound : forall b, box_within f2p61 b -> is_finite (half_area b) = true /\ flt (half_area b) fMAX = true.
Proof.
  intros b [[(A1 & A2 & A3) (B1 & B2 & B3)] [(C1 & C2 & C3) (D1 & D2 & D3)]].
  pose proof (within_fin f2p61 61 _ eq_refl fr_2p61 A1 B1) as [Fx1 Bx1].
  pose proof (within_fin f2p61 61 _ eq_refl fr_2p61 A2 B2) as [Fy1 By1].
  pose proof (within_fin f2p61 61 _ eq_refl fr_2p61 A3 B3) as [Fz1 Bz1].
  pose proof (within_fin f2p61 61 _ eq_refl fr_2p61 C1 D1) as [Fx2 Bx2].
  pose proof (within_fin f2p61 61 _ eq_refl fr_2p61 C2 D2) as [Fy2 By2].
  pose proof (within_fin f2p61 61 _ eq_refl fr_2p61 C3 D3) as [Fz2 Bz2].
  unfold half_area, diagonal, vsub; cbn [vx vy vz].
  assert (forall p q : f32, is_finite p = true -> is_finite q = true -> (Rabs (fr p) <= bpow radix2 61)%R -> (Rabs (fr q) <= bpow radix2 61)%R ->
    is_finite (fsub p q) = true /\ (Rabs (fr (fsub p q)) <= bpow radix2 62)%R) as Sb.
  { intros p q Fp Fq Hp Hq. destruct (fr_fsub p q Fp Fq) as [Nn E]. apply (op_bound _ _ 62 ltac:(lia) Nn E).
    change 62%Z with (1 + 61)%Z. rewrite bpow_plus. change (bpow radix2 1) with 2%R.
    apply Rabs_le_inv in Hp. apply Rabs_le_inv in Hq. apply Rabs_le. lra. }
  destruct (Sb _ _ Fx2 Fx1 Bx2 Bx1) as [F1 G1]. destruct (Sb _ _ Fy2 Fy1 By2 By1) as [F2 G2]. destruct (Sb _ _ Fz2 Fz1 Bz2 Bz1) as [F3 G3].
  set (dx := fsub (vx (bmax b)) _) in *. set (dy := fsub (vy (bmax b)) _) in *. set (dz := fsub (vz (bmax b)) _) in *.
  assert (is_finite (fadd dx dy) = true /\ (Rabs (fr (fadd dx dy)) <= bpow radix2 63)%R) as [F4 G4].
  { destruct (fr_fadd dx dy F1 F2) as [Nn E]. apply (op_bound _ _ 63 ltac:(lia) Nn E).
    change 63%Z with (1 + 62)%Z. rewrite bpow_plus. change (bpow radix2 1) with 2%R.
    apply Rabs_le_inv in G1. apply Rabs_le_inv in G2. apply Rabs_le. lra. }
  assert (forall (p q : f32) e f, (0 <= e)%Z -> (0 <= f)%Z -> (e + f <= 127)%Z -> is_finite p = true -> is_finite q = true ->
     (Rabs (fr p) <= bpow radix2 e)%R -> (Rabs (fr q) <= bpow radix2 f)%R ->
     is_finite (fmul p q) = true /\ (Rabs (fr (fmul p q)) <= bpow radix2 (e + f))%R) as Mb.
  { intros p q e f L1 L2 L3 Fp Fq Hp Hq. destruct (fr_fmul p q Fp Fq) as [Nn E]. apply (op_bound _ _ (e + f) ltac:(lia) Nn E).
    rewrite Rabs_mult, bpow_plus. apply Rmult_le_compat; auto using Rabs_pos. }
  destruct (Mb _ _ 63%Z 62%Z ltac:(lia) ltac:(lia) ltac:(lia) F4 F3 G4 G3) as [F5 G5].
  destruct (Mb _ _ 62%Z 62%Z ltac:(lia) ltac:(lia) ltac:(lia) F1 F2 G1 G2) as [F6 G6].
  set (u := fmul (fadd dx dy) dz) in *. set (v := fmul dx dy) in *. simpl (63 + 62)%Z in G5. simpl (62 + 62)%Z in G6.
  destruct (fr_fadd u v F5 F6) as [Nn E].
  assert (Rabs (fr u + fr v) <= bpow radix2 126)%R as H.
  { change 126%Z with (1 + 125)%Z. rewrite bpow_plus. change (bpow radix2 1) with 2%R.
    assert (bpow radix2 124 <= bpow radix2 125)%R by (apply bpow_le; lia).
    apply Rabs_le_inv in G5. apply Rabs_le_inv in G6. apply Rabs_le. lra. }
  destruct (op_bound _ _ 126 ltac:(lia) Nn E H) as [F7 G7]. split; auto.
  apply flt_spec; auto. apply Rabs_le_inv in G7. eapply Rle_lt_trans; [apply G7|].
  unfold fr, fMAX, B2R, F2R. cbn [Fnum Fexp cond_Zopp].
  replace 126%Z with (22 + 104)%Z by reflexivity. rewrite bpow_plus. apply Rmult_lt_compat_r; [apply bpow_gt_0|].
  change (bpow radix2 22) with (IZR 4194304). apply IZR_lt. lia.
Qed.

Lemma vwithin_min : forall m a b, vwithin m a -> vwithin m b -> vwithin m (vmin a b).
Proof.
  intros m a b [A1 A2] [B1 B2]. assert (vok a) as Oa by (apply vle_ok in A2; tauto).
  assert (vok b) as Ob by (apply vle_ok in B2; tauto).
  split; [apply vmin_glb; auto|]. eapply vle_trans; [apply (vmin_le_l a b Oa Ob)|auto].
Qed.
Lemma vwithin_max : forall m a b, vwithin m a -> vwithin m b -> vwithin m (vmax a b).
Proof.
  intros m a b [A1 A2] [B1 B2]. assert (vok a) as Oa by (apply vle_ok in A2; tauto).
  assert (vok b) as Ob by (apply vle_ok in B2; tauto).
  split; [|apply vmax_lub; auto]. eapply vle_trans; [|apply (vmax_ge_l a b Oa Ob)]. auto.
Qed.

Lemma pad_bound : forall x, fle (fneg f2p60) x = true -> fle x f2p60 = true ->
  (fle (fneg f2p61) (fsub x f1em4) = true /\ fle (fsub x f1em4) f2p61 = true) /\
  (fle (fneg f2p61) (fadd x f1em4) = true /\ fle (fadd x f1em4) f2p61 = true).
Proof.
  intros x A B. destruct (within_fin f2p60 60 x eq_refl fr_2p60 A B) as [Fx Hx].
  assert (Rabs (fr f1em4) <= bpow radix2 60)%R as H4.
  { eapply Rle_trans with (r2 := bpow radix2 0); [|apply bpow_le; lia].
    unfold fr, f1em4, B2R, F2R. cbn [Fnum Fexp cond_Zopp].
    rewrite Rabs_pos_eq by (apply Rmult_le_pos; [apply IZR_le; lia|apply bpow_ge_0]).
    replace 0%Z with (37 + -37)%Z at 1 by reflexivity. rewrite bpow_plus. apply Rmult_le_compat_r; [apply bpow_ge_0|].
    change (bpow radix2 37) with (IZR 137438953472). apply IZR_le. lia. }
  assert (bpow radix2 61 = 2 * bpow radix2 60)%R as E61 by (change 61%Z with (1 + 60)%Z; rewrite bpow_plus; reflexivity).
  apply Rabs_le_inv in Hx. apply Rabs_le_inv in H4.
  split; apply (fin_within f2p61 61); auto using fr_2p61.
  - destruct (fr_fsub x f1em4 Fx eq_refl) as [Nn E]. apply (op_bound _ _ 61 ltac:(lia) Nn E). apply Rabs_le. lra.
  - destruct (fr_fsub x f1em4 Fx eq_refl) as [Nn E]. apply (op_bound _ _ 61 ltac:(lia) Nn E). apply Rabs_le. lra.
  - destruct (fr_fadd x f1em4 Fx eq_refl) as [Nn E]. apply (op_bound _ _ 61 ltac:(lia) Nn E). apply Rabs_le. lra.
  - destruct (fr_fadd x f1em4 Fx eq_refl) as [Nn E]. apply (op_bound _ _ 61 ltac:(lia) Nn E). apply Rabs_le. lra.
Qed.
Lemma within_offset : forall b, box_within f2p60 b -> box_within f2p61 (with_offset b f1em4).
Proof.
  intros b [[(A1 & A2 & A3) (B1 & B2 & B3)] [(C1 & C2 & C3) (D1 & D2 & D3)]].
  cbn [vsplat vx vy vz] in *.
  repeat split; cbn; first [apply pad_bound; assumption | apply (proj1 (pad_bound _ A1 B1)) | idtac].
Qed.
Lemma within_ok : forall m b, box_within m b -> box_ok b.
Proof. intros m b [[_ A] [_ B]]. apply vle_ok in A. apply vle_ok in B. split; tauto. Qed.

Section Build.
  Variables (aabbs : list aabb) (idx : list nat).

  (** The boxes the leaves are given: padded by 1e-4. *)
  Definition pads : list aabb := map (fun b => with_offset b f1em4) aabbs.

  (** What is known of every cluster: leaves of one primitive; boxes enclose
      the padded boxes (given non-NaN input); boxes are bounded (given bounded
      input). *)
  Definition Q (t : tree) : Prop :=
    Forall (fun n => ex1 n = 1%Z) (leaf_recs t) /\
    (Forall box_ok aabbs -> box_ok (t_rec t) /\ encloses pads idx t) /\
    (Forall (box_within f2p60) aabbs -> all_recs (box_within f2p61) t).

  Lemma all_root : forall P t, all_recs P t -> P (t_rec t).
  Proof. intros P [i n|i n l r] H; simpl in H; tauto. Qed.

  Lemma Q_reloc : forall t p, Q t -> Q (reloc t p).
  Proof. intros [i n|i n l r] p H; exact H. Qed.

  Lemma box_in_trans : forall a b c, box_in a b -> box_in b c -> box_in a c.
  Proof. intros a b c [A B] [C D]. split; eapply vle_trans; eauto. Qed.

  Lemma encloses_root : forall bs t, encloses bs idx t ->
    Forall (fun p => forall b, nth_error bs p = Some b -> box_in b (t_rec t)) (prims idx t).
  Proof. intros bs [i n|i n l r] H; simpl in H; tauto. Qed.

  Lemma encloses_pads : Forall box_ok aabbs -> forall t, encloses pads idx t -> encloses aabbs idx t.
  Proof.
    intros Ok t.
    assert (forall n ps, Forall (fun p => forall b, nth_error pads p = Some b -> box_in b n) ps ->
      Forall (fun p => forall b, nth_error aabbs p = Some b -> box_in b n) ps) as G.
    { intros n ps. apply Forall_impl. intros p H b E. rewrite Forall_forall in Ok.
      destruct (C04_offset b f1em4 (Ok b (nth_error_In _ _ E)) eq_refl eq_refl) as [Bi _].
      eapply box_in_trans; [exact Bi|]. apply H. unfold pads. apply map_nth_error with (f := fun b => with_offset b f1em4). auto. }
    induction t as [i n|i n l IHl r IHr]; cbn [encloses t_rec]; intros [A B]; split; auto; tauto.
  Qed.

  Lemma Q_merge : forall l r p q, Q l -> Q r ->
    Q (TNode p (set_left_first (set_count (union_of (t_rec r) (t_rec l)) None) (Some q)) l r).
  Proof.
    intros l r p q (L1 & L2 & L3) (R1 & R2 & R3). split; [|split].
    - simpl. apply Forall_app; auto.
    - intro Ok. destruct (L2 Ok) as [Ol El]. destruct (R2 Ok) as [Or Er].
      destruct (C01_union_of _ _ Or Ol) as (I1 & I2 & _).
      split.
      + destruct Ol, Or. split; cbn; [apply vmin_ok|apply vmax_ok]; auto.
      + cbn [encloses t_rec]. split; auto. unfold prims. cbn [positions]. rewrite map_app. apply Forall_app. split.
        * eapply Forall_impl; [|apply (encloses_root _ _ El)]. intros a H b Eb.
          apply (box_in_trans b (t_rec l)); auto.
        * eapply Forall_impl; [|apply (encloses_root _ _ Er)]. intros a H b Eb.
          apply (box_in_trans b (t_rec r)); auto.
    - intro W. cbn [all_recs t_rec]. split; auto. destruct (all_root _ _ (L3 W)), (all_root _ _ (R3 W)).
      split; cbn; [apply vwithin_min|apply vwithin_max]; auto.
  Qed.

  Lemma Q_dist : Forall (box_within f2p60) aabbs -> forall s t, Q s -> Q t ->
    is_finite (distance (t_rec s) (t_rec t)) = true /\ flt (distance (t_rec s) (t_rec t)) fMAX = true.
  Proof.
    intros W s t (_ & _ & A) (_ & _ & B). destruct (all_root _ _ (A W)), (all_root _ _ (B W)). unfold distance. apply half_area_bound.
    split; cbn; [apply vwithin_min|apply vwithin_max]; auto.
  Qed.

  Notation n := (length aabbs).
  Hypothesis Hidx : Permutation idx (seq 0 n).
  Hypothesis n1 : 1 <= n.
  Hypothesis nmax : (Z.of_nat (3 * (2 * n - 1)) < 4294967295)%Z.

  Let idx_len : length idx = n. Proof. rewrite (Permutation_length Hidx). apply seq_length. Qed.
  Definition leafrec (i : nat) : aabb :=
    set_left_first (set_count (with_offset (nth (nth i idx 0) aabbs aabb_new) f1em4) (Some 1%Z)) (Some (Z.of_nat i)).
  Lemma leaf_ok : forall i, i < n -> exists b, nth_error idx i = Some (nth i idx 0) /\
    nth_error aabbs (nth i idx 0) = Some b /\ leaf_node aabbs idx i = Ok (leafrec i) /\ In b aabbs /\
    b = nth (nth i idx 0) aabbs aabb_new.
  Proof.
    intros i L. assert (nth_error idx i = Some (nth i idx 0)) as E by (apply nth_error_nth'; lia).
    assert (nth i idx 0 < n) as Lp.
    { apply nth_error_In in E. apply (Permutation_in _ Hidx) in E. apply in_seq in E. lia. }
    exists (nth (nth i idx 0) aabbs aabb_new). split; auto.
    split; [apply nth_error_nth'; auto|]. split.
    - unfold leaf_node, get. rewrite E. cbn [bind]. rewrite (nth_error_nth' aabbs aabb_new) by auto. reflexivity.
    - split; auto. apply nth_In; auto.
  Qed.

  Notation N := (2 * n - 1).
  Notation begin := (n - 1).

  Lemma init_ok : forall nodes0, length nodes0 = N ->
    exists nodes1, for_each (seq 0 n) (init_leaf aabbs idx begin) nodes0 = Ok nodes1 /\ length nodes1 = N /\
      (forall i, i < n -> nth_error nodes1 (begin + i) = Some (leafrec i)).
  Proof.
    intros nodes0 L0.
    destruct (for_each_seq _ (fun x nodes1 => length nodes1 = N /\ forall i, i < x -> nth_error nodes1 (begin + i) = Some (leafrec i))
      (init_leaf aabbs idx begin) n 0 nodes0) as (nodes1 & E & L & H).
    - split; auto. intros; lia.
    - intros i s Hi (L & H). destruct (leaf_ok i ltac:(lia)) as (b & _ & _ & E & _).
      unfold init_leaf. rewrite E. cbn [bind]. unfold set.
      replace (begin + i <? length s) with true by (symmetry; apply Nat.ltb_lt; lia).
      eexists. split; [reflexivity|]. rewrite upd_length. split; auto.
      intros k Lk. destruct (Nat.eq_dec k i) as [->|Nk].
      + apply nth_error_upd_same. lia.
      + rewrite nth_error_upd_other by lia. apply H. lia.
    - eauto.
  Qed.

  Definition leafF : list tree := map (fun i => TLeaf (begin + i) (leafrec i)) (seq 0 n).
  Lemma leaf_positions_i : forall i, i < n -> leaf_positions (leafrec i) = [i].
  Proof.
    intros i L. unfold leaf_positions, leafrec. cbn [ex1 ex2 set_left_first set_count].
    rewrite !as_i32_small by lia. rewrite Nat2Z.id. reflexivity.
  Qed.
  Lemma init_finv : forall nodes1, (forall i, i < n -> nth_error nodes1 (begin + i) = Some (leafrec i)) ->
    finv Q N n nodes1 begin N leafF.
  Proof.
    intros nodes1 H. constructor.
    - unfold leafF. rewrite map_map. cbn [t_idx]. rewrite map_add_seq. f_equal; lia.
    - apply Forall_forall. intros t I. apply in_map_iff in I as (i & <- & I). apply in_seq in I.
      cbn [repr]. split; [apply H; lia|]. unfold leafrec; cbn [ex1 ex2 set_left_first set_count].
      rewrite !as_i32_small by lia. lia.
    - rewrite Nat.sub_diag. unfold leafF. rewrite flat_map_map.
      assert (forall l, flat_map (fun i => below (TLeaf (begin + i) (leafrec i))) l = []) as G by (induction l; auto).
      rewrite G. constructor.
    - unfold leafF. rewrite flat_map_map. cbn [positions].
      rewrite (flat_map_ext_in _ _ _ (fun i => [i])).
      + assert (forall l : list nat, flat_map (fun i => [i]) l = l) as G by (induction l as [|x l IH]; simpl; congruence).
        rewrite G. auto.
      + intros i I. apply in_seq in I. apply leaf_positions_i. lia.
    - apply Forall_forall. intros t I. apply in_map_iff in I as (i & <- & I). apply in_seq in I.
      destruct (leaf_ok i ltac:(lia)) as (b & Ei & Eb & _ & Ib & Ebn).
      split; [|split].
      + simpl. constructor; auto.
      + intro Ok. rewrite Forall_forall in Ok. pose proof (Ok b Ib) as Ob.
        destruct (C04_offset b f1em4 Ob eq_refl eq_refl) as [Bi _].
        assert (box_in b (leafrec i)) as Bl by (unfold leafrec; rewrite <- Ebn; exact Bi).
        split.
        * destruct Bl as [A B]. apply vle_ok in A. apply vle_ok in B. split; tauto.
        * cbn [encloses t_rec]. split; auto. unfold prims. cbn [positions]. rewrite leaf_positions_i by lia. cbn [map]. constructor; auto.
          intros b' Eb'. unfold pads in Eb'. rewrite (map_nth_error (fun b => with_offset b f1em4) _ _ Eb) in Eb'. injection Eb' as <-.
          destruct Bl as [A1 A2]. apply vle_ok in A1. apply vle_ok in A2.
          split; [replace (bmin (leafrec i)) with (bmin (with_offset b f1em4))|replace (bmax (leafrec i)) with (bmax (with_offset b f1em4))];
            try (unfold leafrec; rewrite <- Ebn; reflexivity); apply vle_refl;
            [destruct A1 as [A1 _]|destruct A2 as [_ A2]]; unfold leafrec in *; rewrite <- Ebn in *; assumption.
      + intro W. rewrite Forall_forall in W. pose proof (within_offset b (W b Ib)) as Wo.
        unfold leafrec. cbn [all_recs t_rec]. split; auto. rewrite <- Ebn. exact Wo.
    - apply Forall_forall. intros t I. apply in_map_iff in I as (i & <- & I). exact Logic.I.
  Qed.

  Lemma final_tree : forall out t, length out = N -> finv Q N n out 0 1 [t] ->
    repr out t /\ t_idx t = 0 /\ Permutation (t_ids t) (seq 0 (length out)) /\ Permutation (positions t) (seq 0 n) /\ Q t /\
    children_after t.
  Proof.
    intros out t L [F1 F2 F3 F4 F5 F6]. simpl in F1. injection F1 as E0.
    inversion F2; subst. inversion F5; subst. inversion F6; subst. simpl in F3, F4. rewrite app_nil_r in F3, F4.
    split; [auto|]. split; [auto|]. split; [|split; auto].
    rewrite ids_below, E0, L. replace (seq 0 N) with (0 :: seq 1 (N - 1)).
    - apply perm_skip. auto.
    - replace N with (S (N - 1)) at 2 by lia. reflexivity.
  Qed.
End Build.

(** The tree stored at an index of a node array is unique. *)
Lemma repr_unique : forall ns t t', repr ns t -> repr ns t' -> t_idx t = t_idx t' -> t = t'.
Proof.
  intros ns t; induction t as [i n|i n l IHl r IHr]; intros [j m|j m l' r'] A B E; cbn [t_idx repr] in *; subst j;
    destruct A as (A1 & A2 & A3); destruct B as (B1 & B2 & B3); rewrite A1 in B1; injection B1 as <-; try lia; auto.
  destruct A3 as (A3 & A4 & A5), B3 as (B3 & B4 & B5). assert (t_idx l = t_idx l') as El by lia.
  f_equal; [apply IHl|apply IHr]; intuition congruence.
Qed.

(** What a finished build guarantees. *)
Definition good_bvh (aabbs : list aabb) (bv : bvh) : Prop :=
  let n := length aabbs in
  exists t, repr (nodes bv) t /\ t_idx t = 0 /\ Permutation (t_ids t) (seq 0 (length (nodes bv))) /\
    Permutation (positions t) (seq 0 (length (prim_indices bv))) /\ Permutation (prim_indices bv) (seq 0 n) /\
    length (nodes bv) = (if n <=? 2 then 1 else 2 * n - 1) /\
    (3 <= n -> Forall (fun r => ex1 r = 1%Z) (leaf_recs t)) /\
    (Forall box_ok aabbs -> encloses aabbs (prim_indices bv) t) /\ children_after t /\
    (3 <= n -> (Forall box_ok aabbs -> encloses (pads aabbs) (prim_indices bv) t) /\
               (Forall (box_within f2p60) aabbs -> all_recs (box_within f2p61) t)).

Lemma small_build : forall aabbs, length aabbs = 1 \/ length aabbs = 2 ->
  good_bvh aabbs (Bvh [set_count (set_left_first (union_of_list aabbs) (Some 0%Z)) (Some (Z.of_nat (length aabbs)))] (seq 0 (length aabbs))).
Proof.
  intros aabbs L. set (r := set_count _ _).
  assert (ex1 r = Z.of_nat (length aabbs)) as E1 by (unfold r; cbn; apply as_i32_small; lia).
  assert (ex2 r = 0%Z) as E2 by reflexivity.
  exists (TLeaf 0 r). cbn [nodes prim_indices repr t_idx t_ids].
  assert (leaf_positions r = seq 0 (length aabbs)) as Ep.
  { unfold leaf_positions. rewrite E1, E2, Nat2Z.id. reflexivity. }
  repeat split; try lia; auto.
  - simpl. rewrite Ep, seq_length. auto.
  - replace (length aabbs <=? 2) with true by (symmetry; apply Nat.leb_le; lia). auto.
  - pose proof (C03_union_of_list_covers aabbs H) as Cv. rewrite Forall_forall in Cv.
    apply Forall_forall. intros p Ip b Eb. apply nth_error_In in Eb. apply (Cv b Eb).
Qed.

Theorem locb_sound : forall radius fuel threads aabbs centers bv,
  1 <= radius -> 1 <= threads -> length centers = length aabbs -> 1 <= length aabbs ->
  (Z.of_nat (3 * (2 * length aabbs - 1)) < 4294967295)%Z ->
  locb_build_radius radius fuel threads aabbs centers = Ok bv -> good_bvh aabbs bv.
Proof.
  intros radius fuel threads aabbs centers bv R1 T1 Lc n1 nmax E. unfold locb_build_radius in E.
  rewrite Lc, Nat.eqb_refl in E. replace (length aabbs =? 0) with false in E by (symmetry; apply Nat.eqb_neq; lia).
  cbn [negb orb] in E. destruct (Nat.leb_spec (length aabbs) 2) as [C|C].
  - injection E as <-. apply small_build. lia.
  - set (idx := fst (get_sorted_indices _ _)) in E.
    assert (Permutation idx (seq 0 (length aabbs))) as Hidx.
    { unfold idx, get_sorted_indices. cbn [fst]. rewrite <- Lc. apply sort_seq. }
    set (NN := 2 * length aabbs - 1) in *.
    set (nodes0 := repeat _ NN) in E. assert (length nodes0 = NN) as L0 by apply repeat_length.
    replace (NN - length aabbs) with (length aabbs - 1) in E by (unfold NN; lia).
    destruct (init_ok aabbs idx Hidx n1 nmax nodes0 L0) as (nodes1 & E1 & L1 & H1).
    rewrite E1 in E. cbn [bind] in E.
    destruct (cluster_loop fuel radius threads nodes1 nodes0 _ _ _ _ _) as [out| | |] eqn:E2; try discriminate.
    cbn [bind] in E. injection E as <-.
    pose proof (init_finv aabbs idx Hidx n1 nmax nodes1 H1) as FI.
    destruct (cluster_loop_sound (Q aabbs idx) (Q_reloc aabbs idx) (Q_merge aabbs idx) radius threads NN (length aabbs) R1 T1
                ltac:(unfold NN; lia) fuel nodes1 nodes0 (repeat (N.of_nat NN) (3 * NN)) (repeat NN (2 * NN)) (length aabbs - 1) NN NN _ out FI L1 L0) as (Lo & t & Ft); auto.
    1-3: rewrite ?repeat_length; unfold NN in *; lia.
    + intros p Hp. rewrite !(proj2 (nth_error_None _ _)) by lia. auto.
    + unfold NN; lia.
    + destruct (final_tree aabbs idx Hidx n1 nmax out t Lo Ft) as (A & B & Cc & D & (Q1 & Q2 & Q3) & Or).
      assert (length idx = length aabbs) as Li by (rewrite (Permutation_length Hidx); apply seq_length).
      exists t. cbn [nodes prim_indices]. rewrite Li. repeat split; auto.
      * replace (length aabbs <=? 2) with false by (symmetry; apply Nat.leb_gt; lia). auto.
      * intro Ok. apply encloses_pads; auto. apply Q2; auto.
      * intro Ok. apply Q2; auto.
Qed.

Theorem locb_total : forall radius fuel threads aabbs centers,
  1 <= radius -> 1 <= threads -> length centers = length aabbs -> 1 <= length aabbs ->
  (Z.of_nat (3 * (2 * length aabbs - 1)) < 4294967295)%Z -> length aabbs <= fuel ->
  Forall (box_within f2p60) aabbs ->
  exists bv, locb_build_radius radius fuel threads aabbs centers = Ok bv.
Proof.
  intros radius fuel threads aabbs centers R1 T1 Lc n1 nmax Fu W. unfold locb_build_radius.
  rewrite Lc, Nat.eqb_refl. replace (length aabbs =? 0) with false by (symmetry; apply Nat.eqb_neq; lia).
  cbn [negb orb]. destruct (Nat.leb_spec (length aabbs) 2) as [C|C]; [eauto|].
  set (idx := fst (get_sorted_indices _ _)).
  assert (Permutation idx (seq 0 (length aabbs))) as Hidx.
  { unfold idx, get_sorted_indices. cbn [fst]. rewrite <- Lc. apply sort_seq. }
  set (NN := 2 * length aabbs - 1) in *.
  set (nodes0 := repeat _ NN). assert (length nodes0 = NN) as L0 by apply repeat_length.
  replace (NN - length aabbs) with (length aabbs - 1) by (unfold NN; lia).
  destruct (init_ok aabbs idx Hidx n1 nmax nodes0 L0) as (nodes1 & E1 & L1 & H1).
  rewrite E1. cbn [bind].
  pose proof (init_finv aabbs idx Hidx n1 nmax nodes1 H1) as FI.
  destruct (cluster_loop_ok (Q aabbs idx) (Q_reloc aabbs idx) (Q_merge aabbs idx) (Q_dist aabbs idx W) radius threads NN (length aabbs) R1 T1
              ltac:(unfold NN; lia) fuel nodes1 nodes0 (repeat (N.of_nat NN) (3 * NN)) (repeat NN (2 * NN)) (length aabbs - 1) NN NN _ FI L1 L0)
    as (out & t & E & _); auto.
  1-2: rewrite ?repeat_length; unfold NN in *; lia.
  - intros p Hp. rewrite !(proj2 (nth_error_None _ _)) by lia. auto.
  - unfold NN; lia.
  - unfold NN; lia.
  - rewrite E. cbn [bind]. eauto.
Qed.

(** ** Independence of the number of chunks *)
Lemma for_each_length : forall A B (f : A -> list B -> res (list B)),
  (forall x s s', f x s = Ok s' -> length s' = length s) ->
  forall l s s', for_each l f s = Ok s' -> length s' = length s.
Proof.
  intros A B f H l; induction l as [|x l IH]; intros s s' E; simpl in E; [congruence|].
  destruct (f x s) as [s1| | |] eqn:E1; try discriminate. cbn [bind] in E.
  rewrite (IH _ _ E). eauto.
Qed.
Ltac inv_ok H := repeat match type of H with
  | bind ?r _ = Ok _ => let E := fresh "E" in destruct r eqn:E; cbn [bind] in H; try discriminate
  | (if ?c then _ else _) = Ok _ => let C := fresh "C" in destruct c eqn:C; try discriminate
  | (let '(_, _) := ?p in _) = Ok _ => destruct p
  end.
Lemma set_length : forall A (l : list A) i v l', set l i v = Ok l' -> length l' = length l.
Proof. intros A l i v l' H. unfold set in H. inv_ok H. injection H as <-. apply upd_length. Qed.
Lemma set_unchecked_length : forall A (l : list A) i v l', set_unchecked l i v = Ok l' -> length l' = length l.
Proof. intros A l i v l' H. unfold set_unchecked in H. inv_ok H. injection H as <-. apply upd_length. Qed.

Lemma merge_flag_length : forall nbs i m m', merge_flag nbs i m = Ok m' -> length m' = length m.
Proof. intros nbs i m m' H. unfold merge_flag in H. inv_ok H. eapply set_length; eauto. Qed.
Lemma merge_step_length : forall input nbs mg b u c i o o', merge_step input nbs mg b u c i o = Ok o' -> length o' = length o.
Proof.
  intros input nbs mg b u c i o o' H. unfold merge_step in H. inv_ok H.
  - repeat match goal with X : set_unchecked _ _ _ = Ok _ |- _ => apply set_unchecked_length in X end. congruence.
  - congruence.
  - eapply set_unchecked_length; eauto.
Qed.
Lemma copy_range_length : forall a o x y o', copy_range a o x y = Ok o' -> length o' = length o.
Proof.
  intros a o x y o' H. unfold copy_range in H. inv_ok H. injection H as <-.
  apply andb_true_iff in C as [C C3]. apply andb_true_iff in C as [C1 C2].
  apply Nat.leb_le in C1, C2, C3. rewrite !app_length, !firstn_length, !skipn_length. lia.
Qed.

Lemma cluster_threads : forall radius t1 t2 input output nbs mg b e p, 1 <= radius -> 1 <= t1 -> 1 <= t2 ->
  b <= e -> e <= length input -> e <= length nbs ->
  cluster radius t1 input output nbs mg b e p = cluster radius t2 input output nbs mg b e p /\
  forall o nbs' mg' b' e', cluster radius t1 input output nbs mg b e p = Ok (o, nbs', mg', b', e') ->
    length o = length output /\ length nbs' = length nbs /\ b' <= e' /\ e' <= e.
Proof.
  intros radius t1 t2 input output nbs mg b e p R1 T1 T2 Lbe Li Ln.
  unfold cluster. rewrite !all_neighbours_ok by auto. split; [reflexivity|].
  intros o nbs' mg' b' e' H. cbn [bind] in H. inv_ok H. injection H as <- <- <- <- <-.
  assert (forall x y z, usub x y = Ok z -> z = x - y /\ y <= x) as U.
  { intros x y z X. unfold usub in X. destruct (Nat.leb_spec y x); [|discriminate]. injection X as <-. auto. }
  split; [|split; [apply put_all_length|]].
  - match goal with X : copy_range _ _ _ _ = Ok _ |- _ => apply copy_range_length in X; rewrite X end.
    eapply for_each_length; [|eauto]. intros; eapply merge_step_length; eauto.
  - repeat match goal with X : usub _ _ = Ok _ |- _ => apply U in X as [-> ?] end. lia.
Qed.

Theorem loop_threads : forall fuel radius t1 t2 nodes copy nbs mg b e p, 1 <= radius -> 1 <= t1 -> 1 <= t2 ->
  b <= e -> e <= length nodes -> e <= length copy -> e <= length nbs ->
  cluster_loop fuel radius t1 nodes copy nbs mg b e p = cluster_loop fuel radius t2 nodes copy nbs mg b e p.
Proof.
  induction fuel as [|fuel IH]; intros radius t1 t2 nodes copy nbs mg b e p R1 T1 T2 Lbe Ln Lc Lnb; cbn [cluster_loop]; auto.
  destruct (e - b <=? 1); auto.
  destruct (cluster_threads radius t1 t2 nodes copy nbs mg b e p R1 T1 T2 Lbe Ln Lnb) as [E H].
  rewrite <- E. destruct (cluster radius t1 nodes copy nbs mg b e p) as [[[[[o nbs'] mg'] b'] e']| | |]; auto.
  cbn [bind]. destruct (H _ _ _ _ _ eq_refl) as (A & B & C & D). apply IH; auto; lia.
Qed.

Theorem locb_threads : forall radius fuel t1 t2 aabbs centers, 1 <= radius -> 1 <= t1 -> 1 <= t2 ->
  locb_build_radius radius fuel t1 aabbs centers = locb_build_radius radius fuel t2 aabbs centers.
Proof.
  intros radius fuel t1 t2 aabbs centers R1 T1 T2. unfold locb_build_radius.
  destruct (negb _ || _ || _); auto. destruct (length aabbs <=? 2); auto.
  set (NN := 2 * length aabbs - 1).
  destruct (for_each _ _ _) as [nodes1| | |] eqn:E; auto. cbn [bind].
  assert (length nodes1 = NN) as L1.
  { eapply eq_trans; [eapply for_each_length; [|exact E]|apply repeat_length].
    intros x s s' X; unfold init_leaf in X; inv_ok X; eapply set_length; eauto. }
  rewrite (loop_threads fuel radius t1 t2); auto; rewrite ?repeat_length; lia.
Qed.
