(** * The spatial-split builder takes cheapest cuts *)
Require Import List ZArith Bool Arith Lia Permutation Sorted Reals Lra.
From Flocq Require Import BinarySingleNaN.
From Verif Require Import F32 F32Facts Vec AabbModel SpecGeom AabbProofs Base NodeModel UtilsModel UtilsProofs LocbModel SpawnModel TriModel
  PropTri BinnedModel SpatialModel SpecBinned SpecPlane PlaneProofs SpecCut SpecSpatial SpatialPlan SpatialProofs SpatialComplete SpatialShare SpatialBoxes.
From Verif Require BinnedCost SpatialLeaf.
Import ListNotations.
Local Open Scope nat_scope.
Notation sim := BinnedCost.sim.

(** ** Sorting *)
Lemma sorted_app : forall A (R : A -> A -> Prop) l l', StronglySorted R (l ++ l') ->
  StronglySorted R l /\ StronglySorted R l' /\ forall x y, In x l -> In y l' -> R x y.
Proof.
  intros A R. induction l as [|a l IH]; intros l' H; simpl in H.
  - split; [constructor|]. split; auto. intros x y [].
  - inversion H as [|? ? Hs Hf]; subst. destruct (IH _ Hs) as (H1 & H2 & H3). apply Forall_app in Hf as (F1 & F2).
    split; [constructor; auto|]. split; auto. intros x y [->|I] J; auto. rewrite Forall_forall in F2. auto.
Qed.
Lemma sorted_filter : forall A (R : A -> A -> Prop) f l, StronglySorted R l -> StronglySorted R (filter f l).
Proof.
  intros A R f. induction l as [|a l IH]; intros H; simpl; auto. inversion H as [|? ? Hs Hf]; subst.
  destruct (f a); auto. constructor; auto. rewrite Forall_forall in *. intros x Ix. apply filter_In in Ix as (Ix & _). auto.
Qed.
Lemma sorted_split : forall A (R : A -> A -> Prop) f l, StronglySorted R l ->
  (forall x y, In x l -> In y l -> f x = true -> f y = false -> ~ R y x) -> l = filter f l ++ filter (fun x => negb (f x)) l.
Proof.
  intros A R f. induction l as [|a l IH]; intros H N; simpl; auto. inversion H as [|? ? Hs Hf]; subst.
  destruct (f a) eqn:E; simpl.
  - f_equal. apply IH; auto. intros x y I J. apply N; simpl; auto.
  - assert (filter f l = []) as ->.
    { apply filter_none. intros x Ix. destruct (f x) eqn:Ex; auto. exfalso. apply (N x a); simpl; auto.
      rewrite Forall_forall in Hf. auto. }
    simpl. f_equal. symmetry. apply filter_all. intros x Ix. destruct (f x) eqn:Ex; auto. exfalso. apply (N x a); simpl; auto.
    rewrite Forall_forall in Hf. auto.
Qed.
Lemma sorted_firstn : forall axis k l, by_center axis l -> by_center axis (firstn k l) /\ by_center axis (skipn k l).
Proof. intros axis k l H. unfold by_center in *. rewrite <- (firstn_skipn k l) in H. apply sorted_app in H. tauto. Qed.

(** [insertion_sort] sorts. *)
Lemma insert_sorted : forall axis x l, fnan (vget (s_center x) axis) = false -> Forall (fun r => fnan (vget (s_center r) axis) = false) l ->
  by_center axis l -> by_center axis (insert_ref axis x l).
Proof.
  intros axis x. induction l as [|y l IH]; intros Nx Nl H; simpl; [constructor; constructor|].
  inversion Nl as [|? ? Ny Nl']; subst. inversion H as [|? ? Hs Hf]; subst.
  destruct (flt _ _) eqn:E.
  - constructor; [exact H|]. constructor; [apply flt_fle; auto|].
    rewrite Forall_forall in *. intros z Iz. unfold before. eapply fle_trans; [apply flt_fle; exact E|]. apply Hf. auto.
  - constructor; [apply IH; auto|]. rewrite Forall_forall in *. intros z Iz.
    assert (forall l, In z (insert_ref axis x l) -> z = x \/ In z l) as G.
    { clear. induction l as [|y l IH]; simpl; [intuition|]. destruct (flt _ _); simpl; intuition. }
    destruct (G _ Iz) as [->|I]; [|apply Hf; auto]. unfold before.
    apply (fle_spec _ _ Ny Nx). apply (flt_false _ _ Nx Ny). exact E.
Qed.
Lemma insertion_sorts : sorts insertion_sort.
Proof.
  intros axis l N. unfold insertion_sort.
  assert (forall l acc, Forall (fun r => fnan (vget (s_center r) axis) = false) l -> Forall (fun r => fnan (vget (s_center r) axis) = false) acc ->
    by_center axis acc -> by_center axis (fold_left (fun acc x => insert_ref axis x acc) l acc)) as G.
  { clear. induction l as [|x l IH]; intros acc Nl Na H; simpl; auto. inversion Nl; subst. apply IH; auto.
    - rewrite Forall_forall in *. intros z Iz.
      assert (forall l, In z (insert_ref axis x l) -> z = x \/ In z l) as G.
      { clear. induction l as [|y l IH]; simpl; [intuition|]. destruct (flt _ _); simpl; intuition. }
      destruct (G _ Iz) as [->|I]; auto.
    - apply insert_sorted; auto. }
  apply G; auto. constructor.
Qed.

Lemma filter_both : forall A (f : A -> bool) l, length (filter f l) + length (filter (fun x => negb (f x)) l) = length l.
Proof. intros A f. induction l as [|a l IH]; cbn [filter length]; auto. destruct (f a); cbn [negb length]; lia. Qed.

(** ** Areas *)
Lemma sim_fmax : forall a x y : f32, sim x y -> sim (fmax a x) (fmax a y).
Proof.
  intros a x y [->|[A B]]; [left; auto|].
  destruct x as [sx|sx| |sx mx ex Hx], y as [sy|sy| |sy my ey Hy]; try discriminate.
  destruct a as [s|s| |s m e H]; [destruct s| destruct s| |destruct s];
    first [left; reflexivity|right; split; reflexivity|right; split; destruct sx, sy; reflexivity|left; destruct sx, sy; reflexivity].
Qed.
Lemma area_sim : forall a b, box_in a b -> box_in b a -> sim (area a) (area b).
Proof.
  intros a b [(A1 & A2 & A3) (A4 & A5 & A6)] [(B1 & B2 & B3) (B4 & B5 & B6)].
  assert (sim (vx (bmin a)) (vx (bmin b))) as S1 by (apply BinnedCost.sim_fle; auto).
  assert (sim (vy (bmin a)) (vy (bmin b))) as S2 by (apply BinnedCost.sim_fle; auto).
  assert (sim (vz (bmin a)) (vz (bmin b))) as S3 by (apply BinnedCost.sim_fle; auto).
  assert (sim (vx (bmax a)) (vx (bmax b))) as S4 by (apply BinnedCost.sim_fle; auto).
  assert (sim (vy (bmax a)) (vy (bmax b))) as S5 by (apply BinnedCost.sim_fle; auto).
  assert (sim (vz (bmax a)) (vz (bmax b))) as S6 by (apply BinnedCost.sim_fle; auto).
  unfold area, lengths, diagonal, vsub. cbv zeta. cbn [vx vy vz vmap2]. apply sim_fmax.
  repeat (apply BinnedCost.sim_fadd || apply BinnedCost.sim_fmul); apply BinnedCost.sim_fsub; auto.
Qed.
Lemma shrink_mono : forall a b a' b', box_in a a' -> box_in b b' -> box_in (shrink a b) (shrink a' b').
Proof.
  intros a b a' b' (A1 & A2) (B1 & B2). unfold shrink, box_in. cbn [bmin bmax].
  pose proof (vle_ok _ _ A1) as (Oa1 & Oa2). pose proof (vle_ok _ _ B1) as (Ob1 & Ob2).
  pose proof (vle_ok _ _ A2) as (Oa3 & Oa4). pose proof (vle_ok _ _ B2) as (Ob3 & Ob4).
  split.
  - apply vmax_lub; [eapply vle_trans; [exact A1|apply vmax_ge_l; auto]|eapply vle_trans; [exact B1|apply vmax_ge_r; auto]].
  - apply vmin_glb; [eapply vle_trans; [|exact A2]; apply vmin_le_l; auto|eapply vle_trans; [|exact B2]; apply vmin_le_r; auto].
Qed.

(** ** Costs *)
Section Cost.
  Variables (aabbs : list aabb) (centers : list vec3).
  Hypothesis Hok : Forall box_ok aabbs.

  (** The reference is for a whole primitive. *)
  Definition orig (r : sref) : Prop := nth (s_prim r) aabbs aabb_new = s_box r /\ nth (s_prim r) centers (vsplat f0) = s_center r.

  Lemma orig_center : forall axis r, orig r -> at_axis centers axis (s_prim r) = vget (s_center r) axis.
  Proof. intros axis r (_ & E). unfold at_axis. rewrite E. auto. Qed.
  Lemma hull_tight : forall S B, Forall orig S -> hull B S -> BinnedCost.tight aabbs (pr S) B.
  Proof.
    intros S B Or H. pose proof (hull_ok _ _ H) as O. destruct H as ((H1 & H2) & H3). rewrite Forall_forall in *.
    split; [auto|]. split; [auto|]. split.
    - intros p Ip. apply in_map_iff in Ip as (r & <- & Ir). rewrite (proj1 (Or _ Ir)). auto.
    - intros c C1 C2. apply H3. split; auto. rewrite Forall_forall. intros r Ir. rewrite <- (proj1 (Or _ Ir)). apply C2. apply in_map; auto.
  Qed.
  Lemma hull_sim : forall S B, Forall orig S -> hull B S ->
    box_in B (SpecBinned.hull aabbs (pr S)) /\ box_in (SpecBinned.hull aabbs (pr S)) B.
  Proof.
    intros S B Or H. apply hull_tight in H as (A1 & A2 & A3 & A4); auto.
    destruct (BinnedCost.hull_tight aabbs Hok (pr S)) as (B1 & B2 & B3 & B4). split; auto.
  Qed.
  Lemma side_sim : forall S B, Forall orig S -> hull B S -> sim (fmul (half_area B) (fn (length S))) (side_cost aabbs (pr S)).
  Proof.
    intros S B Or H. unfold side_cost. replace (length (pr S)) with (length S) by (symmetry; apply map_length).
    apply BinnedCost.sim_fmul; [|apply BinnedCost.sim_refl]. destruct (hull_sim S B Or H). apply BinnedCost.half_area_sim; auto.
  Qed.
  Lemma pair_perm : forall l l' r r', Permutation l l' -> Permutation r r' -> sim (pair_cost aabbs l r) (pair_cost aabbs l' r').
  Proof. intros. unfold pair_cost. apply BinnedCost.sim_fadd; apply BinnedCost.hull_perm; auto. Qed.

  (** The cost of separating the references of an axis at position [j]. *)
  Definition pc (l : list sref) (j : nat) : f32 := pair_cost aabbs (pr (firstn j l)) (pr (skipn j l)).

  Section Find.
  Variables (refs : per_axis (list sref)) (len : nat).
  Hypothesis Hlen : all3 (fun l => length l = len) refs.
  Hypothesis Hor : all3 (Forall orig) refs.
  Hypothesis Hbox : all3 boxes_ok refs.

  Definition found (s : osplit) : Prop :=
    forall j, o_index s = Some j -> o_axis s < 3 /\ 0 < j < len /\ sim (o_cost s) (pc (pick refs (o_axis s)) j).

  Lemma object_pass_best : forall axis l pre box best, axis < 3 -> pick refs axis = pre ++ l -> hull box pre ->
    found best -> fnan (o_cost best) = false ->
    let s := object_pass axis len l (skipn 1 (suffix_boxes l)) box (length pre) best in
    found s /\ fle (o_cost s) (o_cost best) = true /\ (forall j, length pre < j < len -> flt (pc (pick refs axis) j) (o_cost s) = false).
  Proof.
    intros axis l. induction l as [|r l IH]; intros pre box best La E H Fo Nn; cbv zeta; cbn [object_pass].
    - split; auto. split; [apply fle_refl; auto|]. intros j Lj. pose proof (all3_pick _ _ _ axis Hlen) as Ll. cbv beta in Ll.
      rewrite E, app_nil_r in Ll. lia.
    - pose proof (all3_pick _ _ _ axis Hlen) as Ll. cbv beta in Ll. pose proof (all3_pick _ _ _ axis Hbox) as Ob. cbv beta in Ob.
      pose proof (all3_pick _ _ _ axis Hor) as Orr. cbv beta in Orr.
      cbn [suffix_boxes skipn]. destruct l as [|r' l].
      { split; auto. split; [apply fle_refl; auto|]. intros j Lj. rewrite E, app_length in Ll. simpl in Ll. lia. }
      remember (r' :: l) as l2 eqn:El. assert (suffix_boxes l2 = hd aabb_new (suffix_boxes l2) :: skipn 1 (suffix_boxes l2)) as Es
        by (subst l2; reflexivity).
      rewrite Es. cbv zeta.
      assert (box_ok (s_box r)) as Or. { rewrite E in Ob. apply boxes_ok_app in Ob as (_ & O). inversion O; auto. }
      assert (boxes_ok l2) as O2. { rewrite E in Ob. apply boxes_ok_app in Ob as (_ & O). inversion O; auto. }
      assert (pick refs axis = (pre ++ [r]) ++ l2) as E2 by (rewrite E, <- app_assoc; auto).
      assert (Forall orig (pre ++ [r]) /\ Forall orig l2) as (Fa & Fb) by (rewrite E2 in Orr; apply Forall_app in Orr; auto).
      assert (hull (grow_bb box (s_box r)) (pre ++ [r])) as Ha by (apply hull_snoc; auto).
      pose proof (suffix_hull l2 O2) as Hb.
      assert (length (pre ++ [r]) = S (length pre)) as Lp by (rewrite app_length; simpl; lia).
      assert (len - S (length pre) = length l2) as Lr by (rewrite E2, !app_length in Ll; simpl in Ll; lia).
      rewrite <- Lp. rewrite <- Lp in Lr. rewrite Lr.
      set (cost := fadd (fmul (half_area (grow_bb box (s_box r))) (fn (length (pre ++ [r])))) (fmul (half_area (hd aabb_new (suffix_boxes l2))) (fn (length l2)))).
      assert (sim cost (pc (pick refs axis) (length (pre ++ [r])))) as Sc.
      { unfold cost, pc, pair_cost. rewrite E2, firstn_app_len, skipn_app_len by auto.
        apply BinnedCost.sim_fadd; apply side_sim; auto. }
      set (best' := if flt cost (o_cost best) then _ else best).
      assert (found best' /\ fle (o_cost best') (o_cost best) = true /\ flt cost (o_cost best') = false /\ fnan (o_cost best') = false) as (Fo' & Le' & Lt' & Nn').
      { unfold best'. destruct (flt cost (o_cost best)) eqn:Ec; cbn [o_cost].
        - destruct (flt_notnan _ _ Ec) as (Nc & _). split; [|split; [apply flt_fle; auto|split; [apply flt_irrefl|auto]]].
          intros j Ej. cbn [o_index o_axis o_cost] in *. assert (j = length (pre ++ [r])) as -> by congruence.
          split; auto. split; [|auto]. rewrite E2, app_length in Ll. subst l2. simpl in Ll. lia.
        - split; auto. split; [apply fle_refl; auto|]. auto. }
      destruct (IH (pre ++ [r]) (grow_bb box (s_box r)) best' La E2 Ha Fo' Nn') as (R1 & R2 & R3).
      split; auto. split; [eapply fle_trans; eauto|]. intros j Lj. destruct (Nat.eq_dec j (length (pre ++ [r]))) as [->|Nj].
      + rewrite <- (BinnedCost.sim_flt cost _ _ _ Sc (BinnedCost.sim_refl _)). eapply BinnedCost.flt_false_le; eauto.
      + apply R3. lia.
  Qed.
  Lemma object_axis_best : forall axis best, axis < 3 -> found best -> fnan (o_cost best) = false ->
    let s := object_axis refs best axis in
    found s /\ fle (o_cost s) (o_cost best) = true /\ (forall j, 0 < j < len -> flt (pc (pick refs axis) j) (o_cost s) = false).
  Proof.
    intros axis best La Fo Nn. unfold object_axis. pose proof (all3_pick _ _ _ axis Hlen) as Ll. cbv beta in Ll. rewrite Ll.
    apply (object_pass_best axis (pick refs axis) []); auto. apply hull_nil.
  Qed.
  Lemma find_best : let s := find_object_split refs in
    found s /\ fle (o_cost s) fMAX = true /\ (forall axis j, axis < 3 -> 0 < j < len -> flt (pc (pick refs axis) j) (o_cost s) = false) /\
    (o_index s = None -> o_cost s = fMAX).
  Proof.
    cbv zeta. unfold find_object_split. cbn [fold_left].
    set (s0 := object_axis refs osplit_new 0). set (s1 := object_axis refs s0 1).
    destruct (object_axis_best 0 osplit_new) as (A1 & A2 & A3); [lia|intros j Ej; discriminate Ej|reflexivity|]. fold s0 in A1, A2, A3.
    destruct (fle_notnan _ _ A2) as (N0 & _).
    destruct (object_axis_best 1 s0 ltac:(lia) A1 N0) as (B1 & B2 & B3). fold s1 in B1, B2, B3.
    destruct (fle_notnan _ _ B2) as (N1 & _).
    destruct (object_axis_best 2 s1 ltac:(lia) B1 N1) as (C1 & C2 & C3).
    split; [exact C1|]. split; [eapply fle_trans; [exact C2|]; eapply fle_trans; [exact B2|exact A2]|]. split.
    - intros axis j La Lj. destruct axis as [|[|[|axis]]]; [| | |lia].
      + eapply BinnedCost.flt_false_le; [apply A3; auto|]. eapply fle_trans; [exact C2|exact B2].
      + eapply BinnedCost.flt_false_le; [apply B3; auto|exact C2].
      + apply C3; auto.
    - apply SpatialLeaf.split_none.
  Qed.
  End Find.

  (** ** Cuts are prefixes of the sorted references *)
  Lemma pr_filter : forall (f : nat -> bool) x, pr (filter (fun r => f (s_prim r)) x) = filter f (pr x).
  Proof. intros f. induction x as [|r x IH]; simpl; auto. destruct (f (s_prim r)); simpl; congruence. Qed.
  Lemma mem_spec : forall p l, existsb (Nat.eqb p) l = true <-> In p l.
  Proof.
    intros p l. rewrite existsb_exists. split; [intros (y & I & E); apply Nat.eqb_eq in E; subst; auto|].
    intro I. exists p. split; auto. apply Nat.eqb_refl.
  Qed.
  Lemma cut_prefix : forall axis x held l r, Forall orig x -> by_center axis x -> NoDup (pr x) -> Permutation held (pr x) ->
    cut centers held axis l r ->
    exists j, 0 < j < length x /\ Permutation (pr (firstn j x)) l /\ Permutation (pr (skipn j x)) r.
  Proof.
    intros axis x held l r Or So Nd Ph (Pl & Nl & Nr & Lt).
    set (f := fun p => existsb (Nat.eqb p) l).
    assert (Permutation (l ++ r) (pr x)) as P by (rewrite Pl; exact Ph).
    assert (NoDup (l ++ r)) as Nlr by (eapply Permutation_NoDup; [symmetry; exact P|auto]).
    assert (forall p, In p (pr x) -> f p = false -> In p r) as Fr.
    { intros p Ip Ef. apply (Permutation_in _ (Permutation_sym P)) in Ip. apply in_app_or in Ip as [I|I]; auto.
      exfalso. apply mem_spec in I. unfold f in Ef. congruence. }
    pose proof (sorted_split _ (before axis) (fun r => f (s_prim r)) x So) as Ex.
    assert (x = filter (fun r => f (s_prim r)) x ++ filter (fun r => negb (f (s_prim r))) x) as E.
    { apply Ex. intros a b Ia Ib Fa Fb. rewrite Forall_forall in Or. unfold before.
      rewrite <- (orig_center axis a), <- (orig_center axis b) by auto. intro Le.
      assert (flt (at_axis centers axis (s_prim a)) (at_axis centers axis (s_prim b)) = true) as L.
      { apply Lt; [apply mem_spec; exact Fa|]. apply Fr; auto. apply in_map; auto. }
      destruct (flt_notnan _ _ L) as (Na & Nb). apply (flt_spec _ _ Na Nb) in L. apply (fle_spec _ _ Nb Na) in Le.
      apply (Rlt_irrefl (fr (at_axis centers axis (s_prim a)))). eapply Rlt_le_trans; eauto. }
    clear Ex.
    assert (Permutation (filter f (pr x)) l) as P1.
    { apply NoDup_Permutation; [apply NoDup_filter; auto|eapply nodup_l; eauto|]. intro p. rewrite filter_In. split.
      - intros (_ & Fp). apply mem_spec. exact Fp.
      - intro I. split; [|apply mem_spec; exact I]. apply (Permutation_in _ P). apply in_or_app. auto. }
    assert (Permutation (filter (fun p => negb (f p)) (pr x)) r) as P2.
    { apply NoDup_Permutation; [apply NoDup_filter; auto| |].
      - apply (Permutation_NoDup (Permutation_app_comm _ _)) in Nlr. eapply nodup_l; eauto.
      - intro p. rewrite filter_In. split.
        + intros (Ip & Fp). apply Fr; auto. destruct (f p); auto; discriminate.
        + intro I. split; [apply (Permutation_in _ P); apply in_or_app; auto|].
          destruct (f p) eqn:Fp; auto. exfalso. apply mem_spec in Fp. eapply nodup_disj; eauto. }
    exists (length (filter (fun r => f (s_prim r)) x)).
    assert (firstn (length (filter (fun r => f (s_prim r)) x)) x = filter (fun r => f (s_prim r)) x /\
            skipn (length (filter (fun r => f (s_prim r)) x)) x = filter (fun r => negb (f (s_prim r))) x) as (E1 & E2).
    { split; rewrite E at 2; [apply firstn_app_len|apply skipn_app_len]; auto. }
    rewrite E1, E2. rewrite (pr_filter f), (pr_filter (fun p => negb (f p))). split; [|auto].
    pose proof (Permutation_length P1) as L1. pose proof (Permutation_length P2) as L2. rewrite <- (pr_filter f) in L1.
    rewrite <- (pr_filter (fun p => negb (f p))) in L2. unfold pr in L1, L2. rewrite !map_length in L1, L2.
    assert (length x = length l + length r) as -> by (rewrite E, app_length; lia).
    destruct l; [congruence|]. destruct r; [congruence|]. simpl in *. lia.
  Qed.

  (** ** Permutations *)
  Lemma cut_perm : forall held held' axis l r, Permutation held held' -> cut centers held axis l r -> cut centers held' axis l r.
  Proof. intros held held' axis l r P (A & B). split; auto. rewrite A. exact P. Qed.
  Lemma order_perm : forall axis l l' r r', Permutation l l' -> Permutation r r' -> in_order centers axis l r -> in_order centers axis l' r'.
  Proof.
    intros axis l l' r r' Pl Pr H p q Ip Iq. apply H; [apply (Permutation_in _ (Permutation_sym Pl))|apply (Permutation_in _ (Permutation_sym Pr))]; auto.
  Qed.
  Lemma cheapest_perm : forall l l' r r', Permutation l l' -> Permutation r r' -> cheapest aabbs centers l r -> cheapest aabbs centers l' r'.
  Proof.
    intros l l' r r' Pl Pr H axis a b La C.
    rewrite <- (BinnedCost.sim_flt _ _ _ _ (BinnedCost.sim_refl _) (pair_perm _ _ _ _ Pl Pr)). eapply H; eauto.
    eapply cut_perm; [|exact C]. apply Permutation_app; symmetry; auto.
  Qed.
  Lemma leaf_cost_perm : forall bounds h h', Permutation h h' -> leaf_cost bounds h = leaf_cost bounds h'.
  Proof. intros bounds h h' P. unfold leaf_cost. rewrite (Permutation_length P). auto. Qed.
  Lemma below_perm : forall limit h h', Permutation h h' -> no_cut_below aabbs centers limit h -> no_cut_below aabbs centers limit h'.
  Proof. intros limit h h' P H axis l r La C. eapply H; eauto. eapply cut_perm; [symmetry; exact P|exact C]. Qed.
  Lemma sim_fle2 : forall a x y : f32, sim x y -> fle a x = fle a y.
  Proof.
    intros a x y [->|[A B]]; auto. destruct x as [sx|sx| |sx mx ex Hx], y as [sy|sy| |sy my ey Hy]; try discriminate.
    destruct a as [s|s| |s m e H]; reflexivity.
  Qed.

  Definition divided (tris : list tri) (most : nat) (th : f32) (bounds : aabb) (l r : list nat) : Prop :=
    by_cut aabbs centers bounds l r \/ by_half aabbs centers most bounds l r \/ by_plane aabbs tris centers th bounds l r.
  Lemma divided_perm : forall tris most th bounds l l' r r', Permutation l l' -> Permutation r r' ->
    divided tris most th bounds l r -> divided tris most th bounds l' r'.
  Proof.
    intros tris most th bounds l l' r r' Pl Pr H. assert (Permutation (l ++ r) (l' ++ r')) as P by (apply Permutation_app; auto).
    destruct H as [((axis & La & Io) & Ch & Co)|[(Nc & Lm & Lh & Io)|(Hc & axis & pos & La & (order & cost & Po & Cp & Lc & Nb) & Hp)]].
    - left. split; [exists axis; split; auto; eapply order_perm; eauto|]. split; [eapply cheapest_perm; eauto|].
      rewrite <- (leaf_cost_perm bounds _ _ P), <- (sim_fle2 _ _ _ (pair_perm _ _ _ _ Pl Pr)). exact Co.
    - right; left. split; [rewrite <- (leaf_cost_perm bounds _ _ P); eapply below_perm; eauto|].
      rewrite <- (Permutation_length P), <- (Permutation_length Pl). split; auto. split; auto. eapply order_perm; eauto.
    - right; right. split.
      + destruct Hc as [Hc|(ax & a & b & La' & P' & Io & Ch & Ov)]; [left; eapply below_perm; eauto|].
        right. exists ax, a, b. split; auto. split; [rewrite P'; exact P|]. auto.
      + exists axis, pos. split; auto. split.
        { exists order, cost. split; [rewrite Po; exact P|]. split; [exact Cp|]. split; [rewrite <- (leaf_cost_perm bounds _ _ P); exact Lc|].
          intros a x y La' C. eapply Nb; [exact La'|]. eapply cut_perm; [symmetry; exact P|exact C]. }
        cbv zeta in *. rewrite <- (Permutation_length P), <- (Permutation_length Pl).
        destruct Hp as [(H1 & H2)|([H1|H1] & H2)].
        * left. split; eapply Permutation_Forall; eauto.
        * right. split; auto. left. eapply Permutation_Forall; eauto.
        * right. split; auto. right. eapply Permutation_Forall; eauto.
  Qed.
End Cost.

(** ** What [plan_task] chooses *)
Lemma straddle_more : forall prims axis pos k w le rb re lc rc L R w' rb' re' L' R',
  straddle prims axis pos k w le rb re lc rc L R = Ok (w', rb', re', L', R') ->
  re <= re' /\ (0 < k -> re < length w -> re < re').
Proof.
  intros prims axis pos. induction k as [|k IH]; intros w le rb re lc rc L R w' rb' re' L' R' E; cbn [straddle] in E.
  - injection E as <- <- <- <- <-. split; lia.
  - destruct (get w le) as [r| | |]; cbn [bind] in E; try discriminate E.
    destruct (get prims (s_prim r)) as [t| | |]; cbn [bind] in E; try discriminate E.
    destruct (tri_split t axis pos) as [lb rbx].
    destruct (Nat.ltb_spec 0 (length w - re)) as [Lw|Lw].
    + match type of E with bind ?x _ = _ => destruct x as [w1| | |]; cbn [bind] in E; try discriminate E end.
      match type of E with bind ?x _ = _ => destruct x as [w2| | |]; cbn [bind] in E; try discriminate E end.
      apply IH in E as (E1 & _). split; lia.
    + destruct (lc <? rc).
      * apply IH in E as (E1 & E2). split; [lia|]. intros _ H. lia.
      * match type of E with bind ?x _ = _ => destruct x as [w1| | |]; cbn [bind] in E; try discriminate E end.
        apply IH in E as (E1 & E2). split; [lia|]. intros _ H. lia.
Qed.

Lemma firstn_app_all : forall A (x d : list A) k, k <= length x -> firstn k (x ++ d) = firstn k x.
Proof. intros A x d k L. rewrite firstn_app. replace (k - length x) with 0 by lia. cbn [firstn]. apply app_nil_r. Qed.

(** A plane that clips nothing. *)
Lemma plane_parts : forall prims begin len w split w' c, all3 (fun l => len < length l) w -> boxes_ok (firstn len (pick w (ss_axis split))) ->
  apply_spatial_split prims begin len w split = Ok (w', c) -> c_right_end c = len ->
  c_sorted c = false /\ exists A C,
    firstn (c_right_begin c) (pick w' 0) = A /\ firstn (len - c_right_begin c) (skipn (c_right_begin c) (pick w' 0)) = C /\
    ((Forall (is_before (ss_axis split) (ss_pos split)) A /\ Forall (is_after (ss_axis split) (ss_pos split)) C) \/
     ((Forall (is_before (ss_axis split) (ss_pos split)) (A ++ C) \/ Forall (is_after (ss_axis split) (ss_pos split)) (A ++ C)) /\ length A <= len / 2)).
Proof.
  intros prims begin len w split w' c L Ox E Er. unfold apply_spatial_split in E. cbv zeta in E.
  pose proof (all3_pick _ _ _ (ss_axis split) L) as La. cbv beta in La.
  destruct (classify _ _ _ _ _ _ _ _ _) as [[[[[w1 le1] rb1] L1] R1]| | |] eqn:E1; cbn [bind] in E; try discriminate.
  set (x := firstn len (pick w (ss_axis split))) in *. set (D := skipn len (pick w (ss_axis split))) in *.
  assert (pick w (ss_axis split) = x ++ D) as Ew by (unfold x, D; rewrite firstn_skipn; auto).
  assert (length x = len) as Lx by (unfold x; rewrite firstn_length; lia).
  assert (0 < length D) as LD by (unfold D; rewrite skipn_length; lia).
  rewrite Ew in E1.
  pose proof (classify_parts (ss_axis split) (ss_pos split) len [] [] x [] D aabb_new aabb_new w1 le1 rb1 L1 R1 Lx) as Cl.
  cbn [app length plus] in Cl. rewrite Lx, app_nil_r in Cl.
  destruct (Cl E1 Ox hull_nil hull_nil (Forall_nil _) (Forall_nil _) (Forall_nil _) (Forall_nil _)) as (A & B & C & -> & -> & -> & P1 & HA & HC & FA & FC & _). clear Cl E1.
  assert (length A + length B + length C = len) as Ll by (rewrite <- Lx, <- (Permutation_length P1), !app_length; lia).
  destruct (fallback _ _ _ _ _ _ _) as [[[[le2 rb2] L2] R2]| | |] eqn:E2; cbn [bind] in E; try discriminate.
  destruct (straddle _ _ _ _ _ _ _ _ _ _ _ _) as [[[[[w3 rb3] re3] L3] R3]| | |] eqn:E3; cbn [bind] in E; try discriminate.
  match type of E with Ok (?x, ?y) = Ok _ => assert (w' = x /\ c = y) as (-> & ->) by (split; congruence) end. clear E.
  cbn [c_right_begin c_right_end c_sorted] in *. subst re3. split; auto.
  destruct (straddle_more _ _ _ _ _ _ _ _ _ _ _ _ _ _ _ _ _ E3) as (_ & M).
  assert (rb2 - le2 = 0) as Z.
  { destruct (Nat.eq_dec (rb2 - le2) 0); auto. exfalso. assert (len < len); [|lia]. apply M; [lia|]. rewrite !app_length. lia. }
  rewrite Z in E3. cbn [straddle] in E3. injection E3 as <- <- <- <-.
  cbn [pick]. cbv beta zeta.
  assert ((if 0 =? ss_axis split then A ++ B ++ C ++ D else firstn len (A ++ B ++ C ++ D) ++ skipn len (pick w 0)) =
          (A ++ B ++ C) ++ (if 0 =? ss_axis split then D else skipn len (pick w 0))) as Ep.
  { destruct (0 =? ss_axis split); [rewrite <- !app_assoc; auto|]. f_equal.
    transitivity (firstn len ((A ++ B ++ C) ++ D)); [rewrite <- !app_assoc; auto|]. apply firstn_app_len. rewrite !app_length; lia. }
  rewrite Ep. clear Ep. set (D' := if 0 =? _ then _ else _). clearbody D'. clear M.
  assert (forall k, k <= len -> exists A' C', firstn k ((A ++ B ++ C) ++ D') = A' /\ firstn (len - k) (skipn k ((A ++ B ++ C) ++ D')) = C' /\
    A' = firstn k (A ++ B ++ C) /\ C' = skipn k (A ++ B ++ C)) as G.
  { intros k Lk. eexists _, _. split; [reflexivity|]. split; [reflexivity|]. split; [apply firstn_app_all; rewrite !app_length; lia|].
    rewrite skipn_app. apply firstn_app_len. rewrite skipn_length, !app_length. lia. }
  unfold fallback in E2. cbv zeta in E2. destruct (_ && _) eqn:Eb.
  - match type of E2 with bind ?x _ = _ => destruct x as [m| | |] eqn:Em; cbn [bind] in E2; try discriminate E2 end.
    apply andb_prop in Eb as (Eb1 & Eb2). apply Nat.eqb_eq in Eb2. destruct B as [|? ?]; [|simpl in Eb2; lia].
    assert (rb2 = m) as -> by congruence. cbn [app length] in *.
    assert (m <= len / 2 /\ (A = [] \/ C = [])) as (Lm & AC).
    { destruct (Nat.ltb_spec 0 (length A)) as [LA|LA].
      - assert (length C = 0) as LC.
        { apply orb_prop in Eb1 as [Q|Q]; apply Nat.eqb_eq in Q; lia. }
        destruct C; [|discriminate LC]. split; auto.
        destruct (length A / 2 <? begin); [discriminate Em|]. assert (m = length A / 2 - begin) as -> by congruence.
        replace len with (length A) by (simpl in *; lia). lia.
      - destruct A; [|simpl in LA; lia]. split; auto.
        match type of Em with Ok ?x = Ok _ => assert (m = x) as -> by congruence end. cbn [length].
        replace (len - (0 + 0)) with len by lia. lia. }
    assert (m <= len) as Lm' by (pose proof (Nat.div_le_upper_bound len 2 len ltac:(lia) ltac:(lia)); lia).
    destruct (G m Lm') as (A' & C' & G1 & G2 & G3 & G4). exists A', C'. split; auto. split; auto. right.
    assert (A' ++ C' = A ++ C) as Ea by (rewrite G3, G4; apply firstn_skipn). rewrite Ea. split.
    + destruct AC as [-> | ->]; [right; exact FC|left; rewrite app_nil_r; exact FA].
    + rewrite G3, firstn_length. lia.
  - assert (le2 = length A /\ rb2 = length A + length B) as (-> & ->) by (split; congruence).
    assert (length B = 0) as LB by lia. destruct B; [|discriminate LB]. cbn [length app] in *. rewrite Nat.add_0_r in *.
    destruct (G (length A) ltac:(lia)) as (A' & C' & G1 & G2 & G3 & G4). exists A', C'. split; auto. split; auto. left.
    rewrite firstn_app_len in G3 by auto. rewrite skipn_app_len in G4 by auto. rewrite G3, G4. auto.
Qed.

(** The axis of a plane. *)
Lemma pass_axis : forall axis min bs l lc rc cur i split found, axis < 3 -> ss_axis split < 3 ->
  ss_axis (fst (spatial_pass axis min bs l lc rc cur i split found)) < 3.
Proof.
  intros axis min bs. induction l as [|[b c] l IH]; intros lc rc cur i split found La Ls; [auto|].
  destruct l as [|[b' c'] l]; [auto|]. cbn [spatial_pass]. cbv zeta. destruct (flt _ _); apply IH; auto.
Qed.
Lemma passes_axis : forall prims axis refs k split min max s, axis < 3 -> ss_axis split < 3 ->
  binning_passes prims k refs split axis min max = Ok s -> ss_axis s < 3.
Proof.
  intros prims axis refs. induction k as [|k IH]; intros split min max s La Ls E; cbn [binning_passes] in E.
  - assert (s = split) as -> by congruence. auto.
  - unfold run_binning_pass in E. cbv zeta in E.
    match type of E with bind (bind ?x _) _ = _ => destruct x as [bins| | |]; cbn [bind] in E; try discriminate E end.
    match type of E with bind (let '(_, _) := ?x in _) _ = _ => pose proof (pass_axis axis min (fdiv (fsub max min) f_bins) (suffix_bins bins) 0 (length refs) aabb_new 0 split false La Ls) as P; destruct x as [s1 fo] end.
    cbn [bind fst] in *. destruct fo.
    + eapply IH; [| |exact E]; auto.
    + assert (s = s1) as -> by congruence. auto.
Qed.
Lemma plane_axis : forall prims bounds refs s, find_spatial_split prims bounds refs = Ok s -> ss_axis s < 3.
Proof.
  intros prims bounds refs s E. unfold find_spatial_split in E. cbn [for_each] in E.
  destruct (binning_passes _ _ _ _ 0 _ _) as [s0| | |] eqn:E0; cbn [bind] in E; try discriminate E.
  apply passes_axis in E0; [|lia|unfold ssplit_new; simpl; lia].
  destruct (binning_passes _ _ _ _ 1 _ _) as [s1| | |] eqn:E1; cbn [bind] in E; try discriminate E.
  apply passes_axis in E1; [|lia|auto].
  destruct (binning_passes _ _ _ _ 2 _ _) as [s2| | |] eqn:E2; cbn [bind] in E; try discriminate E.
  apply passes_axis in E2; [|lia|auto]. congruence.
Qed.

Section Plan.
  Variable sorter : nat -> list sref -> list sref.
  Hypothesis sorter_perm : forall a l, Permutation (sorter a l) l.
  Hypothesis sorter_sorts : sorts sorter.
  Variables (prims : list tri) (lsize : nat) (th : f32).
  Variables (aabbs : list aabb) (centers : list vec3).
  Hypothesis Hok : Forall box_ok aabbs.
  Hypothesis Hcen : Forall vok centers.
  Notation plan := (plan_task sorter prims lsize th).
  Notation orig := (orig aabbs centers).

  Definition sorted3 (len : nat) (w : per_axis (list sref)) : Prop := forall a, a < 3 -> by_center a (firstn len (pick w a)).

  Lemma orig_notnan : forall axis r, orig r -> fnan (vget (s_center r) axis) = false.
  Proof.
    intros axis r (_ & E). rewrite <- E. assert (vok (nth (s_prim r) centers (vsplat f0))) as O.
    { destruct (Nat.lt_ge_cases (s_prim r) (length centers)) as [L|L].
      - rewrite Forall_forall in Hcen. apply Hcen, nth_In. auto.
      - rewrite nth_overflow by auto. repeat split. }
    destruct O as (O1 & O2 & O3). destruct axis as [|[|axis]]; auto.
  Qed.
  Lemma sort_sorted : forall S t w, all3 (fun l => w_size t <= length l) w -> same3 S (w_size t) w -> Forall orig S ->
    (w_sorted t = true -> sorted3 (w_size t) w) ->
    sorted3 (w_size t) (if w_sorted t then w else sort_refs sorter (w_size t) w).
  Proof.
    intros S t w L (_ & H) Or Hs. destruct (w_sorted t); [auto|]. clear Hs.
    assert (forall a b, w_size t <= length (pick w b) -> Permutation (firstn (w_size t) (pick w b)) S ->
      by_center a (firstn (w_size t) (sorter a (firstn (w_size t) (pick w b)) ++ skipn (w_size t) (pick w b)))) as G.
    { intros a b Lb Pb. rewrite firstn_app_len; [|rewrite (Permutation_length (sorter_perm _ _)), firstn_length; lia].
      apply sorter_sorts. rewrite Forall_forall in Or |- *. intros r Ir. apply orig_notnan. apply Or. apply (Permutation_in _ Pb). auto. }
    destruct L as (L0 & L1 & L2), H as (H0 & H1 & H2).
    intros a La. destruct a as [|[|[|a]]]; [| | |lia]; unfold sort_refs; cbn [pick]; [apply (G 0 0)|apply (G 1 1)|apply (G 2 2)]; auto.
  Qed.

  Lemma object_windows : forall S len w axis index bl br w' c, axis < 3 -> all3 (fun l => len <= length l) w -> same3 S len w ->
    sorted3 len w -> apply_object_split len w axis index bl br = Ok (w', c) ->
    c = Ch index len bl br true /\ index < len /\
    firstn index (pick w' axis) = firstn index (firstn len (pick w axis)) /\
    firstn (len - index) (skipn index (pick w' axis)) = skipn index (firstn len (pick w axis)) /\
    sorted3 index w' /\ sorted3 (len - index) (map3 (skipn index) w').
  Proof.
    intros S len w axis index bl br w' c Lax L (N & H) So E. unfold apply_object_split in E.
    destruct (Nat.ltb_spec index len) as [Li|Li]; cbn [negb] in E; [|discriminate]. cbv zeta in E.
    pose proof (all3_pick _ _ _ axis L) as La. pose proof (all3_pick _ _ _ axis H) as Ha. cbv beta in La, Ha.
    set (x := firstn len (pick w axis)) in *.
    assert (length x = len) as Lx by (unfold x; rewrite firstn_length; lia).
    assert (NoDup (pr x)) as Nx by (eapply Permutation_NoDup; [symmetry; apply Permutation_map; exact Ha|auto]).
    set (mark := marked x index) in *.
    assert (length (filter (fun r => mark (s_prim r)) x) = index) as Lm.
    { rewrite <- (firstn_skipn index x) at 1. rewrite filter_app, filter_all, filter_none, app_nil_r.
      - rewrite firstn_length. lia.
      - intros r Ir. apply (marked_spec x index _ Nx); apply in_map; auto.
      - intros r Ir. apply (marked_spec x index _ Nx); apply in_map; auto. }
    set (part := fun (a : nat) (l : list sref) => if a =? axis then l else partition_marked mark (firstn len l) ++ skipn len l).
    change (Ok ((part 0 (pick w 0), part 1 (pick w 1), part 2 (pick w 2)), Ch index len bl br true) = Ok (w', c)) in E.
    assert (w' = (part 0 (pick w 0), part 1 (pick w 1), part 2 (pick w 2)) /\ c = Ch index len bl br true) as (Ew & ->)
      by (split; congruence). clear E.
    assert (forall a, a < 3 -> pick w' a = part a (pick w a)) as Pw.
    { intros a L3. rewrite Ew. destruct a as [|[|[|a]]]; [reflexivity|reflexivity|reflexivity|lia]. }
    clearbody mark. split; auto. split; auto.
    assert (part axis (pick w axis) = pick w axis) as Ex by (unfold part; rewrite Nat.eqb_refl; auto).
    rewrite !(Pw axis Lax), Ex. split; [unfold x; rewrite firstn_firstn, Nat.min_l by lia; auto|].
    split; [unfold x; rewrite skipn_firstn_comm; auto|].
    assert (forall a, a < 3 -> by_center a (firstn index (part a (pick w a))) /\ by_center a (firstn (len - index) (skipn index (part a (pick w a))))) as G.
    { intros a L3. pose proof (So a L3) as Sa. unfold part. destruct (Nat.eqb_spec a axis) as [->|Ne].
      - split; [rewrite <- (Nat.min_l index len) by lia; rewrite <- firstn_firstn; apply sorted_firstn; auto|].
        rewrite <- skipn_firstn_comm. apply sorted_firstn; auto.
      - pose proof (all3_pick _ _ _ a L) as Lb. pose proof (all3_pick _ _ _ a H) as Hb. cbv beta in Lb, Hb.
        unfold partition_marked. set (y := firstn len (pick w a)) in *.
        assert (Permutation y x) as Pyx by (rewrite Hb; symmetry; exact Ha).
        assert (length (filter (fun r => mark (s_prim r)) y) = index) as Ly.
        { rewrite <- Lm. apply Permutation_length. apply filter_perm. auto. }
        assert (length (filter (fun r => negb (mark (s_prim r))) y) = len - index) as Ly2.
        { assert (length y = len) as Q by (rewrite (Permutation_length Pyx); auto).
          pose proof (filter_both _ (fun r => mark (s_prim r)) y). cbv beta in *. lia. }
        rewrite <- app_assoc. rewrite firstn_app_len, skipn_app_len by auto. rewrite firstn_app_len by auto.
        split; apply sorted_filter; auto. }
    split; intros a L3; [rewrite Pw by auto; apply G; auto|]. rewrite pick_map3, Pw by auto. apply G; auto.
  Qed.

  Lemma longest_lt : forall b, longest_axis b < 3.
  Proof. intro b. unfold longest_axis. cbv zeta. repeat match goal with |- context [if ?c then _ else _] => destruct c end; lia. Qed.

  Lemma order_split : forall axis x index S1 S2, Forall orig x -> by_center axis x ->
    Permutation S1 (firstn index x) -> Permutation S2 (skipn index x) -> in_order centers axis (pr S1) (pr S2).
  Proof.
    intros axis x index S1 S2 Or So P1 P2 p q Ip Iq. apply in_map_iff in Ip as (a & <- & Ia). apply in_map_iff in Iq as (b & <- & Ib).
    apply (Permutation_in _ P1) in Ia. apply (Permutation_in _ P2) in Ib. unfold by_center in So.
    rewrite <- (firstn_skipn index x) in So, Or. rewrite Forall_forall in Or.
    rewrite (orig_center aabbs centers), (orig_center aabbs centers) by (apply Or; apply in_or_app; auto).
    apply sorted_app in So as (_ & _ & So). exact (So _ _ Ia Ib).
  Qed.

  Lemma fle_false_of_lt : forall a b c : f32, fle a b = true -> flt c b = false -> flt c a = false.
  Proof. intros. eapply BinnedCost.flt_false_le; eauto. Qed.
  Lemma fmin_le_r : forall a b : f32, fnan b = false -> fle (fmin a b) b = true.
  Proof.
    intros a b N. unfold fmin. destruct (fnan a) eqn:Ea; [apply fle_refl; auto|]. rewrite N.
    destruct (flt b a) eqn:E; [apply fle_refl; auto|]. apply (fle_spec a b Ea N). apply (flt_false b a N Ea). auto.
  Qed.

  (** A task that divides its node without clipping anything does it as
      specified; one that does not has no worthwhile cut. *)
  Lemma plan_good : forall S t bounds w w' d, all3 (fun l => w_size t <= length l) w ->
    all3 (fun l => length l = w_split_end t - w_begin t) w ->
    same3 S (w_size t) w -> Forall orig S -> boxes_ok S ->
    (w_sorted t = true -> sorted3 (w_size t) w) -> plan t bounds w = Ok (w', d) ->
    match d with
    | Leaf => w_size t <= 1 \/ MAX_DEPTH <= w_depth t \/
        no_cut_below aabbs centers (leaf_cost bounds (pr S)) (pr S) \/ no_cut_below aabbs centers fMAX (pr S)
    | Divide c => c_right_end c = w_size t -> forall S1 S2,
        same3 S1 (c_right_begin c) w' -> same3 S2 (c_right_end c - c_right_begin c) (map3 (skipn (c_right_begin c)) w') ->
        Permutation (S1 ++ S2) S ->
        divided aabbs centers prims lsize th bounds (pr S1) (pr S2) /\
        (c_sorted c = true -> sorted3 (c_right_begin c) w' /\ sorted3 (c_right_end c - c_right_begin c) (map3 (skipn (c_right_begin c)) w'))
    end.
  Proof.
    intros S t bounds w w' d L LW Sm Or Ob Hs E. unfold plan_task in E.
    pose proof (same3_len S _ _ 0 L Sm) as LS.
    destruct (Nat.leb_spec (w_size t) 1) as [Q1|Q1]; cbn [orb] in E.
    { assert (d = Leaf) as -> by congruence. auto. }
    destruct (Nat.leb_spec MAX_DEPTH (w_depth t)) as [Q2|Q2].
    { assert (d = Leaf) as -> by congruence. auto. }
    pose proof (sort_sorted S t w L Sm Or Hs) as So. clear Hs.
    assert (same3 S (w_size t) (if w_sorted t then w else sort_refs sorter (w_size t) w)) as Sm1
      by (destruct (w_sorted t); auto; apply sort_same; auto).
    assert (all3 (fun l => length l = w_split_end t - w_begin t) (if w_sorted t then w else sort_refs sorter (w_size t) w)) as LW1.
    { destruct (w_sorted t); auto. destruct LW as (L0 & L1 & L2).
      assert (forall a l, length l = w_split_end t - w_begin t -> length (sorter a (firstn (w_size t) l) ++ skipn (w_size t) l) = w_split_end t - w_begin t) as G.
      { intros a l Ll. rewrite app_length, (Permutation_length (sorter_perm _ _)), <- app_length, firstn_skipn. auto. }
      split; [exact (G 0 _ L0)|split; [exact (G 1 _ L1)|exact (G 2 _ L2)]]. }
    assert (w_size t <= w_split_end t - w_begin t) as Lwin by (destruct L as (L & _), LW as (LW & _); lia).
    clear L LW Sm. revert E So Sm1 LW1. set (w1 := if w_sorted t then w else sort_refs sorter (w_size t) w).
    clearbody w1. intros E So Sm1 LW1. cbv zeta in E.
    assert (all3 (fun l => w_size t <= length l) w1) as L1 by (eapply all3_imp; [|exact LW1]; intros l ->; auto).
    pose proof Sm1 as (Nd & Pm).
    set (X := map3 (firstn (w_size t)) w1) in *.
    assert (all3 (fun l => length l = w_size t) X) as X1.
    { eapply all3_map; [|exact L1]. intros l Ll. cbv beta in *. rewrite firstn_length. lia. }
    assert (all3 (Forall orig) X) as X2.
    { eapply all3_map; [|exact Pm]. intros l Pl. eapply Permutation_Forall; [symmetry; exact Pl|auto]. }
    assert (all3 boxes_ok X) as X3.
    { eapply all3_map; [|exact Pm]. intros l Pl. eapply boxes_ok_perm; [symmetry; exact Pl|auto]. }
    pose proof (find_best aabbs centers Hok X (w_size t) X1 X2 X3) as FB.
    pose proof (find_object_good X X3) as FG.
    set (os := find_object_split X) in *. cbv zeta in FB. destruct FB as (Fo & Fmx & Flo & Fno).
    clearbody os.
    assert (forall a, Permutation (pr S) (pr (pick X a))) as PX.
    { intro a. unfold X. rewrite pick_map3. symmetry. apply Permutation_map. exact (all3_pick _ _ _ a Pm). }
    assert (forall held axis l r, Permutation held (pr S) -> axis < 3 -> cut centers held axis l r -> flt (pair_cost aabbs l r) (o_cost os) = false) as NoCut.
    { intros held axis l r Ph La C.
      assert (Permutation held (pr (pick X axis))) as Ph' by (rewrite Ph; apply PX).
      assert (NoDup (pr (pick X axis))) as NX by (eapply Permutation_NoDup; [apply PX|auto]).
      assert (by_center axis (pick X axis)) as SX by (unfold X; rewrite pick_map3; apply So; auto).
      destruct (cut_prefix aabbs centers axis (pick X axis) held l r (all3_pick _ _ _ axis X2) SX NX Ph' C) as (j & Lj & P1 & P2).
      pose proof (all3_pick _ _ _ axis X1) as Ll. cbv beta in Ll. rewrite Ll in Lj.
      specialize (Flo axis j La Lj). unfold pc in Flo.
      rewrite <- (BinnedCost.sim_flt _ _ _ _ (pair_perm aabbs Hok _ _ _ _ P1 P2) (BinnedCost.sim_refl _)). exact Flo. }
    destruct (fle_notnan _ _ Fmx) as (Nos & _). change (fnan (o_cost os) = false) in Nos.
    assert (leaf_cost bounds (pr S) = fmul (half_area bounds) (fsub (fn (w_size t)) f1)) as ELc.
    { unfold leaf_cost. unfold pr. rewrite map_length, LS. auto. }
    rewrite <- ELc in E.
    destruct (if _ && _ then _ else _) as [ss| | |] eqn:Ess; cbn [bind] in E; try discriminate E.
    destruct (fge _ _) eqn:Eg.
    { assert (no_cut_below aabbs centers (leaf_cost bounds (pr S)) (pr S)) as NB.
      { intros axis l r La C. eapply BinnedCost.flt_false_le; [eapply (NoCut (pr S)); eauto|].
        unfold fge in Eg. eapply fle_trans; [exact Eg|]. apply fmin_le_r; auto. }
      destruct (Nat.ltb_spec lsize (w_size t)) as [Q3|Q3]; [|assert (d = Leaf) as -> by congruence; auto].
      destruct (apply_object_split _ _ _ _ _ _) as [[w2 c]| | |] eqn:E2; cbn [bind] in E; try discriminate E.
      assert (w2 = w' /\ d = Divide c) as (-> & ->) by (split; congruence). clear E.
      destruct (object_windows S _ _ _ _ _ _ _ _ (longest_lt bounds) L1 Sm1 So E2) as (Ec & Li & W1 & W2 & So1 & So2).
      subst c. cbn [c_right_begin c_right_end c_sorted]. intros _ S1 S2 (_ & A1) (_ & A2) P12. split; [|auto].
      pose proof (all3_pick _ _ _ (longest_axis bounds) A1) as B1. cbv beta in B1. rewrite W1 in B1.
      pose proof (all3_pick _ _ _ (longest_axis bounds) A2) as B2. cbv beta in B2. rewrite pick_map3, W2 in B2.
      right; left. assert (Permutation (pr S1 ++ pr S2) (pr S)) as P12' by (rewrite <- pr_app; apply Permutation_map; auto).
      assert (length (pr S1 ++ pr S2) = w_size t) as Lh by (rewrite (Permutation_length P12'); unfold pr; rewrite map_length; auto).
      unfold by_half. rewrite Lh. rewrite <- (leaf_cost_perm bounds (pr S) (pr S1 ++ pr S2)) by (symmetry; auto).
      split; [eapply below_perm; [symmetry; exact P12'|exact NB]|]. split; [auto|]. split.
      - unfold pr. rewrite map_length. rewrite <- (Permutation_length B1). rewrite firstn_length, firstn_length.
        pose proof (all3_pick _ _ _ (longest_axis bounds) L1) as Ll. cbv beta in Ll. lia.
      - eapply (order_split (longest_axis bounds) (firstn (w_size t) (pick w1 (longest_axis bounds))) (w_size t / 2)).
        + pose proof (all3_pick _ _ _ (longest_axis bounds) X2) as Xa. cbv beta in Xa. unfold X in Xa. rewrite pick_map3 in Xa. exact Xa.
        + apply So, longest_lt.
        + symmetry; exact B1.
        + symmetry; exact B2. }
    destruct (flt _ (o_cost os)) eqn:El.
    { destruct (apply_spatial_split _ _ _ _ _) as [[w2 c]| | |] eqn:E2; cbn [bind] in E; try discriminate E.
      assert (w2 = w' /\ d = Divide c) as (-> & ->) by (split; congruence). clear E.
      intros Er S1 S2 (_ & A1) (_ & A2) P12.
      destruct (fgt _ th && _) eqn:Eo in Ess.
      2:{ exfalso. assert (ss = ssplit_new) as -> by congruence. cbn [ss_cost ssplit_new] in El.
          revert El. assert (flt (fmin fMAX (o_cost os)) (o_cost os) = false) as ->; [|discriminate].
          unfold fmin. replace (fnan fMAX) with false by reflexivity. rewrite Nos. destruct (flt (o_cost os) fMAX) eqn:F; [apply flt_irrefl|].
          apply (flt_false fMAX (o_cost os) eq_refl Nos). apply (fle_spec (o_cost os) fMAX Nos eq_refl). auto. }
      apply andb_prop in Eo as (Eo1 & Eo2). apply Nat.ltb_lt in Eo2.
      pose proof (plane_axis _ _ _ _ Ess) as La3.
      assert (all3 (fun l => w_size t < length l) w1) as L2.
      { eapply all3_imp; [|exact LW1]. intros l ->. unfold w_size. lia. }
      destruct (plane_parts _ _ _ _ _ _ _ L2 ltac:(pose proof (all3_pick _ _ _ (ss_axis ss) X3) as Xa; cbv beta in Xa; unfold X in Xa; rewrite pick_map3 in Xa; exact Xa) E2 Er) as (Cs & A & C & W1 & W2 & Hp).
      split; [|rewrite Cs; discriminate]. right; right.
      rewrite Er in A2. destruct A1 as (A1 & _), A2 as (A2 & _). rewrite pick_map3, W2 in A2. rewrite W1 in A1.
      assert (Permutation (pr S1 ++ pr S2) (pr S)) as P12' by (rewrite <- pr_app; apply Permutation_map; auto).
      assert (forall r, In r (S1 ++ S2) -> orig r) as Or12.
      { intros r Ir. rewrite Forall_forall in Or. apply Or. apply (Permutation_in _ P12). auto. }
      split.
      - destruct (o_index os) as [j|] eqn:Ej.
        + right. destruct (Fo j Ej) as (La & Lj & Sc). destruct (FG j Ej) as (Hl & Hr).
          pose proof (all3_pick _ _ _ (o_axis os) X2) as Xo. cbv beta in Xo.
          exists (o_axis os), (pr (firstn j (pick X (o_axis os)))), (pr (skipn j (pick X (o_axis os)))).
          assert (Permutation (pr (firstn j (pick X (o_axis os))) ++ pr (skipn j (pick X (o_axis os)))) (pr S)) as Pj.
          { rewrite <- pr_app, firstn_skipn. symmetry. apply PX. }
          split; auto. split; [rewrite Pj; symmetry; exact P12'|]. split; [|split].
          * eapply order_split; [exact Xo| |reflexivity|reflexivity]. unfold X; rewrite pick_map3; apply So; auto.
          * intros axis l r L3 Cc. rewrite <- (BinnedCost.sim_flt _ _ _ _ (BinnedCost.sim_refl _) Sc). eapply NoCut; eauto.
          * assert (Forall orig (firstn j (pick X (o_axis os))) /\ Forall orig (skipn j (pick X (o_axis os)))) as (Xa & Xb).
            { rewrite <- (firstn_skipn j (pick X (o_axis os))) in Xo. apply Forall_app in Xo. auto. }
            destruct (hull_sim aabbs centers Hok _ _ Xa Hl) as (I1 & I2). destruct (hull_sim aabbs centers Hok _ _ Xb Hr) as (I3 & I4).
            rewrite <- Eo1. unfold fgt. symmetry. apply BinnedCost.sim_flt; [apply BinnedCost.sim_refl|].
            apply area_sim; apply shrink_mono; auto.
        + left. intros axis l r L3 Cc. rewrite <- (Fno ltac:(auto)). eapply NoCut; eauto.
      - exists (ss_axis ss), (ss_pos ss). split; auto.
        assert (ss_cost ss = fmin (ss_cost ss) (o_cost os) /\ fnan (ss_cost ss) = false /\ flt (ss_cost ss) (o_cost os) = true) as (Em & Ns & Lss).
        { revert El. unfold fmin. destruct (fnan (ss_cost ss)) eqn:Es; [rewrite flt_irrefl; discriminate|]. rewrite Nos.
          destruct (flt (o_cost os) (ss_cost ss)); [rewrite flt_irrefl; discriminate|]. auto. }
        split.
        { exists (pr (pick X 0)), (ss_cost ss). split; [rewrite P12'; symmetry; apply PX|]. split; [|split].
          - destruct (find_plane _ _ _ _ Ess) as [->|Cp].
            + exfalso. cbn [ss_cost ssplit_new] in Lss. apply (flt_spec fMAX (o_cost os) eq_refl Nos) in Lss.
              apply (fle_spec (o_cost os) fMAX Nos eq_refl) in Fmx. lra.
            + assert (map (whole_ref aabbs prims) (pr (pick X 0)) = map (item_of prims) (firstn (w_size t) (pick w1 0))) as ->; [|exact Cp].
              unfold pr. rewrite map_map. unfold X at 1. rewrite pick_map3. apply map_ext_in. intros r Ir.
              pose proof (all3_pick _ _ _ 0 X2) as X0. cbv beta in X0. unfold X in X0. rewrite pick_map3, Forall_forall in X0.
              destruct (X0 r Ir) as (O1 & _). unfold whole_ref, item_of. rewrite O1. reflexivity.
          - rewrite (leaf_cost_perm bounds (pr S1 ++ pr S2) (pr S)) by auto. rewrite Em. exact Eg.
          - intros a l r L3 Cc. specialize (NoCut _ _ _ _ P12' L3 Cc).
            destruct (fle (pair_cost aabbs l r) (ss_cost ss)) eqn:F; auto. exfalso.
            destruct (fle_notnan _ _ F) as (Np & _). apply (fle_spec _ _ Np Ns) in F.
            apply (flt_false _ _ Np Nos) in NoCut. apply (flt_spec _ _ Ns Nos) in Lss. lra. }
        cbv zeta.
        assert (length (pr S1 ++ pr S2) = w_size t) as Lh by (rewrite (Permutation_length P12'); unfold pr; rewrite map_length; auto).
        assert (length (pr S1) = length A) as LA by (unfold pr; rewrite map_length; symmetry; apply Permutation_length; auto).
        rewrite Lh, LA.
        assert (forall (P : sref -> Prop) (Q : nat -> Prop) T U, Permutation T U -> (forall r, In r U -> orig r) -> (forall r, orig r -> P r -> Q (s_prim r)) -> Forall P T -> Forall Q (pr U)) as Tr.
        { intros P Q T U PTU OU HPQ HF. rewrite Forall_forall in HF |- *. intros p Ip. apply in_map_iff in Ip as (r & <- & Ir).
          apply HPQ; auto. apply HF. apply (Permutation_in _ (Permutation_sym PTU)). auto. }
        assert (forall r, orig r -> is_before (ss_axis ss) (ss_pos ss) r -> fle (vget (bmax (nth (s_prim r) aabbs aabb_new)) (ss_axis ss)) (ss_pos ss) = true) as Tb.
        { intros r (O1 & _) H. rewrite O1. exact H. }
        assert (forall r, orig r -> is_after (ss_axis ss) (ss_pos ss) r -> fge (vget (bmin (nth (s_prim r) aabbs aabb_new)) (ss_axis ss)) (ss_pos ss) = true) as Ta.
        { intros r (O1 & _) H. rewrite O1. exact H. }
        destruct Hp as [(H1 & H2)|([H1|H1] & H2)].
        + left. split; [eapply (Tr _ _ A S1 A1); [intros; apply Or12; apply in_or_app; auto| |exact H1]; exact Tb|].
          eapply (Tr _ _ C S2 A2); [intros; apply Or12; apply in_or_app; auto| |exact H2]; exact Ta.
        + right. split; auto. left. rewrite <- pr_app. eapply (Tr _ _ (A ++ C) (S1 ++ S2)); [apply Permutation_app; auto|auto| |exact H1]. exact Tb.
        + right. split; auto. right. rewrite <- pr_app. eapply (Tr _ _ (A ++ C) (S1 ++ S2)); [apply Permutation_app; auto|auto| |exact H1]. exact Ta. }
    destruct (o_index os) as [j|] eqn:Ej.
    - destruct (apply_object_split _ _ _ _ _ _) as [[w2 c]| | |] eqn:E2; cbn [bind] in E; try discriminate E.
      assert (w2 = w' /\ d = Divide c) as (-> & ->) by (split; congruence). clear E.
      destruct (Fo j Ej) as (La & Lj & Sc).
      destruct (object_windows S _ _ _ _ _ _ _ _ La L1 Sm1 So E2) as (Ec & Li & W1 & W2 & So1 & So2).
      subst c. cbn [c_right_begin c_right_end c_sorted]. intros _ S1 S2 (_ & A1) (_ & A2) P12. split; [|auto].
      pose proof (all3_pick _ _ _ (o_axis os) A1) as B1. cbv beta in B1. rewrite W1 in B1.
      pose proof (all3_pick _ _ _ (o_axis os) A2) as B2. cbv beta in B2. rewrite pick_map3, W2 in B2.
      assert (pick X (o_axis os) = firstn (w_size t) (pick w1 (o_axis os))) as EX by (unfold X; apply pick_map3).
      rewrite <- EX in B1, B2.
      assert (Permutation (pr S1 ++ pr S2) (pr S)) as P12' by (rewrite <- pr_app; apply Permutation_map; auto).
      assert (sim (o_cost os) (pair_cost aabbs (pr S1) (pr S2))) as Sc'.
      { eapply BinnedCost.sim_trans; [exact Sc|]. apply pair_perm; auto; apply Permutation_map; auto. }
      left. split; [exists (o_axis os); split; auto|split].
      + eapply (order_split (o_axis os) (pick X (o_axis os)) j); [exact (all3_pick _ _ _ _ X2)|rewrite EX; apply So; auto|symmetry; exact B1|symmetry; exact B2].
      + intros axis l r L3 Cc. rewrite <- (BinnedCost.sim_flt _ _ _ _ (BinnedCost.sim_refl _) Sc'). eapply NoCut; eauto.
      + rewrite <- (leaf_cost_perm bounds (pr S) (pr S1 ++ pr S2)) by (symmetry; auto).
        rewrite <- (sim_fle2 _ _ _ Sc'). unfold fge in Eg.
        destruct (fle (leaf_cost bounds (pr S)) (o_cost os)) eqn:F; auto. exfalso.
        assert (fle (leaf_cost bounds (pr S)) (fmin (ss_cost ss) (o_cost os)) = true) as Q; [|unfold fle in Q, Eg; rewrite Q in Eg; discriminate Eg].
        eapply fle_trans; [exact F|].
        assert (notnan (fmin (ss_cost ss) (o_cost os))) as Nm.
        { unfold fmin. destruct (fnan (ss_cost ss)) eqn:Es; [exact Nos|]. rewrite Nos. destruct (flt (o_cost os) (ss_cost ss)); [exact Nos|exact Es]. }
        apply (fle_spec _ _ Nos Nm). apply (flt_false _ _ Nm Nos). exact El.
    - assert (d = Leaf) as -> by congruence. right; right; right. intros axis l r L3 Cc. rewrite <- (Fno ltac:(auto)). eapply NoCut; eauto.
  Qed.
End Plan.

(** ** The tree *)
Section Seq.
  Variable sorter : nat -> list sref -> list sref.
  Hypothesis sorter_perm : forall a l, Permutation (sorter a l) l.
  Hypothesis sorter_sorts : sorts sorter.
  Variables (prims : list tri) (lsize : nat) (th : f32).
  Variables (aabbs : list aabb) (centers : list vec3).
  Hypothesis Hok : Forall box_ok aabbs.
  Hypothesis Hcen : Forall vok centers.
  Notation plan := (plan_task sorter prims lsize th).
  Notation stree := (seq_tree sorter prims lsize th).
  Notation orig := (orig aabbs centers).

  Fixpoint a_cuts (d : nat) (T : atree) : Prop :=
    match T with
    | ALeaf b ids => length ids <= 1 \/ MAX_DEPTH <= d \/
        no_cut_below aabbs centers (leaf_cost b ids) ids \/ no_cut_below aabbs centers fMAX ids
    | ANode b _ _ l r =>
        (exists bounds, b = with_offset bounds f1em4 /\ divided aabbs centers prims lsize th bounds (a_prims l) (a_prims r)) /\
        a_cuts (S d) l /\ a_cuts (S d) r
    end.

  Variable n : nat.
  Lemma leaf_cuts : forall S t bounds w w' , all3 (fun l => w_size t <= length l) w' -> same3 S (w_size t) w' ->
    all3 (fun l => w_size t <= length l) w -> all3 (fun l => length l = w_split_end t - w_begin t) w ->
    same3 S (w_size t) w -> Forall orig S -> boxes_ok S -> (w_sorted t = true -> sorted3 (w_size t) w) ->
    plan t bounds w = Ok (w', Leaf) ->
    a_cuts (w_depth t) (ALeaf bounds (map s_prim (firstn (w_size t) (pick w' 0)))).
  Proof.
    intros S t bounds w w' L' Sm' L LW Sm Or Ob So E. pose proof (same3_len S _ _ 0 L Sm) as LS.
    pose proof (plan_good sorter sorter_perm sorter_sorts prims lsize th aabbs centers Hok Hcen S t bounds w w' Leaf L LW Sm Or Ob So E) as G.
    cbv beta iota in G. destruct Sm' as (_ & P0 & _). apply (Permutation_map s_prim) in P0. fold (pr S) in P0.
    cbn [a_cuts]. rewrite (Permutation_length P0). unfold pr at 1. rewrite map_length, LS.
    destruct G as [G|[G|[G|G]]]; auto.
    - right; right; left. rewrite (leaf_cost_perm bounds _ _ P0). eapply below_perm; [symmetry; exact P0|exact G].
    - right; right; right. eapply below_perm; [symmetry; exact P0|exact G].
  Qed.

  Lemma seq_cuts : forall k t bounds w W S T, w_size t <= W -> W = w_split_end t - w_begin t -> w_begin t <= w_end t ->
    all3 (okw n W) w -> same3 S (w_size t) w -> boxes_ok S -> inside bounds S -> Forall orig S ->
    (w_sorted t = true -> sorted3 (w_size t) w) ->
    stree k t bounds w = Ok T -> harmless T -> length (a_prims T) = length S -> a_cuts (w_depth t) T.
  Proof.
    induction k as [|k IH]; intros t bounds w W S T LW EW LB O Nm Ob Ib Or Srt E Hm Eq; rewrite stree_eq in E;
      (destruct (plan t bounds w) as [[w1 d]| | |] eqn:Ep; cbn [bind] in E; try discriminate E);
      (destruct (plan_ok sorter sorter_perm prims lsize n th W _ _ _ _ _ LW O Ep) as (Ow & Od));
      (assert (all3 (fun l => w_size t <= length l) w) as Lw by (eapply all3_imp; [|exact O]; intros x (-> & _); auto));
      (assert (all3 (fun l => length l = w_split_end t - w_begin t) w) as Lw2 by (eapply all3_imp; [|exact O]; intros x (-> & _); auto));
      (assert (all3 (fun l => w_size t <= length l) w1) as Lw1 by (eapply all3_imp; [|exact Ow]; intros x (-> & _); auto));
      pose proof (plan_same sorter sorter_perm prims lsize th S t bounds w w1 d Lw Nm Ob Ep) as Pn.
    - destruct d as [|c]; [|discriminate E].
      match type of E with Ok ?x = Ok _ => assert (T = x) as -> by congruence end. cbv beta iota in Pn. apply (leaf_cuts S t bounds w w1); auto.
    - destruct d as [|c].
      { match type of E with Ok ?x = Ok _ => assert (T = x) as -> by congruence end. cbv beta iota in Pn. apply (leaf_cuts S t bounds w w1); auto. }
      pose proof (plan_good sorter sorter_perm sorter_sorts prims lsize th aabbs centers Hok Hcen S t bounds w w1 (Divide c) Lw Lw2 Nm Or Ob Srt Ep) as PG.
      cbv beta iota in PG.
      pose proof (same3_len S _ _ 0 Lw Nm) as LS.
      destruct Od as (Crb & Cre & Hd & H2). destruct Pn as (Crr & S1 & S2 & N1 & N2 & Cl & HL & HR).
      set (rb := c_right_begin c) in *. set (re := c_right_end c) in *.
      set (sh := left_split_count (w_split_end t - (w_begin t + re)) c) in *.
      assert (rb <= W) as LrbW by lia.
      pose proof (move3_window n w1 0 W rb re sh) as Mv.
      destruct Ow as ((L0 & F0) & (L1 & F1) & (L2 & F2)).
      specialize (Mv ltac:(split; [|split]; lia) ltac:(lia) ltac:(lia) ltac:(intros _; split; [|split]; lia)).
      assert (map3 (fun l => window l 0 W) w1 = w1) as Ew1.
      { unfold map3. rewrite <- L0 at 1. rewrite <- L1 at 1. rewrite <- L2 at 1. rewrite !window_all. destruct w1 as [[x y] z]; auto. }
      rewrite Ew1 in Mv.
      destruct (move3 w1 rb re sh) as [w2| | |] eqn:Em; cbn [bind] in E; try discriminate E.
      destruct Mv as (_ & (M0 & M1 & M2) & Sm). destruct Sm as (Q0 & Q1 & Q2); [repeat split; auto|].
      assert (forall l, length l = W -> small n l -> okw n rb (firstn rb l) /\ okw n (W - rb) (skipn rb l)) as G.
      { intros l Ll Sl. unfold small in Sl. rewrite <- (firstn_skipn rb l) in Sl. apply Forall_app in Sl as (Sa & Sb).
        split; split; auto; [rewrite firstn_length|rewrite skipn_length]; lia. }
      destruct (G _ M0 Q0) as (G0 & H0). destruct (G _ M1 Q1) as (G1 & H1). destruct (G _ M2 Q2) as (G2 & H2').
      match type of E with bind ?x _ = _ => destruct x as [Tl| | |] eqn:El; cbn [bind] in E; try discriminate E end.
      match type of E with bind ?x _ = _ => destruct x as [Tr| | |] eqn:Er; cbn [bind] in E; try discriminate E end.
      match type of E with Ok ?x = Ok _ => assert (T = x) as -> by congruence end. clear E.
      cbn [harmless] in Hm. destruct Hm as (Hs & Hl & Hr).
      assert (all3 (fun l => re <= length l) w1) as Lre by (split; [|split]; lia).
      pose proof (move3_keeps w1 rb re sh w2 ltac:(lia) Lre Em Hs) as Keep.
      pose proof Cl as (Oc & Cl1 & Cl2 & Cl3 & Cl4). apply boxes_ok_app in Oc as (Oc1 & Oc2).
      (* the sequential facts for the two children *)
      assert (all3 (okw n rb) (map3 (firstn rb) w2)) as Ol by (repeat split; first [apply G0|apply G1|apply G2]).
      assert (all3 (okw n (W - rb)) (map3 (skipn rb) w2)) as Orr by (repeat split; first [apply H0|apply H1|apply H2']).
      assert (forall a, firstn rb (pick (map3 (firstn rb) w2) a) = firstn rb (pick w1 a)) as Kl.
      { intro a. rewrite pick_map3, firstn_firstn, Nat.min_id. destruct (Keep a) as (_ & Ka).
        rewrite <- (Nat.min_l rb re) by lia. rewrite <- !firstn_firstn. rewrite Ka. auto. }
      assert (forall a, firstn (re - rb) (pick (map3 (skipn rb) w2) a) = firstn (re - rb) (pick (map3 (skipn rb) w1) a)) as Kr.
      { intro a. rewrite !pick_map3. destruct (Keep a) as (_ & Ka). rewrite <- !skipn_firstn_comm. rewrite Ka. auto. }
      assert (same3 S1 rb (map3 (firstn rb) w2)) as Sl by (eapply same3_ext; [exact Kl|exact N1]).
      assert (same3 S2 (re - rb) (map3 (skipn rb) w2)) as Sr by (eapply same3_ext; [exact Kr|exact N2]).
      assert (tree_ok prims aabbs S1 (c_left c) Tl) as TOl.
      { apply (seq_boxes sorter sorter_perm prims lsize th aabbs n _ _ _ _ rb S1) in El; cbn [w_size w_begin w_end w_split_end]; auto; try lia;
          [unfold w_size; cbn [w_begin w_end]; lia|unfold w_size; cbn [w_begin w_end]; replace (w_begin t + rb - w_begin t) with rb by lia; exact Sl|apply HL]. }
      assert (tree_ok prims aabbs S2 (c_right c) Tr) as TOr.
      { apply (seq_boxes sorter sorter_perm prims lsize th aabbs n _ _ _ _ (W - rb) S2) in Er; cbn [w_size w_begin w_end w_split_end]; auto; try lia;
          [unfold w_size; cbn [w_begin w_end]; lia|unfold w_size; cbn [w_begin w_end]; replace (w_begin t + re - (w_begin t + rb)) with (re - rb) by lia; exact Sr|apply HR]. }
      destruct TOl as (_ & _ & _ & Ll & Pl). destruct TOr as (_ & _ & _ & Lr & Pr').
      cbn [a_prims] in Eq. rewrite app_length in Cl3, Cl4, Eq.
      assert (length (a_prims Tl) = length S1) as E1 by lia. assert (length (a_prims Tr) = length S2) as E2 by lia.
      destruct (Pl E1) as (Pl1 & _). destruct (Pr' E2) as (Pr1 & _). specialize (Cl4 ltac:(lia)).
      assert (re = w_size t) as Ere.
      { assert (length S1 = rb) as X1.
        { eapply (same3_len S1 rb w1 0); [|exact N1]. eapply all3_imp; [|exact Lre]. intros x Hx. cbv beta in Hx. lia. }
        assert (length S2 = re - rb) as X2.
        { eapply (same3_len S2 _ (map3 (skipn rb) w1) 0); [|exact N2]. eapply all3_map; [|exact Lre]. intros x Hx. cbv beta in *. rewrite skipn_length. lia. }
        lia. }
      destruct (PG Ere S1 S2 N1 N2 Cl4) as (Dv & Sd).
      assert (Forall orig S1 /\ Forall orig S2) as (Or1 & Or2).
      { apply Forall_app. eapply Permutation_Forall; [symmetry; exact Cl4|exact Or]. }
      cbn [a_cuts]. split; [|split].
      + exists bounds. split; auto. eapply divided_perm; [exact Hok| | |exact Dv]; symmetry; auto.
      + change (Datatypes.S (w_depth t)) with (w_depth (Wi 0 (w_begin t) (w_begin t + rb) (w_begin t + rb) (Datatypes.S (w_depth t)) (c_sorted c))).
        eapply (IH _ _ _ rb S1 Tl); cbn [w_begin w_end w_split_end w_sorted]; try exact El; auto; try lia;
          [unfold w_size; cbn [w_begin w_end]; lia|unfold w_size; cbn [w_begin w_end]; replace (w_begin t + rb - w_begin t) with rb by lia; exact Sl|apply HL|].
        intro Cs. destruct (Sd Cs) as (Sd1 & _). unfold w_size. cbn [w_begin w_end]. replace (w_begin t + rb - w_begin t) with rb by lia.
        intros a La. rewrite Kl. apply Sd1; auto.
      + change (Datatypes.S (w_depth t)) with (w_depth (Wi 0 (w_begin t + rb) (w_begin t + re) (w_split_end t) (Datatypes.S (w_depth t)) (c_sorted c))).
        eapply (IH _ _ _ (W - rb) S2 Tr); cbn [w_begin w_end w_split_end w_sorted]; try exact Er; auto; try lia;
          [unfold w_size; cbn [w_begin w_end]; lia|unfold w_size; cbn [w_begin w_end]; replace (w_begin t + re - (w_begin t + rb)) with (re - rb) by lia; exact Sr|apply HR|].
        intro Cs. destruct (Sd Cs) as (_ & Sd2). unfold w_size. cbn [w_begin w_end]. replace (w_begin t + re - (w_begin t + rb)) with (re - rb) by lia.
        intros a La. rewrite Kr. apply Sd2; auto.
  Qed.
End Seq.
