(** * Binned SAH: node boxes contain the enlarged AABBs

    Every node box is the box of its task enlarged by 1e-4 (leaves: twice), so
    where the task box contains the AABBs, the node box contains the AABBs
    enlarged by 1e-4.  Proof support for [PropNoMissBinned]. *)
Require Import List ZArith Bool Arith Lia Permutation.
From Flocq Require Import BinarySingleNaN.
From Verif Require Import F32 F32Facts Vec Base AabbModel NodeModel UtilsModel SpecGeom SpecTree AabbProofs UtilsProofs IterProofs LocbModel LocbProofs
  BinnedModel BinnedProofs BinnedFacts BinnedLeaf SpecBinned BinnedCost SpatialShare.
Import ListNotations.
Local Open Scope nat_scope.

Definition pad (b : aabb) : aabb := with_offset b f1em4.

Lemma upd_beyond : forall A (l : list A) k v, length l <= k -> upd l k v = l.
Proof. induction l as [|x l IH]; intros [|k] v L; simpl in *; auto; [lia|]. f_equal. apply IH. lia. Qed.

(** ** Boxes within 1e34 stay within 1e34 *)

Lemma pad_full : bmin (pad aabb_full) = bmin aabb_full /\ bmax (pad aabb_full) = bmax aabb_full.
Proof.
  assert (fsub (fneg f1e34) f1em4 = fneg f1e34) as A by (apply B2SF_inj; vm_compute; reflexivity).
  assert (fadd f1e34 f1em4 = f1e34) as B by (apply B2SF_inj; vm_compute; reflexivity).
  split; [exact (f_equal3 V3 A A A)|exact (f_equal3 V3 B B B)].
Qed.
Lemma pad_within : forall b, box_within f1e34 b -> box_within f1e34 (pad b).
Proof.
  intros b W. pose proof W as [[A1 A2] [B1 B2]].
  assert (box_in b aabb_full) as I by (split; auto).
  pose proof (with_offset_mono b aabb_full f1em4 I eq_refl) as [M1 M2]. fold (pad b) (pad aabb_full) in M1, M2.
  destruct pad_full as [P1 P2]. rewrite P1 in M1. rewrite P2 in M2.
  destruct (with_offset_in b f1em4 (within_ok _ _ W) eq_refl) as (_ & (N1 & N2) & _); [vm_compute; reflexivity|]. fold (pad b) in N1, N2.
  split; split.
  - exact M1.
  - eapply vle_trans; [exact N1|exact A2].
  - eapply vle_trans; [exact B1|exact N2].
  - exact M2.
Qed.
Lemma grow_within : forall m a b, box_within m a -> box_within m b -> box_within m (grow_bb a b).
Proof. intros m a b [A1 A2] [B1 B2]. split; simpl; [apply vwithin_min|apply vwithin_max]; auto. Qed.
Lemma new_within : box_within f1e34 aabb_new.
Proof. repeat split; vm_compute; reflexivity. Qed.
Lemma fold_within : forall l a, box_within f1e34 a -> Forall (box_within f1e34) l -> box_within f1e34 (fold_left grow_bb l a).
Proof.
  induction l as [|x l IH]; intros a A F; simpl; auto. inversion F; subst. apply IH; auto. apply grow_within; auto.
Qed.

Section Room.
  Variables (mls : nat) (aabbs : list aabb) (centers : list vec3).
  Hypothesis Hlen : length centers = length aabbs.
  Hypothesis Hpos : 1 <= length aabbs.
  Notation sah := (sah mls aabbs centers).

  Section Within.
    Hypothesis Hw : Forall (box_within f1e34) aabbs.
    Definition bins_within (bins : list bin) : Prop := Forall (fun b => box_within f1e34 (fst b)) bins.

    Lemma add_within : forall bins k b, bins_within bins -> box_within f1e34 b -> bins_within (add_to_bin bins k b).
    Proof.
      intros bins k b B W. unfold add_to_bin, bins_within in *. destruct (Nat.lt_ge_cases k (length bins)) as [C|C].
      - rewrite upd_split by auto. apply Forall_app. rewrite Forall_forall in B. split.
        + apply Forall_forall. intros x Ix. apply B. rewrite <- (firstn_skipn k bins). apply in_or_app. auto.
        + constructor.
          * simpl. apply grow_within; auto. apply B. apply nth_In. auto.
          * apply Forall_forall. intros x Ix. apply B. rewrite <- (firstn_skipn (S k) bins). apply in_or_app. auto.
      - rewrite upd_beyond; auto.
    Qed.
    Lemma fill_within : forall bounds ids bins0 bins, (forall a, bins_within (pick bins0 a)) ->
      for_each ids (fill_one aabbs centers bounds) bins0 = Ok bins -> forall a, bins_within (pick bins a).
    Proof.
      intros bounds ids. induction ids as [|p ids IH]; intros bins0 bins B E; cbn [for_each] in E.
      - injection E as <-. auto.
      - unfold fill_one at 1 in E. unfold get in E.
        destruct (nth_error centers p) as [c|] eqn:Ec; [|discriminate].
        destruct (nth_error aabbs p) as [bp|] eqn:Eb; [|discriminate].
        assert (box_within f1e34 bp) as W by (rewrite Forall_forall in Hw; eapply Hw, nth_error_In; eauto).
        destruct bins0 as [[b0 b1] b2]. cbn [bind] in E. revert E. apply IH.
        pose proof (B 0) as B0. pose proof (B 1) as B1. pose proof (B 2) as B2. cbn [pick] in *.
        intros [|[|a]]; cbn [pick]; apply add_within; auto.
    Qed.
    Lemma box_of_within : forall l, bins_within l -> box_within f1e34 (box_of l).
    Proof.
      intros l B. unfold box_of.
      assert (fold_left (fun a (b : bin) => grow_bb a (fst b)) l aabb_new = fold_left grow_bb (map fst l) aabb_new) as ->.
      { generalize aabb_new. clear. induction l as [|x l IH]; intro a; simpl; auto. }
      apply fold_within; [apply new_within|]. apply Forall_forall. intros x Ix. apply in_map_iff in Ix as (y & <- & Iy).
      unfold bins_within in B. rewrite Forall_forall in B. auto.
    Qed.
    Lemma bins_firstn : forall l k, bins_within l -> bins_within (firstn k l) /\ bins_within (skipn k l).
    Proof. intros l k B. unfold bins_within in *. rewrite <- (firstn_skipn k l) in B. apply Forall_app in B. auto. Qed.
    Lemma plan_within : forall bounds ids axis si lb rb, make_plan aabbs centers mls bounds ids = Ok (Split axis si lb rb) ->
      box_within f1e34 lb /\ box_within f1e34 rb.
    Proof.
      intros bounds ids axis si lb rb E. unfold make_plan in E.
      destruct (fill aabbs centers bounds ids) as [bins| | |] eqn:Ef; try discriminate. cbn [bind] in E.
      assert (forall a, bins_within (pick bins a)) as B.
      { apply (fill_within bounds ids (repeat empty_bin BINS, repeat empty_bin BINS, repeat empty_bin BINS)); [|exact Ef].
        assert (bins_within (repeat empty_bin BINS)) as H.
        { apply Forall_forall. intros x Ix. apply repeat_spec in Ix as ->. apply new_within. }
        intros [|[|a]]; exact H. }
      set (bs := (find_split (pick bins 0), find_split (pick bins 1), find_split (pick bins 2))) in E.
      set (ba := if fgt _ (fst (pick bs 2)) then 2 else _) in E.
      assert (exists axis' n1 n2, lb = box_of (firstn n1 (pick bins axis')) /\ rb = box_of (skipn n2 (pick bins axis'))) as (a & n1 & n2 & -> & ->).
      { destruct ((snd (pick bs ba) =? BINS) || _).
        - destruct (Nat.ltb_spec mls (length ids)) as [L|L]; [|discriminate]. inversion E. eauto 6.
        - inversion E. eauto 6. }
      split; apply box_of_within; apply bins_firstn; auto.
    Qed.

    Fixpoint swithin (s : shape) : Prop :=
      box_within f1e34 (s_box s) /\ match s with SLeaf _ _ _ _ => True | SNode _ _ l r => swithin l /\ swithin r end.
    Lemma box_within_coords : forall m b b', bmin b = bmin b' -> bmax b = bmax b' -> box_within m b -> box_within m b'.
    Proof. intros m b b' E1 E2 [A B]. unfold box_within. rewrite <- E1, <- E2. auto. Qed.

    Lemma sah_within : forall k begin ids box, box_within f1e34 box -> swithin (fst (sah k begin ids box)).
    Proof.
      assert (forall box f c, box_within f1e34 box ->
        swithin (SLeaf (bmin (pad (pad box))) (bmax (pad (pad box))) f c)) as Leaf.
      { intros box f c W. split; [|exact I]. eapply box_within_coords; [| |apply pad_within, pad_within; exact W]; reflexivity. }
      induction k as [|k IH]; intros begin ids box W; cbn [BinnedProofs.sah]; fold (pad box); fold (pad (pad box)); [apply Leaf; auto|].
      destruct (length ids <=? 1); [apply Leaf; auto|].
      destruct (make_plan aabbs centers mls (pad box) ids) as [[|axis si lb rb]| | |] eqn:Ep; try (apply Leaf; auto; fail).
      destruct (partition ids 0 (length ids) (goes_left centers (pad box) axis si)) as [[ids' c]| | |]; try (apply Leaf; auto; fail).
      destruct ((0 <? c) && (c <? length ids)); [|apply Leaf; auto].
      destruct (plan_within _ _ _ _ _ _ Ep) as [Wl Wr].
      cbn [fst swithin s_box]. split; [|split; apply IH; auto].
      eapply box_within_coords; [| |apply pad_within; exact W]; reflexivity.
    Qed.
    Lemma swithin_tree : forall t, swithin (shape_of t) -> all_recs (box_within f1e34) t.
    Proof.
      induction t as [i nd|i nd l IHl r IHr]; cbn [shape_of swithin s_box all_recs t_rec].
      - intros [W _]. split; auto.
      - intros (W & A & B). split; [eapply box_within_coords; [| |exact W]; reflexivity|auto].
    Qed.
  End Within.

  Section Enclose.
  Hypothesis Hok : Forall box_ok aabbs.
  Notation pads := (map pad aabbs).

  Lemma encl_pad : forall box ids, encl aabbs box ids -> encl pads (pad box) ids.
  Proof.
    intros box ids E. unfold encl in *. eapply Forall_impl; [|exact E]. cbv beta. intros p H b' Eb'.
    rewrite nth_error_map in Eb'. destruct (nth_error aabbs p) as [b|] eqn:Eb; [|discriminate]. cbn [option_map] in Eb'.
    assert (b' = pad b) as -> by congruence. apply with_offset_mono; auto.
  Qed.
  Lemma encl_pad2 : forall box ids, encl aabbs box ids -> encl pads (pad (pad box)) ids.
  Proof.
    intros box ids E. apply encl_pad in E. unfold encl in *. eapply Forall_impl; [|exact E]. cbv beta. intros p H b' Eb'.
    pose proof (H b' Eb') as B. eapply box_in_trans; [exact B|].
    apply with_offset_in; [apply box_in_ok in B as [_ B]; auto| |]; apply f1em4_pos.
  Qed.

  (** [must]: the box of the root has to contain its enlarged primitives. *)
  Fixpoint sroom (must : Prop) (s : shape) (ids : list nat) : Prop :=
    length ids = s_len s /\ (must -> encl pads (s_box s) ids) /\
    match s with
    | SLeaf _ _ _ _ => True
    | SNode mn mx l r => exists il ir, ids = il ++ ir /\
        sroom (length ids <= mls \/ exists a k, worthwhile aabbs centers (Bb mn 0 mx 0) ids a k) l il /\ sroom True r ir
    end.
  Lemma sroom_leaf : forall (must : Prop) mn mx f c ids, length ids = s_len (SLeaf mn mx f c) ->
    (must -> encl pads (Bb mn 0 mx 0) ids) -> sroom must (SLeaf mn mx f c) ids.
  Proof. intros. cbn [sroom s_box]. auto. Qed.

  Lemma sah_room : forall k begin ids box (must : Prop), Forall (fun p => p < length aabbs) ids ->
    (must -> encl aabbs box ids) ->
    sroom must (fst (sah k begin ids box)) (snd (sah k begin ids box)).
  Proof.
    assert (forall begin ids box (must : Prop) l, (must -> encl aabbs box ids) -> Permutation l ids ->
      sroom must (SLeaf (bmin (pad (pad box))) (bmax (pad (pad box))) (Z.of_nat begin) (Z.of_nat (length l))) l) as Leaf.
    { intros begin ids box must l Hm P. apply sroom_leaf; [symmetry; apply Nat2Z.id|]. intro M.
      eapply encl_box; [| |eapply encl_perm; [symmetry; exact P|apply encl_pad2, Hm; auto]]; reflexivity. }
    induction k as [|k IH]; intros begin ids box must Lt Hm.
    - cbn [BinnedProofs.sah fst snd]. apply (Leaf begin ids); auto.
    - pose proof (sah_perm mls aabbs centers (S k) begin ids box) as Pall. pose proof (sah_len mls aabbs centers (S k) begin ids box) as Lall.
      cbn [BinnedProofs.sah] in *. fold (pad box) in *. fold (pad (pad box)) in *.
      destruct (length ids <=? 1); [apply (Leaf begin ids); auto|].
      destruct (make_plan aabbs centers mls (pad box) ids) as [[|axis si lb rb]| | |] eqn:Ep; try (apply (Leaf begin ids); auto; fail).
      destruct (partition_spec _ ids (length ids) (goes_left centers (pad box) axis si)) as (ids' & c & E & _ & Lc & P & L & T & Fl & _); auto.
      rewrite E in *. destruct ((0 <? c) && (c <? length ids)) eqn:Both; [|apply (Leaf begin ids); auto].
      destruct (plan_boxes mls aabbs centers Hok Hlen _ _ _ _ _ _ Ep) as [Hr Hl].
      pose proof (plan_best mls aabbs centers Hok Hlen Hpos (pad box) ids _ Lt Ep) as Hb.
      assert (Forall (fun p => p < length aabbs) ids') as Lt' by (eapply Permutation_Forall; [symmetry; eauto|auto]).
      rewrite <- (firstn_skipn c ids') in Lt'. apply Forall_app in Lt' as [Lt1 Lt2].
      cbn [fst snd] in Pall, Lall |- *. cbn [sroom s_box]. split; [rewrite (Permutation_length Pall); symmetry; exact Lall|]. split.
      + intro M. eapply encl_box; [| |eapply encl_perm; [symmetry; exact Pall|apply encl_pad; apply Hm; auto]]; reflexivity.
      + eexists _, _. split; [reflexivity|]. split.
        * apply IH; auto. intro A.
          assert (forall p b, In p ids -> nth_error aabbs p = Some b -> goes_left centers (pad box) axis si p = true -> box_in b lb) as Hl'.
          { destruct A as [A|(a & j & W)].
            - apply Hl. rewrite <- (Permutation_length Pall). exact A.
            - destruct Hb as (axis' & si' & lb' & rb' & Q & _ & _ & H).
              + exists a, j. eapply worth_perm; [exact Hok|exact Pall|]. eapply worth_box; [| |exact W]; reflexivity.
              + assert (axis' = axis /\ si' = si /\ lb' = lb) as (-> & -> & ->) by (inversion Q; auto). exact H. }
          unfold encl. apply Forall_forall. intros p Ip b Eb.
          apply In_nth_error in Ip as [j Ej].
          assert (j < c) as Lj.
          { assert (j < length (firstn c ids')) as H by (apply nth_error_Some; congruence). rewrite firstn_length in H. lia. }
          assert (nth_error ids' j = Some p) as Ej'.
          { rewrite <- Ej. rewrite <- (firstn_skipn c ids') at 1. apply nth_error_app1. apply nth_error_Some. congruence. }
          apply (Hl' p b); [|exact Eb|eapply T; [|exact Ej']; lia]. eapply Permutation_in; [exact P|]. eapply nth_error_In; eauto.
        * apply IH; auto. intros _. unfold encl. apply Forall_forall. intros p Ip b Eb.
          apply In_nth_error in Ip as [j Ej].
          assert (j < length (skipn c ids')) as Lj by (apply nth_error_Some; congruence). rewrite skipn_length in Lj.
          assert (nth_error ids' (c + j) = Some p) as Ej'.
          { rewrite <- Ej. rewrite <- (firstn_skipn c ids') at 1. rewrite nth_error_app2; rewrite firstn_length; [f_equal; lia|lia]. }
          apply (Hr p b); [|exact Eb|eapply Fl; [|exact Ej']; lia].
          eapply Permutation_in; [exact P|]. eapply nth_error_In; eauto.
  Qed.

  (** From shapes back to trees. *)
  Lemma sroom_len : forall (must : Prop) s ids, sroom must s ids -> length ids = s_len s.
  Proof. intros must [mn mx f c|mn mx l r] ids H; apply H. Qed.
  Lemma sroom_tree : forall indices t (must : Prop) ids, sroom must (shape_of t) ids -> prims indices t = ids -> must ->
    (forall i nd l r, subtree (TNode i nd l r) t -> length (prims indices (TNode i nd l r)) <= mls \/
       exists a k, worthwhile aabbs centers nd (prims indices (TNode i nd l r)) a k) ->
    encloses pads indices t.
  Proof.
    intros indices t. induction t as [i nd|i nd l IHl r IHr]; intros must ids S P M G; cbn [shape_of sroom s_box encloses t_rec] in *.
    - destruct S as (_ & S & _). split; [|exact I]. rewrite P. eapply encl_box; [| |apply S; auto]; reflexivity.
    - destruct S as (_ & S & il & ir & E & Sl & Sr).
      assert (prims indices (TNode i nd l r) = prims indices l ++ prims indices r) as Ep by apply map_app.
      assert (length il = length (prims indices l)) as Ll.
      { unfold prims. rewrite map_length, shape_len. apply sroom_len in Sl. auto. }
      assert (il = prims indices l /\ ir = prims indices r) as [-> ->].
      { rewrite Ep in P. rewrite <- P in E. symmetry in E. apply app_inj_len in E; auto. }
      split; [rewrite P; eapply encl_box; [| |apply S; auto]; reflexivity|]. split.
      + apply (IHl _ _ Sl eq_refl).
        * rewrite <- P. destruct (G i nd l r (st_self _)) as [H|(a & k & H)]; [left; auto|right]. exists a, k.
          eapply worth_box; [| |exact H]; reflexivity.
        * intros. eapply G. apply st_left. eauto.
      + apply (IHr _ _ Sr eq_refl I). intros. eapply G. apply st_right. eauto.
  Qed.
  End Enclose.

  (** Leaves are not empty. *)
  Fixpoint sfull (s : shape) : Prop :=
    match s with SLeaf _ _ _ c => (1 <= c)%Z | SNode _ _ l r => sfull l /\ sfull r end.
  Lemma sah_full : forall k begin ids box, 1 <= length ids -> sfull (fst (sah k begin ids box)).
  Proof.
    clear Hlen Hpos. induction k as [|k IH]; intros begin ids box N; cbn [BinnedProofs.sah]; [simpl; lia|].
    destruct (length ids <=? 1); [simpl; lia|].
    destruct (make_plan aabbs centers mls (with_offset box f1em4) ids) as [[|axis si lb rb]| | |]; try (simpl; lia).
    destruct (partition_spec _ ids (length ids) (goes_left centers (with_offset box f1em4) axis si)) as (ids' & c & E & _ & Lc & P & L & _); auto.
    rewrite E. destruct ((0 <? c) && (c <? length ids)) eqn:B; [|simpl; lia].
    apply andb_prop in B as [B1 B2]. apply Nat.ltb_lt in B1, B2.
    cbn [fst sfull]. split; apply IH; rewrite ?firstn_length, ?skipn_length; lia.
  Qed.
  Lemma sfull_tree : forall t, sfull (shape_of t) -> Forall (fun n => (1 <= ex1 n)%Z) (leaf_recs t).
  Proof.
    induction t as [i nd|i nd l IHl r IHr]; cbn [shape_of sfull leaf_recs]; [constructor; auto|].
    intros [A B]. apply Forall_app. auto.
  Qed.
End Room.
