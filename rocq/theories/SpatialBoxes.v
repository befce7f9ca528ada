(** * The boxes of a spatial-split build *)
Require Import List ZArith Bool Arith Lia Permutation.
From Verif Require Import F32 F32Facts Vec AabbModel SpecGeom AabbProofs Base NodeModel UtilsModel UtilsProofs LocbModel SpawnModel TriModel
  PropTri BinnedModel SpatialModel SpecSpatial SpatialPlan SpatialProofs SpatialComplete SpatialShare.
Import ListNotations.

(** ** Hulls *)
Definition boxes_ok (l : list sref) : Prop := Forall (fun r => box_ok (s_box r)) l.
Definition inside (B : aabb) (l : list sref) : Prop := box_in aabb_new B /\ Forall (fun r => box_in (s_box r) B) l.
Definition hull (B : aabb) (l : list sref) : Prop := inside B l /\ forall C, inside C l -> box_in B C.

Lemma hull_nil : hull aabb_new [].
Proof. split; [split; [apply box_in_refl, aabb_new_ok|constructor]|]. intros C (H & _). auto. Qed.
Lemma hull_ok : forall B l, hull B l -> box_ok B.
Proof. intros B l ((H & _) & _). eapply box_in_ok; eauto. Qed.
Lemma hull_perm : forall B l l', Permutation l l' -> hull B l -> hull B l'.
Proof.
  intros B l l' P ((H1 & H2) & H3). split.
  - split; auto. eapply Permutation_Forall; eauto.
  - intros C (C1 & C2). apply H3. split; auto. eapply Permutation_Forall; [symmetry; eauto|auto].
Qed.
Lemma hull_cons : forall B l r, hull B l -> box_ok (s_box r) -> hull (grow_bb B (s_box r)) (r :: l).
Proof.
  intros B l r H Hr. pose proof (hull_ok _ _ H) as HB. destruct H as ((H1 & H2) & H3).
  pose proof (grow_bb_in_l _ _ HB Hr) as Gl. pose proof (grow_bb_in_r _ _ HB Hr) as Gr. split.
  - split; [eapply box_in_trans; eauto|]. constructor; [exact Gr|]. eapply Forall_impl; [|exact H2]. intros x Hx. exact (box_in_trans _ _ _ Hx Gl).
  - intros C (C1 & C2). inversion C2; subst. apply grow_bb_least; auto. apply H3. split; auto.
Qed.
Lemma hull_snoc : forall B l r, hull B l -> box_ok (s_box r) -> hull (grow_bb B (s_box r)) (l ++ [r]).
Proof. intros. eapply hull_perm; [apply Permutation_cons_append|apply hull_cons; auto]. Qed.
Lemma hull_fold : forall l B pre, hull B pre -> boxes_ok l -> hull (fold_left (fun a r => grow_bb a (s_box r)) l B) (pre ++ l).
Proof.
  induction l as [|r l IH]; intros B pre H O; simpl.
  - rewrite app_nil_r. auto.
  - inversion O; subst. replace (pre ++ r :: l) with ((pre ++ [r]) ++ l) by (rewrite <- app_assoc; auto).
    apply IH; auto. apply hull_snoc; auto.
Qed.
Lemma hull_boxes_of : forall l, boxes_ok l -> hull (boxes_of l) l.
Proof. intros l O. apply (hull_fold l aabb_new []); auto. apply hull_nil. Qed.

Lemma boxes_ok_perm : forall l l', Permutation l l' -> boxes_ok l -> boxes_ok l'.
Proof. intros l l' P H. eapply Permutation_Forall; eauto. Qed.
Lemma boxes_ok_app : forall l l', boxes_ok (l ++ l') <-> boxes_ok l /\ boxes_ok l'.
Proof. intros. apply Forall_app. Qed.

Lemma suffix_hull : forall l, boxes_ok l -> hull (hd aabb_new (suffix_boxes l)) l.
Proof.
  induction l as [|r l IH]; intro O; simpl.
  - apply hull_nil.
  - inversion O; subst. apply hull_cons; auto.
Qed.

(** What [find_object_split] found. *)
Definition good_split (refs : per_axis (list sref)) (s : osplit) : Prop :=
  forall j, o_index s = Some j ->
    hull (o_left s) (firstn j (pick refs (o_axis s))) /\ hull (o_right s) (skipn j (pick refs (o_axis s))).
Lemma object_pass_good : forall refs axis len l pre box best, pick refs axis = pre ++ l -> boxes_ok (pick refs axis) -> hull box pre ->
  good_split refs best -> good_split refs (object_pass axis len l (skipn 1 (suffix_boxes l)) box (length pre) best).
Proof.
  intros refs axis len. induction l as [|r l IH]; intros pre box best E O H G; cbn [object_pass]; auto.
  cbn [suffix_boxes skipn]. destruct l as [|r' l]; [exact G|].
  remember (r' :: l) as l2 eqn:El. assert (suffix_boxes l2 = hd aabb_new (suffix_boxes l2) :: skipn 1 (suffix_boxes l2)) as Es
    by (subst l2; reflexivity).
  rewrite Es. cbv zeta.
  assert (box_ok (s_box r)) as Or. { rewrite E in O. apply boxes_ok_app in O as (_ & O). inversion O; auto. }
  assert (boxes_ok l2) as O2. { rewrite E in O. apply boxes_ok_app in O as (_ & O). inversion O; auto. }
  assert (pick refs axis = (pre ++ [r]) ++ l2) as E2 by (rewrite E, <- app_assoc; auto).
  assert (forall best', good_split refs best' -> good_split refs (object_pass axis len l2 (skipn 1 (suffix_boxes l2)) (grow_bb box (s_box r)) (S (length pre)) best')) as X.
  { intros best' G'. replace (S (length pre)) with (length (pre ++ [r])) by (rewrite app_length; simpl; lia). apply IH; auto. apply hull_snoc; auto. }
  apply X. clear X.
  match goal with |- good_split _ (if ?b then _ else _) => destruct b; [|exact G] end.
  intros j Hj. cbn [o_index o_left o_right o_axis] in *. injection Hj as <-.
  replace (S (length pre)) with (length (pre ++ [r])) by (rewrite app_length; simpl; lia).
  rewrite E2, firstn_app_len, skipn_app_len by auto. split; [apply hull_snoc; auto|apply suffix_hull; auto].
Qed.
Lemma object_axis_good : forall refs best axis, boxes_ok (pick refs axis) -> good_split refs best -> good_split refs (object_axis refs best axis).
Proof. intros. unfold object_axis. cbv zeta. apply (object_pass_good refs axis _ (pick refs axis) []); auto. apply hull_nil. Qed.
Lemma find_object_good : forall refs, all3 boxes_ok refs -> good_split refs (find_object_split refs).
Proof.
  intros refs (O0 & O1 & O2). unfold find_object_split. cbn [fold_left].
  repeat apply object_axis_good; auto. intros j Hj. discriminate Hj.
Qed.

(** ** Clipping

    [S'] are the references [S], some of them replaced by smaller ones for the
    same triangle, which still hold the triangle's vertices. *)
Section Clip.
  Variable prims : list tri.
  Definition vertex_of (p : nat) (v : vec3) : Prop := exists t, nth_error prims p = Some t /\ In v [tv0 t; tv1 t; tv2 t].
  Definition clip (S S' : list sref) : Prop :=
    boxes_ok S' /\
    (forall r', In r' S' -> exists r, In r S /\ s_prim r' = s_prim r /\ box_in (s_box r') (s_box r)) /\
    (forall r v, In r S -> vertex_of (s_prim r) v -> in_box (s_box r) v ->
       exists r', In r' S' /\ s_prim r' = s_prim r /\ in_box (s_box r') v) /\
    length S <= length S' /\ (length S' = length S -> Permutation S' S).

  Lemma clip_perm : forall S S', boxes_ok S -> Permutation S' S -> clip S S'.
  Proof.
    intros S S' O P. split; [eapply boxes_ok_perm; [symmetry; eauto|auto]|]. split; [|split; [|split]].
    - intros r I. exists r. split; [eapply Permutation_in; eauto|]. split; auto. apply box_in_refl.
      unfold boxes_ok in O. rewrite Forall_forall in O. apply O. eapply Permutation_in; eauto.
    - intros r v I _ V. exists r. split; [eapply Permutation_in; [symmetry|]; eauto|]. auto.
    - rewrite (Permutation_length P). auto.
    - auto.
  Qed.
  Lemma clip_trans : forall S1 S2 S3, clip S1 S2 -> clip S2 S3 -> clip S1 S3.
  Proof.
    intros S1 S2 S3 (A1 & A2 & A3 & A4 & A5) (B1 & B2 & B3 & B4 & B5). split; auto. split; [|split; [|split]].
    - intros r I. destruct (B2 _ I) as (r2 & I2 & E2 & H2). destruct (A2 _ I2) as (r1 & I1 & E1 & H1).
      exists r1. split; auto. split; [congruence|]. eapply box_in_trans; eauto.
    - intros r v I V H. destruct (A3 r v I V H) as (r2 & I2 & E2 & H2).
      destruct (B3 r2 v I2) as (r3 & I3 & E3 & H3); auto; [rewrite E2; auto|]. exists r3. split; auto. split; auto. congruence.
    - lia.
    - intro L. rewrite (B5 ltac:(lia)). apply A5. lia.
  Qed.

  (** One straddling reference becomes two. *)
  Lemma shrink_in : forall a b, box_ok a -> box_ok b -> box_in (shrink a b) b.
  Proof. intros a b (A1 & A2) (B1 & B2). split; [apply vmax_ge_r; auto|apply vmin_le_r; auto]. Qed.
  Lemma shrink_pt : forall a b v, in_box a v -> in_box b v -> in_box (shrink a b) v.
  Proof. intros a b v (A1 & A2) (B1 & B2). split; [apply vmax_lub; auto|apply vmin_glb; auto]. Qed.


  Lemma boxes_in : forall l r, boxes_ok l -> In r l -> box_ok (s_box r).
  Proof. intros l r O I. unfold boxes_ok in O. rewrite Forall_forall in O. auto. Qed.

  Lemma clip_split : forall A B C b axis pos t c1 c2, boxes_ok (A ++ b :: B ++ C) -> nth_error prims (s_prim b) = Some t ->
    clip (A ++ b :: B ++ C)
         ((A ++ [Sr (shrink (fst (tri_split t axis pos)) (s_box b)) c1 (s_prim b)]) ++ B ++
          (C ++ [Sr (shrink (snd (tri_split t axis pos)) (s_box b)) c2 (s_prim b)])).
  Proof.
    intros A B C b axis pos t c1 c2 O Et. destruct (tri_split_ok t axis pos) as (Ol & Or).
    set (y := Sr (shrink (fst (tri_split t axis pos)) (s_box b)) c1 (s_prim b)).
    set (x := Sr (shrink (snd (tri_split t axis pos)) (s_box b)) c2 (s_prim b)).
    assert (box_ok (s_box b)) as Ob by (apply (boxes_in _ b O), in_elt).
    assert (box_in (s_box y) (s_box b)) as Iy by (apply shrink_in; auto).
    assert (box_in (s_box x) (s_box b)) as Ix by (apply shrink_in; auto).
    assert (s_prim y = s_prim b) as Py by reflexivity. assert (s_prim x = s_prim b) as Px by reflexivity.
    assert (s_box y = shrink (fst (tri_split t axis pos)) (s_box b)) as By by reflexivity.
    assert (s_box x = shrink (snd (tri_split t axis pos)) (s_box b)) as Bx by reflexivity.
    clearbody x y.
    apply boxes_ok_app in O as (OA & O). inversion O as [|? ? _ O']; subst. apply boxes_ok_app in O' as (OB & OC).
    assert (forall r, In r ((A ++ [y]) ++ B ++ C ++ [x]) <-> r = y \/ r = x \/ In r A \/ In r B \/ In r C) as Mem.
    { intro r. rewrite !in_app_iff. cbn [In]. intuition. }
    assert (forall r, In r (A ++ b :: B ++ C) <-> r = b \/ In r A \/ In r B \/ In r C) as Mem'.
    { intro r. rewrite in_app_iff. cbn [In]. rewrite in_app_iff. intuition. }
    split; [|split; [|split; [|split]]].
    - unfold boxes_ok. rewrite Forall_forall. intros r I. apply Mem in I as [->|[->|[I|[I|I]]]];
        [exact (proj1 (box_in_ok _ _ Iy))|exact (proj1 (box_in_ok _ _ Ix))|exact (boxes_in _ _ OA I)|exact (boxes_in _ _ OB I)|exact (boxes_in _ _ OC I)].
    - intros r I. apply Mem in I as [->|[->|I]].
      + exists b. split; [apply Mem'; auto|auto].
      + exists b. split; [apply Mem'; auto|auto].
      + exists r. split; [apply Mem'; auto|]. split; auto. apply box_in_refl.
        destruct I as [I|[I|I]]; [exact (boxes_in _ _ OA I)|exact (boxes_in _ _ OB I)|exact (boxes_in _ _ OC I)].
    - intros r v I (t' & E' & Iv) Hv. apply Mem' in I as [->|I].
      + rewrite Et in E'. injection E' as <-.
        assert (vok v) as Vv by (destruct Hv as (Hv & _); apply vle_ok in Hv; tauto).
        apply In_nth_error in Iv as (k & Ek). pose proof (C47_vertices_partial t axis pos k v Vv Ek) as Q.
        destruct (fle (vget v axis) pos); [exists y|exists x]; (split; [apply Mem; auto|]; split; auto; rewrite ?By, ?Bx; apply shrink_pt; auto).
      + exists r. split; [apply Mem; auto|auto].
    - rewrite !app_length. cbn [length]. rewrite !app_length. cbn [length]. lia.
    - rewrite !app_length. cbn [length]. rewrite !app_length. cbn [length]. lia.
  Qed.

  (** ** The straddling references *)
  Lemma straddle_clip : forall axis pos k A B C D lc rc L R w' rb' re' L' R',
    length B = k ->
    straddle prims axis pos k (A ++ B ++ C ++ D) (length A) (length A + length B) (length A + length B + length C) lc rc L R
      = Ok (w', rb', re', L', R') ->
    NoDup (pr (A ++ B)) -> NoDup (pr (B ++ C)) -> boxes_ok (A ++ B ++ C) -> hull L A -> hull R C ->
    exists A' C' D', w' = A' ++ C' ++ D' /\ rb' = length A' /\ re' = length A' + length C' /\
      NoDup (pr A') /\ NoDup (pr C') /\ clip (A ++ B ++ C) (A' ++ C') /\ hull L' A' /\ hull R' C'.
  Proof.
    intros axis pos. induction k as [|k IH]; intros A B C D lc rc L R w' rb' re' L' R' Lb E N1 N2 O HL HR; cbn [straddle] in E.
    - injection E as <- <- <- <- <-. destruct B; [|discriminate Lb]. simpl in *. rewrite app_nil_r in N1.
      exists A, C, D. rewrite Nat.add_0_r. repeat (split; [solve [auto]|]). split; [|auto]. apply clip_perm; auto.
    - destruct B as [|b B]; [discriminate Lb|]. injection Lb as Lb. cbn [app] in E, O.
      unfold get in E. rewrite nth_at in E. cbn [bind] in E.
      destruct (nth_error prims (s_prim b)) as [t|] eqn:Et; cbn [bind] in E; [|discriminate E].
      pose proof (clip_split A B C b axis pos t) as Cs. pose proof (tri_split_ok t axis pos) as So.
      destruct (tri_split t axis pos) as [lbx rbx]. cbn [fst snd] in Cs, So.
      assert (box_ok (s_box b)) as Ob by (apply (boxes_in _ b O), in_elt).
      rewrite pr_app in N1, N2. cbn [pr map] in N1, N2. fold (pr B) in N1, N2. change (map s_prim C) with (pr C) in N2. fold (pr A) in N1.
      destruct D as [|d D].
      + replace (0 <? length (A ++ b :: B ++ C ++ []) - (length A + length (b :: B) + length C)) with false in E
          by (symmetry; apply Nat.ltb_ge; rewrite !app_length; simpl; rewrite !app_length; simpl; lia).
        destruct (lc <? rc).
        * (* goes left *)
          change (A ++ b :: B ++ C ++ []) with (A ++ [b] ++ B ++ C ++ []) in E. rewrite app_assoc in E.
          replace (S (length A)) with (length (A ++ [b])) in E by (rewrite app_length; simpl; lia).
          replace (length A + length (b :: B)) with (length (A ++ [b]) + length B) in E by (rewrite app_length; simpl; lia).
          apply IH in E as (A' & C' & D' & -> & -> & -> & M1 & M2 & M3 & M4); auto.
          -- exists A', C', D'. repeat (split; [solve [auto]|]). split; [|exact M4].
             replace (A ++ (b :: B) ++ C) with ((A ++ [b]) ++ B ++ C) by (rewrite <- app_assoc; auto). exact M3.
          -- rewrite !pr_app, <- app_assoc. exact N1.
          -- rewrite pr_app. inversion N2; auto.
          -- rewrite <- app_assoc. exact O.
          -- apply hull_snoc; auto.
        * (* goes right *)
          cbn [length] in E. destruct (swap _ _ _) as [w1| | |] eqn:Es; cbn [bind] in E; try discriminate E.
          assert (exists B', length B' = length B /\ Permutation B' B /\ w1 = A ++ B' ++ (b :: C) ++ []) as (B' & LB & PB & ->).
          { destruct B as [|z mid _] using rev_ind.
            - exists []. split; auto. split; auto. cbn [app length] in *. replace (length A + 1 - 1) with (length A) in Es by lia.
              unfold swap in Es. rewrite !nth_at in Es. rewrite !upd_at in Es. injection Es as <-. auto.
            - exists (z :: mid). rewrite app_length. cbn [length]. split; [lia|]. split; [apply Permutation_cons_append|].
              rewrite app_length in Es. cbn [length] in Es.
              replace (length A + S (length mid + 1) - 1) with (length (A ++ b :: mid)) in Es by (rewrite app_length; simpl; lia).
              assert (A ++ b :: (mid ++ [z]) ++ C ++ [] = (A ++ b :: mid) ++ z :: C ++ []) as Ew.
              { rewrite <- !app_assoc. cbn [app]. rewrite <- ?app_assoc. reflexivity. }
              unfold swap in Es. rewrite Ew in Es. rewrite nth_at in Es. rewrite <- Ew in Es at 1. rewrite nth_at in Es.
              rewrite upd_at in Es. rewrite <- app_assoc in Es. cbn [app] in Es. rewrite upd_at in Es. injection Es as <-. cbn [app]. reflexivity. }
          replace (length A + S (length B) - 1) with (length A + length B') in E by lia.
          replace (length A + S (length B) + length C) with (length A + length B' + length (b :: C)) in E by (simpl; lia).
          assert (Permutation (pr B') (pr B)) as PB' by (apply Permutation_map; auto).
          assert (Permutation (A ++ B' ++ b :: C) (A ++ b :: B ++ C)) as Pall.
          { apply Permutation_app_head. rewrite PB. symmetry. apply Permutation_middle. }
          apply IH in E as (A' & C' & D' & -> & -> & -> & M1 & M2 & M3 & M4); try lia; auto.
          -- exists A', C', D'. repeat (split; [solve [auto]|]). split; [|exact M4].
             eapply clip_trans; [|exact M3]. apply clip_perm; auto.
          -- rewrite pr_app. eapply Permutation_NoDup; [apply Permutation_app_head; symmetry; exact PB'|].
             eapply NoDup_remove_1. exact N1.
          -- rewrite pr_app. cbn [pr map]. change (map s_prim C) with (pr C).
             eapply Permutation_NoDup; [|exact N2]. rewrite PB'. apply Permutation_middle.
          -- eapply boxes_ok_perm; [symmetry; exact Pall|exact O].
          -- apply hull_cons; auto.
      + replace (0 <? length (A ++ b :: B ++ C ++ d :: D) - (length A + length (b :: B) + length C)) with true in E
          by (symmetry; apply Nat.ltb_lt; rewrite !app_length; simpl; rewrite !app_length; simpl; lia).
        specialize (Cs (center (shrink lbx (s_box b))) (center (shrink rbx (s_box b))) O Et).
        assert (box_ok (shrink lbx (s_box b)) /\ box_ok (shrink rbx (s_box b))) as (Oy & Ox)
          by (split; [apply (box_in_ok _ (s_box b))|apply (box_in_ok _ (s_box b))]; apply shrink_in; tauto).
        set (x := Sr (shrink rbx (s_box b)) _ _) in E, Cs.
        set (y := Sr (shrink lbx (s_box b)) _ _) in E, Cs.
        assert (A ++ b :: B ++ C ++ d :: D = (A ++ b :: B ++ C) ++ d :: D) as Ew.
        { rewrite <- !app_assoc. cbn [app]. rewrite <- ?app_assoc. reflexivity. }
        assert (length A + length (b :: B) + length C = length (A ++ b :: B ++ C)) as El.
        { rewrite app_length. cbn [length]. rewrite app_length. lia. }
        unfold set in E. rewrite Ew, El in E.
        replace (length (A ++ b :: B ++ C) <? length ((A ++ b :: B ++ C) ++ d :: D)) with true in E
          by (symmetry; apply Nat.ltb_lt; rewrite (app_length (A ++ b :: B ++ C)); simpl; lia).
        cbn [bind] in E. rewrite upd_at in E.
        replace (length A <? length ((A ++ b :: B ++ C) ++ x :: D)) with true in E
          by (symmetry; apply Nat.ltb_lt; rewrite !app_length; simpl; lia).
        cbn [bind] in E. rewrite <- app_assoc in E. cbn [app] in E. rewrite upd_at in E.
        assert (A ++ y :: (B ++ C) ++ x :: D = (A ++ [y]) ++ B ++ (C ++ [x]) ++ D) as Ew2.
        { rewrite <- !app_assoc. reflexivity. }
        rewrite Ew2 in E. replace (S (length A)) with (length (A ++ [y])) in E by (rewrite app_length; simpl; lia).
        replace (length A + length (b :: B)) with (length (A ++ [y]) + length B) in E by (rewrite app_length; simpl; lia).
        replace (S (length (A ++ b :: B ++ C))) with (length (A ++ [y]) + length B + length (C ++ [x])) in E
          by (rewrite <- El, !app_length; simpl; lia).
        assert (s_prim x = s_prim b /\ s_prim y = s_prim b) as (Px & Py) by (split; reflexivity).
        change (shrink lbx (s_box b)) with (s_box y) in E, Oy. change (shrink rbx (s_box b)) with (s_box x) in E, Ox.
        clearbody x y.
        apply IH in E as (A' & C' & D' & -> & -> & -> & M1 & M2 & M3 & M4); auto.
        * exists A', C', D'. repeat (split; [solve [auto]|]). split; [|exact M4]. eapply clip_trans; [exact Cs|exact M3].
        * rewrite !pr_app, <- app_assoc. cbn [pr map app]. rewrite Py. exact N1.
        * rewrite !pr_app. cbn [pr map]. rewrite Px. eapply Permutation_NoDup; [|exact N2].
          rewrite app_assoc. apply Permutation_cons_append.
        * apply Cs.
        * apply hull_snoc; auto.
        * apply hull_snoc; auto.
  Qed.

  (** ** The first loop *)
  Lemma swap_self : forall A (X Z : list A) x w i, i = length X -> swap (X ++ x :: Z) i i = Ok w -> w = X ++ x :: Z.
  Proof. intros A X Z x w i -> E. unfold swap in E. rewrite nth_at in E. rewrite !upd_at in E. congruence. Qed.
  Lemma upd_second : forall A (X Y Z : list A) x y v, upd (X ++ x :: Y ++ y :: Z) (length X + S (length Y)) v = X ++ x :: Y ++ v :: Z.
  Proof.
    intros. replace (X ++ x :: Y ++ y :: Z) with ((X ++ x :: Y) ++ y :: Z) by (rewrite <- app_assoc; auto).
    replace (length X + S (length Y)) with (length (X ++ x :: Y)) by (rewrite app_length; simpl; lia).
    rewrite upd_at, <- app_assoc. auto.
  Qed.
  Lemma nth_second : forall A (X Y Z : list A) x y, nth_error (X ++ x :: Y ++ y :: Z) (length X + S (length Y)) = Some y.
  Proof.
    intros. replace (X ++ x :: Y ++ y :: Z) with ((X ++ x :: Y) ++ y :: Z) by (rewrite <- app_assoc; auto).
    replace (length X + S (length Y)) with (length (X ++ x :: Y)) by (rewrite app_length; simpl; lia).
    apply nth_at.
  Qed.
  Lemma swap_two : forall A (X Y Z : list A) x y w i j, i = length X -> j = length X + S (length Y) ->
    swap (X ++ x :: Y ++ y :: Z) i j = Ok w \/ swap (X ++ x :: Y ++ y :: Z) j i = Ok w -> w = X ++ y :: Y ++ x :: Z.
  Proof.
    intros A X Y Z x y w i j -> -> [E|E]; unfold swap in E; rewrite nth_at, nth_second in E;
      [rewrite upd_at, upd_second in E|rewrite upd_second, upd_at in E]; congruence.
  Qed.

  Definition is_before (axis : nat) (pos : f32) (r : sref) : Prop := fle (vget (bmax (s_box r)) axis) pos = true.
  Definition is_after (axis : nat) (pos : f32) (r : sref) : Prop := fge (vget (bmin (s_box r)) axis) pos = true.
  Definition not_before (axis : nat) (pos : f32) (r : sref) : Prop := fle (vget (bmax (s_box r)) axis) pos = false.
  Definition is_cross (axis : nat) (pos : f32) (r : sref) : Prop :=
    fle (vget (bmax (s_box r)) axis) pos = false /\ fge (vget (bmin (s_box r)) axis) pos = false.
  Lemma classify_parts : forall axis pos k A B U C D L R w' le' rb' L' R',
    length U = k ->
    classify axis pos k (A ++ B ++ U ++ C ++ D) (length A + length B) (length A) (length A + length B + length U) L R = Ok (w', le', rb', L', R') ->
    boxes_ok (A ++ B ++ U ++ C) -> hull L A -> hull R C -> Forall (is_before axis pos) A -> Forall (is_after axis pos) C ->
    Forall (is_cross axis pos) B -> Forall (not_before axis pos) C ->
    exists A' B' C', w' = A' ++ B' ++ C' ++ D /\ le' = length A' /\ rb' = length A' + length B' /\
      Permutation (A' ++ B' ++ C') (A ++ B ++ U ++ C) /\ hull L' A' /\ hull R' C' /\
      Forall (is_before axis pos) A' /\ Forall (is_after axis pos) C' /\
      Forall (is_cross axis pos) B' /\ Forall (not_before axis pos) C'.
  Proof.
    intros axis pos. induction k as [|k IH]; intros A B U C D L R w' le' rb' L' R' Lu E O HL HR FA FC FB FN; cbn [classify] in E.
    - injection E as <- <- <- <- <-. destruct U; [|discriminate Lu]. exists A, B, C. simpl. rewrite Nat.add_0_r. repeat (split; [solve [auto]|]). auto.
    - destruct U as [|u U]; [discriminate Lu|]. injection Lu as Lu. unfold get in E.
      assert (nth_error (A ++ B ++ (u :: U) ++ C ++ D) (length A + length B) = Some u) as En.
      { rewrite app_assoc, <- app_length. apply nth_at. }
      rewrite En in E. cbn [bind] in E.
      assert (box_ok (s_box u)) as Ou.
      { apply (boxes_in _ u O). rewrite !in_app_iff. simpl. auto. }
      destruct (fle _ pos) eqn:Efle.
      { destruct (swap _ _ _) as [w1| | |] eqn:Es; cbn [bind] in E; try discriminate E.
        assert (exists B', Permutation B' B /\ w1 = (A ++ [u]) ++ B' ++ U ++ C ++ D) as (B' & PB & ->).
        { destruct B as [|b B].
          - exists []. split; auto. cbn [app length] in *. rewrite Nat.add_0_r in Es. apply swap_self in Es; auto. rewrite <- app_assoc. exact Es.
          - exists (B ++ [b]). split; [symmetry; apply Permutation_cons_append|]. cbn [app length] in Es.
            assert (w1 = A ++ u :: B ++ b :: U ++ C ++ D) as -> by (eapply swap_two; [reflexivity|reflexivity|right; exact Es]).
            rewrite <- !app_assoc. reflexivity. }
        replace (S (length A + length B)) with (length (A ++ [u]) + length B') in E by (rewrite (Permutation_length PB), app_length; simpl; lia).
        replace (S (length A)) with (length (A ++ [u])) in E by (rewrite app_length; simpl; lia).
        replace (length A + length B + length (u :: U)) with (length (A ++ [u]) + length B' + length U) in E
          by (rewrite (Permutation_length PB), app_length; simpl; lia).
        assert (Permutation ((A ++ [u]) ++ B' ++ U ++ C) (A ++ B ++ (u :: U) ++ C)) as Pa.
        { rewrite <- app_assoc. apply Permutation_app_head. rewrite PB. cbn [app]. apply Permutation_middle. }
        apply IH in E as (A' & B2 & C' & -> & -> & -> & P & H1 & H2); auto.
        - exists A', B2, C'. repeat (split; [solve [auto]|]). split; auto. rewrite P. exact Pa.
        - eapply boxes_ok_perm; [symmetry; exact Pa|exact O].
        - apply hull_snoc; auto.
        - apply Forall_app. auto.
        - eapply Permutation_Forall; [symmetry; exact PB|auto]. }
      destruct (fge _ pos) eqn:Efge.
      { destruct (swap _ _ _) as [w1| | |] eqn:Es; cbn [bind] in E; try discriminate E.
        assert (exists U', Permutation U' U /\ w1 = A ++ B ++ U' ++ (u :: C) ++ D) as (U' & PU & ->).
        { destruct U as [|z mid _] using rev_ind.
          - exists []. split; auto. cbn [app length] in *. rewrite app_assoc in Es.
            replace (length A + length B + 1 - 1) with (length A + length B) in Es by lia.
            apply swap_self in Es; [|rewrite app_length; auto]. rewrite app_assoc. exact Es.
          - exists (z :: mid). split; [apply Permutation_cons_append|].
            cbn [length] in Es. rewrite app_length in Es. cbn [length] in Es.
            assert (A ++ B ++ (u :: mid ++ [z]) ++ C ++ D = (A ++ B) ++ u :: mid ++ z :: C ++ D) as Eq
              by (rewrite <- !app_assoc; cbn [app]; rewrite <- ?app_assoc; reflexivity).
            rewrite Eq in Es.
            assert (w1 = (A ++ B) ++ z :: mid ++ u :: C ++ D) as ->.
            { eapply swap_two; [| |left; exact Es]; rewrite ?app_length; lia. }
            rewrite <- !app_assoc. reflexivity. }
        replace (length A + length B + length (u :: U) - 1) with (length A + length B + length U') in E
          by (rewrite (Permutation_length PU); simpl; lia).
        assert (Permutation (A ++ B ++ U' ++ u :: C) (A ++ B ++ (u :: U) ++ C)) as Pa.
        { do 2 apply Permutation_app_head. rewrite PU. cbn [app]. symmetry. apply Permutation_middle. }
        apply IH in E as (A' & B2 & C' & -> & -> & -> & P & H1 & H2); auto.
        - exists A', B2, C'. repeat (split; [solve [auto]|]). split; auto. rewrite P. exact Pa.
        - rewrite (Permutation_length PU). auto.
        - eapply boxes_ok_perm; [symmetry; exact Pa|exact O].
        - apply hull_cons; auto. }
      assert (A ++ B ++ (u :: U) ++ C ++ D = A ++ (B ++ [u]) ++ U ++ C ++ D) as Eq by (rewrite <- !app_assoc; reflexivity).
      rewrite Eq in E.
      replace (S (length A + length B)) with (length A + length (B ++ [u])) in E by (rewrite app_length; simpl; lia).
      replace (length A + length B + length (u :: U)) with (length A + length (B ++ [u]) + length U) in E by (rewrite app_length; simpl; lia).
      assert (A ++ (B ++ [u]) ++ U ++ C = A ++ B ++ (u :: U) ++ C) as Eq2 by (rewrite <- !app_assoc; reflexivity).
      apply IH in E as (A' & B2 & C' & -> & -> & -> & P & H1 & H2); auto.
      + exists A', B2, C'. repeat (split; [solve [auto]|]). split; auto. rewrite P, Eq2. reflexivity.
      + rewrite Eq2. auto.
      + apply Forall_app. split; auto. constructor; auto. split; auto.
  Qed.

  Lemma fallback_parts : forall begin A B C D L R le' rb' L' R',
    fallback begin (length A + length B + length C) (A ++ B ++ C ++ D) (length A) (length A + length B) L R = Ok (le', rb', L', R') ->
    boxes_ok (A ++ B ++ C) -> hull L A -> hull R C ->
    exists A' B' C', A ++ B ++ C = A' ++ B' ++ C' /\ le' = length A' /\ rb' = length A' + length B' /\ hull L' A' /\ hull R' C'.
  Proof.
    intros begin A B C D L R le' rb' L' R' E O HL HR. unfold fallback in E. cbv zeta in E.
    destruct (_ && _) eqn:Eb.
    2:{ injection E as <- <- <- <-. exists A, B, C. auto. }
    match type of E with bind ?x _ = _ => destruct x as [m| | |] eqn:Em; cbn [bind] in E; try discriminate E end.
    apply andb_prop in Eb as (Eb1 & Eb2). apply Nat.eqb_eq in Eb2. destruct B as [|? ?]; [|simpl in Eb2; lia].
    assert (m <= length A + length C) as Lm.
    { destruct (0 <? length A).
      - destruct (length A / 2 <? begin); [discriminate Em|]. assert (m = length A / 2 - begin) as -> by congruence. pose proof (Nat.div_le_upper_bound (length A) 2 (length A) ltac:(lia) ltac:(lia)). lia.
      - match type of Em with Ok ?x = Ok _ => assert (m = x) as -> by congruence end. cbn [length].
        pose proof (Nat.div_le_upper_bound (length A + 0 + length C - (length A + 0)) 2 (length C) ltac:(lia) ltac:(lia)). lia. }
    injection E as <- <- <- <-. cbn [app length] in *.
    assert (firstn (length A + 0 + length C) (A ++ C ++ D) = A ++ C) as Ef.
    { rewrite app_assoc. apply firstn_app_len. rewrite app_length. lia. }
    rewrite Ef.
    assert (firstn m (A ++ C ++ D) = firstn m (A ++ C)) as Ef2.
    { rewrite app_assoc. rewrite firstn_app. replace (m - length (A ++ C)) with 0 by (rewrite app_length; lia). cbn [firstn]. apply app_nil_r. }
    rewrite Ef2. rewrite <- (firstn_skipn m (A ++ C)) in O. apply boxes_ok_app in O as (O1 & O2).
    exists (firstn m (A ++ C)), [], (skipn m (A ++ C)). cbn [app length]. rewrite firstn_skipn, firstn_length, app_length.
    split; auto. split; [lia|]. split; [lia|]. split; apply hull_boxes_of; auto.
  Qed.
End Clip.

(** ** The three arrays of a task *)
Section Same.
  Variable sorter : nat -> list sref -> list sref.
  Hypothesis sorter_perm : forall a l, Permutation (sorter a l) l.
  Variables (prims : list tri) (lsize : nat) (th : f32).
  Notation plan := (plan_task sorter prims lsize th).
  Notation stree := (seq_tree sorter prims lsize th).

  (** The first [len] references of every axis are the references [S], which
      name different primitives. *)
  Definition same3 (S : list sref) (len : nat) (w : per_axis (list sref)) : Prop :=
    NoDup (pr S) /\ all3 (fun l => Permutation (firstn len l) S) w.
  Definition split_ok (S : list sref) (c : children) (w : per_axis (list sref)) : Prop :=
    c_right_begin c <= c_right_end c /\
    exists S1 S2, same3 S1 (c_right_begin c) w /\ same3 S2 (c_right_end c - c_right_begin c) (map3 (skipn (c_right_begin c)) w) /\
      clip prims S (S1 ++ S2) /\ hull (c_left c) S1 /\ hull (c_right c) S2.

  Lemma same3_len : forall S len w (a : nat), all3 (fun l => len <= length l) w -> same3 S len w -> length S = len.
  Proof.
    intros S len w a L (_ & H). pose proof (all3_pick _ _ _ a L) as La. pose proof (all3_pick _ _ _ a H) as Ha. cbv beta in La, Ha.
    rewrite <- (Permutation_length Ha), firstn_length. lia.
  Qed.
  Lemma sort_same : forall S len w, all3 (fun l => len <= length l) w -> same3 S len w -> same3 S len (sort_refs sorter len w).
  Proof.
    intros S len w (L0 & L1 & L2) (N & H0 & H1 & H2). split; auto.
    assert (forall a l, len <= length l -> Permutation (firstn len l) S -> Permutation (firstn len (sorter a (firstn len l) ++ skipn len l)) S) as G.
    { intros a l L H. rewrite firstn_app_len; [|rewrite (Permutation_length (sorter_perm _ _)), firstn_length; lia].
      rewrite <- H. apply sorter_perm. }
    split; [exact (G 0 _ L0 H0)|split; [exact (G 1 _ L1 H1)|exact (G 2 _ L2 H2)]].
  Qed.

  Lemma object_same : forall S len w axis index bl br w' c, all3 (fun l => len <= length l) w -> same3 S len w -> boxes_ok S ->
    hull bl (firstn index (firstn len (pick w axis))) -> hull br (skipn index (firstn len (pick w axis))) ->
    apply_object_split len w axis index bl br = Ok (w', c) -> split_ok S c w'.
  Proof.
    intros S len w axis index bl br w' c L (N & H) O Hl Hr E. unfold apply_object_split in E.
    destruct (Nat.ltb_spec index len) as [Li|Li]; cbn [negb] in E; [|discriminate]. cbv zeta in E.
    pose proof (all3_pick _ _ _ axis L) as La. pose proof (all3_pick _ _ _ axis H) as Ha. cbv beta in La, Ha.
    set (x := firstn len (pick w axis)) in *.
    assert (length x = len) as Lx by (unfold x; rewrite firstn_length; lia).
    assert (NoDup (pr x)) as Nx by (eapply Permutation_NoDup; [symmetry; apply Permutation_map; exact Ha|auto]).
    set (mark := marked x index) in *.
    set (S1 := firstn index x) in *. set (S2 := skipn index x) in *.
    assert (x = S1 ++ S2) as Ex by (unfold S1, S2; rewrite firstn_skipn; auto).
    assert (filter (fun r => mark (s_prim r)) x = S1 /\ filter (fun r => negb (mark (s_prim r))) x = S2) as (F1 & F2).
    { assert (forall f, filter f x = filter f S1 ++ filter f S2) as Fx by (intro f; rewrite <- filter_app, <- Ex; auto).
      rewrite !Fx. split.
      - rewrite filter_all, filter_none, app_nil_r; auto; intros r Ir; apply (marked_spec x index _ Nx); apply in_map; auto.
      - rewrite filter_none, filter_all; auto; intros r Ir; unfold mark;
          [rewrite (proj2 (marked_spec x index _ Nx))|rewrite (proj1 (marked_spec x index _ Nx))]; auto; apply in_map; auto. }
    assert (forall l, len <= length l -> Permutation (firstn len l) S ->
      Permutation (firstn index (partition_marked mark (firstn len l) ++ skipn len l)) S1 /\
      Permutation (firstn (len - index) (skipn index (partition_marked mark (firstn len l) ++ skipn len l))) S2) as Part.
    { intros l Ll Hl'. unfold partition_marked.
      assert (Permutation (filter (fun r => mark (s_prim r)) (firstn len l)) S1) as Q1
        by (rewrite <- F1; apply filter_perm; rewrite Hl'; symmetry; exact Ha).
      assert (Permutation (filter (fun r => negb (mark (s_prim r))) (firstn len l)) S2) as Q2
        by (rewrite <- F2; apply filter_perm; rewrite Hl'; symmetry; exact Ha).
      assert (length (filter (fun r => mark (s_prim r)) (firstn len l)) = index) as L1.
      { apply Permutation_length in Q1. rewrite Q1. unfold S1. rewrite firstn_length. lia. }
      assert (length (filter (fun r => negb (mark (s_prim r))) (firstn len l)) = len - index) as L2.
      { apply Permutation_length in Q2. rewrite Q2. unfold S2. rewrite skipn_length. lia. }
      rewrite <- app_assoc. rewrite firstn_app_len, skipn_app_len by auto. rewrite firstn_app_len by auto. auto. }
    assert (forall a l, len <= length l -> Permutation (firstn len l) S -> (a = axis -> l = pick w axis) ->
      let l' := if a =? axis then l else partition_marked mark (firstn len l) ++ skipn len l in
      Permutation (firstn index l') S1 /\ Permutation (firstn (len - index) (skipn index l')) S2) as G.
    { intros a l Ll Hl' Ea. cbv zeta. destruct (Nat.eqb_spec a axis) as [Eq|Ne]; [|apply Part; auto].
      rewrite (Ea Eq). unfold S1, S2, x. rewrite firstn_firstn, Nat.min_l by lia. split; auto.
      rewrite skipn_firstn_comm. auto. }
    assert (clip prims S (S1 ++ S2)) as Cl by (apply clip_perm; auto; rewrite <- Ex; auto).
    assert (NoDup (pr S1) /\ NoDup (pr S2)) as (N1 & N2).
    { rewrite Ex, pr_app in Nx. split; [eapply nodup_l; eauto|].
      apply (Permutation_NoDup (Permutation_app_comm _ _)) in Nx. eapply nodup_l; eauto. }
    clearbody S1 S2 mark. destruct L as (L0 & L1 & L2), H as (H0 & H1 & H2).
    injection E as <- <-. unfold split_ok.
    cbn [c_right_begin c_right_end c_left c_right]. split; [lia|]. exists S1, S2. split; [|split; [|auto]].
    - split; auto. split; [|split]; cbn [pick]; [apply (G 0)|apply (G 1)|apply (G 2)]; auto; intros <-; auto.
    - split; auto. unfold map3. split; [|split]; cbn [pick]; [apply (G 0)|apply (G 1)|apply (G 2)]; auto; intros <-; auto.
  Qed.

  Lemma spatial_same : forall S begin len w split w' c, all3 (fun l => len <= length l) w -> same3 S len w -> boxes_ok S ->
    apply_spatial_split prims begin len w split = Ok (w', c) -> split_ok S c w'.
  Proof.
    intros S begin len w split w' c L (N & H) O E. unfold apply_spatial_split in E. cbv zeta in E.
    pose proof (all3_pick _ _ _ (ss_axis split) L) as La. pose proof (all3_pick _ _ _ (ss_axis split) H) as Ha. cbv beta in La, Ha.
    destruct (classify _ _ _ _ _ _ _ _ _) as [[[[[w1 le1] rb1] L1] R1]| | |] eqn:E1; cbn [bind] in E; try discriminate.
    set (x := firstn len (pick w (ss_axis split))) in *. set (D := skipn len (pick w (ss_axis split))) in *.
    assert (pick w (ss_axis split) = x ++ D) as Ew by (unfold x, D; rewrite firstn_skipn; auto).
    assert (length x = len) as Lx by (unfold x; rewrite firstn_length; lia).
    assert (boxes_ok x) as Ox by (eapply boxes_ok_perm; [symmetry; exact Ha|auto]).
    rewrite Ew in E1.
    pose proof (classify_parts (ss_axis split) (ss_pos split) len [] [] x [] D aabb_new aabb_new w1 le1 rb1 L1 R1 Lx) as Cl.
    cbn [app length plus] in Cl. rewrite Lx, app_nil_r in Cl.
    destruct (Cl E1 Ox hull_nil hull_nil (Forall_nil _) (Forall_nil _) (Forall_nil _) (Forall_nil _)) as (A & B & C & -> & -> & -> & P1 & HA & HC & _). clear Cl E1.
    assert (length A + length B + length C = len) as Ll by (rewrite <- Lx, <- (Permutation_length P1), !app_length; lia).
    destruct (fallback _ _ _ _ _ _ _) as [[[[le2 rb2] L2] R2]| | |] eqn:E2; cbn [bind] in E; try discriminate.
    rewrite <- Ll in E2.
    assert (boxes_ok (A ++ B ++ C)) as OA by (eapply boxes_ok_perm; [symmetry; exact P1|auto]).
    apply fallback_parts in E2 as (A2 & B2 & C2 & Ep & -> & -> & HA2 & HC2); auto.
    assert (A ++ B ++ C ++ D = A2 ++ B2 ++ C2 ++ D) as Ed.
    { transitivity ((A ++ B ++ C) ++ D); [rewrite <- !app_assoc; auto|]. rewrite Ep, <- !app_assoc. auto. }
    destruct (straddle _ _ _ _ _ _ _ _ _ _ _ _) as [[[[[w3 rb3] re3] L3] R3]| | |] eqn:E3; cbn [bind] in E; try discriminate.
    rewrite Ed in E3.
    assert (length A2 + length B2 + length C2 = len) as Ll2 by (rewrite <- Ll, <- !Nat.add_assoc, <- !app_length, Ep; auto).
    rewrite <- Ll2 in E3 at 1.
    replace (length A2 + length B2 - length A2) with (length B2) in E3 by lia.
    assert (Permutation (A2 ++ B2 ++ C2) S) as P2 by (rewrite <- Ep, P1; exact Ha).
    assert (NoDup (pr (A2 ++ B2 ++ C2))) as NN by (eapply Permutation_NoDup; [symmetry; apply Permutation_map; exact P2|auto]).
    apply straddle_clip in E3 as (A' & C' & D' & Ew3 & -> & -> & N1 & N2 & Mem & H1 & H2); auto;
      [|rewrite app_assoc, pr_app in NN; eapply nodup_l; eauto
       |rewrite pr_app in NN; apply (Permutation_NoDup (Permutation_app_comm _ _)) in NN; eapply nodup_l; eauto
       |rewrite <- Ep; auto].
    injection E as <- <-. unfold split_ok.
    cbn [c_right_begin c_right_end c_left c_right]. split; [lia|].
    exists A', C'. replace (length A' + length C' - length A') with (length C') by lia.
    assert (forall a l, let l' := if a =? ss_axis split then w3 else firstn (length A' + length C') w3 ++ skipn (length A' + length C') l in
      firstn (length A') l' = A' /\ firstn (length C') (skipn (length A') l') = C') as G.
    { intros a l. cbv zeta. assert (exists X, (if a =? ss_axis split then w3 else firstn (length A' + length C') w3 ++ skipn (length A' + length C') l) = A' ++ C' ++ X) as (X & ->).
      { destruct (a =? ss_axis split); [exists D'; auto|]. eexists. rewrite Ew3, app_assoc. rewrite firstn_app_len by (apply app_length).
        rewrite <- app_assoc. reflexivity. }
      rewrite firstn_app_len, skipn_app_len by auto. rewrite firstn_app_len by auto. auto. }
    split; [|split; [|split; auto]].
    - split; auto. split; [|split]; cbn [pick];
      match goal with |- Permutation ?x _ => replace x with A'; [auto|symmetry] end;
      [exact (proj1 (G 0 (pick w 0)))|exact (proj1 (G 1 (pick w 1)))|exact (proj1 (G 2 (pick w 2)))].
    - split; auto. unfold map3. split; [|split]; cbn [pick];
      match goal with |- Permutation ?x _ => replace x with C'; [auto|symmetry] end;
      [exact (proj2 (G 0 (pick w 0)))|exact (proj2 (G 1 (pick w 1)))|exact (proj2 (G 2 (pick w 2)))].
    - eapply clip_trans; [|exact Mem]. apply clip_perm; auto.
  Qed.

  Lemma pick_map3 : forall A B (f : A -> B) t a, pick (map3 f t) a = f (pick t a).
  Proof. intros A B f [[x y] z] [|[|[|a]]]; reflexivity. Qed.

  Lemma plan_same : forall S t bounds w w' d, all3 (fun l => w_size t <= length l) w -> same3 S (w_size t) w -> boxes_ok S ->
    plan t bounds w = Ok (w', d) ->
    match d with Leaf => same3 S (w_size t) w' | Divide c => split_ok S c w' end.
  Proof.
    intros S t bounds w w' d L H O E. unfold plan_task in E.
    destruct ((w_size t <=? 1) || (MAX_DEPTH <=? w_depth t)); [injection E as <- <-; auto|].
    assert (same3 S (w_size t) (if w_sorted t then w else sort_refs sorter (w_size t) w)) as H1
      by (destruct (w_sorted t); auto; apply sort_same; auto).
    assert (all3 (fun l => w_size t <= length l) (if w_sorted t then w else sort_refs sorter (w_size t) w)) as L1.
    { destruct (w_sorted t); auto. destruct L as (L0 & L1 & L2).
      assert (forall a l, w_size t <= length l -> w_size t <= length (sorter a (firstn (w_size t) l) ++ skipn (w_size t) l)) as G.
      { intros a l Ll. rewrite app_length, (Permutation_length (sorter_perm _ _)), <- app_length, firstn_skipn. auto. }
      split; [exact (G 0 _ L0)|split; [exact (G 1 _ L1)|exact (G 2 _ L2)]]. }
    revert E. set (w1 := if w_sorted t then w else sort_refs sorter (w_size t) w) in *. clearbody w1. cbv zeta.
    assert (all3 (fun l => boxes_ok (firstn (w_size t) l)) w1) as O1.
    { destruct H1 as (_ & H1). eapply all3_imp; [|exact H1]. intros l P. eapply boxes_ok_perm; [symmetry; exact P|auto]. }
    pose proof (find_object_good (map3 (firstn (w_size t)) w1)) as Good.
    assert (all3 boxes_ok (map3 (firstn (w_size t)) w1)) as O2 by (eapply all3_map; [|exact O1]; auto).
    specialize (Good O2).
    set (os := find_object_split (map3 (firstn (w_size t)) w1)) in *. clearbody os.
    destruct (if _ && _ then _ else _) as [ss| | |]; cbn [bind]; try discriminate.
    destruct (fge _ _).
    { destruct (lsize <? w_size t); [|intro E; injection E as <- <-; auto].
      destruct (apply_object_split _ _ _ _ _ _) as [[w2 c]| | |] eqn:E2; cbn [bind]; try discriminate.
      intro E; injection E as <- <-. eapply object_same; try exact E2; auto.
      - apply hull_boxes_of. pose proof (all3_pick _ _ _ (longest_axis bounds) O1) as Oa. cbv beta in Oa.
        rewrite <- (firstn_skipn (w_size t / 2)) in Oa. apply boxes_ok_app in Oa. tauto.
      - apply hull_boxes_of. pose proof (all3_pick _ _ _ (longest_axis bounds) O1) as Oa. cbv beta in Oa.
        rewrite <- (firstn_skipn (w_size t / 2)) in Oa. apply boxes_ok_app in Oa. tauto. }
    destruct (flt _ _).
    { destruct (apply_spatial_split _ _ _ _ _) as [[w2 c]| | |] eqn:E2; cbn [bind]; try discriminate.
      intro E; injection E as <- <-. eapply spatial_same; eauto. }
    destruct (o_index os) as [ix|] eqn:Ei; [|intro E; injection E as <- <-; auto].
    destruct (apply_object_split _ _ _ _ _ _) as [[w2 c]| | |] eqn:E2; cbn [bind]; try discriminate.
    intro E; injection E as <- <-. destruct (Good _ Ei) as (Hl & Hr). rewrite pick_map3 in Hl, Hr.
    eapply object_same; try exact E2; auto.
  Qed.
End Same.

(** ** The abstract tree *)
Definition a_box (T : atree) : aabb := match T with ALeaf b _ => b | ANode b _ _ _ _ => b end.
Fixpoint a_nested (T : atree) : Prop :=
  match T with
  | ALeaf _ _ => True
  | ANode b _ _ l r => box_in (a_box l) b /\ box_in (a_box r) b /\ a_nested l /\ a_nested r
  end.
Fixpoint a_covered (p : nat) (v : vec3) (T : atree) : Prop :=
  match T with
  | ALeaf b ids => In p ids /\ in_box b v
  | ANode b _ _ l r => in_box b v /\ (a_covered p v l \/ a_covered p v r)
  end.
Fixpoint a_encloses (aabbs : list aabb) (T : atree) : Prop :=
  Forall (fun p => forall b, nth_error aabbs p = Some b -> box_in b (a_box T)) (a_prims T) /\
  match T with ALeaf _ _ => True | ANode _ _ _ l r => a_encloses aabbs l /\ a_encloses aabbs r end.

Section Seq.
  Variable sorter : nat -> list sref -> list sref.
  Hypothesis sorter_perm : forall a l, Permutation (sorter a l) l.
  Variables (prims : list tri) (lsize : nat) (th : f32) (aabbs : list aabb).
  Notation plan := (plan_task sorter prims lsize th).
  Notation stree := (seq_tree sorter prims lsize th).

  Definition tree_ok (S : list sref) (bounds : aabb) (T : atree) : Prop :=
    (a_box T = bounds \/ a_box T = with_offset bounds f1em4) /\ a_nested T /\
    (forall r v, In r S -> vertex_of prims (s_prim r) v -> in_box (s_box r) v -> a_covered (s_prim r) v T) /\
    length S <= length (a_prims T) /\
    (length (a_prims T) = length S -> Permutation (a_prims T) (pr S) /\
       ((forall r, In r S -> nth_error aabbs (s_prim r) = Some (s_box r)) -> a_encloses aabbs T)).

  Lemma same3_ext : forall S len w w', (forall a, firstn len (pick w' a) = firstn len (pick w a)) -> same3 S len w -> same3 S len w'.
  Proof. intros S len w w' H (N & H0 & H1 & H2). split; auto. split; [|split]; rewrite H; auto. Qed.

  Lemma whole : forall S B T, inside B S -> Permutation (a_prims T) (pr S) ->
    (forall r, In r S -> nth_error aabbs (s_prim r) = Some (s_box r)) ->
    Forall (fun p => forall b, nth_error aabbs p = Some b -> box_in b B) (a_prims T).
  Proof.
    intros S B T (_ & H) P W. rewrite Forall_forall in *. intros p Ip b Eb.
    apply (Permutation_in _ P) in Ip. apply in_map_iff in Ip as (r & <- & Ir). rewrite (W _ Ir) in Eb. injection Eb as <-. auto.
  Qed.
  Lemma leaf_ok : forall S bounds w len, all3 (fun l => len <= length l) w -> same3 S len w -> inside bounds S ->
    tree_ok S bounds (ALeaf bounds (map s_prim (firstn len (pick w 0)))).
  Proof.
    intros S bounds w len L (N & P0 & _) I. pose proof (Permutation_map s_prim P0) as Pm.
    split; [left; auto|]. split; [exact Logic.I|]. split; [|split].
    - intros r v Ir _ Hv. split; [|eapply in_box_mono; [|exact Hv]; destruct I as (_ & I); rewrite Forall_forall in I; auto].
      eapply Permutation_in; [symmetry; exact Pm|]. apply in_map; auto.
    - cbn [a_prims]. rewrite (Permutation_length Pm). unfold pr. rewrite map_length. auto.
    - intros _. split; [exact Pm|]. intro W. split; auto. apply (whole S); auto.
  Qed.

  Variable n : nat.
  Lemma seq_boxes : forall k t bounds w W S T, w_size t <= W -> W = w_split_end t - w_begin t -> w_begin t <= w_end t ->
    all3 (okw n W) w -> same3 S (w_size t) w -> boxes_ok S -> inside bounds S ->
    stree k t bounds w = Ok T -> harmless T -> tree_ok S bounds T.
  Proof.
    induction k as [|k IH]; intros t bounds w W S T LW EW LB O Nm Ob Ib E Hm; rewrite stree_eq in E;
      (destruct (plan t bounds w) as [[w1 d]| | |] eqn:Ep; cbn [bind] in E; try discriminate E);
      (destruct (plan_ok sorter sorter_perm prims lsize n th W _ _ _ _ _ LW O Ep) as (Ow & Od));
      (assert (all3 (fun l => w_size t <= length l) w) as Lw by (eapply all3_imp; [|exact O]; intros x (-> & _); auto));
      (assert (all3 (fun l => w_size t <= length l) w1) as Lw1 by (eapply all3_imp; [|exact Ow]; intros x (-> & _); auto));
      pose proof (plan_same sorter sorter_perm prims lsize th S t bounds w w1 d Lw Nm Ob Ep) as Pn.
    - destruct d as [|c]; [|discriminate E].
      match type of E with Ok ?x = Ok _ => assert (T = x) as -> by congruence end. apply leaf_ok; auto.
    - destruct d as [|c].
      { match type of E with Ok ?x = Ok _ => assert (T = x) as -> by congruence end. apply leaf_ok; auto. }
      destruct Od as (Crb & Cre & Hd & H2). destruct Pn as (Crr & S1 & S2 & N1 & N2 & Cl & HL & HR).
      set (rb := c_right_begin c) in *. set (re := c_right_end c) in *.
      set (sh := left_split_count (w_split_end t - (w_begin t + re)) c) in *.
      assert (rb <= W) as LrbW by lia.
      pose proof (move3_window n w1 0 W rb re sh) as Mv.
      destruct Ow as ((L0 & F0) & (L1 & F1) & (L2 & F2)).
      specialize (Mv ltac:(split; [|split]; lia) ltac:(lia) ltac:(lia) ltac:(intros _; split; [|split]; lia)).
      assert (map3 (fun l => window l 0 W) w1 = w1) as Ew1.
      { unfold map3. rewrite <- L0 at 1. rewrite <- L1 at 1. rewrite <- L2 at 1. rewrite !window_all. destruct w1 as [[x y] z]; auto. }
      rewrite Ew1 in Mv.
      destruct (move3 w1 rb re sh) as [w2| | |] eqn:Em; cbn [bind] in E; try discriminate E.
      destruct Mv as (_ & (M0 & M1 & M2) & Sm). destruct Sm as (Q0 & Q1 & Q2); [repeat split; auto|].
      assert (forall l, length l = W -> small n l -> okw n rb (firstn rb l) /\ okw n (W - rb) (skipn rb l)) as G.
      { intros l Ll Sl. unfold small in Sl. rewrite <- (firstn_skipn rb l) in Sl. apply Forall_app in Sl as (Sa & Sb).
        split; split; auto; [rewrite firstn_length|rewrite skipn_length]; lia. }
      destruct (G _ M0 Q0) as (G0 & H0). destruct (G _ M1 Q1) as (G1 & H1). destruct (G _ M2 Q2) as (G2 & H2').
      match type of E with bind ?x _ = _ => destruct x as [Tl| | |] eqn:El; cbn [bind] in E; try discriminate E end.
      match type of E with bind ?x _ = _ => destruct x as [Tr| | |] eqn:Er; cbn [bind] in E; try discriminate E end.
      match type of E with Ok ?x = Ok _ => assert (T = x) as -> by congruence end. clear E.
      cbn [harmless] in Hm. destruct Hm as (Hs & Hl & Hr).
      assert (all3 (fun l => re <= length l) w1) as Lre by (split; [|split]; lia).
      pose proof (move3_keeps w1 rb re sh w2 ltac:(lia) Lre Em Hs) as Keep.
      pose proof Cl as (Oc & Cl1 & Cl2 & Cl3 & Cl4). apply boxes_ok_app in Oc as (Oc1 & Oc2).
      apply (IH _ _ _ rb S1) in El; cbn [w_size w_begin w_end w_split_end]; try lia;
        [|unfold w_size; cbn [w_begin w_end]; lia|repeat split; first [apply G0|apply G1|apply G2]| |auto|apply HL|auto].
      2:{ unfold w_size. cbn [w_begin w_end]. replace (w_begin t + rb - w_begin t) with rb by lia.
          eapply same3_ext; [|exact N1]. intro a. rewrite pick_map3.
          rewrite firstn_firstn, Nat.min_id. destruct (Keep a) as (_ & Ka).
          rewrite <- (Nat.min_l rb re) by lia. rewrite <- !firstn_firstn. rewrite Ka. auto. }
      apply (IH _ _ _ (W - rb) S2) in Er; cbn [w_size w_begin w_end w_split_end]; try lia;
        [|unfold w_size; cbn [w_begin w_end]; lia|repeat split; first [apply H0|apply H1|apply H2']| |auto|apply HR|auto].
      2:{ unfold w_size. cbn [w_begin w_end]. replace (w_begin t + re - (w_begin t + rb)) with (re - rb) by lia.
          eapply same3_ext; [|exact N2]. intro a. rewrite !pick_map3.
          destruct (Keep a) as (_ & Ka). rewrite <- !skipn_firstn_comm. rewrite Ka. auto. }
      clear IH.
      destruct f1em4_pos as (Pf & Pp).
      assert (box_ok bounds) as Okb by (destruct Ib as (Ib & _); eapply box_in_ok; exact Ib).
      destruct (with_offset_in bounds f1em4 Okb Pf Pp) as (Oko & Bo & _).
      assert (forall B, inside B S -> inside B S1 /\ inside B S2) as Ins.
      { intros B (I1 & I2). rewrite Forall_forall in I2.
        assert (forall r, In r (S1 ++ S2) -> box_in (s_box r) B) as X.
        { intros r Ir. destruct (Cl1 _ Ir) as (r0 & Ir0 & _ & Hb). eapply box_in_trans; [exact Hb|auto]. }
        split; (split; auto; rewrite Forall_forall; intros r Ir; apply X; apply in_or_app; auto). }
      assert (box_in (c_left c) bounds /\ box_in (c_right c) bounds) as (Bl & Br).
      { destruct (Ins _ Ib) as (I1 & I2). split; [apply HL; auto|apply HR; auto]. }
      assert (forall x T', box_in x bounds -> a_box T' = x \/ a_box T' = with_offset x f1em4 -> box_in (a_box T') (with_offset bounds f1em4)) as Bx.
      { intros x T' Hx [-> | ->]; [eapply box_in_trans; eauto|apply with_offset_mono; auto]. }
      destruct El as (Bl1 & Nl & Vl & Ll & Pl). destruct Er as (Br1 & Nr & Vr & Lr & Pr').
      split; [right; reflexivity|]. split; [|split; [|split]].
      + cbn [a_nested]. split; [apply (Bx (c_left c)); auto|]. split; [apply (Bx (c_right c)); auto|]. auto.
      + intros r v Ir Hv Bv. cbn [a_covered]. split.
        { eapply in_box_mono; [|exact Bv]. eapply box_in_trans; [|exact Bo]. destruct Ib as (_ & Ib). rewrite Forall_forall in Ib. auto. }
        destruct (Cl2 r v Ir Hv Bv) as (r' & Ir' & Er & Bv'). rewrite <- Er in Hv |- *.
        apply in_app_or in Ir' as [I|I]; [left; apply Vl; auto|right; apply Vr; auto].
      + cbn [a_prims]. rewrite app_length in Cl3 |- *. lia.
      + cbn [a_prims]. rewrite app_length in Cl3, Cl4 |- *. intro Eq.
        destruct (Pl ltac:(lia)) as (Pl1 & Pl2). destruct (Pr' ltac:(lia)) as (Pr1 & Pr2).
        specialize (Cl4 ltac:(lia)).
        assert (Permutation (a_prims Tl ++ a_prims Tr) (pr S)) as PP.
        { rewrite Pl1, Pr1, <- pr_app. apply Permutation_map. exact Cl4. }
        split; [exact PP|]. intro Wh. split.
        * change (a_prims Tl ++ a_prims Tr) with (a_prims (ANode (with_offset bounds f1em4) 0 0 Tl Tr)).
          eapply Forall_impl; [|apply (whole S bounds (ANode (with_offset bounds f1em4) 0 0 Tl Tr)); auto].
          intros p Hp b Eb. eapply box_in_trans; [apply Hp; auto|exact Bo].
        * split; [apply Pl2|apply Pr2]; intros r Ir; apply Wh; apply (Permutation_in _ Cl4); apply in_or_app; auto.
  Qed.
End Seq.
