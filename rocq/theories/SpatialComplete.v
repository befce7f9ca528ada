(** * When the spatial-split builder loses no primitive *)
Require Import List ZArith Bool Arith Lia Permutation.
From Verif Require Import F32 Vec AabbModel Base NodeModel UtilsModel UtilsProofs LocbModel SpawnModel TriModel BinnedModel
  SpatialModel SpecSpatial SpatialPlan SpatialProofs.
Import ListNotations.

Definition pr (l : list sref) : list nat := map s_prim l.
Lemma pr_app : forall a b, pr (a ++ b) = pr a ++ pr b.
Proof. intros. apply map_app. Qed.

Lemma upd_at : forall A (X Y : list A) x v, upd (X ++ x :: Y) (length X) v = X ++ v :: Y.
Proof. induction X as [|h t IH]; intros; simpl; auto. rewrite IH. auto. Qed.
Lemma nth_at : forall A (X Y : list A) x, nth_error (X ++ x :: Y) (length X) = Some x.
Proof. intros. rewrite nth_error_app2, Nat.sub_diag by lia. auto. Qed.
Lemma upd_app1 : forall A (X Y : list A) i v, i < length X -> upd (X ++ Y) i v = upd X i v ++ Y.
Proof. induction X as [|h t IH]; intros Y [|i] v L; simpl in *; auto; try lia. rewrite IH by lia. auto. Qed.

Lemma firstn_app_len : forall A (X Y : list A) k, length X = k -> firstn k (X ++ Y) = X.
Proof. intros A X Y k <-. rewrite firstn_app, Nat.sub_diag, firstn_all. simpl. apply app_nil_r. Qed.
Lemma skipn_app_len : forall A (X Y : list A) k, length X = k -> skipn k (X ++ Y) = Y.
Proof. intros A X Y k <-. rewrite skipn_app, Nat.sub_diag, skipn_all. auto. Qed.

Lemma swap_in_window : forall A (l l' : list A) len i j, i < len -> j < len -> len <= length l -> swap l i j = Ok l' ->
  Permutation (firstn len l') (firstn len l) /\ skipn len l' = skipn len l /\ length l' = length l.
Proof.
  intros A l l' len i j Hi Hj L E. rewrite <- (firstn_skipn len l) in E.
  set (F := firstn len l) in *. set (S := skipn len l) in *.
  assert (length F = len) as LF by (unfold F; rewrite firstn_length; lia).
  assert (swap (F ++ S) i j = (do f <- swap F i j; Ok (f ++ S))) as Eq.
  { unfold swap. rewrite !nth_error_app1 by lia. destruct (nth_error F i); cbn [bind]; auto. destruct (nth_error F j); cbn [bind]; auto.
    rewrite upd_app1 by lia. rewrite upd_app1 by (rewrite upd_length; lia). auto. }
  rewrite Eq in E. destruct (swap F i j) as [f| | |] eqn:Ef; cbn [bind] in E; try discriminate. injection E as <-.
  destruct (swap_perm _ _ _ _ _ Ef) as (P & Lf). rewrite firstn_app_len, skipn_app_len by lia. split; auto. split; auto.
  rewrite app_length, Lf. unfold F, S. rewrite <- app_length, firstn_skipn. auto.
Qed.

Section C.
  Variable sorter : nat -> list sref -> list sref.
  Hypothesis sorter_perm : forall a l, Permutation (sorter a l) l.
  Variables (prims : list tri) (lsize : nat) (th : f32).

  Lemma classify_perm : forall axis pos len k w i le rb L R w' le' rb' L' R',
    i + k = rb -> le <= i -> rb <= len -> len <= length w ->
    classify axis pos k w i le rb L R = Ok (w', le', rb', L', R') ->
    Permutation (firstn len w') (firstn len w) /\ skipn len w' = skipn len w /\ length w' = length w /\ le' <= rb' <= rb.
  Proof.
    intros axis pos len. induction k as [|k IH]; intros w i le rb L R w' le' rb' L' R' E1 E2 E3 E4 E; cbn [classify] in E.
    - injection E as <- <- <- <- <-. repeat split; auto; lia.
    - destruct (get w i) as [r| | |] eqn:Er; cbn [bind] in E; try discriminate.
      destruct (fle _ pos).
      { destruct (swap w i le) as [w1| | |] eqn:Es; cbn [bind] in E; try discriminate.
        apply (swap_in_window _ _ _ len) in Es as (P & S & Ll); try lia.
        apply IH in E as (P' & S' & Ll' & B); try lia. rewrite P', S', Ll'. repeat split; auto; lia. }
      destruct (fge _ pos).
      { destruct (swap w i (rb - 1)) as [w1| | |] eqn:Es; cbn [bind] in E; try discriminate.
        apply (swap_in_window _ _ _ len) in Es as (P & S & Ll); try lia.
        apply IH in E as (P' & S' & Ll' & B); try lia. rewrite P', S', Ll'. repeat split; auto; lia. }
      apply IH in E as (P' & S' & Ll' & B); try lia. repeat split; auto; lia.
  Qed.

  Lemma straddle_parts : forall axis pos k A B C D lc rc L R w' rb' re' L' R',
    length B = k ->
    straddle prims axis pos k (A ++ B ++ C ++ D) (length A) (length A + length B) (length A + length B + length C) lc rc L R
      = Ok (w', rb', re', L', R') ->
    NoDup (pr (A ++ B)) -> NoDup (pr (B ++ C)) ->
    exists A' C' D', w' = A' ++ C' ++ D' /\ rb' = length A' /\ re' = length A' + length C' /\
      NoDup (pr A') /\ NoDup (pr C') /\ forall p, In p (pr (A ++ B ++ C)) -> In p (pr A') \/ In p (pr C').
  Proof.
    intros axis pos. induction k as [|k IH]; intros A B C D lc rc L R w' rb' re' L' R' Lb E N1 N2; cbn [straddle] in E.
    - injection E as <- <- <- <- <-. destruct B; [|discriminate Lb]. simpl in *. rewrite app_nil_r in N1.
      exists A, C, D. rewrite Nat.add_0_r. repeat split; auto. intros p Hp. rewrite pr_app in Hp. apply in_app_or in Hp. auto.
    - destruct B as [|b B]; [discriminate Lb|]. injection Lb as Lb. cbn [app] in E.
      unfold get in E. rewrite nth_at in E. cbn [bind] in E.
      destruct (nth_error prims (s_prim b)) as [t|]; cbn [bind] in E; [|discriminate E].
      destruct (tri_split t axis pos) as [lbx rbx].
      assert (forall p, In p (pr (A ++ (b :: B) ++ C)) <-> In p (pr A) \/ p = s_prim b \/ In p (pr B) \/ In p (pr C)) as Mem.
      { intro p. cbn [app]. rewrite pr_app. cbn [pr map]. fold (pr (B ++ C)). rewrite pr_app. split.
        - intro I. apply in_app_or in I as [I|[I|I]]; auto. apply in_app_or in I as [I|I]; auto.
        - intros [I|[I|[I|I]]]; apply in_or_app; auto; right; [left; auto|right; apply in_or_app; auto|right; apply in_or_app; auto]. }
      rewrite pr_app in N1, N2. cbn [pr map] in N1, N2. fold (pr B) in N1, N2. change (map s_prim C) with (pr C) in N2. fold (pr A) in N1.
      destruct D as [|d D].
      + replace (0 <? length (A ++ b :: B ++ C ++ []) - (length A + length (b :: B) + length C)) with false in E
          by (symmetry; apply Nat.ltb_ge; rewrite !app_length; simpl; rewrite !app_length; simpl; lia).
        destruct (lc <? rc).
        * (* goes left *)
          change (A ++ b :: B ++ C ++ []) with (A ++ [b] ++ B ++ C ++ []) in E. rewrite app_assoc in E.
          replace (S (length A)) with (length (A ++ [b])) in E by (rewrite app_length; simpl; lia).
          replace (length A + length (b :: B)) with (length (A ++ [b]) + length B) in E by (rewrite app_length; simpl; lia).
          apply IH in E as (A' & C' & D' & -> & -> & -> & M1 & M2 & M3); auto.
          -- exists A', C', D'. repeat split; auto. intros p Hp. apply M3. rewrite !pr_app. apply Mem in Hp.
             rewrite !in_app_iff. simpl. intuition.
          -- rewrite !pr_app, <- app_assoc. exact N1.
          -- rewrite pr_app. inversion N2; auto.
        * (* goes right *)
          cbn [length] in E. destruct (swap _ _ _) as [w1| | |] eqn:Es; cbn [bind] in E; try discriminate E.
          assert (exists B', length B' = length B /\ Permutation B' B /\ w1 = A ++ B' ++ (b :: C) ++ []) as (B' & LB & PB & ->).
          { destruct B as [|z mid _] using rev_ind.
            - exists []. split; auto. split; auto. cbn [app length] in *. replace (length A + 1 - 1) with (length A) in Es by lia.
              unfold swap in Es. rewrite !nth_at in Es. rewrite !upd_at in Es. injection Es as <-. auto.
            - exists (z :: mid). rewrite app_length. cbn [length]. split; [lia|]. split; [apply Permutation_cons_append|].
              rewrite app_length in Es. cbn [length] in Es.
              replace (length A + S (length mid + 1) - 1) with (length (A ++ b :: mid)) in Es by (rewrite app_length; simpl; lia).
              assert (A ++ b :: (mid ++ [z]) ++ C ++ [] = (A ++ b :: mid) ++ z :: C ++ []) as Ew.
              { rewrite <- !app_assoc. cbn [app]. rewrite <- ?app_assoc. reflexivity. }
              unfold swap in Es. rewrite Ew in Es. rewrite nth_at in Es. rewrite <- Ew in Es at 1. rewrite nth_at in Es.
              rewrite upd_at in Es. rewrite <- app_assoc in Es. cbn [app] in Es. rewrite upd_at in Es. injection Es as <-. cbn [app]. reflexivity. }
          replace (length A + S (length B) - 1) with (length A + length B') in E by lia.
          replace (length A + S (length B) + length C) with (length A + length B' + length (b :: C)) in E by (simpl; lia).
          assert (Permutation (pr B') (pr B)) as PB' by (apply Permutation_map; auto).
          apply IH in E as (A' & C' & D' & -> & -> & -> & M1 & M2 & M3); try lia.
          -- exists A', C', D'. repeat split; auto. intros p Hp. apply M3. rewrite !pr_app. apply Mem in Hp.
             rewrite !in_app_iff. simpl. destruct Hp as [H|[H|[H|H]]]; auto. right. left. eapply Permutation_in; [symmetry; eauto|auto].
          -- rewrite pr_app. eapply Permutation_NoDup; [apply Permutation_app_head; symmetry; exact PB'|].
             eapply NoDup_remove_1. exact N1.
          -- rewrite pr_app. cbn [pr map]. change (map s_prim C) with (pr C).
             eapply Permutation_NoDup; [|exact N2]. rewrite PB'. apply Permutation_middle.
      + replace (0 <? length (A ++ b :: B ++ C ++ d :: D) - (length A + length (b :: B) + length C)) with true in E
          by (symmetry; apply Nat.ltb_lt; rewrite !app_length; simpl; rewrite !app_length; simpl; lia).
        set (x := Sr (shrink rbx (s_box b)) _ _) in E.
        set (y := Sr (shrink lbx (s_box b)) _ _) in E.
        assert (A ++ b :: B ++ C ++ d :: D = (A ++ b :: B ++ C) ++ d :: D) as Ew.
        { rewrite <- !app_assoc. cbn [app]. rewrite <- ?app_assoc. reflexivity. }
        assert (length A + length (b :: B) + length C = length (A ++ b :: B ++ C)) as El.
        { rewrite app_length. cbn [length]. rewrite app_length. lia. }
        unfold set in E. rewrite Ew, El in E.
        replace (length (A ++ b :: B ++ C) <? length ((A ++ b :: B ++ C) ++ d :: D)) with true in E
          by (symmetry; apply Nat.ltb_lt; rewrite (app_length (A ++ b :: B ++ C)); simpl; lia).
        cbn [bind] in E. rewrite upd_at in E.
        replace (length A <? length ((A ++ b :: B ++ C) ++ x :: D)) with true in E
          by (symmetry; apply Nat.ltb_lt; rewrite !app_length; simpl; lia).
        cbn [bind] in E. rewrite <- app_assoc in E. cbn [app] in E. rewrite upd_at in E.
        assert (A ++ y :: (B ++ C) ++ x :: D = (A ++ [y]) ++ B ++ (C ++ [x]) ++ D) as Ew2.
        { rewrite <- !app_assoc. reflexivity. }
        rewrite Ew2 in E. replace (S (length A)) with (length (A ++ [y])) in E by (rewrite app_length; simpl; lia).
        replace (length A + length (b :: B)) with (length (A ++ [y]) + length B) in E by (rewrite app_length; simpl; lia).
        replace (S (length (A ++ b :: B ++ C))) with (length (A ++ [y]) + length B + length (C ++ [x])) in E
          by (rewrite <- El, !app_length; simpl; lia).
        assert (s_prim x = s_prim b /\ s_prim y = s_prim b) as (Px & Py) by (split; reflexivity). clearbody x y.
        apply IH in E as (A' & C' & D' & -> & -> & -> & M1 & M2 & M3); auto.
        * exists A', C', D'. repeat split; auto. intros p Hp. apply M3. rewrite !pr_app. apply Mem in Hp.
          rewrite !in_app_iff. simpl. rewrite Py. intuition.
        * rewrite !pr_app, <- app_assoc. cbn [pr map app]. rewrite Py. exact N1.
        * rewrite !pr_app. cbn [pr map]. rewrite Px. eapply Permutation_NoDup; [|exact N2].
          rewrite app_assoc. apply Permutation_cons_append.
  Qed.

  (** The first [len] references of every axis name exactly the primitives
      [P], each once. *)
  Definition names (P : list nat) (len : nat) (w : per_axis (list sref)) : Prop :=
    NoDup P /\ all3 (fun l => Permutation (pr (firstn len l)) P) w.
  Definition halves (P : list nat) (rb re : nat) (w : per_axis (list sref)) : Prop :=
    exists P1 P2, names P1 rb w /\ names P2 (re - rb) (map3 (skipn rb) w) /\ incl P (P1 ++ P2).

  Lemma sort_names : forall P len w, all3 (fun l => len <= length l) w -> names P len w -> names P len (sort_refs sorter len w).
  Proof.
    intros P len w (L0 & L1 & L2) (N & H0 & H1 & H2). split; auto.
    assert (forall a l, len <= length l -> Permutation (pr (firstn len l)) P -> Permutation (pr (firstn len (sorter a (firstn len l) ++ skipn len l))) P) as G.
    { intros a l L H. rewrite firstn_app_len; [|rewrite (Permutation_length (sorter_perm _ _)), firstn_length; lia].
      rewrite <- H. apply Permutation_map. apply sorter_perm. }
    split; [exact (G 0 _ L0 H0)|split; [exact (G 1 _ L1 H1)|exact (G 2 _ L2 H2)]].
  Qed.

  Lemma filter_all : forall A (f : A -> bool) l, (forall x, In x l -> f x = true) -> filter f l = l.
  Proof. induction l as [|h t IH]; intros H; simpl; auto. rewrite H by (simpl; auto). f_equal. apply IH. intros. apply H. simpl; auto. Qed.
  Lemma filter_none : forall A (f : A -> bool) l, (forall x, In x l -> f x = false) -> filter f l = [].
  Proof. induction l as [|h t IH]; intros H; simpl; auto. rewrite H by (simpl; auto). apply IH. intros. apply H. simpl; auto. Qed.
  Lemma filter_perm : forall A (f : A -> bool) l l', Permutation l l' -> Permutation (filter f l) (filter f l').
  Proof.
    intros A f l l' P. induction P; simpl; auto.
    - destruct (f x); auto.
    - destruct (f x), (f y); auto. apply perm_swap.
    - etransitivity; eauto.
  Qed.
  Lemma pr_filter : forall f l, pr (filter (fun r => f (s_prim r)) l) = filter f (pr l).
  Proof. induction l as [|r l IH]; simpl; auto. destruct (f (s_prim r)); simpl; rewrite IH; auto. Qed.
  Lemma existsb_prim : forall l p, existsb (fun r => s_prim r =? p) l = true <-> In p (pr l).
  Proof.
    intros l p. rewrite existsb_exists. unfold pr. rewrite in_map_iff. split; intros (r & H1 & H2); exists r.
    - apply Nat.eqb_eq in H2. auto.
    - split; auto. apply Nat.eqb_eq. auto.
  Qed.
  Lemma marked_spec : forall l index p, NoDup (pr l) ->
    (In p (pr (firstn index l)) -> marked l index p = true) /\ (In p (pr (skipn index l)) -> marked l index p = false).
  Proof.
    intros l index p N. rewrite <- (firstn_skipn index l), pr_app in N. unfold marked. split; intro I.
    - rewrite (proj2 (existsb_prim _ _) I). destruct (existsb _ (skipn index l)) eqn:E; auto.
      apply existsb_prim in E. exfalso. eapply nodup_disj; eauto.
    - rewrite (proj2 (existsb_prim _ _) I). simpl. apply andb_false_r.
  Qed.

  Lemma object_names : forall P len w axis index bl br w' c, all3 (fun l => len <= length l) w -> names P len w ->
    apply_object_split len w axis index bl br = Ok (w', c) ->
    c_right_begin c = index /\ c_right_end c = len /\ halves P index len w'.
  Proof.
    intros P len w axis index bl br w' c L (N & H) E. unfold apply_object_split in E.
    destruct (Nat.ltb_spec index len) as [Li|Li]; cbn [negb] in E; [|discriminate]. cbv zeta in E.
    pose proof (all3_pick _ _ _ axis L) as La. pose proof (all3_pick _ _ _ axis H) as Ha. cbv beta in La, Ha.
    set (x := firstn len (pick w axis)) in *.
    assert (length x = len) as Lx by (unfold x; rewrite firstn_length; lia).
    assert (NoDup (pr x)) as Nx by (eapply Permutation_NoDup; [symmetry; eauto|auto]).
    set (mark := marked x index) in *.
    set (P1 := pr (firstn index x)). set (P2 := pr (skipn index x)).
    assert (pr x = P1 ++ P2) as Ex by (unfold P1, P2; rewrite <- pr_app, firstn_skipn; auto).
    assert (filter mark (pr x) = P1 /\ filter (fun p => negb (mark p)) (pr x) = P2) as (F1 & F2).
    { rewrite Ex, !filter_app. split.
      - rewrite filter_all, filter_none, app_nil_r; auto; intros p Ip; apply (marked_spec x index p Nx); auto.
      - rewrite filter_none, filter_all; auto; intros p Ip; unfold mark;
          [rewrite (proj2 (marked_spec x index p Nx) Ip)|rewrite (proj1 (marked_spec x index p Nx) Ip)]; auto. }
    assert (forall l, len <= length l -> Permutation (pr (firstn len l)) P ->
      Permutation (pr (firstn index (partition_marked mark (firstn len l) ++ skipn len l))) P1 /\
      Permutation (pr (firstn (len - index) (skipn index (partition_marked mark (firstn len l) ++ skipn len l)))) P2) as Part.
    { intros l Ll Hl. unfold partition_marked.
      assert (Permutation (pr (filter (fun r => mark (s_prim r)) (firstn len l))) P1) as Q1
        by (rewrite pr_filter, <- F1; apply filter_perm; rewrite Hl; symmetry; exact Ha).
      assert (Permutation (pr (filter (fun r => negb (mark (s_prim r))) (firstn len l))) P2) as Q2
        by (rewrite (pr_filter (fun p => negb (mark p))), <- F2; apply filter_perm; rewrite Hl; symmetry; exact Ha).
      assert (length (filter (fun r => mark (s_prim r)) (firstn len l)) = index) as L1.
      { apply Permutation_length in Q1. unfold P1, pr in Q1. rewrite !map_length in Q1. rewrite Q1, firstn_length. lia. }
      assert (length (filter (fun r => negb (mark (s_prim r))) (firstn len l)) = len - index) as L2.
      { apply Permutation_length in Q2. unfold P2, pr in Q2. rewrite !map_length in Q2. rewrite Q2, skipn_length. lia. }
      rewrite <- app_assoc. rewrite firstn_app_len, skipn_app_len by auto. rewrite firstn_app_len by auto. auto. }
    assert (forall a l, len <= length l -> Permutation (pr (firstn len l)) P -> (a = axis -> l = pick w axis) ->
      let l' := if a =? axis then l else partition_marked mark (firstn len l) ++ skipn len l in
      Permutation (pr (firstn index l')) P1 /\ Permutation (pr (firstn (len - index) (skipn index l'))) P2) as G.
    { intros a l Ll Hl Ea. cbv zeta. destruct (Nat.eqb_spec a axis) as [Eq|Ne]; [|apply Part; auto].
      rewrite (Ea Eq). unfold P1, P2, x. rewrite firstn_firstn, Nat.min_l by lia. split; auto.
      rewrite skipn_firstn_comm. auto. }
    destruct L as (L0 & L1 & L2), H as (H0 & H1 & H2).
    injection E as <- <-.
    cbn [fst snd c_right_begin c_right_end]. split; auto. split; auto. exists P1, P2. split; [|split].
    - split; [unfold P1; rewrite Ex in Nx; eapply nodup_l; eauto|].
      split; [|split]; cbn [pick]; [apply (G 0)|apply (G 1)|apply (G 2)]; auto; intros <-; auto.
    - split; [rewrite Ex in Nx; apply (Permutation_NoDup (Permutation_app_comm _ _)) in Nx; eapply nodup_l; eauto|].
      unfold map3. split; [|split]; cbn [pick]; [apply (G 0)|apply (G 1)|apply (G 2)]; auto; intros <-; auto.
    - rewrite <- Ex. intros p Ip. eapply Permutation_in; [symmetry; exact Ha|auto].
  Qed.

  Lemma spatial_names : forall P begin len w split w' c, all3 (fun l => len <= length l) w -> names P len w ->
    apply_spatial_split prims begin len w split = Ok (w', c) ->
    c_right_begin c <= c_right_end c /\ halves P (c_right_begin c) (c_right_end c) w'.
  Proof.
    intros P begin len w split w' c L (N & H) E. unfold apply_spatial_split in E.
    pose proof (all3_pick _ _ _ (ss_axis split) L) as La. pose proof (all3_pick _ _ _ (ss_axis split) H) as Ha. cbv beta in La, Ha.
    destruct (classify _ _ _ _ _ _ _ _ _) as [[[[[w1 le1] rb1] L1] R1]| | |] eqn:E1; cbn [bind] in E; try discriminate.
    apply (classify_perm _ _ len) in E1 as (P1 & S1 & Ll1 & B1); try lia.
    destruct (fallback _ _ _ _ _ _ _) as [[[[le2 rb2] L2] R2]| | |] eqn:E2; cbn [bind] in E; try discriminate.
    apply fallback_ok in E2; [|lia].
    destruct (straddle _ _ _ _ _ _ _ _ _ _ _ _) as [[[[[w3 rb3] re3] L3] R3]| | |] eqn:E3; cbn [bind] in E; try discriminate.
    set (A := firstn le2 w1). set (B := firstn (rb2 - le2) (skipn le2 w1)). set (C := firstn (len - rb2) (skipn rb2 w1)).
    set (D := skipn len w1).
    assert (length A = le2) as LA by (unfold A; rewrite firstn_length; lia).
    assert (length B = rb2 - le2) as LB by (unfold B; rewrite firstn_length, skipn_length; lia).
    assert (length C = len - rb2) as LC by (unfold C; rewrite firstn_length, skipn_length; lia).
    assert (firstn len w1 = A ++ B ++ C) as Ef.
    { unfold A, B, C. clear - E2 Ll1 La. apply nth_error_eq.
      - rewrite !app_length, !firstn_length, !skipn_length. lia.
      - intros j Lj. rewrite firstn_length in Lj.
        change (firstn len w1) with (window w1 0 len). change (firstn le2 w1) with (window w1 0 le2).
        change (firstn (rb2 - le2) (skipn le2 w1)) with (window w1 le2 (rb2 - le2)).
        change (firstn (len - rb2) (skipn rb2 w1)) with (window w1 rb2 (len - rb2)).
        assert (length (window w1 0 le2) = le2) as X1 by (apply window_length; lia).
        assert (length (window w1 le2 (rb2 - le2)) = rb2 - le2) as X2 by (apply window_length; lia).
        rewrite window_nth by lia. cbn [plus].
        destruct (Nat.lt_ge_cases j le2) as [Q|Q]; [rewrite nth_error_app1 by lia; rewrite window_nth by lia; auto|].
        rewrite nth_error_app2 by lia. rewrite X1.
        destruct (Nat.lt_ge_cases j rb2) as [Q'|Q']; [rewrite nth_error_app1 by lia; rewrite window_nth by lia; f_equal; lia|].
        rewrite nth_error_app2 by lia. rewrite X2. rewrite window_nth by lia. f_equal; lia. }
    assert (w1 = A ++ B ++ C ++ D) as Ew by (rewrite <- (firstn_skipn len w1), Ef; unfold D; rewrite <- !app_assoc; auto).
    assert (Permutation (pr (A ++ B ++ C)) P) as PP.
    { rewrite <- Ef. rewrite <- Ha. apply Permutation_map. auto. }
    assert (NoDup (pr (A ++ B ++ C))) as NN by (eapply Permutation_NoDup; [symmetry; exact PP|auto]).
    rewrite Ew in E3.
    replace (rb2 - le2) with (length B) in E3 by auto.
    replace le2 with (length A) in E3 by auto.
    replace rb2 with (length A + length B) in E3 by lia.
    replace len with (length A + length B + length C) in E3 at 1 by lia.
    replace (length A + length B - length A) with (length B) in E3 by lia.
    apply straddle_parts in E3 as (A' & C' & D' & Ew3 & -> & -> & N1 & N2 & Mem); auto;
      [|rewrite app_assoc, pr_app in NN; eapply nodup_l; eauto
       |rewrite pr_app in NN; apply (Permutation_NoDup (Permutation_app_comm _ _)) in NN; eapply nodup_l; eauto].
    injection E as <- <-.
    cbn [fst snd c_right_begin c_right_end]. split; [lia|].
    exists (pr A'), (pr C'). replace (length A' + length C' - length A') with (length C') by lia.
    assert (forall a l, let l' := if a =? ss_axis split then w3 else firstn (length A' + length C') w3 ++ skipn (length A' + length C') l in
      firstn (length A') l' = A' /\ firstn (length C') (skipn (length A') l') = C') as G.
    { intros a l. cbv zeta. assert (exists X, (if a =? ss_axis split then w3 else firstn (length A' + length C') w3 ++ skipn (length A' + length C') l) = A' ++ C' ++ X) as (X & ->).
      { destruct (a =? ss_axis split); [exists D'; auto|]. eexists. rewrite Ew3, app_assoc. rewrite firstn_app_len by (apply app_length).
        rewrite <- app_assoc. reflexivity. }
      rewrite firstn_app_len, skipn_app_len by auto. rewrite firstn_app_len by auto. auto. }
    split; [|split].
    - split; auto. split; [|split]; cbn [pick];
      match goal with |- Permutation (pr ?x) _ => replace x with A'; [auto|symmetry] end;
      [exact (proj1 (G 0 (pick w 0)))|exact (proj1 (G 1 (pick w 1)))|exact (proj1 (G 2 (pick w 2)))].
    - split; auto. unfold map3. split; [|split]; cbn [pick];
      match goal with |- Permutation (pr ?x) _ => replace x with C'; [auto|symmetry] end;
      [exact (proj2 (G 0 (pick w 0)))|exact (proj2 (G 1 (pick w 1)))|exact (proj2 (G 2 (pick w 2)))].
    - intros p Ip. apply in_or_app. apply Mem. eapply Permutation_in; [symmetry; exact PP|auto].
  Qed.

  Notation plan := (plan_task sorter prims lsize th).
  Notation stree := (seq_tree sorter prims lsize th).

  Lemma plan_names : forall P t bounds w w' d, all3 (fun l => w_size t <= length l) w -> names P (w_size t) w ->
    plan t bounds w = Ok (w', d) ->
    match d with
    | Leaf => names P (w_size t) w'
    | Divide c => c_right_begin c <= c_right_end c /\ halves P (c_right_begin c) (c_right_end c) w'
    end.
  Proof.
    intros P t bounds w w' d L H E. unfold plan_task in E.
    destruct ((w_size t <=? 1) || (MAX_DEPTH <=? w_depth t)); [injection E as <- <-; auto|].
    assert (names P (w_size t) (if w_sorted t then w else sort_refs sorter (w_size t) w)) as H1
      by (destruct (w_sorted t); auto; apply sort_names; auto).
    assert (all3 (fun l => w_size t <= length l) (if w_sorted t then w else sort_refs sorter (w_size t) w)) as L1.
    { destruct (w_sorted t); auto. destruct L as (L0 & L1 & L2).
      assert (forall a l, w_size t <= length l -> w_size t <= length (sorter a (firstn (w_size t) l) ++ skipn (w_size t) l)) as G.
      { intros a l Ll. rewrite app_length, (Permutation_length (sorter_perm _ _)), <- app_length, firstn_skipn. auto. }
      split; [exact (G 0 _ L0)|split; [exact (G 1 _ L1)|exact (G 2 _ L2)]]. }
    revert E. set (w1 := if w_sorted t then w else sort_refs sorter (w_size t) w) in *. clearbody w1. cbv zeta.
    destruct (if _ && _ then _ else _) as [ss| | |]; cbn [bind]; try discriminate.
    destruct (fge _ _).
    { destruct (lsize <? w_size t); [|intro E; injection E as <- <-; auto].
      destruct (apply_object_split _ _ _ _ _ _) as [[w2 c]| | |] eqn:E2; cbn [bind]; try discriminate.
      intro E; injection E as <- <-. pose proof E2 as E3. apply (object_names P) in E2; auto. destruct E2 as (-> & -> & Hv). split; auto.
      unfold apply_object_split in E3. destruct (Nat.ltb_spec (w_size t / 2) (w_size t)); [lia|discriminate E3]. }
    destruct (flt _ _).
    { destruct (apply_spatial_split _ _ _ _ _) as [[w2 c]| | |] eqn:E2; cbn [bind]; try discriminate.
      intro E; injection E as <- <-. apply (spatial_names P) in E2; auto. }
    destruct (o_index _) as [ix|]; [|intro E; injection E as <- <-; auto].
    destruct (apply_object_split _ _ _ _ _ _) as [[w2 c]| | |] eqn:E2; cbn [bind]; try discriminate.
    intro E; injection E as <- <-. pose proof E2 as E3. apply (object_names P) in E2; auto. destruct E2 as (-> & -> & Hv). split; auto.
    unfold apply_object_split in E3. destruct (Nat.ltb_spec ix (w_size t)); [lia|discriminate E3].
  Qed.

  Lemma move_keeps : forall l rb re sh l', rb <= re -> re <= length l -> move_right l rb re sh = Ok l' ->
    (sh <= 0)%Z \/ (Z.of_nat (re - rb) <= sh)%Z -> length l' = length l /\ firstn re l' = firstn re l.
  Proof.
    intros l rb re sh l' B L E H. unfold move_right in E. destruct (Z.ltb_spec 0 sh) as [P|P]; [|injection E as <-; auto].
    destruct (Z.ltb_spec (Z.of_nat (length l)) (Z.of_nat re + sh)) as [Q|Q]; [discriminate E|].
    destruct (move_backward_spec _ l rb (re - rb) (re + Z.to_nat sh) (S (length l))) as (l2 & E' & Ll & _ & Out); try lia.
    replace (rb + (re - rb)) with re in E' by lia. rewrite E' in E. cbn [bind] in E. injection E as ->. split; auto.
    change (window l' 0 re = window l 0 re). apply window_same; auto. intros i Hi. apply Out. lia.
  Qed.
  Lemma move3_keeps : forall w rb re sh w', rb <= re -> all3 (fun l => re <= length l) w -> move3 w rb re sh = Ok w' ->
    (sh <= 0)%Z \/ (Z.of_nat (re - rb) <= sh)%Z ->
    forall a, length (pick w' a) = length (pick w a) /\ firstn re (pick w' a) = firstn re (pick w a).
  Proof.
    intros w rb re sh w' B (L0 & L1 & L2) E H a. unfold move3 in E.
    destruct (move_right (pick w 0) rb re sh) as [x0| | |] eqn:E0; cbn [bind] in E; try discriminate E.
    destruct (move_right (pick w 1) rb re sh) as [x1| | |] eqn:E1; cbn [bind] in E; try discriminate E.
    destruct (move_right (pick w 2) rb re sh) as [x2| | |] eqn:E2; cbn [bind] in E; try discriminate E.
    injection E as <-. destruct w as [[y0 y1] y2].
    destruct a as [|[|a]]; cbn [pick] in *; eapply move_keeps; eauto.
  Qed.

  Lemma names_ext : forall P len w w', (forall a, firstn len (pick w' a) = firstn len (pick w a)) -> names P len w -> names P len w'.
  Proof. intros P len w w' H (N & H0 & H1 & H2). split; auto. split; [|split]; rewrite H; auto. Qed.

  Variable n : nat.
  Lemma seq_complete : forall k t bounds w W P T, w_size t <= W -> W = w_split_end t - w_begin t -> w_begin t <= w_end t ->
    all3 (okw n W) w -> names P (w_size t) w -> stree k t bounds w = Ok T -> harmless T -> incl P (a_prims T).
  Proof.
    induction k as [|k IH]; intros t bounds w W P T LW EW LB O Nm E Hm; rewrite stree_eq in E;
      (destruct (plan t bounds w) as [[w1 d]| | |] eqn:Ep; cbn [bind] in E; try discriminate E);
      (destruct (plan_ok sorter sorter_perm prims lsize n th W _ _ _ _ _ LW O Ep) as (Ow & Od));
      (assert (all3 (fun l => w_size t <= length l) w) as Lw by (eapply all3_imp; [|exact O]; intros x (-> & _); auto));
      pose proof (plan_names P t bounds w w1 d Lw Nm Ep) as Pn.
    - destruct d as [|c]; [|discriminate E].
      match type of E with Ok ?x = Ok _ => assert (T = x) as -> by congruence end. cbn [a_prims].
      intros p Ip. destruct Pn as (_ & P0 & _). eapply Permutation_in; [symmetry; exact P0|auto].
    - destruct d as [|c].
      { match type of E with Ok ?x = Ok _ => assert (T = x) as -> by congruence end. cbn [a_prims].
        intros p Ip. destruct Pn as (_ & P0 & _). eapply Permutation_in; [symmetry; exact P0|auto]. }
      destruct Od as (Crb & Cre & Hd & H2). destruct Pn as (Crr & P1 & P2 & N1 & N2 & Inc).
      set (rb := c_right_begin c) in *. set (re := c_right_end c) in *.
      set (sh := left_split_count (w_split_end t - (w_begin t + re)) c) in *.
      assert (rb <= W) as LrbW by lia.
      pose proof (move3_window n w1 0 W rb re sh) as Mv.
      destruct Ow as ((L0 & F0) & (L1 & F1) & (L2 & F2)).
      specialize (Mv ltac:(split; [|split]; lia) ltac:(lia) ltac:(lia) ltac:(intros _; split; [|split]; lia)).
      assert (map3 (fun l => window l 0 W) w1 = w1) as Ew1.
      { unfold map3. rewrite <- L0 at 1. rewrite <- L1 at 1. rewrite <- L2 at 1. rewrite !window_all. destruct w1 as [[x y] z]; auto. }
      rewrite Ew1 in Mv.
      destruct (move3 w1 rb re sh) as [w2| | |] eqn:Em; cbn [bind] in E; try discriminate E.
      destruct Mv as (_ & (M0 & M1 & M2) & Sm). destruct Sm as (S0 & S1 & S2); [repeat split; auto|].
      assert (forall l, length l = W -> small n l -> okw n rb (firstn rb l) /\ okw n (W - rb) (skipn rb l)) as G.
      { intros l Ll Sl. unfold small in Sl. rewrite <- (firstn_skipn rb l) in Sl. apply Forall_app in Sl as (Sa & Sb).
        split; split; auto; [rewrite firstn_length|rewrite skipn_length]; lia. }
      destruct (G _ M0 S0) as (G0 & H0). destruct (G _ M1 S1) as (G1 & H1). destruct (G _ M2 S2) as (G2 & H2').
      match type of E with bind ?x _ = _ => destruct x as [Tl| | |] eqn:El; cbn [bind] in E; try discriminate E end.
      match type of E with bind ?x _ = _ => destruct x as [Tr| | |] eqn:Er; cbn [bind] in E; try discriminate E end.
      match type of E with Ok ?x = Ok _ => assert (T = x) as -> by congruence end. clear E.
      cbn [harmless] in Hm. destruct Hm as (Hs & Hl & Hr).
      assert (all3 (fun l => re <= length l) w1) as Lre by (split; [|split]; lia).
      pose proof (move3_keeps w1 rb re sh w2 ltac:(lia) Lre Em Hs) as Keep.
      apply (IH _ _ _ rb P1) in El; cbn [w_size w_begin w_end w_split_end]; try lia;
        [|unfold w_size; cbn [w_begin w_end]; lia|repeat split; first [apply G0|apply G1|apply G2]| |auto].
      2:{ unfold w_size. cbn [w_begin w_end]. replace (w_begin t + rb - w_begin t) with rb by lia.
          destruct N1 as (Nd1 & A0 & A1 & A2). split; auto.
          assert (forall a, firstn rb (firstn rb (pick w2 a)) = firstn rb (pick w1 a)) as X.
          { intro a. rewrite firstn_firstn, Nat.min_id. destruct (Keep a) as (_ & Ka).
            rewrite <- (Nat.min_l rb re) by lia. rewrite <- !firstn_firstn. rewrite Ka. auto. }
          unfold map3. split; [|split]; cbn [pick]; rewrite X; auto. }
      apply (IH _ _ _ (W - rb) P2) in Er; cbn [w_size w_begin w_end w_split_end]; try lia;
        [|unfold w_size; cbn [w_begin w_end]; lia|repeat split; first [apply H0|apply H1|apply H2']| |auto].
      2:{ unfold w_size. cbn [w_begin w_end]. replace (w_begin t + re - (w_begin t + rb)) with (re - rb) by lia.
          eapply names_ext; [|exact N2]. intro a.
          assert (forall a, pick (map3 (skipn rb) w2) a = skipn rb (pick w2 a)) as Y2 by (intros [|[|?]]; destruct w2 as [[? ?] ?]; auto).
          assert (forall a, pick (map3 (skipn rb) w1) a = skipn rb (pick w1 a)) as Y1 by (intros [|[|?]]; destruct w1 as [[? ?] ?]; auto).
          rewrite Y1, Y2. destruct (Keep a) as (_ & Ka). rewrite <- !skipn_firstn_comm. rewrite Ka. auto. }
      cbn [a_prims]. intros p Ip. apply Inc in Ip. apply in_app_or in Ip as [Ip|Ip]; apply in_or_app; auto.
  Qed.
End C.
