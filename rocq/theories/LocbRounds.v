(** * The cluster loop is locally ordered clustering (SpecLoc.v) *)
Require Import List ZArith Bool Arith NArith Lia Permutation Reals Lra.
From Flocq Require Import Core BinarySingleNaN.
From Verif Require Import F32 F32Facts Vec Base AabbModel NodeModel UtilsModel UtilsProofs SpecTree LocbModel LocbNN LocbMerge
  LocbForest LocbProofs SpecLoc.
Import ListNotations.
Local Open Scope nat_scope.

Section Best.
  Variable d : nat -> f32.
  (** The scan returns the first of the least distances below [f32::MAX], whatever the other distances are. *)
  Lemma bst_snoc : forall l x b, bst d (l ++ [x]) b = best_step x (d x) (bst d l b).
  Proof. intros. unfold bst. rewrite fold_left_app. reflexivity. Qed.
  Lemma bst_first : forall l,
    (bst d l (fMAX, None) = (fMAX, None) /\ (forall k, In k l -> flt (d k) fMAX = false)) \/
    (exists j l1 l2, bst d l (fMAX, None) = (d j, Some j) /\ l = l1 ++ j :: l2 /\ flt (d j) fMAX = true /\
      (forall k, In k l1 -> fle (d k) (d j) = false) /\ (forall k, In k l2 -> flt (d k) (d j) = false)).
  Proof.
    induction l as [|x l IH] using rev_ind.
    - left. split; auto. intros k [].
    - rewrite bst_snoc. unfold best_step. destruct IH as [(E & H)|(j & l1 & l2 & E & El & M & H1 & H2)]; rewrite E; cbn [fst].
      + destruct (flt (d x) fMAX) eqn:F.
        * right. exists x, l, []. split; auto. split; auto. split; auto. split.
          -- intros k Ik. specialize (H k Ik). apply not_true_iff_false. intro L.
             destruct (flt_notnan _ _ F) as [Nx Nm]. destruct (fle_notnan _ _ L) as [Nk _].
             apply flt_false in H; auto. apply flt_spec in F; auto. apply fle_spec in L; auto. lra.
          -- intros k [].
        * left. split; auto. intros k Ik. apply in_app_or in Ik as [Ik|[->|[]]]; auto.
      + destruct (flt (d x) (d j)) eqn:F.
        * right. exists x, l, []. split; auto. split; auto.
          destruct (flt_notnan _ _ F) as [Nx Nj]. destruct (flt_notnan _ _ M) as [_ Nm].
          pose proof (proj1 (flt_spec _ _ Nx Nj) F) as F'. pose proof (proj1 (flt_spec _ _ Nj Nm) M) as M'.
          split. { apply flt_spec; auto. lra. } split.
          -- intros k Ik. apply not_true_iff_false. intro L. destruct (fle_notnan _ _ L) as [Nk _].
             pose proof (proj1 (fle_spec _ _ Nk Nx) L) as L'.
             rewrite El in Ik. apply in_app_or in Ik as [Ik|[<-|Ik]].
             ++ specialize (H1 k Ik). apply not_true_iff_false in H1. apply H1. apply fle_spec; auto. lra.
             ++ lra.
             ++ specialize (H2 k Ik). apply flt_false in H2; auto. lra.
          -- intros k [].
        * right. exists j, l1, (l2 ++ [x]). split; auto. split. { rewrite El, <- app_assoc. reflexivity. }
          split; auto. split; auto. intros k Ik. apply in_app_or in Ik as [Ik|[->|[]]]; auto.
  Qed.
End Best.

Lemma shape_reloc : forall t p, shape_of (reloc t p) = shape_of t.
Proof. intros [i n|i n l r] p; reflexivity. Qed.
Lemma shape_box : forall t, cluster_box (shape_of t) = Bb (bmin (t_rec t)) 0 (bmax (t_rec t)) 0.
Proof. intros [i n|i n l r]; reflexivity. Qed.
Lemma union_shape : forall s t, union_of (cluster_box (shape_of s)) (cluster_box (shape_of t)) = union_of (t_rec s) (t_rec t).
Proof. intros s t. rewrite !shape_box. reflexivity. Qed.

Lemma filter_seq_shift : forall (p : nat -> bool) b c,
  filter p (seq b c) = map (fun i => b + i) (filter (fun i => p (b + i)) (seq 0 c)).
Proof.
  intros p b c. rewrite <- (Nat.add_0_r b) at 1. rewrite <- map_add_seq.
  induction (seq 0 c) as [|x l IH]; auto. cbn [map filter]. destruct (p (b + x)); cbn [map]; rewrite IH; auto.
Qed.

Section Rounds.
  Variable Q : tree -> Prop.
  Hypothesis QR : forall t p, Q t -> Q (reloc t p).
  Hypothesis QM : forall l r p q, Q l -> Q r ->
    Q (TNode p (set_left_first (set_count (union_of (t_rec r) (t_rec l)) None) (Some q)) l r).
  Variables (threads N n : nat).
  Hypothesis T1 : 1 <= threads.
  Hypothesis Nmax : (Z.of_nat N <= 2147483648)%Z.
  Let radius := window.
  Let R1 : 1 <= radius. Proof. unfold radius, window. lia. Qed.

  Section One.
    Variables (nodes : list aabb) (begin end_ : nat) (F : list tree).
    Hypothesis FI : finv Q N n nodes begin end_ F.
    Hypothesis Ln : length nodes = N.
    Hypothesis Le : end_ <= N.
    Hypothesis C2 : begin + 2 <= end_.
    Hypothesis Hb : begin + 1 = end_ - begin.
    Hypothesis HS : forall i, begin <= i < end_ -> nn radius nodes begin end_ i <> None.
    Notation nbf := (nb radius nodes begin end_).
    Notation Tr := (T begin F).
    Let row := map shape_of F.
    Let LF : length F = end_ - begin. Proof. exact (F_length Q N n nodes begin end_ F FI). Qed.

    Lemma row_length : length row = end_ - begin.
    Proof. unfold row. rewrite map_length. exact LF. Qed.
    Lemma row_at : forall i, i < end_ - begin -> at_pos row i = shape_of (Tr (begin + i)).
    Proof.
      intros i Hi. unfold at_pos, row, T. replace (begin + i - begin) with i by lia.
      rewrite (nth_indep _ _ (shape_of (TLeaf 0 aabb_new))) by (rewrite map_length; lia).
      apply map_nth.
    Qed.
    Lemma row_apart : forall i j, i < end_ - begin -> j < end_ - begin ->
      apart row i j = pair_d nodes (begin + i) (begin + j).
    Proof.
      intros i j Hi Hj. unfold apart, pair_d, distance.
      rewrite !row_at by lia. rewrite union_shape.
      pose proof (T_rec Q radius threads N n R1 T1 nodes begin end_ F FI Ln Le C2 Hb) as TR.
      rewrite !TR by lia.
      replace (begin + Nat.min i j) with (Nat.min (begin + i) (begin + j)) by lia.
      replace (begin + Nat.max i j) with (Nat.max (begin + i) (begin + j)) by lia. reflexivity.
    Qed.

    Lemma scan_sorted : forall i l1 j l2 k, begin <= i < end_ ->
      range (sb radius begin end_ i) i ++ range (i + 1) (se radius begin end_ i) = l1 ++ j :: l2 ->
      In k l2 -> j < k.
    Proof.
      intros i l1 j l2 k Hi E Ik.
      assert (forall l, (exists a b c d, l = seq a b ++ seq c d /\ a + b <= c) -> forall l1 j l2 k, l = l1 ++ j :: l2 -> In k l2 -> j < k) as G.
      { clear. intros l (a & b & c & d & -> & Lac). revert a Lac. induction b as [|b IH]; intros a Lac l1 j l2 k E Ik.
        - cbn [seq app] in E. clear Lac. revert c l1 E. induction d as [|d IHd]; intros c l1 E.
          + destruct l1; discriminate.
          + cbn [seq] in E. destruct l1 as [|x l1]; cbn [app] in E.
            * assert (c = j) by congruence. assert (seq (S c) d = l2) as E2 by congruence. subst l2. apply in_seq in Ik. lia.
            * assert (seq (S c) d = l1 ++ j :: l2) as E2 by congruence. eauto.
        - cbn [seq app] in E. destruct l1 as [|x l1]; cbn [app] in E.
          + assert (a = j) by congruence. assert (seq (S a) b ++ seq c d = l2) as E2 by congruence. subst l2.
            apply in_app_or in Ik as [Ik|Ik]; apply in_seq in Ik; lia.
          + assert (seq (S a) b ++ seq c d = l1 ++ j :: l2) as E2 by congruence. apply (IH (S a) ltac:(lia) _ _ _ _ E2 Ik). }
      apply (G _) with (l1 := l1) (l2 := l2) (2 := E); auto.
      pose proof (sb_bounds radius nodes begin end_ R1 ltac:(lia) i ltac:(lia)) as SB.
      unfold range. exists (sb radius begin end_ i), (i - sb radius begin end_ i), (i + 1), (se radius begin end_ i - (i + 1)).
      split; auto. lia.
    Qed.

    Lemma row_nearest : forall i, i < end_ - begin -> nearest_to row i (nbf (begin + i) - begin).
    Proof.
      intros i Hi. assert (begin <= begin + i < end_) as Hi' by lia.
      pose proof (range_in radius nodes begin end_ R1 ltac:(lia) (begin + i)) as RI.
      pose proof (HS (begin + i) Hi') as HN.
      unfold nb. unfold nn, best_of in *.
      set (l := range (sb radius begin end_ (begin + i)) (begin + i) ++ range (begin + i + 1) (se radius begin end_ (begin + i))) in *.
      fold (bst (pair_d nodes (begin + i)) l (fMAX, None)) in *.
      destruct (bst_first (pair_d nodes (begin + i)) l) as [(E & _)|(j & l1 & l2 & E & El & M & H1 & H2)];
        rewrite E in *; cbn [snd] in *; [congruence|].
      assert (In j l) as Ij by (rewrite El; apply in_elt).
      apply RI in Ij as (Nj & Hj & W1 & W2); auto.
      assert (forall k, In k l -> flt (pair_d nodes (begin + i) k) (pair_d nodes (begin + i) j) = false /\
                (k < j -> fle (pair_d nodes (begin + i) k) (pair_d nodes (begin + i) j) = false)) as H.
      { intros k Ik. pose proof Ik as Ik'. rewrite El in Ik. apply in_app_or in Ik as [Ik|[<-|Ik]].
        - specialize (H1 k Ik). split; auto. apply not_true_iff_false. intro L. apply flt_fle in L. congruence.
        - split; [apply flt_irrefl|lia].
        - split; auto. pose proof (scan_sorted (begin + i) l1 j l2 k Hi' El Ik). lia. }
      split; [|split].
      - unfold in_window. rewrite row_length. fold radius. lia.
      - rewrite row_apart by lia. replace (begin + (j - begin)) with j by lia. auto.
      - intros k (Nk & Lk & K1 & K2). rewrite row_length in Lk. fold radius in K1, K2.
        rewrite !row_apart by lia. replace (begin + (j - begin)) with j by lia.
        destruct (H (begin + k)) as [A B]; [apply RI; lia|].
        split; auto. intro L. apply B. lia.
    Qed.

    Lemma row_round : round row (map shape_of (F' radius nodes begin end_ F)).
    Proof.
      pose proof (Hnb radius threads N R1 T1 nodes begin end_ Ln Le C2 Hb HS) as Hn.
      exists (fun i => nbf (begin + i) - begin). split.
      { intros i Hi. apply row_nearest. rewrite <- row_length. auto. }
      unfold F', kepts, all. rewrite map_map. rewrite filter_seq_shift, map_map.
      rewrite row_length.
      assert (forall l, (forall i, In i l -> i < end_ - begin) ->
        map (fun x => shape_of (newtree radius nodes begin end_ F (begin + x))) (filter (fun i => kept nbf (begin + i)) l) =
        flat_map (becomes row (fun i => nbf (begin + i) - begin)) l) as G.
      { induction l as [|i l IH]; intro Hl; auto. cbn [filter flat_map].
        rewrite <- IH by (intros; apply Hl; simpl; auto). clear IH.
        assert (i < end_ - begin) as Hi by (apply Hl; simpl; auto).
        pose proof (Hn (begin + i) ltac:(lia)) as [Hj Nj].
        pose proof (Hn (nbf (begin + i)) Hj) as [Hk Nk].
        unfold kept, low, mutual, becomes, newtree, up, mutual.
        set (j := nbf (begin + i)) in *.
        replace (begin + (j - begin)) with j by lia.
        assert ((nbf j - begin =? i) = (nbf j =? begin + i)) as EQ.
        { destruct (Nat.eqb_spec (nbf j - begin) i), (Nat.eqb_spec (nbf j) (begin + i)); auto; lia. }
        rewrite EQ. destruct (nbf j =? begin + i) eqn:Mu.
        - destruct (Nat.ltb_spec (begin + i) j) as [L|L]; destruct (Nat.ltb_spec (j - begin) i) as [L'|L']; try lia; cbn [andb negb].
          + reflexivity.
          + cbn [map app]. f_equal. unfold up, mutual. fold j. rewrite Mu.
            replace (j <? begin + i) with true by (symmetry; apply Nat.ltb_lt; lia). cbn [andb].
            cbn [shape_of]. rewrite !shape_reloc. unfold joined.
            rewrite !row_at by lia. rewrite union_shape. replace (begin + (j - begin)) with j by lia.
            rewrite !(T_rec Q radius threads N n R1 T1 nodes begin end_ F FI Ln Le C2 Hb) by lia. reflexivity.
        - rewrite andb_false_r. cbn [negb map app]. f_equal. unfold up, mutual. fold j. rewrite Mu, andb_false_r.
          rewrite shape_reloc. rewrite row_at by lia. reflexivity. }
      apply G. intros i Hi. apply in_seq in Hi. lia.
    Qed.
  End One.

  Theorem loop_rounds : forall fuel nodes copy nbs mg begin end_ prev F out,
    finv Q N n nodes begin end_ F -> length nodes = N -> length copy = N -> N <= length nbs -> N <= length mg ->
    (Z.of_nat (length nbs) < 4294967295)%Z ->
    end_ <= prev -> prev <= N -> (forall p, prev <= p -> nth_error copy p = nth_error nodes p) ->
    begin + 1 = end_ - begin ->
    cluster_loop fuel radius threads nodes copy nbs mg begin end_ prev = Ok out ->
    length out = N /\ exists t k, finv Q N n out 0 1 [t] /\ k <= fuel /\ rounds k (map shape_of F) [shape_of t].
  Proof.
    induction fuel as [|fuel IH]; intros nodes copy nbs mg begin end_ prev F out FI Ln Lc Lnb Lmg Lmax Lp Lp' Hag Hb E;
      cbn [cluster_loop] in E; destruct (Nat.leb_spec (end_ - begin) 1) as [C|C].
    1, 3: injection E as <-; assert (begin = 0) by lia; assert (end_ = 1) by lia; subst begin end_;
        assert (length F = 1) as LF by (rewrite <- (map_length t_idx), (fi_idx _ _ _ _ _ _ _ FI); reflexivity);
        destruct F as [|t [|]]; try discriminate; split; auto; exists t, 0; split; auto; split; [lia|constructor].
    - discriminate.
    - destruct (nn_dec radius threads N R1 T1 nodes begin end_) as [HS|(i & Hi & Ei)].
      2: { rewrite (cluster_panic radius threads N R1 T1 nodes begin end_ copy nbs mg prev i) in E; auto; try lia. discriminate. }
      destruct (cluster_ok Q QR QM radius threads N n R1 T1 Nmax nodes begin end_ F FI Ln ltac:(lia) ltac:(lia) Hb HS copy nbs mg prev Lc Lnb Lmg Lp Lp' Hag)
          as (copy' & nbs' & mg' & E1 & Lc' & Lnb' & Lmg' & FI' & Hag' & Lx).
      pose proof (row_round nodes begin end_ F FI Ln ltac:(lia) ltac:(lia) Hb HS) as RR.
      rewrite E1 in E. cbn [bind] in E.
      pose proof (M_le radius threads N R1 T1 nodes begin end_ Ln ltac:(lia) ltac:(lia) Hb HS) as Ml.
      pose proof (Hnb radius threads N R1 T1 nodes begin end_ Ln ltac:(lia) ltac:(lia) Hb HS) as Hn.
      set (nbf := nb radius nodes begin end_) in *.
      pose proof (nbeg_cbeg begin end_ nbf ltac:(lia) Hn Ml) as NC.
      pose proof (two_M begin end_ nbf ltac:(lia) Hn) as TM.
      apply (IH copy' nodes nbs' mg' _ _ end_ _ _ FI') in E; auto; try lia.
      * destruct E as (Lo & t & k & Ft & Hk & Rk). split; auto. exists t, (S k). split; auto. split; [lia|].
        econstructor; eauto. rewrite map_length. rewrite (F_length Q N n nodes begin end_ F FI). lia.
      * unfold cbeg; lia.
      * intros p Hp. symmetry. auto.
      * unfold nbeg, cbeg in *; lia.
  Qed.
End Rounds.
