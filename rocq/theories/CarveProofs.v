(** * Which tree the binned-SAH builder makes: proofs *)
Require Import List Arith Lia ZArith Bool Permutation Reals Lra.
From Flocq Require Import Core.Core IEEE754.BinarySingleNaN.
From Verif Require Import F32 F32Facts Vec AabbModel AabbProofs Base NodeModel UtilsModel UtilsProofs LocbModel SpawnModel SpawnProofs
  SpecGeom SpecTree BinnedModel BinnedProofs BinnedFacts BinnedLeaf SpecBinned BinnedCost SpecCarve.
Import ListNotations.
Local Open Scope nat_scope.

Lemma sim_fle_eq : forall x x' y y', sim x x' -> sim y y' -> fle x y = fle x' y'.
Proof.
  intros x x' y y' [->|[A B]] [->|[C D]]; auto.
  - destruct y as [sy|sy| |sy my ey Hy], y' as [sy'|sy'| |sy' my' ey' Hy']; try discriminate.
    destruct x' as [s|s| |s m e H]; try reflexivity.
  - destruct x as [sy|sy| |sy my ey Hy], x' as [sy'|sy'| |sy' my' ey' Hy']; try discriminate.
    destruct y' as [s|s| |s m e H]; try reflexivity.
  - destruct x as [sx|sx| |sx mx ex Hx], x' as [sx'|sx'| |sx' mx' ex' Hx']; try discriminate.
    destruct y as [sy|sy| |sy my ey Hy], y' as [sy'|sy'| |sy' my' ey' Hy']; try discriminate. reflexivity.
Qed.
Lemma lt_nle : forall x y : f32, flt x y = true -> fle y x = false.
Proof.
  intros x y H. destruct (fle y x) eqn:G; auto. destruct (flt_notnan _ _ H) as [Nx Ny].
  apply (flt_spec _ _ Nx Ny) in H. apply (fle_spec _ _ Ny Nx) in G. exfalso. lra.
Qed.
Lemma nle_le : forall x y z : f32, fle x y = false -> fle z y = true -> fle x z = false.
Proof. intros x y z F L. destruct (fle x z) eqn:G; auto. rewrite (fle_trans _ _ _ G L) in F. discriminate. Qed.
Lemma nlt_le : forall x y : f32, is_nan x = false -> is_nan y = false -> flt x y = false -> fle y x = true.
Proof. intros x y Nx Ny H. apply (flt_false _ _ Nx Ny) in H. apply (fle_spec _ _ Ny Nx). auto. Qed.

Lemma filter_none : forall (f : nat -> bool) l, (forall x, In x l -> f x = false) -> filter f l = [].
Proof. intros f l H. induction l as [|x l IH]; simpl; auto. rewrite (H x) by (simpl; auto). apply IH. intros; apply H; simpl; auto. Qed.
Lemma forallb_filter_id : forall (f : nat -> bool) l, forallb f l = true -> filter f l = l.
Proof. intros f l H. induction l as [|x l IH]; simpl in *; auto. apply andb_true_iff in H as [-> H]. f_equal. auto. Qed.

(** ** [find_split] finds the first cheapest split *)
Definition side (l : list bin) (box : aabb) (count j : nat) : f32 :=
  fmul (half_area (fold_left (fun a (b : bin) => grow_bb a (fst b)) (firstn (S j) l) box)) (fn (count + cnt (firstn (S j) l))).
Lemma left_first : forall l rights box count i best,
  let r := left_pass l rights box count i best in
  r = best \/ exists j, j < length l /\ j < length rights /\ snd r = S (i + j) /\ flt (fst r) (fst best) = true /\
    forall j', j' < j -> fle (fadd (side l box count j') (nth j' rights f0)) (fst r) = false.
Proof.
  induction l as [|[b c] l IH]; intros rights box count i best r; [left; auto|].
  destruct rights as [|rc rights]; [left; auto|].
  set (cost := fadd (fmul (half_area (grow_bb box b)) (fn (count + c))) rc).
  set (best' := if flt cost (fst best) then (cost, S i) else best).
  assert (r = left_pass l rights (grow_bb box b) (count + c) (S i) best') as Er by reflexivity. clearbody r. subst r.
  assert (forall j, side (@cons bin (b, c) l) box count (S j) = side l (grow_bb box b) (count + c) j) as Sh.
  { intro j. unfold side. do 2 f_equal. rewrite <- Nat.add_assoc. reflexivity. }
  assert (side (@cons bin (b, c) l) box count 0 = fmul (half_area (grow_bb box b)) (fn (count + c))) as Sh0.
  { unfold side. do 2 f_equal. unfold cnt. simpl. lia. }
  pose proof (IH rights (grow_bb box b) (count + c) (S i) best') as H. cbv zeta in H.
  set (r := left_pass l rights (grow_bb box b) (count + c) (S i) best') in *. clearbody r.
  destruct H as [R|(j & J1 & J2 & J3 & J4 & J5)].
  - unfold best' in R. destruct (flt cost (fst best)) eqn:F; [|left; auto]. right. exists 0. cbn [length].
    split; [lia|]. split; [lia|]. rewrite R. cbn [fst snd]. split; [lia|]. split; [auto|]. intros j' Hj. lia.
  - right. exists (S j). cbn [length]. split; [lia|]. split; [lia|]. split; [lia|]. split.
    + unfold best' in J4. destruct (flt cost (fst best)) eqn:F; [|auto]. eapply flt_trans; eauto.
    + intros [|j'] Hj; cbn [nth].
      * rewrite Sh0. change (fle cost (fst r) = false). unfold best' in J4. destruct (flt cost (fst best)) eqn:F.
        -- apply lt_nle; auto.
        -- destruct (fle cost (fst r)) eqn:G; auto. destruct (fle_notnan _ _ G) as [Nc Nr]. destruct (flt_notnan _ _ J4) as [_ Nb].
           apply (fle_spec _ _ Nc Nr) in G. apply (flt_spec _ _ Nr Nb) in J4.
           assert (flt cost (fst best) = true) by (apply (flt_spec _ _ Nc Nb); lra). congruence.
      * rewrite Sh. apply J5. lia.
Qed.

Section Carve.
  Variables (mls : nat) (aabbs : list aabb) (centers : list vec3).
  Hypothesis Hok : Forall box_ok aabbs.
  Hypothesis Hlen : length centers = length aabbs.
  Hypothesis Hpos : 1 <= length aabbs.

  Lemma find_split_first : forall l, length l = BINS ->
    find_split l = (fMAX, BINS) \/
    (snd (find_split l) < BINS /\ flt (fst (find_split l)) fMAX = true /\
     forall k, 0 < k -> k < snd (find_split l) -> fle (BinnedCost.bcost l k) (fst (find_split l)) = false).
  Proof.
    intros l L. unfold find_split.
    set (rights := right_costs (rev (skipn 1 l)) aabb_new 0 []).
    assert (length (skipn 1 l) = 15) as Ls by (rewrite skipn_length, L; reflexivity).
    assert (length rights = 15) as Lr.
    { unfold rights. rewrite (right_nth aabbs centers Hlen Hpos), app_length, rev_length, map_length, seq_length, rev_length, Ls. reflexivity. }
    assert (forall j, j < 15 -> nth j rights f0 = fmul (half_area (box_of (rev (skipn (S j) l)))) (fn (cnt (skipn (S j) l)))) as Nr.
    { intros j Lj. unfold rights. rewrite (right_nth aabbs centers Hlen Hpos), app_nil_r.
      set (F := fun j : nat => _). rewrite rev_nth by (rewrite map_length, seq_length, rev_length, Ls; auto).
      rewrite map_length, seq_length, rev_length, Ls.
      rewrite (nth_indep _ f0 (F 0)) by (rewrite map_length, seq_length, ?rev_length, ?Ls; lia).
      rewrite map_nth, seq_nth by (rewrite ?rev_length, ?Ls; lia). unfold F.
      replace (S (0 + (15 - S j))) with (15 - j) by lia. rewrite firstn_rev, Ls. replace (15 - (15 - j)) with j by lia.
      assert (skipn j (skipn 1 l) = skipn (S j) l) as -> by (destruct l as [|x l]; [discriminate|reflexivity]).
      unfold box_of. rewrite Nat.add_0_l. rewrite (cnt_rev aabbs centers Hlen Hpos). reflexivity. }
    destruct (left_first l rights aabb_new 0 0 (fMAX, BINS)) as [R|(j & J1 & J2 & J3 & J4 & J5)]; [left; exact R|right].
    set (r := left_pass l rights aabb_new 0 0 (fMAX, BINS)) in *. clearbody r.
    rewrite Lr in J2. rewrite J3. cbn [Nat.add fst] in *. split; [unfold BINS; lia|]. split; [auto|].
    intros [|k] K1 K2; [lia|]. specialize (J5 k ltac:(lia)). rewrite Nr in J5 by lia. exact J5.
  Qed.

  Notation tight := (tight aabbs).
  Lemma tight_union : forall ids b, tight ids b -> union_box aabbs ids b.
  Proof.
    intros ids b (B1 & B2 & B3 & B4). destruct (hull_tight aabbs Hok ids) as (A1 & A2 & A3 & A4).
    split; [apply B4|apply A4]; auto.
  Qed.
  (** The boxes of the last bins, from below. *)
  Lemma rest_tight : forall bounds ids bins axis j, Forall (fun p => p < length aabbs) ids ->
    fill aabbs centers bounds ids = Ok bins -> j <= BINS ->
    tight (filter (fun p => negb (slab centers bounds axis p <? j)) ids) (box_of (skipn j (pick bins axis))).
  Proof.
    intros bounds ids bins axis j Lt Ef Lj.
    pose proof (pick_len aabbs centers bounds ids bins Ef axis) as L.
    assert (forall d, j + d <= BINS -> tight (filter (fun p => (j <=? slab centers bounds axis p) && (slab centers bounds axis p <? j + d)) ids)
      (box_of (firstn d (skipn j (pick bins axis))))) as H.
    { induction d as [|d IH]; intro Ld.
      - cbn [firstn]. eapply tight_ext; [apply tight_nil|]. intro q. rewrite filter_In.
        destruct (Nat.leb_spec j (slab centers bounds axis q)); destruct (Nat.ltb_spec (slab centers bounds axis q) (j + 0)); simpl; intuition; try discriminate; try lia.
      - rewrite (firstn_snoc aabbs centers Hlen Hpos) by (rewrite skipn_length, L; lia). rewrite box_of_snoc.
        assert (nth d (skipn j (pick bins axis)) empty_bin = nth (j + d) (pick bins axis) empty_bin) as ->.
        { rewrite <- (firstn_skipn j (pick bins axis)) at 2. rewrite app_nth2; rewrite firstn_length; [f_equal; lia|lia]. }
        eapply tight_grow; [apply IH; lia|apply bins_tight; eauto|]. intro q. rewrite !filter_In.
        destruct (Nat.leb_spec j (slab centers bounds axis q)); destruct (Nat.ltb_spec (slab centers bounds axis q) (j + d));
          destruct (Nat.ltb_spec (slab centers bounds axis q) (j + S d)); destruct (Nat.eqb_spec (slab centers bounds axis q) (j + d));
          simpl; intuition; try discriminate; lia. }
    specialize (H (BINS - j) ltac:(lia)). rewrite firstn_all2 in H by (rewrite skipn_length, L; lia).
    eapply tight_ext; [exact H|]. intro q. rewrite !filter_In.
    assert (slab centers bounds axis q < BINS) as Lb by apply (bin_lt [] [] eq_refl).
    destruct (Nat.leb_spec j (slab centers bounds axis q)); destruct (Nat.ltb_spec (slab centers bounds axis q) (j + (BINS - j)));
      destruct (Nat.ltb_spec (slab centers bounds axis q) j); simpl; intuition; try discriminate; lia.
  Qed.

  (** ** The plan *)
  Section Plan.
    Variables (bounds : aabb) (ids : list nat) (bins : list bin * list bin * list bin).
    Hypothesis Hids : Forall (fun p => p < length aabbs) ids.
    Hypothesis Hfill : fill aabbs centers bounds ids = Ok bins.
    Notation cost := (split_cost aabbs centers bounds ids).
    Notation found a := (find_split (pick bins a)).

    Lemma bin_cost : forall axis k, k <= BINS -> sim (BinnedCost.bcost (pick bins axis) k) (cost axis k).
    Proof. intros. apply bcost_sim; auto. Qed.

    Lemma found_best : forall axis, best_cut aabbs centers bounds ids axis (snd (found axis)).
    Proof.
      intro axis. pose proof (pick_len aabbs centers bounds ids bins Hfill axis) as L.
      destruct (find_split_best aabbs centers Hlen Hpos (pick bins axis) L) as (N & B & M).
      assert (forall j, 0 < j -> j < 16 -> flt (cost axis j) (fst (found axis)) = false) as Min.
      { intros j J1 J2. rewrite <- (M j J1 J2). symmetry. apply sim_flt; [|apply sim_refl]. apply bin_cost. unfold BINS. lia. }
      destruct (find_split_first (pick bins axis) L) as [F|(F1 & F2 & F3)].
      - left. rewrite F in *. split; [reflexivity|]. exact Min.
      - destruct B as [B|(B1 & B2 & B3)]; [rewrite B in F1; cbn [snd] in F1; lia|]. right.
        pose proof (bin_cost axis (snd (found axis)) ltac:(lia)) as S. rewrite <- B3 in S.
        split; [auto|]. split; [exact B2|]. split; [|split].
        + rewrite <- F2. symmetry. apply sim_flt; [exact S|apply sim_refl].
        + intros j J1 J2. rewrite <- (Min j J1 J2). symmetry. apply sim_flt; [apply sim_refl|exact S].
        + intros j J1 J2. rewrite <- (F3 j J1 J2). symmetry. apply sim_fle_eq; [apply bin_cost; lia|exact S].
    Qed.
    Lemma found_cost : forall axis, sim (fst (found axis)) (cut_cost aabbs centers bounds ids axis (snd (found axis))).
    Proof.
      intro axis. pose proof (pick_len aabbs centers bounds ids bins Hfill axis) as L.
      destruct (find_split_best aabbs centers Hlen Hpos (pick bins axis) L) as (N & [B|(B1 & B2 & B3)] & M); unfold cut_cost.
      - rewrite B. left. reflexivity.
      - replace (snd (found axis) =? 16) with false by (symmetry; apply Nat.eqb_neq; unfold BINS in B2; lia).
        rewrite B3. apply bin_cost. lia.
    Qed.
    Lemma best_cut_unique : forall axis k j, best_cut aabbs centers bounds ids axis k -> best_cut aabbs centers bounds ids axis j -> k = j.
    Proof.
      assert (forall x : f32, flt x fMAX = true -> fle x x = true) as Rf.
      { intros x H. apply fle_refl. apply (flt_notnan _ _ H). }
      assert (forall x y : f32, flt x fMAX = true -> flt y fMAX = true -> flt x y = false -> fle y x = true) as Nl.
      { intros x y X Y H. apply nlt_le; auto; [apply (flt_notnan _ _ X)|apply (flt_notnan _ _ Y)]. }
      intros axis k j [[-> A]|(A1 & A2 & A3 & A4 & A5)] [[-> B]|(B1 & B2 & B3 & B4 & B5)]; auto.
      - rewrite A in B3 by auto. discriminate.
      - rewrite B in A3 by auto. discriminate.
      - destruct (lt_eq_lt_dec k j) as [[C|C]|C]; auto; exfalso.
        + specialize (B5 k A1 C). rewrite (Nl _ _ B3 A3 (A4 j B1 B2)) in B5. discriminate.
        + specialize (A5 j B1 C). rewrite (Nl _ _ A3 B3 (B4 k A1 A2)) in A5. discriminate.
    Qed.

    Lemma count_below : forall axis j, j <= BINS -> cnt (firstn j (pick bins axis)) = length (below centers bounds axis j ids).
    Proof. intros axis j L. destruct (fill_counts aabbs centers bounds ids bins axis Hfill) as (_ & _ & _ & H). apply H. auto. Qed.
    Lemma below_le : forall axis i j, i <= j -> length (below centers bounds axis i ids) <= length (below centers bounds axis j ids).
    Proof.
      intros axis i j L. unfold below. clear - L. induction ids as [|p l IH]; cbn [filter]; auto.
      destruct (Nat.ltb_spec (slab centers bounds axis p) i); destruct (Nat.ltb_spec (slab centers bounds axis p) j); cbn [length]; lia.
    Qed.

    (** The best axis, as the code computes it. *)
    Definition the_axis : nat :=
      let b0 := if fgt (fst (found 0)) (fst (found 1)) then 1 else 0 in
      if fgt (fst (found b0)) (fst (found 2)) then 2 else b0.
    Lemma the_axis_best : best_axis aabbs centers bounds ids the_axis (snd (found the_axis)).
    Proof.
      assert (forall a, is_nan (fst (found a)) = false) as Nb.
      { intro a. apply (find_split_best aabbs centers Hlen Hpos (pick bins a)). apply (pick_len aabbs centers bounds ids bins Hfill). }
      assert (the_axis < 3 /\ forall a, a < 3 -> flt (fst (found a)) (fst (found the_axis)) = false /\
        (a < the_axis -> fle (fst (found a)) (fst (found the_axis)) = false)) as (A3 & A).
      { assert (forall x, flt (fst (found x)) (fst (found x)) = false) as Ir by (intro x; apply flt_irrefl).
        assert (forall a b, fgt (fst (found a)) (fst (found b)) = true -> fle (fst (found a)) (fst (found b)) = false) as Gt.
        { intros a b H. apply lt_nle. exact H. }
        assert (forall a b, fgt (fst (found a)) (fst (found b)) = true -> flt (fst (found a)) (fst (found b)) = false) as Ge.
        { intros a b H. destruct (flt (fst (found a)) (fst (found b))) eqn:G; auto.
          pose proof (flt_fle _ _ G). rewrite (Gt a b H) in *. discriminate. }
        assert (forall a b c, flt (fst (found a)) (fst (found b)) = false -> fgt (fst (found b)) (fst (found c)) = true ->
          fle (fst (found a)) (fst (found c)) = false) as Tr.
        { intros a b c H G. pose proof (nlt_le _ _ (Nb a) (Nb b) H) as L.
          destruct (fle (fst (found a)) (fst (found c))) eqn:F; auto. pose proof (fle_trans _ _ _ L F) as T.
          rewrite (Gt b c G) in T. discriminate. }
        assert (forall a b, fle (fst (found a)) (fst (found b)) = false -> flt (fst (found a)) (fst (found b)) = false) as Nl.
        { intros a b H. destruct (flt (fst (found a)) (fst (found b))) eqn:F; auto. apply flt_fle in F. congruence. }
        unfold the_axis. cbv zeta. destruct (fgt (fst (found 0)) (fst (found 1))) eqn:G1.
        - destruct (fgt (fst (found 1)) (fst (found 2))) eqn:G2; (split; [lia|]); intros [|[|[|a]]] La; try lia; split; auto; try lia.
          + apply Nl. eapply Tr; [|exact G2]. apply Ge. exact G1.
          + intros _. eapply Tr; [|exact G2]. apply Ge. exact G1.
        - destruct (fgt (fst (found 0)) (fst (found 2))) eqn:G2; (split; [lia|]); intros [|[|[|a]]] La; try lia; split; auto; try lia.
          + apply Nl. eapply Tr; [|exact G2]. exact G1.
          + intros _. eapply Tr; [|exact G2]. exact G1. }
      split; [auto|]. split; [apply found_best|]. intros a j La B.
      pose proof (best_cut_unique a j (snd (found a)) B (found_best a)) as ->.
      destruct (A a La) as [A1 A2]. split.
      - rewrite <- A1. symmetry. apply sim_flt; apply found_cost.
      - intro L. rewrite <- (A2 L). symmetry. apply sim_fle_eq; apply found_cost.
    Qed.
  End Plan.

  Lemma pick_found : forall bins, (if fgt (fst (pick (find_split (pick bins 0), find_split (pick bins 1), find_split (pick bins 2))
       (if fgt (fst (pick (find_split (pick bins 0), find_split (pick bins 1), find_split (pick bins 2)) 0))
           (fst (pick (find_split (pick bins 0), find_split (pick bins 1), find_split (pick bins 2)) 1)) then 1 else 0)))
       (fst (pick (find_split (pick bins 0), find_split (pick bins 1), find_split (pick bins 2)) 2)) then 2
     else if fgt (fst (pick (find_split (pick bins 0), find_split (pick bins 1), find_split (pick bins 2)) 0))
           (fst (pick (find_split (pick bins 0), find_split (pick bins 1), find_split (pick bins 2)) 1)) then 1 else 0) = the_axis bins.
  Proof. intro bins. unfold the_axis. rewrite !pick_find. reflexivity. Qed.

  Lemma plan_exact : forall bounds ids pl, Forall (fun p => p < length aabbs) ids ->
    make_plan aabbs centers mls bounds ids = Ok pl ->
    match pl with
    | MakeLeaf => (forall a i, ~ pays aabbs centers bounds ids a i) /\ length ids <= mls
    | Split axis k bl br => exists j, chosen aabbs centers mls bounds ids axis k j /\
        tight (below centers bounds axis j ids) bl /\
        tight (filter (fun p => negb (slab centers bounds axis p <? k)) ids) br
    end.
  Proof.
    intros bounds ids pl Lt E. unfold make_plan in E.
    destruct (fill aabbs centers bounds ids) as [bins| | |] eqn:Ef; try discriminate. cbn [bind] in E.
    cbv zeta in E. rewrite !pick_found, !pick_find in E.
    pose proof (the_axis_best bounds ids bins Lt Ef) as Ba. set (ba := the_axis bins) in *. clearbody ba.
    fold (leaf_cost bounds ids) in E.
    pose proof (found_best bounds ids bins Lt Ef) as Fb. pose proof (found_cost bounds ids bins Lt Ef) as Fc.
    assert (forall a, snd (find_split (pick bins a)) <= 16) as L16.
    { intro a. destruct (Fb a) as [[-> _]|(_ & H & _)]; lia. }
    assert (forall axis k, k <= 16 -> tight (below centers bounds axis (snd (find_split (pick bins axis))) ids)
          (box_of (firstn (snd (find_split (pick bins axis))) (pick bins axis))) /\
        tight (filter (fun p => negb (slab centers bounds axis p <? k)) ids) (box_of (skipn k (pick bins axis)))) as Bx.
    { intros axis k Lk. split; [apply first_tight; auto; apply L16|apply rest_tight; auto]. }
    destruct ((snd (find_split (pick bins ba)) =? BINS) || fge (fst (find_split (pick bins ba))) (leaf_cost bounds ids)) eqn:Cmp.
    - assert (forall a i, ~ pays aabbs centers bounds ids a i) as No.
      { intros a i (P1 & P2 & P3 & P4 & P5). destruct Ba as (B1 & B2 & B3).
        pose proof (Fb a) as Fa. destruct Fa as [[_ Fa]|(F1 & F2 & F3 & F4 & F5)]; [rewrite Fa in P5 by auto; discriminate|].
        destruct (B3 a _ P1 (Fb a)) as [B3' _].
        assert (flt (cut_cost aabbs centers bounds ids a (snd (find_split (pick bins a)))) fMAX = true) as Fm.
        { unfold cut_cost. destruct (Nat.eqb_spec (snd (find_split (pick bins a))) 16) as [Q|Q]; [lia|exact F3]. }
        apply orb_true_iff in Cmp as [C|C].
        - apply Nat.eqb_eq in C. rewrite C in B3'. unfold BINS in B3'. change (cut_cost aabbs centers bounds ids ba 16) with fMAX in B3'. congruence.
        - unfold fge in C. rewrite (sim_fle_eq _ _ _ _ (sim_refl _) (Fc ba)) in C.
          destruct (fle_notnan _ _ C) as [_ Nb]. destruct (flt_notnan _ _ Fm) as [Na _].
          pose proof (fle_trans _ _ _ C (nlt_le _ _ Na Nb B3')) as T.
          unfold cut_cost in T. destruct (Nat.eqb_spec (snd (find_split (pick bins a))) 16) as [Q|Q]; [lia|].
          destruct (flt_notnan _ _ P5) as [Nc _]. destruct (flt_notnan _ _ F3) as [Nd _].
          rewrite (fle_trans _ _ _ T (nlt_le _ _ Nc Nd (F4 i P2 P3))) in P4. discriminate. }
      destruct (Nat.ltb_spec mls (length ids)) as [Lm|Lm]; [|injection E as <-; split; auto].
      set (ax := longest_axis bounds) in *.
      match type of E with Ok (Split ?a ?i ?l ?r) = _ => assert (pl = Split a i l r) as -> by (inversion E; auto); clear E end.
      exists (snd (find_split (pick bins ax))).
      assert (forall k, middle aabbs centers bounds ids ax k -> chosen aabbs centers mls bounds ids ax k (snd (find_split (pick bins ax)))) as Ch.
      { intros k M. right. split; [exact No|]. split; [exact Lm|]. split; [reflexivity|]. split; [exact M|apply Fb]. }
      pose proof (median_spec aabbs centers Hlen Hpos (firstn (BINS - 1) (pick bins ax)) (length ids * 2 / 5 + 1) 0 0) as M.
      pose proof (pick_len aabbs centers bounds ids bins Ef ax) as L.
      pose proof (count_below bounds ids bins Ef ax) as Cb.
      destruct (median _ _ 0 0) as [s|].
      + rewrite !Nat.sub_0_r in M. destruct M as (M1 & M2 & M3 & M4). rewrite Nat.add_0_l in M2, M3, M4.
        rewrite firstn_length, L in M2. change (Nat.min (BINS - 1) BINS) with 15 in M2.
        rewrite firstn_firstn in M3, M4. change (BINS - 1) with 15 in *. rewrite Nat.min_l in M3, M4 by lia.
        rewrite Cb in M3, M4 by (unfold BINS; lia).
        split; [apply Ch|apply Bx; lia]. left. split; [auto|]. split; [lia|]. split; [lia|].
        intros j J1 J2. pose proof (below_le bounds ids ax j (s - 1) ltac:(lia)). destruct M4 as [M4|M4]; lia.
      + split; [apply Ch|apply Bx; apply L16]. right. split; [|exists ba; exact Ba].
        intros j J1 J2. change (BINS - 1) with 15 in M.
        destruct M as [M|M]; [apply (f_equal (@length _)) in M; rewrite firstn_length, L in M; discriminate|].
        rewrite Cb in M by (unfold BINS; lia). pose proof (below_le bounds ids ax j 15 ltac:(lia)). lia.
    - match type of E with Ok (Split ?a ?i ?l ?r) = _ => assert (pl = Split a i l r) as -> by (inversion E; auto); clear E end.
      exists (snd (find_split (pick bins ba))). split; [|apply Bx; apply L16].
      apply orb_false_iff in Cmp as [C1 C2]. apply Nat.eqb_neq in C1.
      left. split; [exact Ba|]. split; [|reflexivity].
      destruct (Fb ba) as [[Q _]|(F1 & F2 & F3 & F4 & F5)]; [unfold BINS in C1; congruence|].
      split; [apply Ba|]. split; [auto|]. split; [auto|]. split; [|auto].
      unfold fge in C2. rewrite <- C2. symmetry. apply sim_fle_eq; [apply sim_refl|].
      eapply sim_trans; [apply Fc|]. unfold cut_cost. destruct (Nat.eqb_spec (snd (find_split (pick bins ba))) 16); [lia|apply sim_refl].
  Qed.

  (** ** The order of the primitives does not matter *)
  Section Perm.
    Variables (bounds : aabb) (l l' : list nat).
    Hypothesis Hp : Permutation l l'.
    Lemma pcost : forall axis k, sim (split_cost aabbs centers bounds l axis k) (split_cost aabbs centers bounds l' axis k).
    Proof. intros. apply cost_perm; auto. Qed.
    Lemma pleaf : leaf_cost bounds l = leaf_cost bounds l'.
    Proof. unfold leaf_cost. rewrite (Permutation_length Hp). reflexivity. Qed.
    Lemma pbelow : forall axis k, length (below centers bounds axis k l) = length (below centers bounds axis k l').
    Proof. intros. apply Permutation_length. apply filter_perm. auto. Qed.
    Lemma cut_perm : forall axis k, best_cut aabbs centers bounds l axis k -> best_cut aabbs centers bounds l' axis k.
    Proof.
      intros axis k [[A B]|(A & B & C & D & F)].
      - left. split; [auto|]. intros j J1 J2. rewrite <- (B j J1 J2). symmetry. apply sim_flt; [apply pcost|apply sim_refl].
      - right. split; [auto|]. split; [auto|]. split; [|split].
        + rewrite <- C. symmetry. apply sim_flt; [apply pcost|apply sim_refl].
        + intros j J1 J2. rewrite <- (D j J1 J2). symmetry. apply sim_flt; apply pcost.
        + intros j J1 J2. rewrite <- (F j J1 J2). symmetry. apply sim_fle_eq; apply pcost.
    Qed.
    Lemma pcut : forall axis k, sim (cut_cost aabbs centers bounds l axis k) (cut_cost aabbs centers bounds l' axis k).
    Proof. intros. unfold cut_cost. destruct (k =? 16); [apply sim_refl|apply pcost]. Qed.
    Lemma pays_perm : forall axis k, pays aabbs centers bounds l axis k -> pays aabbs centers bounds l' axis k.
    Proof.
      intros axis k (A & B & C & D & F). split; [auto|]. split; [auto|]. split; [auto|]. rewrite <- pleaf. split.
      - rewrite <- D. symmetry. apply sim_fle_eq; [apply sim_refl|apply pcost].
      - rewrite <- F. symmetry. apply sim_flt; [apply pcost|apply sim_refl].
    Qed.
  End Perm.
  Lemma axis_perm : forall bounds l l' axis k, Permutation l l' -> best_axis aabbs centers bounds l axis k -> best_axis aabbs centers bounds l' axis k.
  Proof.
    intros bounds l l' axis k Hp (A & B & C). split; [auto|]. split; [eapply cut_perm; eauto|].
    intros a j La Bj. destruct (C a j La) as [C1 C2]; [eapply cut_perm; [apply Permutation_sym; exact Hp|auto]|].
    split; [rewrite <- C1; symmetry; apply sim_flt; apply pcut; auto|].
    intro L. rewrite <- (C2 L). symmetry. apply sim_fle_eq; apply pcut; auto.
  Qed.
  Lemma middle_perm : forall bounds l l' axis k, Permutation l l' -> middle aabbs centers bounds l axis k -> middle aabbs centers bounds l' axis k.
  Proof.
    intros bounds l l' axis k Hp M. unfold middle in *. cbv zeta in *. rewrite <- (Permutation_length Hp).
    assert (forall j, length (below centers bounds axis j l) = length (below centers bounds axis j l')) as Q by (intro; apply pbelow; auto).
    destruct M as [(A & B & C & D)|[A (a & B)]].
    - left. rewrite <- Q. split; [auto|]. split; [auto|]. split; [auto|]. intros j. rewrite <- Q. apply D.
    - right. split; [intro j; rewrite <- Q; apply A|]. exists a. eapply axis_perm; eauto.
  Qed.
  Lemma chosen_perm : forall bounds l l' axis k j, Permutation l l' ->
    chosen aabbs centers mls bounds l axis k j -> chosen aabbs centers mls bounds l' axis k j.
  Proof.
    intros bounds l l' axis k j Hp [(A & B & C)|(A & B & C & D & F)].
    - left. split; [eapply axis_perm; eauto|]. split; [eapply pays_perm; eauto|auto].
    - right. rewrite <- (Permutation_length Hp). split; [|split; [auto|split; [auto|split; [eapply middle_perm; eauto|eapply cut_perm; eauto]]]].
      intros a i P. apply (A a i). eapply pays_perm; [apply Permutation_sym; exact Hp|auto].
  Qed.
  Lemma uncut_perm : forall bounds l l' d, Permutation l l' -> uncut aabbs centers mls bounds l d -> uncut aabbs centers mls bounds l' d.
  Proof.
    intros bounds l l' d Hp U. unfold uncut in *. rewrite <- (Permutation_length Hp).
    destruct U as [U|[U|[(U & V)|(axis & k & j & C & U)]]]; [auto|auto| |].
    - right. right. left. split; [|auto]. intros a i P. apply (U a i). eapply pays_perm; [apply Permutation_sym; exact Hp|auto].
    - right. right. right. exists axis, k, j. split; [eapply chosen_perm; eauto|].
      rewrite <- (pbelow bounds l l' Hp). destruct U as [U|U]; [left|right; auto].
      apply length_zero_iff_nil. rewrite <- (pbelow bounds l l' Hp), U. reflexivity.
  Qed.
  Lemma union_ext : forall s u b, tight s b -> (forall q, In q u <-> In q s) -> union_box aabbs u b.
  Proof. intros. apply tight_union. eapply tight_ext; eauto. Qed.

  (** ** The tree *)
  Notation padded b := (with_offset b f1em4).
  Fixpoint scarved (k : nat) (s : shape) (ids : list nat) (b : aabb) : Prop :=
    length ids = s_len s /\
    match s with
    | SLeaf mn mx _ _ => mn = bmin (padded (padded b)) /\ mx = bmax (padded (padded b)) /\ uncut aabbs centers mls (padded b) ids (64 - k)
    | SNode mn mx l r => mn = bmin (padded b) /\ mx = bmax (padded b) /\ 0 < k /\
        exists il ir bl br, ids = il ++ ir /\ cut_into aabbs centers mls (padded b) ids il ir bl br /\
          scarved (k - 1) l il bl /\ scarved (k - 1) r ir br
    end.

  Notation sah := (sah mls aabbs centers).
  Lemma sah_carved : forall k begin ids box, Forall (fun p => p < length aabbs) ids ->
    scarved k (fst (sah k begin ids box)) (snd (sah k begin ids box)) box.
  Proof.
    induction k as [|k IH]; intros begin ids box F.
    - cbn [BinnedProofs.sah fst snd scarved s_len]. split; [symmetry; apply Nat2Z.id|]. split; [reflexivity|]. split; [reflexivity|].
      right. left. lia.
    - pose proof (sah_perm mls aabbs centers (S k) begin ids box) as Pall.
      pose proof (sah_len mls aabbs centers (S k) begin ids box) as Lall.
      cbn [BinnedProofs.sah] in *.
      assert (forall l, Permutation l ids -> uncut aabbs centers mls (with_offset box f1em4) ids (64 - S k) ->
        scarved (S k) (SLeaf (bmin (with_offset (with_offset box f1em4) f1em4)) (bmax (with_offset (with_offset box f1em4) f1em4)) (Z.of_nat begin) (Z.of_nat (length l))) l box) as Leaf.
      { intros l P H. cbn [scarved s_len]. split; [symmetry; apply Nat2Z.id|]. split; [reflexivity|]. split; [reflexivity|].
        eapply uncut_perm; [apply Permutation_sym; exact P|exact H]. }
      destruct (Nat.leb_spec (length ids) 1) as [L1|L1]; [apply Leaf; auto; left; auto|].
      destruct (plan_ok mls aabbs centers Hlen Hpos (with_offset box f1em4) ids F) as (pl & Ep). rewrite Ep in *.
      pose proof (plan_exact _ _ _ F Ep) as PB.
      destruct pl as [|axis si lb rb].
      { apply Leaf; auto. right. right. left. exact PB. }
      destruct PB as (j & Ch & Tl & Tr).
      destruct (partition_spec _ ids (length ids) (goes_left centers (with_offset box f1em4) axis si)) as (ids' & c & E & Cc & Lc & P & L & T & Fl & _); auto.
      rewrite firstn_all in Cc. rewrite E in *. unfold count_if in Cc.
      destruct ((0 <? c) && (c <? length ids)) eqn:Both.
      + cbn [fst snd scarved] in *. split; [rewrite (Permutation_length Pall); symmetry; exact Lall|].
        split; [reflexivity|]. split; [reflexivity|]. split; [lia|].
        assert (Forall (fun p => p < length aabbs) ids') as Lt' by (eapply Permutation_Forall; [symmetry; eauto|auto]).
        rewrite <- (firstn_skipn c ids') in Lt'. apply Forall_app in Lt' as [Lt1 Lt2].
        pose proof (sah_perm mls aabbs centers k begin (firstn c ids') lb) as Pl.
        pose proof (sah_perm mls aabbs centers k (begin + c) (skipn c ids') rb) as Pr.
        eexists _, _, lb, rb. split; [reflexivity|]. rewrite Nat.sub_succ, Nat.sub_0_r. split; [|split; apply IH; auto].
        remember (with_offset box f1em4) as bnd eqn:Hbnd. clear Hbnd.
        apply andb_true_iff in Both as [Bo1 Bo2]. apply Nat.ltb_lt in Bo1, Bo2.
        assert (forall p, In p (firstn c ids') -> slab centers bnd axis p < si) as Gl.
        { intros p Ip. apply In_nth_error in Ip as [q Eq].
          assert (q < c) as Lj.
          { assert (q < length (firstn c ids')) by (apply nth_error_Some; congruence). rewrite firstn_length in H. lia. }
          assert (nth_error ids' q = Some p) as Ej'.
          { rewrite <- Eq. rewrite <- (firstn_skipn c ids') at 1. apply nth_error_app1. apply nth_error_Some. congruence. }
          apply Nat.ltb_lt. change (goes_left centers bnd axis si p = true). eapply T; eauto; lia. }
        assert (forall p, In p (skipn c ids') -> si <= slab centers bnd axis p) as Gr.
        { intros p Ip. apply Nat.ltb_ge. change (goes_left centers bnd axis si p = false). apply In_nth_error in Ip as [q Eq].
          assert (q < length (skipn c ids')) as Lj by (apply nth_error_Some; congruence). rewrite skipn_length in Lj.
          assert (nth_error ids' (c + q) = Some p) as Ej'.
          { rewrite <- Eq. rewrite <- (firstn_skipn c ids') at 1. rewrite nth_error_app2; rewrite firstn_length; [f_equal; lia|lia]. }
          eapply Fl; [|exact Ej']. lia. }
        exists axis, si, j. split; [eapply chosen_perm; [apply Permutation_sym; exact Pall|exact Ch]|].
        assert (forall l m : list nat, Permutation l m -> 0 < length m -> l <> []) as Nn.
        { intros l m Pm Lm ->. apply Permutation_length in Pm. simpl in Pm. lia. }
        split; [eapply Nn; [exact Pl|rewrite firstn_length; lia]|]. split; [eapply Nn; [exact Pr|rewrite skipn_length; lia]|].
        split; [eapply Permutation_Forall; [apply Permutation_sym; exact Pl|apply Forall_forall; exact Gl]|].
        split; [eapply Permutation_Forall; [apply Permutation_sym; exact Pr|apply Forall_forall; exact Gr]|].
        split.
        * eapply union_ext; [exact Tl|]. intro q. unfold below. rewrite !filter_In.
          split; intros [A B]; (split; [|exact B]); (eapply Permutation_in; [|exact A]); [exact Pall|apply Permutation_sym; exact Pall].
        * eapply union_ext; [exact Tr|]. intro q. rewrite filter_In. split.
          -- intro Iq. apply (Permutation_in q Pr) in Iq. split.
             ++ eapply Permutation_in; [exact P|]. rewrite <- (firstn_skipn c ids'). apply in_or_app. auto.
             ++ apply Gr in Iq. apply Nat.ltb_ge in Iq. rewrite Iq. reflexivity.
          -- intros [Iq B]. apply (Permutation_in q (Permutation_sym P)) in Iq. rewrite <- (firstn_skipn c ids') in Iq.
             apply in_app_or in Iq as [Iq|Iq]; [|eapply Permutation_in; [apply Permutation_sym; exact Pr|auto]].
             apply Gl in Iq. apply Nat.ltb_lt in Iq. rewrite Iq in B. discriminate.
      + apply Leaf; auto. right. right. right. exists axis, si, j. split; [exact Ch|].
        change (filter (goes_left centers (with_offset box f1em4) axis si) ids) with (below centers (with_offset box f1em4) axis si ids) in Cc.
        apply andb_false_iff in Both as [Bo|Bo]; apply Nat.ltb_ge in Bo.
        * left. apply length_zero_iff_nil. lia.
        * right. lia.
  Qed.

  Lemma carved_tree : forall indices t k ids b, scarved k (shape_of t) ids b -> prims indices t = ids -> k <= 64 ->
    carved aabbs centers mls indices (64 - k) b t.
  Proof.
    intros indices t. induction t as [i nd|i nd l IHl r IHr]; intros k ids b S P Lk; cbn [shape_of scarved] in S.
    - destruct S as (_ & S1 & S2 & S3). constructor; auto.
      change (leaf_prims indices nd) with (prims indices (TLeaf i nd)). rewrite P. exact S3.
    - destruct S as (_ & S1 & S2 & S3 & il & ir & bl & br & E & C & Sl & Sr).
      assert (prims indices (TNode i nd l r) = prims indices l ++ prims indices r) as Ep by apply map_app.
      assert (length il = length (prims indices l)) as Ll.
      { unfold prims. rewrite map_length, shape_len. destruct l; simpl in Sl; apply Sl. }
      assert (il = prims indices l /\ ir = prims indices r) as [-> ->].
      { rewrite Ep in P. rewrite <- P in E. symmetry in E. apply app_inj_len in E; auto. }
      rewrite E in C. replace (k - 1) with (k - 1) in * by auto.
      apply Carved_node with bl br; auto; [lia| |]; replace (Datatypes.S (64 - k)) with (64 - (k - 1)) by lia.
      + eapply IHl; eauto. lia.
      + eapply IHr; eauto. lia.
  Qed.

  (** ** The description determines the tree *)
  Lemma sim_pad : forall x y : f32, sim x y -> fadd x f1em4 = fadd y f1em4 /\ fsub x f1em4 = fsub y f1em4.
  Proof.
    intros x y [->|[A B]]; auto.
    destruct x as [sx|sx| |sx mx ex Hx]; try discriminate. destruct y as [sy|sy| |sy my ey Hy]; try discriminate.
    split; destruct sx, sy; reflexivity.
  Qed.
  Lemma same_padded : forall a b, box_in a b -> box_in b a -> bmin (padded a) = bmin (padded b) /\ bmax (padded a) = bmax (padded b).
  Proof.
    intros a b [(A1 & A2 & A3) (A4 & A5 & A6)] [(B1 & B2 & B3) (B4 & B5 & B6)].
    assert (sim (vx (bmin a)) (vx (bmin b))) as S1 by (apply sim_fle; auto).
    assert (sim (vy (bmin a)) (vy (bmin b))) as S2 by (apply sim_fle; auto).
    assert (sim (vz (bmin a)) (vz (bmin b))) as S3 by (apply sim_fle; auto).
    assert (sim (vx (bmax a)) (vx (bmax b))) as S4 by (apply sim_fle; auto).
    assert (sim (vy (bmax a)) (vy (bmax b))) as S5 by (apply sim_fle; auto).
    assert (sim (vz (bmax a)) (vz (bmax b))) as S6 by (apply sim_fle; auto).
    apply sim_pad in S1, S2, S3, S4, S5, S6. unfold with_offset. cbn [bmin bmax]. unfold vsub, vadd, vsplat, vmap2. cbn [vx vy vz].
    destruct S1 as [_ ->], S2 as [_ ->], S3 as [_ ->], S4 as [-> _], S5 as [-> _], S6 as [-> _]. auto.
  Qed.

  Lemma cut_cost_num : forall bounds ids axis k, best_cut aabbs centers bounds ids axis k -> is_nan (cut_cost aabbs centers bounds ids axis k) = false.
  Proof.
    intros bounds ids axis k [[-> _]|(A & B & C & _)]; unfold cut_cost; [reflexivity|].
    destruct (Nat.eqb_spec k 16); [lia|]. apply (flt_notnan _ _ C).
  Qed.
  Lemma best_axis_unique : forall bounds ids a k a' k', best_axis aabbs centers bounds ids a k -> best_axis aabbs centers bounds ids a' k' -> a = a' /\ k = k'.
  Proof.
    assert (forall bounds ids a k a' k', best_axis aabbs centers bounds ids a k -> best_axis aabbs centers bounds ids a' k' -> ~ a < a') as H.
    { intros bounds ids a k a' k' (A & B & C) (A' & B' & C') L.
      destruct (C a' k' A' B') as [C1 _]. destruct (C' a k A B) as [_ C2]. specialize (C2 L).
      rewrite (nlt_le _ _ (cut_cost_num _ _ _ _ B') (cut_cost_num _ _ _ _ B) C1) in C2. discriminate. }
    intros bounds ids a k a' k' B B'. pose proof (H _ _ _ _ _ _ B B'). pose proof (H _ _ _ _ _ _ B' B).
    assert (a = a') as <- by lia. split; [auto|]. eapply best_cut_unique; [apply B|apply B'].
  Qed.
  Lemma middle_unique : forall bounds ids axis k k', middle aabbs centers bounds ids axis k -> middle aabbs centers bounds ids axis k' -> k = k'.
  Proof.
    intros bounds ids axis k k' M M'. unfold middle in *. cbv zeta in *.
    destruct M as [(A & B & C & D)|[A (a & B)]], M' as [(A' & B' & C' & D')|[A' (a' & B')]].
    - destruct (lt_eq_lt_dec k k') as [[L|L]|L]; auto; exfalso; [apply (D' k)|apply (D k')]; auto.
    - exfalso. apply (A' k); auto.
    - exfalso. apply (A k'); auto.
    - eapply best_axis_unique; eauto.
  Qed.
  Lemma chosen_unique : forall bounds ids a k j a' k' j', chosen aabbs centers mls bounds ids a k j ->
    chosen aabbs centers mls bounds ids a' k' j' -> a = a' /\ k = k' /\ j = j'.
  Proof.
    intros bounds ids a k j a' k' j' [(A & B & C)|(A & B & C & D & F)] [(A' & B' & C')|(A' & B' & C' & D' & F')].
    - destruct (best_axis_unique _ _ _ _ _ _ A A') as [<- <-]. subst. auto.
    - exfalso. eapply A'; eauto.
    - exfalso. eapply A; eauto.
    - subst a'. subst a. rewrite (middle_unique _ _ _ _ _ D D'), (best_cut_unique _ _ _ _ _ F F'). auto.
  Qed.

  (** Only the coordinates of the box matter. *)
  Section Coords.
    Variables (b b' : aabb) (ids : list nat).
    Hypothesis E1 : bmin b = bmin b'.
    Hypothesis E2 : bmax b = bmax b'.
    Lemma eslab : forall axis p, slab centers b axis p = slab centers b' axis p.
    Proof. intros. apply slab_box; auto. Qed.
    Lemma ecost : forall axis k, split_cost aabbs centers b ids axis k = split_cost aabbs centers b' ids axis k.
    Proof. intros. apply cost_box; auto. Qed.
    Lemma ebelow : forall axis k l, below centers b axis k l = below centers b' axis k l.
    Proof. intros. unfold below. apply filter_ext. intro p. rewrite eslab. auto. Qed.
    Lemma ecut : forall axis k, best_cut aabbs centers b ids axis k -> best_cut aabbs centers b' ids axis k.
    Proof.
      intros axis k [[A B]|(A & B & C & D & F)].
      - left. split; [auto|]. intros j J1 J2. rewrite <- ecost. auto.
      - right. rewrite <- ecost. split; [auto|]. split; [auto|]. split; [auto|]. split; intros j J1 J2; rewrite <- ecost; auto.
    Qed.
    Lemma ecc : forall axis k, cut_cost aabbs centers b ids axis k = cut_cost aabbs centers b' ids axis k.
    Proof. intros. unfold cut_cost. rewrite ecost. auto. Qed.
    Lemma epays : forall axis k, pays aabbs centers b ids axis k -> pays aabbs centers b' ids axis k.
    Proof.
      intros axis k (A & B & C & D & F). unfold pays. rewrite <- ecost, <- (leaf_box b b' ids E1 E2). auto.
    Qed.
  End Coords.
  Lemma eaxis : forall b b' ids axis k, bmin b = bmin b' -> bmax b = bmax b' -> best_axis aabbs centers b ids axis k -> best_axis aabbs centers b' ids axis k.
  Proof.
    intros b b' ids axis k E1 E2 (A & B & C). split; [auto|]. split; [eapply ecut; eauto|].
    intros a j La Bj. rewrite <- !(ecc b b' ids E1 E2). apply C; auto. eapply (ecut b' b); eauto.
  Qed.
  Lemma echosen : forall b b' ids axis k j, bmin b = bmin b' -> bmax b = bmax b' ->
    chosen aabbs centers mls b ids axis k j -> chosen aabbs centers mls b' ids axis k j.
  Proof.
    intros b b' ids axis k j E1 E2 [(A & B & C)|(A & B & C & D & F)].
    - left. split; [eapply eaxis; eauto|]. split; [eapply epays; eauto|auto].
    - right. split; [intros a i P; apply (A a i); eapply (epays b' b); eauto|]. split; [auto|]. split.
      { rewrite C. unfold longest_axis, extend. rewrite E1, E2. reflexivity. }
      split; [|eapply ecut; eauto]. unfold middle in *. cbv zeta in *. destruct D as [(D1 & D2 & D3 & D4)|[D1 (a & D2)]].
      + left. rewrite <- (ebelow b b' E1 E2). split; [auto|]. split; [auto|]. split; [auto|]. intros i I1 I2. rewrite <- (ebelow b b' E1 E2). auto.
      + right. split; [intros i I1 I2; rewrite <- (ebelow b b' E1 E2); auto|]. exists a. eapply eaxis; eauto.
  Qed.

  Lemma carved_unique : forall idx d b t, carved aabbs centers mls idx d b t ->
    forall idx' b' t', carved aabbs centers mls idx' d b' t' ->
      bmin (padded b) = bmin (padded b') -> bmax (padded b) = bmax (padded b') ->
      Permutation (prims idx t) (prims idx' t') -> alike idx t idx' t'.
  Proof.
    assert (forall b b' ids ids' l r bl br d, bmin b = bmin b' -> bmax b = bmax b' -> Permutation ids ids' -> d < 64 ->
      ids = l ++ r -> cut_into aabbs centers mls b ids l r bl br -> uncut aabbs centers mls b' ids' d -> False) as Excl.
    { intros b b' ids ids' l r bl br d E1 E2 P Ld Ei (axis & k & j & C & N1 & N2 & Fl & Fr & _) U.
      apply (uncut_perm _ _ _ _ (Permutation_sym P)) in U. apply (echosen _ _ _ _ _ _ E1 E2) in C.
      assert (2 <= length ids) as L2.
      { rewrite Ei, app_length. destruct l, r; try congruence; simpl; lia. }
      destruct U as [U|[U|[(U & V)|(a' & k' & j' & C' & U)]]]; try lia.
      - destruct C as [(_ & C & _)|(_ & C & _)]; [eapply U; eauto|lia].
      - destruct (chosen_unique _ _ _ _ _ _ _ _ C C') as (<- & <- & <-).
        assert (length (below centers b' axis k ids) = length l) as Lb.
        { rewrite Ei. unfold below. rewrite filter_app, app_length. rewrite (filter_all _ l), (proj2 (length_zero_iff_nil (filter _ r))); [lia| |].
          - clear - Fr E1 E2. induction r as [|x r IH]; auto. inversion Fr; subst. cbn [filter].
            rewrite (eslab b b' E1 E2) in H1. apply Nat.ltb_ge in H1. rewrite H1. auto.
          - intros x Ix. rewrite Forall_forall in Fl. apply Nat.ltb_lt. rewrite <- (eslab b b' E1 E2). auto. }
        destruct U as [U|U].
        + rewrite U in Lb. destruct l; [congruence|discriminate].
        + rewrite Ei, app_length in U. rewrite Ei in Lb. destruct r; [congruence|]. simpl in U. lia. }
    intros idx d b t H. induction H as [d b i n Mn Mx U|d b i n l r bl br Mn Mx Ld C Hl IHl Hr IHr]; intros idx' b' t' H' E1 E2 P.
    - inversion H' as [d' b0 i' n' Mn' Mx' U'|d' b0 i' n' l' r' bl' br' Mn' Mx' Ld' C' Hl' Hr']; subst.
      + cbn [alike t_rec].
        assert (bmin (padded (padded b)) = bmin (padded (padded b')) /\ bmax (padded (padded b)) = bmax (padded (padded b'))) as [Q1 Q2].
        { remember (padded b) as u. remember (padded b') as v. unfold with_offset. cbn [bmin bmax]. rewrite E1, E2. auto. }
        split; [congruence|]. split; [congruence|].
        intro p. split; apply Permutation_in; [exact P|apply Permutation_sym; exact P].
      + exfalso. assert (Permutation (prims idx' l' ++ prims idx' r') (leaf_prims idx n)) as Q
          by (unfold prims; rewrite <- map_app; apply Permutation_sym; exact P).
        exact (Excl _ _ _ _ _ _ _ _ _ (eq_sym E1) (eq_sym E2) Q Ld' eq_refl C' U).
    - inversion H' as [d' b0 i' n' Mn' Mx' U'|d' b0 i' n' l' r' bl' br' Mn' Mx' Ld' C' Hl' Hr']; subst.
      + exfalso. assert (Permutation (prims idx l ++ prims idx r) (leaf_prims idx' n')) as Q
          by (unfold prims; rewrite <- map_app; exact P).
        exact (Excl _ _ _ _ _ _ _ _ _ E1 E2 Q Ld eq_refl C U').
      + assert (Permutation (prims idx l ++ prims idx r) (prims idx' l' ++ prims idx' r')) as P'.
        { unfold prims. rewrite <- !map_app. exact P. }
        clear P. destruct C as (axis & k & j & C & N1 & N2 & Fl & Fr & [Ul1 Ul2] & [Ur1 Ur2]).
        destruct C' as (axis' & k' & j' & C' & N1' & N2' & Fl' & Fr' & [Ul1' Ul2'] & [Ur1' Ur2']).
        apply (echosen _ _ _ _ _ _ E1 E2) in C. apply (chosen_perm _ _ _ _ _ _ P') in C.
        destruct (chosen_unique _ _ _ _ _ _ _ _ C C') as (<- & <- & <-).
        assert (forall l r, Forall (fun p => slab centers (padded b') axis p < k) l -> Forall (fun p => k <= slab centers (padded b') axis p) r ->
          filter (fun p => slab centers (padded b') axis p <? k) (l ++ r) = l /\ filter (fun p => negb (slab centers (padded b') axis p <? k)) (l ++ r) = r) as Sp.
        { intros u v Fu Fv. rewrite !filter_app. split.
          - rewrite (forallb_filter_id _ u), (filter_none _ v), app_nil_r; auto.
            + intros x Ix. rewrite Forall_forall in Fv. apply Nat.ltb_ge. auto.
            + apply forallb_forall. intros x Ix. rewrite Forall_forall in Fu. apply Nat.ltb_lt. auto.
          - rewrite (forallb_filter_id _ v), (filter_none _ u); auto.
            + intros x Ix. rewrite Forall_forall in Fu. apply negb_false_iff, Nat.ltb_lt. auto.
            + apply forallb_forall. intros x Ix. rewrite Forall_forall in Fv. apply negb_true_iff, Nat.ltb_ge. auto. }
        destruct (Sp (prims idx l) (prims idx r)) as [S1 S2].
        { eapply Forall_impl; [|exact Fl]. intros p Hp. cbv beta in *. rewrite <- (eslab _ _ E1 E2). auto. }
        { eapply Forall_impl; [|exact Fr]. intros p Hp. cbv beta in *. rewrite <- (eslab _ _ E1 E2). auto. }
        destruct (Sp (prims idx' l') (prims idx' r') Fl' Fr') as [S1' S2'].
        assert (Permutation (prims idx l) (prims idx' l')) as Pl by (rewrite <- S1, <- S1'; apply filter_perm; auto).
        assert (Permutation (prims idx r) (prims idx' r')) as Pr by (rewrite <- S2, <- S2'; apply filter_perm; auto).
        assert (forall u v x y, (forall q, In q u <-> In q v) -> box_in x (hull aabbs u) -> box_in (hull aabbs u) x ->
          box_in y (hull aabbs v) -> box_in (hull aabbs v) y -> box_in x y /\ box_in y x) as Bx.
        { intros u v x y Q X1 X2 Y1 Y2. destruct (hull_tight aabbs Hok u) as (T1 & T2 & T3 & T4).
          destruct (tight_ext aabbs v u _ (hull_tight aabbs Hok v) Q) as (W1 & W2 & W3 & W4).
          split; [eapply box_in_trans; [exact X1|]; eapply box_in_trans; [|exact Y2]; apply T4; auto|].
          eapply box_in_trans; [exact Y1|]. eapply box_in_trans; [|exact X2]. apply W4; auto. }
        cbn [alike t_rec]. split; [congruence|]. split; [congruence|]. split.
        * destruct (Bx (below centers (padded b) axis j (prims idx l ++ prims idx r)) (below centers (padded b') axis j (prims idx' l' ++ prims idx' r')) bl bl') as [X Y]; auto.
          { intro q. rewrite (ebelow _ _ E1 E2). split; apply Permutation_in; [|apply Permutation_sym]; apply filter_perm; auto. }
          destruct (same_padded _ _ X Y). eapply IHl; eauto.
        * destruct (Bx (prims idx r) (prims idx' r') br br') as [X Y]; auto.
          { intro q. split; apply Permutation_in; [auto|apply Permutation_sym; auto]. }
          destruct (same_padded _ _ X Y). eapply IHr; eauto.
  Qed.
End Carve.
