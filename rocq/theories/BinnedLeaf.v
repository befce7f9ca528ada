(** * Why a binned-SAH leaf can be larger than [primitives_per_leaf] *)
Require Import List Arith Lia ZArith Bool Permutation.
From Verif Require Import F32 F32Facts Vec AabbModel AabbProofs Base NodeModel UtilsModel UtilsProofs LocbModel SpawnModel SpawnProofs
  SpecGeom SpecTree BinnedModel BinnedProofs BinnedFacts.
Import ListNotations.

(** ** Bins count their primitives *)
Definition cnt (l : list bin) : nat := list_sum (map snd l).
Definition tidy (l : list bin) : Prop := Forall (fun b : bin => snd b = 0 -> b = empty_bin) l.

Lemma cnt_app : forall a b, cnt (a ++ b) = cnt a + cnt b.
Proof. intros. unfold cnt. rewrite map_app. apply list_sum_app. Qed.
Lemma cnt_firstn_S : forall l k, k < length l -> cnt (firstn (S k) l) = cnt (firstn k l) + snd (nth k l empty_bin).
Proof.
  induction l as [|x l IH]; intros [|k] L; simpl in L; try lia; [unfold cnt; simpl; lia|].
  change (snd x + cnt (firstn (S k) l) = snd x + cnt (firstn k l) + snd (nth k l empty_bin)). rewrite IH by lia. lia.
Qed.

Lemma upd_nth_same : forall {A} (l : list A) k v d, k < length l -> nth k (upd l k v) d = v.
Proof. intros. apply nth_upd_same. auto. Qed.

Lemma Forall_upd : forall {A} (P : A -> Prop) (l : list A) k v, Forall P l -> P v -> Forall P (upd l k v).
Proof.
  intros A P l k v F V. destruct (Nat.lt_ge_cases k (length l)) as [L|L].
  - rewrite upd_split by auto. rewrite <- (firstn_skipn k l) in F. apply Forall_app in F as [F1 F2].
    apply Forall_app. split; auto. constructor; auto. replace (skipn (S k) l) with (skipn 1 (skipn k l)).
    + destruct (skipn k l); [constructor|]. inversion F2; auto.
    + clear. revert k. induction l as [|x l IH]; intros [|k]; auto. exact (IH k).
  - assert (upd l k v = l) as ->; auto. clear - L. revert k L. induction l as [|x l IH]; intros [|k] L; simpl in *; auto; try lia.
    f_equal. apply IH. lia.
Qed.

Section Tally.
  Variables (aabbs : list aabb) (centers : list vec3) (bounds : aabb).
  Notation bin_of axis p := (compute_bin_index bounds (nth p centers (vsplat f0)) axis).
  Definition tally (axis : nat) (ids : list nat) (k : nat) : nat := length (filter (fun p => bin_of axis p =? k) ids).

  Lemma pick_add : forall (f : nat -> list bin) axis, pick (f 0, f 1, f 2) axis = f (match axis with 0 => 0 | 1 => 1 | _ => 2 end).
  Proof. intros f [|[|axis]]; reflexivity. Qed.

  Lemma bin_axis : forall c axis, compute_bin_index bounds c (match axis with 0 => 0 | 1 => 1 | _ => 2 end) = compute_bin_index bounds c axis.
  Proof.
    intros c [|[|axis]]; reflexivity.
  Qed.

  Lemma fill_tally : forall ids bins0 bins,
    (forall axis, length (pick bins0 axis) = BINS /\ tidy (pick bins0 axis)) ->
    for_each ids (fill_one aabbs centers bounds) bins0 = Ok bins ->
    forall axis, length (pick bins axis) = BINS /\ tidy (pick bins axis) /\
      forall k, snd (nth k (pick bins axis) empty_bin) = snd (nth k (pick bins0 axis) empty_bin) + tally axis ids k.
  Proof.
    intros ids. induction ids as [|p ids IH]; intros bins0 bins B E axis; cbn [for_each] in E.
    - injection E as <-. destruct (B axis) as [L T]. split; [auto|]. split; [auto|]. intro k. unfold tally. simpl. lia.
    - unfold fill_one at 1 in E. unfold get in E.
      destruct (nth_error centers p) as [c|] eqn:Ec; [|discriminate].
      destruct (nth_error aabbs p) as [bp|] eqn:Eb; [|discriminate].
      destruct bins0 as [[b0 b1] b2]. cbn [bind] in E.
      set (f := fun a => add_to_bin (pick (b0, b1, b2) a) (compute_bin_index bounds c a) bp).
      change (for_each ids (fill_one aabbs centers bounds) (f 0, f 1, f 2) = Ok bins) in E.
      assert (forall ax, pick (f 0, f 1, f 2) ax = add_to_bin (pick (b0, b1, b2) ax) (compute_bin_index bounds c ax) bp) as Pf.
      { intro ax. rewrite pick_add. unfold f. rewrite bin_axis. destruct ax as [|[|ax]]; reflexivity. }
      assert (forall ax, length (pick (f 0, f 1, f 2) ax) = BINS /\ tidy (pick (f 0, f 1, f 2) ax)) as B'.
      { intro ax. rewrite Pf. destruct (B ax) as [L T]. unfold add_to_bin. split; [rewrite upd_length; auto|].
        apply Forall_upd; auto. simpl. discriminate. }
      destruct (IH _ _ B' E axis) as (L & T & H). split; [auto|]. split; [auto|].
      intro k. rewrite H, Pf. destruct (B axis) as [L0 _]. unfold tally. cbn [filter]. rewrite (nth_error_nth _ _ _ Ec).
      unfold add_to_bin. destruct (Nat.eqb_spec (compute_bin_index bounds c axis) k) as [<-|N].
      + rewrite nth_upd_same by (rewrite L0; apply (bin_lt [] [] eq_refl)). simpl. lia.
      + rewrite nth_upd_other by auto. lia.
  Qed.

  Lemma tally_lt : forall axis ids i, length (filter (fun p => bin_of axis p <? S i) ids) =
    length (filter (fun p => bin_of axis p <? i) ids) + tally axis ids i.
  Proof.
    intros axis ids i. unfold tally. induction ids as [|p ids IH]; simpl; auto.
    destruct (Nat.ltb_spec (bin_of axis p) (S i)); destruct (Nat.ltb_spec (bin_of axis p) i);
      destruct (Nat.eqb_spec (bin_of axis p) i); simpl; lia.
  Qed.

  Lemma fill_counts : forall ids bins axis, fill aabbs centers bounds ids = Ok bins ->
    length (pick bins axis) = BINS /\ tidy (pick bins axis) /\
    (forall k, snd (nth k (pick bins axis) empty_bin) = tally axis ids k) /\
    (forall i, i <= BINS -> cnt (firstn i (pick bins axis)) = length (filter (fun p => bin_of axis p <? i) ids)).
  Proof.
    intros ids bins axis E. unfold fill in E.
    set (e := repeat empty_bin BINS) in *.
    destruct (fill_tally ids (e, e, e) bins) with (axis := axis) as (L & T & H); [|exact E|].
    { intro ax. assert (forall l, l = repeat empty_bin BINS -> length l = BINS /\ tidy l) as G.
      { intros l ->. split; [apply repeat_length|]. apply Forall_forall. intros x Ix. apply repeat_spec in Ix. auto. }
      apply G. destruct ax as [|[|ax]]; reflexivity. }
    assert (forall k, snd (nth k (pick bins axis) empty_bin) = tally axis ids k) as H'.
    { intro k. rewrite H. assert (forall l, l = repeat empty_bin BINS -> snd (nth k l empty_bin) = 0) as G.
      { intros l ->. rewrite nth_repeat. reflexivity. }
      rewrite G; auto. destruct axis as [|[|ax]]; reflexivity. }
    split; [auto|]. split; [auto|]. split; [auto|].
    induction i as [|i IH]; intro Li.
    - simpl. clear. induction ids; simpl; auto.
    - rewrite cnt_firstn_S by lia. rewrite IH by lia. rewrite tally_lt, H'. auto.
  Qed.
End Tally.

(** ** The cheapest SAH split leaves no side empty *)
Lemma grow_new : grow_bb aabb_new aabb_new = aabb_new.
Proof. vm_compute. reflexivity. Qed.
Lemma nan_cost : fnan (fmul (half_area aabb_new) (fn 0)) = true.
Proof. vm_compute. reflexivity. Qed.
Lemma fadd_nan : forall x y : f32, fnan x = true \/ fnan y = true -> fnan (fadd x y) = true.
Proof. intros [s|s| |s m e H] [s'|s'| |s' m' e' H'] [A|A]; try discriminate; reflexivity. Qed.
Lemma flt_nan : forall x y : f32, fnan x = true -> flt x y = false.
Proof. intros [s|s| |s m e H] y A; try discriminate; destruct y as [s'|s'| |s' m' e' H']; reflexivity. Qed.

(** [acc] are the costs of the suffixes of [d]. *)
Fixpoint aligned (acc : list f32) (d : list bin) : Prop :=
  match acc, d with
  | [], [] => True
  | r :: acc, b :: d => (cnt (b :: d) = 0 -> fnan r = true) /\ aligned acc d
  | _, _ => False
  end.

Lemma right_aligned : forall l box count acc d, tidy l ->
  count = cnt d -> (count = 0 -> box = aabb_new) -> aligned acc d -> aligned (right_costs l box count acc) (rev l ++ d).
Proof.
  induction l as [|[b c] l IH]; intros box count acc d T C B A; cbn [right_costs rev]; [exact A|].
  inversion T as [|? ? T1 T2]; subst. rewrite <- app_assoc. cbn [app]. apply IH; auto.
  - unfold cnt. simpl. fold (cnt d). lia.
  - intro Z. assert (c = 0) as -> by lia. simpl in T1. injection (T1 eq_refl) as ->. rewrite B by lia. apply grow_new.
  - cbn [aligned]. split; auto. unfold cnt at 1. simpl. fold (cnt d). intro Z.
    assert (c = 0) as -> by lia. simpl in T1. injection (T1 eq_refl) as ->. rewrite B by lia. rewrite grow_new.
    replace (cnt d + 0) with 0 by lia. apply nan_cost.
Qed.

Lemma left_proper : forall l rights box count i best, tidy l ->
  (count = 0 -> box = aabb_new) -> (l = [] \/ exists x l', l = x :: l' /\ aligned rights l') ->
  let r := left_pass l rights box count i best in
  r = best \/ (i < snd r /\ snd r < i + length l /\ 0 < count + cnt (firstn (snd r - i) l) /\ 0 < cnt (skipn (snd r - i) l)).
Proof.
  induction l as [|[b c] l IH]; intros rights box count i best T B A r; [left; destruct rights; reflexivity|].
  destruct A as [A|([b' c'] & l' & E & A)]; [discriminate|]. injection E as <- <- <-.
  inversion T as [|? ? T1 T2]; subst.
  destruct rights as [|rc rights]; [left; reflexivity|].
  destruct l as [|y l]; [destruct A|]. destruct A as [A1 A2].
  set (box' := grow_bb box b). set (count' := count + c).
  set (cost := fadd (fmul (half_area box') (fn count')) rc).
  assert (count' = 0 -> box' = aabb_new) as B'.
  { intro Z. unfold count' in Z. assert (c = 0) as -> by lia. simpl in T1. injection (T1 eq_refl) as ->.
    unfold box'. rewrite B by lia. apply grow_new. }
  set (best' := if flt cost (fst best) then (cost, S i) else best).
  assert (best' = best \/ (snd best' = S i /\ 0 < count' /\ 0 < cnt (y :: l))) as Hb.
  { unfold best'. destruct (flt cost (fst best)) eqn:F; auto. right. split; auto.
    assert (fnan cost = false) as N by (destruct (fnan cost) eqn:N; auto; rewrite flt_nan in F by auto; discriminate).
    split.
    - destruct (Nat.eq_dec count' 0) as [Z|Z]; [|lia]. exfalso. unfold cost in N. rewrite fadd_nan in N; [discriminate|].
      left. rewrite (B' Z), Z. apply nan_cost.
    - destruct (Nat.eq_dec (cnt (y :: l)) 0) as [Z|Z]; [|lia]. exfalso. unfold cost in N. rewrite fadd_nan in N; [discriminate|]. auto. }
  assert (r = left_pass (y :: l) rights box' count' (S i) best') as Er by reflexivity. clearbody r. subst r.
  destruct (IH rights box' count' (S i) best' T2 B' ltac:(right; exists y, l; auto)) as [E|(H1 & H2 & H3 & H4)].
  - rewrite E. destruct Hb as [Hb|(Hb & P1 & P2)]; [left; auto|]. right. rewrite Hb.
    replace (S i - i) with 1 by lia. cbn [firstn skipn length]. split; [lia|]. split; [simpl; lia|]. split; [|auto].
    unfold cnt. simpl. unfold count' in P1. lia.
  - right. set (s := snd (left_pass (y :: l) rights box' count' (S i) best')) in *.
    split; [lia|]. split; [simpl in *; lia|]. replace (s - i) with (S (s - S i)) by lia. cbn [firstn skipn].
    split; [|exact H4]. unfold cnt at 1. cbn [map list_sum fold_right]. fold (list_sum (map snd (firstn (s - S i) (y :: l)))).
    fold (cnt (firstn (s - S i) (y :: l))). unfold count' in H3. simpl snd. lia.
Qed.

Lemma find_split_proper : forall bins, length bins = BINS -> tidy bins -> snd (find_split bins) <> BINS ->
  snd (find_split bins) < BINS /\ 0 < cnt (firstn (snd (find_split bins)) bins) /\ 0 < cnt (skipn (snd (find_split bins)) bins).
Proof.
  intros bins L T N. destruct bins as [|x bins]; [discriminate|].
  destruct (left_proper (x :: bins) (right_costs (rev (skipn 1 (x :: bins))) aabb_new 0 []) aabb_new 0 0 (fMAX, BINS)) as [E|H]; auto.
  - right. exists x, bins. split; auto. change (skipn 1 (x :: bins)) with bins.
    pose proof (right_aligned (rev bins) aabb_new 0 [] []) as G. rewrite rev_involutive, app_nil_r in G.
    apply G; auto; [|exact I].
    inversion T; subst. apply Forall_rev. auto.
  - unfold find_split in N. rewrite E in N. simpl in N. congruence.
  - change (left_pass _ _ _ _ _ _) with (find_split (x :: bins)) in H. rewrite Nat.sub_0_r in H. rewrite L in H. tauto.
Qed.

(** ** Leaves *)
Section Leaf.
  Variables (mls : nat) (aabbs : list aabb) (centers : list vec3).
  Hypothesis Hlen : length centers = length aabbs.
  Hypothesis Hpos : 1 <= length aabbs.
  Notation sah := (sah mls aabbs centers).

  (** Some bin of [bounds] along its longest axis holds three fifths of [ids]. *)
  Definition crowded (bounds : aabb) (ids : list nat) : Prop :=
    exists k, k < BINS /\ 3 * length ids <= 5 * tally centers bounds (longest_axis bounds) ids k.

  Lemma filter_all : forall (f : nat -> bool) l, (forall x, In x l -> f x = true) -> length (filter f l) = length l.
  Proof. intros f l H. induction l as [|x l IH]; simpl; auto. rewrite (H x) by (simpl; auto). simpl. rewrite IH; auto. intros; apply H; simpl; auto. Qed.

  Lemma median_spec : forall l goal count i,
    match median l goal count i with
    | Some s => i < s /\ s <= i + length l /\ goal <= count + cnt (firstn (s - i) l) /\
                (s - 1 - i = 0 \/ count + cnt (firstn (s - 1 - i) l) < goal)
    | None => l = [] \/ count + cnt l < goal
    end.
  Proof.
    induction l as [|[b c] l IH]; intros goal count i; cbn [median]; auto.
    destruct (Nat.leb_spec goal (count + c)) as [L|L].
    - replace (S i - i) with 1 by lia. replace (S i - 1 - i) with 0 by lia. simpl. unfold cnt. simpl. split; [lia|]. split; [lia|]. split; [lia|auto].
    - pose proof (IH goal (count + c) (S i)) as H. destruct (median l goal (count + c) (S i)) as [s|].
      + destruct H as (H1 & H2 & H3 & H4). split; [lia|]. split; [simpl; lia|].
        replace (s - i) with (S (s - S i)) by lia. cbn [firstn]. split; [unfold cnt in *; simpl; lia|].
        right. replace (s - 1 - i) with (S (s - 1 - S i)) by lia. cbn [firstn].
        destruct H4 as [H4|H4]; [rewrite H4|]; unfold cnt in *; simpl; lia.
      + right. destruct H as [->|H]; unfold cnt in *; simpl; lia.
  Qed.

  Lemma cnt_skipn : forall bins i, cnt bins = cnt (firstn i bins) + cnt (skipn i bins).
  Proof. intros bins i. rewrite <- cnt_app, firstn_skipn. auto. Qed.

  Lemma plan_crowded : forall bounds ids axis si lb rb,
    make_plan aabbs centers mls bounds ids = Ok (Split axis si lb rb) -> 1 <= length ids ->
    let c := length (filter (goes_left centers bounds axis si) ids) in
    (0 < c /\ c < length ids) \/ crowded bounds ids.
  Proof.
    intros bounds ids axis si lb rb E N1 c. unfold make_plan in E.
    destruct (fill aabbs centers bounds ids) as [bins| | |] eqn:Ef; try discriminate. cbn [bind] in E.
    pose proof (fill_counts aabbs centers bounds ids bins) as FC.
    assert (forall ax, cnt (pick bins ax) = length ids) as Tot.
    { intro ax. destruct (FC ax Ef) as (L & _ & _ & H). rewrite <- (firstn_all (pick bins ax)), L, H by auto.
      apply filter_all. intros x _. apply Nat.ltb_lt. apply (bin_lt [] [] eq_refl). }
    set (bs := (find_split (pick bins 0), find_split (pick bins 1), find_split (pick bins 2))) in E.
    set (ba := if fgt _ (fst (pick bs 2)) then 2 else _) in E.
    destruct ((snd (pick bs ba) =? BINS) || _) eqn:Fb.
    - clear Fb. destruct (mls <? length ids); [|discriminate].
      match type of E with Ok (Split ?a ?i ?l ?r) = _ => assert (a = axis /\ i = si) as [Ea Ei] by (inversion E; auto); clear E end.
      destruct (FC axis Ef) as (L & T & Tk & H). rewrite Ea in Ei.
      pose proof (median_spec (firstn (BINS - 1) (pick bins axis)) (length ids * 2 / 5 + 1) 0 0) as M.
      assert (length ids * 2 / 5 * 5 <= length ids * 2) as Dv by (rewrite Nat.mul_comm; apply Nat.mul_div_le; lia).
      destruct (median _ _ 0 0) as [s|].
      + subst s. rewrite !Nat.sub_0_r in M. destruct M as (M1 & M2 & M3 & M4). rewrite Nat.add_0_l in M2, M3, M4.
        rewrite firstn_length, L in M2. change (Nat.min (BINS - 1) BINS) with 15 in M2.
        rewrite firstn_firstn in M3, M4. change (BINS - 1) with 15 in *. rewrite Nat.min_l in M3, M4 by lia.
        assert (c = cnt (firstn si (pick bins axis))) as Ec by (rewrite H by (unfold BINS; lia); reflexivity).
        destruct (Nat.eq_dec c (length ids)) as [Ea'|Na]; [right|left].
        * exists (si - 1). split; [unfold BINS; lia|]. rewrite Ea. rewrite <- Tk.
          pose proof (cnt_firstn_S (pick bins axis) (si - 1) ltac:(rewrite L; unfold BINS; lia)) as Cs.
          replace (S (si - 1)) with si in Cs by lia.
          destruct M4 as [M4|M4]; [rewrite M4 in Cs |- *; unfold cnt at 2 in Cs; simpl in Cs|]; lia.
        * split; [lia|]. pose proof (cnt_skipn (pick bins axis) si). rewrite Tot in *. lia.
      + right. exists 15. split; [unfold BINS; lia|]. rewrite Ea, <- Tk.
        pose proof (cnt_firstn_S (pick bins axis) 15 ltac:(rewrite L; unfold BINS; lia)) as Cs.
        change 16 with BINS in Cs. rewrite <- L in Cs at 1. rewrite firstn_all, Tot in Cs.
        change (BINS - 1) with 15 in M. destruct M as [M|M]; [|lia].
        apply (f_equal (@length _)) in M. rewrite firstn_length, L in M. discriminate.
    - left. apply orb_false_iff in Fb as [Fb _]. apply Nat.eqb_neq in Fb.
      match type of E with Ok (Split ?a ?i ?l ?r) = _ => assert (a = axis /\ i = si) as [Ea Ei] by (inversion E; auto); clear E end.
      rewrite Ea in *. assert (snd (pick bs axis) = snd (find_split (pick bins axis))) as Es.
      { unfold bs. destruct axis as [|[|ax]]; reflexivity. }
      destruct (FC axis Ef) as (L & T & Tk & H).
      destruct (find_split_proper (pick bins axis) L T ltac:(congruence)) as (S1 & S2 & S3). rewrite <- Es, Ei in *.
      assert (c = cnt (firstn si (pick bins axis))) as Ec by (rewrite H by lia; reflexivity).
      split; [lia|]. pose proof (cnt_skipn (pick bins axis) si). rewrite Tot in *. lia.
  Qed.

  Lemma crowded_perm : forall bounds l l', Permutation l l' -> crowded bounds l -> crowded bounds l'.
  Proof.
    intros bounds l l' P (k & Lk & H). exists k. split; auto. unfold tally in *.
    assert (forall f : nat -> bool, length (filter f l) = length (filter f l')) as G.
    { intro f. clear - P. induction P; simpl; auto; [destruct (f x)|destruct (f x), (f y)|]; simpl; congruence. }
    rewrite <- G, <- (Permutation_length P). auto.
  Qed.

  (** [k] more levels may follow. *)
  Fixpoint sbig (k : nat) (s : shape) (ids : list nat) : Prop :=
    length ids = s_len s /\
    match s with
    | SLeaf mn mx _ _ => 0 < k -> 1 < length ids -> mls < length ids ->
        exists bounds, mn = bmin (with_offset bounds f1em4) /\ mx = bmax (with_offset bounds f1em4) /\ crowded bounds ids
    | SNode mn mx l r => exists il ir, ids = il ++ ir /\ sbig (k - 1) l il /\ sbig (k - 1) r ir
    end.

  Lemma plan_leaf_small : forall bounds ids, make_plan aabbs centers mls bounds ids = Ok MakeLeaf -> length ids <= mls.
  Proof.
    intros bounds ids E. unfold make_plan in E.
    destruct (fill aabbs centers bounds ids) as [bins| | |]; try discriminate. cbn [bind] in E.
    destruct ((_ =? BINS) || _); [|discriminate]. destruct (Nat.ltb_spec mls (length ids)); [discriminate|auto].
  Qed.

  Lemma sah_big : forall k begin ids box, Forall (fun p => p < length aabbs) ids ->
    sbig k (fst (sah k begin ids box)) (snd (sah k begin ids box)).
  Proof.
    induction k as [|k IH]; intros begin ids box F.
    - cbn. split; [symmetry; apply Nat2Z.id|lia].
    - pose proof (sah_perm mls aabbs centers (S k) begin ids box) as Pall.
      pose proof (sah_len mls aabbs centers (S k) begin ids box) as Lall.
      cbn [BinnedProofs.sah] in *.
      assert (forall l, length l <= 1 \/ length l <= mls \/ crowded (with_offset box f1em4) l ->
        sbig (S k) (SLeaf (bmin (with_offset (with_offset box f1em4) f1em4)) (bmax (with_offset (with_offset box f1em4) f1em4)) (Z.of_nat begin) (Z.of_nat (length l))) l) as Leaf.
      { intros l H. cbn [sbig s_len]. split; [symmetry; apply Nat2Z.id|]. intros _ H1 H2.
        exists (with_offset box f1em4). split; [reflexivity|]. split; [reflexivity|]. destruct H as [H|[H|H]]; [lia|lia|auto]. }
      destruct (Nat.leb_spec (length ids) 1) as [L1|L1]; [apply Leaf; auto|].
      destruct (plan_ok mls aabbs centers Hlen Hpos (with_offset box f1em4) ids F) as (pl & Ep). rewrite Ep in *.
      destruct pl as [|axis si lb rb]; [apply Leaf; right; left; eapply plan_leaf_small; eauto|].
      pose proof (plan_crowded _ _ _ _ _ _ Ep ltac:(lia)) as Pc. cbv zeta in Pc.
      destruct (partition_spec _ ids (length ids) (goes_left centers (with_offset box f1em4) axis si)) as (ids' & c & E & Cc & Lc & P & L & T & Fl & _); auto.
      rewrite firstn_all in Cc. rewrite E in *. unfold count_if in Cc. rewrite <- Cc in Pc.
      destruct ((0 <? c) && (c <? length ids)) eqn:Both.
      + cbn [fst snd sbig] in *. split; [rewrite (Permutation_length Pall); symmetry; exact Lall|].
        assert (Forall (fun p => p < length aabbs) ids') as Lt' by (eapply Permutation_Forall; [symmetry; eauto|auto]).
        rewrite <- (firstn_skipn c ids') in Lt'. apply Forall_app in Lt' as [Lt1 Lt2].
        eexists _, _. split; [reflexivity|]. rewrite Nat.sub_succ, Nat.sub_0_r. split; apply IH; auto.
      + destruct Pc as [[A B]|Pc].
        * apply andb_false_iff in Both as [Bo|Bo]; apply Nat.ltb_ge in Bo; lia.
        * apply Leaf. right. right. eapply crowded_perm; [apply Permutation_sym; exact P|auto].
  Qed.

  Lemma sbig_tree : forall indices t k ids, sbig k (shape_of t) ids -> prims indices t = ids ->
    forall d n, leaf_at d n t -> d < k -> 1 < length (leaf_prims indices n) -> mls < length (leaf_prims indices n) ->
    exists bounds, bmin n = bmin (with_offset bounds f1em4) /\ bmax n = bmax (with_offset bounds f1em4) /\
      crowded bounds (leaf_prims indices n).
  Proof.
    intros indices t. induction t as [i nd|i nd l IHl r IHr]; intros k ids S P d n La Ld L1 L2; cbn [shape_of sbig] in S.
    - inversion La; subst. destruct S as [_ S].
      change (prims indices (TLeaf i nd)) with (leaf_prims indices nd) in S. apply S; auto.
    - destruct S as (_ & il & ir & E & Sl & Sr).
      assert (prims indices (TNode i nd l r) = prims indices l ++ prims indices r) as Ep by apply map_app.
      assert (length il = length (prims indices l)) as Ll.
      { unfold prims. rewrite map_length, shape_len. destruct l; simpl in Sl; apply Sl. }
      assert (il = prims indices l /\ ir = prims indices r) as [-> ->].
      { rewrite Ep in P. rewrite <- P in E. symmetry in E. apply app_inj_len in E; auto. }
      inversion La; subst.
      + eapply IHl; eauto. lia.
      + eapply IHr; eauto. lia.
  Qed.
End Leaf.
