(** * Termination of the binned-SAH build and properties of the tree it builds *)
Require Import List Arith Lia ZArith Bool Permutation.
From Verif Require Import F32 F32Facts Vec AabbModel AabbProofs Base NodeModel UtilsModel UtilsProofs LocbModel SpawnModel SpawnProofs
  SpecGeom SpecTree BinnedModel BinnedProofs.
Import ListNotations.

(** ** Termination *)
Definition pot_w (w : nat) : nat := (2 * Nat.max w 1 - 1) * (6 * Nat.max w 1 + 40).
Definition b_pot (t : btask) : nat := pot_w (b_work t).

Fixpoint cost (p : prog) (e : nat) : Prop :=
  match p with
  | Ret None => 0 < e
  | Ret (Some (a, b)) => b_pot a + b_pot b + 1 < e
  | Fail => True
  | RdN _ k => 0 < e /\ forall v, cost (k v) (e - 1)
  | WrN _ _ k => 0 < e /\ cost k (e - 1)
  | RdI _ k => 0 < e /\ forall v, cost (k v) (e - 1)
  | WrI _ _ k => 0 < e /\ cost k (e - 1)
  | Alloc k => 0 < e /\ forall left, cost (k left) (e - 1)
  end.

Lemma cost_mono : forall p e e', e <= e' -> cost p e -> cost p e'.
Proof.
  induction p as [[[a b]|]| |i k IH|i v k IH|i k IH|i v k IH|k IH]; intros e e' L C; simpl in *; try lia; auto.
  all: destruct C as [C1 C2]; split; [lia|]. all: try (intro v; apply (IH v (e - 1)); [lia|auto]).
  all: apply (IH (e - 1)); [lia|auto].
Qed.

Lemma cost_leaf : forall t e, 5 <= e -> cost (leaf_prog t) e.
Proof. intros t e L. unfold leaf_prog. cbn [cost]. repeat split; intros; try lia. Qed.

Lemma cost_read : forall len i acc k e, (forall l, cost (k l) e) -> cost (read_ids i len acc k) (len + e).
Proof.
  induction len as [|len IH]; intros i acc k e H; simpl; auto. split; [lia|]. intro v.
  rewrite Nat.sub_0_r. auto.
Qed.

Lemma cost_part : forall check base len i count k e, (forall c, cost (k c) e) ->
  cost (part_loop check base i len count k) (5 * len + e).
Proof.
  intros check base. induction len as [|len IH]; intros i count k e H; [simpl; auto|].
  cbn [part_loop cost]. split; [lia|]. intro v. destruct (check v).
  - cbn [cost]. repeat split; intros; try lia.
    apply cost_mono with (5 * len + e); [lia|auto].
  - apply cost_mono with (5 * len + e); [lia|auto].
Qed.

Lemma pot_split : forall a b, 1 <= a -> 1 <= b -> pot_w a + pot_w b + (6 * (a + b) + 40) <= pot_w (a + b).
Proof.
  intros a b La Lb. unfold pot_w. rewrite !Nat.max_l by lia.
  assert ((2 * a - 1) * (6 * a + 40) <= (2 * a - 1) * (6 * (a + b) + 40)) by (apply Nat.mul_le_mono_l; lia).
  assert ((2 * b - 1) * (6 * b + 40) <= (2 * b - 1) * (6 * (a + b) + 40)) by (apply Nat.mul_le_mono_l; lia).
  replace (2 * (a + b) - 1) with ((2 * a - 1) + (2 * b - 1) + 1) by lia. rewrite !Nat.mul_add_distr_r. lia.
Qed.
Lemma pot_min : forall w, 46 <= pot_w w.
Proof.
  intro w. unfold pot_w. replace 46 with (1 * 46) by lia. apply Nat.mul_le_mono; lia.
Qed.
Lemma pot_ge : forall w, 6 * w + 40 <= pot_w w.
Proof.
  intro w. unfold pot_w. replace (6 * w + 40) with (1 * (6 * w + 40)) by lia. apply Nat.mul_le_mono; lia.
Qed.

Lemma cost_run : forall slots mls aabbs centers t, cost (run slots mls aabbs centers t) (b_pot t - 1).
Proof.
  intros slots mls aabbs centers t. unfold run, b_pot. set (w := b_work t).
  pose proof (pot_min w) as Pm. pose proof (pot_ge w) as Pg.
  cbn [cost]. split; [lia|]. intro v. split; [lia|].
  destruct ((w <=? 1) || (MAX_DEPTH <=? k_depth t)) eqn:Stop; [apply cost_leaf; lia|].
  apply orb_false_iff in Stop as [S1 _]. apply Nat.leb_gt in S1.
  cbn [cost]. split; [lia|]. intro bounds.
  apply cost_mono with (w + (5 * w + (pot_w w - 6 * w - 10))); [lia|].
  apply cost_read. intro l.
  destruct (make_plan aabbs centers mls bounds l) as [[|axis si lb rb]| | |]; try exact I; [apply cost_leaf; lia|].
  apply cost_part. intro c.
  destruct ((0 <? c) && (c <? w)) eqn:Both; [|apply cost_leaf; lia].
  apply andb_true_iff in Both as [B1 B2]. apply Nat.ltb_lt in B1, B2.
  pose proof (pot_split c (w - c) ltac:(lia) ltac:(lia)) as Ps. replace (c + (w - c)) with w in Ps by lia.
  cbn [cost]. split; [lia|]. intro left. destruct (slots <=? left); [exact I|].
  cbn [cost]. split; [lia|]. intro nd. repeat (split; [lia|]).
  unfold b_pot. cbn [b_work k_end k_begin]. unfold b_work at 1 2. cbn [k_end k_begin].
  replace (k_begin t + c - k_begin t) with c by lia.
  replace (k_end t - (k_begin t + c)) with (w - c) by (unfold w, b_work; lia). lia.
Qed.

Lemma b_pays : forall slots mls aabbs centers, pays btask smem prog (run slots mls aabbs centers) pstep b_pot cost.
Proof.
  intros slots mls aabbs centers. split; [|split; [|split]].
  - intro t. exists (b_pot t - 1). split; [apply cost_run|]. unfold b_pot. pose proof (pot_min (b_work t)). lia.
  - intros p e m p' m' C E. exists (e - 1).
    destruct p as [r| |i k|i v k|i k|i v k|k]; cbn [pstep cost] in *; try discriminate.
    + destruct (nth_error (m_nodes m) i); [|discriminate]. injection E as <- _. destruct C as [C1 C2]. split; [auto|lia].
    + destruct (i <? length (m_nodes m)); [|discriminate]. injection E as <- _. destruct C as [C1 C2]. split; [auto|lia].
    + destruct (nth_error (m_idx m) i); [|discriminate]. injection E as <- _. destruct C as [C1 C2]. split; [auto|lia].
    + destruct (i <? length (m_idx m)); [|discriminate]. injection E as <- _. destruct C as [C1 C2]. split; [auto|lia].
    + injection E as <- _. destruct C as [C1 C2]. split; [auto|lia].
  - intros p e m C E. destruct p as [r| |i k|i v k|i k|i v k|k]; cbn [pstep cost] in *; try discriminate; try apply C.
    injection E as ->. auto.
  - intros p e m a b C E. destruct p as [r| |i k|i v k|i k|i v k|k]; cbn [pstep cost] in *; try discriminate.
    + injection E as ->. auto.
    + destruct (nth_error (m_nodes m) i); discriminate.
    + destruct (i <? length (m_nodes m)); discriminate.
    + destruct (nth_error (m_idx m) i); discriminate.
    + destruct (i <? length (m_idx m)); discriminate.
Qed.

(** ** The sequential tree *)
Fixpoint s_depth (s : shape) : nat :=
  match s with SLeaf _ _ _ _ => 0 | SNode _ _ l r => S (Nat.max (s_depth l) (s_depth r)) end.
Lemma shape_depth : forall t, s_depth (shape_of t) = depth t.
Proof. induction t as [i nd|i nd l IHl r IHr]; simpl; auto. Qed.

Fixpoint s_len (s : shape) : nat :=
  match s with SLeaf _ _ _ c => Z.to_nat c | SNode _ _ l r => s_len l + s_len r end.
Lemma shape_len : forall t, length (positions t) = s_len (shape_of t).
Proof.
  induction t as [i nd|i nd l IHl r IHr]; simpl; [apply seq_length|]. rewrite app_length. congruence.
Qed.

Lemma app_inj_len : forall {A} (a b c d : list A), a ++ b = c ++ d -> length a = length c -> a = c /\ b = d.
Proof.
  intros A a. induction a as [|x a IH]; intros b [|y c] d E L; simpl in *; try discriminate; auto.
  injection E as -> E. destruct (IH b c d E) as [-> ->]; auto.
Qed.

Section Seq.
  Variables (mls : nat) (aabbs : list aabb) (centers : list vec3).
  Notation sah := (sah mls aabbs centers).

  Lemma sah_perm : forall k begin ids box, Permutation (snd (sah k begin ids box)) ids.
  Proof.
    induction k as [|k IH]; intros begin ids box; cbn [BinnedProofs.sah]; [simpl; auto|].
    destruct (length ids <=? 1); [simpl; auto|].
    destruct (make_plan aabbs centers mls (with_offset box f1em4) ids) as [[|axis si lb rb]| | |]; try (simpl; auto; fail).
    destruct (partition_spec _ ids (length ids) (goes_left centers (with_offset box f1em4) axis si)) as (ids' & c & E & _ & Lc & P & _ & _); auto.
    rewrite E. destruct ((0 <? c) && (c <? length ids)); [|simpl; auto].
    cbn [snd]. rewrite !IH, firstn_skipn. auto.
  Qed.

  Lemma sah_depth : forall k begin ids box, s_depth (fst (sah k begin ids box)) <= k.
  Proof.
    induction k as [|k IH]; intros begin ids box; cbn [BinnedProofs.sah]; [simpl; auto|].
    destruct (length ids <=? 1); [simpl; lia|].
    destruct (make_plan aabbs centers mls (with_offset box f1em4) ids) as [[|axis si lb rb]| | |]; try (simpl; lia).
    destruct (partition ids 0 (length ids) (goes_left centers (with_offset box f1em4) axis si)) as [[ids' c]| | |]; try (simpl; lia).
    destruct ((0 <? c) && (c <? length ids)); [|simpl; lia].
    cbn [fst s_depth]. pose proof (IH begin (firstn c ids') lb). pose proof (IH (begin + c) (skipn c ids') rb). lia.
  Qed.

  (** *** Enclosure *)
  Hypothesis Hok : Forall box_ok aabbs.
  Hypothesis Hlen : length centers = length aabbs.

  Definition encl (box : aabb) (ids : list nat) : Prop :=
    Forall (fun p => forall b, nth_error aabbs p = Some b -> box_in b box) ids.

  Definition bins_ok (bins : list bin) : Prop := length bins = BINS /\ Forall (fun b => box_ok (fst b)) bins.
  Definition in_bin (bins : list bin) (k : nat) : aabb := fst (nth k bins empty_bin).

  Lemma bins_ok_nth : forall bins k, bins_ok bins -> box_ok (in_bin bins k).
  Proof.
    intros bins k [L F]. unfold in_bin. destruct (Nat.lt_ge_cases k (length bins)) as [C|C].
    - rewrite Forall_forall in F. apply F. apply nth_In. auto.
    - rewrite nth_overflow by auto. apply aabb_new_ok.
  Qed.

  Lemma add_ok : forall bins k b, bins_ok bins -> k < BINS -> box_ok b ->
    bins_ok (add_to_bin bins k b) /\ (forall j, box_in (in_bin bins j) (in_bin (add_to_bin bins k b) j)) /\
    box_in b (in_bin (add_to_bin bins k b) k).
  Proof.
    intros bins k b B Lk Ob. pose proof (bins_ok_nth bins k B) as Ok. destruct B as [L F]. unfold add_to_bin.
    assert (k < length bins) as Lk' by (rewrite L; auto).
    split; [|split].
    - split; [rewrite upd_length; auto|]. rewrite upd_split by auto. apply Forall_app. split.
      + apply Forall_forall. intros x Ix. rewrite Forall_forall in F. apply F.
        rewrite <- (firstn_skipn k bins). apply in_or_app. auto.
      + constructor; [simpl; apply grow_bb_ok; auto|].
        apply Forall_forall. intros x Ix. rewrite Forall_forall in F. apply F.
        rewrite <- (firstn_skipn (S k) bins). apply in_or_app. auto.
    - intro j. unfold in_bin. destruct (Nat.eq_dec k j) as [<-|N].
      + rewrite nth_upd_same by auto. simpl. apply grow_bb_in_l; auto.
      + rewrite nth_upd_other by auto. apply box_in_refl. apply (bins_ok_nth bins j). split; auto.
    - unfold in_bin. rewrite nth_upd_same by auto. simpl. apply grow_bb_in_r; auto.
  Qed.

  Lemma bin_lt : forall bounds c axis, compute_bin_index bounds c axis < BINS.
  Proof.
    intros bounds c axis. unfold compute_bin_index, BINS. cbv zeta.
    match goal with |- Z.to_nat (Z.min 15 ?z) < 16 => assert (Z.min 15 z <= 15)%Z by apply Z.le_min_l; set (q := Z.min 15 z) in * end.
    clearbody q. lia.
  Qed.

  Definition bins3_ok (bins : list bin * list bin * list bin) : Prop :=
    bins_ok (pick bins 0) /\ bins_ok (pick bins 1) /\ bins_ok (pick bins 2).
  Lemma pick_ok : forall bins axis, bins3_ok bins -> bins_ok (pick bins axis).
  Proof. intros [[b0 b1] b2] [|[|axis]] (A & B & C); simpl in *; auto. Qed.

  Lemma fill_inv : forall bounds ids bins0 bins, bins3_ok bins0 ->
    for_each ids (fill_one aabbs centers bounds) bins0 = Ok bins ->
    bins3_ok bins /\
    forall axis, (forall j, box_in (in_bin (pick bins0 axis) j) (in_bin (pick bins axis) j)) /\
      forall p b, In p ids -> nth_error aabbs p = Some b ->
        box_in b (in_bin (pick bins axis) (compute_bin_index bounds (nth p centers (vsplat f0)) axis)).
  Proof.
    intros bounds ids. induction ids as [|p ids IH]; intros bins0 bins B E; cbn [for_each] in E.
    - injection E as <-. split; auto. intro axis. split; [|intros p b []].
      intro j. apply box_in_refl, bins_ok_nth, pick_ok, B.
    - unfold fill_one at 1 in E. unfold get in E.
      destruct (nth_error centers p) as [c|] eqn:Ec; [|discriminate].
      destruct (nth_error aabbs p) as [bp|] eqn:Eb; [|discriminate].
      destruct bins0 as [[b0 b1] b2]. cbn [bind] in E. destruct B as (B0 & B1 & B2). cbn [pick] in *.
      assert (box_ok bp) as Obp by (rewrite Forall_forall in Hok; eapply Hok, nth_error_In; eauto).
      destruct (add_ok b0 (compute_bin_index bounds c 0) bp B0 (bin_lt _ _ _) Obp) as (G0 & M0 & I0).
      destruct (add_ok b1 (compute_bin_index bounds c 1) bp B1 (bin_lt _ _ _) Obp) as (G1 & M1 & I1).
      destruct (add_ok b2 (compute_bin_index bounds c 2) bp B2 (bin_lt _ _ _) Obp) as (G2 & M2 & I2).
      destruct (IH (_, _, _) bins (conj G0 (conj G1 G2)) E) as (Bo & H). split; auto.
      intro axis. destruct (H axis) as [Hm Hp]. split.
      + intro j. eapply box_in_trans; [|apply Hm]. destruct axis as [|[|axis]]; simpl; auto.
      + intros q b [->|Iq] Eq; [|apply Hp; auto]. assert (b = bp) as -> by congruence.
        eapply box_in_trans; [|apply Hm]. rewrite (nth_error_nth _ _ _ Ec).
        destruct axis as [|[|axis]]; simpl; auto.
  Qed.

  Lemma box_of_in : forall l k, Forall (fun b : bin => box_ok (fst b)) l -> k < length l -> box_in (fst (nth k l empty_bin)) (box_of l).
  Proof.
    intros l k F L. unfold box_of.
    assert (fold_left (fun a (b : bin) => grow_bb a (fst b)) l aabb_new = fold_left grow_bb (map fst l) aabb_new) as ->.
    { generalize aabb_new. clear. induction l as [|x l IH]; intro a; simpl; auto. }
    destruct (fold_grow_bb (map fst l) aabb_new aabb_new_ok) as (_ & _ & H).
    { apply Forall_forall. intros x Ix. apply in_map_iff in Ix as (y & <- & Iy). rewrite Forall_forall in F. auto. }
    rewrite Forall_forall in H. apply H. apply in_map. apply nth_In. auto.
  Qed.

  Lemma bin_in_first : forall bins c k, bins_ok bins -> k < c -> k < BINS -> box_in (in_bin bins k) (box_of (firstn c bins)).
  Proof.
    intros bins c k [L F] Lk Lb. unfold in_bin.
    replace (nth k bins empty_bin) with (nth k (firstn c bins) empty_bin).
    - apply box_of_in; [apply Forall_forall; intros x Ix; rewrite Forall_forall in F; apply F; rewrite <- (firstn_skipn c bins); apply in_or_app; auto|].
      rewrite firstn_length. lia.
    - rewrite <- (firstn_skipn c bins) at 2. rewrite app_nth1; auto. rewrite firstn_length. lia.
  Qed.
  Lemma bin_in_last : forall bins c k, bins_ok bins -> c <= k -> k < BINS -> box_in (in_bin bins k) (box_of (skipn c bins)).
  Proof.
    intros bins c k [L F] Lk Lb. unfold in_bin.
    replace (nth k bins empty_bin) with (nth (k - c) (skipn c bins) empty_bin).
    - apply box_of_in; [apply Forall_forall; intros x Ix; rewrite Forall_forall in F; apply F; rewrite <- (firstn_skipn c bins); apply in_or_app; auto|].
      rewrite skipn_length. lia.
    - rewrite <- (firstn_skipn c bins) at 2. rewrite app_nth2; rewrite firstn_length; [f_equal; lia|lia].
  Qed.

  Lemma start_bins_ok : bins3_ok (repeat empty_bin BINS, repeat empty_bin BINS, repeat empty_bin BINS).
  Proof.
    assert (bins_ok (repeat empty_bin BINS)) as H; [|repeat split; apply H].
    split; [apply repeat_length|]. apply Forall_forall. intros x Ix. apply repeat_spec in Ix as ->. apply aabb_new_ok.
  Qed.

  (** The boxes of a split. *)
  Lemma plan_boxes : forall bounds ids axis si lb rb,
    make_plan aabbs centers mls bounds ids = Ok (Split axis si lb rb) ->
    (forall p b, In p ids -> nth_error aabbs p = Some b -> goes_left centers bounds axis si p = false -> box_in b rb) /\
    (length ids <= mls ->
     forall p b, In p ids -> nth_error aabbs p = Some b -> goes_left centers bounds axis si p = true -> box_in b lb).
  Proof.
    intros bounds ids axis si lb rb E. unfold make_plan in E.
    destruct (fill aabbs centers bounds ids) as [bins| | |] eqn:Ef; try discriminate. cbn [bind] in E.
    destruct (fill_inv _ _ _ _ start_bins_ok Ef) as (Bo & Hf).
    set (bs := (find_split (pick bins 0), find_split (pick bins 1), find_split (pick bins 2))) in E.
    set (ba := if fgt _ (fst (pick bs 2)) then 2 else _) in E.
    assert (exists axis' si', Ok (Split axis' si' (box_of (firstn (snd (pick bs axis')) (pick bins axis'))) (box_of (skipn si' (pick bins axis')))) = Ok (Split axis si lb rb)
      /\ (length ids <= mls -> si' = snd (pick bs axis'))) as (axis' & si' & E' & Hs).
    { destruct ((snd (pick bs ba) =? BINS) || _).
      - destruct (Nat.ltb_spec mls (length ids)) as [L|L]; [|discriminate]. eexists _, _. split; [exact E|]. lia.
      - eexists _, _. split; [exact E|]. auto. }
    clear E. clearbody bs.
    assert (axis' = axis /\ si' = si /\ lb = box_of (firstn (snd (pick bs axis')) (pick bins axis')) /\ rb = box_of (skipn si' (pick bins axis')))
      as (-> & -> & -> & ->) by (inversion E'; auto).
    clear E'. destruct (Hf axis) as [_ Hp]. split.
    - intros p b Ip Eb G. unfold goes_left in G. apply Nat.ltb_ge in G.
      eapply box_in_trans; [apply Hp; eauto|]. apply bin_in_last; auto; [apply pick_ok, Bo|apply bin_lt].
    - intros L p b Ip Eb G. unfold goes_left in G. apply Nat.ltb_lt in G. rewrite <- (Hs L).
      eapply box_in_trans; [apply Hp; eauto|]. apply bin_in_first; auto; [apply pick_ok, Bo|apply bin_lt].
  Qed.

  Lemma encl_offset : forall box ids, Forall (fun p => p < length aabbs) ids -> encl box ids -> encl (with_offset box f1em4) ids.
  Proof.
    intros box ids Lt E. unfold encl in *. rewrite Forall_forall in *. intros p Ip b Eb.
    pose proof (E p Ip b Eb) as B. eapply box_in_trans; [exact B|].
    apply with_offset_in; [apply box_in_ok in B as [_ B]; auto| |]; apply f1em4_pos.
  Qed.

  (** [must]: the box of the root has to contain its primitives. *)
  Fixpoint sencl (must : bool) (s : shape) (ids : list nat) : Prop :=
    length ids = s_len s /\
    match s with
    | SLeaf mn mx _ _ => must = true -> encl (Bb mn 0 mx 0) ids
    | SNode mn mx l r => (must = true -> encl (Bb mn 0 mx 0) ids) /\
        exists il ir, ids = il ++ ir /\ sencl (length ids <=? mls) l il /\ sencl true r ir
    end.

  Lemma encl_box : forall b b' ids, bmin b = bmin b' -> bmax b = bmax b' -> encl b ids -> encl b' ids.
  Proof.
    intros b b' ids E1 E2 E. unfold encl in *. eapply Forall_impl; [|exact E]. intros p H q Eq. specialize (H q Eq).
    unfold box_in in *. rewrite <- E1, <- E2. auto.
  Qed.
  Lemma encl_perm : forall b l l', Permutation l l' -> encl b l -> encl b l'.
  Proof. intros b l l' P. unfold encl. apply Permutation_Forall; auto. Qed.

  Lemma sah_len : forall k begin ids box, s_len (fst (sah k begin ids box)) = length ids.
  Proof.
    induction k as [|k IH]; intros begin ids box; cbn [BinnedProofs.sah]; [simpl; apply Nat2Z.id|].
    destruct (length ids <=? 1); [simpl; apply Nat2Z.id|].
    destruct (make_plan aabbs centers mls (with_offset box f1em4) ids) as [[|axis si lb rb]| | |]; try (simpl; apply Nat2Z.id).
    destruct (partition_spec _ ids (length ids) (goes_left centers (with_offset box f1em4) axis si)) as (ids' & c & E & _ & Lc & P & L & _); auto.
    rewrite E. destruct ((0 <? c) && (c <? length ids)); [|simpl; rewrite L; apply Nat2Z.id].
    cbn [fst s_len]. rewrite !IH, <- app_length, firstn_skipn. auto.
  Qed.

  Lemma sah_encl : forall k begin ids box must, Forall (fun p => p < length aabbs) ids ->
    (must = true -> encl box ids) ->
    sencl must (fst (sah k begin ids box)) (snd (sah k begin ids box)).
  Proof.
    induction k as [|k IH]; intros begin ids box must Lt Hm.
    - cbn [BinnedProofs.sah fst snd sencl s_len]. split; [symmetry; apply Nat2Z.id|]. intro M.
      eapply encl_box; [| |apply encl_offset, encl_offset, Hm; auto]; auto.
    - assert (forall l, Permutation l ids -> sencl must
        (SLeaf (bmin (with_offset (with_offset box f1em4) f1em4)) (bmax (with_offset (with_offset box f1em4) f1em4)) (Z.of_nat begin) (Z.of_nat (length l))) l) as Leaf.
      { intros l P. cbn [sencl s_len]. split; [symmetry; apply Nat2Z.id|]. intro M.
        eapply encl_perm; [symmetry; exact P|].
        eapply encl_box; [| |apply encl_offset, encl_offset, Hm; auto]; auto. }
      pose proof (sah_perm (S k) begin ids box) as Pall. pose proof (sah_len (S k) begin ids box) as Lall.
      cbn [BinnedProofs.sah] in *.
      destruct (length ids <=? 1); [apply Leaf; auto|].
      destruct (make_plan aabbs centers mls (with_offset box f1em4) ids) as [[|axis si lb rb]| | |] eqn:Ep; try (apply Leaf; auto; fail).
      destruct (partition_spec _ ids (length ids) (goes_left centers (with_offset box f1em4) axis si)) as (ids' & c & E & _ & Lc & P & L & T & Fl & _); auto.
      rewrite E in *. destruct ((0 <? c) && (c <? length ids)) eqn:Both; [|apply Leaf; auto].
      destruct (plan_boxes _ _ _ _ _ _ Ep) as [Hr Hl].
      assert (Forall (fun p => p < length aabbs) ids') as Lt' by (eapply Permutation_Forall; [symmetry; eauto|auto]).
      rewrite <- (firstn_skipn c ids') in Lt'. apply Forall_app in Lt' as [Lt1 Lt2].
      cbn [fst snd] in Pall, Lall |- *. cbn [sencl]. split; [rewrite (Permutation_length Pall); symmetry; exact Lall|]. split.
      + intro M. eapply encl_box; [| |apply encl_offset; [|eapply encl_perm; [symmetry; exact Pall|apply Hm; auto]]]; auto.
        eapply Permutation_Forall; [symmetry; exact Pall|auto].
      + eexists _, _. split; [reflexivity|]. split.
        * apply IH; auto.
          -- intro A. apply Nat.leb_le in A.
             assert (length ids <= mls) as Ha by (rewrite <- (Permutation_length Pall); exact A). unfold encl. apply Forall_forall. intros p Ip b Eb.
             apply In_nth_error in Ip as [j Ej].
             assert (j < c) as Lj.
             { assert (j < length (firstn c ids')) by (apply nth_error_Some; congruence). rewrite firstn_length in H. lia. }
             assert (nth_error ids' j = Some p) as Ej'.
             { rewrite <- Ej. rewrite <- (firstn_skipn c ids') at 1. apply nth_error_app1. apply nth_error_Some. congruence. }
             eapply (Hl Ha p b); eauto. eapply Permutation_in; [exact P|]. eapply nth_error_In; eauto.
        * apply IH; auto.
          -- intros _. unfold encl. apply Forall_forall. intros p Ip b Eb.
             apply In_nth_error in Ip as [j Ej].
             assert (j < length (skipn c ids')) as Lj by (apply nth_error_Some; congruence). rewrite skipn_length in Lj.
             assert (nth_error ids' (c + j) = Some p) as Ej'.
             { rewrite <- Ej. rewrite <- (firstn_skipn c ids') at 1. rewrite nth_error_app2; rewrite firstn_length; [f_equal; lia|lia]. }
             eapply (Hr p b); eauto; [|eapply Fl; [|exact Ej']; lia].
             eapply Permutation_in; [exact P|]. eapply nth_error_In; eauto.
  Qed.

  (** From shapes back to trees. *)
  Lemma sencl_tree : forall indices t must ids, sencl must (shape_of t) ids -> prims indices t = ids ->
    (must = true -> encl (t_rec t) (prims indices t)) /\
    (forall i nd l r, subtree (TNode i nd l r) t -> encl (t_rec r) (prims indices r) /\
       (length (prims indices (TNode i nd l r)) <= mls -> encl (t_rec l) (prims indices l))).
  Proof.
    intros indices t. induction t as [i nd|i nd l IHl r IHr]; intros must ids S P; cbn [shape_of sencl t_rec] in *.
    - destruct S as [_ S]. assert (must = true -> encl nd (prims indices (TLeaf i nd))) as H.
      { intro M. rewrite P. eapply encl_box; [| |apply S; auto]; auto. }
      split; auto.
      intros j nd' l r Su. inversion Su.
    - destruct S as (_ & S & il & ir & E & Sl & Sr).
      assert (prims indices (TNode i nd l r) = prims indices l ++ prims indices r) as Ep by apply map_app.
      assert (length il = length (prims indices l)) as Ll.
      { unfold prims. rewrite map_length, shape_len. destruct l; simpl in Sl; apply Sl. }
      assert (il = prims indices l /\ ir = prims indices r) as [-> ->].
      { rewrite Ep in P. rewrite <- P in E. symmetry in E. apply app_inj_len in E; auto. }
      destruct (IHl _ _ Sl eq_refl) as (L1 & L2). destruct (IHr _ _ Sr eq_refl) as (R1 & R2).
      assert (must = true -> encl nd (prims indices (TNode i nd l r))) as H.
      { intro M. rewrite P. eapply encl_box; [| |apply S; auto]; auto. }
      split; auto.
      intros j nd' l' r' Su. inversion Su; subst; eauto. split; auto. intro L. apply L1. apply Nat.leb_le.
      rewrite <- Ep in *. auto.
  Qed.

  Lemma encl_small : forall indices t, encl (t_rec t) (prims indices t) ->
    (forall i nd l r, subtree (TNode i nd l r) t -> encl (t_rec r) (prims indices r) /\
       (length (prims indices (TNode i nd l r)) <= mls -> encl (t_rec l) (prims indices l))) ->
    length (prims indices t) <= mls -> encloses aabbs indices t.
  Proof.
    intros indices t. induction t as [i nd|i nd l IHl r IHr]; intros E H L; simpl; split; auto.
    assert (length (prims indices (TNode i nd l r)) = length (prims indices l) + length (prims indices r)) as Ep.
    { unfold prims. simpl. rewrite map_app, app_length. auto. }
    destruct (H i nd l r (st_self _)) as [Er El]. split.
    - apply IHl; [auto| |lia]. intros. eapply H. apply st_left. eauto.
    - apply IHr; [auto| |lia]. intros. eapply H. apply st_right. eauto.
  Qed.
End Seq.
