(** * Proofs about collapsing a binary BVH into a 4-wide one *)
Require Import List ZArith Bool Lia Permutation Arith.
From Verif Require Import F32 Vec RayModel AabbModel Base NodeModel IterModel LocbModel SpecTree IterProofs MbvhModel SpecMbvh SpecQuad MbvhProofs.
Import ListNotations.

(** ** Lanes *)
Definition lane (m : mnode) (k : nat) : box * Z * Z := (lane_box m k, zget (m_children m) k, zget (m_counts m) k).

Lemma wget_wset : forall v i a k, i < 4 -> k < 4 -> wget (wset v i a) k = if k =? i then a else wget v k.
Proof.
  intros v i a k I K. do 4 (destruct i as [|i]; [do 4 (destruct k as [|k]; [reflexivity|]); lia|]). lia.
Qed.
Lemma zget_zset : forall v i a k, i < 4 -> k < 4 -> zget (zset v i a) k = if k =? i then a else zget v k.
Proof.
  intros v i a k I K. do 4 (destruct i as [|i]; [do 4 (destruct k as [|k]; [reflexivity|]); lia|]). lia.
Qed.
Lemma lane_bounds : forall m i b k, i < 4 -> k < 4 ->
  lane (set_bounds_bb i b m) k = if k =? i then (box_of b, zget (m_children m) k, zget (m_counts m) k) else lane m k.
Proof.
  intros m i b k I K. unfold lane, lane_box, set_bounds_bb, box_of. cbn [mn_x mx_x mn_y mx_y mn_z mx_z m_children m_counts].
  rewrite !wget_wset by auto. destruct (k =? i); auto. destruct b as [[] ? [] ?]; reflexivity.
Qed.
Lemma lane_child : forall m i v k, i < 4 -> k < 4 ->
  lane (set_child i v m) k = if k =? i then (lane_box m k, v, zget (m_counts m) k) else lane m k.
Proof.
  intros m i v k I K. unfold lane. cbn [set_child m_children m_counts]. rewrite zget_zset by auto.
  destruct (k =? i); auto.
Qed.
Lemma lane_count : forall m i v k, i < 4 -> k < 4 ->
  lane (set_mcount i v m) k = if k =? i then (lane_box m k, zget (m_children m) k, v) else lane m k.
Proof.
  intros m i v k I K. unfold lane. cbn [set_mcount m_children m_counts]. rewrite zget_zset by auto.
  destruct (k =? i); auto.
Qed.
Lemma slot_is_lane : forall m m' k t, lane m k = lane m' k -> slot_is m k t -> slot_is m' k t.
Proof.
  intros m m' k t E. unfold lane in E. injection E as E1 E2 E3. 
  destruct t; unfold slot_is; rewrite <- ?E2, <- ?E3; auto; unfold lane_box; rewrite ?E1; intuition congruence.
Qed.

Lemma lane_eqs : forall m k b c n, lane m k = (b, c, n) -> lane_box m k = b /\ zget (m_children m) k = c /\ zget (m_counts m) k = n.
Proof.
  intros m k b c n H. split; [exact (f_equal (fun x => fst (fst x)) H)|].
  split; [exact (f_equal (fun x => snd (fst x)) H)|exact (f_equal snd H)].
Qed.

Lemma upd_m_ok : forall pool k m f, nth_error pool k = Some m -> upd_m pool k f = Ok (upd pool k (f m)).
Proof.
  intros pool k m f E. unfold upd_m, get. rewrite E. cbn [bind]. apply set_Ok. eapply nth_error_lt; eauto.
Qed.
Lemma nth_upd : forall A (l : list A) k v j, k < length l -> nth_error (upd l k v) j = if j =? k then Some v else nth_error l j.
Proof.
  intros A l k v j L. destruct (Nat.eqb_spec j k) as [-> | N]; [apply nth_error_upd_same|rewrite nth_error_upd_other]; auto.
Qed.

(** Two pools agree outside [m_index] and [[a, b)]. *)
Definition keeps (mi a b : nat) (p q : list mnode) : Prop :=
  length q = length p /\ forall k, k <> mi -> ~ (a <= k < b) -> nth_error q k = nth_error p k.

Lemma mrepr_ext : forall p q t, (forall i, In i (m_ids t) -> nth_error q i = nth_error p i) -> mrepr p t -> mrepr q t.
Proof.
  intros p q t; induction t as [|b f c|b i c0 I0 c1 I1 c2 I2 c3 I3]; intros H R; auto.
  cbn [mrepr m_ids] in *. destruct R as ((m & E & S) & R0 & R1 & R2 & R3).
  split; [exists m; split; auto; rewrite H by (left; auto); auto|].
  repeat split; [apply I0|apply I1|apply I2|apply I3]; auto; intros j J; apply H; right; rewrite !in_app_iff; auto.
Qed.

(** ** Sizes *)
Definition gsize (f : tree -> nat) (g : tree) : nat := match g with TLeaf _ _ => 0 | TNode _ _ _ _ => f g end.
Definition hsize (f : tree -> nat) (c : tree) : nat :=
  match c with TLeaf _ _ => 0 | TNode _ _ a b => gsize f a + gsize f b end.
Fixpoint msize (t : tree) : nat :=
  match t with
  | TLeaf _ _ => 1
  | TNode _ _ l r =>
      S (match l with TLeaf _ _ => 0 | TNode _ _ a b =>
           (match a with TLeaf _ _ => 0 | _ => msize a end) + (match b with TLeaf _ _ => 0 | _ => msize b end) end +
         match r with TLeaf _ _ => 0 | TNode _ _ a b =>
           (match a with TLeaf _ _ => 0 | _ => msize a end) + (match b with TLeaf _ _ => 0 | _ => msize b end) end)
  end.
Lemma msize_node : forall i n l r, msize (TNode i n l r) = S (hsize msize l + hsize msize r).
Proof. intros i n [|? ? [] []] [|? ? [] []]; reflexivity. Qed.
Lemma msize_pos : forall t, 1 <= msize t. Proof. intros [|i n l r]; [simpl; lia|rewrite msize_node; lia]. Qed.
Lemma msize_le : forall d t, depth t <= d -> msize t <= t_size t.
Proof.
  induction d as [d IH] using lt_wf_ind. intros [i n|i n l r] D; [simpl; lia|].
  rewrite msize_node. cbn [t_size depth] in *.
  assert (forall g, depth g < d -> gsize msize g <= t_size g) as G.
  { intros [j m|j m a b] L; cbn [gsize]; [lia|]. apply (IH (depth (TNode j m a b))); auto. }
  assert (forall c, depth c < d -> hsize msize c <= t_size c) as Hc.
  { intros [j m|j m a b] L; cbn [hsize]; [lia|]. cbn [t_size depth] in *.
    pose proof (G a ltac:(lia)). pose proof (G b ltac:(lia)). lia. }
  pose proof (Hc l ltac:(lia)). pose proof (Hc r ltac:(lia)). lia.
Qed.

(** The paths of a 4-wide tree follow those of a binary tree: the same leaves
    in the same order, each with some of the boxes above it. *)
Definition path_le (a b : Z * Z * list box) : Prop := fst a = fst b /\ incl (snd a) (snd b).
Definition follows (m : mtree) (t : tree) : Prop := Forall2 path_le (mpaths m) (tpaths t).

Lemma path_le_map : forall b c ps qs, (b = c \/ Forall (fun q => In b (snd q)) qs) -> Forall2 path_le ps qs ->
  Forall2 path_le (map (fun x => (fst x, b :: snd x)) ps) (map (fun x => (fst x, c :: snd x)) qs).
Proof.
  intros b c ps qs Hb F. induction F as [|x y ps qs [A B] F IH]; constructor.
  - split; simpl; auto. intros z [<- | Z]; [|right; auto]. destruct Hb as [-> | Hb]; [left; auto|].
    inversion Hb; subst. right; auto.
  - apply IH. destruct Hb as [Hb|Hb]; auto. inversion Hb; auto.
Qed.
(** Adding a box only on the binary side. *)
Lemma path_le_skip : forall c ps qs, Forall2 path_le ps qs -> Forall2 path_le ps (map (fun x => (fst x, c :: snd x)) qs).
Proof.
  intros c ps qs F. induction F as [|x y ps qs [A B] F IH]; constructor; auto.
  split; simpl; auto. apply incl_tl; auto.
Qed.

Section Merge.
  Variable bvh : list node.
  Hypothesis small : (Z.of_nat (length bvh) <= 2147483648)%Z.

  Lemma as_usize_n : forall k, (Z.of_nat k <= 2147483648)%Z -> as_usize (Z.of_nat k) = k.
  Proof. intros k Hk. rewrite as_usize_small by lia. apply Nat2Z.id. Qed.

  (** [left_first] is an [i32] field. *)
  Hypothesis nodes_i32 : Forall (fun n => (ex2 n < 2147483648)%Z) bvh.
  Lemma ex2_lt : forall i n, nth_error bvh i = Some n -> (ex2 n < 2147483648)%Z.
  Proof. intros i n E. rewrite Forall_forall in nodes_i32. apply nodes_i32. eapply nth_error_In; eauto. Qed.

  (** What [merge_nodes] guarantees for the subtree [t]. *)
  Definition merged (t : tree) (mi ptr : nat) (pool pool' : list mnode) (mt : mtree) : Prop :=
    keeps mi ptr (ptr + msize t - 1) pool pool' /\
    is_mnode mt /\ mbox mt = box_of (t_rec t) /\ m_idx mt = mi /\ mrepr pool' mt /\
    m_ids mt = mi :: seq ptr (msize t - 1) /\ quartered t mt /\ follows mt t /\
    2 * mlevels mt <= S (depth t) /\ Forall (fun l => (0 <= fst l)%Z /\ (0 <= snd l)%Z) (mleaves mt).

  Definition fresh (pool : list mnode) (mi a b : nat) : Prop :=
    nth_error pool mi = Some mnode_new /\ forall k, a <= k < b -> nth_error pool k = Some mnode_new.

  (** One slot. [src] is the binary subtree the slot stands for, [pb] its box. *)
  Inductive slot_src := SEmpty | SLeaf (b : box) (n : aabb) | STree (t : tree).
  Definition src_size (s : slot_src) : nat := match s with STree (TNode i n l r) => msize (TNode i n l r) | _ => 0 end.
  (** The descriptor [(node, count)] that [half] computes for a source. *)
  Definition descr (s : slot_src) : Z * Z :=
    match s with
    | SEmpty => (-1, -1)%Z
    | SLeaf _ n => (ex2 n, ex1 n)
    | STree (TLeaf _ n) => (ex2 n, ex1 n)
    | STree (TNode i _ _ _) => (Z.of_nat i, -1)%Z
    end.
  Definition src_box (s : slot_src) (d : box) : box :=
    match s with SEmpty => d | SLeaf b _ => b | STree t => box_of (t_rec t) end.
  Definition src_ok (s : slot_src) : Prop :=
    match s with
    | SEmpty => True
    | SLeaf _ n => (0 <= ex1 n)%Z /\ (0 <= ex2 n)%Z
    | STree t => repr bvh t
    end.
  Definition src_paths (s : slot_src) : list (Z * Z * list box) :=
    match s with SEmpty => [] | SLeaf b n => [(ex2 n, ex1 n, [b])] | STree t => tpaths t end.
  Definition src_shape (s : slot_src) (q : mtree) : Prop :=
    match s with SEmpty => q = MEmpty | SLeaf b n => q = MLeaf b (ex2 n) (ex1 n) | STree t => quartered t q end.
  Definition src_depth (s : slot_src) : nat := match s with STree t => depth t | _ => 0 end.

  Definition rec_ok (rec : nat -> nat -> list mnode -> nat -> res (list mnode * nat)) (d : nat) : Prop :=
    forall i n l r mi pool ptr, depth (TNode i n l r) <= d -> repr bvh (TNode i n l r) ->
      fresh pool mi ptr (ptr + msize (TNode i n l r) - 1) -> mi < ptr ->
      (Z.of_nat (length pool) <= 2147483648)%Z ->
      exists pool' mt, rec mi i pool ptr = Ok (pool', ptr + msize (TNode i n l r) - 1) /\
        merged (TNode i n l r) mi ptr pool pool' mt.

  Lemma fill_slot_ok : forall rec d mi i src pool ptr m,
    rec_ok rec d -> i < 4 -> src_ok src -> src_depth src <= d ->
    nth_error pool mi = Some m -> (lane m i = (src_box src (lane_box m i), -1, -1))%Z ->
    (mi < ptr) -> (forall k, ptr <= k < ptr + src_size src -> nth_error pool k = Some mnode_new) ->
    (Z.of_nat (length pool) <= 2147483648)%Z ->
    exists pool' m' sub,
      fill_slot rec bvh mi (i, descr src) (pool, ptr) = Ok (pool', ptr + src_size src) /\
      keeps mi ptr (ptr + src_size src) pool pool' /\
      nth_error pool' mi = Some m' /\ (forall k, k < 4 -> k <> i -> lane m' k = lane m k) /\
      slot_is m' i sub /\ mrepr pool' sub /\ m_ids sub = seq ptr (src_size src) /\ src_shape src sub /\
      Forall2 path_le (mpaths sub) (src_paths src) /\
      2 * mlevels sub <= S (src_depth src) /\ (src_depth src = 0 -> mlevels sub = 0) /\
      Forall (fun l => (0 <= fst l)%Z /\ (0 <= snd l)%Z) (mleaves sub).
  Proof.
    intros rec d mi i src pool ptr m Hrec I So Sd E Ln Lm Fr Lp.
    unfold lane in Ln. injection Ln as Lb Lc Lk.
    pose proof (nth_error_lt _ _ _ _ E) as Lmi.
    assert (forall pb n, src_box src (lane_box m i) = pb -> src_size src = 0 -> descr src = (ex2 n, ex1 n) ->
       (0 <= ex1 n)%Z -> (0 <= ex2 n)%Z -> src_paths src = [(ex2 n, ex1 n, [pb])] -> src_shape src (MLeaf pb (ex2 n) (ex1 n)) ->
       exists pool' m' sub,
      fill_slot rec bvh mi (i, descr src) (pool, ptr) = Ok (pool', ptr + src_size src) /\
      keeps mi ptr (ptr + src_size src) pool pool' /\
      nth_error pool' mi = Some m' /\ (forall k, k < 4 -> k <> i -> lane m' k = lane m k) /\
      slot_is m' i sub /\ mrepr pool' sub /\ m_ids sub = seq ptr (src_size src) /\ src_shape src sub /\
      Forall2 path_le (mpaths sub) (src_paths src) /\
      2 * mlevels sub <= S (src_depth src) /\ (src_depth src = 0 -> mlevels sub = 0) /\
      Forall (fun l => (0 <= fst l)%Z /\ (0 <= snd l)%Z) (mleaves sub)) as LEAF.
    { intros pb n Hpb Hs Hd C1 C2 Hp Hsh. rewrite Hd, Hs, Hp. unfold fill_slot.
      replace ((0 <=? ex2 n)%Z && (0 <=? ex1 n)%Z) with true by (symmetry; apply andb_true_iff; split; apply Z.leb_le; lia).
      rewrite (upd_m_ok _ _ _ _ E). cbn [bind]. rewrite Nat.add_0_r.
      set (m' := set_mcount i (ex1 n) (set_child i (ex2 n) m)).
      exists (upd pool mi m'), m', (MLeaf pb (ex2 n) (ex1 n)).
      split; auto. split.
      { split; [apply upd_length|]. intros k N _. apply nth_error_upd_other; auto. }
      split; [apply nth_error_upd_same; auto|]. split.
      { intros k K N. unfold m'. rewrite lane_count, lane_child by auto.
        replace (k =? i) with false by (symmetry; apply Nat.eqb_neq; auto). auto. }
      split.
      { unfold slot_is, m'. cbn [set_mcount set_child m_children m_counts]. rewrite !zget_zset, Nat.eqb_refl by auto.
        repeat split; auto. rewrite <- Hpb, <- Lb. reflexivity. }
      cbn [mrepr m_ids seq mpaths mleaves mlevels].
      split; [auto|]. split; [auto|]. split; [exact Hsh|]. split; [constructor; [split; [reflexivity|apply incl_refl]|constructor]|].
      split; [lia|]. split; [auto|]. constructor; auto. }
    destruct src as [|pb n|[j n|j n l r]].
    - (* empty *)
      cbn [descr fill_slot src_size src_paths src_depth]. rewrite Nat.add_0_r.
      replace ((0 <=? -1)%Z && (0 <=? -1)%Z) with false by reflexivity. replace (-1 =? -1)%Z with true by reflexivity.
      exists pool, m, MEmpty. cbn [slot_is mrepr m_ids seq mpaths mleaves mlevels]. 
      repeat split; auto; try lia.
    - destruct So as [C1 C2]. apply (LEAF pb n); auto. reflexivity.
    - destruct So as (Ej & C1 & C2). apply (LEAF (box_of n) n); auto. constructor.
    - (* inner *)
      pose proof So as (Ej & C1 & _). pose proof (nth_error_lt _ _ _ _ Ej) as Lj.
      cbn [descr src_size src_paths src_depth src_box t_rec] in *. unfold fill_slot.
      replace ((0 <=? Z.of_nat j)%Z && (0 <=? -1)%Z) with false by (destruct (0 <=? Z.of_nat j)%Z; reflexivity).
      replace (Z.of_nat j =? -1)%Z with false by (symmetry; apply Z.eqb_neq; lia).
      rewrite as_usize_n by lia. unfold get at 1. rewrite Ej. cbn [bind].
      unfold is_leaf. replace (0 <=? ex1 n)%Z with false by (symmetry; apply Z.leb_gt; lia).
      rewrite (upd_m_ok _ _ _ _ E). cbn [bind].
      set (t := TNode j n l r) in *. set (sz := msize t) in *. assert (1 <= sz) as Psz by apply msize_pos.
      assert (ptr < length pool) as Lptr.
      { eapply nth_error_lt. apply (Fr ptr). lia. }
      set (m' := set_bounds_bb i n (set_child i _ m)).
      set (pool1 := upd pool mi m').
      assert (nth_error pool1 mi = Some m') as E1 by (apply nth_error_upd_same; auto).
      destruct (Hrec j n l r ptr pool1 (S ptr)) as (pool' & mt & Er & (Kl & Kk) & Nm & Bm & Im & Rm & Pm & Qm & Fm & Lv & Fl); auto.
      { split.
        - unfold pool1. rewrite nth_error_upd_other by lia. apply Fr. lia.
        - intros k K. unfold pool1. rewrite nth_error_upd_other by lia. apply Fr. fold t sz in K. lia. }
      { unfold pool1. rewrite upd_length. auto. }
      fold t sz in Er, Kk, Pm, Qm, Fm.
      replace (S ptr + sz - 1) with (ptr + sz) in * by lia.
      assert (nth_error pool' mi = Some m') as E2.
      { rewrite Kk by lia. auto. }
      exists pool', m', mt. split; [exact Er|]. split.
      { split; [unfold pool1 in Kl; rewrite Kl, upd_length; auto|]. intros k K1 K2.
        rewrite Kk by lia. unfold pool1. apply nth_error_upd_other. auto. }
      split; auto. split.
      { intros k K N. unfold m'. rewrite lane_bounds, lane_child by auto.
        replace (k =? i) with false by (symmetry; apply Nat.eqb_neq; auto). auto. }
      split.
      { destruct mt as [|? ? ?|b' i' ? ? ? ?]; try contradiction. cbn [mbox m_idx t_rec] in Bm, Im. subst b' i'.
        pose proof (lane_bounds (set_child i (as_i32 (Z.of_nat ptr)) m) i n i I I) as L1. rewrite Nat.eqb_refl in L1.
        fold m' in L1. apply (f_equal (fun x => fst (fst x))) in L1. 
        unfold slot_is. split; [exact L1|]. unfold m'. cbn [set_bounds_bb set_child m_children m_counts].
        rewrite zget_zset, Nat.eqb_refl by auto. rewrite as_i32_small by lia. split; auto. lia. }
      split; auto. split.
      { rewrite Pm. replace sz with (S (sz - 1)) at 2 by lia. reflexivity. }
      split; [exact Qm|]. split; [exact Fm|]. split; [exact Lv|]. split; [|exact Fl].
      unfold t. simpl depth. lia.
  Qed.

  (** The two slots of one child of the current node. *)
  Definition srcs (pb : box) (c : tree) : slot_src * slot_src :=
    match c with
    | TLeaf _ n => (SLeaf pb n, SEmpty)
    | TNode _ _ a b => (STree a, STree b)
    end.

  Lemma half_ok : forall pb c s mi pool m, (s = 0 \/ s = 2) -> repr bvh c ->
    nth_error pool mi = Some m -> lane_box m s = pb -> lane_box m (S s) = pb ->
    exists pool' m', half bvh mi s (Z.of_nat (t_idx c)) pool = Ok (pool', descr (fst (srcs pb c)), descr (snd (srcs pb c))) /\
      keeps mi 0 0 pool pool' /\ nth_error pool' mi = Some m' /\
      (forall k, k < 4 -> k <> s -> k <> S s -> lane m' k = lane m k) /\
      lane m' s = (src_box (fst (srcs pb c)) pb, zget (m_children m) s, zget (m_counts m) s) /\
      lane m' (S s) = (src_box (snd (srcs pb c)) pb, zget (m_children m) (S s), zget (m_counts m) (S s)).
  Proof.
    intros pb c s mi pool m Hs Rc E Lb1 Lb2. pose proof (repr_idx _ _ Rc) as Ec. pose proof (nth_error_lt _ _ _ _ Ec) as Lc.
    pose proof (nth_error_lt _ _ _ _ E) as Lmi.
    unfold half. rewrite as_usize_n by lia. rewrite Ec.
    destruct c as [j n|j n a b]; cbn [t_rec t_idx srcs fst snd src_box descr] in *.
    - destruct Rc as (_ & C1 & C2). unfold get_left_first. replace (0 <=? ex2 n)%Z with true by (symmetry; apply Z.leb_le; lia).
      unfold is_leaf. replace (0 <=? ex1 n)%Z with true by (symmetry; apply Z.leb_le; lia).
      pose proof (ex2_lt _ _ Ec). rewrite as_u32_small by lia. rewrite as_i32_small by lia.
      exists pool, m. unfold lane. rewrite Lb1, Lb2. repeat split; auto.
    - destruct Rc as (_ & C1 & C2 & C3 & Ra & Rb). unfold get_left_first.
      pose proof (repr_idx _ _ Ra) as Ea. pose proof (repr_idx _ _ Rb) as Eb.
      pose proof (nth_error_lt _ _ _ _ Ea) as La. pose proof (nth_error_lt _ _ _ _ Eb) as Lb.
      replace (0 <=? ex2 n)%Z with true by (symmetry; apply Z.leb_le; lia).
      unfold is_leaf. replace (0 <=? ex1 n)%Z with false by (symmetry; apply Z.leb_gt; lia).
      rewrite as_u32_small by lia. rewrite C2. rewrite as_i32_small by lia. rewrite as_usize_n by lia.
      assert (forall g s' as_node pool0 m0, nth_error pool0 mi = Some m0 -> repr bvh g -> as_node = Z.of_nat (t_idx g) ->
         grandchild bvh mi s' (t_idx g) as_node pool0 = Ok (upd pool0 mi (set_bounds_bb s' (t_rec g) m0), descr (STree g))) as G.
      { intros g s' an pool0 m0 E0 Rg ->. unfold grandchild. pose proof (repr_idx _ _ Rg) as Eg. unfold get. rewrite Eg. cbn [bind].
        unfold is_leaf. destruct g as [q k|q k x y]; cbn [t_rec t_idx descr].
        - destruct Rg as (_ & D1 & _). replace (0 <=? ex1 k)%Z with true by (symmetry; apply Z.leb_le; lia).
          rewrite (upd_m_ok _ _ _ _ E0). reflexivity.
        - destruct Rg as (_ & D1 & _). replace (0 <=? ex1 k)%Z with false by (symmetry; apply Z.leb_gt; lia).
          rewrite (upd_m_ok _ _ _ _ E0). reflexivity. }
      rewrite (G a s _ pool m) by auto. cbn [bind].
      set (m1 := set_bounds_bb s (t_rec a) m).
      replace (t_idx a + 1) with (t_idx b) by lia.
      assert (nth_error (upd pool mi m1) mi = Some m1) as E1 by (apply nth_error_upd_same; auto).
      rewrite (G b (S s) _ (upd pool mi m1) m1) by (auto; lia). cbn [bind].
      set (m2 := set_bounds_bb (S s) (t_rec b) m1).
      eexists _, m2. split; [reflexivity|]. split.
      { split; [rewrite !upd_length; auto|]. intros k K _. rewrite !nth_error_upd_other; auto. }
      split; [apply nth_error_upd_same; rewrite upd_length; auto|].
      assert (s < 4 /\ S s < 4) as [I1 I2] by lia.
      split; [|split].
      + intros k K N1 N2. unfold m2, m1. rewrite !lane_bounds by auto.
        replace (k =? S s) with false by (symmetry; apply Nat.eqb_neq; auto).
        replace (k =? s) with false by (symmetry; apply Nat.eqb_neq; auto). auto.
      + unfold m2, m1. rewrite !lane_bounds by auto. replace (s =? S s) with false by (symmetry; apply Nat.eqb_neq; lia).
        rewrite Nat.eqb_refl. reflexivity.
      + unfold m2, m1. rewrite !lane_bounds by auto. rewrite Nat.eqb_refl. reflexivity.
  Qed.

  Lemma src_sizes : forall pb c, src_size (fst (srcs pb c)) + src_size (snd (srcs pb c)) = hsize msize c.
  Proof. intros pb [j n|j n [] []]; reflexivity. Qed.
  Lemma srcs_ok : forall pb c, repr bvh c -> src_ok (fst (srcs pb c)) /\ src_ok (snd (srcs pb c)).
  Proof. intros pb [j n|j n a b] H; cbn [srcs fst snd src_ok repr] in *; tauto. Qed.
  Lemma srcs_depth : forall pb c, src_depth (fst (srcs pb c)) <= depth c - 1 /\ src_depth (snd (srcs pb c)) <= depth c - 1.
  Proof. intros pb [j n|j n a b]; cbn [srcs fst snd src_depth depth]; lia. Qed.
  (** The binary paths of the child follow from those of the two sources. *)
  Lemma srcs_paths : forall pb c ps, Forall2 path_le ps (src_paths (fst (srcs pb c)) ++ src_paths (snd (srcs pb c))) ->
    Forall2 path_le (map (fun x => (fst x, pb :: snd x)) ps) (map (fun x => (fst x, pb :: snd x)) (tpaths c)).
  Proof.
    intros pb [j n|j n a b] ps F; cbn [srcs fst snd src_paths tpaths app] in F |- *.
    - inversion F as [|x y l1 l2 [A B] F']; subst. inversion F'; subst. cbn [map]. constructor; [|constructor].
      split; simpl in *; auto. intros z [<- | Z]; [left; auto|]. apply B in Z as [<- |[]]. left; auto.
    - apply path_le_map; auto. apply path_le_skip. auto.
  Qed.

  Lemma two_src : forall pb c s0 s1, src_shape (fst (srcs pb c)) s0 -> src_shape (snd (srcs pb c)) s1 -> two_slots pb c s0 s1.
  Proof. intros pb [j n|j n a b] s0 s1 A B; cbn [srcs fst snd src_shape] in *; subst; constructor; auto. Qed.

  Lemma seq_app' : forall a b c, seq a (b + c) = seq a b ++ seq (a + b) c.
  Proof. intros. apply seq_app. Qed.

  Lemma keeps_trans : forall mi a b c p q w, a <= b -> b <= c -> keeps mi a b p q -> keeps mi b c q w -> keeps mi a c p w.
  Proof.
    intros mi a b c p q w L1 L2 [A1 A2] [B1 B2]. split; [congruence|]. intros k N O.
    rewrite B2 by lia. apply A2; auto. lia.
  Qed.

  Theorem merge_ok : forall fuel, rec_ok (fun mi cn pool ptr => merge_nodes fuel bvh mi cn pool ptr) fuel.
  Proof.
    induction fuel as [|fuel IH]; intros i n l r mi pool ptr D Rp Fr Lmi Lp; [simpl in D; lia|].
    cbn [merge_nodes]. pose proof Rp as (E & C1 & C2 & C3 & Rl & Rr).
    unfold get at 1. rewrite E. cbn [bind].
    destruct Fr as [Fm Fk].
    pose proof (nth_error_lt _ _ _ _ Fm) as Lmp.
    (* bounds of all four slots *)
    set (f := fun i (m : mnode) => set_bounds_bb i n m).
    set (m1 := f 3 (f 2 (f 1 (f 0 mnode_new)))).
    assert (exists pool1, for_each [0; 1; 2; 3] (fun i pool => upd_m pool mi (set_bounds_bb i n)) pool = Ok pool1 /\
       keeps mi 0 0 pool pool1 /\ nth_error pool1 mi = Some m1) as (pool1 & E1 & K1 & N1).
    { cbn [for_each]. rewrite (upd_m_ok _ _ _ _ Fm). cbn [bind].
      rewrite (upd_m_ok _ _ (f 0 mnode_new)) by (apply nth_error_upd_same; auto). cbn [bind].
      rewrite (upd_m_ok _ _ (f 1 (f 0 mnode_new))) by (apply nth_error_upd_same; rewrite upd_length; auto). cbn [bind].
      rewrite (upd_m_ok _ _ (f 2 (f 1 (f 0 mnode_new)))) by (apply nth_error_upd_same; rewrite !upd_length; auto). cbn [bind].
      eexists. split; [reflexivity|]. split.
      - split; [rewrite !upd_length; auto|]. intros k K _. rewrite !nth_error_upd_other by auto. auto.
      - apply nth_error_upd_same. rewrite !upd_length. auto. }
    rewrite E1. cbn [bind].
    assert (forall k, k < 4 -> lane m1 k = (box_of n, -1, -1)%Z) as Lm1.
    { intros k K. destruct n as [[] ? [] ?]. do 4 (destruct k as [|k]; [reflexivity|]). lia. }
    pose proof (ex2_lt _ _ E) as Li32.
    unfold get_left_first. replace (0 <=? ex2 n)%Z with true by (symmetry; apply Z.leb_le; lia).
    rewrite as_u32_small by lia. rewrite C2.
    assert (forall k, k < 4 -> lane_box m1 k = box_of n /\ zget (m_children m1) k = (-1)%Z /\ zget (m_counts m1) k = (-1)%Z) as Lm1'.
    { intros k K. apply lane_eqs. auto. }
    destruct (half_ok (box_of n) l 0 mi pool1 m1) as (pool2 & m2 & E2 & K2 & N2 & O2 & P0 & P1); auto; try (apply Lm1'; lia).
    rewrite E2. cbn [bind].
    assert (lane m2 2 = lane m1 2 /\ lane m2 3 = lane m1 3) as [O22 O23] by (split; apply O2; lia).
    rewrite Lm1 in O22, O23 by lia.
    apply lane_eqs in O22 as (Q1 & Q2 & Q3). apply lane_eqs in O23 as (Q4 & Q5 & Q6).
    pose proof (repr_idx _ _ Rr) as Er. pose proof (nth_error_lt _ _ _ _ Er) as Lr.
    rewrite as_u32_small by lia. replace (Z.of_nat (t_idx l) + 1)%Z with (Z.of_nat (t_idx r)) by lia.
    destruct (half_ok (box_of n) r 2 mi pool2 m2) as (pool3 & m3 & E3 & K3 & N3 & O3 & P2 & P3); auto.
    rewrite E3. cbn [bind].
    rewrite Q2, Q3 in P2. rewrite Q5, Q6 in P3.
    assert (lane m3 0 = lane m2 0 /\ lane m3 1 = lane m2 1) as [O30 O31] by (split; apply O3; lia).
    destruct (Lm1' 0 ltac:(lia)) as (Y1 & Y2 & Y3). destruct (Lm1' 1 ltac:(lia)) as (Y4 & Y5 & Y6).
    rewrite P0, Y2, Y3 in O30. rewrite P1, Y5, Y6 in O31.
    set (sa := fst (srcs (box_of n) l)) in *. set (sb := snd (srcs (box_of n) l)) in *.
    set (sc := fst (srcs (box_of n) r)) in *. set (sd := snd (srcs (box_of n) r)) in *.
    assert (src_size sa + src_size sb = hsize msize l) as Sl by apply src_sizes.
    assert (src_size sc + src_size sd = hsize msize r) as Sr by apply src_sizes.
    destruct (srcs_ok (box_of n) l Rl) as [Oa Ob]. destruct (srcs_ok (box_of n) r Rr) as [Oc Od].
    destruct (srcs_depth (box_of n) l) as [Da Db]. destruct (srcs_depth (box_of n) r) as [Dc Dd].
    fold sa in Oa, Da. fold sb in Ob, Db. fold sc in Oc, Dc. fold sd in Od, Dd.
    rewrite msize_node in *. cbn [depth] in D.
    assert (keeps mi 0 0 pool pool3) as K13.
    { destruct K1 as [A1 A2], K2 as [B1 B2], K3 as [G1 G2]. split; [congruence|]. intros k N _.
      rewrite G2, B2, A2 by lia. auto. }
    assert (length pool3 = length pool) as Lp3 by apply K13.
    assert (forall k, ptr <= k < ptr + (hsize msize l + hsize msize r) -> nth_error pool3 k = Some mnode_new) as F3.
    { intros k K. destruct K13 as [_ K13]. rewrite K13 by lia. apply Fk. lia. }
    set (rec := fun mi cn pool ptr => merge_nodes fuel bvh mi cn pool ptr) in *.
    cbn [for_each].
    assert (forall src m k, lane m k = (src_box src (box_of n), -1, -1)%Z -> lane m k = (src_box src (lane_box m k), -1, -1)%Z) as LB.
    { intros src m k X. rewrite X. apply lane_eqs in X as (X1 & X2 & X3). destruct src; cbn [src_box] in *; auto. rewrite X1; auto. }
    destruct (fill_slot_ok rec fuel mi 0 sa pool3 ptr m3 IH) as (pool4 & m4 & t0 & A1 & A2 & A3 & A4 & A5 & A6 & A7 & A7s & A8 & A9 & A10 & A11);
      auto; try lia. { intros k K. apply F3. lia. }
    rewrite A1. cbn [bind].
    assert (length pool4 = length pool) as Lp4 by (destruct A2; congruence).
    destruct (fill_slot_ok rec fuel mi 1 sb pool4 (ptr + src_size sa) m4 IH) as (pool5 & m5 & t1 & B1 & B2 & B3 & B4 & B5 & B6 & B7 & B7s & B8 & B9 & B10 & B11);
      auto; try lia. { apply LB. rewrite A4 by lia. auto. }
    { intros k K. destruct A2 as [_ A2]. rewrite A2 by lia. apply F3. lia. }
    rewrite B1. cbn [bind].
    assert (length pool5 = length pool) as Lp5 by (destruct B2; congruence).
    destruct (fill_slot_ok rec fuel mi 2 sc pool5 (ptr + src_size sa + src_size sb) m5 IH) as (pool6 & m6 & t2 & G1 & G2 & G3 & G4 & G5 & G6 & G7 & G7s & G8 & G9 & G10 & G11);
      auto; try lia. { apply LB. rewrite B4, A4 by lia. auto. }
    { intros k K. destruct B2 as [_ B2]. rewrite B2 by lia. destruct A2 as [_ A2]. rewrite A2 by lia. apply F3. lia. }
    rewrite G1. cbn [bind].
    assert (length pool6 = length pool) as Lp6 by (destruct G2; congruence).
    destruct (fill_slot_ok rec fuel mi 3 sd pool6 (ptr + src_size sa + src_size sb + src_size sc) m6 IH) as (pool7 & m7 & t3 & H1 & H2 & H3 & H4 & H5 & H6 & H7 & H7s & H8 & H9 & H10 & H11);
      auto; try lia. { apply LB. rewrite G4, B4, A4 by lia. auto. }
    { intros k K. destruct G2 as [_ G2]. rewrite G2 by lia. destruct B2 as [_ B2]. rewrite B2 by lia.
      destruct A2 as [_ A2]. rewrite A2 by lia. apply F3. lia. }
    rewrite H1. cbn [bind].
    exists pool7, (MNode (box_of n) mi t0 t1 t2 t3). split; [f_equal; f_equal; lia|].
    set (a1 := ptr + src_size sa) in *. set (a2 := a1 + src_size sb) in *. set (a3 := a2 + src_size sc) in *.
    assert (forall t a b k, m_ids t = seq a (b - a) -> In k (m_ids t) -> a <= k < b) as RNG.
    { intros t a b k P Ik. rewrite P in Ik. apply in_seq in Ik. lia. }
    assert (mrepr pool7 t0 /\ mrepr pool7 t1 /\ mrepr pool7 t2) as (R0 & R1 & R2).
    { repeat split.
      - apply (mrepr_ext pool4); auto. intros k Ik. apply (RNG t0 ptr a1) in Ik; [|unfold a1; replace (_ - _) with (src_size sa) by lia; auto].
        destruct H2 as [_ H2]. rewrite H2 by lia. destruct G2 as [_ G2]. rewrite G2 by lia. destruct B2 as [_ B2]. rewrite B2 by lia. auto.
      - apply (mrepr_ext pool5); auto. intros k Ik. apply (RNG t1 a1 a2) in Ik; [|unfold a2; replace (_ - _) with (src_size sb) by lia; auto].
        destruct H2 as [_ H2]. rewrite H2 by lia. destruct G2 as [_ G2]. rewrite G2 by lia. auto.
      - apply (mrepr_ext pool6); auto. intros k Ik. apply (RNG t2 a2 a3) in Ik; [|unfold a3; replace (_ - _) with (src_size sc) by lia; auto].
        destruct H2 as [_ H2]. rewrite H2 by lia. auto. }
    unfold merged. rewrite msize_node. 
    split.
    { split; [destruct H2; congruence|]. intros k K O. destruct H2 as [_ H2]. rewrite H2 by lia.
      destruct G2 as [_ G2]. rewrite G2 by lia. destruct B2 as [_ B2]. rewrite B2 by lia.
      destruct A2 as [_ A2]. rewrite A2 by lia. destruct K13 as [_ K13]. apply K13; lia. }
    split; [exact I|]. split; [reflexivity|]. split; [reflexivity|]. split.
    { cbn [mrepr]. split; [|auto]. exists m7. split; auto. repeat split.
      - apply (slot_is_lane m4); auto. rewrite H4, G4, B4 by lia. auto.
      - apply (slot_is_lane m5); auto. rewrite H4, G4 by lia. auto.
      - apply (slot_is_lane m6); auto. rewrite H4 by lia. auto.
      - auto. }
    split.
    { cbn [m_ids]. f_equal. replace (S (hsize msize l + hsize msize r) - 1) with
        (src_size sa + (src_size sb + (src_size sc + src_size sd))) by lia.
      rewrite !seq_app. fold a1. fold a2. fold a3. congruence. }
    split; [constructor; [apply two_src; auto|apply two_src; auto]|].
    split.
    { unfold follows. cbn [mpaths tpaths]. rewrite app_assoc. rewrite !map_app.
      apply Forall2_app; rewrite <- map_app; apply srcs_paths; apply Forall2_app; auto. }
    split.
    { cbn [mlevels depth]. destruct (Nat.eq_dec (depth l) 0), (Nat.eq_dec (depth r) 0); lia. }
    cbn [mleaves]. rewrite !Forall_app. auto.
  Qed.

  (** A lone leaf at the root (its range starts at 0). *)
  Theorem merge_root_leaf : forall fuel n pool, 1 <= fuel -> bvh = [n] -> (0 <= ex1 n)%Z -> ex2 n = 0%Z -> pool = [mnode_new] ->
    exists pool', merge_nodes fuel bvh 0 0 pool 1 = Ok (pool', 1) /\
      mrepr pool' (MNode (box_of n) 0 (MLeaf (box_of n) 0 (ex1 n)) MEmpty MEmpty MEmpty) /\ length pool' = 1.
  Proof.
    intros fuel n pool F Eb C1 C2 ->. destruct fuel as [|fuel]; [lia|]. cbn [merge_nodes]. rewrite Eb.
    cbn [get nth_error bind for_each]. unfold upd_m at 1. cbn [get nth_error bind set upd length Nat.ltb Nat.leb].
    unfold upd_m at 1. cbn [get nth_error bind set upd length Nat.ltb Nat.leb].
    unfold upd_m at 1. cbn [get nth_error bind set upd length Nat.ltb Nat.leb].
    unfold upd_m at 1. cbn [get nth_error bind set upd length Nat.ltb Nat.leb].
    unfold get_left_first. rewrite C2. cbn [Z.leb Z.compare]. change (as_u32 0) with 0%Z. unfold half at 1.
    change (as_usize 0) with 0. cbn [nth_error]. unfold get_left_first. rewrite C2. cbn [Z.leb Z.compare].
    unfold is_leaf. replace (0 <=? ex1 n)%Z with true by (symmetry; apply Z.leb_le; lia). cbn [bind].
    change (as_u32 (0 + 1)) with 1%Z. unfold half. change (as_usize 1) with 1. cbn [nth_error bind].
    change (as_i32 (as_u32 0)) with 0%Z. unfold count_unchecked. 
    cbn [for_each]. unfold fill_slot at 1. cbn [Z.leb Z.compare]. 
    try (replace (0 <=? ex1 n)%Z with true by (symmetry; apply Z.leb_le; lia)). cbn [andb].
    unfold upd_m. cbn [get nth_error bind set upd length Nat.ltb Nat.leb].
    unfold fill_slot. try (replace (0 <=? ex1 n)%Z with true by (symmetry; apply Z.leb_le; lia)). cbn [Z.leb Z.compare Z.eqb andb bind Pos.eqb].
    eexists. split; [reflexivity|]. split; [|reflexivity].
    cbn [mrepr]. split; [|auto]. eexists. split; [reflexivity|].
    destruct n as [[] ? [] ?]. repeat split; auto; cbn; lia.
  Qed.
End Merge.
