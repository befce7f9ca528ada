(** * Facts about [Builder], [refit] and [validate] *)
Require Import List ZArith Bool Arith Lia Permutation.
From Verif Require Import F32 Vec Base AabbModel NodeModel SpecGeom SpecTree AabbProofs IterProofs LocbModel BvhModel.
Import ListNotations.
Local Open Scope nat_scope.

(** ** Loops *)
Lemma for_each_inv : forall A S (P : S -> Prop) (f : A -> S -> res S) l s,
  P s -> (forall x s, In x l -> P s -> exists s', f x s = Ok s' /\ P s') ->
  exists s', for_each l f s = Ok s' /\ P s'.
Proof.
  intros A S P f l; induction l as [|x l IH]; intros s H F; simpl; [eauto|].
  destruct (F x s) as (s' & E & P'); simpl; auto. rewrite E. cbn [bind]. apply IH; auto.
  intros; apply F; simpl; auto.
Qed.

Lemma for_each_app : forall A S (f : A -> S -> res S) l m s,
  for_each (l ++ m) f s = do s <- for_each l f s; for_each m f s.
Proof.
  intros A S f l; induction l as [|x l IH]; intros m s; simpl; auto. destruct (f x s); simpl; auto.
Qed.

(** ** refit *)
Lemma subtree_repr : forall ns s t, subtree s t -> repr ns t -> repr ns s.
Proof. intros ns s t H; induction H; simpl; intros; auto; tauto. Qed.
Lemma subtree_ids : forall t x, In x (t_ids t) -> exists s, subtree s t /\ t_idx s = x.
Proof.
  induction t as [i n|i n l IHl r IHr]; intros x I; simpl in I.
  - destruct I as [<-|[]]. exists (TLeaf i n). split; [constructor|auto].
  - destruct I as [<-|I]; [exists (TNode i n l r); split; [constructor|auto]|].
    apply in_app_or in I as [I|I]; [destruct (IHl x I) as (s & A & B)|destruct (IHr x I) as (s & A & B)];
      exists s; split; auto; [apply st_left|apply st_right]; auto.
Qed.
Lemma subtree_after : forall s t, subtree s t -> children_after t -> children_after s.
Proof. intros s t H; induction H; simpl; intros; auto; tauto. Qed.
Lemma subtree_positions : forall s t x, subtree s t -> In x (positions s) -> In x (positions t).
Proof. intros s t x H; induction H; simpl; intros; auto; apply in_or_app; auto. Qed.

Lemma as_usize_nat : forall k, (Z.of_nat k < 2147483649)%Z -> as_usize (Z.of_nat k) = k.
Proof. intros k H. rewrite as_usize_small by lia. apply Nat2Z.id. Qed.

Section Refit.
  Variables (ns0 : list aabb) (indices : list nat) (new_aabbs : list aabb) (t : tree).
  Hypothesis Rp : repr ns0 t.
  Hypothesis Ids : Permutation (t_ids t) (seq 0 (length ns0)).
  Hypothesis Af : children_after t.
  Hypothesis Nmax : (Z.of_nat (length ns0) <= 2147483648)%Z.
  Hypothesis Imax : (Z.of_nat (length indices) <= 2147483648)%Z.
  Hypothesis Pos : Forall (fun k => k < length indices) (positions t).
  Hypothesis New : Forall (fun p => p < length new_aabbs) (prims indices t).
  Hypothesis Ok_ : Forall box_ok new_aabbs.

  Definition covered (a : aabb) (s : tree) : Prop :=
    box_ok a /\ Forall (fun p => forall b, nth_error new_aabbs p = Some b -> box_in b a) (prims indices s).

  Record rinv (k : nat) (ns : list aabb) : Prop := Rinv {
    ri_len : length ns = length ns0;
    ri_old : forall i, i < k -> nth_error ns i = nth_error ns0 i;
    ri_new : forall s, subtree s t -> k <= t_idx s -> exists a, nth_error ns (t_idx s) = Some a /\ covered a s
  }.

  Lemma refit_leaf_ok : forall s n, subtree s t -> s = TLeaf (t_idx s) n ->
    exists a, refit_leaf indices new_aabbs (as_u32 (ex2 n)) (ex1 n) = Ok a /\ covered a s.
  Proof.
    intros s n St Es.
    assert (repr ns0 s) as R by (eapply subtree_repr; eauto). rewrite Es in R. simpl in R. destruct R as (_ & C0 & L0).
    assert (forall k, In k (leaf_positions n) -> k < length indices /\ nth k indices 0 < length new_aabbs) as HP.
    { intros k Ik. assert (In k (positions t)) as It by (apply (subtree_positions s); auto; rewrite Es; auto).
      rewrite Forall_forall in Pos, New. split; [apply Pos; auto|]. apply New. unfold prims. apply in_map_iff. eauto. }
    unfold refit_leaf.
    assert (forall m, m <= Z.to_nat (ex1 n) -> exists a,
      for_each (seq 0 m) (fun i a => do prim <- get indices (as_usize (as_u32 (as_u32 (ex2 n) + Z.of_nat i)));
                                     do b <- get new_aabbs prim; Ok (grow_bb a b)) aabb_new = Ok a /\
      box_ok a /\ forall k, k < m -> forall b, nth_error new_aabbs (nth (Z.to_nat (ex2 n) + k) indices 0) = Some b -> box_in b a) as G.
    { induction m as [|m IH]; intro Lm.
      - exists aabb_new. simpl. split; auto. split; [apply aabb_new_ok|intros; lia].
      - destruct (IH ltac:(lia)) as (a & E & Oa & H). rewrite seq_S, for_each_app, E. cbn [bind for_each].
        assert (In (Z.to_nat (ex2 n) + m) (leaf_positions n)) as Im by (unfold leaf_positions; apply in_seq; lia).
        destruct (HP _ Im) as [L1 L2]. rewrite Nat.add_0_l.
        rewrite (@as_u32_small (ex2 n)) by lia. rewrite as_u32_small by lia. rewrite as_usize_small by lia.
        replace (Z.to_nat (ex2 n + Z.of_nat m)) with (Z.to_nat (ex2 n) + m) by lia.
        unfold get at 1. rewrite (nth_error_nth' _ 0) by auto. cbn [bind].
        set (p := nth (Z.to_nat (ex2 n) + m) indices 0) in *.
        destruct (nth_error new_aabbs p) as [b|] eqn:Eb; [|apply nth_error_None in Eb; lia].
        unfold get. rewrite Eb. cbn [bind].
        assert (box_ok b) as Ob by (rewrite Forall_forall in Ok_; apply Ok_; eapply nth_error_In; eauto).
        eexists. split; [reflexivity|]. split; [apply grow_bb_ok; auto|].
        intros k Lk b' Eb'. destruct (Nat.eq_dec k m) as [->|Nk].
        + fold p in Eb'. rewrite Eb in Eb'. injection Eb' as <-. apply grow_bb_in_r; auto.
        + eapply box_in_trans; [apply (H k ltac:(lia) b' Eb')|apply grow_bb_in_l; auto]. }
    destruct (G (Z.to_nat (ex1 n)) ltac:(lia)) as (a & E & Oa & H). exists a. split; auto. split; auto.
    apply Forall_forall. intros p Ip b Eb. rewrite Es in Ip. unfold prims in Ip. cbn [positions] in Ip.
    apply in_map_iff in Ip as (k & <- & Ik). unfold leaf_positions in Ik. apply in_seq in Ik.
    apply (H (k - Z.to_nat (ex2 n)) ltac:(lia)). replace (Z.to_nat (ex2 n) + (k - Z.to_nat (ex2 n))) with k by lia. auto.
  Qed.

  Lemma covered_offset : forall a s, covered a s -> covered (with_offset a f1em4) s.
  Proof.
    intros a s [O H]. destruct f1em4_pos as [F P]. destruct (with_offset_in a f1em4 O F P) as (O' & I & _).
    split; auto. eapply Forall_impl; [|apply H]. intros p G b E. eapply box_in_trans; eauto.
  Qed.

  Lemma refit_step : forall k ns, k < length ns0 -> rinv (S k) ns ->
    exists ns', refit_node indices new_aabbs k ns = Ok ns' /\ rinv k ns'.
  Proof.
    intros k ns Lk [Ln Old Nw].
    assert (In k (t_ids t)) as Ik by (apply (Permutation_in _ (Permutation_sym Ids)); apply in_seq; lia).
    destruct (subtree_ids t k Ik) as (s & St & Es).
    assert (repr ns0 s) as R by (eapply subtree_repr; eauto).
    pose proof (repr_idx _ _ R) as Er. rewrite Es in Er.
    unfold refit_node, get at 1. rewrite Old by lia. rewrite Er. cbn [bind].
    assert (exists a, refit_bounds indices new_aabbs ns (t_rec s) = Ok a /\ covered a s) as (a & Ea & Ca).
    { unfold refit_bounds. destruct s as [i n|i n l r].
      - simpl in R. destruct R as (_ & C0 & L0). cbn [t_rec].
        unfold get_left_first, is_leaf, count_unchecked.
        replace (0 <=? ex2 n)%Z with true by (symmetry; apply Z.leb_le; auto).
        replace (0 <=? ex1 n)%Z with true by (symmetry; apply Z.leb_le; auto).
        destruct (refit_leaf_ok (TLeaf i n) n St eq_refl) as (a & E & C). rewrite E. cbn [bind].
        eexists. split; [reflexivity|]. apply covered_offset; auto.
      - pose proof (subtree_after _ _ St Af) as Afs. simpl in Afs. destruct Afs as (Al & Ar & _ & _).
        simpl in Es. subst i.
        simpl in R. destruct R as (_ & C0 & L0 & Rr & Rl & Rr'). cbn [t_rec].
        assert (subtree l t) as Sl by (clear - St; remember (TNode k n l r) as x; induction St; subst; [apply st_left, st_self|apply st_left; auto|apply st_right; auto]).
        assert (subtree r t) as Sr by (clear - St; remember (TNode k n l r) as x; induction St; subst; [apply st_right, st_self|apply st_left; auto|apply st_right; auto]).
        destruct (Nw l Sl ltac:(lia)) as (al & El & Ol & Hl). destruct (Nw r Sr ltac:(lia)) as (ar & Err & Or & Hr).
        assert (t_idx r < length ns0) as Lr by (rewrite <- Ln; apply nth_error_Some; congruence).
        unfold get_left_first, is_leaf. rewrite L0.
        replace (0 <=? Z.of_nat (t_idx l))%Z with true by (symmetry; apply Z.leb_le; lia).
        replace (0 <=? ex1 n)%Z with false by (symmetry; apply Z.leb_gt; lia).
        rewrite (@as_u32_small (Z.of_nat _)) by lia. rewrite as_usize_nat by lia.
        rewrite as_u32_small by lia. rewrite (@as_usize_small (_ + 1)) by lia.
        replace (Z.to_nat (Z.of_nat (t_idx l) + 1)) with (t_idx r) by lia.
        unfold get at 1. rewrite El. cbn [bind]. unfold get. rewrite Err. cbn [bind].
        eexists. split; [reflexivity|]. apply covered_offset.
        assert (box_ok (grow_bb aabb_new al)) as O1 by (apply grow_bb_ok; auto; apply aabb_new_ok).
        split; [apply grow_bb_ok; auto|].
        unfold prims in *. cbn [positions]. rewrite map_app. apply Forall_app. split.
        + eapply Forall_impl; [|apply Hl]. intros p G b E. eapply box_in_trans; [apply (G b E)|].
          eapply box_in_trans; [apply grow_bb_in_r; auto; apply aabb_new_ok|apply grow_bb_in_l; auto].
        + eapply Forall_impl; [|apply Hr]. intros p G b E. eapply box_in_trans; [apply (G b E)|apply grow_bb_in_r; auto]. }
    rewrite Ea. cbn [bind]. rewrite set_Ok by lia. eexists. split; [reflexivity|]. constructor.
    - rewrite upd_length; auto.
    - intros i Li. rewrite nth_error_upd_other by lia. apply Old. lia.
    - intros s' St' Ls. destruct (Nat.eq_dec (t_idx s') k) as [Ek|Nk].
      + rewrite Ek. rewrite nth_error_upd_same by lia. exists a. split; auto.
        assert (s' = s) as ->; auto.
        assert (repr ns0 s') as R' by (eapply subtree_repr; eauto).
        clear - R R' Es Ek. rewrite <- Es in Ek. clear Es. revert s' R' Ek. rename R into Rx. revert Rx.
        induction s as [i n|i n l IHl r IHr]; intros Rx [j m|j m l' r'] B E; cbn [t_idx repr] in *; subst j;
          destruct Rx as (A1 & A2 & A3); destruct B as (B1 & B2 & B3); rewrite A1 in B1; injection B1 as <-; try lia; auto.
        destruct A3 as (A3 & A4 & A5), B3 as (B3 & B4 & B5). assert (t_idx l = t_idx l') as El by lia.
        f_equal; symmetry; [symmetry; apply IHl|symmetry; apply IHr]; intuition congruence.
      + rewrite nth_error_upd_other by lia. apply Nw; auto. lia.
  Qed.

  Lemma refit_ok : exists b', refit (Bvh ns0 indices) new_aabbs = Ok b' /\ prim_indices b' = indices /\ rinv 0 (nodes b').
  Proof.
    unfold refit. cbn [nodes prim_indices].
    assert (forall k ns, k <= length ns0 -> rinv k ns ->
      exists ns', for_each (rev (seq 0 k)) (refit_node indices new_aabbs) ns = Ok ns' /\ rinv 0 ns') as G.
    { induction k as [|k IH]; intros ns L I; [simpl; eauto|].
      rewrite seq_S, rev_app_distr. cbn [rev app for_each].
      destruct (refit_step k ns ltac:(lia) I) as (ns' & E & I'). rewrite Nat.add_0_l, E. cbn [bind]. apply IH; auto. lia. }
    destruct (G (length ns0) ns0 (le_n _)) as (ns' & E & I).
    - constructor; auto. intros s St L. exfalso.
      assert (repr ns0 s) as R by (eapply subtree_repr; eauto). apply repr_idx, nth_error_lt in R. lia.
    - rewrite E. cbn [bind]. eexists. split; [reflexivity|]. auto.
  Qed.
End Refit.

(** Whatever the input, [refit] resets count and first index of every node. *)
Definition blank (n : aabb) : Prop := ex1 n = 0%Z /\ ex2 n = 0%Z.

Lemma refit_leaf_blank : forall indices new_aabbs lf c a, refit_leaf indices new_aabbs lf c = Ok a -> blank a.
Proof.
  intros indices new_aabbs lf c a. unfold refit_leaf.
  assert (forall l b, blank b -> for_each l (fun i a => do prim <- get indices (as_usize (as_u32 (lf + Z.of_nat i)));
      do b <- get new_aabbs prim; Ok (grow_bb a b)) b = Ok a -> blank a) as G.
  { induction l as [|x l IH]; intros b B E; simpl in E; [congruence|].
    destruct (get indices _); try discriminate. cbn [bind] in E. destruct (get new_aabbs _); try discriminate. cbn [bind] in E.
    apply IH in E; auto. }
  apply G. split; reflexivity.
Qed.

Lemma refit_node_blank : forall indices new_aabbs i ns ns', refit_node indices new_aabbs i ns = Ok ns' ->
  exists a, ns' = upd ns i a /\ blank a /\ i < length ns.
Proof.
  intros indices new_aabbs i ns ns' E. unfold refit_node in E.
  destruct (get ns i) as [n| | |] eqn:En; try discriminate. cbn [bind] in E.
  unfold refit_bounds in E. destruct (get_left_first n) as [lf|].
  - destruct (if is_leaf n then _ else _) as [a| | |] eqn:Ea; try discriminate. cbn [bind] in E.
    apply set_inv in E as [L ->]. eexists. split; [reflexivity|]. split; auto.
    assert (blank a) as B; [|exact B].
    destruct (is_leaf n); [eapply refit_leaf_blank; eauto|].
    destruct (get ns (as_usize lf)) as [l| | |]; try discriminate. cbn [bind] in Ea.
    destruct (get ns (as_usize (as_u32 (lf + 1)))) as [r| | |]; try discriminate. cbn [bind] in Ea. injection Ea as <-. split; reflexivity.
  - cbn [bind] in E. apply set_inv in E as [L ->]. eexists. split; [reflexivity|]. split; auto. split; reflexivity.
Qed.

Lemma refit_blank : forall b new_aabbs b', refit b new_aabbs = Ok b' ->
  Forall blank (nodes b') /\ length (nodes b') = length (nodes b) /\ prim_indices b' = prim_indices b.
Proof.
  intros b new_aabbs b' E. unfold refit in E.
  destruct (for_each _ _ _) as [ns'| | |] eqn:F; try discriminate. cbn [bind] in E. injection E as <-.
  cbn [nodes prim_indices].
  assert (forall k ns, k <= length ns -> (forall i n, k <= i -> nth_error ns i = Some n -> blank n) ->
     for_each (rev (seq 0 k)) (refit_node (prim_indices b) new_aabbs) ns = Ok ns' ->
     Forall blank ns' /\ length ns' = length ns) as G.
  { induction k as [|k IH]; intros ns L H Ef.
    - simpl in Ef. injection Ef as <-. split; auto. apply Forall_forall. intros n In_. apply In_nth_error in In_ as [i Ei].
      apply (H i); auto. lia.
    - rewrite seq_S, rev_app_distr in Ef. cbn [rev app for_each] in Ef. rewrite Nat.add_0_l in Ef.
      destruct (refit_node _ _ k ns) as [ns1| | |] eqn:E1; try discriminate. cbn [bind] in Ef.
      apply refit_node_blank in E1 as (a & -> & B & Lk).
      apply IH in Ef.
      + rewrite upd_length in Ef. auto.
      + rewrite upd_length. lia.
      + intros i n Li Ei. destruct (Nat.eq_dec i k) as [->|N].
        * rewrite nth_error_upd_same in Ei by auto. congruence.
        * rewrite nth_error_upd_other in Ei by lia. apply (H i); auto. lia. }
  destruct (G (length (nodes b)) (nodes b) (le_n _)) as [A B]; auto.
  intros i n L En. assert (i < length (nodes b)) by (apply nth_error_Some; congruence). lia.
Qed.

(** ** validate *)
Definition mark (ps : list nat) (checks : list Z) : list Z := fold_left (fun c p => upd c p 1%Z) ps checks.
Lemma mark_app : forall a b c, mark (a ++ b) c = mark b (mark a c).
Proof. intros; unfold mark; apply fold_left_app. Qed.
Lemma mark_length : forall ps c, length (mark ps c) = length c.
Proof. induction ps as [|p ps IH]; intro c; simpl; auto. rewrite IH, upd_length. auto. Qed.
Lemma mark_nth : forall ps c i, i < length c -> nth_error (mark ps c) i = if existsb (Nat.eqb i) ps then Some 1%Z else nth_error c i.
Proof.
  induction ps as [|p ps IH]; intros c i L; simpl; auto. rewrite IH by (rewrite upd_length; auto).
  destruct (existsb (Nat.eqb i) ps); [rewrite orb_true_r; auto|]. rewrite orb_false_r.
  destruct (Nat.eqb_spec i p) as [->|N]; [apply nth_error_upd_same; auto|apply nth_error_upd_other; lia].
Qed.

(** The positions and ids below [t] are usable for a table of [n] entries. *)
Definition fine (indices : list nat) (n : nat) (t : tree) : Prop :=
  Forall (fun k => exists p, nth_error indices k = Some p /\ p < n) (positions t).

Section Validate.
  Variables (ns : list aabb) (indices : list nat).
  Hypothesis Nmax : (Z.of_nat (length ns) <= 2147483648)%Z.

  (** A leaf: marks its ids, or panics when one of them is unusable. *)
  Lemma check_leaf : forall n c, (0 <= ex1 n)%Z -> (0 <= ex2 n)%Z -> ((0 < ex1 n)%Z -> (ex2 n + ex1 n <= 2147483648)%Z) ->
    let r := for_each (seq 0 (Z.to_nat (ex1 n)))
              (fun i checks => do prim <- get indices (as_usize (as_i32 (as_u32 (ex2 n)) + Z.of_nat i)); set checks prim 1%Z) c in
    (Forall (fun k => exists p, nth_error indices k = Some p /\ p < length c) (leaf_positions n) /\ r = Ok (mark (leaf_prims indices n) c)) \/
    (~ Forall (fun k => exists p, nth_error indices k = Some p /\ p < length c) (leaf_positions n) /\ r = Panic).
  Proof.
    intros n c C0 L0 M. unfold leaf_prims, leaf_positions.
    set (m := Z.to_nat (ex1 n)). set (f := fun (i : nat) (checks : list Z) => _).
    assert (forall j, j < m -> as_usize (as_i32 (as_u32 (ex2 n)) + Z.of_nat j) = Z.to_nat (ex2 n) + j) as Ix.
    { intros j Lj. unfold m in Lj. rewrite (@as_u32_small (ex2 n)) by lia. rewrite as_i32_small by lia. rewrite as_usize_small by lia. lia. }
    clearbody m.
    assert (forall k, k <= m ->
      (Forall (fun k => exists p, nth_error indices k = Some p /\ p < length c) (seq (Z.to_nat (ex2 n)) k) /\
         for_each (seq 0 k) f c = Ok (mark (map (fun k => nth k indices 0) (seq (Z.to_nat (ex2 n)) k)) c)) \/
      (~ Forall (fun k => exists p, nth_error indices k = Some p /\ p < length c) (seq (Z.to_nat (ex2 n)) k) /\
         for_each (seq 0 k) f c = Panic)) as G; [|apply (G m (le_n _))].
    induction k as [|k IH]; intro Lk; [left; simpl; auto|].
    rewrite !seq_S, for_each_app, map_app, mark_app. destruct (IH ltac:(lia)) as [[F E]|[F E]]; rewrite E; cbn [bind].
    - cbn [for_each]. unfold f. rewrite Nat.add_0_l. rewrite Ix by lia. unfold get.
      destruct (nth_error indices (Z.to_nat (ex2 n) + k)) as [p|] eqn:Ep; cbn [bind].
      + unfold set. rewrite mark_length. destruct (Nat.ltb_spec p (length c)) as [Lp|Lp].
        * left. split; [apply Forall_app; split; auto; constructor; eauto|].
          cbn [bind map mark fold_left]. erewrite nth_error_nth by eauto. auto.
        * right. split; auto. intro X. apply Forall_app in X as [_ X]. inversion X as [|? ? (p' & A & B)]; subst.
          rewrite Ep in A. injection A as <-. lia.
      + right. split; auto. intro X. apply Forall_app in X as [_ X]. inversion X as [|? ? (p' & A & B)]; subst. congruence.
    - right. split; auto. intro X. apply Forall_app in X as [X _]. auto.
  Qed.

  Lemma check_tree : forall t fuel c, depth t < fuel -> repr ns t ->
    Forall (fun n => (0 < ex1 n)%Z -> (ex2 n + ex1 n <= 2147483648)%Z) (leaf_recs t) ->
    (fine indices (length c) t /\ traverse_check fuel (Bvh ns indices) (t_rec t) c = Ok (mark (prims indices t) c)) \/
    (~ fine indices (length c) t /\ traverse_check fuel (Bvh ns indices) (t_rec t) c = Panic).
  Proof.
    induction t as [i n|i n l IHl r IHr]; intros [|fuel] c D Rp M; simpl in D; try lia.
    - cbn [t_rec traverse_check]. simpl in Rp. destruct Rp as (_ & C0 & L0). simpl in M. inversion M; subst.
      unfold get_left_first, is_leaf, count_unchecked.
      replace (0 <=? ex2 n)%Z with true by (symmetry; apply Z.leb_le; auto).
      replace (0 <=? ex1 n)%Z with true by (symmetry; apply Z.leb_le; auto). cbn [prim_indices].
      apply (check_leaf n c); auto.
    - cbn [t_rec traverse_check]. simpl in Rp. destruct Rp as (_ & C0 & L0 & Er & Rl & Rr).
      simpl in M. apply Forall_app in M as [Ml Mr].
      unfold get_left_first, is_leaf. rewrite L0.
      replace (0 <=? Z.of_nat (t_idx l))%Z with true by (symmetry; apply Z.leb_le; lia).
      replace (0 <=? ex1 n)%Z with false by (symmetry; apply Z.leb_gt; lia). cbn [nodes].
      pose proof (repr_idx _ _ Rl) as El. pose proof (repr_idx _ _ Rr) as Err.
      assert (t_idx r < length ns) by (apply nth_error_Some; congruence).
      rewrite as_u32_small by lia. rewrite as_usize_nat by lia.
      replace (t_idx l + 1) with (t_idx r) by lia. unfold get. rewrite El, Err. cbn [bind].
      destruct (IHl fuel c ltac:(lia) Rl Ml) as [[F E]|[F E]]; rewrite E; cbn [bind].
      + destruct (IHr fuel (mark (prims indices l) c) ltac:(lia) Rr Mr) as [[F' E']|[F' E']]; rewrite E';
          rewrite mark_length in F'.
        * left. split; [apply Forall_app; split; auto|]. unfold prims. cbn [positions]. rewrite map_app, mark_app. auto.
        * right. split; auto. intro X. apply Forall_app in X as [_ X]. auto.
      + right. split; auto. intro X. apply Forall_app in X as [X _]. auto.
  Qed.

  Lemma forallb_marks : forall ps n, forallb (fun index => negb (index =? 0)%Z) (mark ps (repeat 0%Z n)) = true <->
    forall i, i < n -> In i ps.
  Proof.
    intros ps n. rewrite forallb_forall. split.
    - intros H i L. assert (nth_error (mark ps (repeat 0%Z n)) i = (if existsb (Nat.eqb i) ps then Some 1%Z else nth_error (repeat 0%Z n) i)) as E
        by (apply mark_nth; rewrite repeat_length; auto).
      destruct (existsb (Nat.eqb i) ps) eqn:X.
      + apply existsb_exists in X as (y & I & Y). apply Nat.eqb_eq in Y. subst. auto.
      + rewrite (nth_error_nth' _ 0%Z) in E by (rewrite mark_length, repeat_length; auto).
        rewrite (nth_error_nth' (repeat 0%Z n) 0%Z) in E by (rewrite repeat_length; auto). rewrite nth_repeat in E.
        injection E as E. specialize (H (nth i (mark ps (repeat 0%Z n)) 0%Z)). rewrite E in H.
        assert (In 0%Z (mark ps (repeat 0%Z n))) as I by (pose proof (nth_In (mark ps (repeat 0%Z n)) 0%Z (n := i)) as Q; rewrite E in Q; apply Q; rewrite mark_length, repeat_length; auto).
        specialize (H I). discriminate.
    - intros H x I. apply In_nth_error in I as [i Ei].
      assert (i < n) as L by (rewrite <- (repeat_length 0%Z n), <- (mark_length ps); apply nth_error_Some; congruence).
      rewrite mark_nth in Ei by (rewrite repeat_length; auto).
      replace (existsb (Nat.eqb i) ps) with true in Ei; [injection Ei as <-; auto|].
      symmetry. apply existsb_exists. exists i. split; auto. apply Nat.eqb_refl.
  Qed.
End Validate.
