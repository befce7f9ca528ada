(** * C63: the LOC builder is locally ordered clustering

    SpecLoc.v is the textbook algorithm on lists.  The tree that
    [construct_locally_ordered_clustered] stores in its node array is the tree
    that algorithm ends with, started from the primitives in Morton order. *)
Require Import List ZArith Bool Arith NArith Lia Permutation.
From Verif Require Import F32 F32Facts Vec Base AabbModel NodeModel UtilsModel UtilsProofs MortonProofs PropUtils SpecGeom SpecTree LocbModel
  LocbNN LocbMerge LocbForest LocbProofs PropBox PropLocb SpecLoc LocbRounds.
Import ListNotations.
Local Open Scope nat_scope.

Lemma leaf_shape : forall aabbs idx i, (Z.of_nat i < 2147483648)%Z ->
  shape_of (TLeaf (length aabbs - 1 + i) (leafrec aabbs idx i)) = first_leaf aabbs idx i.
Proof.
  intros aabbs idx i H. unfold leafrec, first_leaf. cbn [shape_of set_left_first set_count bmin bmax ex1 ex2].
  rewrite as_i32_small by lia. reflexivity.
Qed.

(** For three or more primitives the stored tree is the one locally ordered
    clustering ends with, after at most as many rounds as the loop was allowed. *)
Theorem C63_clustering : forall fuel threads aabbs centers bv t,
  locb_input aabbs centers -> 1 <= threads -> 3 <= length aabbs ->
  locb_build fuel threads aabbs centers = Ok bv ->
  repr (nodes bv) t -> t_idx t = 0 ->
  exists k, k <= fuel /\ rounds k (first_row aabbs (prim_indices bv)) [shape_of t].
Proof.
  intros fuel threads aabbs centers bv t0 (Lc & n1 & nmax) T1 n3 E Rt It.
  unfold locb_build, locb_build_radius in E.
  rewrite Lc, Nat.eqb_refl in E. replace (length aabbs =? 0) with false in E by (symmetry; apply Nat.eqb_neq; lia).
  cbn [negb orb] in E. destruct (Nat.leb_spec (length aabbs) 2) as [C|C]; [lia|].
  set (idx := fst (get_sorted_indices _ _)) in E.
  assert (Permutation idx (seq 0 (length aabbs))) as Hidx.
  { unfold idx, get_sorted_indices. cbn [fst]. rewrite <- Lc. apply sort_seq. }
  set (NN := 2 * length aabbs - 1) in *.
  set (nodes0 := repeat _ NN) in E. assert (length nodes0 = NN) as L0 by apply repeat_length.
  replace (NN - length aabbs) with (length aabbs - 1) in E by (unfold NN; lia).
  destruct (init_ok aabbs idx Hidx n1 nmax nodes0 L0) as (nodes1 & E1 & L1 & H1).
  rewrite E1 in E. cbn [bind] in E.
  destruct (cluster_loop fuel 14 threads nodes1 nodes0 _ _ _ _ _) as [out| | |] eqn:E2; try discriminate.
  cbn [bind] in E. injection E as <-.
  pose proof (init_finv aabbs idx Hidx n1 nmax nodes1 H1) as FI.
  change 14 with window in E2.
  destruct (loop_rounds (Q aabbs idx) (Q_reloc aabbs idx) (Q_merge aabbs idx) threads NN (length aabbs) T1
              ltac:(unfold NN; lia) fuel nodes1 nodes0 (repeat (N.of_nat NN) (3 * NN)) (repeat NN (2 * NN)) (length aabbs - 1) NN NN _ out FI L1 L0)
    as (Lo & t & k & Ft & Hk & Rk); auto.
  1-3: rewrite ?repeat_length; unfold NN in *; lia.
  { intros p Hp. rewrite !(proj2 (nth_error_None _ _)) by lia. auto. }
  { unfold NN; lia. }
  exists k. split; auto. cbn [prim_indices] in *. cbn [nodes] in Rt.
  destruct (final_tree aabbs idx Hidx n1 nmax out t Lo Ft) as (A & B & _).
  rewrite (repr_unique out t0 t Rt A) by congruence.
  replace (first_row aabbs idx) with (map shape_of (leafF aabbs idx)); auto.
  unfold leafF, first_row. rewrite map_map.
  rewrite (Permutation_length Hidx), seq_length. apply map_ext_in. intros i Hi. apply in_seq in Hi.
  apply leaf_shape. lia.
Qed.

(** The row starts in Morton order: by the code of the primitive's centre in a
    grid of 1024^3 cells over the box of all AABBs, equal codes by number. *)
Theorem C63_order : forall fuel threads aabbs centers bv,
  locb_input aabbs centers -> 3 <= length aabbs ->
  locb_build fuel threads aabbs centers = Ok bv ->
  let code p := encode (encoder_new (union_of_list aabbs) 1024) (nth p centers (vsplat f0)) in
  Permutation (prim_indices bv) (seq 0 (length aabbs)) /\
  forall i j a b, i < j -> nth_error (prim_indices bv) i = Some a -> nth_error (prim_indices bv) j = Some b ->
    (code a < code b)%N \/ (code a = code b /\ a < b).
Proof.
  intros fuel threads aabbs centers bv (Lc & n1 & nmax) n3 E.
  unfold locb_build, locb_build_radius in E.
  rewrite Lc, Nat.eqb_refl in E. replace (length aabbs =? 0) with false in E by (symmetry; apply Nat.eqb_neq; lia).
  cbn [negb orb] in E. destruct (Nat.leb_spec (length aabbs) 2) as [C|C]; [lia|].
  destruct (for_each _ _ _) as [nodes1| | |] eqn:E1; try discriminate. cbn [bind] in E.
  destruct (cluster_loop fuel _ threads nodes1 _ _ _ _ _ _) as [out| | |] eqn:E2; try discriminate. clear E1 E2.
  cbn [bind] in E. injection E as <-. cbn [prim_indices]. change MAX_GRID_DIM with 1024%Z.
  pose proof (C36_sorted_permutation (encoder_new (union_of_list aabbs) 1024) centers) as S.
  unfold get_sorted_indices in S. cbv zeta in S.
  destruct S as (_ & P & S). rewrite Lc in P at 2. split; [exact P|].
  intros i j a b L Ea Eb. destruct (S i j a b L Ea Eb) as (ca & cb & Ca & Cb & H).
  assert (forall p c, nth_error (map (encode (encoder_new (union_of_list aabbs) 1024)) centers) p = Some c ->
            encode (encoder_new (union_of_list aabbs) 1024) (nth p centers (vsplat f0)) = c) as G.
  { intros p c Hp. apply nth_error_nth with (d := encode (encoder_new (union_of_list aabbs) 1024) (vsplat f0)) in Hp.
    rewrite map_nth in Hp. exact Hp. }
  rewrite (G _ _ Ca), (G _ _ Cb). exact H.
Qed.

(** [rounds] leaves no choice: the row determines every nearest neighbour, the
    next row, and so the tree.  With [C63_clustering]: the inputs and the
    specification determine the tree the builder stores. *)
Lemma nearest_unique : forall row i j j', nearest_to row i j -> nearest_to row i j' -> j = j'.
Proof.
  assert (forall row i j j', j < j' -> nearest_to row i j -> nearest_to row i j' -> False) as G.
  { intros row i j j' L (W & M & H) (W' & M' & H').
    destruct (H' j W) as [_ A]. specialize (A L). destruct (H j' W') as [B _].
    destruct (flt_notnan _ _ M) as [N1 _]. destruct (flt_notnan _ _ M') as [N2 _].
    apply flt_false in B; auto. apply not_true_iff_false in A. apply A. apply fle_spec; auto. }
  intros row i j j' H H'. destruct (Nat.lt_total j j') as [L|[L|L]]; auto; exfalso; eauto.
Qed.
Lemma round_unique : forall row a b, round row a -> round row b -> a = b.
Proof.
  intros row a b (nb & Hn & ->) (nb' & Hn' & ->). apply flat_map_ext_in. intros i Hi. apply in_seq in Hi.
  pose proof (nearest_unique row i _ _ (Hn i ltac:(lia)) (Hn' i ltac:(lia))) as E. unfold becomes. rewrite <- E.
  assert (nb i < length row) as L by (destruct (Hn i ltac:(lia)) as ((_ & L & _) & _); auto).
  rewrite <- (nearest_unique row (nb i) _ _ (Hn _ L) (Hn' _ L)). reflexivity.
Qed.
Theorem C63_determined : forall row k k' a b,
  rounds k row [a] -> rounds k' row [b] -> k = k' /\ a = b.
Proof.
  intros row k k' a b H. remember [a] as ra eqn:Ea. revert k' b a Ea.
  induction H as [row|k row row' row'' L R H IH]; intros k' b a Ea H'.
  - subst row. inversion H' as [x|x r r' r'' L2 _ _]; subst; [split; congruence|]. simpl in L2. lia.
  - inversion H' as [x|x r r' r'' L2 R2 H2]; subst.
    + simpl in L. lia.
    + rewrite (round_unique _ _ _ R2 R) in H2. destruct (IH _ _ _ eq_refl H2). auto.
Qed.

(** The boxes are exact: each leaf holds one primitive and its box is that
    primitive's AABB padded by 1e-4, each inner box is the union of the two
    boxes below it (no larger; C01_union_of says what the union is). *)
Fixpoint exact (aabbs : list aabb) (indices : list nat) (s : shape) : Prop :=
  match s with
  | SLeaf mn mx first count => count = 1%Z /\
      let b := with_offset (nth (nth (Z.to_nat first) indices 0) aabbs aabb_new) f1em4 in mn = bmin b /\ mx = bmax b
  | SNode mn mx l r =>
      (let u := union_of (cluster_box r) (cluster_box l) in mn = bmin u /\ mx = bmax u) /\
      exact aabbs indices l /\ exact aabbs indices r
  end.
Lemma rounds_exact : forall aabbs indices k row row', rounds k row row' -> Forall (exact aabbs indices) row ->
  Forall (exact aabbs indices) row'.
Proof.
  intros aabbs indices k row row' H. induction H as [row|k row row' row'' L R H IH]; auto. intro F. apply IH.
  destruct R as (nb & Hn & ->). rewrite Forall_forall in *. intros s Is. apply in_flat_map in Is as (i & Ii & Is).
  apply in_seq in Ii. unfold becomes in Is.
  assert (nb i < length row) as Ln by (destruct (Hn i ltac:(lia)) as ((_ & X & _) & _); auto).
  assert (forall j, j < length row -> exact aabbs indices (at_pos row j)) as G by (intros j Hj; apply F, nth_In; auto).
  destruct (nb (nb i) =? i); [destruct (nb i <? i)|]; try (destruct Is as [<-|[]]); [| |].
  - cbn [joined exact]. split; [split; reflexivity|]. split; apply G; auto; lia.
  - destruct Is.
  - apply G; lia.
Qed.
Theorem C63_boxes : forall fuel threads aabbs centers bv t,
  locb_input aabbs centers -> 1 <= threads -> 3 <= length aabbs ->
  locb_build fuel threads aabbs centers = Ok bv -> repr (nodes bv) t -> t_idx t = 0 ->
  exact aabbs (prim_indices bv) (shape_of t).
Proof.
  intros fuel threads aabbs centers bv t In T1 n3 E Rt It.
  destruct (C63_clustering fuel threads aabbs centers bv t In T1 n3 E Rt It) as (k & _ & Rk).
  apply (rounds_exact aabbs (prim_indices bv)) in Rk; [inversion Rk; auto|].
  unfold first_row. rewrite Forall_forall. intros s Is. apply in_map_iff in Is as (i & <- & Ii).
  unfold first_leaf. cbv zeta. cbn [exact]. rewrite Nat2Z.id. auto.
Qed.

(** Six boxes on a curve: the build exists, and its tree takes at least one round. *)
Example C63_nonvacuous : exists bv t k,
  locb_input lbs lcs /\ locb_build 6 3 lbs lcs = Ok bv /\ repr (nodes bv) t /\ t_idx t = 0 /\
  1 <= k <= 6 /\ rounds k (first_row lbs (prim_indices bv)) [shape_of t].
Proof.
  destruct C18_nonvacuous as (In & _ & _ & bv & E & _ & Li).
  destruct (C18_valid 6 3 lbs lcs bv In ltac:(lia) E) as (t & R & I & _).
  destruct (C63_clustering 6 3 lbs lcs bv t In ltac:(lia) ltac:(simpl; lia) E R I) as (k & Hk & Rk).
  exists bv, t, k. split; auto. split; auto. split; auto. split; auto. split; auto.
  inversion Rk as [row X|]; subst; [|lia]. exfalso.
  assert (length (first_row lbs (prim_indices bv)) = 6) as L by (unfold first_row; rewrite map_length, seq_length; exact Li).
  destruct (first_row lbs (prim_indices bv)) as [|a [|b l]]; discriminate.
Qed.
