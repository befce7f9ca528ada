(** * One clustering round on the forest of clusters; the main loop *)
Require Import List ZArith Bool Arith NArith Lia Permutation Reals Lra.
From Flocq Require Import Core BinarySingleNaN.
From Verif Require Import F32 F32Facts Vec Base AabbModel NodeModel UtilsModel UtilsProofs SpecTree LocbModel LocbNN LocbMerge.
Import ListNotations.

(** ** The best neighbour is the nearest one, the first among equals *)
Section Best.
  Variables (d : nat -> f32).
  Definition bst (l : list nat) (b : f32 * option nat) := fold_left (fun b j => best_step j (d j) b) l b.
  Lemma best_spec : forall l, l <> [] -> (forall j, In j l -> is_finite (d j) = true /\ flt (d j) fMAX = true) ->
    (forall k x y, k < length l -> nth_error l k = Some x -> In y (firstn k l) -> y < x) ->
    exists j, bst l (fMAX, None) = (d j, Some j) /\ In j l /\
      forall j', In j' l -> (fr (d j) <= fr (d j'))%R /\ (fr (d j) = fr (d j') -> j <= j').
  Proof.
    induction l as [|x l IH] using rev_ind; intros Ne F S; [congruence|]. clear Ne.
    unfold bst. rewrite fold_left_app. cbn [fold_left]. fold (bst l (fMAX, None)).
    destruct (F x) as [Fx Mx]; [apply in_or_app; simpl; auto|].
    destruct l as [|y l'].
    - exists x. cbn [bst fold_left]. unfold best_step. cbn [fst]. rewrite Mx. split; auto. split; [simpl; auto|].
      intros j' [<-|[]]. split; [lra|auto].
    - destruct IH as (j & E & I & H).
      + discriminate.
      + intros; apply F, in_or_app; auto.
      + intros k a b L Ea Ib. apply (S k a b).
        * rewrite app_length. lia.
        * rewrite nth_error_app1 by auto. auto.
        * rewrite firstn_app. apply in_or_app; auto.
      + assert (forall z, In z (y :: l') -> z < x) as Lx.
        { intros z Iz. apply (S (length (y :: l')) x z).
          - rewrite app_length. simpl. lia.
          - rewrite nth_error_app2, Nat.sub_diag by lia. auto.
          - rewrite firstn_app, Nat.sub_diag, firstn_all. rewrite app_nil_r. auto. }
        assert (is_finite (d j) = true) as Fj by (apply F, in_or_app; auto).
        unfold bst in E |- *. rewrite E. unfold best_step. cbn [fst].
        destruct (flt (d x) (d j)) eqn:C.
        * apply flt_spec in C; try (apply fin_notnan; auto).
          exists x. split; auto. split; [apply in_or_app; simpl; auto|].
          intros j' I'. apply in_app_or in I' as [I'|[<-|[]]].
          -- destruct (H j' I'). split; [lra|]. intro; lra.
          -- split; [lra|auto].
        * apply flt_false in C; try (apply fin_notnan; auto).
          exists j. split; auto. split; [apply in_or_app; auto|].
          intros j' I'. apply in_app_or in I' as [I'|[<-|[]]]; auto.
          split; auto. intros _. apply Lx in I. lia.
  Qed.
End Best.

Lemma argmin : forall (f : nat -> R) n a, 1 <= n ->
  exists i, a <= i < a + n /\ forall k, a <= k < a + n -> (f i <= f k)%R /\ (f i = f k -> i <= k).
Proof.
  intros f n; induction n as [|n IH]; intros a L; [lia|].
  destruct (Nat.eq_dec n 0) as [->|N].
  - exists a. split; [lia|]. intros k Hk. assert (k = a) by lia. subst. split; [lra|auto].
  - destruct (IH a ltac:(lia)) as (i & Hi & H).
    destruct (Rlt_or_le (f (a + n)) (f i)) as [C|C].
    + exists (a + n). split; [lia|]. intros k Hk. destruct (Nat.eq_dec k (a + n)) as [->|Nk]; [split; [lra|auto]|].
      destruct (H k ltac:(lia)). split; [lra|intro; lra].
    + exists i. split; [lia|]. intros k Hk. destruct (Nat.eq_dec k (a + n)) as [->|Nk]; [|apply H; lia].
      split; auto. intros _. lia.
Qed.

(** ** Trees and their relocation *)
Definition reloc (t : tree) (p : nat) : tree :=
  match t with TLeaf _ n => TLeaf p n | TNode _ n l r => TNode p n l r end.
Definition below (t : tree) : list nat := tl (t_ids t).

Lemma reloc_idx : forall t p, t_idx (reloc t p) = p. Proof. intros [i n|i n l r] p; auto. Qed.
Lemma reloc_rec : forall t p, t_rec (reloc t p) = t_rec t. Proof. intros [i n|i n l r] p; auto. Qed.
Lemma reloc_below : forall t p, below (reloc t p) = below t. Proof. intros [i n|i n l r] p; auto. Qed.
Lemma reloc_positions : forall t p, positions (reloc t p) = positions t. Proof. intros [i n|i n l r] p; auto. Qed.
Lemma ids_below : forall t, t_ids t = t_idx t :: below t. Proof. intros [i n|i n l r]; auto. Qed.

Lemma repr_ext : forall a b t, (forall x, In x (t_ids t) -> nth_error a x = nth_error b x) -> repr a t -> repr b t.
Proof.
  intros a b t; induction t as [i n|i n l IHl r IHr]; intros H R; simpl in *.
  - rewrite <- H by auto. auto.
  - destruct R as (E & N & X & Y & Rl & Rr). rewrite <- H by auto.
    repeat split; auto; [apply IHl|apply IHr]; auto; intros; apply H; right; apply in_or_app; auto.
Qed.
Lemma repr_root : forall a t, repr a t -> nth_error a (t_idx t) = Some (t_rec t).
Proof. intros a [i n|i n l r] R; simpl in *; tauto. Qed.
Lemma repr_reloc : forall a b t p, repr a t -> (forall x, In x (below t) -> nth_error a x = nth_error b x) ->
  nth_error b p = Some (t_rec t) -> repr b (reloc t p).
Proof.
  intros a b [i n|i n l r] p R H E; simpl in *; [tauto|].
  destruct R as (_ & N & X & Y & Rl & Rr). repeat split; auto.
  - apply (repr_ext a); auto. intros; apply H, in_or_app; auto.
  - apply (repr_ext a); auto. intros; apply H, in_or_app; auto.
Qed.

Lemma Permutation_flat_map_split : forall A B (f g : A -> list B) l,
  Permutation (flat_map (fun x => f x ++ g x) l) (flat_map f l ++ flat_map g l).
Proof.
  intros A B f g l; induction l as [|x l IH]; simpl; auto.
  rewrite <- !app_assoc. apply Permutation_app_head.
  eapply Permutation_trans; [apply Permutation_app_head, IH|].
  rewrite !app_assoc. apply Permutation_app_tail, Permutation_app_comm.
Qed.
Lemma flat_map_map : forall A B C (f : A -> B) (g : B -> list C) l, flat_map g (map f l) = flat_map (fun x => g (f x)) l.
Proof. intros A B C f g l; induction l as [|x l IH]; simpl; auto. rewrite IH. auto. Qed.
Lemma flat_map_filter : forall A B (p : A -> bool) (g : A -> list B) l,
  flat_map (fun x => if p x then g x else []) l = flat_map g (filter p l).
Proof. intros A B p g l; induction l as [|x l IH]; simpl; auto. destruct (p x); simpl; rewrite IH; auto. Qed.
Lemma flat_map_ext_in : forall A B (f g : A -> list B) l, (forall x, In x l -> f x = g x) -> flat_map f l = flat_map g l.
Proof.
  intros A B f g l; induction l as [|x l IH]; intro H; simpl; auto. rewrite (H x), IH; simpl; auto.
  intros; apply H; simpl; auto.
Qed.

Lemma nth_error_firstn' : forall A n (l : list A) k, k < n -> nth_error (firstn n l) k = nth_error l k.
Proof. induction n as [|n IH]; intros [|x l] [|k] H; simpl; auto; try lia. apply IH. lia. Qed.

Section Round.
  (** [Q] is any property of cluster trees preserved by relocation and merging. *)
  Variable Q : tree -> Prop.
  Hypothesis QR : forall t p, Q t -> Q (reloc t p).
  Hypothesis QM : forall l r p q, Q l -> Q r ->
    Q (TNode p (set_left_first (set_count (union_of (t_rec r) (t_rec l)) None) (Some q)) l r).
  (** The distances can be compared; only needed for progress. *)
  Hypothesis QD : forall s t, Q s -> Q t ->
    is_finite (distance (t_rec s) (t_rec t)) = true /\ flt (distance (t_rec s) (t_rec t)) fMAX = true.

  Variables (radius threads N n : nat).
  Hypothesis R1 : 1 <= radius.
  Hypothesis T1 : 1 <= threads.
  Hypothesis Nmax : (Z.of_nat N <= 2147483648)%Z.

  Record finv (nodes : list aabb) (begin end_ : nat) (F : list tree) : Prop := Finv {
    fi_idx : map t_idx F = seq begin (end_ - begin);
    fi_repr : Forall (repr nodes) F;
    fi_below : Permutation (flat_map below F) (seq end_ (N - end_));
    fi_pos : Permutation (flat_map positions F) (seq 0 n);
    fi_Q : Forall Q F;
    fi_ord : Forall children_after F
  }.

  Section Step.
    Variables (nodes : list aabb) (begin end_ : nat) (F : list tree).
    Hypothesis FI : finv nodes begin end_ F.
    Hypothesis Ln : length nodes = N.
    Hypothesis Le : end_ <= N.
    Hypothesis C2 : begin + 2 <= end_.
    Hypothesis Hb : begin + 1 = end_ - begin.

    Definition T (k : nat) : tree := nth (k - begin) F (TLeaf 0 aabb_new).
    Lemma F_length : length F = end_ - begin.
    Proof. rewrite <- (map_length t_idx), (fi_idx _ _ _ _ FI). apply seq_length. Qed.
    Lemma F_map : F = map T (all begin end_).
    Proof.
      unfold all. rewrite <- F_length.
      assert (forall (G : list tree) a, (forall k, k < length G -> nth_error G k = Some (T (a + k))) -> G = map T (seq a (length G))) as H.
      { induction G as [|g G IH]; intros a H; simpl; auto. f_equal.
        - specialize (H 0 ltac:(simpl; lia)). rewrite Nat.add_0_r in H. simpl in H. congruence.
        - apply IH. intros k L. specialize (H (S k) ltac:(simpl; lia)). simpl in H. rewrite H.
          f_equal. f_equal. lia. }
      apply H. intros k L. unfold T. replace (begin + k - begin) with k by lia. apply nth_error_nth'; auto.
    Qed.
    Lemma T_in : forall k, begin <= k < end_ -> In (T k) F.
    Proof. intros k H. unfold T. apply nth_In. rewrite F_length. lia. Qed.
    Lemma T_idx : forall k, begin <= k < end_ -> t_idx (T k) = k.
    Proof.
      intros k H. assert (nth_error (map t_idx F) (k - begin) = Some k) as E.
      { rewrite (fi_idx _ _ _ _ FI). rewrite (nth_error_nth' _ 0) by (rewrite seq_length; lia).
        rewrite seq_nth by lia. f_equal. lia. }
      unfold T. rewrite (map_nth_error t_idx (k - begin) F (d := nth (k - begin) F (TLeaf 0 aabb_new))) in E.
      - congruence.
      - apply nth_error_nth'. rewrite F_length. lia.
    Qed.
    Lemma T_repr : forall k, begin <= k < end_ -> repr nodes (T k).
    Proof. intros k H. pose proof (fi_repr _ _ _ _ FI) as R. rewrite Forall_forall in R. apply R, T_in; auto. Qed.
    Lemma T_Q : forall k, begin <= k < end_ -> Q (T k).
    Proof. intros k H. pose proof (fi_Q _ _ _ _ FI) as R. rewrite Forall_forall in R. apply R, T_in; auto. Qed.
    Lemma T_rec : forall k, begin <= k < end_ -> t_rec (T k) = nd nodes k.
    Proof.
      intros k H. pose proof (repr_root _ _ (T_repr k H)) as E. rewrite T_idx in E by auto.
      unfold nd. erewrite nth_error_nth; eauto.
    Qed.
    Lemma T_below : forall k x, begin <= k < end_ -> In x (below (T k)) -> end_ <= x.
    Proof.
      intros k x H I. assert (In x (flat_map below F)) as J by (apply in_flat_map; exists (T k); split; auto; apply T_in; auto).
      apply (Permutation_in _ (fi_below _ _ _ _ FI)) in J. apply in_seq in J. lia.
    Qed.

    Definition nb (i : nat) : nat := match nn radius nodes begin end_ i with Some j => j | None => 0 end.
    Definition key (i j : nat) : R := fr (pair_d nodes i j).

    (** A neighbour, if there is one, is another cluster in range. *)
    Lemma bst_in : forall d l b j, snd (bst d l b) = Some j -> In j l \/ snd b = Some j.
    Proof.
      intros d l; induction l as [|x l IH]; intros b j E; auto. cbn [bst fold_left] in E.
      apply IH in E as [E|E]; [left; simpl; auto|]. unfold best_step in E.
      destruct (flt (d x) (fst b)); auto. simpl in E. left; simpl; left; congruence.
    Qed.
    Lemma nn_in : forall i j, begin <= i < end_ -> nn radius nodes begin end_ i = Some j -> begin <= j < end_ /\ j <> i.
    Proof.
      intros i j Hi E. unfold nn, best_of in E.
      destruct (bst_in (pair_d nodes i) _ _ _ E) as [I|I]; [|discriminate].
      apply (range_in radius nodes begin end_ R1 ltac:(lia) i) in I; auto. tauto.
    Qed.

    Lemma d_fin : forall i j, begin <= i < end_ -> begin <= j < end_ -> i <> j ->
      is_finite (pair_d nodes i j) = true /\ flt (pair_d nodes i j) fMAX = true.
    Proof.
      intros i j Hi Hj Ne. unfold pair_d.
      rewrite <- !T_rec by lia. apply QD; apply T_Q; lia.
    Qed.

    Lemma nn_spec : forall i, begin <= i < end_ -> 
      nn radius nodes begin end_ i = Some (nb i) /\ begin <= nb i < end_ /\ nb i <> i /\
      (i <= nb i + radius /\ nb i <= i + radius) /\
      forall j, begin <= j < end_ -> j <> i -> i <= j + radius -> j <= i + radius ->
        (key i (nb i) <= key i j)%R /\ (key i (nb i) = key i j -> nb i <= j).
    Proof.
      intros i Hi.
      set (l := range (sb radius begin end_ i) i ++ range (i + 1) (se radius begin end_ i)).
      pose proof (range_in radius nodes begin end_ R1 ltac:(lia) i) as RI.
      pose proof (sb_bounds radius nodes begin end_ R1 ltac:(lia) i ltac:(lia)) as SB.
      pose proof (se_bounds radius nodes begin end_ R1 ltac:(lia) i ltac:(lia)) as SE.
      destruct (best_spec (pair_d nodes i) l) as (j & E & I & H).
      - intro X. assert (exists j, In j l) as [j I].
        { destruct (Nat.eq_dec i begin) as [->|Nb].
          - exists (begin + 1). apply RI; lia.
          - exists (i - 1). apply RI; lia. }
        rewrite X in I. destruct I.
      - intros j I. apply RI in I; auto. apply d_fin; lia.
      - intros k x y Lk Ex Iy. unfold l in *. unfold range in *.
        set (a := sb radius begin end_ i) in *. set (b := se radius begin end_ i) in *.
        assert (length (seq a (i - a)) = i - a) as L1 by apply seq_length.
        rewrite firstn_app in Iy. rewrite L1 in *. apply in_app_or in Iy.
        destruct (Nat.lt_ge_cases k (i - a)) as [C|C].
        + rewrite nth_error_app1 in Ex by lia.
          rewrite (nth_error_nth' _ 0) in Ex by lia. rewrite seq_nth in Ex by lia. injection Ex as <-.
          destruct Iy as [Iy|Iy].
          * rewrite <- (firstn_skipn k (seq a (i - a))) in L1.
            assert (firstn k (seq a (i - a)) = seq a k) as Z.
            { clear -C. replace (i - a) with (k + (i - a - k)) by lia. rewrite seq_app, firstn_app, seq_length, Nat.sub_diag.
              rewrite firstn_all2 by (rewrite seq_length; lia). simpl. apply app_nil_r. }
            rewrite Z in Iy. apply in_seq in Iy. lia.
          * replace (k - (i - a)) with 0 in Iy by lia. destruct Iy.
        + rewrite nth_error_app2 in Ex by lia. rewrite L1 in Ex.
          assert (k - (i - a) < b - (i + 1)) as C'.
          { rewrite app_length, !seq_length in Lk. lia. }
          rewrite (nth_error_nth' _ 0) in Ex by (rewrite seq_length; lia). rewrite seq_nth in Ex by lia. injection Ex as <-.
          destruct Iy as [Iy|Iy].
          * rewrite firstn_all2 in Iy by lia. apply in_seq in Iy. lia.
          * set (q := k - (i - a)) in *.
            assert (firstn q (seq (i + 1) (b - (i + 1))) = seq (i + 1) q) as Z.
            { clear -C'. replace (b - (i + 1)) with (q + (b - (i + 1) - q)) by lia.
              rewrite seq_app, firstn_app, seq_length, Nat.sub_diag.
              rewrite firstn_all2 by (rewrite seq_length; lia). simpl. apply app_nil_r. }
            rewrite Z in Iy. apply in_seq in Iy. lia.
      - assert (nn radius nodes begin end_ i = Some j) as En.
        { unfold nn, best_of. fold l. unfold bst in E. rewrite E. auto. }
        assert (nb i = j) as Ej by (unfold nb; rewrite En; auto). rewrite Ej.
        split; auto. apply RI in I; auto. destruct I as (I1 & I2 & I3 & I4). split; auto. split; auto. split; auto.
        intros j' Hj' Nj' A B. apply H. apply RI; auto.
    Qed.

    Lemma Hnb : (forall i, begin <= i < end_ -> nn radius nodes begin end_ i <> None) ->
      forall i, begin <= i < end_ -> begin <= nb i < end_ /\ nb i <> i.
    Proof.
      intros HS i Hi. unfold nb. specialize (HS i Hi). destruct (nn radius nodes begin end_ i) eqn:E; [|congruence].
      apply nn_in; auto.
    Qed.

    (** A nearest pair is mutual, so each round merges something. *)
    Lemma some_mutual : exists i, begin <= i < end_ /\ mutual nb i = true.
    Proof.
      destruct (argmin (fun i => key i (nb i)) (end_ - begin) begin ltac:(lia)) as (i & Hi & H).
      assert (begin <= i < end_) as Hi' by lia.
      exists i. split; auto. unfold mutual. apply Nat.eqb_eq.
      destruct (nn_spec i Hi') as (_ & Hj & Nj & (A & B) & Hm).
      set (j := nb i) in *. destruct (nn_spec j Hj) as (_ & Hk & Nk & (A' & B') & Hm').
      set (k := nb j) in *.
      assert (forall x y, key x y = key y x) as Sy by (intros; unfold key; rewrite pair_d_sym; auto).
      destruct (Hm' i Hi' ltac:(auto) ltac:(lia) ltac:(lia)) as [L1 T1'].
      destruct (H j ltac:(lia)) as [L2 _]. fold j k in L2.
      assert (key i j = key j k) as Ek by (rewrite (Sy j i) in L1; lra).
      assert (k <= i) as Lki by (apply T1'; rewrite (Sy j i); auto).
      destruct (Nat.eq_dec k i) as [->|Nki]; auto. exfalso.
      destruct (nn_spec k Hk) as (_ & _ & _ & _ & Hmk).
      destruct (Hmk j Hj ltac:(auto) ltac:(lia) ltac:(lia)) as [L3 _].
      destruct (H k ltac:(lia)) as [L4 E4]. fold j in L4, E4.
      assert (i <= k); [|lia]. apply E4. rewrite (Sy k j) in L3. lra.
    Qed.
    Lemma all_some : forall i, begin <= i < end_ -> nn radius nodes begin end_ i <> None.
    Proof. intros i Hi. destruct (nn_spec i Hi) as (E & _). congruence. Qed.
    Lemma M_pos : 1 <= M begin end_ nb.
    Proof.
      pose proof (Hnb all_some) as Hnb.
      destruct some_mutual as (i & Hi & Mu).
      rewrite (mutual_cases begin end_ nb ltac:(lia) Hnb i Hi) in Mu.
      assert (exists x, begin <= x < end_ /\ low nb x = true) as (x & Hx & Lx).
      { apply orb_true_iff in Mu as [L|U]; [eauto|]. destruct (up_low begin end_ nb i Hi U) as [L _].
        exists (nb i). split; auto. apply Hnb; auto. }
      unfold M, cnt. assert (In x (filter (low nb) (seq begin (end_ - begin)))) as I.
      { apply filter_In. split; auto. apply in_seq. lia. }
      destruct (filter _ _); [destruct I|simpl; lia].
    Qed.

    Hypothesis HS : forall i, begin <= i < end_ -> nn radius nodes begin end_ i <> None.
    Let Hnb' : forall i, begin <= i < end_ -> begin <= nb i < end_ /\ nb i <> i := Hnb HS.
    Let begin_end : begin < end_. Proof. lia. Qed.
    Let two_M' : 2 * M begin end_ nb <= end_ - begin := two_M begin end_ nb begin_end Hnb'.
    Lemma M_le : M begin end_ nb <= begin. Proof. lia. Qed.
    Notation pos_ := (pos begin end_ nb).
    Notation fc_ := (fc begin end_ nb).

    (** The clusters after the round. *)
    Definition newtree (k : nat) : tree :=
      if up nb k then
        TNode (pos_ k) (parent_of begin end_ nb nodes k) (reloc (T (nb k)) (fc_ (nb k))) (reloc (T k) (S (fc_ (nb k))))
      else reloc (T k) (pos_ k).
    Definition F' : list tree := map newtree (kepts begin end_ nb).

    Lemma in_kepts : forall k, In k (kepts begin end_ nb) <-> begin <= k < end_ /\ kept nb k = true.
    Proof. intro k. unfold kepts. rewrite filter_In, (in_all begin end_ begin_end). tauto. Qed.

    Lemma reshuffle : forall A (g : tree -> list A), (forall t p, g (reloc t p) = g t) ->
      Permutation (flat_map (fun k => if up nb k then g (T (nb k)) ++ g (T k) else g (T k)) (kepts begin end_ nb)) (flat_map g F).
    Proof.
      intros A g Hg.
      rewrite (flat_map_ext_in _ _ _ (fun k => (if up nb k then g (T (nb k)) else []) ++ g (T k))).
      2: { intros k _. destruct (up nb k); auto. }
      eapply Permutation_trans; [apply Permutation_flat_map_split|].
      rewrite flat_map_filter.
      assert (filter (up nb) (kepts begin end_ nb) = ups begin end_ nb) as E.
      { unfold kepts, ups. generalize (all begin end_). induction l as [|x l IH]; simpl; auto.
        destruct (kept nb x) eqn:K; simpl; destruct (up nb x) eqn:U; simpl; rewrite IH; auto.
        apply (up_kept begin end_ nb begin_end) in U. congruence. }
      rewrite E. rewrite <- (flat_map_map _ _ _ nb (fun x => g (T x))).
      eapply Permutation_trans; [apply Permutation_app_tail, Permutation_flat_map, (ups_lows begin end_ nb begin_end Hnb')|].
      rewrite <- flat_map_app.
      rewrite F_map at 1. rewrite flat_map_map. apply Permutation_flat_map.
      eapply Permutation_trans; [apply Permutation_app_comm|apply kepts_lows].
    Qed.

    Lemma newtree_below : forall k, begin <= k < end_ -> below (newtree k) =
      if up nb k then (fc_ (nb k) :: below (T (nb k))) ++ (S (fc_ (nb k)) :: below (T k)) else below (T k).
    Proof.
      intros k Hk. unfold newtree. destruct (up nb k); [|apply reloc_below].
      unfold below at 1. cbn [t_ids tl]. rewrite !ids_below, !reloc_idx, !reloc_below. auto.
    Qed.

    Lemma step_below : Permutation (flat_map below F') (seq (cbeg begin end_ nb) (N - cbeg begin end_ nb)).
    Proof.
      unfold F'. rewrite flat_map_map.
      assert (Permutation (flat_map (fun k => below (newtree k)) (kepts begin end_ nb))
        (flat_map (fun k => (if up nb k then [fc_ (nb k); S (fc_ (nb k))] else []) ++
          (if up nb k then below (T (nb k)) ++ below (T k) else below (T k))) (kepts begin end_ nb))) as P.
      { assert (forall l, (forall k, In k l -> begin <= k < end_) ->
          Permutation (flat_map (fun k => below (newtree k)) l)
            (flat_map (fun k => (if up nb k then [fc_ (nb k); S (fc_ (nb k))] else []) ++
          (if up nb k then below (T (nb k)) ++ below (T k) else below (T k))) l)) as G.
        { induction l as [|k l IH]; intro H; simpl; auto.
          apply Permutation_app; [|apply IH; intros; apply H; simpl; auto].
          rewrite newtree_below by (apply H; simpl; auto). destruct (up nb k); auto.
          simpl. apply perm_skip. symmetry. apply Permutation_middle. }
        apply G. intros k I. apply in_kepts in I. tauto. }
      eapply Permutation_trans; [apply P|]. clear P.
      eapply Permutation_trans; [apply Permutation_flat_map_split|].
      pose proof M_le as HM.
      rewrite flat_map_filter.
      assert (filter (up nb) (kepts begin end_ nb) = ups begin end_ nb) as E.
      { unfold kepts, ups. generalize (all begin end_). induction l as [|x l IH]; simpl; auto.
        destruct (kept nb x) eqn:K; simpl; destruct (up nb x) eqn:U; simpl; rewrite IH; auto.
        apply (up_kept begin end_ nb begin_end) in U. congruence. }
      rewrite E. rewrite <- (flat_map_map _ _ _ nb (fun x => [fc_ x; S (fc_ x)])).
      eapply Permutation_trans; [apply Permutation_app|].
      - apply Permutation_flat_map, (ups_lows begin end_ nb begin_end Hnb').
      - apply (reshuffle _ below). intros; apply reloc_below.
      - rewrite (flat_fc begin end_ nb begin_end HM).
        eapply Permutation_trans; [apply Permutation_app_head, (fi_below _ _ _ _ FI)|].
        assert (cbeg begin end_ nb + 2 * M begin end_ nb = end_) as Ee by (unfold cbeg; lia).
        replace (seq end_ (N - end_)) with (seq (cbeg begin end_ nb + 2 * M begin end_ nb) (N - end_)) by (f_equal; lia).
        rewrite <- seq_app.
        replace (2 * M begin end_ nb + (N - end_)) with (N - cbeg begin end_ nb) by lia. auto.
    Qed.

    Lemma step_pos : Permutation (flat_map positions F') (seq 0 n).
    Proof.
      unfold F'. rewrite flat_map_map.
      rewrite (flat_map_ext_in _ _ _ (fun k => if up nb k then positions (T (nb k)) ++ positions (T k) else positions (T k))).
      2: { intros k _. unfold newtree. destruct (up nb k); simpl; rewrite !reloc_positions; auto. }
      eapply Permutation_trans; [apply (reshuffle _ positions)|apply (fi_pos _ _ _ _ FI)].
      intros; apply reloc_positions.
    Qed.

    Lemma step_Q : Forall Q F'.
    Proof.
      unfold F'. apply Forall_forall. intros t I. apply in_map_iff in I as (k & <- & I).
      apply in_kepts in I as [Hk K]. unfold newtree. destruct (up nb k) eqn:U; [|apply QR, T_Q; auto].
      unfold parent_of. destruct (Hnb' k Hk) as [Hj _].
      rewrite <- (T_rec k Hk), <- (T_rec (nb k) Hj).
      rewrite <- (reloc_rec (T k) (S (fc_ (nb k)))) at 1. rewrite <- (reloc_rec (T (nb k)) (fc_ (nb k))) at 1.
      apply QM; apply QR, T_Q; auto.
    Qed.

    Lemma T_ord : forall k, begin <= k < end_ -> children_after (T k).
    Proof. intros k H. pose proof (fi_ord _ _ _ _ FI) as R. rewrite Forall_forall in R. apply R, T_in; auto. Qed.
    Lemma reloc_ord : forall k p, begin <= k < end_ -> p < end_ -> children_after (reloc (T k) p).
    Proof.
      intros k p H L. pose proof (T_ord k H) as O. pose proof (T_below k) as B.
      destruct (T k) as [i m|i m l r]; simpl in *; auto. destruct O as (_ & _ & O).
      assert (forall x, In x (t_ids l ++ t_ids r) -> end_ <= x) as B' by (intros; apply B; auto).
      pose proof (B' (t_idx l)) as B1. pose proof (B' (t_idx r)) as B2.
      rewrite (ids_below l), (ids_below r) in *. 
      specialize (B1 ltac:(simpl; auto)). specialize (B2 ltac:(apply in_or_app; simpl; auto)).
      repeat split; try lia; tauto.
    Qed.
    Lemma step_ord : Forall children_after F'.
    Proof.
      unfold F'. apply Forall_forall. intros t I. apply in_map_iff in I as (k & <- & I).
      apply in_kepts in I as [Hk K]. unfold newtree.
      pose proof (nbeg_cbeg begin end_ nb begin_end Hnb' M_le) as NC.
      pose proof (pos_range begin end_ nb begin_end Hnb' M_le k Hk K) as Pr.
      assert (cbeg begin end_ nb <= end_) as Ce by (unfold cbeg; lia).
      destruct (up nb k) eqn:U; [|apply reloc_ord; auto; lia].
      destruct (up_low begin end_ nb k Hk U) as [Lw Ennb]. destruct (Hnb' k Hk) as [Hj _].
      pose proof (fc_range begin end_ nb begin_end Hnb' M_le (nb k) Hj Lw) as Fr.
      simpl. rewrite !reloc_idx. split; [lia|]. split; [lia|].
      split; apply reloc_ord; auto; lia.
    Qed.

    Lemma step_repr : forall out,
      (forall k, begin <= k < end_ -> kept nb k = true -> nth_error out (pos_ k) = Some (val begin end_ nb nodes k)) ->
      (forall i, begin <= i < end_ -> low nb i = true ->
         nth_error out (fc_ i) = Some (nd nodes i) /\ nth_error out (S (fc_ i)) = Some (nd nodes (nb i))) ->
      (forall p, end_ <= p -> nth_error out p = nth_error nodes p) ->
      Forall (repr out) F'.
    Proof.
      intros out Hp Hf Hr. unfold F'. apply Forall_forall. intros t I. apply in_map_iff in I as (k & <- & I).
      apply in_kepts in I as [Hk K]. pose proof (Hp k Hk K) as Ep. unfold val in Ep. unfold newtree.
      destruct (up nb k) eqn:U.
      - destruct (up_low begin end_ nb k Hk U) as [Lw Ennb]. destruct (Hnb' k Hk) as [Hj _].
        destruct (Hf (nb k) Hj Lw) as [E1 E2]. rewrite Ennb in E2.
        pose proof (fc_range begin end_ nb begin_end Hnb' M_le (nb k) Hj Lw) as Fr.
        cbn [repr]. rewrite !reloc_idx. split; auto.
        split; [simpl; lia|]. split.
        { unfold parent_of, set_left_first; cbn [ex2]. apply as_i32_small. lia. }
        split; auto. split.
        + apply (repr_reloc nodes); [apply T_repr; auto| |rewrite T_rec; auto].
          intros x Ix. symmetry. apply Hr. eapply (T_below (nb k)); eauto.
        + apply (repr_reloc nodes); [apply T_repr; auto| |rewrite T_rec; auto].
          intros x Ix. symmetry. apply Hr. eapply (T_below k); eauto.
      - apply (repr_reloc nodes); [apply T_repr; auto| |rewrite T_rec; auto].
        intros x Ix. symmetry. apply Hr. eapply (T_below k); eauto.
    Qed.

    Lemma step_idx : map t_idx F' = seq (nbeg begin end_ nb) (cbeg begin end_ nb - nbeg begin end_ nb).
    Proof.
      unfold F'. rewrite map_map.
      rewrite (map_ext_in _ pos_).
      2: { intros k _. unfold newtree. destruct (up nb k); auto. apply reloc_idx. }
      rewrite (map_pos begin end_ nb begin_end). f_equal.
      pose proof (nbeg_cbeg begin end_ nb begin_end Hnb' M_le). lia.
    Qed.

    (** One call of [cluster]. *)
    Lemma cluster_ok : forall copy nbs mg prev,
      length copy = N -> N <= length nbs -> N <= length mg -> end_ <= prev -> prev <= N ->
      (forall p, prev <= p -> nth_error copy p = nth_error nodes p) ->
      exists copy' nbs' mg', cluster radius threads nodes copy nbs mg begin end_ prev =
          Ok (copy', nbs', mg', nbeg begin end_ nb, cbeg begin end_ nb) /\
        length copy' = N /\ N <= length nbs' /\ N <= length mg' /\
        finv copy' (nbeg begin end_ nb) (cbeg begin end_ nb) F' /\
        (forall p, end_ <= p -> nth_error copy' p = nth_error nodes p) /\ length nbs' = length nbs.
    Proof.
      intros copy nbs mg prev Lc Lnb Lmg Lp Lp' Hag. unfold cluster.
      rewrite (all_neighbours_ok radius nodes begin end_ R1 ltac:(lia) threads nbs T1 ltac:(lia) ltac:(lia)). cbn [bind].
      set (nbs1 := fold_left _ _ _).
      assert (length nbs1 = length nbs) as L1 by (unfold nbs1; apply put_all_length).
      assert (forall i, begin <= i < end_ -> nth_error nbs1 i = Some (N.of_nat (nb i))) as Hn.
      { intros i Hi. unfold nbs1. rewrite put_all_nth.
        - destruct (in_dec Nat.eq_dec i (range begin end_)) as [_|X].
          + unfold nb. pose proof (HS i Hi) as X. destruct (nn radius nodes begin end_ i); [auto|congruence].
          + exfalso. apply X. unfold range. apply in_seq. lia.
        - intros x Ix. unfold range in Ix. apply in_seq in Ix. lia. }
      destruct (flags_ok begin end_ nb begin_end Hnb' M_le nodes nbs1 mg) as (mg1 & E1 & Lm1 & H1); try lia; auto.
      rewrite E1. cbn [bind].
      destruct (prefix_ok begin end_ nb begin_end M_le nodes nbs1 mg ltac:(lia) ltac:(lia) ltac:(lia) mg1 Lm1 H1) as (mg2 & E2 & Lm2 & H2).
      rewrite E2. cbn [bind]. unfold get at 1. rewrite H2 by lia. cbn [bind].
      replace (S (end_ - 1 - begin)) with (end_ - begin) by lia. fold (M begin end_ nb).
      unfold usub at 1. replace (M begin end_ nb <=? end_ - begin) with true by (symmetry; apply Nat.leb_le; lia). cbn [bind].
      unfold usub at 1. replace (M begin end_ nb * 2 <=? end_) with true by (symmetry; apply Nat.leb_le; lia). cbn [bind].
      unfold usub at 1. pose proof M_le as HM.
      replace (M begin end_ nb * 2 + (end_ - begin - M begin end_ nb) <=? end_) with true by (symmetry; apply Nat.leb_le; lia). cbn [bind].
      replace (end_ - M begin end_ nb * 2) with (cbeg begin end_ nb) by (unfold cbeg; lia).
      replace (end_ - (M begin end_ nb * 2 + (end_ - begin - M begin end_ nb))) with (nbeg begin end_ nb) by (unfold nbeg; lia).
      destruct (merge_ok begin end_ nb begin_end Hnb' HM nodes nbs1 mg ltac:(lia) ltac:(lia) ltac:(lia) Hn mg2 ltac:(lia) H2 copy ltac:(lia))
        as (out & E3 & Lo & P1 & P2 & P3).
      rewrite E3. cbn [bind]. unfold copy_range.
      replace ((prev <=? length nodes) && (prev <=? length out) && (end_ <=? prev)) with true.
      2: { symmetry. apply andb_true_iff; split; [apply andb_true_iff; split|]; apply Nat.leb_le; lia. }
      cbn [bind].
      set (out' := firstn end_ out ++ firstn (prev - end_) (skipn end_ nodes) ++ skipn prev out).
      assert (length (firstn end_ out) = end_) as La by (rewrite firstn_length; lia).
      assert (length (firstn (prev - end_) (skipn end_ nodes)) = prev - end_) as Lb by (rewrite firstn_length, skipn_length; lia).
      assert (forall p, p < end_ -> nth_error out' p = nth_error out p) as O1.
      { intros p Hp. unfold out'. rewrite nth_error_app1 by lia. rewrite nth_error_firstn'. 2: auto. auto. }
      assert (forall p, end_ <= p -> nth_error out' p = nth_error nodes p) as O2.
      { intros p Hp. unfold out'. rewrite nth_error_app2 by lia. rewrite La.
        destruct (Nat.lt_ge_cases p prev) as [C|C].
        - rewrite nth_error_app1 by lia. rewrite nth_error_firstn' by lia. rewrite nth_error_skipn_add. f_equal. lia.
        - rewrite nth_error_app2 by lia. rewrite Lb, nth_error_skipn_add.
          replace (prev + (p - end_ - (prev - end_))) with p by lia. rewrite P3 by lia. apply Hag; auto. }
      assert (length out' = N) as Lo'.
      { unfold out'. rewrite !app_length, La, Lb, skipn_length. lia. }
      exists out', nbs1, mg2. split; auto. split; auto. split; [lia|]. split; [lia|]. split; [|split; auto].
      pose proof (nbeg_cbeg begin end_ nb begin_end Hnb' HM) as NC.
      assert (cbeg begin end_ nb <= end_) as Ce by (unfold cbeg; lia).
      constructor.
      - apply step_idx.
      - apply step_repr; auto.
        + intros k Hk K. pose proof (pos_range begin end_ nb begin_end Hnb' HM k Hk K). rewrite O1 by lia. auto.
        + intros i Hi L. pose proof (fc_range begin end_ nb begin_end Hnb' HM i Hi L). rewrite !O1 by lia. auto.
      - apply step_below.
      - apply step_pos.
      - apply step_Q.
      - apply step_ord.
    Qed.
  End Step.

  (** Without a neighbour for some cluster the round panics. *)
  Lemma cluster_panic : forall nodes begin end_ copy nbs mg prev i,
    end_ <= length nodes -> begin <= i < end_ -> nn radius nodes begin end_ i = None ->
    end_ <= length nbs -> end_ <= length mg -> (Z.of_nat (length nbs) < 4294967295)%Z ->
    cluster radius threads nodes copy nbs mg begin end_ prev = Panic.
  Proof.
    intros nodes begin end_ copy nbs mg prev i Li Hi Ei Lnb Lmg Lmax. unfold cluster.
    rewrite (all_neighbours_ok radius nodes begin end_ R1 Li threads nbs T1 ltac:(lia) ltac:(lia)). cbn [bind].
    set (nbs1 := fold_left _ _ _).
    assert (length nbs1 = length nbs) as L1 by (unfold nbs1; apply put_all_length).
    assert (forall k, begin <= k < end_ -> nth_error nbs1 k = Some (neighbour_u32 (nn radius nodes begin end_ k))) as Hn.
    { intros k Hk. unfold nbs1. rewrite put_all_nth.
      - destruct (in_dec Nat.eq_dec k (range begin end_)) as [_|X]; auto.
        exfalso. apply X. unfold range. apply in_seq. lia.
      - intros x Ix. unfold range in Ix. apply in_seq in Ix. lia. }
    assert (forall l m, end_ <= length m -> (forall k, In k l -> begin <= k < end_) -> In i l ->
       for_each l (merge_flag nbs1) m = Panic) as G.
    { induction l as [|k l IH]; intros m Lm Hl Il; [destruct Il|]. cbn [for_each].
      assert (begin <= k < end_) as Hk by (apply Hl; simpl; auto).
      unfold merge_flag. unfold getN at 1.
      replace (N.of_nat k <? N.of_nat (length nbs1))%N with true by (symmetry; apply N.ltb_lt; lia).
      rewrite Nat2N.id. unfold get at 1. rewrite Hn by auto. cbn [bind].
      destruct (nn radius nodes begin end_ k) as [j|] eqn:Ek; cbn [neighbour_u32].
      - assert (begin <= j < end_ /\ j <> k) as [Hj _].
        { unfold nn, best_of in Ek.
          destruct (bst_in (pair_d nodes k) _ _ _ Ek) as [I|I]; [|discriminate].
          apply (range_in radius nodes begin end_ R1 ltac:(lia) k) in I; auto. tauto. }
        unfold getN. replace (N.of_nat j <? N.of_nat (length nbs1))%N with true by (symmetry; apply N.ltb_lt; lia).
        rewrite Nat2N.id. unfold get. rewrite Hn by auto. cbn [bind].
        unfold set. replace (k <? length m) with true by (symmetry; apply Nat.ltb_lt; lia). cbn [bind].
        apply IH; [rewrite upd_length; auto|intros; apply Hl; simpl; auto|].
        destruct Il as [->|Il]; auto. congruence.
      - unfold getN, NO_NEIGHBOUR. 
        replace (4294967295 <? N.of_nat (length nbs1))%N with false by (symmetry; apply N.ltb_ge; lia). auto. }
    rewrite G; auto.
    - intros k Ik. unfold range in Ik. apply in_seq in Ik. lia.
    - unfold range. apply in_seq. lia.
  Qed.

  Definition nn_dec : forall nodes begin end_,
    (forall i, begin <= i < end_ -> nn radius nodes begin end_ i <> None) \/
    (exists i, begin <= i < end_ /\ nn radius nodes begin end_ i = None).
  Proof.
    intros nodes begin end_.
    destruct (existsb (fun i => match nn radius nodes begin end_ i with None => true | _ => false end) (range begin end_)) eqn:E.
    - right. apply existsb_exists in E as (i & I & H). exists i. unfold range in I. apply in_seq in I. split; [lia|].
      destruct (nn radius nodes begin end_ i); auto. discriminate.
    - left. intros i Hi X. apply not_true_iff_false in E. apply E. apply existsb_exists. exists i. split.
      + unfold range. apply in_seq. lia.
      + rewrite X. auto.
  Qed.

  (** Whatever the distances: if the loop returns, it returns a single tree at node 0. *)
  Theorem cluster_loop_sound : forall fuel nodes copy nbs mg begin end_ prev F out,
    finv nodes begin end_ F -> length nodes = N -> length copy = N -> N <= length nbs -> N <= length mg ->
    (Z.of_nat (length nbs) < 4294967295)%Z ->
    end_ <= prev -> prev <= N -> (forall p, prev <= p -> nth_error copy p = nth_error nodes p) ->
    begin + 1 = end_ - begin ->
    cluster_loop fuel radius threads nodes copy nbs mg begin end_ prev = Ok out ->
    length out = N /\ exists t, finv out 0 1 [t].
  Proof.
    induction fuel as [|fuel IH]; intros nodes copy nbs mg begin end_ prev F out FI Ln Lc Lnb Lmg Lmax Lp Lp' Hag Hb E;
      cbn [cluster_loop] in E; destruct (Nat.leb_spec (end_ - begin) 1) as [C|C].
    1, 3: injection E as <-; assert (begin = 0) by lia; assert (end_ = 1) by lia; subst begin end_;
        assert (length F = 1) as LF by (rewrite <- (map_length t_idx), (fi_idx _ _ _ _ FI); reflexivity);
        destruct F as [|t [|]]; try discriminate; eauto.
    - discriminate.
    - destruct (nn_dec nodes begin end_) as [HS|(i & Hi & Ei)].
      2: { rewrite (cluster_panic nodes begin end_ copy nbs mg prev i) in E; auto; try lia. discriminate. }
      destruct (cluster_ok nodes begin end_ F FI Ln ltac:(lia) ltac:(lia) Hb HS copy nbs mg prev Lc Lnb Lmg Lp Lp' Hag)
          as (copy' & nbs' & mg' & E1 & Lc' & Lnb' & Lmg' & FI' & Hag' & Lx).
      rewrite E1 in E. cbn [bind] in E.
      pose proof (M_le nodes begin end_ Ln ltac:(lia) ltac:(lia) Hb HS) as Ml.
      pose proof (Hnb nodes begin end_ Ln ltac:(lia) ltac:(lia) Hb HS) as Hn.
      set (nbf := nb nodes begin end_) in *.
      pose proof (nbeg_cbeg begin end_ nbf ltac:(lia) Hn Ml) as NC.
      pose proof (two_M begin end_ nbf ltac:(lia) Hn) as TM.
      apply (IH copy' nodes nbs' mg' _ _ end_ _ _ FI') in E; auto; try lia.
      * unfold cbeg; lia.
      * intros p Hp. symmetry. auto.
      * unfold nbeg, cbeg in *; lia.
  Qed.

  (** The main loop ends with a single tree at node 0. *)
  Theorem cluster_loop_ok : forall fuel nodes copy nbs mg begin end_ prev F,
    finv nodes begin end_ F -> length nodes = N -> length copy = N -> N <= length nbs -> N <= length mg ->
    end_ <= prev -> prev <= N -> (forall p, prev <= p -> nth_error copy p = nth_error nodes p) ->
    begin + 1 = end_ - begin -> end_ - begin <= fuel + 1 ->
    exists out t, cluster_loop fuel radius threads nodes copy nbs mg begin end_ prev = Ok out /\
      length out = N /\ finv out 0 1 [t].
  Proof.
    induction fuel as [|fuel IH]; intros nodes copy nbs mg begin end_ prev F FI Ln Lc Lnb Lmg Lp Lp' Hag Hb Hf.
    - assert (begin = 0) by lia. assert (end_ = 1) by lia. subst begin end_. cbn [cluster_loop].
      assert (length F = 1) as LF by (rewrite <- (map_length t_idx), (fi_idx _ _ _ _ FI); reflexivity).
      destruct F as [|t [|]]; try discriminate. exists nodes, t. auto.
    - cbn [cluster_loop]. destruct (Nat.leb_spec (end_ - begin) 1) as [C|C].
      + assert (begin = 0) by lia. assert (end_ = 1) by lia. subst begin end_.
        assert (length F = 1) as LF by (rewrite <- (map_length t_idx), (fi_idx _ _ _ _ FI); reflexivity).
        destruct F as [|t [|]]; try discriminate. exists nodes, t. auto.
      + pose proof (all_some nodes begin end_ F FI Ln ltac:(lia) ltac:(lia) Hb) as HS.
        destruct (cluster_ok nodes begin end_ F FI Ln ltac:(lia) ltac:(lia) Hb HS copy nbs mg prev Lc Lnb Lmg Lp Lp' Hag)
          as (copy' & nbs' & mg' & E & Lc' & Lnb' & Lmg' & FI' & Hag' & _).
        rewrite E. cbn [bind].
        pose proof (M_pos nodes begin end_ F FI Ln ltac:(lia) ltac:(lia) Hb) as Mp.
        pose proof (M_le nodes begin end_ Ln ltac:(lia) ltac:(lia) Hb HS) as Ml.
        pose proof (Hnb nodes begin end_ Ln ltac:(lia) ltac:(lia) Hb HS) as Hn.
        set (nbf := nb nodes begin end_) in *.
        pose proof (nbeg_cbeg begin end_ nbf ltac:(lia) Hn Ml) as NC.
        pose proof (two_M begin end_ nbf ltac:(lia) Hn) as TM.
        apply (IH copy' nodes nbs' mg' _ _ end_ _ FI'); auto; try lia.
        * unfold cbeg; lia.
        * intros p Hp. symmetry. auto.
        * unfold nbeg, cbeg in *; lia.
  Qed.
End Round.
