(** * Proofs about the binary traversal iterators *)
Require Import List ZArith Bool Lia Permutation Arith.
From Verif Require Import F32 Vec RayModel AabbModel Base NodeModel IterModel SpecTree SpecTraverse.
Import ListNotations.


Lemma submset_refl : forall A (a : list A), submset a a.
Proof. intros A a; exists []; rewrite app_nil_r; auto. Qed.
Lemma submset_nil : forall A (a : list A), submset [] a.
Proof. intros A a; exists a; auto. Qed.
Lemma submset_trans : forall A (a b c : list A), submset a b -> submset b c -> submset a c.
Proof.
  intros A a b c [x Hx] [y Hy]. exists (x ++ y). rewrite app_assoc.
  eapply Permutation_trans; [|apply Hy]. apply Permutation_app_tail; auto.
Qed.
Lemma submset_app : forall A (a b c d : list A), submset a c -> submset b d -> submset (a ++ b) (c ++ d).
Proof.
  intros A a b c d [x Hx] [y Hy]. exists (x ++ y).
  rewrite <- Hx, <- Hy. rewrite <- !app_assoc. apply Permutation_app_head.
  rewrite !app_assoc. apply Permutation_app_tail. apply Permutation_app_comm.
Qed.
Lemma submset_perm_l : forall A (a a' b : list A), Permutation a a' -> submset a b -> submset a' b.
Proof. intros A a a' b P [x Hx]; exists x; rewrite <- P; auto. Qed.
Lemma submset_perm_r : forall A (a b b' : list A), Permutation b b' -> submset a b -> submset a b'.
Proof. intros A a b b' P [x Hx]; exists x; rewrite <- P; auto. Qed.
Lemma submset_cons : forall A (x : A) a b, submset a b -> submset (x :: a) (x :: b).
Proof. intros A x a b [c H]; exists c; simpl; auto. Qed.
Lemma submset_antisym : forall A (a b : list A), submset a b -> submset b a -> Permutation a b.
Proof.
  intros A a b [x Hx] [y Hy].
  assert (length x = 0) as L.
  { apply Permutation_length in Hx. apply Permutation_length in Hy. rewrite app_length in *. lia. }
  destruct x; [|discriminate]. rewrite app_nil_r in Hx; auto.
Qed.
Lemma submset_in : forall A (a b : list A) x, submset a b -> In x a -> In x b.
Proof. intros A a b x [c H] I; eapply Permutation_in; [apply H|]; apply in_or_app; auto. Qed.
Lemma submset_nil_inv : forall A (a : list A), submset a [] -> a = [].
Proof.
  intros A a [c H]. apply Permutation_sym, Permutation_nil in H. apply app_eq_nil in H; tauto.
Qed.

Lemma reached_mono : forall (h1 h2 : aabb -> bool) t,
  (forall b, h1 b = true -> h2 b = true) -> submset (reached h1 t) (reached h2 t).
Proof.
  intros h1 h2 t H; induction t as [i n|i n l IHl r IHr]; simpl.
  - apply submset_refl.
  - apply submset_app.
    + destruct (h1 (t_rec l)) eqn:E; [rewrite (H _ E); auto|apply submset_nil].
    + destruct (h1 (t_rec r)) eqn:E; [rewrite (H _ E); auto|apply submset_nil].
Qed.

Lemma reached_leaves : forall h t, submset (reached h t) (leaf_recs t).
Proof.
  intros h t; induction t as [i n|i n l IHl r IHr]; simpl.
  - apply submset_refl.
  - apply submset_app; [destruct (h (t_rec l))|destruct (h (t_rec r))]; auto using submset_nil.
Qed.

Lemma reached_ext : forall (h1 h2 : aabb -> bool) t,
  (forall b, h1 b = h2 b) -> reached h1 t = reached h2 t.
Proof.
  intros h1 h2 t H; induction t as [i n|i n l IHl r IHr]; simpl; auto.
  rewrite !H, IHl, IHr; auto.
Qed.

(** Number of loop turns a tree can take. *)
Fixpoint turns (t : tree) : nat :=
  match t with
  | TLeaf _ n => S (Z.to_nat (ex1 n))
  | TNode _ _ l r => S (turns l + turns r)
  end.

Lemma turns_bound : forall t, turns t = t_size t + length (positions t).
Proof.
  induction t as [i n|i n l IHl r IHr]; simpl.
  - unfold leaf_positions; rewrite seq_length; auto.
  - rewrite app_length. lia.
Qed.

Lemma repr_idx : forall nodes t, repr nodes t -> nth_error nodes (t_idx t) = Some (t_rec t).
Proof. intros nodes [i n|i n l r] H; simpl in *; tauto. Qed.

Lemma nth_error_lt : forall A (l : list A) i x, nth_error l i = Some x -> i < length l.
Proof. intros A l i x H; apply nth_error_Some; congruence. Qed.

Section Traversal.
  Variable R H : Type.
  Variable inter : node -> R -> option H.
  Variable closer : H -> H -> bool.
  Variable found : nat -> bool.
  Variable nodes : list node.
  Variable indices : list nat.
  Variable C : Type.
  Variable client : C -> nat -> R -> C * R.

  Definition hit (r : R) (b : aabb) : bool := match inter b r with Some _ => true | None => false end.
  Definition hit_all (rs : list R) (b : aabb) : bool := forallb (fun r => hit r b) rs.
  Definition hit_some (rs : list R) (b : aabb) : bool := existsb (fun r => hit r b) rs.

  Hypothesis nodes_small : (Z.of_nat (length nodes) <= 2147483648)%Z.
  Hypothesis indices_small : (Z.of_nat (length indices) <= 2147483648)%Z.

  Definition run := bvh_run R H inter closer found nodes indices C client.
  Definition turn1 := bvh_turn R H inter closer found nodes indices.

  (** Trees the iterator can be asked to traverse. *)
  Definition okt (t : tree) : Prop :=
    repr nodes t /\ Forall (fun k => k < length indices /\ found (nth k indices 0) = true) (positions t).

  (** The work list [ts] (top of the stack first). *)
  Inductive on_stack (stack : list Z) : list tree -> Prop :=
  | os_nil : on_stack stack []
  | os_cons : forall t ts, on_stack stack ts ->
      nth_error stack (length ts) = Some (Z.of_nat (t_idx t)) ->
      length ts + depth t <= 31 -> okt t -> on_stack stack (t :: ts).

  Lemma on_stack_upd : forall stack ts k v, on_stack stack ts -> length ts <= k ->
    on_stack (upd stack k v) ts.
  Proof.
    intros stack ts k v O; induction O as [|t ts O IH N D K]; intro L; [constructor|].
    simpl in L. constructor; auto.
    - apply IH; lia.
    - rewrite nth_error_upd_other by lia. auto.
  Qed.

  Definition inv (ts : list tree) (i : nat) (s : bit) : Prop :=
    length (b_stack s) = 32 /\ on_stack (b_stack s) ts /\
    b_sp s = (Z.of_nat (length ts) - 1)%Z /\ b_i s = Z.of_nat i /\
    match ts with
    | TLeaf _ n :: _ => i <= Z.to_nat (ex1 n)
    | _ => i = 0
    end.

  Definition mu (ts : list tree) (i : nat) : nat := S (list_sum (map turns ts) - i).

  Definition head_rest (ts : list tree) (i : nat) : list nat :=
    match ts with TLeaf _ n :: _ => skipn i (leaf_prims indices n) | _ => [] end.
  Definition tail_trees (ts : list tree) : list tree :=
    match ts with TLeaf _ _ :: ts' => ts' | _ => ts end.

  Lemma as_usize_nat : forall k, (Z.of_nat k <= 2147483648)%Z -> as_usize (Z.of_nat k) = k.
  Proof. intros k Hk. rewrite as_usize_small by lia. apply Nat2Z.id. Qed.

  Lemma head_rest_0 : forall ts, head_rest ts 0 ++ flat_map (leaf_prims indices) [] = head_rest ts 0.
  Proof. intros; simpl; apply app_nil_r. Qed.

  Lemma flat_reached_mono : forall (h1 h2 : aabb -> bool) ts,
    (forall b, h1 b = true -> h2 b = true) ->
    submset (flat_map (reached h1) ts) (flat_map (reached h2) ts).
  Proof.
    intros h1 h2 ts Hh; induction ts as [|t ts IH]; simpl; [apply submset_refl|].
    apply submset_app; auto. apply reached_mono; auto.
  Qed.

  Lemma leaf_prims_length : forall n, length (leaf_prims indices n) = Z.to_nat (ex1 n).
  Proof. intro n; unfold leaf_prims, leaf_positions. rewrite map_length, seq_length; auto. Qed.

  Lemma skipn_nth : forall A (l : list A) i x, nth_error l i = Some x -> skipn i l = x :: skipn (S i) l.
  Proof.
    induction l as [|h t IH]; intros [|i] x E; simpl in *; try discriminate.
    - congruence.
    - apply IH; auto.
  Qed.

  Lemma leaf_prims_nth : forall n i, i < Z.to_nat (ex1 n) ->
    nth_error (leaf_prims indices n) i = Some (nth (Z.to_nat (ex2 n) + i) indices 0).
  Proof.
    intros n i L. unfold leaf_prims, leaf_positions.
    rewrite nth_error_map. 
    rewrite (nth_error_nth' _ 0) by (rewrite seq_length; auto).
    rewrite seq_nth by auto. reflexivity.
  Qed.

  (** After a finished (or popped) head, splitting the work list. *)
  Lemma result_head : forall (h : aabb -> bool) ts,
    flat_map (reached h) ts =
    match ts with TLeaf _ n :: _ => [n] | _ => [] end ++ flat_map (reached h) (tail_trees ts).
  Proof. intros h [|[i n|i n l r] ts]; simpl; auto. Qed.

  Lemma run_S : forall fuel c r s, run (S fuel) c r s =
    do (t, s') <- turn1 r s;
    match t with
    | Done => Ok ([], [r], c)
    | Again => run fuel c r s'
    | Yield p =>
        let '(c', r') := client c p r in
        do (ps, rs, c'') <- run fuel c' r' s';
        Ok (p :: ps, r :: rs, c'')
    end.
  Proof. reflexivity. Qed.

  Theorem run_spec : forall fuel ts i c r s,
    inv ts i s -> mu ts i <= fuel ->
    exists ps rs c' ls,
      run fuel c r s = Ok (ps, r :: rs, c') /\
      ps = head_rest ts i ++ flat_map (leaf_prims indices) ls /\
      submset (flat_map (reached (hit_all (r :: rs))) (tail_trees ts)) ls /\
      submset ls (flat_map (reached (hit_some (r :: rs))) (tail_trees ts)).
  Proof.
    induction fuel as [|fuel IH]; intros ts i c r s I M; [unfold mu in M; lia|].
    destruct I as (Ls & O & Sp & Si & Hi).
    rewrite run_S.
    destruct ts as [|t ts].
    { (* empty stack *)
      unfold turn1, bvh_turn. rewrite Sp. simpl.
      exists [], [], c, []. simpl. auto using submset_refl. }
    inversion O as [|t' ts' O' N D K]; subst t' ts'.
    assert (turn1 r s =
      let n := t_rec t in
      let sp := (b_sp s - 1)%Z in
      if (ex1 n >? -1)%Z then
        if (b_i s <? ex1 n)%Z then
          do prim <- get_unchecked indices (as_usize (ex2 n + b_i s));
          if found prim then Ok (Yield prim, Bit (b_i s + 1) (b_stack s) (sp + 1))
          else Ok (Again, Bit 0 (b_stack s) (sp + 1))
        else Ok (Again, Bit 0 (b_stack s) sp)
      else if (ex2 n >? -1)%Z then
        do nl <- get_unchecked nodes (as_usize (ex2 n));
        do nr <- get_unchecked nodes (as_usize (ex2 n + 1));
        do (stack, sp) <- sort_nodes_gen closer (inter nl r) (inter nr r) (b_stack s) sp (ex2 n);
        Ok (Again, Bit (b_i s) stack sp)
      else Ok (Again, Bit (b_i s) (b_stack s) sp)) as T.
    { unfold turn1, bvh_turn.
      simpl length in Sp. replace (b_sp s <? 0)%Z with false by (symmetry; apply Z.ltb_ge; lia).
      assert (as_usize (b_sp s) = length ts) as ->.
      { rewrite Sp. replace (Z.of_nat (S (length ts)) - 1)%Z with (Z.of_nat (length ts)) by lia.
        apply as_usize_nat. pose proof (nth_error_lt _ _ _ _ N). lia. }
      unfold get_unchecked at 1. rewrite N. cbn [bind].
      destruct K as [Kr Kp]. pose proof (repr_idx _ _ Kr) as E.
      pose proof (nth_error_lt _ _ _ _ E) as L.
      rewrite as_usize_nat by lia. unfold get_unchecked at 1. rewrite E. reflexivity. }
    rewrite T. clear T. cbv zeta.
    destruct K as [Kr Kp]. simpl length in Sp.
    destruct t as [j n|j n tl tr]; simpl t_rec; simpl t_idx in *.
    - (* leaf *)
      destruct Kr as (E & C1 & C2).
      replace (ex1 n >? -1)%Z with true by (symmetry; rewrite Z.gtb_ltb; apply Z.ltb_lt; lia).
      rewrite Si. destruct (Z.ltb_spec (Z.of_nat i) (ex1 n)) as [L|L].
      + (* yield the next primitive *)
        assert (i < Z.to_nat (ex1 n)) as L' by lia.
        set (k := Z.to_nat (ex2 n) + i).
        assert (In k (positions (TLeaf j n))) as Ik.
        { simpl. unfold leaf_positions, k. apply in_seq. lia. }
        rewrite Forall_forall in Kp. destruct (Kp k Ik) as [Kl Kf].
        replace (ex2 n + Z.of_nat i)%Z with (Z.of_nat k) by (unfold k; lia).
        rewrite as_usize_nat by lia.
        unfold get_unchecked. rewrite (nth_error_nth' _ 0 Kl). cbn [bind]. rewrite Kf.
        destruct (client c (nth k indices 0) r) as [c' r'] eqn:Ec.
        destruct (IH (TLeaf j n :: ts) (S i) c' r' (Bit (Z.of_nat i + 1) (b_stack s) (b_sp s - 1 + 1)))
          as (ps & rs & c'' & ls & E1 & E2 & E3 & E4).
        { unfold inv; cbn [b_i b_stack b_sp length]. split; [auto|]. split.
          - constructor; auto. split; simpl; auto. rewrite Forall_forall; auto.
          - split; [lia|]. split; lia. }
        { unfold mu, list_sum in *. cbn [map fold_right turns] in *. lia. }
        cbn [bind]. rewrite Ec. rewrite E1. cbn [bind].
        exists (nth k indices 0 :: ps), (r' :: rs), c'', ls.
        split; [reflexivity|]. split; [|split].
        * rewrite E2. simpl head_rest.
          rewrite (skipn_nth _ (leaf_prims indices n) i (nth k indices 0)); [reflexivity|].
          apply leaf_prims_nth; auto.
        * eapply submset_trans; [|apply E3]. simpl tail_trees. apply flat_reached_mono.
          intros b Hb. unfold hit_all in *. simpl forallb in Hb. apply andb_true_iff in Hb; tauto.
        * eapply submset_trans; [apply E4|]. simpl tail_trees. apply flat_reached_mono.
          intros b Hb. unfold hit_some in *. simpl existsb. simpl existsb in Hb. rewrite Hb. apply orb_true_r.
      + (* leaf exhausted *)
        assert (i = Z.to_nat (ex1 n)) as -> by lia.
        cbn [bind].
        destruct (IH ts 0 c r (Bit 0 (b_stack s) (b_sp s - 1))) as (ps & rs & c'' & ls & E1 & E2 & E3 & E4).
        { unfold inv; cbn [b_i b_stack b_sp]. split; [auto|]. split; [auto|].
          split; [lia|]. split; [lia|]. destruct ts as [|[j' n'|j' n' l' r'] ts]; auto; lia. }
        { unfold mu, list_sum in *. cbn [map fold_right turns] in *. lia. }
        rewrite E1.
        simpl head_rest. rewrite skipn_all2 by (rewrite leaf_prims_length; lia).
        simpl app. simpl tail_trees.
        destruct ts as [|[j' n'|j' n' l' r'] ts].
        * exists ps, rs, c'', ls. auto.
        * exists ps, rs, c'', (n' :: ls). split; auto. split; [exact E2|].
          simpl in E3, E4 |- *. split; apply submset_cons; auto.
        * exists ps, rs, c'', ls. auto.
    - (* inner node *)
      subst i. destruct Kr as (E & C1 & C2 & C3 & Kl & Kr).
      replace (ex1 n >? -1)%Z with false by (symmetry; rewrite Z.gtb_ltb; apply Z.ltb_ge; lia).
      replace (ex2 n >? -1)%Z with true by (symmetry; rewrite Z.gtb_ltb; apply Z.ltb_lt; lia).
      pose proof (repr_idx _ _ Kl) as El. pose proof (repr_idx _ _ Kr) as Er.
      pose proof (nth_error_lt _ _ _ _ El) as Ll. pose proof (nth_error_lt _ _ _ _ Er) as Lr.
      rewrite C2. replace (Z.of_nat (t_idx tl) + 1)%Z with (Z.of_nat (t_idx tr)) by lia.
      rewrite !as_usize_nat by lia.
      unfold get_unchecked. rewrite El, Er. cbn [bind].
      simpl positions in Kp. apply Forall_app in Kp. destruct Kp as [Kpl Kpr].
      simpl depth in D.
      assert (okt tl) as Ol by (split; auto). assert (okt tr) as Or by (split; auto).
      pose proof (nth_error_lt _ _ _ _ N) as LN.
      assert (as_usize (b_sp s - 1 + 1) = length ts) as A1.
      { rewrite Sp. replace (Z.of_nat (S (length ts)) - 1 - 1 + 1)%Z with (Z.of_nat (length ts)) by lia.
        apply as_usize_nat; lia. }
      assert (as_usize (b_sp s - 1 + 1 + 1) = S (length ts)) as A2.
      { rewrite Sp. replace (Z.of_nat (S (length ts)) - 1 - 1 + 1 + 1)%Z with (Z.of_nat (S (length ts))) by lia.
        apply as_usize_nat; lia. }
      assert (forall a b, okt a -> okt b -> depth a <= Nat.max (depth tl) (depth tr) ->
         depth b <= Nat.max (depth tl) (depth tr) ->
         inv (a :: b :: ts) 0
           (Bit (b_i s) (upd (upd (b_stack s) (length ts) (Z.of_nat (t_idx b))) (S (length ts)) (Z.of_nat (t_idx a)))
                (b_sp s - 1 + 1 + 1))) as I2.
      { intros a b Oa Ob Da Db. unfold inv; cbn [b_i b_stack b_sp length].
        split; [rewrite !upd_length; auto|]. split.
        - constructor; auto.
          + constructor; auto.
            * apply on_stack_upd; [apply on_stack_upd|]; auto; lia.
            * rewrite nth_error_upd_other by lia. apply nth_error_upd_same. lia.
            * lia.
          + cbn [length]. apply nth_error_upd_same. rewrite upd_length. lia.
          + simpl. lia.
        - split; [lia|]. split; [auto|]. destruct a; auto. lia. }
      assert (forall a, okt a -> depth a <= Nat.max (depth tl) (depth tr) ->
         inv (a :: ts) 0
           (Bit (b_i s) (upd (b_stack s) (length ts) (Z.of_nat (t_idx a))) (b_sp s - 1 + 1))) as I1.
      { intros a Oa Da. unfold inv; cbn [b_i b_stack b_sp length].
        split; [rewrite !upd_length; auto|]. split.
        - constructor; auto.
          + apply on_stack_upd; auto.
          + apply nth_error_upd_same. lia.
          + lia.
        - split; [lia|]. split; [auto|]. destruct a; auto. lia. }
      assert (forall new s', inv (new ++ ts) 0 s' -> mu (new ++ ts) 0 <= fuel ->
        Permutation new ((if hit r (t_rec tl) then [tl] else []) ++ (if hit r (t_rec tr) then [tr] else [])) ->
        exists ps rs c' ls, run fuel c r s' = Ok (ps, r :: rs, c') /\
          ps = head_rest (TNode j n tl tr :: ts) 0 ++ flat_map (leaf_prims indices) ls /\
          submset (flat_map (reached (hit_all (r :: rs))) (TNode j n tl tr :: ts)) ls /\
          submset ls (flat_map (reached (hit_some (r :: rs))) (TNode j n tl tr :: ts))) as FIN.
      { intros new s' I' M' P'.
        destruct (IH (new ++ ts) 0 c r s' I' M') as (ps & rs & c' & ls & E1 & E2 & E3 & E4).
        set (ts' := new ++ ts) in *.
        exists ps, rs, c', (match ts' with TLeaf _ n :: _ => [n] | _ => [] end ++ ls).
        split; auto.
        split.
        { simpl head_rest. rewrite app_nil_l. rewrite E2. rewrite flat_map_app. f_equal.
          destruct ts' as [|[j' n'|j' n' l' r'] ts']; simpl; auto.
          rewrite app_nil_r; auto. }
        assert (submset (flat_map (reached (hit_all (r :: rs))) ts') (match ts' with TLeaf _ n :: _ => [n] | _ => [] end ++ ls)) as G3.
        { rewrite (result_head (hit_all (r :: rs))). apply submset_app; auto using submset_refl. }
        assert (submset (match ts' with TLeaf _ n :: _ => [n] | _ => [] end ++ ls) (flat_map (reached (hit_some (r :: rs))) ts')) as G4.
        { rewrite (result_head (hit_some (r :: rs))). apply submset_app; auto using submset_refl. }
        assert (forall h : aabb -> bool, Permutation
           (((if hit r (t_rec tl) then reached h tl else []) ++ (if hit r (t_rec tr) then reached h tr else []))
             ++ flat_map (reached h) ts) (flat_map (reached h) ts')) as PP.
        { intro h. unfold ts'. rewrite flat_map_app. apply Permutation_app_tail.
          symmetry. eapply Permutation_trans; [apply Permutation_flat_map, P'|].
          destruct (hit r (t_rec tl)), (hit r (t_rec tr)); simpl; rewrite ?app_nil_r; auto. }
        assert (forall b, hit_all (r :: rs) b = true -> hit r b = true) as HA.
        { intros b Hb. unfold hit_all in Hb. simpl in Hb. apply andb_true_iff in Hb; tauto. }
        assert (forall b, hit r b = true -> hit_some (r :: rs) b = true) as HS.
        { intros b Hb. unfold hit_some. simpl. rewrite Hb; auto. }
        split.
        - eapply submset_trans; [|apply G3]. eapply submset_perm_r; [apply PP|].
          cbn [flat_map reached]. apply submset_app; [|apply submset_refl]. apply submset_app.
          + destruct (hit_all (r :: rs) (t_rec tl)) eqn:X; [rewrite (HA _ X); apply submset_refl|apply submset_nil].
          + destruct (hit_all (r :: rs) (t_rec tr)) eqn:X; [rewrite (HA _ X); apply submset_refl|apply submset_nil].
        - eapply submset_trans; [apply G4|]. eapply submset_perm_l; [apply PP|].
          cbn [flat_map reached]. apply submset_app; [|apply submset_refl]. apply submset_app.
          + destruct (hit r (t_rec tl)) eqn:X; [rewrite (HS _ X); apply submset_refl|apply submset_nil].
          + destruct (hit r (t_rec tr)) eqn:X; [rewrite (HS _ X); apply submset_refl|apply submset_nil]. }
      assert (mu (tl :: tr :: ts) 0 <= fuel /\ mu (tr :: tl :: ts) 0 <= fuel /\ mu (tl :: ts) 0 <= fuel /\
              mu (tr :: ts) 0 <= fuel /\ mu ts 0 <= fuel) as (M1 & M2 & M3 & M4 & M5).
      { unfold mu, list_sum in *. cbn [map fold_right turns] in *. lia. }
      unfold hit in FIN.
      unfold sort_nodes_gen.
      destruct (inter (t_rec tl) r) as [hl|] eqn:Hl; destruct (inter (t_rec tr) r) as [hr|] eqn:Hr.
      + destruct (closer hl hr).
        * rewrite A1. rewrite set_Ok by lia. cbn [bind]. rewrite A2. rewrite set_Ok by (rewrite upd_length; lia).
          cbn [bind]. apply (FIN [tr; tl]); [|exact M2|apply perm_swap].
          replace (Z.of_nat (t_idx tl) + 1)%Z with (Z.of_nat (t_idx tr)) by lia. apply (I2 tr tl); auto; lia.
        * rewrite A1. rewrite set_Ok by lia. cbn [bind]. rewrite A2. rewrite set_Ok by (rewrite upd_length; lia).
          cbn [bind]. apply (FIN [tl; tr]); [|exact M1|apply Permutation_refl].
          replace (Z.of_nat (t_idx tl) + 1)%Z with (Z.of_nat (t_idx tr)) by lia. apply (I2 tl tr); auto; lia.
      + rewrite A1. rewrite set_Ok by lia. cbn [bind].
        apply (FIN [tl]); [|exact M3|apply Permutation_refl]. apply (I1 tl); auto; lia.
      + rewrite A1. rewrite set_Ok by lia. cbn [bind].
        apply (FIN [tr]); [|exact M4|apply Permutation_refl].
        replace (Z.of_nat (t_idx tl) + 1)%Z with (Z.of_nat (t_idx tr)) by lia. apply (I1 tr); auto; lia.
      + cbn [bind]. apply (FIN []); [|exact M5|apply Permutation_refl].
        unfold inv; cbn [b_i b_stack b_sp length app]. split; [auto|]. split; [auto|].
        split; [lia|]. split; [auto|]. destruct ts as [|[j' n'|j' n' l' r'] ts]; auto; lia.
  Qed.
End Traversal.
