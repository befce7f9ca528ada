(** * Proofs about the 4-wide node test and traversal *)
Require Import List ZArith Bool Lia Permutation Arith.
From Verif Require Import F32 Vec RayModel AabbModel Base NodeModel IterModel SpecTree SpecTraverse IterProofs MbvhModel SpecMbvh.
Import ListNotations.

(** ** The node test, lane by lane *)
Lemma m_intersect_result : forall m r k, k < 4 -> mget (h_result (m_intersect m r)) k = qhit r (lane_box m k).
Proof. intros m r k K. do 4 (destruct k as [|k]; [reflexivity|]). lia. Qed.
Lemma m_intersect4_result : forall m p k, k < 4 -> mget (h_result (m_intersect4 m p)) k = qhit4 p (lane_box m k).
Proof. intros m p k K. do 4 (destruct k as [|k]; [reflexivity|]). lia. Qed.

Lemma order_ids_perm : forall t, Permutation (order_ids t) [0; 1; 2; 3].
Proof.
  intro t. unfold order_ids.
  assert (forall (l : list nat), NoDup l -> incl l [0;1;2;3] -> length l = 4 -> Permutation l [0;1;2;3]) as G.
  { intros l N I L. apply NoDup_Permutation_bis; auto. simpl. lia. }
  repeat match goal with |- context [if ?c then _ else _] => destruct c end;
    apply G; try reflexivity;
    try (repeat constructor; simpl; intuition discriminate);
    (intros x Hx; simpl in *; tauto).
Qed.
Lemma m_intersect_ids : forall m r, Permutation (h_ids (m_intersect m r)) [0; 1; 2; 3].
Proof. intros. unfold m_intersect. destruct (m_slabs m r). apply order_ids_perm. Qed.

Lemma mreached_mono : forall (h1 h2 : box -> bool) t, (forall b, h1 b = true -> h2 b = true) ->
  submset (mreached h1 t) (mreached h2 t).
Proof.
  intros h1 h2 t H; induction t as [|b f c|b i c0 I0 c1 I1 c2 I2 c3 I3]; simpl; auto using submset_refl.
  repeat apply submset_app;
  match goal with |- submset (if h1 (mbox ?c) then _ else _) _ =>
    destruct (h1 (mbox c)) eqn:E; [rewrite (H _ E); auto|apply submset_nil] end.
Qed.
Lemma mreached_ext : forall (h1 h2 : box -> bool) t, (forall b, h1 b = h2 b) -> mreached h1 t = mreached h2 t.
Proof.
  intros h1 h2 t H; induction t as [|b f c|b i c0 I0 c1 I1 c2 I2 c3 I3]; simpl; auto.
  rewrite !H, I0, I1, I2, I3. auto.
Qed.

(** Turns a pending subtree can take, its own slot turn excluded. *)
Fixpoint mweight (t : mtree) : nat :=
  match t with
  | MEmpty => 0
  | MLeaf _ _ c => Z.to_nat c
  | MNode _ _ c0 c1 c2 c3 => 5 + mweight c0 + mweight c1 + mweight c2 + mweight c3
  end.

Definition slot_of (t : mtree) (k : nat) : mtree :=
  match t with
  | MNode _ _ c0 c1 c2 c3 => match k with 0 => c0 | 1 => c1 | 2 => c2 | _ => c3 end
  | _ => MEmpty
  end.
Definition is_mnode (t : mtree) : Prop := match t with MNode _ _ _ _ _ _ => True | _ => False end.
Definition m_idx (t : mtree) : nat := match t with MNode _ i _ _ _ _ => i | _ => 0 end.

Section Quad.
  Variable R : Type.
  Variable inter : mnode -> R -> mhit.
  Variable qh : R -> box -> bool.
  Hypothesis inter_result : forall m r k, k < 4 -> mget (h_result (inter m r)) k = qh r (lane_box m k).
  Hypothesis inter_ids : forall m r, Permutation (h_ids (inter m r)) [0; 1; 2; 3].
  Variable found : nat -> bool.
  Variable mnodes : list mnode.
  Variable indices : list nat.
  Variable C : Type.
  Variable client : C -> nat -> R -> C * R.
  Hypothesis nodes_small : (Z.of_nat (length mnodes) <= 2147483648)%Z.
  Hypothesis indices_small : (Z.of_nat (length indices) <= 2147483648)%Z.

  Definition qall (rs : list R) (b : box) : bool := forallb (fun r => qh r b) rs.
  Definition qsome (rs : list R) (b : box) : bool := existsb (fun r => qh r b) rs.
  Notation run := (mbvh_run R inter found mnodes indices C client).
  Notation turn1 := (mbvh_turn R inter found mnodes indices).

  Definition leaf_in (l : Z * Z) : Prop :=
    (0 <= fst l)%Z /\ (0 <= snd l)%Z /\
    forall k, Z.to_nat (fst l) <= k < Z.to_nat (fst l) + Z.to_nat (snd l) -> k < length indices.
  Definition leaf_fine (l : Z * Z) : Prop :=
    (0 <= fst l)%Z /\ (0 <= snd l)%Z /\
    forall k, Z.to_nat (fst l) <= k < Z.to_nat (fst l) + Z.to_nat (snd l) ->
      k < length indices /\ found (nth k indices 0) = true.
  Definition shown (l : Z * Z) : list nat := before_missing found (range_prims indices l).

  Definition okm (t : mtree) : Prop := mrepr mnodes t /\ Forall leaf_in (mleaves t).

  (** The stack holds the nodes [ts], top first. *)
  Inductive mstack (stack : list Z) : list mtree -> Prop :=
  | ms_nil : mstack stack []
  | ms_cons : forall t ts, mstack stack ts -> is_mnode t ->
      nth_error stack (length ts) = Some (Z.of_nat (m_idx t)) ->
      length ts + 3 * mlevels t <= 34 -> okm t -> mstack stack (t :: ts).
  Lemma mstack_upd : forall stack ts k v, mstack stack ts -> length ts <= k -> mstack (upd stack k v) ts.
  Proof.
    intros stack ts k v O; induction O as [|t ts O IH N E D K]; intro L; [constructor|].
    simpl in L. constructor; auto.
    - apply IH; lia.
    - rewrite nth_error_upd_other by lia. auto.
  Qed.

  (** Slots still to be looked at, in the order of the loop. *)
  Definition order (h : mhit) (i : nat) : list nat := skipn i (rev (h_ids h)).
  Definition todo (cur : mtree) (h : mhit) (i : nat) : list mtree :=
    flat_map (fun k => if mget (h_result h) k then [slot_of cur k] else []) (order h i).

  Fixpoint room (k : nat) (l : list mtree) : Prop :=
    match l with [] => True | x :: l => (is_mnode x -> k + 3 * mlevels x <= 34) /\ room (S k) l end.
  Lemma room_weaken : forall l k k', k' <= k -> room k l -> room k' l.
  Proof.
    induction l as [|x l IH]; intros k k' L H; simpl in *; auto. destruct H as [A B]. split.
    - intro X. specialize (A X). lia.
    - eapply IH; [|eauto]. lia.
  Qed.

  Definition minv (cur : mtree) (i : nat) (ts : list mtree) (s : mit) : Prop :=
    length (q_stack s) = 32 /\ mstack (q_stack s) ts /\
    q_sp s = (Z.of_nat (length ts) - 1)%Z /\ q_i s = Z.of_nat i /\ i <= 4 /\
    is_mnode cur /\ okm cur /\ q_cur s = Z.of_nat (m_idx cur) /\
    Permutation (h_ids (q_hit s)) [0; 1; 2; 3] /\ room (length ts) (todo cur (q_hit s) i).

  Lemma as_usize_nat' : forall k, (Z.of_nat k <= 2147483648)%Z -> as_usize (Z.of_nat k) = k.
  Proof. intros k Hk. rewrite as_usize_small by lia. apply Nat2Z.id. Qed.

  Lemma okm_node : forall t, is_mnode t -> okm t ->
    exists m, nth_error mnodes (m_idx t) = Some m /\ (forall k, k < 4 -> slot_is m k (slot_of t k)) /\
      (forall k, k < 4 -> okm (slot_of t k)) /\ m_idx t < length mnodes.
  Proof.
    intros [|b f c|b i c0 c1 c2 c3] N K; try contradiction. destruct K as [((m & E & S0 & S1 & S2 & S3) & R0 & R1 & R2 & R3) F].
    simpl in F. rewrite !Forall_app in F. destruct F as (F0 & F1 & F2 & F3).
    exists m. split; [auto|]. split; [|split].
    - intros k L. do 4 (destruct k as [|k]; [simpl; auto|]). lia.
    - intros k L. do 4 (destruct k as [|k]; [split; simpl; auto|]). lia.
    - simpl. eapply nth_error_lt; eauto.
  Qed.

  Lemma order_cons : forall h i, Permutation (h_ids h) [0; 1; 2; 3] -> i < 4 ->
    exists id, nth_error (h_ids h) (3 - i) = Some id /\ id < 4 /\ order h i = id :: order h (S i).
  Proof.
    intros h i P L. pose proof (Permutation_length P) as Len. simpl in Len.
    assert (forall x, In x (h_ids h) -> x < 4) as B.
    { intros x I. apply (Permutation_in _ P) in I. simpl in I. lia. }
    destruct (h_ids h) as [|a [|b [|c [|d [|]]]]] eqn:Eh; try discriminate.
    unfold order. rewrite Eh. simpl in B.
    destruct i as [|[|[|[|i]]]]; try lia; eexists; (split; [reflexivity|split; [apply B; auto|reflexivity]]).
  Qed.

  Lemma run_S' : forall fuel c r s, run (S fuel) c r s =
    do (t, s') <- turn1 r s;
    match t with
    | Done => Ok ([], [r], c)
    | Again => run fuel c r s'
    | Yield p =>
        let '(c', r') := client c p r in
        do (ps, rs, c'') <- run fuel c' r' s';
        Ok (p :: ps, r :: rs, c'')
    end.
  Proof. reflexivity. Qed.

  Lemma drop_app : forall A (a b : list A) k, nth_error a k <> None -> skipn k (a ++ b) = skipn k a ++ b.
  Proof.
    intros A a; induction a as [|x a IH]; intros b [|k] H; simpl in *; try congruence; auto.
  Qed.

  Lemma before_missing_le : forall f l, length (before_missing f l) <= length l.
  Proof. intros f l; induction l as [|x l IH]; simpl; auto. destruct (f x); simpl; lia. Qed.
  Lemma before_missing_all : forall f l, Forall (fun p => f p = true) l -> before_missing f l = l.
  Proof. intros f l H; induction H as [|x l Hx Hl IH]; simpl; auto. rewrite Hx, IH. auto. Qed.

  (** Draining a leaf slot. *)
  Lemma drain : forall rest cur i ts s id b f cnt m, 
    minv cur i ts s -> i < 4 -> nth_error mnodes (m_idx cur) = Some m ->
    nth_error (h_ids (q_hit s)) (3 - i) = Some id -> mget (h_result (q_hit s)) id = true ->
    slot_is m id (MLeaf b f cnt) -> leaf_in (f, cnt) ->
    (0 <= q_j s <= cnt)%Z -> Z.of_nat rest = (cnt - q_j s)%Z ->
    exists ps, ps = before_missing found (skipn (Z.to_nat (q_j s)) (range_prims indices (f, cnt))) /\ length ps <= rest /\
    forall fuel c r, exists rs c1 r1,
      length rs = length ps /\
      (match rs with [] => r1 = r | x :: _ => x = r end) /\ client_fold client ps c r = (c1, r1) /\
      run (length ps + S fuel) c r s =
        do (ps', rs', c') <- run fuel c1 r1 (Mit (q_hit s) (q_cur s) (q_i s + 1) 0 (q_stack s) (q_sp s));
        Ok (ps ++ ps', rs ++ rs', c').
  Proof.
    intros rest cur i ts s id b f cnt m. revert s.
    induction rest as [|rest IH]; intros s I L E Ei Hr Sl Lf Hj Hrest.
    - exists []. split; [|split; [auto|]].
      { rewrite skipn_all2; auto. unfold range_prims. rewrite map_length, seq_length. simpl. lia. }
      intros fuel c r. exists [], c, r. split; [auto|split; [auto|split; [auto|]]].
      simpl plus. rewrite run_S'.
      destruct I as (Ls & O & Sp & Si & Li & N & K & Cu & P & Rm).
      unfold mbvh_turn. destruct (okm_node cur N K) as (m' & E' & _ & _ & Lm).
      rewrite Cu, as_usize_nat' by lia. unfold get_unchecked at 1. rewrite E. cbn [bind].
      rewrite Si. replace (Z.of_nat i >=? 4)%Z with false by (symmetry; rewrite Z.geb_leb; apply Z.leb_gt; lia).
      replace (3 - Z.of_nat i)%Z with (Z.of_nat (3 - i)) by lia. rewrite as_usize_nat' by lia.
      unfold get_unchecked at 1. rewrite Ei. cbn [bind]. rewrite Hr.
      destruct Sl as (_ & Sc & Sn & P1 & P2). rewrite Sc, Sn.
      replace (cnt >? -1)%Z with true by (symmetry; rewrite Z.gtb_ltb; apply Z.ltb_lt; lia).
      replace (q_j s <? cnt)%Z with false by (symmetry; apply Z.ltb_ge; lia).
      cbn [bind]. rewrite <- Cu, <- Si.
      destruct (run fuel c r _) as [[[a1 a2] a3]| | |]; reflexivity.
    - set (s' := Mit (q_hit s) (q_cur s) (q_i s) (q_j s + 1) (q_stack s) (q_sp s)).
      set (k := Z.to_nat f + Z.to_nat (q_j s)).
      assert (skipn (Z.to_nat (q_j s)) (range_prims indices (f, cnt)) =
        nth k indices 0 :: skipn (Z.to_nat (q_j s + 1)) (range_prims indices (f, cnt))) as Sk.
      { replace (Z.to_nat (q_j s + 1)) with (S (Z.to_nat (q_j s))) by lia. apply skipn_nth.
        unfold range_prims. rewrite nth_error_map. cbn [fst snd].
        rewrite (nth_error_nth' _ 0) by (rewrite seq_length; lia). rewrite seq_nth by lia. reflexivity. }
      assert (forall r, turn1 r s = if found (nth k indices 0) then Ok (Yield (nth k indices 0), s')
        else Ok (Again, Mit (q_hit s) (q_cur s) (q_i s + 1) 0 (q_stack s) (q_sp s))) as T.
      { intro r. pose proof I as (Ls & O & Sp & Si & Li & N & K & Cu & P & Rm).
        unfold mbvh_turn. destruct (okm_node cur N K) as (m' & E' & _ & _ & Lm).
        rewrite Cu, as_usize_nat' by lia. unfold get_unchecked at 1. rewrite E. cbn [bind].
        rewrite Si. replace (Z.of_nat i >=? 4)%Z with false by (symmetry; rewrite Z.geb_leb; apply Z.leb_gt; lia).
        replace (3 - Z.of_nat i)%Z with (Z.of_nat (3 - i)) by lia. rewrite as_usize_nat' by lia.
        unfold get_unchecked at 1. rewrite Ei. cbn [bind]. rewrite Hr.
        destruct Sl as (_ & Sc & Sn & P1 & P2). rewrite Sc, Sn.
        replace (cnt >? -1)%Z with true by (symmetry; rewrite Z.gtb_ltb; apply Z.ltb_lt; lia).
        replace (q_j s <? cnt)%Z with true by (symmetry; apply Z.ltb_lt; lia).
        destruct Lf as (_ & _ & Lf). cbn [fst snd] in Lf.
        assert (k < length indices) as Kl by (apply Lf; unfold k; lia).
        replace (f + q_j s)%Z with (Z.of_nat k) by (unfold k; lia). rewrite as_usize_nat' by lia.
        unfold get_unchecked. rewrite (nth_error_nth' _ 0 Kl). cbn [bind]. 
        unfold s'. rewrite Cu, Si. reflexivity. }
      destruct (found (nth k indices 0)) eqn:Fk.
      + destruct (IH s') as (ps & Ep & Lp & Er); auto.
        { simpl. lia. } { simpl. lia. }
        exists (nth k indices 0 :: ps). split; [|split; [simpl; lia|]].
        { rewrite Sk. cbn [before_missing]. rewrite Fk, Ep. reflexivity. }
        intros fuel c r. destruct (client c (nth k indices 0) r) as [c0 r0] eqn:Ec.
        destruct (Er fuel c0 r0) as (rs & c1 & r1 & El & Eh & Ef & Er').
        exists (r :: rs), c1, r1. split; [simpl; congruence|split; [auto|split; [unfold client_fold in *; cbn [fold_left fst snd]; rewrite Ec; exact Ef|]]].
        change (length (nth k indices 0 :: ps) + S fuel) with (S (length ps + S fuel)). rewrite run_S', T. cbn [bind]. rewrite Ec.
        rewrite Er'. cbn [q_hit q_cur q_i q_stack q_sp s'].
        destruct (run fuel c1 r1 _) as [[[a1 a2] a3]| | |]; reflexivity.
      + exists []. split; [rewrite Sk; cbn [before_missing]; rewrite Fk; reflexivity|split; [simpl; lia|]].
        intros fuel c r. exists [], c, r. split; [auto|split; [auto|split; [auto|]]].
        simpl plus. rewrite run_S', T. cbn [bind].
        destruct (run fuel c r _) as [[[a1 a2] a3]| | |]; reflexivity.
  Qed.

  Definition mmu (cur : mtree) (h : mhit) (i : nat) (ts : list mtree) : nat :=
    S (4 - i + list_sum (map mweight (todo cur h i)) + list_sum (map mweight ts)).

  Lemma flat_mreached_mono : forall (h1 h2 : box -> bool) ts, (forall b, h1 b = true -> h2 b = true) ->
    submset (flat_map (mreached h1) ts) (flat_map (mreached h2) ts).
  Proof.
    intros h1 h2 ts Hh; induction ts as [|t ts IH]; simpl; [apply submset_refl|].
    apply submset_app; auto. apply mreached_mono; auto.
  Qed.

  (** The pending slots of a freshly entered node are those hit. *)
  Lemma todo_fresh : forall t m r (h : box -> bool), is_mnode t -> (forall k, k < 4 -> slot_is m k (slot_of t k)) ->
    Permutation (flat_map (mreached h) (todo t (inter m r) 0))
      (flat_map (fun k => if qh r (lane_box m k) then mreached h (slot_of t k) else []) [0; 1; 2; 3]).
  Proof.
    intros t m r h N S. unfold todo, order. cbn [skipn].
    eapply Permutation_trans.
    { apply Permutation_flat_map. apply Permutation_flat_map.
      eapply Permutation_trans; [apply Permutation_sym, Permutation_rev|apply inter_ids]. }
    cbn [flat_map]. rewrite !inter_result by lia.
    destruct (qh r (lane_box m 0)), (qh r (lane_box m 1)), (qh r (lane_box m 2)), (qh r (lane_box m 3));
      cbn [flat_map app]; rewrite ?app_nil_r, ?app_assoc; auto.
  Qed.

  Lemma fresh_slots : forall t m (h : box -> bool) (q : nat -> bool), is_mnode t ->
    (forall k, k < 4 -> slot_is m k (slot_of t k)) ->
    (forall k, k < 4 -> q k = true -> h (lane_box m k) = true) ->
    submset (flat_map (fun k => if q k then mreached h (slot_of t k) else []) [0; 1; 2; 3]) (mreached h t).
  Proof.
    intros [|b f c|b i c0 c1 c2 c3] m h q N S Q; try contradiction.
    cbn [flat_map mreached]. rewrite app_nil_r.
    assert (forall k, k < 4 -> submset (if q k then mreached h (slot_of (MNode b i c0 c1 c2 c3) k) else [])
       (if h (mbox (slot_of (MNode b i c0 c1 c2 c3) k)) then mreached h (slot_of (MNode b i c0 c1 c2 c3) k) else [])) as G.
    { intros k L. destruct (q k) eqn:Ek; [|apply submset_nil]. pose proof (S k L) as Sl. pose proof (Q k L Ek) as Hk.
      destruct (slot_of _ k) as [|b' f' n'|b' i' d0 d1 d2 d3]; cbn [slot_is mbox mreached] in *.
      - destruct (h _); apply submset_nil.
      - destruct Sl as (E & _). rewrite E in Hk. rewrite Hk. apply submset_refl.
      - destruct Sl as (E & _). rewrite E in Hk. rewrite Hk. apply submset_refl. }
    apply submset_app; [apply (G 0); lia|]. apply submset_app; [apply (G 1); lia|].
    apply submset_app; [apply (G 2); lia|apply (G 3); lia].
  Qed.
  Lemma fresh_slots' : forall t m (h : box -> bool) (q : nat -> bool), is_mnode t ->
    (forall k, k < 4 -> slot_is m k (slot_of t k)) ->
    (forall k, k < 4 -> h (lane_box m k) = true -> q k = true) ->
    submset (mreached h t) (flat_map (fun k => if q k then mreached h (slot_of t k) else []) [0; 1; 2; 3]).
  Proof.
    intros [|b f c|b i c0 c1 c2 c3] m h q N S Q; try contradiction.
    cbn [flat_map mreached]. rewrite app_nil_r.
    assert (forall k, k < 4 -> submset 
       (if h (mbox (slot_of (MNode b i c0 c1 c2 c3) k)) then mreached h (slot_of (MNode b i c0 c1 c2 c3) k) else [])
       (if q k then mreached h (slot_of (MNode b i c0 c1 c2 c3) k) else [])) as G.
    { intros k L. pose proof (S k L) as Sl. pose proof (Q k L) as Hk.
      destruct (slot_of _ k) as [|b' f' n'|b' i' d0 d1 d2 d3]; cbn [slot_is mbox mreached] in *.
      - destruct (h (vsplat f0, vsplat f0)); apply submset_nil.
      - destruct Sl as (E & _). rewrite E in Hk. destruct (h b'); [rewrite Hk by auto; apply submset_refl|apply submset_nil].
      - destruct Sl as (E & _). rewrite E in Hk. destruct (h b'); [rewrite Hk by auto; apply submset_refl|apply submset_nil]. }
    apply submset_app; [apply (G 0); lia|]. apply submset_app; [apply (G 1); lia|].
    apply submset_app; [apply (G 2); lia|apply (G 3); lia].
  Qed.

  Lemma todo_weight : forall t h, Permutation (h_ids h) [0; 1; 2; 3] -> is_mnode t ->
    4 + list_sum (map mweight (todo t h 0)) <= mweight t - 1.
  Proof.
    intros [|b f c|b i c0 c1 c2 c3] h P N; try contradiction.
    set (t := MNode b i c0 c1 c2 c3).
    assert (list_sum (map mweight (todo t h 0)) <= list_sum (map (fun k => mweight (slot_of t k)) (rev (h_ids h)))) as G.
    { unfold todo, order. cbn [skipn]. generalize (rev (h_ids h)). induction l as [|k l IH]; auto.
      cbn [flat_map map]. rewrite map_app, list_sum_app. unfold list_sum at 3. cbn [fold_right]. fold (list_sum (map (fun k => mweight (slot_of t k)) l)).
      destruct (mget (h_result h) k); unfold list_sum at 1; cbn [map fold_right]; lia. }
    assert (list_sum (map (fun k => mweight (slot_of t k)) (rev (h_ids h))) = mweight c0 + mweight c1 + mweight c2 + mweight c3) as G2.
    { assert (Permutation (map (fun k => mweight (slot_of t k)) (rev (h_ids h))) (map (fun k => mweight (slot_of t k)) [0;1;2;3])) as Q.
      { apply Permutation_map. eapply Permutation_trans; [apply Permutation_sym, Permutation_rev|auto]. }
      assert (forall a b, Permutation a b -> list_sum a = list_sum b) as LS.
      { clear. intros a b P; induction P; unfold list_sum in *; cbn [fold_right] in *; lia. }
      rewrite (LS _ _ Q). cbn [map slot_of t]. unfold list_sum. cbn [fold_right]. lia. }
    simpl mweight. lia.
  Qed.

  Lemma todo_room : forall t h k, Permutation (h_ids h) [0; 1; 2; 3] -> is_mnode t -> k + 3 * mlevels t <= 34 ->
    room k (todo t h 0).
  Proof.
    intros [|b f c|b i c0 c1 c2 c3] h k P N L; try contradiction.
    set (t := MNode b i c0 c1 c2 c3) in *.
    assert (forall x, In x (todo t h 0) -> mlevels x + 1 <= mlevels t) as B.
    { intros x I. unfold todo in I. apply in_flat_map in I as (q & _ & I). destruct (mget _ q); [|contradiction].
      destruct I as [<-|[]]. cbn [t mlevels slot_of]. destruct q as [|[|[|q]]]; lia. }
    assert (length (todo t h 0) <= 4) as Ln.
    { unfold todo, order. cbn [skipn]. pose proof (Permutation_length P) as PL. simpl in PL.
      rewrite <- PL, <- (rev_length (h_ids h)). generalize (rev (h_ids h)). clear.
      induction l as [|q l IH]; auto. cbn [flat_map length]. rewrite app_length. destruct (mget (h_result h) q); cbn [length]; lia. }
    assert (forall l j, (forall x, In x l -> mlevels x + 1 <= mlevels t) -> j + length l <= k + 4 -> room j l) as G.
    { clear - L. induction l as [|x l IH]; intros j B Lj; simpl in *; auto. split.
      - intro Nx. pose proof (B x (or_introl eq_refl)). lia.
      - apply IH; auto. lia. }
    apply G; auto. lia.
  Qed.

  Theorem mrun_spec : forall fuel cur i ts c r s,
    minv cur i ts s -> q_j s = 0%Z -> mmu cur (q_hit s) i ts <= fuel ->
    exists rs c' ls,
      run fuel c r s = Ok (flat_map shown ls, r :: rs, c') /\
      submset (flat_map (mreached (qall (r :: rs))) (todo cur (q_hit s) i ++ ts)) ls /\
      submset ls (flat_map (mreached (qsome (r :: rs))) (todo cur (q_hit s) i ++ ts)).
  Proof.
    induction fuel as [fuel IH] using lt_wf_ind; intros cur i ts c r s I J M.
    pose proof I as I0. destruct I as (Ls & O & Sp & Si & Li & N & K & Cu & P & Rm).
    destruct (okm_node cur N K) as (m & E & Sl & Ok' & Lm).
    unfold mmu in M. destruct fuel as [|fuel]; [lia|].
    assert (nth_error mnodes (as_usize (q_cur s)) = Some m) as Ecur.
    { rewrite Cu, as_usize_nat' by lia. auto. }
    destruct (Nat.eq_dec i 4) as [->|Ni].
    - (* all slots done *)
      assert (todo cur (q_hit s) 4 = []) as T4.
      { unfold todo, order. rewrite skipn_all2; [reflexivity|]. rewrite rev_length, (Permutation_length P). auto. }
      rewrite T4 in *. cbn [app] in *.
      rewrite run_S'. unfold mbvh_turn. unfold get_unchecked at 1. rewrite Ecur. cbn [bind]. rewrite Si.
      replace (Z.of_nat 4 >=? 4)%Z with true by reflexivity. rewrite Sp.
      destruct ts as [|t ts].
      { simpl. exists [], c, []. repeat split; auto using submset_refl. }
      inversion O as [|t' ts' O' Nt En D Kt]; subst t' ts'. cbn [length] in *.
      replace (Z.of_nat (S (length ts)) - 1 <? 0)%Z with false by (symmetry; apply Z.ltb_ge; lia).
      replace (Z.of_nat (S (length ts)) - 1)%Z with (Z.of_nat (length ts)) by lia.
      pose proof (nth_error_lt _ _ _ _ En) as LN.
      rewrite as_usize_nat' by lia. unfold get. rewrite En. cbn [bind].
      destruct (okm_node t Nt Kt) as (m2 & E2 & Sl2 & _ & Lm2).
      rewrite as_usize_nat' by lia. unfold get_unchecked. rewrite E2. cbn [bind].
      set (s' := Mit _ _ _ _ _ _).
      destruct (IH fuel ltac:(lia) t 0 ts c r s') as (rs & c' & ls & E1 & E3 & E4).
      { unfold minv. cbn [s' q_hit q_cur q_i q_stack q_sp]. repeat split; auto; try lia; try apply Kt.
        apply todo_room; auto. }
      { auto. }
      { unfold mmu. cbn [s' q_hit]. pose proof (todo_weight t (inter m2 r) (inter_ids m2 r) Nt).
        unfold list_sum in *. cbn [map fold_right] in M. destruct t; try contradiction. lia. }
      rewrite E1. exists rs, c', ls. split; auto. cbn [s' q_hit] in E3, E4. split.
      + eapply submset_trans; [|apply E3]. cbn [flat_map]. rewrite flat_map_app. apply submset_app; [|apply submset_refl].
        eapply submset_perm_r; [apply Permutation_sym, (todo_fresh t m2 r); auto|].
        apply (fresh_slots' t m2 _ (fun k => qh r (lane_box m2 k))); auto.
        intros k _ Hk. unfold qall in Hk. simpl in Hk. apply andb_true_iff in Hk. tauto.
      + eapply submset_trans; [apply E4|]. cbn [flat_map]. rewrite flat_map_app. apply submset_app; [|apply submset_refl].
        eapply submset_perm_l; [apply Permutation_sym, (todo_fresh t m2 r); auto|].
        apply (fresh_slots t m2 _ (fun k => qh r (lane_box m2 k))); auto.
        intros k _ Hk. unfold qsome. simpl. rewrite Hk. auto.
    - (* slot i *)
      assert (i < 4) as Li' by lia.
      destruct (order_cons (q_hit s) i P Li') as (id & Ei & Lid & Oi).
      assert (todo cur (q_hit s) i = (if mget (h_result (q_hit s)) id then [slot_of cur id] else []) ++ todo cur (q_hit s) (S i)) as Ti.
      { unfold todo. rewrite Oi. reflexivity. }
      assert (turn1 r s =
        if mget (h_result (q_hit s)) id then
          if (zget (m_counts m) id >? -1)%Z then
            if (0 <? zget (m_counts m) id)%Z then
              do prim <- get_unchecked indices (as_usize (zget (m_children m) id + 0));
              if found prim then Ok (Yield prim, Mit (q_hit s) (q_cur s) (q_i s) (0 + 1) (q_stack s) (q_sp s))
              else Ok (Again, Mit (q_hit s) (q_cur s) (q_i s + 1) 0 (q_stack s) (q_sp s))
            else Ok (Again, Mit (q_hit s) (q_cur s) (q_i s + 1) 0 (q_stack s) (q_sp s))
          else if (zget (m_children m) id >? -1)%Z then
            do stack <- set_unchecked (q_stack s) (as_usize (q_sp s + 1)) (zget (m_children m) id);
            Ok (Again, Mit (q_hit s) (q_cur s) (q_i s + 1) 0 stack (q_sp s + 1))
          else Ok (Again, Mit (q_hit s) (q_cur s) (q_i s + 1) 0 (q_stack s) (q_sp s))
        else Ok (Again, Mit (q_hit s) (q_cur s) (q_i s + 1) 0 (q_stack s) (q_sp s))) as T.
      { unfold mbvh_turn. unfold get_unchecked at 1. rewrite Ecur. cbn [bind].
        replace (q_i s >=? 4)%Z with false by (symmetry; rewrite Z.geb_leb; apply Z.leb_gt; lia).
        replace (3 - q_i s)%Z with (Z.of_nat (3 - i)) by lia. rewrite as_usize_nat' by lia.
        unfold get_unchecked at 1. rewrite Ei. cbn [bind]. rewrite J. reflexivity. }
      assert (forall st ts' sp, mstack st ts' -> length st = 32 -> sp = (Z.of_nat (length ts') - 1)%Z ->
        room (length ts') (todo cur (q_hit s) (S i)) ->
        minv cur (S i) ts' (Mit (q_hit s) (q_cur s) (q_i s + 1) 0 st sp)) as INV.
      { intros st ts' sp A B D F. unfold minv. cbn [q_hit q_cur q_i q_stack q_sp].
        repeat split; auto; try lia; apply K. }
      pose proof (Sl id Lid) as Sid. pose proof (Ok' id Lid) as Oid.
      rewrite Ti in M, Rm |- *.
      destruct (mget (h_result (q_hit s)) id) eqn:Hr.
      2:{ (* not hit *)
        rewrite run_S', T. cbn [bind app] in *.
        destruct (IH fuel ltac:(lia) cur (S i) ts c r (Mit (q_hit s) (q_cur s) (q_i s + 1) 0 (q_stack s) (q_sp s)))
          as (rs & c' & ls & E1 & E3 & E4); auto.
        { unfold mmu. cbn [q_hit]. lia. }
        exists rs, c', ls. auto. }
      cbn [app] in M, Rm |- *. unfold list_sum in M at 1. cbn [map fold_right] in M.
      fold (list_sum (map mweight (todo cur (q_hit s) (S i)))) in M.
      destruct Rm as [Rm1 Rm2].
      destruct (slot_of cur id) as [|b f cnt|b q d0 d1 d2 d3] eqn:Es.
      + (* empty slot *)
        destruct Sid as [Z1 Z2]. rewrite run_S', T.
        replace (zget (m_counts m) id >? -1)%Z with false by (symmetry; rewrite Z.gtb_ltb; apply Z.ltb_ge; lia).
        replace (zget (m_children m) id >? -1)%Z with false by (symmetry; rewrite Z.gtb_ltb; apply Z.ltb_ge; lia).
        cbn [bind].
        destruct (IH fuel ltac:(lia) cur (S i) ts c r (Mit (q_hit s) (q_cur s) (q_i s + 1) 0 (q_stack s) (q_sp s)))
          as (rs & c' & ls & E1 & E3 & E4); auto.
        { apply INV; auto. eapply room_weaken; [|eauto]. lia. }
        { unfold mmu. cbn [q_hit]. lia. }
        exists rs, c', ls. auto.
      + (* leaf *)
        assert (leaf_in (f, cnt)) as Lf by (destruct Oid as [_ Oid]; simpl in Oid; inversion Oid; auto).
        pose proof Lf as (Lf1 & Lf2 & _). cbn [fst snd] in Lf1, Lf2. cbn [mweight] in M.
        destruct (drain (Z.to_nat cnt) cur i ts s id b f cnt m I0 Li' E Ei Hr Sid Lf ltac:(lia) ltac:(lia)) as (ps & Ep & Lp & Dr).
        set (rest := length ps) in *.
        destruct (Dr (fuel - rest) c r) as (rs1 & c1 & r1 & El & Eh & _ & Er).
        replace (S fuel) with (rest + S (fuel - rest)) by lia.
        rewrite Er.
        destruct (IH (fuel - rest) ltac:(lia) cur (S i) ts c1 r1 (Mit (q_hit s) (q_cur s) (q_i s + 1) 0 (q_stack s) (q_sp s)))
          as (rs & c' & ls & E1 & E3 & E4); auto.
        { apply INV; auto. eapply room_weaken; [|eauto]. lia. }
        { unfold mmu. cbn [q_hit]. lia. }
        rewrite E1. cbn [bind]. cbn [q_hit] in E3, E4.
        assert (exists rs', rs1 ++ r1 :: rs = r :: rs') as (rs' & Ers).
        { destruct rs1 as [|x rs1]; [subst r1; simpl; eauto|]. subst x. simpl. eauto. }
        exists rs', c', ((f, cnt) :: ls). rewrite Ers. split.
        { f_equal. f_equal. f_equal. rewrite Ep, J. reflexivity. }
        assert (forall x, In x (r1 :: rs) -> In x (r :: rs')) as Sub.
        { intros x Ix. rewrite <- Ers. apply in_or_app. auto. }
        cbn [flat_map mreached app]. split; apply submset_cons.
        * eapply submset_trans; [|apply E3]. apply flat_mreached_mono.
          intros b' Hb. unfold qall in *. rewrite forallb_forall in *. auto.
        * eapply submset_trans; [apply E4|]. apply flat_mreached_mono.
          intros b' Hb. unfold qsome in *. rewrite existsb_exists in *. destruct Hb as (x & A & B). eauto.
      + (* inner node: push *)
        destruct Sid as (_ & Z1 & Z2). rewrite run_S', T. rewrite Z1.
        replace (zget (m_counts m) id >? -1)%Z with false by (symmetry; rewrite Z.gtb_ltb; apply Z.ltb_ge; lia).
        replace (Z.of_nat q >? -1)%Z with true by (symmetry; rewrite Z.gtb_ltb; apply Z.ltb_lt; lia).
        pose proof (Rm1 Logic.I) as Rm1'.
        assert (length ts <= 31) as Lts by (cbn [mlevels] in Rm1'; lia).
        replace (q_sp s + 1)%Z with (Z.of_nat (length ts)) by lia. rewrite as_usize_nat' by lia.
        unfold set_unchecked. replace (length ts <? length (q_stack s)) with true by (symmetry; apply Nat.ltb_lt; lia).
        cbn [bind].
        destruct (IH fuel ltac:(lia) cur (S i) (MNode b q d0 d1 d2 d3 :: ts) c r
           (Mit (q_hit s) (q_cur s) (q_i s + 1) 0 (upd (q_stack s) (length ts) (Z.of_nat q)) (Z.of_nat (length ts))))
          as (rs & c' & ls & E1 & E3 & E4); auto.
        { apply INV.
          - constructor; auto; [apply mstack_upd; auto|exact Logic.I|]. apply nth_error_upd_same. lia.
          - rewrite upd_length. auto.
          - cbn [length]. lia.
          - cbn [length]. auto. }
        { unfold mmu. cbn [q_hit]. unfold list_sum in *. cbn [map fold_right] in *. lia. }
        rewrite E1. exists rs, c', ls. split; auto. cbn [q_hit] in E3, E4.
        assert (forall h : box -> bool, Permutation
          (flat_map (mreached h) (MNode b q d0 d1 d2 d3 :: todo cur (q_hit s) (S i) ++ ts))
          (flat_map (mreached h) (todo cur (q_hit s) (S i) ++ MNode b q d0 d1 d2 d3 :: ts))) as PP.
        { intro h. apply Permutation_flat_map. apply Permutation_middle. }
        split.
        * eapply submset_perm_l; [apply Permutation_sym, PP|]. exact E3.
        * eapply submset_perm_r; [apply Permutation_sym, PP|]. exact E4.
  Qed.

  (** From the start. *)
  Theorem minit_short : forall t fuel c r,
    is_mnode t -> m_idx t = 0 -> mrepr mnodes t -> mlevels t <= 11 -> Forall leaf_in (mleaves t) ->
    mweight t <= fuel ->
    exists rs c' ls,
      run fuel c r (mbvh_init R inter mnodes r) = Ok (flat_map shown ls, r :: rs, c') /\
      submset (mreached (qall (r :: rs)) t) ls /\ submset ls (mreached (qsome (r :: rs)) t).
  Proof.
    intros t fuel c r N T0 Rp L F Fu.
    destruct (okm_node t N (conj Rp F)) as (m & E & Sl & _ & _). rewrite T0 in E.
    unfold mbvh_init. destruct mnodes as [|m' ms] eqn:Em; [discriminate|]. injection E as ->.
    rewrite <- Em in *.
    set (s := Mit (inter m r) 0 0 0 (repeat 0%Z 32) (-1)).
    destruct (mrun_spec fuel t 0 [] c r s) as (rs & c' & ls & E1 & E3 & E4).
    - unfold minv. cbn [s q_hit q_cur q_i q_stack q_sp]. rewrite T0.
      repeat split; auto; try lia; try constructor. apply todo_room; auto. simpl. lia.
    - reflexivity.
    - unfold mmu. cbn [s q_hit]. pose proof (todo_weight t (inter m r) (inter_ids m r) N).
      unfold list_sum at 2. cbn [map fold_right]. destruct t; try contradiction. cbn [mweight] in *. lia.
    - exists rs, c', ls. split; auto. rewrite app_nil_r in E3, E4. cbn [s q_hit] in E3, E4. split.
      + eapply submset_trans; [|apply E3].
        eapply submset_perm_r; [apply Permutation_sym, (todo_fresh t m r); auto|].
        apply (fresh_slots' t m _ (fun k => qh r (lane_box m k))); auto.
        intros k _ Hk. unfold qall in Hk. simpl in Hk. apply andb_true_iff in Hk. tauto.
      + eapply submset_trans; [apply E4|].
        eapply submset_perm_l; [apply Permutation_sym, (todo_fresh t m r); auto|].
        apply (fresh_slots t m _ (fun k => qh r (lane_box m k))); auto.
        intros k _ Hk. unfold qsome. simpl. rewrite Hk. auto.
  Qed.

  Lemma mreached_leaves : forall h t l, In l (mreached h t) -> In l (mleaves t).
  Proof.
    intros h t; induction t as [|b f c|b i c0 I0 c1 I1 c2 I2 c3 I3]; intros l Hl; simpl in *; auto.
    rewrite !in_app_iff in Hl |- *.
    destruct Hl as [Hl|[Hl|[Hl|Hl]]];
      [destruct (h (mbox c0))|destruct (h (mbox c1))|destruct (h (mbox c2))|destruct (h (mbox c3))]; try contradiction; auto.
  Qed.
  Theorem minit_spec : forall t fuel c r,
    is_mnode t -> m_idx t = 0 -> mrepr mnodes t -> mlevels t <= 11 -> Forall leaf_fine (mleaves t) ->
    mweight t <= fuel ->
    exists rs c' ls,
      run fuel c r (mbvh_init R inter mnodes r) = Ok (flat_map (range_prims indices) ls, r :: rs, c') /\
      submset (mreached (qall (r :: rs)) t) ls /\ submset ls (mreached (qsome (r :: rs)) t).
  Proof.
    intros t fuel c r N T0 Rp L F Fu.
    destruct (minit_short t fuel c r N T0 Rp L) as (rs & c' & ls & E & S1 & S2); auto.
    { eapply Forall_impl; [|apply F]. intros l (A & B & D). split; auto. split; auto. intros k Hk. apply D; auto. }
    exists rs, c', ls. rewrite E. split; auto. f_equal. f_equal. f_equal.
    assert (forall l, In l ls -> In l (mleaves t)) as In'.
    { intros l Il. destruct S2 as (k & S2). eapply mreached_leaves. eapply Permutation_in; [apply S2|]. apply in_or_app; auto. }
    clear - F In'. induction ls as [|l ls IH]; auto. cbn [flat_map]. rewrite IH by (intros; apply In'; simpl; auto). f_equal.
    apply before_missing_all. rewrite Forall_forall in F. destruct (F l (In' l (or_introl eq_refl))) as (A & B & D).
    unfold range_prims. apply Forall_map. apply Forall_forall. intros k Hk. apply in_seq in Hk. apply D. lia.
  Qed.
End Quad.
