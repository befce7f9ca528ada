(** * Proofs: traversals are the walks of SpecOrder.v *)
Require Import List ZArith Bool Lia Permutation Arith.
From Verif Require Import F32 Vec RayModel AabbModel Base NodeModel IterModel SpecTree SpecTraverse IterProofs TraverseProofs
  MbvhModel SpecMbvh MbvhProofs SpecOrder.
Import ListNotations.

Lemma usize_nat : forall k, (Z.of_nat k <= 2147483648)%Z -> as_usize (Z.of_nat k) = k.
Proof. intros k Hk. rewrite as_usize_small by lia. apply Nat2Z.id. Qed.

Section Steps.
  Context {C R : Type}.
  Implicit Types (a b d : @walker C R) (cr : C * R).

  Lemma after_stay : forall a cr, after stay a cr = a cr.
  Proof. intros. unfold after, stay. destruct (a cr); reflexivity. Qed.
  Lemma after_end : forall a cr, after a stay cr = a cr.
  Proof. intros. unfold after, stay. destruct (a cr). rewrite app_nil_r. reflexivity. Qed.
  Lemma after_assoc : forall a b d cr, after (after a b) d cr = after a (after b d) cr.
  Proof.
    intros. unfold after. destruct (a cr) as [x c1]. destruct (b c1) as [y c2]. destruct (d c2) as [z c3].
    rewrite app_assoc. reflexivity.
  Qed.
  Lemma after_ext : forall a a' b b', (forall cr, a cr = a' cr) -> (forall cr, b cr = b' cr) ->
    forall cr, after a b cr = after a' b' cr.
  Proof. intros a a' b b' A B cr. unfold after. rewrite A. destruct (a' cr). rewrite B. reflexivity. Qed.
  Lemma in_turn_app : forall l l' cr, in_turn (l ++ l') cr = after (in_turn l) (in_turn l') cr.
  Proof.
    induction l as [|w l IH]; intros l' cr; cbn [in_turn app].
    - symmetry. apply after_stay.
    - rewrite after_assoc. apply after_ext; auto.
  Qed.
  Lemma hand_nil : forall client cr, @hand C R client [] cr = ([], cr).
  Proof. intros client [c r]. reflexivity. Qed.
  Lemma hand_cons : forall client p ps (d : @walker C R) c r,
    after (hand client (p :: ps)) d (c, r) =
    let (q, cr') := after (hand client ps) d (client c p r) in (p :: q, cr').
  Proof.
    intros client p ps d c r. unfold after, hand, client_fold. cbn [fold_left fst snd].
    destruct (client c p r) as [c1 r1]. cbn [fst snd]. destruct (d _). reflexivity.
  Qed.
End Steps.

Section Binary.
  Variable R H : Type.
  Variable inter : node -> R -> option H.
  Variable closer : H -> H -> bool.
  Variable found : nat -> bool.
  Variable nodes : list node.
  Variable indices : list nat.
  Variable C : Type.
  Variable client : C -> nat -> R -> C * R.
  Hypothesis nodes_small : (Z.of_nat (length nodes) <= 2147483648)%Z.
  Hypothesis indices_small : (Z.of_nat (length indices) <= 2147483648)%Z.

  Notation run := (run R H inter closer found nodes indices C client).
  Notation turn1 := (turn1 R H inter closer found nodes indices).
  Notation okt := (okt found nodes indices).
  Notation inv := (inv found nodes indices).
  Notation W := (walk inter closer indices client).

  Definition resume (ts : list tree) (i : nat) : @walker C R :=
    match ts with
    | TLeaf _ n :: ts' => after (hand client (skipn i (leaf_prims indices n))) (in_turn (map W ts'))
    | _ => in_turn (map W ts)
    end.

  Lemma resume_0 : forall ts cr, resume ts 0 cr = in_turn (map W ts) cr.
  Proof. intros [|[j n|j n a b] ts] cr; reflexivity. Qed.

  Lemma run_walk : forall fuel ts i c r s, inv ts i s -> mu ts i <= fuel ->
    exists ps rs c', run fuel c r s = Ok (ps, r :: rs, c') /\ resume ts i (c, r) = (ps, (c', last (r :: rs) r)).
  Proof.
    induction fuel as [|fuel IH]; intros ts i c r s I M; [unfold mu in M; lia|].
    destruct I as (Ls & O & Sp & Si & Hi).
    rewrite run_S.
    destruct ts as [|t ts].
    { unfold IterProofs.turn1, bvh_turn. rewrite Sp. simpl. exists [], [], c. auto. }
    inversion O as [|t' ts' O' N D K]; subst t' ts'.
    assert (turn1 r s =
      let n := t_rec t in
      let sp := (b_sp s - 1)%Z in
      if (ex1 n >? -1)%Z then
        if (b_i s <? ex1 n)%Z then
          do prim <- get_unchecked indices (as_usize (ex2 n + b_i s));
          if found prim then Ok (Yield prim, Bit (b_i s + 1) (b_stack s) (sp + 1))
          else Ok (Again, Bit 0 (b_stack s) (sp + 1))
        else Ok (Again, Bit 0 (b_stack s) sp)
      else if (ex2 n >? -1)%Z then
        do nl <- get_unchecked nodes (as_usize (ex2 n));
        do nr <- get_unchecked nodes (as_usize (ex2 n + 1));
        do (stack, sp) <- sort_nodes_gen closer (inter nl r) (inter nr r) (b_stack s) sp (ex2 n);
        Ok (Again, Bit (b_i s) stack sp)
      else Ok (Again, Bit (b_i s) (b_stack s) sp)) as T.
    { unfold IterProofs.turn1, bvh_turn.
      simpl length in Sp. replace (b_sp s <? 0)%Z with false by (symmetry; apply Z.ltb_ge; lia).
      assert (as_usize (b_sp s) = length ts) as ->.
      { rewrite Sp. replace (Z.of_nat (S (length ts)) - 1)%Z with (Z.of_nat (length ts)) by lia.
        apply usize_nat. pose proof (nth_error_lt _ _ _ _ N). lia. }
      unfold get_unchecked at 1. rewrite N. cbn [bind].
      destruct K as [Kr Kp]. pose proof (repr_idx _ _ Kr) as E.
      pose proof (nth_error_lt _ _ _ _ E) as L.
      rewrite usize_nat by lia. unfold get_unchecked at 1. rewrite E. reflexivity. }
    rewrite T. clear T. cbv zeta.
    destruct K as [Kr Kp]. simpl length in Sp.
    destruct t as [j n|j n tl tr]; simpl t_rec; simpl t_idx in *.
    - (* leaf *)
      destruct Kr as (E & C1 & C2).
      replace (ex1 n >? -1)%Z with true by (symmetry; rewrite Z.gtb_ltb; apply Z.ltb_lt; lia).
      rewrite Si. destruct (Z.ltb_spec (Z.of_nat i) (ex1 n)) as [L|L].
      + assert (i < Z.to_nat (ex1 n)) as L' by lia.
        set (k := Z.to_nat (ex2 n) + i).
        assert (In k (positions (TLeaf j n))) as Ik.
        { simpl. unfold leaf_positions, k. apply in_seq. lia. }
        rewrite Forall_forall in Kp. destruct (Kp k Ik) as [Kl Kf].
        replace (ex2 n + Z.of_nat i)%Z with (Z.of_nat k) by (unfold k; lia).
        rewrite usize_nat by lia.
        unfold get_unchecked. rewrite (nth_error_nth' _ 0 Kl). cbn [bind]. rewrite Kf.
        destruct (client c (nth k indices 0) r) as [c' r'] eqn:Ec.
        destruct (IH (TLeaf j n :: ts) (S i) c' r' (Bit (Z.of_nat i + 1) (b_stack s) (b_sp s - 1 + 1)))
          as (ps & rs & c'' & E1 & E2).
        { unfold IterProofs.inv; cbn [b_i b_stack b_sp length]. split; [auto|]. split.
          - constructor; auto. split; simpl; auto. rewrite Forall_forall; auto.
          - split; [lia|]. split; lia. }
        { unfold mu, list_sum in *. cbn [map fold_right turns] in *. lia. }
        cbn [bind]. rewrite Ec. rewrite E1. cbn [bind].
        exists (nth k indices 0 :: ps), (r' :: rs), c''. split; [reflexivity|].
        cbn [resume] in E2 |- *.
        rewrite (skipn_nth _ (leaf_prims indices n) i (nth k indices 0)) by (apply leaf_prims_nth; auto).
        rewrite hand_cons, Ec, E2. f_equal. f_equal.
        change (last (r :: r' :: rs) r) with (last (r' :: rs) r). apply last_any.
      + assert (i = Z.to_nat (ex1 n)) as -> by lia.
        cbn [bind].
        destruct (IH ts 0 c r (Bit 0 (b_stack s) (b_sp s - 1))) as (ps & rs & c'' & E1 & E2).
        { unfold IterProofs.inv; cbn [b_i b_stack b_sp]. split; [auto|]. split; [auto|].
          split; [lia|]. split; [lia|]. destruct ts as [|[j' n'|j' n' l' r'] ts]; auto; lia. }
        { unfold mu, list_sum in *. cbn [map fold_right turns] in *. lia. }
        exists ps, rs, c''. split; [exact E1|]. rewrite resume_0 in E2. cbn [resume].
        rewrite skipn_all2 by (rewrite leaf_prims_length; lia).
        rewrite <- E2. unfold after at 1. rewrite hand_nil. destruct (in_turn _ (c, r)); reflexivity.
    - (* inner node *)
      subst i. destruct Kr as (E & C1 & C2 & C3 & Kl & Kr).
      replace (ex1 n >? -1)%Z with false by (symmetry; rewrite Z.gtb_ltb; apply Z.ltb_ge; lia).
      replace (ex2 n >? -1)%Z with true by (symmetry; rewrite Z.gtb_ltb; apply Z.ltb_lt; lia).
      pose proof (repr_idx _ _ Kl) as El. pose proof (repr_idx _ _ Kr) as Er.
      pose proof (nth_error_lt _ _ _ _ El) as Ll. pose proof (nth_error_lt _ _ _ _ Er) as Lr.
      rewrite C2. replace (Z.of_nat (t_idx tl) + 1)%Z with (Z.of_nat (t_idx tr)) by lia.
      rewrite !usize_nat by lia.
      unfold get_unchecked. rewrite El, Er. cbn [bind].
      simpl positions in Kp. apply Forall_app in Kp. destruct Kp as [Kpl Kpr].
      simpl depth in D.
      assert (okt tl) as Ol by (split; auto). assert (okt tr) as Or by (split; auto).
      pose proof (nth_error_lt _ _ _ _ N) as LN.
      assert (as_usize (b_sp s - 1 + 1) = length ts) as A1.
      { rewrite Sp. replace (Z.of_nat (S (length ts)) - 1 - 1 + 1)%Z with (Z.of_nat (length ts)) by lia.
        apply usize_nat; lia. }
      assert (as_usize (b_sp s - 1 + 1 + 1) = S (length ts)) as A2.
      { rewrite Sp. replace (Z.of_nat (S (length ts)) - 1 - 1 + 1 + 1)%Z with (Z.of_nat (S (length ts))) by lia.
        apply usize_nat; lia. }
      assert (forall a b, okt a -> okt b -> depth a <= Nat.max (depth tl) (depth tr) ->
         depth b <= Nat.max (depth tl) (depth tr) ->
         inv (a :: b :: ts) 0
           (Bit (b_i s) (upd (upd (b_stack s) (length ts) (Z.of_nat (t_idx b))) (S (length ts)) (Z.of_nat (t_idx a)))
                (b_sp s - 1 + 1 + 1))) as I2.
      { intros a b Oa Ob Da Db. unfold IterProofs.inv; cbn [b_i b_stack b_sp length].
        split; [rewrite !upd_length; auto|]. split.
        - constructor; auto.
          + constructor; auto.
            * apply on_stack_upd; [apply on_stack_upd|]; auto; lia.
            * rewrite nth_error_upd_other by lia. apply nth_error_upd_same. lia.
            * lia.
          + cbn [length]. apply nth_error_upd_same. rewrite upd_length. lia.
          + simpl. lia.
        - split; [lia|]. split; [auto|]. destruct a; auto. lia. }
      assert (forall a, okt a -> depth a <= Nat.max (depth tl) (depth tr) ->
         inv (a :: ts) 0
           (Bit (b_i s) (upd (b_stack s) (length ts) (Z.of_nat (t_idx a))) (b_sp s - 1 + 1))) as I1.
      { intros a Oa Da. unfold IterProofs.inv; cbn [b_i b_stack b_sp length].
        split; [rewrite !upd_length; auto|]. split.
        - constructor; auto.
          + apply on_stack_upd; auto.
          + apply nth_error_upd_same. lia.
          + lia.
        - split; [lia|]. split; [auto|]. destruct a; auto. lia. }
      assert (forall new s', inv (new ++ ts) 0 s' -> mu (new ++ ts) 0 <= fuel ->
        in_turn (map W new) (c, r) = W (TNode j n tl tr) (c, r) ->
        exists ps rs c', run fuel c r s' = Ok (ps, r :: rs, c') /\
          resume (TNode j n tl tr :: ts) 0 (c, r) = (ps, (c', last (r :: rs) r))) as FIN.
      { intros new s' I' M' P'.
        destruct (IH (new ++ ts) 0 c r s' I' M') as (ps & rs & c' & E1 & E2).
        exists ps, rs, c'. split; [exact E1|].
        rewrite resume_0 in E2 |- *. rewrite map_app, in_turn_app in E2. rewrite <- E2.
        cbn [map in_turn]. unfold after. rewrite P'. reflexivity. }
      assert (mu (tl :: tr :: ts) 0 <= fuel /\ mu (tr :: tl :: ts) 0 <= fuel /\ mu (tl :: ts) 0 <= fuel /\
              mu (tr :: ts) 0 <= fuel /\ mu ts 0 <= fuel) as (M1 & M2 & M3 & M4 & M5).
      { unfold mu, list_sum in *. cbn [map fold_right turns] in *. lia. }
      assert (forall a b, in_turn (map W [a; b]) (c, r) = after (W a) (W b) (c, r)) as T2.
      { intros a b. cbn [map in_turn]. apply after_ext; auto. intro cr. apply after_end. }
      assert (forall a, in_turn (map W [a]) (c, r) = W a (c, r)) as T1.
      { intro a. cbn [map in_turn]. apply after_end. }
      cbn [walk snd] in FIN.
      unfold sort_nodes_gen.
      destruct (inter (t_rec tl) r) as [hl|] eqn:Hl; destruct (inter (t_rec tr) r) as [hr|] eqn:Hr.
      + destruct (closer hl hr).
        * rewrite A1. rewrite set_Ok by lia. cbn [bind]. rewrite A2. rewrite set_Ok by (rewrite upd_length; lia).
          cbn [bind]. apply (FIN [tr; tl]); [|exact M2|apply T2].
          replace (Z.of_nat (t_idx tl) + 1)%Z with (Z.of_nat (t_idx tr)) by lia. apply (I2 tr tl); auto; lia.
        * rewrite A1. rewrite set_Ok by lia. cbn [bind]. rewrite A2. rewrite set_Ok by (rewrite upd_length; lia).
          cbn [bind]. apply (FIN [tl; tr]); [|exact M1|apply T2].
          replace (Z.of_nat (t_idx tl) + 1)%Z with (Z.of_nat (t_idx tr)) by lia. apply (I2 tl tr); auto; lia.
      + rewrite A1. rewrite set_Ok by lia. cbn [bind].
        apply (FIN [tl]); [|exact M3|apply T1]. apply (I1 tl); auto; lia.
      + rewrite A1. rewrite set_Ok by lia. cbn [bind].
        apply (FIN [tr]); [|exact M4|apply T1].
        replace (Z.of_nat (t_idx tl) + 1)%Z with (Z.of_nat (t_idx tr)) by lia. apply (I1 tr); auto; lia.
      + cbn [bind]. apply (FIN []); [|exact M5|reflexivity].
        unfold IterProofs.inv; cbn [b_i b_stack b_sp length app]. split; [auto|]. split; [auto|].
        split; [lia|]. split; [auto|]. destruct ts as [|[j' n'|j' n' l' r'] ts]; auto; lia.
  Qed.

  Lemma init_walk : forall t fuel c r,
    repr nodes t -> t_idx t = 0 -> depth t <= 31 ->
    Forall (fun k => k < length indices /\ found (nth k indices 0) = true) (positions t) ->
    t_size t + length (positions t) + 1 <= fuel ->
    exists ps rays c',
      bvh_run R H inter closer found nodes indices C client fuel c r (bvh_init true) = Ok (ps, rays, c') /\
      W t (c, r) = (ps, (c', last rays r)).
  Proof.
    intros t fuel c r Rp T0 D F Fu.
    destruct (run_walk fuel [t] 0 c r (bvh_init true)) as (ps & rs & c' & E1 & E2).
    - unfold IterProofs.inv, bvh_init; cbn [b_i b_stack b_sp length]. split; [reflexivity|]. split.
      + constructor; [constructor| |simpl; lia|split; auto]. simpl. rewrite T0. reflexivity.
      + split; [reflexivity|]. split; [reflexivity|]. destruct t; auto. lia.
    - unfold mu, list_sum. cbn [map fold_right]. rewrite turns_bound. lia.
    - exists ps, (r :: rs), c'. split; [exact E1|]. rewrite resume_0 in E2. cbn [map in_turn] in E2.
      rewrite after_end in E2. exact E2.
  Qed.
End Binary.

Section Quad.
  Variable R : Type.
  Variable inter : mnode -> R -> mhit.
  Variable qh : R -> box -> bool.
  Hypothesis inter_result : forall m r k, k < 4 -> mget (h_result (inter m r)) k = qh r (lane_box m k).
  Hypothesis inter_ids : forall m r, Permutation (h_ids (inter m r)) [0; 1; 2; 3].
  Variable found : nat -> bool.
  Variable mnodes : list mnode.
  Variable indices : list nat.
  Variable C : Type.
  Variable client : C -> nat -> R -> C * R.
  Hypothesis nodes_small : (Z.of_nat (length mnodes) <= 2147483648)%Z.
  Hypothesis indices_small : (Z.of_nat (length indices) <= 2147483648)%Z.
  Hypothesis all_found : forall k, k < length indices -> found (nth k indices 0) = true.
  Variable near_first : nat -> R -> list nat.
  Hypothesis near_ids : forall i m r, nth_error mnodes i = Some m -> near_first i r = h_ids (inter m r).

  Notation run := (mbvh_run R inter found mnodes indices C client).
  Notation turn1 := (mbvh_turn R inter found mnodes indices).
  Notation okm := (okm mnodes indices).
  Notation minv := (minv mnodes indices).
  Notation Q := (qwalk qh near_first indices client).

  Definition pending (l : list mtree) : list mtree := filter a_leaf l ++ rev (filter a_node l).
  Definition qresume (l ts : list mtree) : @walker C R := in_turn (map Q (pending l ++ ts)).

  Lemma filter_map : forall A B (f : A -> B) (p : B -> bool) l, filter p (map f l) = map f (filter (fun x => p (f x)) l).
  Proof. intros A B f p l; induction l as [|x l IH]; cbn [filter map]; auto. destruct (p (f x)); cbn [map]; rewrite IH; auto. Qed.
  Lemma filter_rev' : forall A (p : A -> bool) l, filter p (rev l) = rev (filter p l).
  Proof.
    intros A p l; induction l as [|x l IH]; auto. cbn [rev filter]. rewrite filter_app, IH. cbn [filter].
    destruct (p x); cbn [rev]; rewrite ?app_nil_r; auto.
  Qed.
  Lemma filter_filter : forall A (p q : A -> bool) l, filter p (filter q l) = filter (fun x => q x && p x) l.
  Proof. intros A p q l; induction l as [|x l IH]; auto. cbn [filter]. destruct (q x); cbn [andb filter]; rewrite IH; auto. Qed.
  Lemma filter_same : forall A (p q : A -> bool) l, (forall x, In x l -> p x = q x) -> filter p l = filter q l.
  Proof.
    intros A p q l; induction l as [|x l IH]; intro E; auto. cbn [filter]. rewrite (E x) by (left; auto).
    rewrite IH by (intros y Iy; apply E; right; auto). auto.
  Qed.

  Lemma todo_map : forall t h, todo t h 0 = map (slot_of t) (filter (mget (h_result h)) (rev (h_ids h))).
  Proof.
    intros t h. unfold todo, order. cbn [skipn]. induction (rev (h_ids h)) as [|k l IH]; auto.
    cbn [flat_map filter]. destruct (mget (h_result h) k); cbn [map app]; rewrite IH; auto.
  Qed.

  (** Entering a node. *)
  Lemma fresh_walk : forall t m c r, is_mnode t -> nth_error mnodes (m_idx t) = Some m ->
    (forall k, k < 4 -> slot_is m k (slot_of t k)) ->
    Q t (c, r) = in_turn (map Q (pending (todo t (inter m r) 0))) (c, r).
  Proof.
    intros [|b f n|b i c0 c1 c2 c3] m c r N E Sl; try contradiction. set (t := MNode b i c0 c1 c2 c3) in *.
    set (h := inter m r).
    assert (near_first i r = h_ids h) as Ei by (apply near_ids; exact E).
    assert (forall x, In x (h_ids h) -> x < 4) as B4.
    { intros x I. apply (Permutation_in _ (inter_ids m r)) in I. simpl in I. lia. }
    assert (forall (p : mtree -> bool), p MEmpty = false ->
      filter p (todo t h 0) = map (slot_of t) (rev (filter (fun k => p (slot_of t k))
        (filter (fun k => qh r (mbox (slot_of t k))) (h_ids h))))) as G.
    { intros p Pe. rewrite todo_map, filter_map, filter_filter, filter_rev'. do 2 f_equal.
      rewrite filter_filter. apply filter_same. intros k Ik. pose proof (B4 k Ik) as Lk. pose proof (Sl k Lk) as S.
      unfold h. rewrite inter_result by auto.
      destruct (slot_of t k) as [|b' f' n'|b' i' d0 d1 d2 d3]; cbn [slot_is mbox] in *.
      - rewrite Pe, !andb_false_r. auto.
      - destruct S as (-> & _). auto.
      - destruct S as (-> & _). auto. }
    unfold pending. rewrite (G a_leaf), (G a_node) by reflexivity.
    rewrite <- map_rev, rev_involutive, <- map_app, map_map.
    cbn [qwalk t snd]. rewrite Ei.
    set (hits := filter (fun k => qh r (mbox (slot_of t k))) (h_ids h)).
    change (filter (fun k : nat => qh r (mbox match k with 0 => c0 | 1 => c1 | 2 => c2 | _ => c3 end)) (h_ids h)) with hits.
    change (filter (fun k : nat => a_leaf match k with 0 => c0 | 1 => c1 | 2 => c2 | _ => c3 end) hits)
      with (filter (fun k => a_leaf (slot_of t k)) hits).
    change (filter (fun k : nat => a_node match k with 0 => c0 | 1 => c1 | 2 => c2 | _ => c3 end) hits)
      with (filter (fun k => a_node (slot_of t k)) hits).
    f_equal. rewrite (map_ext _ (fun x => Q (slot_of t x))); [reflexivity|]. intros [|[|[|k]]]; reflexivity.
  Qed.

  Lemma walk_fold_turn : forall l, (forall t, In t l -> forall cr ps cr', Q t cr = (ps, cr') -> client_fold client ps (fst cr) (snd cr) = cr') ->
    forall cr ps cr', in_turn (map Q l) cr = (ps, cr') -> client_fold client ps (fst cr) (snd cr) = cr'.
  Proof.
    induction l as [|t l IH]; intros H cr ps cr' E.
    - cbn in E. injection E as <- <-. destruct cr; reflexivity.
    - cbn [map in_turn] in E. unfold after in E. destruct (Q t cr) as [a cr1] eqn:E1.
      destruct (in_turn (map Q l) cr1) as [b cr2] eqn:E2. injection E as <- <-.
      apply H in E1; [|left; auto]. apply IH in E2; [|intros; eapply H; eauto; right; auto].
      unfold client_fold in *. rewrite fold_left_app, E1. destruct cr1; exact E2.
  Qed.
  Lemma qwalk_fold : forall t cr ps cr', Q t cr = (ps, cr') -> client_fold client ps (fst cr) (snd cr) = cr'.
  Proof.
    induction t as [|b f n|b i c0 I0 c1 I1 c2 I2 c3 I3]; intros cr ps cr' E.
    - cbn in E. unfold stay in E. injection E as <- <-. destruct cr; reflexivity.
    - cbn [qwalk] in E. unfold hand in E. injection E as <- <-. reflexivity.
    - cbn [qwalk] in E.
      set (l := rev _ ++ _) in E. clearbody l.
      assert (map (fun k => match k with 0 => Q c0 | 1 => Q c1 | 2 => Q c2 | _ => Q c3 end) l
        = map Q (map (fun k => match k with 0 => c0 | 1 => c1 | 2 => c2 | _ => c3 end) l)) as Em.
      { rewrite map_map. apply map_ext. intros [|[|[|k]]]; reflexivity. }
      rewrite Em in E. revert E. apply walk_fold_turn.
      intros t It. apply in_map_iff in It as (k & <- & _). destruct k as [|[|[|k]]]; auto.
  Qed.

  Lemma qrun_walk : forall fuel cur i ts c r s,
    minv cur i ts s -> q_j s = 0%Z -> mmu cur (q_hit s) i ts <= fuel ->
    exists ps rs c' rf, run fuel c r s = Ok (ps, rs, c') /\
      qresume (todo cur (q_hit s) i) ts (c, r) = (ps, (c', rf)).
  Proof.
    induction fuel as [fuel IH] using lt_wf_ind; intros cur i ts c r s I J M.
    pose proof I as I0. destruct I as (Ls & O & Sp & Si & Li & N & K & Cu & P & Rm).
    destruct (okm_node mnodes indices cur N K) as (m & E & Sl & Ok' & Lm).
    unfold mmu in M. destruct fuel as [|fuel]; [lia|].
    assert (nth_error mnodes (as_usize (q_cur s)) = Some m) as Ecur.
    { rewrite Cu, usize_nat by lia. auto. }
    destruct (Nat.eq_dec i 4) as [->|Ni].
    - (* all slots done *)
      assert (todo cur (q_hit s) 4 = []) as T4.
      { unfold todo, order. rewrite skipn_all2; [reflexivity|]. rewrite rev_length, (Permutation_length P). auto. }
      rewrite T4 in *. unfold qresume. cbn [app pending filter rev] in *.
      rewrite run_S'. unfold mbvh_turn. unfold get_unchecked at 1. rewrite Ecur. cbn [bind]. rewrite Si.
      replace (Z.of_nat 4 >=? 4)%Z with true by reflexivity. rewrite Sp.
      destruct ts as [|t ts].
      { simpl. exists [], [r], c, r. auto. }
      inversion O as [|t' ts' O' Nt En D Kt]; subst t' ts'. cbn [length] in *.
      replace (Z.of_nat (S (length ts)) - 1 <? 0)%Z with false by (symmetry; apply Z.ltb_ge; lia).
      replace (Z.of_nat (S (length ts)) - 1)%Z with (Z.of_nat (length ts)) by lia.
      pose proof (nth_error_lt _ _ _ _ En) as LN.
      rewrite usize_nat by lia. unfold get. rewrite En. cbn [bind].
      destruct (okm_node mnodes indices t Nt Kt) as (m2 & E2 & Sl2 & _ & Lm2).
      rewrite usize_nat by lia. unfold get_unchecked. rewrite E2. cbn [bind].
      set (s' := Mit _ _ _ _ _ _).
      destruct (IH fuel ltac:(lia) t 0 ts c r s') as (ps & rs & c' & rf & E1 & E3).
      { unfold MbvhProofs.minv. cbn [s' q_hit q_cur q_i q_stack q_sp]. repeat split; auto; try lia; try apply Kt.
        apply todo_room; auto. }
      { auto. }
      { unfold mmu. cbn [s' q_hit]. pose proof (todo_weight mnodes indices t (inter m2 r) (inter_ids m2 r) Nt).
        unfold list_sum in *. cbn [map fold_right] in M. destruct t; try contradiction. lia. }
      exists ps, rs, c', rf. split; [exact E1|]. cbn [s' q_hit] in E3.
      unfold qresume in E3. rewrite map_app, in_turn_app in E3. rewrite <- E3.
      cbn [map in_turn]. unfold after. rewrite (fresh_walk t m2 c r); auto.
    - (* slot i *)
      assert (i < 4) as Li' by lia.
      destruct (order_cons mnodes indices (q_hit s) i P Li') as (id & Ei & Lid & Oi).
      assert (todo cur (q_hit s) i = (if mget (h_result (q_hit s)) id then [slot_of cur id] else []) ++ todo cur (q_hit s) (S i)) as Ti.
      { unfold todo. rewrite Oi. reflexivity. }
      assert (turn1 r s =
        if mget (h_result (q_hit s)) id then
          if (zget (m_counts m) id >? -1)%Z then
            if (0 <? zget (m_counts m) id)%Z then
              do prim <- get_unchecked indices (as_usize (zget (m_children m) id + 0));
              if found prim then Ok (Yield prim, Mit (q_hit s) (q_cur s) (q_i s) (0 + 1) (q_stack s) (q_sp s))
              else Ok (Again, Mit (q_hit s) (q_cur s) (q_i s + 1) 0 (q_stack s) (q_sp s))
            else Ok (Again, Mit (q_hit s) (q_cur s) (q_i s + 1) 0 (q_stack s) (q_sp s))
          else if (zget (m_children m) id >? -1)%Z then
            do stack <- set_unchecked (q_stack s) (as_usize (q_sp s + 1)) (zget (m_children m) id);
            Ok (Again, Mit (q_hit s) (q_cur s) (q_i s + 1) 0 stack (q_sp s + 1))
          else Ok (Again, Mit (q_hit s) (q_cur s) (q_i s + 1) 0 (q_stack s) (q_sp s))
        else Ok (Again, Mit (q_hit s) (q_cur s) (q_i s + 1) 0 (q_stack s) (q_sp s))) as T.
      { unfold mbvh_turn. unfold get_unchecked at 1. rewrite Ecur. cbn [bind].
        replace (q_i s >=? 4)%Z with false by (symmetry; rewrite Z.geb_leb; apply Z.leb_gt; lia).
        replace (3 - q_i s)%Z with (Z.of_nat (3 - i)) by lia. rewrite usize_nat by lia.
        unfold get_unchecked at 1. rewrite Ei. cbn [bind]. rewrite J. reflexivity. }
      assert (forall st ts' sp, mstack mnodes indices st ts' -> length st = 32 -> sp = (Z.of_nat (length ts') - 1)%Z ->
        room (length ts') (todo cur (q_hit s) (S i)) ->
        minv cur (S i) ts' (Mit (q_hit s) (q_cur s) (q_i s + 1) 0 st sp)) as INV.
      { intros st ts' sp A B D F. unfold MbvhProofs.minv. cbn [q_hit q_cur q_i q_stack q_sp].
        repeat split; auto; try lia; apply K. }
      pose proof (Sl id Lid) as Sid. pose proof (Ok' id Lid) as Oid.
      rewrite Ti in M, Rm |- *.
      destruct (mget (h_result (q_hit s)) id) eqn:Hr.
      2:{ (* not hit *)
        rewrite run_S', T. cbn [bind app] in *.
        apply (IH fuel ltac:(lia) cur (S i) ts c r (Mit (q_hit s) (q_cur s) (q_i s + 1) 0 (q_stack s) (q_sp s))); auto.
        unfold mmu. cbn [q_hit]. lia. }
      cbn [app] in M, Rm |- *. unfold list_sum in M at 1. cbn [map fold_right] in M.
      fold (list_sum (map mweight (todo cur (q_hit s) (S i)))) in M.
      destruct Rm as [Rm1 Rm2].
      destruct (slot_of cur id) as [|b f cnt|b q d0 d1 d2 d3] eqn:Es.
      + (* empty slot *)
        destruct Sid as [Z1 Z2]. rewrite run_S', T.
        replace (zget (m_counts m) id >? -1)%Z with false by (symmetry; rewrite Z.gtb_ltb; apply Z.ltb_ge; lia).
        replace (zget (m_children m) id >? -1)%Z with false by (symmetry; rewrite Z.gtb_ltb; apply Z.ltb_ge; lia).
        cbn [bind].
        destruct (IH fuel ltac:(lia) cur (S i) ts c r (Mit (q_hit s) (q_cur s) (q_i s + 1) 0 (q_stack s) (q_sp s)))
          as (ps & rs & c' & rf & E1 & E3); auto.
        { apply INV; auto. eapply room_weaken; [auto|auto| |exact Rm2]. lia. }
        { unfold mmu. cbn [q_hit]. lia. }
        exists ps, rs, c', rf. auto.
      + (* leaf *)
        assert (leaf_in indices (f, cnt)) as Lf by (destruct Oid as [_ Oid]; simpl in Oid; inversion Oid; auto).
        pose proof Lf as (Lf1 & Lf2 & Lf3). cbn [fst snd] in Lf1, Lf2, Lf3. cbn [mweight] in M.
        destruct (drain R inter found mnodes indices C client nodes_small indices_small
          (Z.to_nat cnt) cur i ts s id b f cnt m I0 Li' E Ei Hr Sid Lf ltac:(lia) ltac:(lia)) as (ps & Ep & Lp & Dr).
        assert (ps = range_prims indices (f, cnt)) as Eps.
        { rewrite Ep, J. cbn [Z.to_nat skipn]. apply before_missing_all. apply Forall_forall. intros p Ip.
          unfold range_prims in Ip. apply in_map_iff in Ip as (k & <- & Ik). apply in_seq in Ik. cbn [fst snd] in Ik.
          apply all_found. apply Lf3. lia. }
        set (rest := length ps) in *.
        destruct (Dr (fuel - rest) c r) as (rs1 & c1 & r1 & El & Eh & Ef & Er).
        replace (S fuel) with (rest + S (fuel - rest)) by lia.
        rewrite Er.
        destruct (IH (fuel - rest) ltac:(lia) cur (S i) ts c1 r1 (Mit (q_hit s) (q_cur s) (q_i s + 1) 0 (q_stack s) (q_sp s)))
          as (ps' & rs & c' & rf & E1 & E3); auto.
        { apply INV; auto. eapply room_weaken; [auto|auto| |exact Rm2]. lia. }
        { unfold mmu. cbn [q_hit]. lia. }
        rewrite E1. cbn [bind]. cbn [q_hit] in E3.
        exists (ps ++ ps'), (rs1 ++ rs), c', rf. split; [reflexivity|].
        unfold qresume, pending in E3 |- *. cbn [filter a_leaf a_node app map in_turn]. cbn [qwalk].
        unfold after. unfold hand. cbn [fst snd]. rewrite <- Eps, Ef, E3. reflexivity.
      + (* inner node: push *)
        destruct Sid as (_ & Z1 & Z2). rewrite run_S', T. rewrite Z1.
        replace (zget (m_counts m) id >? -1)%Z with false by (symmetry; rewrite Z.gtb_ltb; apply Z.ltb_ge; lia).
        replace (Z.of_nat q >? -1)%Z with true by (symmetry; rewrite Z.gtb_ltb; apply Z.ltb_lt; lia).
        pose proof (Rm1 Logic.I) as Rm1'.
        assert (length ts <= 31) as Lts by (cbn [mlevels] in Rm1'; lia).
        replace (q_sp s + 1)%Z with (Z.of_nat (length ts)) by lia. rewrite usize_nat by lia.
        unfold set_unchecked. replace (length ts <? length (q_stack s)) with true by (symmetry; apply Nat.ltb_lt; lia).
        cbn [bind].
        destruct (IH fuel ltac:(lia) cur (S i) (MNode b q d0 d1 d2 d3 :: ts) c r
           (Mit (q_hit s) (q_cur s) (q_i s + 1) 0 (upd (q_stack s) (length ts) (Z.of_nat q)) (Z.of_nat (length ts))))
          as (ps & rs & c' & rf & E1 & E3); auto.
        { apply INV.
          - constructor; auto; [apply mstack_upd; auto|exact Logic.I|]. apply nth_error_upd_same. lia.
          - rewrite upd_length. auto.
          - cbn [length]. lia.
          - cbn [length]. auto. }
        { unfold mmu. cbn [q_hit]. unfold list_sum in *. cbn [map fold_right] in *. lia. }
        exists ps, rs, c', rf. split; [exact E1|]. cbn [q_hit] in E3. rewrite <- E3.
        unfold qresume, pending. cbn [filter a_leaf a_node rev]. rewrite <- !app_assoc. cbn [app]. reflexivity.
  Qed.

  Lemma qinit_walk : forall t fuel c r,
    is_mnode t -> m_idx t = 0 -> mrepr mnodes t -> mlevels t <= 11 -> Forall (leaf_in indices) (mleaves t) ->
    mweight t <= fuel ->
    exists ps rs c' rf, run fuel c r (mbvh_init R inter mnodes r) = Ok (ps, rs, c') /\ Q t (c, r) = (ps, (c', rf)).
  Proof.
    intros t fuel c r N T0 Rp L F Fu.
    destruct (okm_node mnodes indices t N (conj Rp F)) as (m & E & Sl & _ & _).
    pose proof E as E'. rewrite T0 in E.
    unfold mbvh_init.
    assert (match mnodes with [] => hit_default | n :: _ => inter n r end = inter m r) as ->.
    { destruct mnodes; [discriminate|]. injection E as ->. reflexivity. }
    set (s := Mit (inter m r) 0 0 0 (repeat 0%Z 32) (-1)).
    destruct (qrun_walk fuel t 0 [] c r s) as (ps & rs & c' & rf & E1 & E3).
    - unfold MbvhProofs.minv. cbn [s q_hit q_cur q_i q_stack q_sp]. rewrite T0.
      repeat split; auto; try lia; try constructor. apply todo_room; auto. simpl. lia.
    - reflexivity.
    - unfold mmu. cbn [s q_hit]. pose proof (todo_weight mnodes indices t (inter m r) (inter_ids m r) N).
      unfold list_sum at 2. cbn [map fold_right]. destruct t; try contradiction. cbn [mweight] in *. lia.
    - exists ps, rs, c', rf. split; [exact E1|]. unfold qresume in E3. cbn [s q_hit] in E3. rewrite app_nil_r in E3.
      rewrite <- E3. apply fresh_walk; auto.
  Qed.
End Quad.
