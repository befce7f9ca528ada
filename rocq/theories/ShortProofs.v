(** * Primitive slices that are too short (C30): binary iterators

    The run over a slice in which some primitives are missing is compared,
    turn by turn, with the run of the index iterator. *)
Require Import List ZArith Bool Lia.
From Verif Require Import Base AabbModel NodeModel IterModel.
Import ListNotations.
Local Open Scope Z_scope.

Section Short.
  Variable R H : Type.
  Variable inter : node -> R -> option H.
  Variable closer : H -> H -> bool.
  Variable found : nat -> bool.
  Variable nodes : list node.
  Variable indices : list nat.
  Variable C : Type.
  Variable client : C -> nat -> R -> C * R.
  Notation turn_of f := (bvh_turn R H inter closer f nodes indices).
  Notation run f := (bvh_run R H inter closer f nodes indices C client).
  Notation all := (fun _ : nat => true).

  (** The node on top of the stack is the leaf [n]. *)
  Definition on_leaf (s : bit) (n : node) : Prop :=
    (b_sp s <? 0) = false /\ exists top, get_unchecked (b_stack s) (as_usize (b_sp s)) = Ok top /\
      get_unchecked nodes (as_usize top) = Ok n /\ (count_unchecked n >? -1) = true.
  Definition at_pos (n : node) (j : Z) (p : nat) : Prop :=
    get_unchecked indices (as_usize (left_first_unchecked n + j)) = Ok p.

  (** In the middle of a leaf, the positions before the next one were read. *)
  Definition lock (s : bit) : Prop :=
    0 <= b_i s /\ (0 < b_i s -> exists n, on_leaf s n /\ forall j, 0 <= j < b_i s -> exists p, at_pos n j p).

  Lemma leaf_turn : forall f r s n p, on_leaf s n -> b_i s < count_unchecked n -> at_pos n (b_i s) p ->
    turn_of f r s = Ok (if f p then (Yield p, Bit (b_i s + 1) (b_stack s) (b_sp s))
                        else (Again, Bit 0 (b_stack s) (b_sp s))).
  Proof.
    intros f r s n p (Sp & top & E1 & E2 & Ct) Li A. unfold bvh_turn. rewrite Sp, E1. cbn [bind]. rewrite E2. cbn [bind].
    rewrite Ct. replace (b_i s <? count_unchecked n) with true by (symmetry; apply Z.ltb_lt; lia).
    unfold at_pos in A. rewrite A. cbn [bind]. replace (b_sp s - 1 + 1) with (b_sp s) by lia. destruct (f p); reflexivity.
  Qed.

  (** A missing primitive: the leaf is restarted for ever. *)
  Lemma stuck : forall f c r s n j p, on_leaf s n -> 0 <= b_i s <= j -> j < count_unchecked n ->
    (forall k, 0 <= k <= j -> exists q, at_pos n k q) -> at_pos n j p -> found p = false ->
    run found f c r s = OutOfFuel.
  Proof.
    induction f as [|f IH]; intros c r s n j p L I J A P F; [reflexivity|]. cbn [bvh_run].
    destruct (A (b_i s) ltac:(lia)) as (q & Q). rewrite (leaf_turn found r s n q L ltac:(lia) Q).
    destruct (found q) eqn:Fq; cbn [bind].
    - destruct (client c q r) as [c' r']. rewrite (IH c' r' _ n j p); auto.
      cbn [b_i]. destruct (Z.eq_dec (b_i s) j) as [E|E]; [|lia].
      rewrite E in Q. unfold at_pos in *. congruence.
    - apply (IH c r _ n j p); auto. cbn [b_i]. lia.
  Qed.

  Lemma turn_cases : forall r s t s', turn_of all r s = Ok (t, s') -> lock s ->
    (exists n p, t = Yield p /\ on_leaf s n /\ b_i s < count_unchecked n /\ at_pos n (b_i s) p /\ s' = Bit (b_i s + 1) (b_stack s) (b_sp s)) \/
    (turn_of found r s = Ok (t, s') /\ (forall p, t <> Yield p) /\ lock s').
  Proof.
    intros r s t s' E L.
    assert (forall stack sp, lock (Bit 0 stack sp)) as L0 by (intros; split; cbn [b_i]; lia).
    unfold bvh_turn in E |- *.
    destruct (b_sp s <? 0) eqn:Sp.
    { injection E as <- <-. right. split; auto. split; [discriminate|auto]. }
    destruct (get_unchecked (b_stack s) (as_usize (b_sp s))) as [top| | |] eqn:E1; try discriminate. cbn [bind] in E |- *.
    destruct (get_unchecked nodes (as_usize top)) as [n| | |] eqn:E2; try discriminate. cbn [bind] in E |- *.
    destruct (count_unchecked n >? -1) eqn:Ct.
    - destruct (b_i s <? count_unchecked n) eqn:Li.
      + destruct (get_unchecked indices _) as [p| | |] eqn:Ep; try discriminate. cbn [bind] in E.
        injection E as <- <-. left. exists n, p. split; auto. split; [split; eauto|]. split; [apply Z.ltb_lt; auto|]. split; [exact Ep|].
        f_equal. lia.
      + injection E as <- <-. right. split; auto. split; [discriminate|auto].
    - assert (b_i s = 0) as I0.
      { destruct L as (I & L). destruct (Z.eq_dec (b_i s) 0); auto. destruct (L ltac:(lia)) as (m & (_ & top' & A1 & A2 & A3) & _). congruence. }
      right. destruct (left_first_unchecked n >? -1).
      + destruct (get_unchecked nodes (as_usize (left_first_unchecked n))) as [nl| | |]; try discriminate. cbn [bind] in E |- *.
        destruct (get_unchecked nodes (as_usize (left_first_unchecked n + 1))) as [nr| | |]; try discriminate. cbn [bind] in E |- *.
        match type of E with (do _ <- ?x; _) = _ => destruct x as [[stk sp]| | |] end; try discriminate. cbn [bind] in E |- *.
        injection E as <- <-. split; auto. split; [discriminate|]. rewrite I0. auto.
      + injection E as <- <-. split; auto. split; [discriminate|]. rewrite I0. auto.
  Qed.

  (** The whole run: as the index iterator's if all ids it yields are there,
      otherwise without end (and without panic). *)
  Lemma short_run : forall f c r s ps rs c', lock s -> run all f c r s = Ok (ps, rs, c') ->
    (Forall (fun p => found p = true) ps -> run found f c r s = Ok (ps, rs, c')) /\
    (~ Forall (fun p => found p = true) ps -> forall g, run found g c r s = OutOfFuel).
  Proof.
    induction f as [|f IH]; intros c r s ps rs c' L E; [discriminate|]. cbn [bvh_run] in E.
    destruct (turn_of all r s) as [[t s']| | |] eqn:Et; try discriminate. cbn [bind] in E.
    destruct (turn_cases _ _ _ _ Et L) as [(n & p & -> & On & Li & At & ->)|(Et' & Ny & L')].
    - destruct (client c p r) as [c1 r1] eqn:Ec.
      destruct (run all f c1 r1 _) as [[[ps1 rs1] c2]| | |] eqn:E1; try discriminate. cbn [bind] in E. injection E as <- <- <-.
      assert (lock (Bit (b_i s + 1) (b_stack s) (b_sp s))) as L1.
      { destruct L as (I & L). split; cbn [b_i]; [lia|]. intros _. exists n. split; [exact On|]. intros j Hj.
        destruct (Z.eq_dec j (b_i s)) as [->|Nj]; [eauto|]. destruct (L ltac:(lia)) as (m & (_ & top & A1 & A2 & _) & Hm).
        destruct On as (_ & top' & B1 & B2 & _). assert (top = top') by congruence. subst top'. assert (m = n) by congruence. subst m.
        apply Hm. lia. }
      destruct (IH _ _ _ _ _ _ L1 E1) as [H1 H2].
      split; intro F.
      + inversion F; subst. cbn [bvh_run]. rewrite (leaf_turn found r s n p) by auto.
        replace (found p) with true by auto. cbn [bind]. rewrite Ec, H1 by auto. reflexivity.
      + destruct (found p) eqn:Fp.
        * intros [|g]; [reflexivity|]. cbn [bvh_run]. rewrite (leaf_turn found r s n p) by auto. rewrite Fp. cbn [bind].
          rewrite Ec. rewrite H2 by (intro; apply F; constructor; auto). reflexivity.
        * intro g. apply (stuck g c r s n (b_i s) p); auto; [destruct L; lia|].
          intros k Hk. destruct (Z.eq_dec k (b_i s)) as [->|Nk]; [eauto|]. destruct L as (I & L).
          destruct (L ltac:(lia)) as (m & (_ & top & A1 & A2 & _) & Hm).
          destruct On as (_ & top' & B1 & B2 & _). assert (top = top') by congruence. subst top'. assert (m = n) by congruence. subst m.
          apply Hm. lia.
    - destruct t as [p| |]; [exfalso; apply (Ny p); auto| |].
      + destruct (IH _ _ _ _ _ _ L' E) as [H1 H2]. split; intro F.
        * cbn [bvh_run]. rewrite Et'. cbn [bind]. apply H1; auto.
        * intros [|g]; [reflexivity|]. cbn [bvh_run]. rewrite Et'. cbn [bind]. apply H2; auto.
      + injection E as <- <- <-. split; intro F; [|exfalso; apply F; constructor].
        cbn [bvh_run]. rewrite Et'. reflexivity.
  Qed.

  Lemma lock_init : forall a, lock (bvh_init a).
  Proof. intro a. split; cbn; lia. Qed.
End Short.
