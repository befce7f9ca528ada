(** * Iterating over primitives and over their ids *)
Require Import List ZArith Bool Lia Arith Permutation.
From Verif Require Import F32 Vec RayModel Base AabbModel NodeModel IterModel MbvhModel.
Import ListNotations.

Lemma in_unchecked : forall A (l : list A) i x, get_unchecked l i = Ok x -> In x l.
Proof. intros A l i x H. unfold get_unchecked in H. destruct (nth_error l i) eqn:E; [|discriminate]. injection H as <-. eapply nth_error_In; eauto. Qed.

Section Same.
  Variables (f g : nat -> bool) (indices : list nat).
  Hypothesis Hfg : forall p, In p indices -> f p = g p.

  Lemma bvh_turn_same : forall R V inter closer nodes r s,
    bvh_turn R V inter closer f nodes indices r s = bvh_turn R V inter closer g nodes indices r s.
  Proof.
    intros. unfold bvh_turn. destruct (b_sp s <? 0)%Z; [reflexivity|].
    destruct (get_unchecked (b_stack s) _) as [top| | |]; try reflexivity. cbn [bind].
    destruct (get_unchecked nodes _) as [n| | |]; try reflexivity. cbn [bind].
    destruct (count_unchecked n >? -1)%Z; [|reflexivity]. destruct (b_i s <? count_unchecked n)%Z; [|reflexivity].
    destruct (get_unchecked indices _) as [prim| | |] eqn:E; try reflexivity. cbn [bind]. rewrite (Hfg prim (in_unchecked _ _ _ _ E)). reflexivity.
  Qed.
  Lemma bvh_run_same : forall R V inter closer nodes C client fuel c r s,
    bvh_run R V inter closer f nodes indices C client fuel c r s = bvh_run R V inter closer g nodes indices C client fuel c r s.
  Proof.
    intros R V inter closer nodes C client fuel. induction fuel as [|k IH]; intros c r s; [reflexivity|].
    cbn [bvh_run]. rewrite bvh_turn_same. destruct (bvh_turn _ _ _ _ g _ _ _ _) as [[[p| |] s']| | |]; try reflexivity; cbn [bind]; [|apply IH].
    destruct (client c p r) as [c' r']. rewrite IH. reflexivity.
  Qed.
  Lemma mbvh_turn_same : forall R inter ms r s,
    mbvh_turn R inter f ms indices r s = mbvh_turn R inter g ms indices r s.
  Proof.
    intros. unfold mbvh_turn.
    destruct (get_unchecked ms _) as [n| | |]; try reflexivity. cbn [bind].
    destruct (q_i s >=? 4)%Z; [reflexivity|].
    destruct (get_unchecked (h_ids _) _) as [id| | |]; try reflexivity. cbn [bind].
    destruct (mget _ id); [|reflexivity].
    destruct (_ >? -1)%Z; [|reflexivity]. destruct (q_j s <? _)%Z; [|reflexivity].
    destruct (get_unchecked indices _) as [prim| | |] eqn:E; try reflexivity. cbn [bind]. rewrite (Hfg prim (in_unchecked _ _ _ _ E)). reflexivity.
  Qed.
  Lemma mbvh_run_same : forall R inter ms C client fuel c r s,
    mbvh_run R inter f ms indices C client fuel c r s = mbvh_run R inter g ms indices C client fuel c r s.
  Proof.
    intros R inter ms C client fuel. induction fuel as [|k IH]; intros c r s; [reflexivity|].
    cbn [mbvh_run]. rewrite mbvh_turn_same. destruct (mbvh_turn _ _ g _ _ _ _) as [[[p| |] s']| | |]; try reflexivity; cbn [bind]; [|apply IH].
    destruct (client c p r) as [c' r']. rewrite IH. reflexivity.
  Qed.
End Same.
