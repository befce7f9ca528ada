(** * The task runner runs every task once, joins everything and terminates *)
Require Import List Arith Lia Permutation.
From Verif Require Import Base SpawnModel.
Import ListNotations.

Lemma upd_mid : forall A (l : list A) j x, nth_error l j = Some x ->
  exists l1 l2, l = l1 ++ x :: l2 /\ length l1 = j /\ forall y, upd l j y = l1 ++ y :: l2.
Proof.
  intros A l; induction l as [|h t IH]; intros [|j] x E; simpl in E; try discriminate.
  - injection E as ->. exists [], t. auto.
  - destruct (IH j x E) as (l1 & l2 & -> & <- & H). exists (h :: l1), l2. simpl. repeat split; auto.
    intro y. rewrite H. auto.
Qed.

Section S.
  Variables (task mem prg : Type).
  Variable start : task -> prg.
  Variable work_size : task -> nat.
  Variable pstep : prg -> mem -> pres task mem prg.
  Variable threshold : nat.
  Notation thread := (thread task prg).
  Notation state := (state task mem prg).
  Notation step := (step start work_size pstep threshold).
  Notation steps := (steps start work_size pstep threshold).
  Notation reachable := (reachable start work_size pstep threshold).

  (** Tasks waiting on stacks, tasks being run. *)
  Definition waiting (ths : list thread) : list task := flat_map t_stack ths.
  Definition running (ths : list thread) : list task :=
    flat_map (fun th => match t_cur th with Some (t, _) => [t] | None => [] end) ths.

  Lemma flat_map_mid : forall A B (f : A -> list B) l1 x l2,
    Permutation (flat_map f (l1 ++ x :: l2)) (f x ++ flat_map f (l1 ++ l2)).
  Proof.
    intros A B f l1 x l2. rewrite !flat_map_app. simpl. apply Permutation_app_swap_app.
  Qed.

  Lemma ordered_perm : forall a b a' b', ordered work_size a b = (a', b') -> Permutation [a; b] [a'; b'].
  Proof.
    intros a b a' b' E. unfold ordered in E. destruct (work_size a <? work_size b); injection E as <- <-;
      [apply perm_swap|apply Permutation_refl].
  Qed.

  Definition conserved (first : task) (s : state) : Prop :=
    Permutation (started_tasks (s_trace s) ++ waiting (s_threads s)) (first :: new_tasks (s_trace s)) /\
    Permutation (started_tasks (s_trace s)) (ended_tasks (s_trace s) ++ running (s_threads s)).

  Lemma step_conserved : forall first s s', conserved first s -> step s s' -> conserved first s'.
  Proof.
    intros first s s' [C1 C2] St.
    assert (forall (tr : list (event task)) e, started_tasks (tr ++ [e]) = started_tasks tr ++ started_tasks [e]) as A1
      by (intros; apply flat_map_app).
    assert (forall (tr : list (event task)) e, ended_tasks (tr ++ [e]) = ended_tasks tr ++ ended_tasks [e]) as A2
      by (intros; apply flat_map_app).
    assert (forall (tr : list (event task)) e, new_tasks (tr ++ [e]) = new_tasks tr ++ new_tasks [e]) as A3
      by (intros; apply flat_map_app).
    inversion St; subst; clear St; unfold conserved in *; cbn [s_mem s_threads s_trace] in *;
      (destruct (upd_mid _ _ _ _ H) as (l1 & l2 & -> & Hl & ->)).
    all: rewrite ?A1, ?A2, ?A3; unfold waiting, running in *.
    all: set (ws := flat_map t_stack (l1 ++ l2)); set (rs := flat_map (fun th : thread => match t_cur th with Some (t, _) => [t] | None => [] end) (l1 ++ l2)).
    all: assert (forall x : thread, Permutation (flat_map t_stack (l1 ++ x :: l2)) (t_stack x ++ ws)) as W by (intro; apply flat_map_mid).
    all: assert (forall x : thread, Permutation (flat_map (fun th : thread => match t_cur th with Some (t, _) => [t] | None => [] end) (l1 ++ x :: l2))
      ((match t_cur x with Some (t, _) => [t] | None => [] end) ++ rs)) as R by (intro x; apply (flat_map_mid _ _ (fun th : thread => match t_cur th with Some (t, _) => [t] | None => [] end))).
    all: rewrite W in C1; rewrite R in C2; cbn [t_stack t_cur app] in *.
    - (* pop *) cbn [started_tasks ended_tasks new_tasks flat_map app]. rewrite ?app_nil_r. split.
      + rewrite W. cbn [t_stack]. rewrite <- C1. rewrite <- app_assoc. apply Permutation_refl.
      + rewrite R. cbn [t_cur app]. rewrite C2. rewrite Permutation_app_comm. simpl.
        apply Permutation_middle.
    - (* run *) split; [rewrite W; auto|rewrite R; auto].
    - (* none *) cbn [started_tasks ended_tasks new_tasks flat_map app]. rewrite ?app_nil_r. split.
      + rewrite W. auto.
      + rewrite R. cbn [t_cur app]. rewrite C2. rewrite <- app_assoc. auto.
    - (* push *) cbn [started_tasks ended_tasks new_tasks flat_map app]. rewrite ?app_nil_r. split.
      + rewrite W. cbn [t_stack].
        transitivity ([a'; b'] ++ (started_tasks tr ++ st ++ ws)).
        { change ((a' :: b' :: st) ++ ws) with ([a'; b'] ++ st ++ ws). apply Permutation_app_swap_app. }
        rewrite C1. rewrite <- (ordered_perm _ _ _ _ H1). rewrite Permutation_app_comm. simpl. auto.
      + rewrite R. cbn [t_cur app]. rewrite C2. rewrite <- app_assoc. auto.
    - (* spawn *) cbn [started_tasks ended_tasks new_tasks flat_map app]. rewrite ?app_nil_r. split.
      + rewrite flat_map_app. rewrite W. cbn [t_stack flat_map app].
        transitivity ([a'; b'] ++ (started_tasks tr ++ st ++ ws)).
        { rewrite (Permutation_app_comm _ [a']). cbn [app].
          transitivity ([b'; a'] ++ (started_tasks tr ++ st ++ ws)); [|apply perm_swap].
          rewrite <- Permutation_app_swap_app. apply Permutation_app_head. apply Permutation_refl. }
        rewrite C1. rewrite <- (ordered_perm _ _ _ _ H1). rewrite Permutation_app_comm. simpl. auto.
      + rewrite flat_map_app. rewrite R. cbn [t_cur app flat_map]. rewrite app_nil_r. rewrite C2. rewrite <- app_assoc. auto.
    - (* join *) split; [rewrite W; auto|rewrite R; auto].
  Qed.

  Theorem conservation : forall m first s, reachable (initial m first) s -> conserved first s.
  Proof.
    intros m first s R. induction R; [|eapply step_conserved; eauto].
    unfold conserved, waiting, running; simpl. auto.
  Qed.

  (** ** Joining *)
  Definition tree_inv (s : state) : Prop :=
    (forall j th k, nth_error (s_threads s) j = Some th -> In k (t_subs th) -> j < k < length (s_threads s)) /\
    (forall k, 0 < k < length (s_threads s) -> exists p thp thk, p < k /\ nth_error (s_threads s) p = Some thp /\
        nth_error (s_threads s) k = Some thk /\ (In k (t_subs thp) \/ finished thk)) /\
    0 < length (s_threads s).

  Lemma step_tree_upd : forall m m' ths tr tr' j th th',
    nth_error ths j = Some th -> t_subs th' = t_subs th -> ~ finished th ->
    tree_inv (St m ths tr) -> tree_inv (St m' (upd ths j th') tr').
  Proof.
    intros m m' ths tr tr' j th th' E Es Nf (I1 & I2 & I3). unfold tree_inv; cbn [s_threads] in *. rewrite upd_length.
    assert (j < length ths) as Lj by (apply nth_error_Some; congruence).
    split; [|split; auto].
    - intros i ti k Ei Ik. destruct (Nat.eq_dec i j) as [->|N].
      + rewrite nth_error_upd_same in Ei by auto. injection Ei as <-. rewrite Es in Ik. eapply I1; eauto.
      + rewrite nth_error_upd_other in Ei by auto. eapply I1; eauto.
    - intros k Hk. destruct (I2 k Hk) as (p & thp & thk & Lp & Ep & Ek & D).
      exists p, (if Nat.eq_dec p j then th' else thp), (if Nat.eq_dec k j then th' else thk).
      split; auto. split; [|split].
      + destruct (Nat.eq_dec p j) as [->|N]; [apply nth_error_upd_same; auto|rewrite nth_error_upd_other; auto].
      + destruct (Nat.eq_dec k j) as [->|N]; [apply nth_error_upd_same; auto|rewrite nth_error_upd_other; auto].
      + destruct D as [D|D].
        * left. destruct (Nat.eq_dec p j) as [->|N]; auto. rewrite Es. congruence.
        * right. destruct (Nat.eq_dec k j) as [->|N]; auto. congruence.
  Qed.

  Lemma step_tree : forall s s', tree_inv s -> step s s' -> tree_inv s'.
  Proof.
    intros s s' I St. inversion St; subst; clear St.
    1-4: eapply step_tree_upd; eauto; unfold finished; congruence.
    - (* spawn *) destruct I as (I1 & I2 & I3). unfold tree_inv; cbn [s_threads] in *.
      rewrite app_length, upd_length. simpl length.
      assert (j < length ths) as Lj by (apply nth_error_Some; congruence).
      assert (forall i, i < length ths -> nth_error (upd ths j (Th None (b' :: st) (length ths :: subs)) ++ [Th None [a'] []]) i =
         if Nat.eq_dec i j then Some (Th None (b' :: st) (length ths :: subs)) else nth_error ths i) as G.
      { intros i Li. rewrite nth_error_app1 by (rewrite upd_length; auto).
        destruct (Nat.eq_dec i j) as [->|N]; [apply nth_error_upd_same; auto|apply nth_error_upd_other; auto]. }
      assert (nth_error (upd ths j (Th None (b' :: st) (length ths :: subs)) ++ [Th None [a'] []]) (length ths) = Some (Th None [a'] [])) as Gl.
      { rewrite nth_error_app2 by (rewrite upd_length; auto). rewrite upd_length, Nat.sub_diag. auto. }
      split; [|split; [|lia]].
      + intros i ti k Ei Ik. destruct (Nat.lt_ge_cases i (length ths)) as [Li|Li].
        * rewrite G in Ei by auto. destruct (Nat.eq_dec i j) as [->|N].
          -- injection Ei as <-. cbn [t_subs] in Ik. destruct Ik as [<-|Ik]; [lia|]. specialize (I1 j _ k H Ik). lia.
          -- specialize (I1 i ti k Ei Ik). lia.
        * assert (i = length ths) as ->.
          { assert (i < length ths + 1) as Li' by (rewrite <- (upd_length ths j (Th None (b' :: st) (length ths :: subs)));
              replace 1 with (length [Th (prg := prg) None [a'] []]) by auto; rewrite <- app_length; apply nth_error_Some; congruence). lia. }
          rewrite Gl in Ei. injection Ei as <-. destruct Ik.
      + intros k Hk. destruct (Nat.eq_dec k (length ths)) as [->|Nk].
        * exists j, (Th None (b' :: st) (length ths :: subs)), (Th None [a'] []). split; auto. split.
          -- rewrite G by auto. destruct (Nat.eq_dec j j); congruence.
          -- split; auto. left. simpl; auto.
        * destruct (I2 k ltac:(lia)) as (q & thp & thk & Lp & Ep & Ek & D).
          exists q, (if Nat.eq_dec q j then Th None (b' :: st) (length ths :: subs) else thp),
            (if Nat.eq_dec k j then Th None (b' :: st) (length ths :: subs) else thk).
          split; auto. split; [rewrite G by lia; destruct (Nat.eq_dec q j); auto|].
          split; [rewrite G by lia; destruct (Nat.eq_dec k j); auto|].
          destruct D as [D|D].
          -- left. destruct (Nat.eq_dec q j) as [->|N]; auto. rewrite H in Ep. injection Ep as <-. simpl. auto.
          -- right. destruct (Nat.eq_dec k j) as [->|N]; auto. rewrite H in Ek. injection Ek as <-. discriminate.
    - (* join *) destruct I as (I1 & I2 & I3). unfold tree_inv; cbn [s_threads] in *. rewrite upd_length.
      assert (j < length ths) as Lj by (apply nth_error_Some; congruence).
      split; [|split; auto].
      + intros i ti q Ei Iq. destruct (Nat.eq_dec i j) as [->|N].
        * rewrite nth_error_upd_same in Ei by auto. injection Ei as <-. apply (I1 j _ q H). simpl; auto.
        * rewrite nth_error_upd_other in Ei by auto. eapply I1; eauto.
      + intros q Hq. destruct (I2 q Hq) as (p & thp & thk & Lp & Ep & Ek & D).
        exists p, (if Nat.eq_dec p j then Th None [] subs else thp), (if Nat.eq_dec q j then Th None [] subs else thk).
        split; auto. split; [|split].
        * destruct (Nat.eq_dec p j) as [->|N]; [apply nth_error_upd_same; auto|rewrite nth_error_upd_other; auto].
        * destruct (Nat.eq_dec q j) as [->|N]; [apply nth_error_upd_same; auto|rewrite nth_error_upd_other; auto].
        * destruct D as [D|D].
          -- destruct (Nat.eq_dec p j) as [->|N]; auto. rewrite H in Ep. injection Ep as <-. cbn [t_subs] in D.
             destruct D as [<-|D]; [|left; auto].
             right. destruct (Nat.eq_dec k j) as [->|N]; [lia|]. rewrite H0 in Ek. injection Ek as <-. reflexivity.
          -- right. destruct (Nat.eq_dec q j) as [->|N]; auto. rewrite H in Ek. injection Ek as <-. discriminate.
  Qed.

  Lemma reach_tree : forall m first s, reachable (initial m first) s -> tree_inv s.
  Proof.
    intros m first s R. induction R; [|eapply step_tree; eauto].
    unfold tree_inv, initial; simpl. split; [|split; [intros; lia|lia]].
    intros [|[|j]] th k E I; try discriminate. injection E as <-. destruct I.
  Qed.

  (** When the first thread is done all threads are. *)
  Theorem returned_all : forall m first s, reachable (initial m first) s -> returned s -> Forall finished (s_threads s).
  Proof.
    intros m first s R (t0 & E0 & F0). destruct (reach_tree _ _ _ R) as (I1 & I2 & I3).
    assert (forall k th, nth_error (s_threads s) k = Some th -> finished th) as G.
    { intro k. induction k as [k IH] using lt_wf_ind. intros th E.
      destruct (Nat.eq_dec k 0) as [->|N]; [congruence|].
      destruct (I2 k) as (p & thp & thk & Lp & Ep & Ek & D); [split; [lia|apply nth_error_Some; congruence]|].
      rewrite E in Ek. injection Ek as <-. destruct D as [D|D]; auto.
      rewrite (IH p Lp thp Ep) in D. destruct D. }
    apply Forall_forall. intros th I. apply In_nth_error in I as [k E]. eauto.
  Qed.

  Theorem returned_trace : forall m first s, reachable (initial m first) s -> returned s ->
    Permutation (started_tasks (s_trace s)) (first :: new_tasks (s_trace s)) /\
    Permutation (ended_tasks (s_trace s)) (first :: new_tasks (s_trace s)).
  Proof.
    intros m first s R Rt. pose proof (returned_all _ _ _ R Rt) as F. destruct (conservation _ _ _ R) as [C1 C2].
    assert (waiting (s_threads s) = [] /\ running (s_threads s) = []) as [W Rn].
    { unfold waiting, running. clear - F. induction F as [|th l E F IH]; auto. simpl. rewrite E. simpl. auto. }
    rewrite W, app_nil_r in C1. rewrite Rn, app_nil_r in C2. split; auto. rewrite <- C2. auto.
  Qed.

  (** ** Progress *)
  Definition fin_b (t : thread) : bool := match t with Th None [] [] => true | _ => false end.
  Lemma fin_b_spec : forall t, fin_b t = true <-> finished t.
  Proof. intros [[[]|] [|] [|]]; unfold finished; simpl; split; congruence. Qed.

  Lemma last_unfinished : forall ths : list thread, (exists th, In th ths /\ ~ finished th) ->
    exists j th, nth_error ths j = Some th /\ ~ finished th /\
      forall k th', j < k -> nth_error ths k = Some th' -> finished th'.
  Proof.
    induction ths as [|x ths IH] using rev_ind; intros (th & I & N); [destruct I|].
    destruct (fin_b x) eqn:Fx.
    - apply fin_b_spec in Fx. destruct IH as (j & tj & Ej & Nj & H).
      { exists th. apply in_app_or in I as [I|[<-|[]]]; [auto|contradiction]. }
      exists j, tj. assert (j < length ths) as Lj by (apply nth_error_Some; congruence).
      split; [rewrite nth_error_app1; auto|]. split; auto.
      intros k th' L E. destruct (Nat.lt_ge_cases k (length ths)) as [C|C].
      + rewrite nth_error_app1 in E by auto. eapply H; eauto.
      + rewrite nth_error_app2 in E by auto. destruct (k - length ths) as [|q]; simpl in E; [congruence|destruct q; discriminate].
    - exists (length ths), x. split; [rewrite nth_error_app2, Nat.sub_diag by auto; auto|]. split.
      + intro F. apply fin_b_spec in F. congruence.
      + intros k th' L E. rewrite nth_error_app2 in E by lia. destruct (k - length ths) as [|q] eqn:Q; [lia|]. destruct q; discriminate.
  Qed.

  Theorem progress : forall m first s, reachable (initial m first) s ->
    returned s \/ crashes pstep s \/ exists s', step s s'.
  Proof.
    intros m0 first s R. pose proof (reach_tree _ _ _ R) as I.
    destruct s as [m ths tr]. cbn [s_threads s_mem] in *.
    destruct I as (I1 & I2 & I3). cbn [s_threads] in *.
    destruct (nth_error ths 0) as [t0|] eqn:E0; [|apply nth_error_None in E0; lia].
    destruct (fin_b t0) eqn:F0; [left; exists t0; split; auto; apply fin_b_spec; auto|]. right.
    destruct (last_unfinished ths) as (j & th & Ej & Nj & H).
    { exists t0. split; [eapply nth_error_In; eauto|]. intro F. apply fin_b_spec in F. congruence. }
    destruct th as [[[t p]|] st subs].
    - destruct (pstep p m) as [p' m'|[[a b]|]|] eqn:Ep.
      + right. eexists. eapply step_run; eauto.
      + right. destruct (ordered work_size a b) as [a' b'] eqn:Eo.
        destruct (Nat.le_gt_cases (work_size a') threshold) as [L|L]; eexists.
        * eapply step_push; eauto.
        * eapply step_spawn; eauto.
      + right. eexists. eapply step_none; eauto.
      + left. exists j, t, p, st, subs. auto.
    - destruct st as [|t st].
      + destruct subs as [|k subs]; [exfalso; apply Nj; reflexivity|].
        destruct (I1 j _ k Ej) as [L1 L2]; [simpl; auto|].
        destruct (nth_error ths k) as [thk|] eqn:Ek; [|apply nth_error_None in Ek; lia].
        right. eexists. eapply step_join; eauto. rewrite Ek. f_equal. eapply H; eauto.
      + right. eexists. eapply step_pop; eauto.
  Qed.

  (** ** Termination *)
  Section Potential.
    (** [pot t] pays for running [t] and everything it leads to; [E p e]: [e]
        pays for the rest of [p] and everything it leads to. *)
    Variable pot : task -> nat.
    Variable E : prg -> nat -> Prop.
    Definition pays : Prop :=
      (forall t, exists e, E (start t) e /\ e < pot t) /\
      (forall p e m p' m', E p e -> pstep p m = PStep p' m' -> exists e', E p' e' /\ e' < e) /\
      (forall p e m, E p e -> pstep p m = PDone None -> 0 < e) /\
      (forall p e m a b, E p e -> pstep p m = PDone (Some (a, b)) -> pot a + pot b + 1 < e).

    Inductive en_thread : thread -> nat -> Prop :=
    | en_cur : forall t p st subs e, E p e -> en_thread (Th (Some (t, p)) st subs) (e + list_sum (map pot st) + length subs)
    | en_idle : forall st subs, en_thread (Th None st subs) (list_sum (map pot st) + length subs).
    Definition energy (s : state) (e : nat) : Prop :=
      exists es, Forall2 en_thread (s_threads s) es /\ list_sum es = e.

    Lemma Forall2_mid : forall A B (P : A -> B -> Prop) l1 x l2 es, Forall2 P (l1 ++ x :: l2) es ->
      exists e1 e e2, es = e1 ++ e :: e2 /\ P x e /\ forall y e', P y e' -> Forall2 P (l1 ++ y :: l2) (e1 ++ e' :: e2).
    Proof.
      intros A B P l1 x l2 es F. apply Forall2_app_inv_l in F as (e1 & er & F1 & F2 & ->).
      inversion F2; subst. exists e1, y, l'. repeat split; auto. intros. apply Forall2_app; auto.
    Qed.

    Lemma step_energy : pays -> forall s s' e, energy s e -> step s s' -> exists e', energy s' e' /\ e' < e.
    Proof.
      intros (P1 & P2 & P3 & P4) s s' e (es & F & <-) St. inversion St; subst; clear St; cbn [s_threads] in *;
        (destruct (upd_mid _ _ _ _ H) as (l1 & l2 & -> & Hl & Hu)); rewrite Hu;
        (destruct (Forall2_mid _ _ _ _ _ _ _ F) as (e1 & ex & e2 & -> & Px & Fn)); inversion Px; subst; clear Px.
      - destruct (P1 t) as (e & He & Le). eexists. split; [eexists; split; [apply Fn, en_cur, He|reflexivity]|].
        rewrite !list_sum_app. simpl. lia.
      - match goal with HE : E p _ |- _ => destruct (P2 _ _ _ _ _ HE H0) as (e' & He & Le) end. eexists. split; [eexists; split; [apply Fn, en_cur, He|reflexivity]|].
        rewrite !list_sum_app. simpl. lia.
      - match goal with HE : E p _ |- _ => pose proof (P3 _ _ _ HE H0) end. eexists. split; [eexists; split; [apply Fn, en_idle|reflexivity]|].
        rewrite !list_sum_app. simpl. lia.
      - match goal with HE : E p _ |- _ => pose proof (P4 _ _ _ _ _ HE H0) as L end. eexists. split; [eexists; split; [apply Fn, en_idle|reflexivity]|].
        rewrite !list_sum_app. simpl. unfold ordered in H1. destruct (work_size a <? work_size b); injection H1 as <- <-; lia.
      - match goal with HE : E p _ |- _ => pose proof (P4 _ _ _ _ _ HE H0) as L end.
        eexists. split; [eexists; split; [apply Forall2_app; [apply Fn, en_idle|constructor; [apply en_idle|constructor]]|reflexivity]|].
        rewrite !list_sum_app. simpl. unfold ordered in H1. destruct (work_size a <? work_size b); injection H1 as <- <-; simpl; lia.
      - eexists. split; [eexists; split; [apply Fn, en_idle|reflexivity]|].
        rewrite !list_sum_app. simpl. lia.
    Qed.

    Lemma steps_energy : pays -> forall n s s' e, energy s e -> steps n s s' -> exists e', energy s' e' /\ e' + n <= e.
    Proof.
      intros P n s s' e En St. revert e En. induction St as [s|n s s1 s2 S1 S2 IH]; intros e En.
      - exists e. split; auto. lia.
      - destruct (step_energy P _ _ _ En S1) as (e1 & E1 & L1). destruct (IH e1 E1) as (e2 & E2 & L2).
        exists e2. split; auto. lia.
    Qed.

    Theorem bounded_steps : pays -> forall m first n s, steps n (initial m first) s -> n <= pot first.
    Proof.
      intros P m first n s St.
      assert (energy (initial m first) (pot first)) as E0.
      { exists [list_sum (map pot [first]) + length (@nil nat)]. split; [constructor; [apply en_idle|constructor]|simpl; lia]. }
      destruct (steps_energy P n _ _ _ E0 St) as (e & _ & L). lia.
    Qed.
  End Potential.

  Lemma steps_reach : forall n s0 s s', reachable s0 s -> steps n s s' -> reachable s0 s'.
  Proof. intros n s0 s s' R St. induction St; auto. apply IHSt. eapply reach_step; eauto. Qed.
  Lemma steps_snoc : forall n s s' s'', steps n s s' -> step s' s'' -> steps (S n) s s''.
  Proof. intros n s s' s'' St. induction St; intro T; [eapply steps_S; eauto; constructor|eapply steps_S; eauto]. Qed.
  Lemma reach_steps : forall s0 s, reachable s0 s -> exists n, steps n s0 s.
  Proof. intros s0 s R. induction R as [|s s' R (n & St) S1]; [exists 0; constructor|]. exists (S n). eapply steps_snoc; eauto. Qed.
  Lemma steps_trans : forall a b s s' s'', steps a s s' -> steps b s' s'' -> steps (a + b) s s''.
  Proof. intros a b s s' s'' St. induction St; intros; auto. simpl. eapply steps_S; eauto. Qed.

  (** From every reachable state execution can be, and always is, completed. *)
  Theorem completes : forall pot E, pays pot E -> forall m first s, reachable (initial m first) s ->
    exists n s', steps n s s' /\ (returned s' \/ crashes pstep s').
  Proof.
    intros pot E P m first s R. destruct (reach_steps _ _ R) as (k & Sk).
    assert (forall d s k, steps k (initial m first) s -> pot first < k + d ->
      exists n s', steps n s s' /\ (returned s' \/ crashes pstep s')) as G.
    { induction d as [|d IH]; intros s1 k1 S1 L.
      - pose proof (bounded_steps pot E P _ _ _ _ S1). lia.
      - destruct (progress m first s1) as [Rt|[Cr|(s2 & S2)]].
        + eapply steps_reach; [constructor|eauto].
        + exists 0, s1. split; [constructor|auto].
        + exists 0, s1. split; [constructor|auto].
        + destruct (IH s2 (S k1)) as (n & s' & Sn & D); [eapply steps_snoc; eauto|lia|].
          exists (S n), s'. split; auto. eapply steps_S; eauto. }
    apply (G (S (pot first)) s k Sk). lia.
  Qed.

  (** The example scheduler only takes steps of the semantics. *)
  Lemma try_thread_step : forall s j s', try_thread task mem prg start work_size pstep threshold s j = Some s' -> step s s'.
  Proof.
    intros [m ths tr] j s' E. unfold try_thread in E.
    destruct (nth_error ths j) as [[[[t p]|] st subs]|] eqn:Ej; [| |discriminate].
    - destruct (pstep p m) as [p' m'|[[a b]|]|] eqn:Ep.
      + injection E as <-. eapply step_run; eauto.
      + destruct (ordered work_size a b) as [a' b'] eqn:Eo. destruct (Nat.leb_spec (work_size a') threshold) as [L|L]; injection E as <-.
        * eapply step_push; eauto.
        * eapply step_spawn; eauto.
      + injection E as <-. eapply step_none; eauto.
      + discriminate.
    - destruct st as [|t st].
      + destruct subs as [|k subs]; [discriminate|].
        destruct (nth_error ths k) as [[[|] [|] [|]]|] eqn:Ek; try discriminate. injection E as <-. eapply step_join; eauto.
      + injection E as <-. eapply step_pop; eauto.
  Qed.
  Lemma first_step_step : forall js s s', first_step task mem prg start work_size pstep threshold s js = Some s' -> step s s'.
  Proof.
    induction js as [|j js IH]; intros s s' E; simpl in E; [discriminate|].
    destruct (try_thread task mem prg start work_size pstep threshold s j) as [s1|] eqn:T.
    - injection E as <-. eapply try_thread_step; eauto.
    - eauto.
  Qed.
  Theorem run_first_reach : forall fuel s0 s, reachable s0 s -> reachable s0 (run_first start work_size pstep threshold fuel s).
  Proof.
    induction fuel as [|fuel IH]; intros s0 s R; simpl; auto.
    destruct (first_step task mem prg start work_size pstep threshold s (seq 0 (length (s_threads s)))) as [s'|] eqn:F; auto.
    apply IH. eapply reach_step; eauto. eapply first_step_step; eauto.
  Qed.
End S.
