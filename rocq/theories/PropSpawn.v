(** * C17: the parallel task runner *)
Require Import List Arith Lia Permutation.
From Verif Require Import Base SpawnModel SpawnProofs.
Import ListNotations.

Section S.
  Variables (task mem prg : Type).
  Variable start : task -> prg.
  Variable work_size : task -> nat.
  Variable pstep : prg -> mem -> pres task mem prg.
  Variable threshold : nat.
  Notation reachable := (reachable start work_size pstep threshold).
  Notation step := (step start work_size pstep threshold).

  Lemma trace_order : forall m first s, reachable (initial m first) s ->
    forall before t after,
      (s_trace s = before ++ Started t :: after ->
         exists rest, Permutation ((t :: started_tasks before) ++ rest) (first :: new_tasks before)) /\
      (forall r, s_trace s = before ++ Ended t r :: after ->
         exists rest, Permutation ((t :: ended_tasks before) ++ rest) (started_tasks before)).
  Proof.
    intros m first s R. induction R as [|s s' R IH St].
    - intros [|? ?] t after; split; intros; discriminate.
    - pose proof (conservation _ _ _ _ _ _ _ _ _ _ (reach_step _ _ _ _ _ _ _ _ _ _ R St)) as [C1 _].
      pose proof (conservation _ _ _ _ _ _ _ _ _ _ R) as [_ C2].
      assert (forall (A : Type) (l : list A) x before y after, l ++ [x] = before ++ y :: after ->
        (l = before /\ x = y /\ after = []) \/ exists after', l = before ++ y :: after') as Sn.
      { intros A l x before y after E. destruct after as [|z after] using rev_ind.
        - apply app_inj_tail in E as [-> ->]. auto.
        - right. exists after. change (before ++ y :: after ++ [z]) with (before ++ (y :: after) ++ [z]) in E.
          rewrite app_assoc in E. apply app_inj_tail in E as [-> _]. auto. }
      intros before t after.
      inversion St; subst; cbn [s_trace s_threads] in *; try (apply IH; fail).
      all: split; [intro E|intros rr E]; apply Sn in E as [(-> & E & ->)|(after' & E)];
        try (eapply (IH _ _ _); eassumption); try (eapply (proj1 (IH _ _ _)); eassumption);
        try (eapply (proj2 (IH _ _ _)); eassumption); try discriminate.
      + injection E as ->. unfold started_tasks, new_tasks in C1. rewrite !flat_map_app in C1. simpl in C1.
        rewrite app_nil_r in C1. fold (@started_tasks task before) (@new_tasks task before) in C1.
        eexists. rewrite <- C1. apply Permutation_app_tail. apply Permutation_cons_append.
      + injection E as -> <-. destruct (upd_mid _ _ _ _ H) as (l1 & l2 & -> & _ & _).
        eexists. symmetry. rewrite C2. unfold running. rewrite flat_map_mid. simpl. symmetry. apply Permutation_middle.
      + injection E as -> <-. destruct (upd_mid _ _ _ _ H) as (l1 & l2 & -> & _ & _).
        eexists. symmetry. rewrite C2. unfold running. rewrite flat_map_mid. simpl. symmetry. apply Permutation_middle.
      + injection E as -> <-. destruct (upd_mid _ _ _ _ H) as (l1 & l2 & -> & _ & _).
        eexists. symmetry. rewrite C2. unfold running. rewrite flat_map_mid. simpl. symmetry. apply Permutation_middle.
  Qed.
End S.

(** When [run] returns, in whatever way the threads interleaved: every thread
    has finished, and the tasks that were started, the tasks that ended, and
    "the first task plus all tasks that were returned" are the same multiset. *)
Theorem C17_each_task_once : forall task mem prg (start : task -> prg) work_size
    (pstep : prg -> mem -> pres task mem prg) threshold m first s,
  reachable start work_size pstep threshold (initial m first) s -> returned s ->
  Permutation (started_tasks (s_trace s)) (first :: new_tasks (s_trace s)) /\
  Permutation (ended_tasks (s_trace s)) (first :: new_tasks (s_trace s)) /\
  Forall finished (s_threads s).
Proof.
  intros task mem prg start work_size pstep threshold m first s R Rt.
  destruct (returned_trace _ _ _ _ _ _ _ _ _ _ R Rt). repeat split; auto.
  eapply returned_all; eauto.
Qed.

(** At any moment of any execution: a task is only started if it is the first
    one or was returned by a task that had ended before, and not more often
    than it was returned; and it only ends after it started. *)
Theorem C17_in_order : forall task mem prg (start : task -> prg) work_size
    (pstep : prg -> mem -> pres task mem prg) threshold m first s before e after,
  reachable start work_size pstep threshold (initial m first) s ->
  s_trace s = before ++ e :: after ->
  match e with
  | Started t => exists rest, Permutation ((t :: started_tasks before) ++ rest) (first :: new_tasks before)
  | Ended t r => exists rest, Permutation ((t :: ended_tasks before) ++ rest) (started_tasks before)
  end.
Proof.
  intros task mem prg start work_size pstep threshold m first s before e after R E.
  destruct e as [t|t r]; destruct (trace_order _ _ _ _ _ _ _ _ _ _ R before t after) as [T1 T2]; eauto.
Qed.

(** The runner is never stuck: it has returned, or some thread can move, or a
    task's own next action is a panic (or undefined behaviour). *)
Theorem C17_no_deadlock : forall task mem prg (start : task -> prg) work_size
    (pstep : prg -> mem -> pres task mem prg) threshold m first s,
  reachable start work_size pstep threshold (initial m first) s ->
  returned s \/ crashes pstep s \/ exists s', step start work_size pstep threshold s s'.
Proof. intros. eapply progress; eauto. Qed.

(** If every task runs for finitely many steps and the task tree is finite --
    [pot t] bounds the steps of [t] and all its descendants (counting one for
    taking it off a stack, one for each step and one for joining), [E p e]
    says that [e] does so for a task in the middle of its program -- then
    every execution has at most [pot first] steps and, continued in any way,
    ends with [run] returning (or with a crash of a task itself). *)
Theorem C17_terminates : forall task mem prg (start : task -> prg) work_size
    (pstep : prg -> mem -> pres task mem prg) threshold (pot : task -> nat) (E : prg -> nat -> Prop),
  (forall t, exists e, E (start t) e /\ e < pot t) ->
  (forall p e m p' m', E p e -> pstep p m = PStep p' m' -> exists e', E p' e' /\ e' < e) ->
  (forall p e m, E p e -> pstep p m = PDone None -> 0 < e) ->
  (forall p e m a b, E p e -> pstep p m = PDone (Some (a, b)) -> pot a + pot b + 1 < e) ->
  forall m first,
  (forall n s, steps start work_size pstep threshold n (initial m first) s -> n <= pot first) /\
  (forall s, reachable start work_size pstep threshold (initial m first) s ->
     exists n s', steps start work_size pstep threshold n s s' /\ (returned s' \/ crashes pstep s')).
Proof.
  intros task mem prg start work_size pstep threshold pot E H1 H2 H3 H4 m first.
  assert (pays task mem prg start pstep pot E) as P by (unfold pays; auto). split.
  - intros n s. eapply bounded_steps; eauto.
  - intros s R. eapply completes; eauto.
Qed.

(** ** A concrete task: [n] adds [n] to a shared total and splits until 1. *)
Definition ex_pstep (p : nat * bool) (m : nat) : pres nat nat (nat * bool) :=
  let '(n, added) := p in
  if added then PDone (if n <=? 1 then None else Some (n / 2, n - n / 2)) else PStep (n, true) (m + n).
Definition ex_pot (n : nat) : nat := if n =? 0 then 3 else 7 * n - 4.
Definition ex_E (p : nat * bool) (e : nat) : Prop := e = ex_pot (fst p) - (if snd p then 2 else 1).

Example C17_example_finite : forall m first,
  (forall n s, steps (fun n => (n, false)) (fun n => n) ex_pstep 2 n (initial m first) s -> n <= ex_pot first) /\
  (forall s, reachable (fun n => (n, false)) (fun n => n) ex_pstep 2 (initial m first) s ->
     exists n s', steps (fun n => (n, false)) (fun n => n) ex_pstep 2 n s s' /\ (returned s' \/ crashes ex_pstep s')).
Proof.
  apply C17_terminates with (E := ex_E).
  - intro t. eexists. split; [reflexivity|]. unfold ex_pot; simpl. destruct (Nat.eqb_spec t 0); lia.
  - intros [n b] e m p' m' -> H. destruct b; simpl in H; [discriminate|]. injection H as <- _.
    eexists. split; [reflexivity|]. unfold ex_pot; simpl. destruct (Nat.eqb_spec n 0); lia.
  - intros [n b] e m -> H. destruct b; simpl in H; [|discriminate]. unfold ex_pot; simpl. destruct (Nat.eqb_spec n 0); lia.
  - intros [n b] e m a c -> H. destruct b; cbn [ex_pstep] in H; [|discriminate].
    destruct (Nat.leb_spec n 1) as [L|L]; [discriminate|].
    assert (a = n / 2 /\ c = n - n / 2) as [-> ->] by (injection H; auto). clear H.
    unfold ex_pot; cbn [snd fst].
    assert (1 <= n / 2) by (apply Nat.div_le_lower_bound; lia).
    assert (n / 2 < n) by (apply Nat.div_lt; lia).
    set (h := n / 2) in *. clearbody h. cbn [fst snd]. destruct (Nat.eqb_spec n 0), (Nat.eqb_spec h 0), (Nat.eqb_spec (n - h) 0); lia.
Qed.

(** One full execution with several threads: it returns, and the total is the
    sum of all tasks. *)
Definition ex_end := run_first (fun n => (n, false)) (fun n => n) ex_pstep 2 200 (initial 0 9).
Example C17_example_run :
  reachable (fun n => (n, false)) (fun n => n) ex_pstep 2 (initial 0 9) ex_end /\
  returned ex_end /\ length (s_threads ex_end) = 3 /\ length (started_tasks (s_trace ex_end)) = 17 /\ s_mem ex_end = 38.
Proof.
  split; [apply run_first_reach; constructor|].
  repeat split; try (vm_compute; reflexivity).
  eexists. split; vm_compute; reflexivity.
Qed.
