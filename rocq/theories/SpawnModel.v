(** * The task runner [TaskSpawner]: src/utils.rs:189-289

    An interleaving semantics.  Threads are the calls of [run_task]; a step is
    one atomic action of one thread.  What a task does between being taken off
    a stack and returning is a program [prg] that runs in atomic steps on a
    shared memory [mem] ([pstep]); steps of different threads interleave in
    any order.  [threads_in_flight] (only ever incremented, never read by the
    runner) and the [debug_assert!] on the depth are not modelled. *)
Require Import List Arith.
From Verif Require Import Base.
Import ListNotations.

Section Spawner.
  Variables (task mem prg : Type).

  (** One atomic step of a running task: it goes on, returns, or crashes
      (panics or commits undefined behaviour). *)
  Inductive pres := PStep (p : prg) (m : mem) | PDone (r : option (task * task)) | PCrash.

  (** utils.rs:201-205 [Task::run] (as a program) and [Task::work_size];
      [pstep] executes programs. *)
  Variable start : task -> prg.
  Variable work_size : task -> nat.
  Variable pstep : prg -> mem -> pres.
  (** utils.rs:194-199 [work_size_threshold]. *)
  Variable threshold : nat.

  (** utils.rs:243-288: the local variables of [run_task]: the task being run,
      [stack] (top first) and [sub_tasks] (last pushed first; the handle of a
      thread is its number). *)
  Record thread := Th { t_cur : option (task * prg); t_stack : list task; t_subs : list nat }.

  (** What happened so far (not part of the program). *)
  Inductive event := Started (t : task) | Ended (t : task) (r : option (task * task)).

  Record state := St { s_mem : mem; s_threads : list thread; s_trace : list event }.

  (** utils.rs:258-262: the larger task first *)
  Definition ordered (a b : task) : task * task := if work_size a <? work_size b then (b, a) else (a, b).

  Definition finished (t : thread) : Prop := t = Th None [] [].

  Inductive step : state -> state -> Prop :=
  (** 254-258: [stack.pop()] and the start of [work_item.run()] *)
  | step_pop : forall m ths tr j t st subs,
      nth_error ths j = Some (Th None (t :: st) subs) ->
      step (St m ths tr) (St m (upd ths j (Th (Some (t, start t)) st subs)) (tr ++ [Started t]))
  (** inside [run] *)
  | step_run : forall m ths tr j t p st subs p' m',
      nth_error ths j = Some (Th (Some (t, p)) st subs) -> pstep p m = PStep p' m' ->
      step (St m ths tr) (St m' (upd ths j (Th (Some (t, p')) st subs)) tr)
  (** [run] returned [None] *)
  | step_none : forall m ths tr j t p st subs,
      nth_error ths j = Some (Th (Some (t, p)) st subs) -> pstep p m = PDone None ->
      step (St m ths tr) (St m (upd ths j (Th None st subs)) (tr ++ [Ended t None]))
  (** 258-273: two new tasks, both pushed on the own stack *)
  | step_push : forall m ths tr j t p st subs a b a' b',
      nth_error ths j = Some (Th (Some (t, p)) st subs) -> pstep p m = PDone (Some (a, b)) ->
      ordered a b = (a', b') -> work_size a' <= threshold ->
      step (St m ths tr) (St m (upd ths j (Th None (a' :: b' :: st) subs)) (tr ++ [Ended t (Some (a, b))]))
  (** 258-279: the larger one goes to a new thread *)
  | step_spawn : forall m ths tr j t p st subs a b a' b',
      nth_error ths j = Some (Th (Some (t, p)) st subs) -> pstep p m = PDone (Some (a, b)) ->
      ordered a b = (a', b') -> threshold < work_size a' ->
      step (St m ths tr)
           (St m (upd ths j (Th None (b' :: st) (length ths :: subs)) ++ [Th None [a'] []])
               (tr ++ [Ended t (Some (a, b))]))
  (** 283-287: [join] the last spawned thread, which waits until it finished *)
  | step_join : forall m ths tr j k subs,
      nth_error ths j = Some (Th None [] (k :: subs)) -> nth_error ths k = Some (Th None [] []) ->
      step (St m ths tr) (St m (upd ths j (Th None [] subs)) tr).

  (** utils.rs:235-241 [run]: one thread with the first task. *)
  Definition initial (m : mem) (first : task) : state := St m [Th None [first] []] [].

  Inductive reachable (s0 : state) : state -> Prop :=
  | reach_init : reachable s0 s0
  | reach_step : forall s s', reachable s0 s -> step s s' -> reachable s0 s'.

  (** [run] returns when the first thread has finished. *)
  Definition returned (s : state) : Prop := exists t, nth_error (s_threads s) 0 = Some t /\ finished t.

  (** Some task's next action is a crash. *)
  Definition crashes (s : state) : Prop :=
    exists j t p st subs, nth_error (s_threads s) j = Some (Th (Some (t, p)) st subs) /\ pstep p (s_mem s) = PCrash.

  (** [n] steps. *)
  Inductive steps : nat -> state -> state -> Prop :=
  | steps_0 : forall s, steps 0 s s
  | steps_S : forall n s s' s'', step s s' -> steps n s' s'' -> steps (S n) s s''.

  (** What the trace says. *)
  Definition started_tasks (tr : list event) : list task :=
    flat_map (fun e => match e with Started t => [t] | _ => [] end) tr.
  Definition ended_tasks (tr : list event) : list task :=
    flat_map (fun e => match e with Ended t _ => [t] | _ => [] end) tr.
  Definition new_tasks (tr : list event) : list task :=
    flat_map (fun e => match e with Ended _ (Some (a, b)) => [a; b] | _ => [] end) tr.

  (** A scheduler that always runs the first thread that can move; used only to
      compute examples. *)
  Definition try_thread (s : state) (j : nat) : option state :=
    let '(St m ths tr) := s in
    match nth_error ths j with
    | Some (Th None (t :: st) subs) => Some (St m (upd ths j (Th (Some (t, start t)) st subs)) (tr ++ [Started t]))
    | Some (Th (Some (t, p)) st subs) =>
        match pstep p m with
        | PStep p' m' => Some (St m' (upd ths j (Th (Some (t, p')) st subs)) tr)
        | PDone None => Some (St m (upd ths j (Th None st subs)) (tr ++ [Ended t None]))
        | PDone (Some (a, b)) =>
            let '(a', b') := ordered a b in
            if work_size a' <=? threshold
            then Some (St m (upd ths j (Th None (a' :: b' :: st) subs)) (tr ++ [Ended t (Some (a, b))]))
            else Some (St m (upd ths j (Th None (b' :: st) (length ths :: subs)) ++ [Th None [a'] []])
                            (tr ++ [Ended t (Some (a, b))]))
        | PCrash => None
        end
    | Some (Th None [] (k :: subs)) =>
        match nth_error ths k with
        | Some (Th None [] []) => Some (St m (upd ths j (Th None [] subs)) tr)
        | _ => None
        end
    | _ => None
    end.
  Fixpoint first_step (s : state) (js : list nat) : option state :=
    match js with
    | [] => None
    | j :: js => match try_thread s j with Some s' => Some s' | None => first_step s js end
    end.
  Fixpoint run_first (fuel : nat) (s : state) : state :=
    match fuel with
    | O => s
    | S k => match first_step s (seq 0 (length (s_threads s))) with Some s' => run_first k s' | None => s end
    end.
End Spawner.

Arguments Th {task prg} t_cur t_stack t_subs.
Arguments St {task mem prg} s_mem s_threads s_trace.
Arguments s_mem {task mem prg} s.
Arguments s_threads {task mem prg} s.
Arguments s_trace {task mem prg} s.
Arguments t_cur {task prg} t.
Arguments t_stack {task prg} t.
Arguments t_subs {task prg} t.
Arguments PStep {task mem prg} p m.
Arguments PDone {task mem prg} r.
Arguments PCrash {task mem prg}.
Arguments Started {task} t.
Arguments Ended {task} t r.
Arguments started_tasks {task} tr.
Arguments ended_tasks {task} tr.
Arguments new_tasks {task} tr.
Arguments initial {task mem prg} m first.
Arguments finished {task prg} t.
Arguments returned {task mem prg} s.
Arguments reachable {task mem prg} start work_size pstep threshold s0 s.
Arguments step {task mem prg} start work_size pstep threshold s s'.
Arguments steps {task mem prg} start work_size pstep threshold n s s'.
Arguments crashes {task mem prg} pstep s.
Arguments run_first {task mem prg} start work_size pstep threshold fuel s.
Arguments ordered {task} work_size a b.
