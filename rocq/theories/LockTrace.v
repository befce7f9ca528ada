(** * Runs of the concurrent process and of the reference *)
Require Import List ZArith Bool Arith Lia Permutation.
From Verif Require Import F32 Vec AabbModel Base NodeModel LocbModel MbvhModel BvhModel FfiModel SpecFfi FfiProofs PropFfi
  LockModel SpecLock LockProofs LockCalls.
Import ListNotations.
Local Open Scope nat_scope.

Lemma nth_repeat : forall {A} (x y : A) n i, nth_error (repeat x n) i = Some y -> y = x.
Proof. intros A x y n i H. apply nth_error_In in H. apply repeat_spec in H. auto. Qed.
Lemma nth_repeat_none : forall {A B} (x : A) (y : B) n i, nth_error (repeat x n) i = None -> nth_error (repeat y n) i = None.
Proof. intros A B x y n i H. apply nth_error_None in H. apply nth_error_None. rewrite repeat_length in *. auto. Qed.

Lemma sim_new : forall n, sim ffi_new ffi_new (repeat Idle n) (repeat AIdle n) (fun _ => g0).
Proof.
  intro n. constructor.
  - eexists. apply inv_new.
  - intro tg. tauto.
  - auto.
  - intro i. unfold tinv. destruct (nth_error (repeat Idle n) i) as [t|] eqn:E.
    + rewrite (nth_repeat _ _ _ _ E). destruct (nth_error (repeat AIdle n) i) as [t'|] eqn:E'.
      * rewrite (nth_repeat _ _ _ _ E'). auto.
      * apply (nth_repeat_none _ Idle) in E'. congruence.
    + rewrite (nth_repeat_none _ AIdle _ _ E). auto.
  - intros i j a1 h1 p1 a2 h2 p2 _ E. apply nth_repeat in E. discriminate.
Qed.

Lemma sim_run : forall n tr s, crun (process_new n) tr s ->
  match s with
  | Live c ts => exists a ats G, sim c a ts ats G /\ arun (aprocess_new n) tr (ALive a ats)
  | Down => arun (aprocess_new n) tr ADown
  end.
Proof.
  intros n tr s R. remember (process_new n) as s0 eqn:E0. induction R as [s|s tr s1 e s2 R IH St]; subst s.
  - exists ffi_new, (repeat AIdle n), (fun _ => g0). split; [apply sim_new|constructor].
  - specialize (IH eq_refl). destruct s1 as [c ts|]; [|inversion St].
    destruct IH as (a & ats & G & S & Ar). pose proof (sim_step all_calls_ok _ _ _ _ _ _ _ S St) as Q.
    destruct s2 as [c' ts'|].
    + destruct Q as (a' & ats' & G' & S' & [Q|[(Q1 & Q2 & Q3)|(ats1 & Q1 & Q2)]]); exists a', ats', G'; (split; [exact S'|]).
      * econstructor; eauto.
      * subst. rewrite app_nil_r. exact Ar.
      * econstructor; [|exact Q2]. replace tr with (tr ++ []) by apply app_nil_r. econstructor; eauto.
    + econstructor; eauto.
Qed.

Lemma sim_quiet : forall c a ts ats G, sim c a ts ats G -> quiet (Live c ts) ->
  a = c /\ forall i x, nth_error ats i = Some x -> x = AIdle.
Proof.
  intros c a ts ats G S Q. assert (forall i, G i = g0 /\ forall x, nth_error ats i = Some x -> x = AIdle) as K.
  { intro i. pose proof (s_th _ _ _ _ _ S i) as T. unfold tinv in T. destruct (nth_error ts i) as [th|] eqn:E.
    - rewrite (Q _ _ E) in T. destruct (nth_error ats i) as [[| |]|]; try contradiction. split; auto. congruence.
    - destruct (nth_error ats i); [contradiction|]. split; auto. discriminate. }
  split; [|intros i; apply K]. apply gc_ext. intro tg. apply (s_rel _ _ _ _ _ S). intros i. rewrite (proj1 (K i)). auto.
Qed.

(** ** The calls that took effect *)
Lemma history_snoc : forall st l st' a c h st'', history st l st' -> api_step st' a = Ok (c, h, st'') -> history st (l ++ [a]) st''.
Proof.
  intros st l st' a c h st'' H. induction H; intro E; cbn [app].
  - econstructor; eauto. constructor.
  - econstructor; eauto.
Qed.
Definition waiting (ats : list athread) : list api :=
  flat_map (fun x => match x with ACalled a => [a] | _ => [] end) ats.
Lemma waiting_upd : forall ats i x y, nth_error ats i = Some x ->
  Permutation (waiting [x] ++ waiting (upd ats i y)) (waiting [y] ++ waiting ats).
Proof.
  induction ats as [|z ats IH]; intros [|i] x y E; cbn [nth_error] in E; try discriminate.
  - injection E as ->. cbn [upd]. change (waiting (y :: ats)) with (waiting ([y] ++ ats)). change (waiting (x :: ats)) with (waiting ([x] ++ ats)).
    unfold waiting. rewrite !flat_map_app. rewrite !app_assoc. apply Permutation_app_tail. apply Permutation_app_comm.
  - cbn [upd]. specialize (IH i x y E).
    change (waiting (z :: upd ats i y)) with (waiting ([z] ++ upd ats i y)). change (waiting (z :: ats)) with (waiting ([z] ++ ats)).
    unfold waiting in *. rewrite !flat_map_app.
    eapply Permutation_trans; [apply Permutation_app_swap_app|].
    eapply Permutation_trans; [|apply Permutation_app_swap_app]. apply Permutation_app_head. exact IH.
Qed.
Lemma calls_app : forall t1 t2, calls_of (t1 ++ t2) = calls_of t1 ++ calls_of t2.
Proof. intros. apply flat_map_app. Qed.
Lemma last_snoc : forall t tr e, last_call t (tr ++ [e]) =
  match e with ECall t' a => if t' =? t then Some a else last_call t tr | _ => last_call t tr end.
Proof. intros. unfold last_call. rewrite fold_left_app. reflexivity. Qed.

(** Call [a] took effect with outcome [o] in a history that led to [st]. *)
Definition happened (calls : list api) (a : api) (o : out) (st : ffi) : Prop :=
  exists l st0 st1 l', history ffi_new l st0 /\ api_step st0 a = Ok (fst o, snd o, st1) /\ history st1 l' st /\
    incl l calls /\ incl l' calls /\ length l <= length calls.
Lemma happened_more : forall calls calls' a o st, happened calls a o st -> incl calls calls' -> length calls <= length calls' ->
  happened calls' a o st.
Proof.
  intros calls calls' a o st (l & st0 & st1 & l' & H1 & H2 & H3 & H4 & H5 & H6) I L. exists l, st0, st1, l'.
  split; auto. split; auto. split; auto. split; [intros x X; auto|]. split; [|lia]. intros x X. auto.
Qed.

Record told (tr : list event) (st : ffi) (ats : list athread) : Prop := Told {
  t_hist : exists l, history ffi_new l st /\ Permutation (l ++ waiting ats) (calls_of tr);
  t_called : forall t a, nth_error ats t = Some (ACalled a) -> last_call t tr = Some a;
  t_done : forall t o, nth_error ats t = Some (ADone o) -> exists a, last_call t tr = Some a /\ happened (calls_of tr) a o st;
  t_ans : forall t a o, answered t a o tr -> happened (calls_of tr) a o st }.

Lemma answered_snoc : forall t a o tr e, answered t a o (tr ++ [e]) ->
  answered t a o tr \/ (e = EReturn t o /\ last_call t tr = Some a).
Proof.
  intros t a o tr e (t1 & t2 & E & L). destruct t2 as [|y t2] using rev_ind.
  - apply app_inj_tail in E as [-> ->]. auto.
  - clear IHt2. left. exists t1, t2. split; auto.
    change (EReturn t o :: t2 ++ [y]) with ((EReturn t o :: t2) ++ [y]) in E. rewrite app_assoc in E. apply app_inj_tail in E as [-> _]. auto.
Qed.
Lemma not_answered_nil : forall t a o, ~ answered t a o [].
Proof. intros t a o (t1 & t2 & E & _). destruct t1; discriminate. Qed.

Lemma told_run : forall n tr st ats, arun (aprocess_new n) tr (ALive st ats) -> told tr st ats.
Proof.
  intros n tr st ats R. remember (aprocess_new n) as s0 eqn:E0. remember (ALive st ats) as s eqn:Es.
  revert st ats Es. induction R as [s|s tr s1 e s2 R IH St]; intros st ats Es; subst.
  - injection Es as <- <-. constructor.
    + exists []. split; [constructor|]. cbn [app].
      assert (waiting (repeat AIdle n) = []) as -> by (induction n; cbn; auto). apply perm_nil.
    + intros t a E. apply nth_repeat in E. discriminate.
    + intros t o E. apply nth_repeat in E. discriminate.
    + intros t a o X. apply not_answered_nil in X. contradiction.
  - inversion St as [st1 ts t a E|st1 ts t a c h st' E Ap|st1 ts t o E|]; subst.
    + (* call *)
      destruct (IH eq_refl _ _ eq_refl) as [[l [Hh Hp]] Hc Hd Ha].
      assert (calls_of (tr ++ [ECall t a]) = calls_of tr ++ [a]) as Ec by (rewrite calls_app; reflexivity).
      assert (forall a o s, happened (calls_of tr) a o s -> happened (calls_of (tr ++ [ECall t a])) a o s) as More.
      { intros a' o s H. eapply happened_more; eauto; rewrite calls_app; [intros x X; apply in_or_app; auto|rewrite app_length; lia]. }
      constructor.
      * exists l. split; auto. rewrite Ec.
        pose proof (waiting_upd ts t AIdle (ACalled a) E) as W. cbn [waiting flat_map app] in W. fold (waiting ts) in W.
        change (flat_map _ (upd ts t (ACalled a))) with (waiting (upd ts t (ACalled a))) in W.
        eapply Permutation_trans; [apply Permutation_app_head; exact W|].
        eapply Permutation_trans; [|apply Permutation_cons_append]. eapply Permutation_trans; [apply Permutation_sym, Permutation_middle|].
        apply perm_skip. exact Hp.
      * intros t' a' X. rewrite nth_upd in X. rewrite last_snoc. destruct (Nat.eqb_spec t t') as [->|N].
        -- pose proof (nth_lt _ _ _ E). rewrite Nat.eqb_refl in X. destruct (Nat.ltb_spec t' (length ts)); [|lia]. cbn [andb] in X. congruence.
        -- destruct (Nat.eqb_spec t' t); [congruence|]. cbn [andb] in X. auto.
      * intros t' o X. rewrite nth_upd in X. rewrite last_snoc. destruct (Nat.eqb_spec t t') as [->|N].
        -- pose proof (nth_lt _ _ _ E). rewrite Nat.eqb_refl in X. destruct (Nat.ltb_spec t' (length ts)); [|lia]. cbn [andb] in X. congruence.
        -- destruct (Nat.eqb_spec t' t); [congruence|]. cbn [andb] in X. destruct (Hd _ _ X) as (a' & L & H). exists a'. split; auto.
           eapply happened_more; eauto; rewrite calls_app; [intros x Y; apply in_or_app; auto|rewrite app_length; lia].
      * intros t' a' o X. apply answered_snoc in X as [X|[X _]]; [|discriminate].
        eapply happened_more; [exact (Ha _ _ _ X)| |]; rewrite calls_app; [intros x Y; apply in_or_app; auto|rewrite app_length; lia].
    + (* effect *)
      destruct (IH eq_refl _ _ eq_refl) as [[l [Hh Hp]] Hc Hd Ha]. rewrite app_nil_r.
      pose proof (waiting_upd ts t (ACalled a) (ADone (c, h)) E) as W. cbn [waiting flat_map app] in W. fold (waiting ts) in W.
      change (flat_map _ (upd ts t (ADone (c, h)))) with (waiting (upd ts t (ADone (c, h)))) in W.
      assert (In a (calls_of tr)) as Ia.
      { eapply Permutation_in; [exact Hp|]. apply in_or_app. right. eapply Permutation_in; [exact W|]. left; auto. }
      assert (forall a' o', happened (calls_of tr) a' o' st1 -> happened (calls_of tr) a' o' st) as More.
      { intros a' o' (l1 & s0 & s1 & l2 & H1 & H2 & H3 & H4 & H5 & H6). exists l1, s0, s1, (l2 ++ [a]).
        split; auto. split; auto. split; [eapply history_snoc; eauto|]. split; auto. split; auto.
        intros x X. apply in_app_or in X as [X|[<-|[]]]; auto. }
      constructor.
      * exists (l ++ [a]). split; [eapply history_snoc; eauto|]. rewrite <- app_assoc. cbn [app].
        eapply Permutation_trans; [|exact Hp]. apply Permutation_app_head. exact W.
      * intros t' a' X. rewrite nth_upd in X. destruct (Nat.eqb_spec t' t) as [->|N]; cbn [andb] in X; auto.
        destruct (t <? length ts); [congruence|auto].
      * intros t' o X. rewrite nth_upd in X. destruct (Nat.eqb_spec t' t) as [->|N]; cbn [andb] in X.
        -- pose proof (nth_lt _ _ _ E). destruct (Nat.ltb_spec t (length ts)); [|lia]. injection X as <-.
           exists a. split; [apply Hc; auto|]. exists l, st1, st, []. split; auto. split; auto. split; [constructor|].
           split; [intros x X; eapply Permutation_in; [exact Hp|apply in_or_app; auto]|].
           split; [intros x []|]. apply Permutation_length in Hp. rewrite app_length in Hp. lia.
        -- destruct (Hd _ _ X) as (a' & L & H). exists a'. auto.
      * intros t' a' o X. eauto.
    + (* return *)
      destruct (IH eq_refl _ _ eq_refl) as [[l [Hh Hp]] Hc Hd Ha].
      assert (calls_of (tr ++ [EReturn t o]) = calls_of tr) as Ec by (rewrite calls_app; apply app_nil_r).
      assert (forall t', last_call t' (tr ++ [EReturn t o]) = last_call t' tr) as El by (intro; apply last_snoc).
      constructor; rewrite ?Ec.
      * exists l. split; auto.
        pose proof (waiting_upd ts t (ADone o) AIdle E) as W. cbn [waiting flat_map app] in W. fold (waiting ts) in W.
        change (flat_map _ (upd ts t AIdle)) with (waiting (upd ts t AIdle)) in W.
        eapply Permutation_trans; [|exact Hp]. apply Permutation_app_head. exact W.
      * intros t' a' X. rewrite nth_upd in X. rewrite El. destruct (Nat.eqb_spec t' t) as [->|N]; cbn [andb] in X; auto.
        destruct (t <? length ts); [discriminate|auto].
      * intros t' o' X. rewrite nth_upd in X. rewrite El. destruct (Nat.eqb_spec t' t) as [->|N]; cbn [andb] in X; auto.
        destruct (t <? length ts); [discriminate|auto].
      * intros t' a' o' X. apply answered_snoc in X as [X|[[= <- <-] X]]; [eauto|].
        destruct (Hd _ _ E) as (a1 & L1 & H1). congruence.
Qed.

(** The calls in progress were made. *)
Lemma busy_called : forall n tr st ts, crun (process_new n) tr (Live st ts) ->
  forall i a h p, nth_error ts i = Some (Busy a h p) -> In a (calls_of tr).
Proof.
  intros n tr st ts R. remember (process_new n) as s0 eqn:E0. remember (Live st ts) as s eqn:Es.
  revert st ts Es. induction R as [s|s tr s1 e s2 R IH St]; intros st ts Es; subst.
  - injection Es as <- <-. intros i a h p E. apply nth_repeat in E. discriminate.
  - rewrite calls_app. destruct s1 as [st1 ts1|]; [|inversion St].
    specialize (IH eq_refl _ _ eq_refl).
    inversion St as
      [st2 ts0 t ap E|st2 ts0 t ap h l m k E Ct|st2 ts0 t ap h l k E|st2 ts0 t ap h R0 f k r st' E Ef|st2 ts0 t ap h o E| |];
      subst; intros i a' h' p' X; rewrite nth_upd in X; apply in_or_app;
      (destruct (Nat.eqb_spec i t) as [->|N]; cbn [andb] in X; [|left; eauto]);
      match type of X with context [?b <? ?c] => destruct (b <? c) end; try discriminate; try (left; eauto; fail); injection X as <- <- <-.
    + right. left. auto.
    + left; eauto.
    + left; eauto.
    + left; eauto.
Qed.

(** ** Progress *)
Definition waits_for (th : thread) : nat :=
  match th with Idle => 0 | Busy _ _ (Acquire l _ _) => S (rank l) | Busy _ _ _ => 5 end.
Lemma max_thread : forall (ts : list thread) i th, nth_error ts i = Some th ->
  exists j th', nth_error ts j = Some th' /\ waits_for th <= waits_for th' /\
    forall k tk, nth_error ts k = Some tk -> waits_for tk <= waits_for th'.
Proof.
  induction ts as [|x ts IH]; intros i th E; [destruct i; discriminate|].
  destruct ts as [|y ts].
  - destruct i as [|[|i]]; try discriminate. cbn in E. injection E as <-. exists 0, x. split; auto. split; auto.
    intros [|[|k]] tk Ek; try discriminate. cbn in Ek. injection Ek as <-. auto.
  - destruct (IH 0 y eq_refl) as (j & th' & Ej & Lj & Mj).
    destruct (Nat.le_gt_cases (waits_for x) (waits_for th')) as [L|L].
    + exists (S j), th'. split; auto.
      assert (forall k tk, nth_error (x :: y :: ts) k = Some tk -> waits_for tk <= waits_for th') as M.
      { intros [|k] tk Ek; cbn in Ek; [injection Ek as <-; auto|apply (Mj k); auto]. }
      split; [apply (M i); auto|auto].
    + exists 0, x. split; auto.
      assert (forall k tk, nth_error (x :: y :: ts) k = Some tk -> waits_for tk <= waits_for x) as M.
      { intros [|k] tk Ek; cbn in Ek; [injection Ek as <-; auto|]. specialize (Mj k tk Ek). lia. }
      split; [apply (M i); auto|auto].
Qed.

Definition writer (l : lock) (th : thread) : bool :=
  match th with Busy _ _ (Acquire l' Wr _) => lock_eqb l l' | _ => false end.
Lemma lock_eq : forall a b, lock_eqb a b = true -> a = b.
Proof. intros [|i| |i] [|j| |j] H; cbn in H; try discriminate; auto; apply Nat.eqb_eq in H; congruence. Qed.
Lemma lock_refl : forall a, lock_eqb a a = true.
Proof. intros [|i| |i]; cbn; auto using Nat.eqb_refl. Qed.

Lemma some_unblocked : forall c a ts ats G i ap h p, sim c a ts ats G -> nth_error ts i = Some (Busy ap h p) ->
  exists t, unblocked ts t.
Proof.
  intros c a ts ats G i ap h p S E. destruct (max_thread ts i _ E) as (j & th & Ej & Lj & Mj).
  destruct th as [|ap1 h1 p1].
  { cbn [waits_for] in Lj. destruct p; cbn in Lj; lia. }
  assert (forall l m k, p1 = Acquire l m k -> forall j' a' held p' m', nth_error ts j' = Some (Busy a' held p') -> ~ In (l, m') held) as Free.
  { intros l m k -> j' a' held p' m' E' K. destruct (sim_at _ _ _ _ _ _ _ _ _ S E') as [_ W].
    pose proof (Mj _ _ E') as M. cbn [waits_for] in M. assert (rank l < 4) by (destruct l; cbn; lia).
    destruct p' as [o|l' m'' k'|l' k'|R f k'|]; cbn [waits_for] in M; try lia.
    cbn [wp] in W. destruct W as [W _]. specialize (W _ _ K). lia. }
  destruct p1 as [o|l m k|l k|R f k|]; try (exists j; unfold unblocked; do 3 eexists; split; [exact Ej|exact I]).
  specialize (Free l m k eq_refl).
  assert (forall m, can_take ts l m) as CT by (intros m0 j' a' held p' m' E' K; exfalso; eapply Free; eauto).
  destruct (existsb (writer l) ts) eqn:X.
  - apply existsb_exists in X as (tw & Iw & Ww). apply In_nth_error in Iw as [w Ew].
    destruct tw as [|aw hw pw]; [discriminate|]. destruct pw as [|l' m' k'| | |]; try discriminate. destruct m'; try discriminate.
    cbn [writer] in Ww. apply lock_eq in Ww as <-.
    exists w, aw, hw, (Acquire l Wr k'). split; auto. split; auto. discriminate.
  - exists j, ap1, h1, (Acquire l m k). split; auto. split; auto. intros _ j' a' held k' E'.
    assert (existsb (writer l) ts = true) as Y by (apply existsb_exists; eexists; split; [eapply nth_error_In; eauto|cbn; apply lock_refl]).
    congruence.
Qed.

Lemma unblocked_moves : forall st ts t, unblocked ts t -> exists s', inner_step (Live st ts) s'.
Proof.
  intros st ts t (a & h & p & E & C). destruct p as [o|l m k|l k|R f k|].
  - eexists. eexists. split; [eapply c_return; eauto|]. intros t' a' [X|[]]. discriminate.
  - destruct C as [C _]. eexists. eexists. split; [eapply c_acquire; eauto|]. intros t' a' [].
  - eexists. eexists. split; [eapply c_release; eauto|]. intros t' a' [].
  - destruct (f st) as [[r st']| | |] eqn:Q.
    + eexists. eexists. split; [eapply c_access; eauto|]. intros t' a' [].
    + eexists. eexists. split; [eapply c_crash; eauto; intros; congruence|]. intros t' a' [X|[]]. discriminate.
    + eexists. eexists. split; [eapply c_crash; eauto; intros; congruence|]. intros t' a' [X|[]]. discriminate.
    + eexists. eexists. split; [eapply c_crash; eauto; intros; congruence|]. intros t' a' [X|[]]. discriminate.
  - eexists. eexists. split; [eapply c_abort; eauto|]. intros t' a' [X|[]]. discriminate.
Qed.

(** ** Termination *)
Definition sub (q p : prog) : Prop :=
  match p with
  | Acquire _ _ k | Release _ k => q = k
  | Access f k => exists r, q = k r
  | _ => False
  end.
Definition before (t' t : thread) : Prop :=
  match t with
  | Idle => False
  | Busy _ _ p => t' = Idle \/ exists a h q, t' = Busy a h q /\ sub q p
  end.
Lemma idle_acc : Acc before Idle.
Proof. constructor. intros y []. Qed.
Lemma before_wf : well_founded before.
Proof.
  intros [|a h p]; [apply idle_acc|]. revert a h.
  induction p as [o|l m k IH|l k IH|R f k IH|]; intros a h; constructor; intros y Y; cbn [before sub] in Y;
    destruct Y as [Y|Y]; try (subst y; apply idle_acc); destruct Y as (a' & h' & q & Y & Q).
  - destruct Q.
  - subst y q. apply IH.
  - subst y q. apply IH.
  - destruct Q as [r Q]. subst y q. apply IH.
  - destruct Q.
Qed.

Definition below (ts' ts : list thread) : Prop :=
  exists i t t', nth_error ts i = Some t /\ before t' t /\ ts' = upd ts i t'.
Lemma below_nil : Acc below [].
Proof. constructor. intros y (i & t & t' & E & _). destruct i; discriminate. Qed.
Lemma below_cons : forall t, Acc before t -> forall ts, Acc below ts -> Acc below (t :: ts).
Proof.
  intros t At. induction At as [t _ IHt]. intros ts As. pose proof As as As0. revert As0. induction As as [ts _ IHs]. intro As0.
  constructor. intros y (i & u & u' & E & B & ->). destruct i as [|i]; cbn [nth_error] in E; cbn [upd].
  - injection E as ->. apply IHt; auto.
  - apply IHs; [do 3 eexists; eauto|]. apply As0. do 3 eexists; eauto.
Qed.
Lemma below_wf : well_founded below.
Proof. intro ts. induction ts as [|t ts IH]; [apply below_nil|apply below_cons; auto]. apply before_wf. Qed.

Lemma inner_below : forall st ts s', inner_step (Live st ts) s' ->
  s' = Down \/ exists st' ts', s' = Live st' ts' /\ below ts' ts.
Proof.
  intros st ts s' (e & St & N).
  inversion St as
    [st2 ts0 t ap E|st2 ts0 t ap h l m k E Ct|st2 ts0 t ap h l k E|st2 ts0 t ap h R0 f k r st' E Ef|st2 ts0 t ap h o E| |]; subst; auto.
  - exfalso. apply (N t ap). left; auto.
  - right. do 2 eexists. split; [reflexivity|]. do 3 eexists. split; [exact E|]. split; [|reflexivity].
    right. do 3 eexists. split; [reflexivity|]. cbn [sub]. auto.
  - right. do 2 eexists. split; [reflexivity|]. do 3 eexists. split; [exact E|]. split; [|reflexivity].
    right. do 3 eexists. split; [reflexivity|]. cbn [sub]. auto.
  - right. do 2 eexists. split; [reflexivity|]. do 3 eexists. split; [exact E|]. split; [|reflexivity].
    right. do 3 eexists. split; [reflexivity|]. cbn [sub]. eauto.
  - right. do 2 eexists. split; [reflexivity|]. do 3 eexists. split; [exact E|]. split; [|reflexivity].
    left. auto.
Qed.
Lemma down_acc : Acc (fun s' s => inner_step s s') Down.
Proof. constructor. intros y (e & St & _). inversion St. Qed.
Lemma inner_wf : well_founded (fun s' s => inner_step s s').
Proof.
  intros [st ts|]; [|apply down_acc]. revert st. induction (below_wf ts) as [ts _ IH]. intro st. constructor.
  intros s' H. destruct (inner_below _ _ _ H) as [->|(st' & ts' & -> & B)]; [apply down_acc|auto].
Qed.
