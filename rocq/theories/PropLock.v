(** * C80: the C interface under concurrent calls *)
Require Import List ZArith Bool Arith Lia Permutation.
From Verif Require Import F32 Vec AabbModel Base NodeModel LocbModel MbvhModel BvhModel FfiModel SpecFfi FfiProofs PropFfi
  LockModel SpecLock LockProofs LockCalls LockTrace.
Import ListNotations.
Local Open Scope nat_scope.

(** What the callers see of any number of threads making any calls at any
    time, down to single lock operations and memory accesses, they could also
    see if every call were one indivisible step (a crash included); and
    whenever no call is in progress the memory is the same as there. *)
Theorem C80_linearizable : forall n tr s, crun (process_new n) tr s ->
  exists s', arun (aprocess_new n) tr s' /\
    match s, s' with
    | Live st ts, ALive st' ts' => quiet s -> st' = st /\ forall i t, nth_error ts' i = Some t -> t = AIdle
    | Down, ADown => True
    | _, _ => False
    end.
Proof.
  intros n tr s R. pose proof (sim_run _ _ _ R) as Q. destruct s as [st ts|].
  - destruct Q as (a & ats & G & S & Ar). exists (ALive a ats). split; [exact Ar|]. intro Qt. eapply sim_quiet; eauto.
  - exists ADown. auto.
Qed.

Lemma waiting_none : forall ats, (forall i x, nth_error ats i = Some x -> x = AIdle) -> waiting ats = [].
Proof.
  induction ats as [|x ats IH]; intro H; [auto|]. cbn [waiting flat_map]. rewrite (H 0 x eq_refl). cbn [app].
  apply IH. intros i y E. apply (H (S i)). auto.
Qed.

(** When every call has returned, the memory is what the same calls, each made
    once, leave when made one after the other in some order. *)
Theorem C80_history : forall n tr st ts, crun (process_new n) tr (Live st ts) -> quiet (Live st ts) ->
  exists l, Permutation l (calls_of tr) /\ history ffi_new l st.
Proof.
  intros n tr st ts R Qt. destruct (sim_run _ _ _ R) as (a & ats & G & S & Ar).
  destruct (sim_quiet _ _ _ _ _ S Qt) as [-> Id]. destruct (t_hist _ _ _ (told_run _ _ _ _ Ar)) as (l & H & P).
  rewrite (waiting_none _ Id), app_nil_r in P. eauto.
Qed.

(** No deadlock: while a call is in progress some thread in a call is not
    waiting for a lock, even if readers give way to waiting writers; and so
    the process can move without a new call. *)
Theorem C80_no_deadlock : forall n tr st ts, crun (process_new n) tr (Live st ts) -> ~ quiet (Live st ts) ->
  (exists t, unblocked ts t) /\ exists s', inner_step (Live st ts) s'.
Proof.
  intros n tr st ts R Nq. destruct (sim_run _ _ _ R) as (a & ats & G & S & Ar).
  assert (exists i ap h p, nth_error ts i = Some (Busy ap h p)) as (i & ap & h & p & E).
  { clear - Nq. induction ts as [|t ts IH].
    - exfalso. apply Nq. intros [|i] t E; discriminate.
    - destruct t as [|ap h p].
      + destruct IH as (i & ap & h & p & E).
        * intro Q. apply Nq. intros [|i] t E; cbn [nth_error] in E; [congruence|]. apply (Q i). auto.
        * exists (Datatypes.S i), ap, h, p. auto.
      + exists 0, ap, h, p. auto. }
  destruct (some_unblocked _ _ _ _ _ _ _ _ _ S E) as [t U]. split; eauto. eapply unblocked_moves; eauto.
Qed.

(** Calls are finite: without new calls the process can only move finitely
    often, whatever the order and from any state. *)
Theorem C80_bounded : well_founded (fun s' s => inner_step s s').
Proof. apply inner_wf. Qed.

(** So, without new calls, every way to go on ends with all calls returned or
    the process ended: from every reachable state such an end is reached, and
    whenever no move is left it has been. *)
Theorem C80_finishes : forall n tr s, crun (process_new n) tr s ->
  (exists tr' s', crun (process_new n) (tr ++ tr') s' /\ calls_of tr' = [] /\ quiet s') /\
  ((forall s', ~ inner_step s s') -> quiet s).
Proof.
  intros n tr s R. split.
  - revert tr R. induction (inner_wf s) as [s _ IH]. intros tr R.
    assert (quiet s \/ exists s', inner_step s s') as [Q|(s' & e & St & Ne)].
    { destruct s as [st ts|]; [|left; exact I].
      destruct (forallb (fun t => match t with Idle => true | _ => false end) ts) eqn:F.
      - left. intros i t E. rewrite forallb_forall in F. specialize (F t (nth_error_In _ _ E)). destruct t; congruence.
      - right. apply (C80_no_deadlock n tr st ts R). intro Q.
        assert (forallb (fun t => match t with Idle => true | _ => false end) ts = true); [|congruence].
        apply forallb_forall. intros t It. apply In_nth_error in It as [i E]. rewrite (Q i t E). auto. }
    + exists [], s. rewrite app_nil_r. auto.
    + destruct (IH s' (ex_intro _ e (conj St Ne)) (tr ++ e) (crun_snoc _ _ _ _ _ R St)) as (tr' & s'' & R' & C & Q).
      exists (e ++ tr'), s''. rewrite app_assoc. split; auto. split; auto. rewrite calls_app, C, app_nil_r.
      destruct e as [|[t a|t o|t] e]; auto.
      * exfalso. apply (Ne t a). left; auto.
      * inversion St; subst; auto.
      * inversion St; subst; auto.
  - intro N. destruct s as [st ts|]; [|exact I].
    destruct (forallb (fun t => match t with Idle => true | _ => false end) ts) eqn:F.
    + intros i t E. rewrite forallb_forall in F. specialize (F t (nth_error_In _ _ E)). destruct t; congruence.
    + exfalso. destruct (C80_no_deadlock n tr st ts R) as [_ [s' K]]; [|eapply N; eauto]. intro Q.
      assert (forallb (fun t => match t with Idle => true | _ => false end) ts = true); [|congruence].
      apply forallb_forall. intros t It. apply In_nth_error in It as [i E]. rewrite (Q i t E). auto.
Qed.

(** ** Handles *)
Lemma created_slot_m : forall l st fuel hb null h st1 l' st2,
  history ffi_new l st -> create_mbvh fuel st hb null = Ok (COk, Some h, st1) ->
  history st1 l' st2 -> forallb (fun a => negb (api_frees_m (h_id h) a)) l' = true ->
  (Z.of_nat (length l) < 4294967296)%Z ->
  exists x y, h_nodes h = Some x /\ h_indices h = Some y /\ nth_error (f_mbvhs st2) (Z.to_nat (h_id h)) = Some (x, y).
Proof.
  intros l st fuel hb null h st1 l' st2 H1 Cr H2 NF Lm.
  destruct (history_ops _ _ _ H1) as (os & R & Lo & _). destruct (history_ops _ _ _ H2) as (os' & R' & _ & _ & Fr & _).
  destruct (C42_create_mbvh _ _ _ _ _ _ _ Cr) as [(_ & _ & b & m & G & M & Eh & ->)|(C & _)]; [|discriminate].
  assert (h = fst (store_mbvh st m)) as Hh by congruence. clear Eh.
  destruct (run_inv os ffi_new st ([], []) inv_new R) as ([tb tm] & Et & I).
  pose proof (table_mstores _ _ _ Et) as Q. cbn [snd length Nat.add] in Q. pose proof (mstores_le os) as Ls.
  pose proof (inv_store_m _ _ _ m I) as I1.
  assert (h_id h = Z.of_nat (length tm)) as Hid.
  { rewrite Hh. unfold store_mbvh. cbn [fst h_id]. rewrite (i_mlen _ _ I). cbn [snd]. unfold as_u32. apply Z.mod_small. lia. }
  assert (nth_error (f_mbvhs (snd (store_mbvh st m))) (Z.to_nat (h_id h)) = Some (length (f_quads st), length (f_idx st))) as P0.
  { unfold store_mbvh. cbn [snd f_mbvhs]. rewrite nth_app_at, (i_mlen _ _ I). cbn [snd]. rewrite Hid, Nat2Z.id, Nat.eqb_refl. auto. }
  pose proof (run_ptrs_m os' _ st2 _ (h_id h) _ _ I1 R' P0 eq_refl (Fr _ NF)) as P2.
  exists (length (f_quads st)), (length (f_idx st)). rewrite Hh in P2 |- *. unfold store_mbvh in P2 |- *. cbn in P2 |- *. auto.
Qed.

Lemma forallb_incl : forall {A} (f : A -> bool) l l', incl l' l -> forallb f l = true -> forallb f l' = true.
Proof. intros A f l l' I F. apply forallb_forall. intros x X. rewrite forallb_forall in F. auto. Qed.
Lemma slice_same : forall {A} (h1 h2 : list (option (list A))) x c, nth_error h1 x = nth_error h2 x ->
  handle_slice h1 (Some x) c = handle_slice h2 (Some x) c.
Proof. intros A h1 h2 x c E. unfold handle_slice, heap_get. rewrite E. reflexivity. Qed.
Lemma map_inj : forall {A B} (K : A -> B) o o', (forall x y, K x = K y -> x = y) -> option_map K o = option_map K o' -> o = o'.
Proof. intros A B K [x|] [y|] I E; cbn in E; try discriminate; auto. f_equal. apply I. congruence. Qed.
Lemma frees_id : forall id a, api_frees (Z.of_nat (Z.to_nat id)) a = api_frees id a.
Proof. intros id a. destruct a; cbn; auto. rewrite Nat2Z.id. auto. Qed.
Lemma refits_id : forall id a, api_refits (Z.of_nat (Z.to_nat id)) a = api_refits id a.
Proof. intros id a. destruct a; cbn; auto. rewrite Nat2Z.id. auto. Qed.
Lemma frees_m_id : forall id a, api_frees_m (Z.of_nat (Z.to_nat id)) a = api_frees_m id a.
Proof. intros id a. destruct a; cbn; auto. rewrite Nat2Z.id. auto. Qed.

(** An answered call that stores a structure. *)
Lemma handle_kept : forall n tr st ts t a0 h,
  crun (process_new n) tr (Live st ts) ->
  answered t a0 (COk, Some h) tr ->
  (forall s s', api_step s a0 = Ok (COk, Some h, s') -> exists b, h = fst (store s b) /\ s' = snd (store s b) /\
     forall s2, api_step s2 a0 = Ok (COk, Some (fst (store s2 b)), snd (store s2 b))) ->
  forallb (fun a => negb (api_frees (h_id h) a) && negb (api_refits (h_id h) a)) (calls_of tr) = true ->
  (Z.of_nat (length (calls_of tr)) < 4294967296)%Z ->
  exists h0 st0 b, api_step ffi_new a0 = Ok (COk, Some h0, st0) /\ manager_get st0 (h_id h0) = Ok (Some b) /\
    ((Z.of_nat (length (nodes b)) < 4294967296)%Z -> (Z.of_nat (length (prim_indices b)) < 4294967296)%Z -> reads_as st h b).
Proof.
  intros n tr st ts t a0 h R An Sto Nf Lc.
  destruct (sim_run _ _ _ R) as (a & ats & G & S & Ar). pose proof (told_run _ _ _ _ Ar) as T.
  destruct (t_ans _ _ _ T _ _ _ An) as (l & st0 & st1 & l' & H1 & Cr & H2 & I1 & I2 & Ll). cbn [fst snd] in Cr.
  destruct (Sto _ _ Cr) as (b & Eh & -> & Any).
  assert (forall x, In x (calls_of tr) -> api_frees (h_id h) x = false /\ api_refits (h_id h) x = false) as Nx.
  { intros x X. rewrite forallb_forall in Nf. apply Nf in X. apply andb_true_iff in X as [X Y].
    apply negb_true_iff in X. apply negb_true_iff in Y. auto. }
  assert (forallb (fun a => negb (api_frees (h_id h) a)) l' = true) as F1.
  { apply forallb_forall. intros x X. rewrite (proj1 (Nx x (I2 _ X))). auto. }
  assert (forallb (fun a => negb (api_refits (h_id h) a)) l' = true) as F2.
  { apply forallb_forall. intros x X. rewrite (proj2 (Nx x (I2 _ X))). auto. }
  assert (Z.of_nat (length l) < 4294967296)%Z as Lz by lia.
  destruct (stored_kept _ _ _ _ _ _ H1 Eh H2 F1 Lz) as (G1 & Sl & Q).
  set (x := length (f_nodes st0)) in *. set (y := length (f_idx st0)) in *.
  assert (h_nodes h = Some x /\ h_indices h = Some y) as [Ex Ey] by (rewrite Eh; split; reflexivity).
  exists (fst (store ffi_new b)), (snd (store ffi_new b)), b. split; [apply Any|].
  split; [apply (C39_store [] ffi_new b eq_refl); cbn; lia|]. intros Ln Li.
  destruct (Q Ln Li) as (b2 & _ & Sn & Si & _ & _ & Eb). rewrite (Eb F2) in Sn, Si.
  assert (gc st (TB (Z.to_nat (h_id h))) = Some (CP (x, y))) as Gs.
  { rewrite (sim_slots _ _ _ _ _ (TB (Z.to_nat (h_id h))) S) by (cbn; auto). cbn [gc]. rewrite Sl. reflexivity. }
  pose proof (sim_distinct _ _ _ _ _ S) as D. clearbody x y.
  split; rewrite ?Ex, ?Ey in *.
  - rewrite <- Sn. apply slice_same. apply (map_inj CN); [congruence|]. symmetry. apply (s_rel _ _ _ _ _ S (TN x)). intros i K.
    destruct (pend_busy _ _ _ _ _ _ _ S K) as (ap & hh & p & E & [_ Aim] & _). cbn [aims] in Aim.
    destruct Aim as (id & ai & Eid & W). pose proof (busy_called _ _ _ _ R _ _ _ _ E) as In1. destruct (Nx _ In1) as [N1 N2].
    destruct (Nat.eq_dec id (Z.to_nat (h_id h))) as [->|N].
    + unfold works_on in W. rewrite frees_id, refits_id, N1, N2 in W. discriminate.
    + destruct (d_b _ D _ _ _ _ Eid Gs N). cbn in *. congruence.
  - rewrite <- Si. apply slice_same. apply (map_inj CI); [congruence|]. symmetry. apply (s_rel _ _ _ _ _ S (TI y)). intros i K.
    destruct (pend_busy _ _ _ _ _ _ _ S K) as (ap & hh & p & E & [_ Aim] & _). cbn [aims] in Aim.
    pose proof (busy_called _ _ _ _ R _ _ _ _ E) as In1. destruct (Nx _ In1) as [N1 N2].
    destruct Aim as [(id & ai & Eid & W)|(id & ai & Eid & W)].
    + destruct (Nat.eq_dec id (Z.to_nat (h_id h))) as [->|N].
      * rewrite frees_id, N1 in W. discriminate.
      * destruct (d_b _ D _ _ _ _ Eid Gs N). cbn in *. congruence.
    + pose proof (d_x _ D _ _ _ _ Gs Eid). cbn in *. congruence.
Qed.

(** A handle that a call to create_bvh has returned can be read without a lock
    at any time, by any number of threads, in the middle of other threads'
    calls: as long as no call to free or refit this structure is made, what is
    there is, complete and unchanged, the structure that the same call makes
    when it is the only one. *)
Theorem C80_handle : forall n tr st ts t bs aabbs cnt centers stride ppl k null h,
  crun (process_new n) tr (Live st ts) ->
  answered t (ACreate bs aabbs cnt centers stride ppl k null) (COk, Some h) tr ->
  forallb (fun a => negb (api_frees (h_id h) a) && negb (api_refits (h_id h) a)) (calls_of tr) = true ->
  (Z.of_nat (length (calls_of tr)) < 4294967296)%Z ->
  exists h0 st0 b, api_step ffi_new (ACreate bs aabbs cnt centers stride ppl k null) = Ok (COk, Some h0, st0) /\
    manager_get st0 (h_id h0) = Ok (Some b) /\
    ((Z.of_nat (length (nodes b)) < 4294967296)%Z -> (Z.of_nat (length (prim_indices b)) < 4294967296)%Z -> reads_as st h b).
Proof.
  intros n tr st ts t bs aabbs cnt centers stride ppl k null h R An. apply (handle_kept _ _ _ _ _ _ _ R An).
  intros s s'. cbn [api_step]. rewrite create_split. pose proof (fun s2 => create_split bs s2 aabbs cnt centers stride ppl k null) as Q.
  destruct (create_local bs aabbs cnt centers stride ppl k null) as [[c|b]| | |]; try discriminate. intro E.
  exists b. split; [congruence|]. split; [congruence|]. exact Q.
Qed.
(** The same for create_spatial_Bvh. *)
Theorem C80_handle_spatial : forall n tr st ts t build collect aabbs cnt stride vertices vs ts' ppl null h,
  crun (process_new n) tr (Live st ts) ->
  answered t (ACreateS build collect aabbs cnt stride vertices vs ts' ppl null) (COk, Some h) tr ->
  forallb (fun a => negb (api_frees (h_id h) a) && negb (api_refits (h_id h) a)) (calls_of tr) = true ->
  (Z.of_nat (length (calls_of tr)) < 4294967296)%Z ->
  exists h0 st0 b, api_step ffi_new (ACreateS build collect aabbs cnt stride vertices vs ts' ppl null) = Ok (COk, Some h0, st0) /\
    manager_get st0 (h_id h0) = Ok (Some b) /\
    ((Z.of_nat (length (nodes b)) < 4294967296)%Z -> (Z.of_nat (length (prim_indices b)) < 4294967296)%Z -> reads_as st h b).
Proof.
  intros n tr st ts t build collect aabbs cnt stride vertices vs ts' ppl null h R An. apply (handle_kept _ _ _ _ _ _ _ R An).
  intros s s'. cbn [api_step]. rewrite spatial_split.
  pose proof (fun s2 => spatial_split build collect s2 aabbs cnt stride vertices vs ts' ppl null) as Q.
  destruct (spatial_local build collect aabbs cnt stride vertices vs ts' ppl) as [[c|b]| | |]; try discriminate.
  destruct null; [discriminate|]. intro E.
  exists b. split; [congruence|]. split; [congruence|]. exact Q.
Qed.

(** The same for create_mbvh, of the structure that the base handle denoted at
    a moment when the calls [l] had taken effect. *)
Theorem C80_handle_mbvh : forall n tr st ts t fuel hb null h,
  crun (process_new n) tr (Live st ts) ->
  answered t (ACreateM fuel hb null) (COk, Some h) tr ->
  forallb (fun a => negb (api_frees_m (h_id h) a)) (calls_of tr) = true ->
  (Z.of_nat (length (calls_of tr)) < 4294967296)%Z ->
  exists l st0 b m, history ffi_new l st0 /\ incl l (calls_of tr) /\
    manager_get st0 (h_id hb) = Ok (Some b) /\ mbvh_construct fuel b = Ok m /\
    ((Z.of_nat (length (m_nodes m)) < 4294967296)%Z -> (Z.of_nat (length (mb_indices m)) < 4294967296)%Z -> reads_as_m st h m).
Proof.
  intros n tr st ts t fuel hb null h R An Nf Lc.
  destruct (sim_run _ _ _ R) as (a & ats & G & S & Ar). pose proof (told_run _ _ _ _ Ar) as T.
  destruct (t_ans _ _ _ T _ _ _ An) as (l & st0 & st1 & l' & H1 & Cr & H2 & I1 & I2 & Ll). cbn [fst snd api_step] in Cr.
  assert (forall x, In x (calls_of tr) -> api_frees_m (h_id h) x = false) as Nx.
  { intros x X. rewrite forallb_forall in Nf. apply Nf in X. apply negb_true_iff in X. auto. }
  pose proof (forallb_incl _ _ _ I2 Nf) as F1. assert (Z.of_nat (length l) < 4294967296)%Z as Lz by lia.
  destruct (C48_mbvh _ _ _ _ _ _ _ _ _ H1 Cr H2 F1 Lz) as (b & m & G1 & M & Q).
  destruct (created_slot_m _ _ _ _ _ _ _ _ _ H1 Cr H2 F1 Lz) as (x & y & Ex & Ey & Sl).
  exists l, st0, b, m. split; auto. split; auto. split; auto. split; auto. intros Ln Li. destruct (Q Ln Li) as [Sn Si].
  assert (gc st (TM (Z.to_nat (h_id h))) = Some (CP (x, y))) as Gs.
  { rewrite (sim_slots _ _ _ _ _ (TM (Z.to_nat (h_id h))) S) by (cbn; auto). cbn [gc]. rewrite Sl. reflexivity. }
  pose proof (sim_distinct _ _ _ _ _ S) as D.
  split; rewrite ?Ex, ?Ey in *.
  - rewrite <- Sn. apply slice_same. apply (map_inj CQ); [congruence|]. symmetry. apply (s_rel _ _ _ _ _ S (TQ x)). intros i K.
    destruct (pend_busy _ _ _ _ _ _ _ S K) as (ap & hh & p & E & [_ Aim] & _). cbn [aims] in Aim.
    destruct Aim as (id & ai & Eid & W). pose proof (Nx _ (busy_called _ _ _ _ R _ _ _ _ E)) as N1.
    destruct (Nat.eq_dec id (Z.to_nat (h_id h))) as [->|N].
    + rewrite frees_m_id, N1 in W. discriminate.
    + destruct (d_m _ D _ _ _ _ Eid Gs N). cbn in *. congruence.
  - rewrite <- Si. apply slice_same. apply (map_inj CI); [congruence|]. symmetry. apply (s_rel _ _ _ _ _ S (TI y)). intros i K.
    destruct (pend_busy _ _ _ _ _ _ _ S K) as (ap & hh & p & E & [_ Aim] & _). cbn [aims] in Aim.
    pose proof (Nx _ (busy_called _ _ _ _ R _ _ _ _ E)) as N1.
    destruct Aim as [(id & ai & Eid & W)|(id & ai & Eid & W)].
    + pose proof (d_x _ D _ _ _ _ Eid Gs). cbn in *. congruence.
    + destruct (Nat.eq_dec id (Z.to_nat (h_id h))) as [->|N].
      * rewrite frees_m_id, N1 in W. discriminate.
      * destruct (d_m _ D _ _ _ _ Eid Gs N). cbn in *. congruence.
Qed.

(** ** Data races *)
Lemma access_facts : forall c a ts ats G i ap h R (f : ffi -> res (R * ffi)) k, sim c a ts ats G ->
  nth_error ts i = Some (Busy ap h (Access f k)) ->
  careful h f c /\ forall r d, f c = Ok (r, d) -> forall tg, gc d tg = gc c tg \/ covers Wr h c tg \/ gc c tg = None.
Proof.
  intros c a ts ats G i ap h R f k S E. destruct (sim_at _ _ _ _ _ _ _ _ _ S E) as [_ W]. cbn [wp] in W.
  destruct (W c a (sim_env _ _ _ _ _ _ _ _ _ S E)) as [Cf Q]. split; auto. intros r d Ef tg. rewrite Ef in Q.
  destruct Q as (ph' & F' & P' & a' & Eff & _). destruct (ef_c _ _ _ _ _ _ _ _ _ Eff tg) as [|[[]|]]; auto.
Qed.
Lemma covered_live : forall c a ts ats G i ap h p tg, sim c a ts ats G -> nth_error ts i = Some (Busy ap h p) ->
  data tg -> covers Rd h c tg -> gc c tg <> None.
Proof.
  intros c a ts ats G i ap h p tg S E D Cv N. apply (s_dom _ _ _ _ _ S) in N.
  pose proof (sim_env _ _ _ _ _ _ _ _ _ S E) as V.
  destruct tg as [x|x|x|x|x]; try contradiction; cbn [covers] in Cv.
  - destruct Cv as (id & ai & Es & Hs & B). destruct (live_b _ _ _ _ _ _ _ _ _ V Es Hs B) as (_ & ns & is & An & _). congruence.
  - destruct Cv as [(id & an & Es & Hs & B)|(id & aq & Es & Hs)].
    + destruct (live_b _ _ _ _ _ _ _ _ _ V Es Hs B) as (_ & ns & is & _ & Ai & _). congruence.
    + destruct (live_m _ _ _ _ _ _ _ _ _ V Es Hs) as (_ & ns & is & _ & Ai & _). congruence.
  - destruct Cv as (id & ai & Es & Hs). destruct (live_m _ _ _ _ _ _ _ _ _ V Es Hs) as (_ & ns & is & Aq & _). congruence.
Qed.
(** What one thread's locks protect, another thread's access leaves alone. *)
Lemma others_keep : forall c a ts ats G i j a1 h1 R (f : ffi -> res (R * ffi)) k a2 h2 p2 r d, sim c a ts ats G -> i <> j ->
  nth_error ts i = Some (Busy a1 h1 (Access f k)) -> nth_error ts j = Some (Busy a2 h2 p2) -> f c = Ok (r, d) ->
  forall tg, covers Rd h2 c tg -> gc d tg = gc c tg.
Proof.
  intros c a ts ats G i j a1 h1 R f k a2 h2 p2 r d S Ne E1 E2 Ef tg Cv.
  pose proof (s_ex _ _ _ _ _ S _ _ _ _ _ _ _ _ Ne E1 E2) as Cp. pose proof (sim_distinct _ _ _ _ _ S) as D.
  destruct (access_facts _ _ _ _ _ _ _ _ _ _ _ S E1) as [[_ Ln] Fr]. destruct (Ln _ _ Ef) as (Lb & Lm & _).
  destruct (Fr _ _ Ef tg) as [|[W|N]]; auto; [exfalso; eapply exclusive; eauto|].
  destruct tg as [x|x|x|x|x].
  - exfalso. eapply covered_live; eauto. exact I.
  - exfalso. eapply covered_live; eauto. exact I.
  - exfalso. eapply covered_live; eauto. exact I.
  - destruct Lb as [Lb|W]; [|exfalso; eapply wr_rd; eauto]. rewrite N. cbn [gc] in *. rewrite map_none, nth_error_None in *. lia.
  - destruct Lm as [Lm|W]; [|exfalso; eapply wr_rd; eauto]. rewrite N. cbn [gc] in *. rewrite map_none, nth_error_None in *. lia.
Qed.
Lemma covers_slots : forall m h c c' tg, data tg -> covers m h c tg ->
  (forall tg, ~ data tg -> covers Rd h c tg -> gc c tg <> None -> gc c' tg = gc c tg) -> covers m h c' tg.
Proof.
  intros m h c c' [x|x|x|x|x] Dt H K; try contradiction; cbn [covers] in *.
  - destruct H as (id & ai & E & S & B). exists id, ai. split; auto. rewrite <- E. apply K; [cbn; auto|exact S|congruence].
  - destruct H as [(id & an & E & S & B)|(id & aq & E & Q)].
    + left. exists id, an. split; auto. rewrite <- E. apply K; [cbn; auto|exact S|congruence].
    + right. exists id, aq. split; auto. rewrite <- E. apply K; [cbn; auto|eapply has_rd; exact Q|congruence].
  - destruct H as (id & ai & E & Q). exists id, ai. split; auto. rewrite <- E. apply K; [cbn; auto|eapply has_rd; exact Q|congruence].
Qed.
(** Thread [j]'s access after thread [i]'s changes of the old vectors only
    what it may change now. *)
Lemma after_other : forall n tr st ts i j a1 h1 R1 (f1 : ffi -> res (R1 * ffi)) k1 a2 h2 R2 (f2 : ffi -> res (R2 * ffi)) k2 r1 st1 x st12,
  crun (process_new n) tr (Live st ts) -> i <> j ->
  nth_error ts i = Some (Busy a1 h1 (Access f1 k1)) -> nth_error ts j = Some (Busy a2 h2 (Access f2 k2)) ->
  f1 st = Ok (r1, st1) -> f2 st1 = Ok (x, st12) ->
  forall tg, data tg -> gc st1 tg <> None -> gc st12 tg = gc st1 tg \/ covers Wr h2 st tg.
Proof.
  intros n tr st ts i j a1 h1 R1 f1 k1 a2 h2 R2 f2 k2 r1 st1 x st12 R Ne E1 E2 Q1 Q12 tg Dt N.
  destruct (sim_run _ _ _ R) as (a & ats & G & S & _).
  pose proof (crun_snoc _ _ _ _ _ R (c_access st ts i a1 h1 R1 f1 k1 r1 st1 E1 Q1)) as R'.
  destruct (sim_run _ _ _ R') as (a' & ats' & G' & S' & _).
  assert (nth_error (upd ts i (Busy a1 h1 (k1 r1))) j = Some (Busy a2 h2 (Access f2 k2))) as E2'
    by (rewrite nth_error_upd_other by auto; exact E2).
  destruct (access_facts _ _ _ _ _ _ _ _ _ _ _ S' E2') as [_ Fr].
  destruct (Fr _ _ Q12 tg) as [|[W|]]; auto; [|contradiction]. right.
  apply (covers_slots Wr h2 st1 st tg Dt W). intros s Ns Cs _. symmetry.
  eapply (others_keep st a ts ats G i j); eauto. destruct s; cbn in Ns; try tauto; exact Cs.
Qed.
Lemma careful_outcome : forall h R (f : ffi -> res (R * ffi)) c c', careful h f c ->
  (forall tg, covers Rd h c tg -> gc c' tg = gc c tg) -> same_outcome (f c) (f c').
Proof.
  intros h R f c c' [Cf _] K. specialize (Cf c' K). destruct (f c) as [[r d]| | |], (f c') as [[r' d']| | |]; cbn; tauto.
Qed.
Lemma writes_same : forall c a ts ats G j a2 h2 R2 (f2 : ffi -> res (R2 * ffi)) k2 r2 st2 c' x d',
  sim c a ts ats G -> nth_error ts j = Some (Busy a2 h2 (Access f2 k2)) -> f2 c = Ok (r2, st2) -> f2 c' = Ok (x, d') ->
  (forall tg, covers Rd h2 c tg -> gc c' tg = gc c tg) ->
  forall tg, data tg -> gc c tg <> None -> covers Rd h2 c tg -> gc d' tg = gc st2 tg.
Proof.
  intros c a ts ats G j a2 h2 R2 f2 k2 r2 st2 c' x d' S E Q Q' K tg Dt N Cv.
  destruct (access_facts _ _ _ _ _ _ _ _ _ _ _ S E) as [[Cf _] _]. specialize (Cf c' K). rewrite Q, Q' in Cf.
  destruct Cf as [_ Cf]. symmetry. auto.
Qed.

(** No data race: of two threads in the middle of calls, each about to make a
    memory access, neither access can tell whether the other has happened, and
    their order does not matter. *)
Theorem C80_race_free : forall n tr st ts i j a1 h1 R1 (f1 : ffi -> res (R1 * ffi)) k1 a2 h2 R2 (f2 : ffi -> res (R2 * ffi)) k2,
  crun (process_new n) tr (Live st ts) -> i <> j ->
  nth_error ts i = Some (Busy a1 h1 (Access f1 k1)) -> nth_error ts j = Some (Busy a2 h2 (Access f2 k2)) ->
  no_conflict st f1 f2.
Proof.
  intros n tr st ts i j a1 h1 R1 f1 k1 a2 h2 R2 f2 k2 R Ne E1 E2.
  destruct (sim_run _ _ _ R) as (a & ats & G & S & _). assert (j <> i) as Ne' by auto.
  pose proof (access_facts _ _ _ _ _ _ _ _ _ _ _ S E1) as [Cf1 Fr1]. pose proof (access_facts _ _ _ _ _ _ _ _ _ _ _ S E2) as [Cf2 Fr2].
  pose proof (fun r d Q => others_keep _ _ _ _ _ _ _ _ _ _ _ _ _ _ _ r d S Ne E1 E2 Q) as K12.
  pose proof (fun r d Q => others_keep _ _ _ _ _ _ _ _ _ _ _ _ _ _ _ r d S Ne' E2 E1 Q) as K21.
  split; [|split].
  - intros r1 st1 Q. eapply careful_outcome; eauto.
  - intros r2 st2 Q. eapply careful_outcome; eauto.
  - intros r1 st1 r2 st2 x12 st12 x21 st21 Q1 Q2 Q12 Q21.
    assert (forall tg, data tg -> gc st tg <> None -> gc st12 tg = gc st21 tg) as All.
    { intros tg Dt N.
      pose proof (writes_same _ _ _ _ _ _ _ _ _ _ _ _ _ _ _ _ S E2 Q2 Q12 (K12 _ _ Q1) tg Dt N) as V12.
      pose proof (writes_same _ _ _ _ _ _ _ _ _ _ _ _ _ _ _ _ S E1 Q1 Q21 (K21 _ _ Q2) tg Dt N) as V21.
      pose proof (K12 _ _ Q1 tg) as K1. pose proof (K21 _ _ Q2 tg) as K2.
      assert (gc st1 tg <> None) as N1 by (apply (proj2 Cf1 _ _ Q1); auto).
      assert (gc st2 tg <> None) as N2 by (apply (proj2 Cf2 _ _ Q2); auto).
      pose proof (after_other _ _ _ _ _ _ _ _ _ _ _ _ _ _ _ _ _ _ _ _ R Ne E1 E2 Q1 Q12 tg Dt N1) as A12.
      pose proof (after_other _ _ _ _ _ _ _ _ _ _ _ _ _ _ _ _ _ _ _ _ R Ne' E2 E1 Q2 Q21 tg Dt N2) as A21.
      pose proof (Fr1 _ _ Q1 tg) as B1. pose proof (Fr2 _ _ Q2 tg) as B2.
      pose proof (s_ex _ _ _ _ _ S _ _ _ _ _ _ _ _ Ne E1 E2) as Cp. pose proof (s_ex _ _ _ _ _ S _ _ _ _ _ _ _ _ Ne' E2 E1) as Cp'.
      pose proof (sim_distinct _ _ _ _ _ S) as D.
      pose proof (fun W1 R2 => exclusive _ _ _ tg Cp D W1 R2) as X12. pose proof (fun W1 R2 => exclusive _ _ _ tg Cp' D W1 R2) as X21.
      pose proof (covers_rd Wr h1 st tg) as D1. pose proof (covers_rd Wr h2 st tg) as D2.
      destruct A12 as [A12|A12]; [destruct A21 as [A21|A21]|].
      - destruct B1 as [B1|[B1|]]; [|rewrite A12, (V21 (D1 B1)); auto|contradiction].
        destruct B2 as [B2|[B2|]]; [congruence|rewrite A21, (V12 (D2 B2)); auto|contradiction].
      - rewrite A12, (V21 (D1 A21)). auto.
      - rewrite (V12 (D2 A12)). destruct A21 as [A21|A21]; [auto|]. exfalso. apply (X21 A12). auto. }
    split; [|split]; intros x L.
    + specialize (All (TN x) I). cbn [gc] in All. rewrite map_none in All. apply (map_inj CN); [congruence|]. apply All. apply nth_error_Some. auto.
    + specialize (All (TI x) I). cbn [gc] in All. rewrite map_none in All. apply (map_inj CI); [congruence|]. apply All. apply nth_error_Some. auto.
    + specialize (All (TQ x) I). cbn [gc] in All. rewrite map_none in All. apply (map_inj CQ); [congruence|]. apply All. apply nth_error_Some. auto.
Qed.

(** ** Running a call alone *)
Fixpoint alone (k : nat) (st : ffi) (held : list (lock * mode)) (p : prog) : option (ffi * list (lock * mode) * prog) :=
  match k with
  | O => Some (st, held, p)
  | S k =>
      match p with
      | Return _ | Abort => None
      | Acquire l m p => if existsb (fun x => lock_eqb l (fst x)) held then None else alone k st ((l, m) :: held) p
      | Release l p => alone k st (drop_guard l held) p
      | Access f g => match f st with Ok (r, st') => alone k st' held (g r) | _ => None end
      end
  end.
Lemma alone_run : forall k s tr st a held p st' held' p',
  alone k st held p = Some (st', held', p') -> crun s tr (Live st [Busy a held p; Idle]) -> crun s tr (Live st' [Busy a held' p'; Idle]).
Proof.
  induction k as [|k IH]; intros s tr st a held p st' held' p' E R; cbn [alone] in E; [injection E as <- <- <-; auto|].
  replace tr with (tr ++ []) by apply app_nil_r.
  destruct p as [o|l m p|l p|X f g|]; try discriminate.
  - destruct (existsb (fun x => lock_eqb l (fst x)) held) eqn:Q; [discriminate|]. apply (IH _ _ _ _ _ _ _ _ _ E).
    econstructor; [exact R|]. apply (c_acquire st [Busy a held (Acquire l m p); Idle] 0 a held l m p eq_refl).
    intros [|[|j]] a' h' q m' Ej K; cbn [nth_error] in Ej; try discriminate; [|destruct j; discriminate].
    injection Ej as <- <- <-. exfalso.
    assert (existsb (fun x => lock_eqb l (fst x)) held = true); [|congruence].
    apply existsb_exists. exists (l, m'). split; auto. cbn. apply lock_refl.
  - apply (IH _ _ _ _ _ _ _ _ _ E). econstructor; [exact R|].
    apply (c_release st [Busy a held (Release l p); Idle] 0 a held l p eq_refl).
  - destruct (f st) as [[r st1]| | |] eqn:Q; try discriminate. apply (IH _ _ _ _ _ _ _ _ _ E). econstructor; [exact R|].
    apply (c_access st [Busy a held (Access f g); Idle] 0 a held X f g r st1 eq_refl Q).
Qed.
Lemma call_run : forall s tr st a, crun s tr (Live st [Idle; Idle]) -> crun s (tr ++ [ECall 0 a]) (Live st [Busy a [] (prog_of a); Idle]).
Proof. intros s tr st a R. econstructor; [exact R|]. apply (c_call st [Idle; Idle] 0 a eq_refl). Qed.
Lemma return_run : forall s tr st a held o, crun s tr (Live st [Busy a held (Return o); Idle]) -> crun s (tr ++ [EReturn 0 o]) (Live st [Idle; Idle]).
Proof. intros s tr st a held o R. econstructor; [exact R|]. apply (c_return st [Busy a held (Return o); Idle] 0 a held o eq_refl). Qed.

Definition moved_boxes : cbuf rtaabb := Cbuf 4096 [box_rt 100 101; box_rt 102 103; box_rt 104 105].
Definition first_handle : handle := Handle 0 5 (Some 0) 3 (Some 0).
Definition session_refit : api := ARefit (Some moved_boxes) first_handle.
Definition progress : Type := option (ffi * list (lock * mode) * prog).
Definition mem (x : progress) : ffi := match x with Some (st, _, _) => st | None => ffi_new end.
Definition locks_held (x : progress) : list (lock * mode) := match x with Some (_, h, _) => h | None => [] end.
Definition rest (x : progress) : prog := match x with Some (_, _, p) => p | None => Abort end.
Definition going (x : progress) : bool := match x with Some _ => true | None => false end.
Definition ends_with (x : progress) : option out := match x with Some (_, _, Return o) => Some o | _ => None end.
Lemma going_eq : forall x, going x = true -> x = Some (mem x, locks_held x, rest x).
Proof. intros [[[st h] p]|] E; [reflexivity|discriminate]. Qed.
Lemma ends_eq : forall x o, ends_with x = Some o -> x = Some (mem x, locks_held x, Return o).
Proof. intros [[[st h] [o'| | | |]]|] o E; cbn in E; try discriminate. injection E as ->. reflexivity. Qed.

Definition made : progress := alone 6 ffi_new [] (prog_of session_create).
Definition torn : progress := alone 6 (mem made) [] (prog_of session_refit).
Definition after : progress := alone 6 (mem torn) (locks_held torn) (rest torn).
Definition tree_of (x : progress) : res (list node) := handle_slice (f_nodes (mem x)) (h_nodes first_handle) (h_node_count first_handle).
Definition links (x : progress) : list (Z * Z) := match tree_of x with Ok l => map (fun n => (ex1 n, ex2 n)) l | _ => [] end.
Lemma race_facts :
  ends_with made = Some (COk, Some first_handle) /\ going torn = true /\ ends_with after = Some (COk, None) /\
  links made = [(-1, 1); (-1, 3); (1, 2); (1, 0); (1, 1)]%Z /\
  links torn = [(-1, 1); (-1, 3); (1, 2); (1, 0); (0, 0)]%Z /\
  links after = [(0, 0); (0, 0); (0, 0); (0, 0); (0, 0)]%Z.
Proof. vm_compute. repeat split. Qed.
Lemma tree_links : forall x y l, links x = y :: l -> exists ns, tree_of x = Ok ns /\ map (fun n => (ex1 n, ex2 n)) ns = y :: l.
Proof. intros x y l. unfold links. generalize (tree_of x). intros [ns| | |] E; try discriminate. eauto. Qed.

Definition call_create : list event := [ECall 0 session_create; EReturn 0 (COk, Some first_handle)].
Lemma made_run : crun (process_new 2) call_create (Live (mem made) [Idle; Idle]).
Proof.
  change call_create with ([ECall 0 session_create] ++ [EReturn 0 (COk, Some first_handle)]). eapply return_run.
  eapply alone_run; [|change [ECall 0 session_create] with ([] ++ [ECall 0 session_create]); apply call_run; apply crun_nil].
  apply ends_eq. exact (proj1 race_facts).
Qed.
Lemma torn_run : crun (process_new 2) (call_create ++ [ECall 0 session_refit])
  (Live (mem torn) [Busy session_refit (locks_held torn) (rest torn); Idle]).
Proof.
  eapply alone_run; [|apply call_run; apply made_run]. apply going_eq. exact (proj1 (proj2 race_facts)).
Qed.
Lemma after_run : crun (process_new 2) ((call_create ++ [ECall 0 session_refit]) ++ [EReturn 0 (COk, None)]) (Live (mem after) [Idle; Idle]).
Proof.
  eapply return_run. eapply alone_run; [|apply torn_run]. apply ends_eq. exact (proj1 (proj2 (proj2 race_facts))).
Qed.

(** It does not hold for refits: while thread 0 is inside refit, thread 1 may
    be reading through the same handle, whose nodes are then neither what they
    were before the call nor what they are after it.  (create_bvh, refit; the
    traversal functions take no lock.) *)
Theorem C80_race_refuted : exists tr1 st1 tr2 st2 ts2 tr3 st3 create h boxes ns1 ns2 ns3,
  crun (process_new 2) tr1 (Live st1 [Idle; Idle]) /\ answered 0 create (COk, Some h) tr1 /\
  tr2 = tr1 ++ [ECall 0 (ARefit boxes h)] /\ crun (process_new 2) tr2 (Live st2 ts2) /\ nth_error ts2 1 = Some Idle /\
  tr3 = tr2 ++ [EReturn 0 (COk, None)] /\ crun (process_new 2) tr3 (Live st3 [Idle; Idle]) /\
  handle_slice (f_nodes st1) (h_nodes h) (h_node_count h) = Ok ns1 /\
  handle_slice (f_nodes st2) (h_nodes h) (h_node_count h) = Ok ns2 /\
  handle_slice (f_nodes st3) (h_nodes h) (h_node_count h) = Ok ns3 /\ ns2 <> ns1 /\ ns2 <> ns3.
Proof.
  destruct race_facts as (_ & _ & _ & L1 & L2 & L3).
  destruct (tree_links _ _ _ L1) as (ns1 & T1 & M1). destruct (tree_links _ _ _ L2) as (ns2 & T2 & M2).
  destruct (tree_links _ _ _ L3) as (ns3 & T3 & M3).
  exists call_create, (mem made), (call_create ++ [ECall 0 session_refit]), (mem torn),
    [Busy session_refit (locks_held torn) (rest torn); Idle],
    ((call_create ++ [ECall 0 session_refit]) ++ [EReturn 0 (COk, None)]), (mem after),
    session_create, first_handle, (Some moved_boxes), ns1, ns2, ns3.
  split; [exact made_run|]. split; [exists [ECall 0 session_create], []; split; reflexivity|]. split; [reflexivity|].
  split; [exact torn_run|]. split; [reflexivity|]. split; [reflexivity|]. split; [exact after_run|].
  split; [exact T1|]. split; [exact T2|]. split; [exact T3|].
  split; intro E; subst; congruence.
Qed.

(** The theorems apply: in the middle of that run a call is in progress, at its
    end none; and [C80_handle] applies to the handle after the creation. *)
Definition alone_sizes (r : res (code * option handle * ffi)) : bool :=
  match r with
  | Ok (_, Some h0, st0) =>
      match manager_get st0 (h_id h0) with
      | Ok (Some b) => (length (nodes b) =? 5) && (length (prim_indices b) =? 3)
      | _ => false
      end
  | _ => false
  end.
Lemma session_sizes : alone_sizes (api_step ffi_new session_create) = true.
Proof. vm_compute. reflexivity. Qed.
Lemma sizes_eq : forall r h0 st0 b, alone_sizes r = true -> r = Ok (COk, Some h0, st0) -> manager_get st0 (h_id h0) = Ok (Some b) ->
  length (nodes b) = 5 /\ length (prim_indices b) = 3.
Proof.
  intros r h0 st0 b E -> M. cbn [alone_sizes] in E. rewrite M in E. apply andb_true_iff in E as [E1 E2].
  apply Nat.eqb_eq in E1. apply Nat.eqb_eq in E2. auto.
Qed.
Example C80_applies :
  ~ quiet (Live (mem torn) [Busy session_refit (locks_held torn) (rest torn); Idle]) /\
  quiet (Live (mem after) [Idle; Idle]) /\
  (exists b, reads_as (mem made) first_handle b /\ length (nodes b) = 5).
Proof.
  split; [|split].
  - intro Q. specialize (Q 0 _ eq_refl). discriminate.
  - intros [|[|i]] t E; cbn in E; try congruence. destruct i; discriminate.
  - assert (answered 0 session_create (COk, Some first_handle) call_create) as An
      by (exists [ECall 0 session_create], []; split; reflexivity).
    destruct (C80_handle _ _ _ _ _ _ _ _ _ _ _ _ _ _ made_run An eq_refl eq_refl) as (h0 & st0 & b & E & M & H).
    destruct (sizes_eq _ _ _ _ session_sizes E M) as [L1 L2]. exists b. split; [apply H; lia|exact L1].
Qed.

(** [C80_race_free] applies: thread 0 is about to drop the nodes of the
    structure made before, thread 1 to look up a 4-wide structure. *)
Definition freeing : progress := alone 2 (mem made) [] (prog_of (AFree first_handle)).
Definition about_to (st : ffi) (p : prog) : bool :=
  match p with Access f _ => match f st with Ok _ => true | _ => false end | _ => false end.
Lemma about_eq : forall st p, about_to st p = true -> exists R (f : ffi -> res (R * ffi)) k r st', p = Access f k /\ f st = Ok (r, st').
Proof.
  intros st p. destruct p as [o|l m k|l k|R f k|]; cbn [about_to]; try discriminate.
  destruct (f st) as [[r st']| | |] eqn:E; try discriminate. intros _. exists R, f, k, r, st'. auto.
Qed.
Definition only_structs (h : list (lock * mode)) : bool := match h with [(LStructs, Wr)] => true | _ => false end.
Lemma only_eq : forall h, only_structs h = true -> h = [(LStructs, Wr)].
Proof. intros [|[[| | |] [|]] [|]] E; try discriminate. auto. Qed.
Lemma freeing_facts : going freeing = true /\ about_to (mem freeing) (rest freeing) = true /\ only_structs (locks_held freeing) = true.
Proof. vm_compute. auto. Qed.
Example C80_race_free_applies : exists tr st ts R1 (f1 : ffi -> res (R1 * ffi)) k1 r1 st1 R2 (f2 : ffi -> res (R2 * ffi)) k2 r2 st2,
  crun (process_new 2) tr (Live st ts) /\
  nth_error ts 0 = Some (Busy (AFree first_handle) [(LStructs, Wr)] (Access f1 k1)) /\ f1 st = Ok (r1, st1) /\
  nth_error ts 1 = Some (Busy (AFreeM first_handle) [(LQuads, Wr)] (Access f2 k2)) /\ f2 st = Ok (r2, st2).
Proof.
  destruct freeing_facts as (G & Ab & On). apply only_eq in On.
  assert (crun (process_new 2) (call_create ++ [ECall 0 (AFree first_handle)])
    (Live (mem freeing) [Busy (AFree first_handle) (locks_held freeing) (rest freeing); Idle])) as R0.
  { eapply alone_run; [|apply call_run; apply made_run]. apply going_eq. exact G. }
  destruct (about_eq _ _ Ab) as (R1 & f1 & k1 & r1 & st1 & E1 & Q1). rewrite E1, On in R0. clear E1 On G Ab.
  set (st := mem freeing) in *. clearbody st.
  pose proof (crun_snoc _ _ _ _ _ R0 (c_call st [Busy (AFree first_handle) [(LStructs, Wr)] (Access f1 k1); Idle] 1 (AFreeM first_handle) eq_refl)) as R2.
  cbn [upd] in R2.
  assert (exists k2, prog_of (AFreeM first_handle) = Acquire LQuads Wr (Access (find_mbvh 0) k2)) as (k2 & E2) by (eexists; reflexivity).
  rewrite E2 in R2.
  set (ts := [Busy (AFree first_handle) [(LStructs, Wr)] (Access f1 k1);
              Busy (AFreeM first_handle) [] (Acquire LQuads Wr (Access (find_mbvh 0) k2))]) in R2.
  assert (can_take ts LQuads Wr) as Ct.
  { intros [|[|j]] a h p m' Ej K; cbn [nth_error ts] in Ej.
    - injection Ej as <- <- <-. destruct K as [K|[]]. discriminate.
    - injection Ej as <- <- <-. destruct K.
    - destruct j; discriminate. }
  assert (nth_error ts 1 = Some (Busy (AFreeM first_handle) [] (Acquire LQuads Wr (Access (find_mbvh 0) k2)))) as E by reflexivity.
  pose proof (crun_snoc _ _ _ _ _ R2 (c_acquire _ _ _ _ _ _ _ _ E Ct)) as R3. cbn [upd ts] in R3.
  do 2 eexists. exists [Busy (AFree first_handle) [(LStructs, Wr)] (Access f1 k1); Busy (AFreeM first_handle) [(LQuads, Wr)] (Access (find_mbvh 0) k2)].
  exists R1, f1, k1, r1, st1. do 5 eexists. split; [exact R3|]. split; [reflexivity|]. split; [exact Q1|]. split; reflexivity.
Qed.
