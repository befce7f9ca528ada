(** * Proofs about concurrent calls *)
Require Import List ZArith Bool Arith Lia.
From Verif Require Import F32 Vec AabbModel Base NodeModel LocbModel MbvhModel BvhModel FfiModel SpecFfi FfiProofs
  LockModel SpecLock.
Import ListNotations.
Local Open Scope nat_scope.

(** ** Memory, cell by cell *)
Inductive target := TN (a : nat) | TI (a : nat) | TQ (a : nat) | TB (i : nat) | TM (i : nat).
Inductive cell := CN (x : option (list node)) | CI (x : option (list nat)) | CQ (x : option (list mnode)) | CP (p : nat * nat).
Definition target_dec : forall a b : target, {a = b} + {a <> b}.
Proof. repeat decide equality. Defined.
Definition gc (st : ffi) (tg : target) : option cell :=
  match tg with
  | TN i => option_map CN (nth_error (f_nodes st) i)
  | TI i => option_map CI (nth_error (f_idx st) i)
  | TQ i => option_map CQ (nth_error (f_quads st) i)
  | TB i => option_map CP (nth_error (f_bvhs st) i)
  | TM i => option_map CP (nth_error (f_mbvhs st) i)
  end.
Definition data (tg : target) : Prop := match tg with TB _ | TM _ => False | _ => True end.

Lemma gc_ext : forall a b, (forall tg, gc a tg = gc b tg) -> a = b.
Proof.
  intros [n1 i1 q1 b1 m1] [n2 i2 q2 b2 m2] H.
  assert (forall {A} (K : A -> cell) l l', (forall x y, K x = K y -> x = y) ->
    (forall i, option_map K (nth_error l i) = option_map K (nth_error l' i)) -> l = l') as X.
  { intros A K l l' Inj E. apply nth_error_ext. intro i. specialize (E i).
    destruct (nth_error l i), (nth_error l' i); cbn in E; try discriminate; auto. f_equal. apply Inj. congruence. }
  f_equal.
  - apply (X _ CN); [congruence|]. intro i. apply (H (TN i)).
  - apply (X _ CI); [congruence|]. intro i. apply (H (TI i)).
  - apply (X _ CQ); [congruence|]. intro i. apply (H (TQ i)).
  - apply (X _ CP); [congruence|]. intro i. apply (H (TB i)).
  - apply (X _ CP); [congruence|]. intro i. apply (H (TM i)).
Qed.

Definition same_dom (c a : ffi) : Prop := forall tg, gc c tg = None <-> gc a tg = None.
Lemma len_eq : forall {A} (l l' : list A), (forall i, nth_error l i = None <-> nth_error l' i = None) -> length l = length l'.
Proof.
  intros A l l' H. destruct (Nat.lt_trichotomy (length l) (length l')) as [L|[L|L]]; auto; exfalso.
  - assert (nth_error l (length l) = None) as E by (apply nth_error_None; lia). apply H in E. apply nth_error_None in E. lia.
  - assert (nth_error l' (length l') = None) as E by (apply nth_error_None; lia). apply H in E. apply nth_error_None in E. lia.
Qed.
Lemma map_none : forall {A B} (f : A -> B) o, option_map f o = None <-> o = None.
Proof. intros A B f [x|]; cbn; split; congruence. Qed.
Lemma dom_len : forall c a, same_dom c a ->
  length (f_nodes c) = length (f_nodes a) /\ length (f_idx c) = length (f_idx a) /\ length (f_quads c) = length (f_quads a) /\
  length (f_bvhs c) = length (f_bvhs a) /\ length (f_mbvhs c) = length (f_mbvhs a).
Proof.
  intros c a H. repeat split; apply len_eq; intro i.
  - specialize (H (TN i)). cbn in H. rewrite !map_none in H. exact H.
  - specialize (H (TI i)). cbn in H. rewrite !map_none in H. exact H.
  - specialize (H (TQ i)). cbn in H. rewrite !map_none in H. exact H.
  - specialize (H (TB i)). cbn in H. rewrite !map_none in H. exact H.
  - specialize (H (TM i)). cbn in H. rewrite !map_none in H. exact H.
Qed.

(** ** What a set of locks protects *)
Definition locks : Type := list (lock * mode).
Definition has (m : mode) (h : locks) (l : lock) : Prop := match m with Rd => exists m', In (l, m') h | Wr => In (l, Wr) h end.
Definition covers (m : mode) (h : locks) (c : ffi) (tg : target) : Prop :=
  match tg with
  | TB _ => has m h LStructs
  | TM _ => has m h LQuads
  | TN x => exists id ai, gc c (TB id) = Some (CP (x, ai)) /\ has Rd h LStructs /\ (In (LStructs, Wr) h \/ has m h (LBvh id))
  | TQ x => exists id ai, gc c (TM id) = Some (CP (x, ai)) /\ has m h LQuads
  | TI x => (exists id an, gc c (TB id) = Some (CP (an, x)) /\ has Rd h LStructs /\ (In (LStructs, Wr) h \/ has m h (LBvh id))) \/
            (exists id aq, gc c (TM id) = Some (CP (aq, x)) /\ has m h LQuads)
  end.
Lemma has_rd : forall m h l, has m h l -> has Rd h l.
Proof. intros [|] h l H; auto. cbn in *. eauto. Qed.
Lemma covers_rd : forall m h c tg, covers m h c tg -> covers Rd h c tg.
Proof.
  intros m h c [x|x|x|x|x] H; cbn [covers] in *.
  - destruct H as (id & ai & E & S & [W|B]); exists id, ai; split; auto; split; auto. right. eapply has_rd; eauto.
  - destruct H as [(id & an & E & S & [W|B])|(id & aq & E & Q)].
    + left. exists id, an. auto.
    + left. exists id, an. split; auto. split; auto. right. eapply has_rd; eauto.
    + right. exists id, aq. split; auto. eapply has_rd; eauto.
  - destruct H as (id & ai & E & Q). exists id, ai. split; auto. eapply has_rd; eauto.
  - eapply has_rd; eauto.
  - eapply has_rd; eauto.
Qed.
(** Protection depends only on protected entries of the two lists. *)
Lemma covers_stable : forall m h c c' tg, covers m h c tg ->
  (forall tg, covers Rd h c tg -> gc c tg <> None -> gc c' tg = gc c tg) -> covers m h c' tg.
Proof.
  intros m h c c' [x|x|x|x|x] H K; cbn [covers] in *; auto.
  - destruct H as (id & ai & E & S & B). exists id, ai. split; auto. rewrite <- E. apply K; [exact S|congruence].
  - destruct H as [(id & an & E & S & B)|(id & aq & E & Q)].
    + left. exists id, an. split; auto. rewrite <- E. apply K; [exact S|congruence].
    + right. exists id, aq. split; auto. rewrite <- E. apply K; [eapply has_rd; exact Q|congruence].
  - destruct H as (id & ai & E & Q). exists id, ai. split; auto. rewrite <- E. apply K; [eapply has_rd; exact Q|congruence].
Qed.

Definition compat (h1 h2 : locks) : Prop := forall l m1 m2, In (l, m1) h1 -> In (l, m2) h2 -> m1 = Rd /\ m2 = Rd.
Record distinct (c : ffi) : Prop := Distinct {
  d_b : forall i j p p', gc c (TB i) = Some (CP p) -> gc c (TB j) = Some (CP p') -> i <> j -> fst p <> fst p' /\ snd p <> snd p';
  d_m : forall i j p p', gc c (TM i) = Some (CP p) -> gc c (TM j) = Some (CP p') -> i <> j -> fst p <> fst p' /\ snd p <> snd p';
  d_x : forall i j p p', gc c (TB i) = Some (CP p) -> gc c (TM j) = Some (CP p') -> snd p <> snd p' }.
Lemma gc_b : forall c i p, gc c (TB i) = Some (CP p) -> nth_error (f_bvhs c) i = Some p.
Proof. intros c i p H. cbn in H. destruct (nth_error (f_bvhs c) i); cbn in H; congruence. Qed.
Lemma gc_m : forall c i p, gc c (TM i) = Some (CP p) -> nth_error (f_mbvhs c) i = Some p.
Proof. intros c i p H. cbn in H. destruct (nth_error (f_mbvhs c) i); cbn in H; congruence. Qed.
Lemma inv_distinct : forall a t, inv a t -> distinct a.
Proof.
  intros a t I. constructor.
  - intros i j [an ai] [an' ai'] H H' N. apply gc_b in H, H'. apply (i_inj _ _ I _ _ _ _ _ _ H H' N).
  - intros i j [an ai] [an' ai'] H H' N. apply gc_m in H, H'. apply (i_minj _ _ I _ _ _ _ _ _ H H' N).
  - intros i j [an ai] [an' ai'] H H'. apply gc_b in H. apply gc_m in H'. apply (i_cross _ _ I _ _ _ _ _ _ H H').
Qed.
Lemma distinct_eq : forall a c, distinct a -> (forall tg, ~ data tg -> gc c tg = gc a tg) -> distinct c.
Proof.
  intros a c D E. constructor.
  - intros i j p p' H H'. rewrite E in H, H' by (cbn; auto). apply (d_b _ D _ _ _ _ H H').
  - intros i j p p' H H'. rewrite E in H, H' by (cbn; auto). apply (d_m _ D _ _ _ _ H H').
  - intros i j p p' H H'. rewrite E in H, H' by (cbn; auto). apply (d_x _ D _ _ _ _ H H').
Qed.

Lemma wr_rd : forall h1 h2 l, compat h1 h2 -> In (l, Wr) h1 -> has Rd h2 l -> False.
Proof. intros h1 h2 l C W [m R]. destruct (C _ _ _ W R). discriminate. Qed.
Lemma rd_wr : forall h1 h2 l, compat h1 h2 -> has Rd h1 l -> In (l, Wr) h2 -> False.
Proof. intros h1 h2 l C [m R] W. destruct (C _ _ _ R W). discriminate. Qed.
Lemma two_bvh : forall h1 h2 id id', compat h1 h2 -> id = id' ->
  has Rd h1 LStructs -> (In (LStructs, Wr) h1 \/ has Wr h1 (LBvh id)) ->
  has Rd h2 LStructs -> (In (LStructs, Wr) h2 \/ has Rd h2 (LBvh id')) -> False.
Proof.
  intros h1 h2 id id' C -> S1 [W1|W1] S2 [W2|W2].
  - eapply wr_rd; eauto.
  - eapply wr_rd; eauto.
  - eapply rd_wr; eauto.
  - eapply wr_rd; eauto.
Qed.
Lemma exclusive : forall h1 h2 c tg, compat h1 h2 -> distinct c -> covers Wr h1 c tg -> covers Rd h2 c tg -> False.
Proof.
  intros h1 h2 c [x|x|x|x|x] C D H1 H2; cbn [covers] in H1, H2.
  - destruct H1 as (i & ai & E & S & B), H2 as (j & aj & E' & S' & B').
    destruct (Nat.eq_dec i j) as [->|N].
    + eapply (two_bvh h1 h2 j j); eauto.
    + destruct (d_b _ D _ _ _ _ E E' N). cbn in *. congruence.
  - destruct H1 as [(i & ai & E & S & B)|(i & ai & E & Q)], H2 as [(j & aj & E' & S' & B')|(j & aj & E' & Q')].
    + destruct (Nat.eq_dec i j) as [->|N].
      * eapply (two_bvh h1 h2 j j); eauto.
      * destruct (d_b _ D _ _ _ _ E E' N). cbn in *. congruence.
    + pose proof (d_x _ D _ _ _ _ E E'). cbn in *. congruence.
    + pose proof (d_x _ D _ _ _ _ E' E). cbn in *. congruence.
    + eapply wr_rd; eauto.
  - destruct H1 as (i & ai & E & Q), H2 as (j & aj & E' & Q'). eapply wr_rd; eauto.
  - eapply wr_rd; eauto.
  - eapply wr_rd; eauto.
Qed.

(** ** What a thread knows and owes *)
Inductive phase := Before | After (o : out).
Definition cells : Type := list (target * cell).
Definition keys (P : cells) : list target := map fst P.

(** Call [ap] is about the structure that owns this cell. *)
Definition works_on (id : nat) (ap : api) : bool := api_frees (Z.of_nat id) ap || api_refits (Z.of_nat id) ap.
Definition aims (ap : api) (c : ffi) (tg : target) : Prop :=
  match tg with
  | TB id => api_frees (Z.of_nat id) ap = true
  | TM id => api_frees_m (Z.of_nat id) ap = true
  | TN x => exists id ai, gc c (TB id) = Some (CP (x, ai)) /\ works_on id ap = true
  | TI x => (exists id an, gc c (TB id) = Some (CP (an, x)) /\ api_frees (Z.of_nat id) ap = true) \/
            (exists id aq, gc c (TM id) = Some (CP (aq, x)) /\ api_frees_m (Z.of_nat id) ap = true)
  | TQ x => exists id ai, gc c (TM id) = Some (CP (x, ai)) /\ api_frees_m (Z.of_nat id) ap = true
  end.

(** The concrete memory [c] and the one of the reference [a], as a thread sees
    them: [F] are cells it knows, [P] cells it is in the middle of changing,
    with their value in the reference. *)
Record env (ap : api) (h : locks) (F P : cells) (c a : ffi) : Prop := Env {
  e_inv : exists t, inv a t;
  e_dom : same_dom c a;
  e_slots : forall tg, ~ data tg -> gc c tg = gc a tg;
  e_F : forall tg v, In (tg, v) F -> gc c tg = Some v /\ covers Rd h c tg;
  e_P : forall tg v, In (tg, v) P -> gc a tg = Some v /\ (covers Wr h c tg /\ aims ap c tg) /\ data tg;
  e_cov : forall tg, covers Rd h c tg -> ~ In tg (keys P) -> gc a tg = gc c tg }.

(** A step from [c], [a] to [c'], [a']. *)
Record effect (ap : api) (h : locks) (P F' P' : cells) (c a c' a' : ffi) : Prop := Effect {
  ef_c : forall tg, gc c' tg = gc c tg \/ (covers Wr h c tg /\ aims ap c tg) \/ gc c tg = None;
  ef_a : forall tg, gc a' tg = gc a tg \/ covers Wr h c tg \/ gc a tg = None;
  ef_F : forall tg v, In (tg, v) F' -> gc c' tg = Some v /\ covers Rd h c' tg;
  ef_P : forall tg v, In (tg, v) P' -> gc a' tg = Some v /\ (covers Wr h c' tg /\ aims ap c' tg) /\ data tg;
  ef_old : forall tg, In tg (keys P) -> ~ In tg (keys P') -> gc a' tg = gc c' tg;
  ef_rel : forall tg, ~ In tg (keys P') -> gc a tg = gc c tg -> gc a' tg = gc c' tg;
  ef_dom : same_dom c' a' }.

Definition crashes (a : ffi) (ap : api) : Prop := forall x, api_step a ap <> Ok x.
Definition rank (l : lock) : nat := match l with LStructs => 0 | LBvh _ => 1 | LQuads => 2 | LMbvh _ => 3 end.

(** The access [f], made under the locks [h], depends only on cells these locks
    protect against writers, and makes the lists of structures longer only if
    they protect them against everybody; nothing disappears. *)
Definition careful (h : locks) {R : Type} (f : ffi -> res (R * ffi)) (c : ffi) : Prop :=
  (forall c', (forall tg, covers Rd h c tg -> gc c' tg = gc c tg) ->
     match f c, f c' with
     | Ok (r, d), Ok (r', d') => r = r' /\ forall tg, data tg -> covers Rd h c tg -> gc c tg <> None -> gc d tg = gc d' tg
     | Panic, Panic | UB, UB | OutOfFuel, OutOfFuel => True
     | _, _ => False
     end) /\
  (forall r d, f c = Ok (r, d) -> (length (f_bvhs d) = length (f_bvhs c) \/ In (LStructs, Wr) h) /\
                                  (length (f_mbvhs d) = length (f_mbvhs c) \/ In (LQuads, Wr) h) /\
                                  (forall tg, gc c tg <> None -> gc d tg <> None)).

(** The rest [p] of call [ap] does what the call should. *)
Fixpoint wp (ap : api) (h : locks) (ph : phase) (F P : cells) (p : prog) : Prop :=
  match p with
  | Return o => h = [] /\ P = [] /\ (ph = After o \/ (ph = Before /\ forall st, api_step st ap = Ok (fst o, snd o, st)))
  | Acquire l m k => (forall l' m', In (l', m') h -> rank l' < rank l) /\ wp ap ((l, m) :: h) ph F P k
  | Release l k => (exists m, In (l, m) h) /\ P = [] /\ wp ap (drop_guard l h) ph [] [] k
  | Access f k =>
      forall c a, env ap h F P c a -> careful h f c /\
      match f c with
      | Ok (r, c') => exists ph' F' P' a', effect ap h P F' P' c a c' a' /\
          ((ph' = ph /\ a' = a) \/ (ph = Before /\ exists o, ph' = After o /\ api_step a ap = Ok (fst o, snd o, a'))) /\
          wp ap h ph' F' P' (k r)
      | _ => ph = Before /\ crashes a ap
      end
  | Abort => ph = Before /\ forall c a, env ap h F P c a -> crashes a ap
  end.

Lemma aims_stable : forall m ap h c c' tg, data tg -> covers m h c tg -> distinct c -> aims ap c tg ->
  (forall tg, covers Rd h c tg -> gc c tg <> None -> gc c' tg = gc c tg) -> aims ap c' tg.
Proof.
  intros m ap h c c' tg Dt C D H K. apply covers_rd in C. destruct tg as [x|x|x|x|x]; try contradiction; cbn [aims covers] in *.
  - destruct H as (id & ai & E & W), C as (id' & ai' & E' & S & _). exists id, ai. split; auto. rewrite <- E. apply K; [exact S|congruence].
  - destruct H as [(id & an & E & W)|(id & aq & E & W)], C as [(id' & an' & E' & S & _)|(id' & aq' & E' & S)].
    + left. exists id, an. split; auto. rewrite <- E. apply K; [exact S|congruence].
    + exfalso. apply (d_x _ D _ _ _ _ E E'). reflexivity.
    + exfalso. apply (d_x _ D _ _ _ _ E' E). reflexivity.
    + right. exists id, aq. split; auto. rewrite <- E. apply K; [exact S|congruence].
  - destruct H as (id & ai & E & W), C as (id' & ai' & E' & S). exists id, ai. split; auto. rewrite <- E. apply K; [exact S|congruence].
Qed.

(** ** The simulation *)
Record ghost := Ghost { g_ph : phase; g_F : cells; g_P : cells }.
Definition g0 : ghost := Ghost Before [] [].

Definition tinv (c a : ffi) (th : option thread) (at_ : option athread) (g : ghost) : Prop :=
  match th, at_ with
  | Some (Busy ap h p), Some x =>
      x = (match g_ph g with Before => ACalled ap | After o => ADone o end) /\
      (forall tg v, In (tg, v) (g_F g) -> gc c tg = Some v /\ covers Rd h c tg) /\
      (forall tg v, In (tg, v) (g_P g) -> gc a tg = Some v /\ (covers Wr h c tg /\ aims ap c tg) /\ data tg) /\
      wp ap h (g_ph g) (g_F g) (g_P g) p
  | Some Idle, Some AIdle => g = g0
  | None, None => g = g0
  | _, _ => False
  end.

Record sim (c a : ffi) (ts : list thread) (ats : list athread) (G : nat -> ghost) : Prop := Sim {
  s_inv : exists t, inv a t;
  s_dom : same_dom c a;
  s_rel : forall tg, (forall i, ~ In tg (keys (g_P (G i)))) -> gc a tg = gc c tg;
  s_th : forall i, tinv c a (nth_error ts i) (nth_error ats i) (G i);
  s_ex : forall i j a1 h1 p1 a2 h2 p2, i <> j -> nth_error ts i = Some (Busy a1 h1 p1) -> nth_error ts j = Some (Busy a2 h2 p2) ->
         compat h1 h2 }.

Lemma in_keys : forall tg (P : cells), In tg (keys P) -> exists v, In (tg, v) P.
Proof. intros tg P H. unfold keys in H. apply in_map_iff in H as [[t v] [<- I]]. eauto. Qed.

Lemma pend_busy : forall c a ts ats G i tg, sim c a ts ats G -> In tg (keys (g_P (G i))) ->
  exists ap h p, nth_error ts i = Some (Busy ap h p) /\ (covers Wr h c tg /\ aims ap c tg) /\ data tg.
Proof.
  intros c a ts ats G i tg S K. pose proof (s_th _ _ _ _ _ S i) as T. unfold tinv in T.
  destruct (nth_error ts i) as [[|ap h p]|], (nth_error ats i) as [[| |]|]; try contradiction; try (rewrite T in K; contradiction);
  destruct T as (_ & _ & TP & _); apply in_keys in K as [v K]; destruct (TP _ _ K) as (_ & A & B); eauto 10.
Qed.

Lemma sim_slots : forall c a ts ats G tg, sim c a ts ats G -> ~ data tg -> gc c tg = gc a tg.
Proof.
  intros c a ts ats G tg S D. symmetry. apply (s_rel _ _ _ _ _ S). intros i K.
  destruct (pend_busy _ _ _ _ _ _ _ S K) as (_ & _ & _ & _ & _ & Q). auto.
Qed.
Lemma sim_distinct : forall c a ts ats G, sim c a ts ats G -> distinct c.
Proof.
  intros c a ts ats G S. destruct (s_inv _ _ _ _ _ S) as [t I]. apply (distinct_eq a).
  - eapply inv_distinct; eauto.
  - intros. eapply sim_slots; eauto.
Qed.

Lemma sim_env : forall c a ts ats G i ap h p, sim c a ts ats G -> nth_error ts i = Some (Busy ap h p) ->
  env ap h (g_F (G i)) (g_P (G i)) c a.
Proof.
  intros c a ts ats G i ap h p S E. pose proof (s_th _ _ _ _ _ S i) as T. unfold tinv in T. rewrite E in T.
  destruct (nth_error ats i) as [x|]; [|contradiction]. destruct T as (_ & TF & TP & _).
  constructor; auto; try apply S.
  - intros. eapply sim_slots; eauto.
  - intros tg C K. apply (s_rel _ _ _ _ _ S). intros j Kj.
    destruct (Nat.eq_dec j i) as [->|N]; [auto|].
    destruct (pend_busy _ _ _ _ _ _ _ S Kj) as (ap' & h' & p' & E' & [C' _] & _).
    eapply exclusive; [| |exact C'|exact C]; [|eapply sim_distinct; eauto].
    eapply (s_ex _ _ _ _ _ S); [exact N|exact E'|exact E].
Qed.

Lemma upd_at : forall {A} (l : list A) i x y, nth_error l i = Some y -> nth_error (upd l i x) i = Some x.
Proof. intros A l i x y H. apply nth_error_upd_same. eapply nth_lt; eauto. Qed.

Definition gset (G : nat -> ghost) (i : nat) (g : ghost) : nat -> ghost := fun j => if j =? i then g else G j.
Lemma gset_at : forall G i g, gset G i g i = g.
Proof. intros. unfold gset. rewrite Nat.eqb_refl. auto. Qed.
Lemma gset_other : forall G i j g, j <> i -> gset G i g j = G j.
Proof. intros. unfold gset. destruct (Nat.eqb_spec j i); congruence. Qed.

Lemma sim_at : forall c a ts ats G i ap h p, sim c a ts ats G -> nth_error ts i = Some (Busy ap h p) ->
  nth_error ats i = Some (match g_ph (G i) with Before => ACalled ap | After o => ADone o end) /\
  wp ap h (g_ph (G i)) (g_F (G i)) (g_P (G i)) p.
Proof.
  intros c a ts ats G i ap h p S E. pose proof (s_th _ _ _ _ _ S i) as T. unfold tinv in T. rewrite E in T.
  destruct (nth_error ats i) as [x|]; [|contradiction]. destruct T as (-> & _ & _ & W). auto.
Qed.

(** A memory step of thread [i]. *)
Lemma sim_effect : forall c a ts ats G i ap h p c' a' ph' F' P' p' x,
  sim c a ts ats G -> nth_error ts i = Some (Busy ap h p) -> (exists t, inv a' t) ->
  effect ap h (g_P (G i)) F' P' c a c' a' -> wp ap h ph' F' P' p' ->
  x = (match ph' with Before => ACalled ap | After o => ADone o end) ->
  sim c' a' (upd ts i (Busy ap h p')) (upd ats i x) (gset G i (Ghost ph' F' P')).
Proof.
  intros c a ts ats G i ap h p c' a' ph' F' P' p' x S E I' Ef W X.
  destruct (sim_at _ _ _ _ _ _ _ _ _ S E) as [Ea _].
  assert (forall j ap2 h2 p2, j <> i -> nth_error ts j = Some (Busy ap2 h2 p2) -> compat h h2) as Cp
    by (intros j ap2 h2 p2 N E2; eapply (s_ex _ _ _ _ _ S); [|exact E|exact E2]; auto).
  pose proof (sim_distinct _ _ _ _ _ S) as D.
  constructor; auto.
  - apply (ef_dom _ _ _ _ _ _ _ _ _ Ef).
  - intros tg K. pose proof (K i) as Ki. rewrite gset_at in Ki. cbn [g_P] in Ki.
    destruct (in_dec target_dec tg (keys (g_P (G i)))) as [O|O].
    + apply (ef_old _ _ _ _ _ _ _ _ _ Ef _ O Ki).
    + apply (ef_rel _ _ _ _ _ _ _ _ _ Ef _ Ki). apply (s_rel _ _ _ _ _ S). intro j.
      destruct (Nat.eq_dec j i) as [->|N]; auto. specialize (K j). rewrite gset_other in K; auto.
  - intro j. destruct (Nat.eq_dec j i) as [->|N].
    + rewrite gset_at. erewrite !upd_at by eauto. cbn [tinv g_ph g_F g_P]. split; auto. split; [apply Ef|]. split; [apply Ef|auto].
    + rewrite gset_other by auto. rewrite !nth_error_upd_other by auto.
      pose proof (s_th _ _ _ _ _ S j) as T. unfold tinv in *.
      destruct (nth_error ts j) as [[|ap2 h2 p2]|] eqn:Ej, (nth_error ats j) as [y|]; auto.
      destruct T as (T1 & TF & TP & TW). specialize (Cp _ _ _ _ N Ej).
      assert (forall tg, covers Rd h2 c tg -> gc c tg <> None -> gc c' tg = gc c tg) as K.
      { intros tg Cv Nn. destruct (ef_c _ _ _ _ _ _ _ _ _ Ef tg) as [|[[Q _]|]]; auto; [|congruence].
        exfalso. eapply exclusive; eauto. }
      split; auto. split; [|split; auto].
      * intros tg v Iv. destruct (TF _ _ Iv) as [A B]. split.
        -- rewrite <- A. apply K; [auto|congruence].
        -- eapply covers_stable; eauto.
      * intros tg v Iv. destruct (TP _ _ Iv) as (A & [B B'] & Dt). split; [|split; [split|auto]].
        -- destruct (ef_a _ _ _ _ _ _ _ _ _ Ef tg) as [Q|[Q|Q]]; [congruence| |congruence].
           exfalso. eapply exclusive; [exact Cp|exact D|exact Q|eapply covers_rd; eauto].
        -- eapply covers_stable; eauto.
        -- eapply aims_stable; eauto.
  - intros j k a1 h1 p1 a2 h2 p2 N H1 H2. rewrite nth_upd in H1; rewrite nth_upd in H2. pose proof (nth_lt _ _ _ E).
    destruct (Nat.ltb_spec i (length ts)); [|lia].
    destruct (Nat.eqb_spec j i) as [->|Nj], (Nat.eqb_spec k i) as [->|Nk]; cbn [andb] in H1, H2; try congruence.
    + injection H1 as <- <- <-. eapply (s_ex _ _ _ _ _ S); [|exact E|exact H2]; auto.
    + injection H2 as <- <- <-. eapply (s_ex _ _ _ _ _ S); [|exact H1|exact E]; auto.
    + eapply (s_ex _ _ _ _ _ S); [|exact H1|exact H2]; auto.
Qed.

(** A step of thread [i] that changes no memory. *)
Lemma sim_local : forall c a ts ats G i th th' x g',
  sim c a ts ats G -> nth_error ts i = Some th -> nth_error ats i <> None ->
  tinv c a (Some th') (Some x) g' ->
  (forall tg, In tg (keys (g_P (G i))) -> In tg (keys (g_P g'))) ->
  (forall ap h p, th' = Busy ap h p -> forall j ap2 h2 p2, j <> i -> nth_error ts j = Some (Busy ap2 h2 p2) -> compat h h2 /\ compat h2 h) ->
  sim c a (upd ts i th') (upd ats i x) (gset G i g').
Proof.
  intros c a ts ats G i th th' x g' S E Ea T K C. destruct (nth_error ats i) as [y|] eqn:Ey; [|congruence]. constructor; try apply S.
  - intros tg Q. apply (s_rel _ _ _ _ _ S). intros j. specialize (Q j).
    destruct (Nat.eq_dec j i) as [->|N]; [rewrite gset_at in Q; auto|rewrite gset_other in Q; auto].
  - intro j. destruct (Nat.eq_dec j i) as [->|N].
    + rewrite gset_at. erewrite !upd_at by eauto. auto.
    + rewrite gset_other by auto. rewrite !nth_error_upd_other by auto. apply S.
  - intros j k a1 h1 p1 a2 h2 p2 N H1 H2. rewrite nth_upd in H1; rewrite nth_upd in H2. pose proof (nth_lt _ _ _ E).
    destruct (Nat.ltb_spec i (length ts)); [|lia].
    destruct (Nat.eqb_spec j i) as [->|Nj], (Nat.eqb_spec k i) as [->|Nk]; cbn [andb] in H1, H2; try congruence.
    + injection H1 as ->. apply (C _ _ _ eq_refl _ _ _ _ Nk H2).
    + injection H2 as ->. apply (C _ _ _ eq_refl _ _ _ _ Nj H1).
    + eapply (s_ex _ _ _ _ _ S); [|exact H1|exact H2]; auto.
Qed.

Lemma in_drop : forall l h x, In x (drop_guard l h) -> In x h.
Proof.
  induction h as [|[l' m] h IH]; intros x H; cbn [drop_guard] in H; [auto|].
  destruct (lock_eqb l l'); [right; auto|]. destruct H as [H|H]; [left; auto|right; auto].
Qed.
Lemma cov_more : forall m h h' c tg, (forall x, In x h -> In x h') -> covers m h c tg -> covers m h' c tg.
Proof.
  intros m h h' c tg Sub. assert (forall m l, has m h l -> has m h' l) as Hs.
  { intros [|] l H; cbn in *; auto. destruct H as [m' H]. eauto. }
  destruct tg; cbn [covers]; auto.
  - intros (id & ai & E & S & B). exists id, ai. split; auto. split; auto. destruct B; auto.
  - intros [(id & ai & E & S & B)|(id & aq & E & Q)]; [left; exists id, ai; split; auto; split; auto; destruct B; auto|right; eauto].
  - intros (id & ai & E & Q). eauto.
Qed.

(** Every call is right. *)
Definition calls_ok : Prop := forall ap, wp ap [] Before [] [] (prog_of ap).

Lemma api_inv : forall a t ap c h a', inv a t -> api_step a ap = Ok (c, h, a') -> exists t', inv a' t'.
Proof.
  intros a [bs ms] ap c h a' I H. destruct ap as [bb aabbs n centers stride ppl k null|bd co aabbs n stride vertices vs ts ppl null|fuel h0 null|aabbs h0|h0|h0]; cbn [api_step] in H.
  - unfold create_bvh in H.
    repeat match goal with
      | H : (if ?b then _ else _) = Ok _ |- _ => destruct b; try discriminate
      | H : match ?r with Some _ => _ | None => _ end = Ok _ |- _ => destruct r; try discriminate
      | H : Ok _ = Ok _ |- _ => injection H as <- <- <-; eauto
      | H : bind ?r _ = Ok _ |- _ => destruct r; try discriminate; cbn [bind] in H
      | H : match ?r with ROk _ => _ | RErr _ => _ end = Ok _ |- _ => destruct r
      | H : (let '(_, _) := store a ?b in _) = Ok _ |- _ =>
          destruct (store a b) as [hh ss] eqn:Es; injection H as <- <- <-; exists (bs ++ [b], ms);
          pose proof (inv_store a bs ms b I) as J; rewrite Es in J; exact J
      end.
  - unfold create_spatial in H. destruct (negb (stride mod 4 =? 0)%Z); [discriminate|].
    match type of H with bind ?g _ = _ => destruct g as [given| | |]; try discriminate; cbn [bind] in H end.
    match type of H with bind ?g _ = _ => destruct g as [[b|e]| | |]; try discriminate; cbn [bind] in H end.
    + destruct null; [discriminate|]. destruct (store a b) as [hh ss] eqn:Es; injection H as <- <- <-; exists (bs ++ [b], ms).
      pose proof (inv_store a bs ms b I) as J; rewrite Es in J; exact J.
    + injection H as <- <- <-. eauto.
  - unfold create_mbvh in H.
    repeat match goal with
      | H : (if ?b then _ else _) = Ok _ |- _ => destruct b; try discriminate
      | H : match ?r with Some _ => _ | None => _ end = Ok _ |- _ => destruct r; try discriminate
      | H : Ok _ = Ok _ |- _ => injection H as <- <- <-; eauto
      | H : bind ?r _ = Ok _ |- _ => destruct r; try discriminate; cbn [bind] in H
      | H : (let '(_, _) := store_mbvh a ?b in _) = Ok _ |- _ =>
          destruct (store_mbvh a b) as [hh ss] eqn:Es; injection H as <- <- <-; exists (bs, ms ++ [(m_nodes b, mb_indices b)]);
          pose proof (inv_store_m a bs ms b I) as J; rewrite Es in J; exact J
      end.
  - destruct (ffi_refit a aabbs h0) as [[c1 a1]| | |] eqn:R; try discriminate. cbn [bind] in H. injection H as <- <- <-.
    unfold ffi_refit in R.
    destruct aabbs as [ab|]; [|injection R as <- <-; eauto].
    destruct (h_nodes h0); [|injection R as <- <-; eauto]. destruct (h_indices h0); [|injection R as <- <-; eauto].
    rewrite (get_table _ _ _ I) in R. cbn [bind fst] in R.
    destruct (nth_error bs (Z.to_nat (h_id h0))) as [b|] eqn:Eb; [|injection R as <- <-; eauto].
    destruct (raw_parts _ _ _); try discriminate. cbn [bind] in R.
    destruct (BvhModel.refit b _) as [b'| | |]; try discriminate. cbn [bind] in R. injection R as <- <-.
    eexists. eapply inv_set_nodes; eauto.
  - injection H as <- <- <-. eexists. apply inv_free; eauto.
  - injection H as <- <- <-. eexists. apply inv_free_m; eauto.
Qed.

(** One step of the process is at most one step of the reference. *)
Lemma sim_step : calls_ok -> forall c a ts ats G e s', sim c a ts ats G -> cstep (Live c ts) e s' ->
  match s' with
  | Live c' ts' => exists a' ats' G', sim c' a' ts' ats' G' /\
      (astep (ALive a ats) e (ALive a' ats') \/ (e = [] /\ a' = a /\ ats' = ats) \/
       exists ats1, astep (ALive a ats) [] (ALive a ats1) /\ astep (ALive a ats1) e (ALive a' ats'))
  | Down => astep (ALive a ats) e ADown
  end.
Proof.
  intros OK c a ts ats G e s' S St. inversion St as
    [st ts0 t ap E|st ts0 t ap h l m k E Ct|st ts0 t ap h l k E|st ts0 t ap h R f k r st' E Ef|st ts0 t ap h o E|st ts0 t ap h R f k E Nf|st ts0 t ap h E];
    subst.
  - pose proof (s_th _ _ _ _ _ S t) as T. unfold tinv in T. rewrite E in T.
    destruct (nth_error ats t) as [[| |]|] eqn:Ea; try contradiction.
    exists a, (upd ats t (ACalled ap)), (gset G t g0). split; [|left; constructor; auto].
    eapply sim_local; eauto.
    + congruence.
    + cbn [tinv g0 g_ph g_F g_P]. split; auto. split; [intros tg v []|]. split; [intros tg v []|]. apply OK.
    + rewrite T. cbn. auto.
    + intros ? ? ? [= <- <- <-] j ap2 h2 p2 N Ej. split; [intros l m1 m2 []|intros l m1 m2 H []].
  - destruct (sim_at _ _ _ _ _ _ _ _ _ S E) as [Ea W]. cbn [wp] in W. destruct W as [Rk W].
    exists a, ats, (gset G t (G t)). split; [|right; left; auto].
    replace ats with (upd ats t (match g_ph (G t) with Before => ACalled ap | After o => ADone o end))
      by (apply nth_error_ext; intro i; rewrite nth_upd; destruct (Nat.eqb_spec i t) as [->|]; cbn [andb]; auto;
          destruct (Nat.ltb_spec t (length ats)); auto; congruence).
    pose proof (s_th _ _ _ _ _ S t) as T. unfold tinv in T. rewrite E, Ea in T. destruct T as (_ & TF & TP & _).
    eapply sim_local; eauto.
    + congruence.
    + cbn [tinv]. split; auto. split; [|split; auto].
      * intros tg v Iv. destruct (TF _ _ Iv). split; auto. eapply cov_more; [|eauto]. cbn; auto.
      * intros tg v Iv. destruct (TP _ _ Iv) as (A & [B B'] & D). split; auto. split; auto. split; auto. eapply cov_more; [|eauto]. cbn; auto.
    + intros ap' h' p' [= <- <- <-] j ap2 h2 p2 N Ej. split.
      * intros l' m1 m2 [[= <- <-]|I1] I2.
        -- destruct (Ct _ _ _ _ _ Ej I2). auto.
        -- assert (t <> j) as N' by auto. apply (s_ex _ _ _ _ _ S _ _ _ _ _ _ _ _ N' E Ej _ _ _ I1 I2).
      * intros l' m1 m2 I1 [[= <- <-]|I2].
        -- destruct (Ct _ _ _ _ _ Ej I1). auto.
        -- apply (s_ex _ _ _ _ _ S _ _ _ _ _ _ _ _ N Ej E _ _ _ I1 I2).
  - destruct (sim_at _ _ _ _ _ _ _ _ _ S E) as [Ea W]. cbn [wp] in W. destruct W as (_ & Pn & W).
    exists a, ats, (gset G t (Ghost (g_ph (G t)) [] [])). split; [|right; left; auto].
    replace ats with (upd ats t (match g_ph (G t) with Before => ACalled ap | After o => ADone o end))
      by (apply nth_error_ext; intro i; rewrite nth_upd; destruct (Nat.eqb_spec i t) as [->|]; cbn [andb]; auto;
          destruct (Nat.ltb_spec t (length ats)); auto; congruence).
    eapply sim_local; eauto.
    + congruence.
    + cbn [tinv g_ph g_F g_P]. split; auto. split; [intros tg v []|]. split; [intros tg v []|]. auto.
    + rewrite Pn. cbn. auto.
    + intros ap' h' p' [= <- <- <-] j ap2 h2 p2 N Ej. split.
      * intros l' m1 m2 I1 I2. apply in_drop in I1.
        assert (t <> j) as N' by auto. apply (s_ex _ _ _ _ _ S _ _ _ _ _ _ _ _ N' E Ej _ _ _ I1 I2).
      * intros l' m1 m2 I1 I2. apply in_drop in I2. apply (s_ex _ _ _ _ _ S _ _ _ _ _ _ _ _ N Ej E _ _ _ I1 I2).
  - destruct (sim_at _ _ _ _ _ _ _ _ _ S E) as [Ea W]. cbn [wp] in W.
    specialize (W c a (sim_env _ _ _ _ _ _ _ _ _ S E)) as [_ W]. rewrite Ef in W.
    destruct W as (ph' & F' & P' & a' & Eff & [[-> ->]|(Pb & o & -> & Ap)] & W).
    + exists a, ats, (gset G t (Ghost (g_ph (G t)) F' P')). split; [|right; left; auto].
      replace ats with (upd ats t (match g_ph (G t) with Before => ACalled ap | After o => ADone o end))
        by (apply nth_error_ext; intro i; rewrite nth_upd; destruct (Nat.eqb_spec i t) as [->|]; cbn [andb]; auto;
            destruct (Nat.ltb_spec t (length ats)); auto; congruence).
      eapply sim_effect; eauto. apply S.
    + exists a', (upd ats t (ADone o)), (gset G t (Ghost (After o) F' P')). rewrite Pb in Ea. split.
      * eapply sim_effect; eauto. destruct (s_inv _ _ _ _ _ S) as [tt I]. eapply api_inv; eauto.
      * left. destruct o as [cc hh]. econstructor; eauto.
  - destruct (sim_at _ _ _ _ _ _ _ _ _ S E) as [Ea W]. cbn [wp] in W. destruct W as (-> & Pn & W).
    exists a, (upd ats t AIdle), (gset G t g0). split.
    + eapply sim_local; eauto; [congruence|reflexivity|rewrite Pn; cbn; auto|discriminate].
    + destruct W as [W|[W Q]]; rewrite W in Ea.
      * left. econstructor; eauto.
      * right. right. exists (upd ats t (ADone o)). split.
        -- destruct o as [cc hh]. econstructor; eauto.
        -- replace (upd ats t AIdle) with (upd (upd ats t (ADone o)) t AIdle).
           ++ econstructor. eapply upd_at; eauto.
           ++ apply nth_error_ext; intro i. rewrite !nth_upd, upd_length. destruct ((i =? t) && (t <? length ats)); auto.
  - destruct (sim_at _ _ _ _ _ _ _ _ _ S E) as [Ea W]. cbn [wp] in W.
    specialize (W c a (sim_env _ _ _ _ _ _ _ _ _ S E)) as [_ W].
    assert (g_ph (G t) = Before /\ crashes a ap) as [Pb Cr]
      by (destruct (f c) as [[r c']| | |] eqn:Q; auto; exfalso; eapply Nf; eauto).
    rewrite Pb in Ea. econstructor; eauto.
  - destruct (sim_at _ _ _ _ _ _ _ _ _ S E) as [Ea W]. cbn [wp] in W. destruct W as [Pb Cr].
    rewrite Pb in Ea. econstructor; eauto. eapply Cr. eapply sim_env; eauto.
Qed.
