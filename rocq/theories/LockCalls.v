(** * Every call of the interface, with its locks, does what the sequential call does *)
Require Import List ZArith Bool Arith Lia.
From Verif Require Import F32 Vec AabbModel Base NodeModel LocbModel MbvhModel BvhModel FfiModel SpecFfi FfiProofs
  LockModel SpecLock LockProofs.
Import ListNotations.
Local Open Scope nat_scope.

(** ** Reads *)
Lemma effect_read : forall ap h F P F' P' c a a', env ap h F P c a -> (forall tg, gc a' tg = gc a tg) ->
  (forall tg v, In (tg, v) F' -> gc c tg = Some v /\ covers Rd h c tg) ->
  (forall tg v, In (tg, v) P' -> gc a tg = Some v /\ (covers Wr h c tg /\ aims ap c tg) /\ data tg) ->
  (forall tg, In tg (keys P) -> In tg (keys P')) ->
  effect ap h P F' P' c a c a'.
Proof.
  intros ap h F P F' P' c a a' E Q H HP K. constructor; auto.
  - intros tg v I. rewrite Q. auto.
  - intros tg A B. exfalso. auto.
  - intros tg _ X. rewrite Q. auto.
  - intro tg. rewrite Q. apply E.
Qed.
Lemma gcN : forall c i x, gc c (TN i) = Some (CN x) <-> nth_error (f_nodes c) i = Some x.
Proof. intros c i x. cbn. destruct (nth_error (f_nodes c) i); cbn; split; congruence. Qed.
Lemma gcI : forall c i x, gc c (TI i) = Some (CI x) <-> nth_error (f_idx c) i = Some x.
Proof. intros c i x. cbn. destruct (nth_error (f_idx c) i); cbn; split; congruence. Qed.
Lemma gcQ : forall c i x, gc c (TQ i) = Some (CQ x) <-> nth_error (f_quads c) i = Some x.
Proof. intros c i x. cbn. destruct (nth_error (f_quads c) i); cbn; split; congruence. Qed.
Lemma gcB : forall c i x, gc c (TB i) = Some (CP x) <-> nth_error (f_bvhs c) i = Some x.
Proof. intros c i x. cbn. destruct (nth_error (f_bvhs c) i); cbn; split; congruence. Qed.
Lemma gcM : forall c i x, gc c (TM i) = Some (CP x) <-> nth_error (f_mbvhs c) i = Some x.
Proof. intros c i x. cbn. destruct (nth_error (f_mbvhs c) i); cbn; split; congruence. Qed.


(** ** What an access depends on *)
Lemma careful_read : forall h R (f : ffi -> res (R * ffi)) c r,
  (forall c', (forall tg, covers Rd h c tg -> gc c' tg = gc c tg) -> f c' = Ok (r, c')) -> careful h f c.
Proof.
  intros h R f c r H. split.
  - intros c' K. rewrite (H c), (H c') by auto. split; auto. intros tg _ Cv _. symmetry. auto.
  - intros r' d E. rewrite (H c) in E by auto. injection E as <- <-. auto.
Qed.
Lemma find_careful : forall h id c, has Rd h LStructs -> careful h (find_bvh id) c.
Proof.
  intros h id c S. apply (careful_read _ _ _ _ (nth_error (f_bvhs c) id)). intros c' K. unfold find_bvh. do 2 f_equal.
  specialize (K (TB id) S). cbn [gc] in K. destruct (nth_error (f_bvhs c') id), (nth_error (f_bvhs c) id); cbn in K; congruence.
Qed.
Lemma find_m_careful : forall h id c, has Rd h LQuads -> careful h (find_mbvh id) c.
Proof.
  intros h id c S. apply (careful_read _ _ _ _ (nth_error (f_mbvhs c) id)). intros c' K. unfold find_mbvh. do 2 f_equal.
  specialize (K (TM id) S). cbn [gc] in K. destruct (nth_error (f_mbvhs c') id), (nth_error (f_mbvhs c) id); cbn in K; congruence.
Qed.
Lemma some_lt : forall {A B} (K : A -> B) l i, option_map K (nth_error l i) <> None -> i < length l.
Proof. intros A B K l i H. rewrite map_none in H. apply nth_error_Some. auto. Qed.
Lemma app_old : forall {A} (l l' : list A) i, i < length l -> nth_error (l ++ l') i = nth_error l i.
Proof. intros. apply nth_error_app1. auto. Qed.
Lemma store_old : forall c b tg, data tg -> gc c tg <> None -> gc (snd (store c b)) tg = gc c tg.
Proof.
  intros c b [x|x|x|x|x] D N; try contradiction; cbn [gc store snd f_nodes f_idx f_quads] in *; auto;
    rewrite app_old; auto; eapply some_lt; eauto.
Qed.
Lemma store_m_old : forall c b tg, data tg -> gc c tg <> None -> gc (snd (store_mbvh c b)) tg = gc c tg.
Proof.
  intros c b [x|x|x|x|x] D N; try contradiction; cbn [gc store_mbvh snd f_nodes f_idx f_quads] in *; auto;
    rewrite app_old; auto; eapply some_lt; eauto.
Qed.
Lemma app_some : forall {A B} (K : A -> B) l l' i, option_map K (nth_error l i) <> None -> option_map K (nth_error (l ++ l') i) <> None.
Proof. intros. rewrite app_old; auto. eapply some_lt; eauto. Qed.
Lemma upd_some : forall {A B} (K : A -> B) l i x j, option_map K (nth_error l j) <> None -> option_map K (nth_error (upd l i x) j) <> None.
Proof.
  intros A B K l i x j H. apply some_lt in H. rewrite map_none. apply nth_error_Some. rewrite upd_length. auto.
Qed.
Lemma push_careful : forall h b c, In (LStructs, Wr) h -> careful h (push_bvh b) c.
Proof.
  intros h b c W. split.
  - intros c' K. unfold push_bvh. split.
    + cbn [store snd f_bvhs]. rewrite !app_length. cbn [length]. f_equal. f_equal. apply len_eq. intro i.
      assert (covers Rd h c (TB i)) as Cv by (exists Wr; auto). specialize (K _ Cv). cbn [gc] in K.
      rewrite <- (map_none CP (nth_error (f_bvhs c) i)), <- K, map_none. tauto.
    + intros tg D Cv N. rewrite !store_old; auto; [|rewrite K; auto]. symmetry. auto.
  - intros r d [= _ <-]. split; [|split]; [auto|cbn [store snd f_mbvhs]; auto|].
    intros [x|x|x|x|x] N; cbn [gc store snd f_nodes f_idx f_quads f_bvhs f_mbvhs] in *; auto using app_some.
Qed.
Lemma push_m_careful : forall h b c, In (LQuads, Wr) h -> careful h (push_mbvh b) c.
Proof.
  intros h b c W. split.
  - intros c' K. unfold push_mbvh. split.
    + cbn [store_mbvh snd f_mbvhs]. rewrite !app_length. cbn [length]. f_equal. f_equal. apply len_eq. intro i.
      assert (covers Rd h c (TM i)) as Cv by (exists Wr; auto). specialize (K _ Cv). cbn [gc] in K.
      rewrite <- (map_none CP (nth_error (f_mbvhs c) i)), <- K, map_none. tauto.
    + intros tg D Cv N. rewrite !store_m_old; auto; [|rewrite K; auto]. symmetry. auto.
  - intros r d [= _ <-]. split; [|split]; [cbn [store_mbvh snd f_bvhs]; auto|auto|].
    intros [x|x|x|x|x] N; cbn [gc store_mbvh snd f_nodes f_idx f_quads f_bvhs f_mbvhs] in *; auto using app_some.
Qed.
Lemma reset_careful : forall h id c, careful h (reset_bvh id) c.
Proof.
  intros h id c. split.
  - intros c' K. unfold reset_bvh. split; auto. intros tg D Cv N. specialize (K _ Cv).
    destruct tg as [x|x|x|x|x]; try contradiction; cbn [gc f_nodes f_idx f_quads] in *; auto;
      rewrite !app_old; auto; eapply some_lt; eauto; rewrite K; eauto.
  - intros r d [= _ <-]. cbn [f_bvhs f_mbvhs]. rewrite upd_length. split; [auto|split; [auto|]].
    intros [x|x|x|x|x] N; cbn [gc f_nodes f_idx f_quads f_bvhs f_mbvhs] in *; auto using app_some, upd_some.
Qed.
Lemma reset_m_careful : forall h id c, careful h (reset_mbvh id) c.
Proof.
  intros h id c. split.
  - intros c' K. unfold reset_mbvh. split; auto. intros tg D Cv N. specialize (K _ Cv).
    destruct tg as [x|x|x|x|x]; try contradiction; cbn [gc f_nodes f_idx f_quads] in *; auto;
      rewrite !app_old; auto; eapply some_lt; eauto; rewrite K; eauto.
  - intros r d [= _ <-]. cbn [f_bvhs f_mbvhs]. rewrite upd_length. split; [auto|split; [auto|]].
    intros [x|x|x|x|x] N; cbn [gc f_nodes f_idx f_quads f_bvhs f_mbvhs] in *; auto using app_some, upd_some.
Qed.
Lemma updN_gc : forall c a x y tg, nth_error (f_nodes c) a = Some y ->
  gc (Ffi (upd (f_nodes c) a x) (f_idx c) (f_quads c) (f_bvhs c) (f_mbvhs c)) tg = if target_dec tg (TN a) then Some (CN x) else gc c tg.
Proof.
  intros c a x y tg E. apply nth_lt in E. destruct (target_dec tg (TN a)) as [->|N].
  - cbn [gc f_nodes]. rewrite nth_error_upd_same; auto.
  - destruct tg; cbn [gc f_nodes f_idx f_quads f_bvhs f_mbvhs]; auto. rewrite nth_error_upd_other by congruence. reflexivity.
Qed.
Lemma updI_gc : forall c a x y tg, nth_error (f_idx c) a = Some y ->
  gc (Ffi (f_nodes c) (upd (f_idx c) a x) (f_quads c) (f_bvhs c) (f_mbvhs c)) tg = if target_dec tg (TI a) then Some (CI x) else gc c tg.
Proof.
  intros c a x y tg E. apply nth_lt in E. destruct (target_dec tg (TI a)) as [->|N].
  - cbn [gc f_idx]. rewrite nth_error_upd_same; auto.
  - destruct tg; cbn [gc f_nodes f_idx f_quads f_bvhs f_mbvhs]; auto. rewrite nth_error_upd_other by congruence. reflexivity.
Qed.
Lemma updQ_gc : forall c a x y tg, nth_error (f_quads c) a = Some y ->
  gc (Ffi (f_nodes c) (f_idx c) (upd (f_quads c) a x) (f_bvhs c) (f_mbvhs c)) tg = if target_dec tg (TQ a) then Some (CQ x) else gc c tg.
Proof.
  intros c a x y tg E. apply nth_lt in E. destruct (target_dec tg (TQ a)) as [->|N].
  - cbn [gc f_quads]. rewrite nth_error_upd_same; auto.
  - destruct tg; cbn [gc f_nodes f_idx f_quads f_bvhs f_mbvhs]; auto. rewrite nth_error_upd_other by congruence. reflexivity.
Qed.
Lemma drop_nodes_careful : forall h a c x, covers Rd h c (TN a) -> gc c (TN a) = Some (CN (Some x)) -> careful h (drop_nodes a) c.
Proof.
  intros h a c x V E. split.
  - intros c' K. pose proof (eq_trans (K _ V) E) as E'. apply gcN in E, E'.
    unfold drop_nodes, heap_get. rewrite E, E'. cbn [bind]. split; auto.
    intros tg D Cv N. rewrite (updN_gc _ _ _ _ _ E), (updN_gc _ _ _ _ _ E'). destruct (target_dec tg (TN a)); auto. symmetry. auto.
  - apply gcN in E. unfold drop_nodes, heap_get. rewrite E. cbn [bind]. intros r d [= _ <-]. split; [auto|split; [auto|]].
    intros [y|y|y|y|y] N; cbn [gc f_nodes f_idx f_quads f_bvhs f_mbvhs] in *; auto using upd_some.
Qed.
Lemma drop_idx_careful : forall h a c x, covers Rd h c (TI a) -> gc c (TI a) = Some (CI (Some x)) -> careful h (drop_idx a) c.
Proof.
  intros h a c x V E. split.
  - intros c' K. pose proof (eq_trans (K _ V) E) as E'. apply gcI in E, E'.
    unfold drop_idx, heap_get. rewrite E, E'. cbn [bind]. split; auto.
    intros tg D Cv N. rewrite (updI_gc _ _ _ _ _ E), (updI_gc _ _ _ _ _ E'). destruct (target_dec tg (TI a)); auto. symmetry. auto.
  - apply gcI in E. unfold drop_idx, heap_get. rewrite E. cbn [bind]. intros r d [= _ <-]. split; [auto|split; [auto|]].
    intros [y|y|y|y|y] N; cbn [gc f_nodes f_idx f_quads f_bvhs f_mbvhs] in *; auto using upd_some.
Qed.
Lemma drop_quads_careful : forall h a c x, covers Rd h c (TQ a) -> gc c (TQ a) = Some (CQ (Some x)) -> careful h (drop_quads a) c.
Proof.
  intros h a c x V E. split.
  - intros c' K. pose proof (eq_trans (K _ V) E) as E'. apply gcQ in E, E'.
    unfold drop_quads, heap_get. rewrite E, E'. cbn [bind]. split; auto.
    intros tg D Cv N. rewrite (updQ_gc _ _ _ _ _ E), (updQ_gc _ _ _ _ _ E'). destruct (target_dec tg (TQ a)); auto. symmetry. auto.
  - apply gcQ in E. unfold drop_quads, heap_get. rewrite E. cbn [bind]. intros r d [= _ <-]. split; [auto|split; [auto|]].
    intros [y|y|y|y|y] N; cbn [gc f_nodes f_idx f_quads f_bvhs f_mbvhs] in *; auto using upd_some.
Qed.
Lemma refit_careful : forall h an ai l i c x y, covers Rd h c (TN an) -> gc c (TN an) = Some (CN (Some x)) ->
  covers Rd h c (TI ai) -> gc c (TI ai) = Some (CI (Some y)) -> careful h (refit_at an ai l i) c.
Proof.
  intros h an ai l i c x y Vn En Vi Ei. split.
  - intros c' K. pose proof (eq_trans (K _ Vn) En) as En'. pose proof (eq_trans (K _ Vi) Ei) as Ei'.
    apply gcN in En, En'. apply gcI in Ei, Ei'. unfold refit_at, heap_get. rewrite En, En', Ei, Ei'. cbn [bind].
    destruct (refit_node y l i x) as [x'| | |]; cbn [bind]; auto. split; auto.
    intros tg D Cv N. rewrite (updN_gc _ _ _ _ _ En), (updN_gc _ _ _ _ _ En'). destruct (target_dec tg (TN an)); auto. symmetry. auto.
  - apply gcN in En. apply gcI in Ei. unfold refit_at, heap_get. rewrite En, Ei. cbn [bind].
    destruct (refit_node y l i x); cbn [bind]; try discriminate. intros r d [= _ <-]. split; [auto|split; [auto|]].
    intros [z|z|z|z|z] N; cbn [gc f_nodes f_idx f_quads f_bvhs f_mbvhs] in *; auto using upd_some.
Qed.

Lemma wp_read : forall ap h ph F P R (f : ffi -> res (R * ffi)) k,
  (forall c a, env ap h F P c a -> exists r F' P', (forall c', (forall tg, covers Rd h c tg -> gc c' tg = gc c tg) -> f c' = Ok (r, c')) /\
     (forall tg v, In (tg, v) F' -> gc c tg = Some v /\ covers Rd h c tg) /\
     (forall tg v, In (tg, v) P' -> gc a tg = Some v /\ (covers Wr h c tg /\ aims ap c tg) /\ data tg) /\
     (forall tg, In tg (keys P) -> In tg (keys P')) /\
     wp ap h ph F' P' (k r)) ->
  wp ap h ph F P (Access f k).
Proof.
  intros ap h ph F P R f k H. cbn [wp]. intros c a E. destruct (H c a E) as (r & F' & P' & Q & HF & HP & K & W).
  split; [eapply careful_read; eauto|]. rewrite (Q c) by auto.
  exists ph, F', P', a. split; [|split; auto]. eapply effect_read; eauto.
Qed.

(** A structure under its locks is there, and the same in the reference. *)
Lemma live_b : forall ap h F P c a id an ai, env ap h F P c a -> gc c (TB id) = Some (CP (an, ai)) ->
  has Rd h LStructs -> (In (LStructs, Wr) h \/ has Rd h (LBvh id)) ->
  gc a (TB id) = Some (CP (an, ai)) /\
  exists ns is, gc a (TN an) = Some (CN (Some ns)) /\ gc a (TI ai) = Some (CI (Some is)) /\
    (~ In (TN an) (keys P) -> gc c (TN an) = Some (CN (Some ns))) /\
    (~ In (TI ai) (keys P) -> gc c (TI ai) = Some (CI (Some is))) /\
    covers Rd h c (TN an) /\ covers Rd h c (TI ai).
Proof.
  intros ap h F P c a id an ai E Hs S B. assert (gc a (TB id) = Some (CP (an, ai))) as Ha
    by (rewrite <- (e_slots _ _ _ _ _ _ E (TB id)); cbn [data]; auto).
  split; auto. destruct (e_inv _ _ _ _ _ _ E) as [t I].
  destruct (inv_live _ _ _ _ _ I (proj1 (gcB _ _ _) Ha)) as (_ & _ & b & Hb).
  destruct (i_bvh _ _ I _ _ _ _ (proj1 (gcB _ _ _) Ha) Hb) as [Hn Hi].
  apply gcN in Hn. apply gcI in Hi.
  assert (covers Rd h c (TN an)) as Cn by (exists id, ai; auto).
  assert (covers Rd h c (TI ai)) as Ci by (left; exists id, an; auto).
  exists (nodes b), (prim_indices b). split; auto. split; auto. split; [|split; [|auto]].
  - intro K. rewrite <- (e_cov _ _ _ _ _ _ E); auto.
  - intro K. rewrite <- (e_cov _ _ _ _ _ _ E); auto.
Qed.
Lemma get_a : forall a id an ai ns is, gc a (TB (Z.to_nat id)) = Some (CP (an, ai)) -> gc a (TN an) = Some (CN (Some ns)) ->
  gc a (TI ai) = Some (CI (Some is)) -> manager_get a id = Ok (Some (Bvh ns is)).
Proof.
  intros a id an ai ns is Hb Hn Hi. apply gcB in Hb. apply gcN in Hn. apply gcI in Hi.
  unfold manager_get, heap_get. rewrite Hb, Hn, Hi. reflexivity.
Qed.
Lemma live_m : forall ap h F P c a id aq ai, env ap h F P c a -> gc c (TM id) = Some (CP (aq, ai)) -> has Rd h LQuads ->
  gc a (TM id) = Some (CP (aq, ai)) /\
  exists qs is, gc a (TQ aq) = Some (CQ (Some qs)) /\ gc a (TI ai) = Some (CI (Some is)) /\
    (~ In (TQ aq) (keys P) -> gc c (TQ aq) = Some (CQ (Some qs))) /\
    (~ In (TI ai) (keys P) -> gc c (TI ai) = Some (CI (Some is))) /\
    covers Rd h c (TQ aq) /\ covers Rd h c (TI ai).
Proof.
  intros ap h F P c a id an ai E Hs S. assert (gc a (TM id) = Some (CP (an, ai))) as Ha
    by (rewrite <- (e_slots _ _ _ _ _ _ E (TM id)); cbn [data]; auto).
  split; auto. destruct (e_inv _ _ _ _ _ _ E) as [t I].
  destruct (inv_live_m _ _ _ _ _ I (proj1 (gcM _ _ _) Ha)) as (_ & _ & b & Hb).
  destruct (i_mbvh _ _ I _ _ _ _ (proj1 (gcM _ _ _) Ha) Hb) as [Hn Hi].
  apply gcQ in Hn. apply gcI in Hi.
  assert (covers Rd h c (TQ an)) as Cn by (exists id, ai; auto).
  assert (covers Rd h c (TI ai)) as Ci by (right; exists id, an; auto).
  exists (fst b), (snd b). split; auto. split; auto. split; [|split; [|auto]].
  - intro K. rewrite <- (e_cov _ _ _ _ _ _ E); auto.
  - intro K. rewrite <- (e_cov _ _ _ _ _ _ E); auto.
Qed.

(** ** Storing *)
Lemma fresh_store : forall c a b, same_dom c a -> forall tg,
  (gc (snd (store c b)) tg = gc c tg /\ gc (snd (store a b)) tg = gc a tg) \/
  (gc c tg = None /\ gc a tg = None /\ gc (snd (store c b)) tg = gc (snd (store a b)) tg).
Proof.
  intros c a b D tg. destruct (dom_len _ _ D) as (Ln & Li & Lq & Lb & Lm).
  destruct tg as [x|x|x|x|x]; cbn [gc store snd f_nodes f_idx f_quads f_bvhs f_mbvhs]; try (left; auto; fail);
    rewrite !nth_app_at.
  - rewrite Ln. destruct (Nat.eqb_spec x (length (f_nodes a))) as [->|N]; [right|left; auto].
    rewrite !(proj2 (nth_error_None _ _)) by lia. auto.
  - rewrite Li. destruct (Nat.eqb_spec x (length (f_idx a))) as [->|N]; [right|left; auto].
    rewrite !(proj2 (nth_error_None _ _)) by lia. auto.
  - rewrite Lb, Ln, Li. destruct (Nat.eqb_spec x (length (f_bvhs a))) as [->|N]; [right|left; auto].
    rewrite !(proj2 (nth_error_None _ _)) by lia. auto.
Qed.
Lemma fresh_store_m : forall c a b, same_dom c a -> forall tg,
  (gc (snd (store_mbvh c b)) tg = gc c tg /\ gc (snd (store_mbvh a b)) tg = gc a tg) \/
  (gc c tg = None /\ gc a tg = None /\ gc (snd (store_mbvh c b)) tg = gc (snd (store_mbvh a b)) tg).
Proof.
  intros c a b D tg. destruct (dom_len _ _ D) as (Ln & Li & Lq & Lb & Lm).
  destruct tg as [x|x|x|x|x]; cbn [gc store_mbvh snd f_nodes f_idx f_quads f_bvhs f_mbvhs]; try (left; auto; fail);
    rewrite !nth_app_at.
  - rewrite Li. destruct (Nat.eqb_spec x (length (f_idx a))) as [->|N]; [right|left; auto].
    rewrite !(proj2 (nth_error_None _ _)) by lia. auto.
  - rewrite Lq. destruct (Nat.eqb_spec x (length (f_quads a))) as [->|N]; [right|left; auto].
    rewrite !(proj2 (nth_error_None _ _)) by lia. auto.
  - rewrite Lm, Lq, Li. destruct (Nat.eqb_spec x (length (f_mbvhs a))) as [->|N]; [right|left; auto].
    rewrite !(proj2 (nth_error_None _ _)) by lia. auto.
Qed.
Lemma effect_fresh : forall ap h F F' c a c' a', env ap h F [] c a ->
  (forall tg, (gc c' tg = gc c tg /\ gc a' tg = gc a tg) \/ (gc c tg = None /\ gc a tg = None /\ gc c' tg = gc a' tg)) ->
  (forall tg v, In (tg, v) F' -> gc c' tg = Some v /\ covers Rd h c' tg) ->
  effect ap h [] F' [] c a c' a'.
Proof.
  intros ap h F F' c a c' a' E D HF. constructor; auto.
  - intro tg. destruct (D tg) as [[A B]|(A & B & _)]; auto.
  - intro tg. destruct (D tg) as [[A B]|(A & B & _)]; auto.
  - intros tg v [].
  - intros tg [].
  - intros tg _ Q. destruct (D tg) as [[A B]|(A & B & C)]; congruence.
  - intro tg. destruct (D tg) as [[A B]|(A & B & C)]; [|rewrite C; tauto].
    rewrite A, B. apply E.
Qed.

Lemma store_ok : forall ap b, (forall a, api_step a ap = Ok (COk, Some (fst (store a b)), snd (store a b))) ->
  wp ap [] Before [] [] (store_p b (fun h => Return (COk, Some h))).
Proof.
  intros ap b Ap. unfold store_p. cbn [wp]. split; [intros ? ? []|].
  intros c a E. split; [apply push_careful; left; auto|]. unfold push_bvh. destruct (dom_len _ _ (e_dom _ _ _ _ _ _ E)) as (Ln & Li & Lq & Lb & Lm).
  set (an := length (f_nodes c)). set (ai := length (f_idx c)). set (id := length (f_bvhs c)).
  assert (length (f_bvhs (snd (store c b))) - 1 = id) as ->
    by (unfold store; cbn [snd f_bvhs]; rewrite app_length; unfold id; cbn [length]; lia).
  exists (After (COk, Some (fst (store a b)))), [(TB id, CP (an, ai)); (TN an, CN (Some (nodes b))); (TI ai, CI (Some (prim_indices b)))], [],
    (snd (store a b)).
  assert (forall x, x = (LStructs, Wr) -> In x [(LStructs, Wr)]) as InS by (intros x ->; left; auto).
  assert (gc (snd (store c b)) (TB id) = Some (CP (an, ai))) as Eb
    by (cbn [gc store snd f_bvhs]; rewrite nth_app_at; unfold id; rewrite Nat.eqb_refl; reflexivity).
  split; [|split].
  - eapply effect_fresh; eauto.
    + apply fresh_store. apply E.
    + intros tg v [[= <- <-]|[[= <- <-]|[[= <- <-]|[]]]].
      * split; auto. exists Wr. cbn; auto.
      * split; [cbn [gc store snd f_nodes]; rewrite nth_app_at; unfold an; rewrite Nat.eqb_refl; reflexivity|].
        exists id, ai. split; auto. split; [exists Wr; cbn; auto|left; cbn; auto].
      * split; [cbn [gc store snd f_idx]; rewrite nth_app_at; unfold ai; rewrite Nat.eqb_refl; reflexivity|].
        left. exists id, an. split; auto. split; [exists Wr; cbn; auto|left; cbn; auto].
  - right. split; auto. eexists. split; [reflexivity|]. cbn [fst snd]. apply Ap.
  - split.
    { intros l' m' [[= <- <-]|[]]. cbn [rank]. lia. }
    change (wp ap [(LBvh id, Rd); (LStructs, Wr)] (After (COk, Some (fst (store a b))))
      [(TB id, CP (an, ai)); (TN an, CN (Some (nodes b))); (TI ai, CI (Some (prim_indices b)))] []
      (Access (handle_of_bvh id) (fun h => Release (LBvh id) (Release LStructs (Return (COk, Some h)))))).
    apply wp_read. intros c2 a2 E2.
    destruct (e_F _ _ _ _ _ _ E2 _ _ (or_introl eq_refl)) as [F1 C1].
    destruct (e_F _ _ _ _ _ _ E2 _ _ (or_intror (or_introl eq_refl))) as [F2 C2].
    destruct (e_F _ _ _ _ _ _ E2 _ _ (or_intror (or_intror (or_introl eq_refl)))) as [F3 C3].
    exists (fst (store a b)), [], []. split.
    { intros c' Kc. rewrite <- (Kc _ C1) in F1. rewrite <- (Kc _ C2) in F2. rewrite <- (Kc _ C3) in F3.
      apply gcB in F1. apply gcN in F2. apply gcI in F3. unfold handle_of_bvh, heap_get. rewrite F1, F2, F3. cbn [bind]. unfold store; cbn [fst].
      unfold id, an, ai. rewrite Lb, Ln, Li. reflexivity. }
    split; [intros tg v []|]. split; [intros tg v []|]. split; [auto|].
    cbn [wp drop_guard lock_eqb]. rewrite Nat.eqb_refl.
    split; [eexists; cbn; eauto|]. split; auto. cbn [drop_guard lock_eqb]. split; [eexists; cbn; eauto|]. auto.
Qed.

Lemma store_m_ok : forall ap h F m k, (forall l' m', In (l', m') h -> rank l' < 2) ->
  (forall c a, env ap ((LQuads, Wr) :: h) F [] c a -> api_step a ap = Ok (COk, Some (fst (store_mbvh a m)), snd (store_mbvh a m))) ->
  (forall x, wp ap h (After (COk, Some x)) [] [] (k x)) ->
  wp ap h Before F [] (store_mbvh_p m k).
Proof.
  intros ap h F m k Rk Ap K. unfold store_mbvh_p. cbn [wp]. split; [intros l' m' I; apply Rk in I; cbn [rank]; lia|].
  intros c a E. split; [apply push_m_careful; left; auto|]. unfold push_mbvh. destruct (dom_len _ _ (e_dom _ _ _ _ _ _ E)) as (Ln & Li & Lq & Lb & Lm).
  set (aq := length (f_quads c)). set (ai := length (f_idx c)). set (id := length (f_mbvhs c)).
  assert (length (f_mbvhs (snd (store_mbvh c m))) - 1 = id) as ->
    by (unfold store_mbvh; cbn [snd f_mbvhs]; rewrite app_length; unfold id; cbn [length]; lia).
  exists (After (COk, Some (fst (store_mbvh a m)))), [(TM id, CP (aq, ai)); (TQ aq, CQ (Some (m_nodes m))); (TI ai, CI (Some (mb_indices m)))], [],
    (snd (store_mbvh a m)).
  assert (gc (snd (store_mbvh c m)) (TM id) = Some (CP (aq, ai))) as Eb
    by (cbn [gc store_mbvh snd f_mbvhs]; rewrite nth_app_at; unfold id; rewrite Nat.eqb_refl; reflexivity).
  split; [|split].
  - eapply effect_fresh; eauto.
    + apply fresh_store_m. apply E.
    + intros tg v [[= <- <-]|[[= <- <-]|[[= <- <-]|[]]]].
      * split; auto. exists Wr. cbn; auto.
      * split; [cbn [gc store_mbvh snd f_quads]; rewrite nth_app_at; unfold aq; rewrite Nat.eqb_refl; reflexivity|].
        exists id, ai. split; auto. exists Wr; cbn; auto.
      * split; [cbn [gc store_mbvh snd f_idx]; rewrite nth_app_at; unfold ai; rewrite Nat.eqb_refl; reflexivity|].
        right. exists id, aq. split; auto. exists Wr; cbn; auto.
  - right. split; auto. eexists. split; [reflexivity|]. cbn [fst snd]. eapply Ap; eauto.
  - split.
    { intros l' m' [[= <- <-]|I]; [cbn [rank]; lia|]. apply Rk in I. cbn [rank]. lia. }
    change (wp ap ((LMbvh id, Rd) :: (LQuads, Wr) :: h) (After (COk, Some (fst (store_mbvh a m))))
      [(TM id, CP (aq, ai)); (TQ aq, CQ (Some (m_nodes m))); (TI ai, CI (Some (mb_indices m)))] []
      (Access (handle_of_mbvh id) (fun x => Release (LMbvh id) (Release LQuads (k x))))).
    apply wp_read. intros c2 a2 E2.
    destruct (e_F _ _ _ _ _ _ E2 _ _ (or_introl eq_refl)) as [F1 C1].
    destruct (e_F _ _ _ _ _ _ E2 _ _ (or_intror (or_introl eq_refl))) as [F2 C2].
    destruct (e_F _ _ _ _ _ _ E2 _ _ (or_intror (or_intror (or_introl eq_refl)))) as [F3 C3].
    exists (fst (store_mbvh a m)), [], []. split.
    { intros c' Kc. rewrite <- (Kc _ C1) in F1. rewrite <- (Kc _ C2) in F2. rewrite <- (Kc _ C3) in F3.
      apply gcM in F1. apply gcQ in F2. apply gcI in F3. unfold handle_of_mbvh, heap_get. rewrite F1, F2, F3. cbn [bind]. unfold store_mbvh; cbn [fst].
      unfold id, aq, ai. rewrite Lm, Lq, Li. reflexivity. }
    split; [intros tg v []|]. split; [intros tg v []|]. split; [auto|].
    cbn [wp drop_guard lock_eqb]. rewrite Nat.eqb_refl.
    split; [eexists; cbn; eauto|]. split; auto. cbn [drop_guard lock_eqb]. split; [eexists; cbn; eauto|]. auto.
Qed.

(** ** create_bvh *)
Lemma create_split : forall bs st aabbs n centers stride ppl k null,
  create_bvh bs st aabbs n centers stride ppl k null =
  match create_local bs aabbs n centers stride ppl k null with
  | Ok (inl c) => Ok (c, None, st)
  | Ok (inr b) => Ok (COk, Some (fst (store st b)), snd (store st b))
  | Panic => Panic | UB => UB | OutOfFuel => OutOfFuel
  end.
Proof.
  intros. unfold create_bvh, create_local. destruct centers as [cs|]; auto. destruct null; auto.
  destruct (negb (stride mod 4 =? 0)%Z); auto. destruct (negb (12 <=? stride)%Z); auto. destruct (negb (stride <=? 16)%Z); auto.
  match goal with |- bind ?g _ = _ => destruct g as [given| | |]; cbn [bind]; auto end.
  match goal with |- bind ?g _ = _ => destruct g as [r| | |]; cbn [bind]; auto end.
  destruct r as [b|e]; auto.
Qed.
Lemma create_ok : forall bs aabbs n centers stride ppl k null,
  wp (ACreate bs aabbs n centers stride ppl k null) [] Before [] [] (create_bvh_p bs aabbs n centers stride ppl k null).
Proof.
  intros. unfold create_bvh_p.
  pose proof (fun st => create_split bs st aabbs n centers stride ppl k null) as Q.
  destruct (create_local bs aabbs n centers stride ppl k null) as [[c|b]| | |]; cbn [locally].
  - cbn [wp]. split; [auto|]. split; [auto|]. right. split; [auto|exact Q].
  - apply store_ok. intro a. cbn [api_step]. apply Q.
  - cbn [wp]. split; auto. intros c a _ x. cbn [api_step]. rewrite Q. discriminate.
  - cbn [wp]. split; auto. intros c a _ x. cbn [api_step]. rewrite Q. discriminate.
  - cbn [wp]. split; auto. intros c a _ x. cbn [api_step]. rewrite Q. discriminate.
Qed.

(** ** create_spatial_Bvh *)
Lemma spatial_split : forall build collect st aabbs n stride vertices vs ts ppl null,
  create_spatial build collect st aabbs n stride vertices vs ts ppl null =
  match spatial_local build collect aabbs n stride vertices vs ts ppl with
  | Ok (inl c) => Ok (c, None, st)
  | Ok (inr b) => if null then UB else Ok (COk, Some (fst (store st b)), snd (store st b))
  | Panic => Panic | UB => UB | OutOfFuel => OutOfFuel
  end.
Proof.
  intros. unfold create_spatial, spatial_local. destruct (negb (stride mod 4 =? 0)%Z); auto.
  match goal with |- bind ?g _ = _ => destruct g as [given| | |]; cbn [bind]; auto end.
  match goal with |- bind ?g _ = _ => destruct g as [r| | |]; cbn [bind]; auto end.
  destruct r as [b|e]; auto.
Qed.
Lemma spatial_ok : forall build collect aabbs n stride vertices vs ts ppl null,
  wp (ACreateS build collect aabbs n stride vertices vs ts ppl null) [] Before [] []
     (create_spatial_p build collect aabbs n stride vertices vs ts ppl null).
Proof.
  intros. unfold create_spatial_p.
  pose proof (fun st => spatial_split build collect st aabbs n stride vertices vs ts ppl null) as Q.
  destruct (spatial_local build collect aabbs n stride vertices vs ts ppl) as [[c|b]| | |]; cbn [locally].
  - cbn [wp]. split; [auto|]. split; [auto|]. right. split; [auto|exact Q].
  - destruct null.
    + cbn [wp]. split; auto. intros c a _ x. cbn [api_step]. rewrite Q. discriminate.
    + apply store_ok. intro a. cbn [api_step]. apply Q.
  - cbn [wp]. split; auto. intros c a _ x. cbn [api_step]. rewrite Q. discriminate.
  - cbn [wp]. split; auto. intros c a _ x. cbn [api_step]. rewrite Q. discriminate.
  - cbn [wp]. split; auto. intros c a _ x. cbn [api_step]. rewrite Q. discriminate.
Qed.

(** ** create_mbvh *)
Lemma read_nodes_ok : forall ap h ph F P an ns d k, In (TN an, CN (Some ns)) F ->
  forall ids acc, (forall i, In i ids -> i < length ns) ->
  wp ap h ph F P (k (acc ++ map (fun i => nth i ns d) ids)) -> wp ap h ph F P (read_all (node_at an) ids acc k).
Proof.
  intros ap h ph F P an ns d k HF. induction ids as [|i ids IH]; intros acc L W; cbn [read_all].
  - cbn [map] in W. rewrite app_nil_r in W. auto.
  - apply wp_read. intros c a E. destruct (e_F _ _ _ _ _ _ E _ _ HF) as [F1 C1].
    exists (nth i ns d), F, P. split; [|split; [apply E|split; [apply E|split; [auto|]]]].
    + intros c' Kc. rewrite <- (Kc _ C1) in F1. apply gcN in F1. unfold node_at, heap_get, get. rewrite F1. cbn [bind]. rewrite (nth_error_nth' ns d) by (apply L; left; auto). reflexivity.
    + apply IH; [intros; apply L; right; auto|]. rewrite <- app_assoc. exact W.
Qed.
Lemma read_idx_ok : forall ap h ph F P an ns d k, In (TI an, CI (Some ns)) F ->
  forall ids acc, (forall i, In i ids -> i < length ns) ->
  wp ap h ph F P (k (acc ++ map (fun i => nth i ns d) ids)) -> wp ap h ph F P (read_all (idx_at an) ids acc k).
Proof.
  intros ap h ph F P an ns d k HF. induction ids as [|i ids IH]; intros acc L W; cbn [read_all].
  - cbn [map] in W. rewrite app_nil_r in W. auto.
  - apply wp_read. intros c a E. destruct (e_F _ _ _ _ _ _ E _ _ HF) as [F1 C1].
    exists (nth i ns d), F, P. split; [|split; [apply E|split; [apply E|split; [auto|]]]].
    + intros c' Kc. rewrite <- (Kc _ C1) in F1. apply gcI in F1. unfold idx_at, heap_get, get. rewrite F1. cbn [bind]. rewrite (nth_error_nth' ns d) by (apply L; left; auto). reflexivity.
    + apply IH; [intros; apply L; right; auto|]. rewrite <- app_assoc. exact W.
Qed.
Lemma map_nth_seq : forall {A} (l : list A) d, map (fun i => nth i l d) (seq 0 (length l)) = l.
Proof.
  intros A l d. induction l as [|x l IH]; cbn [length seq map]; auto. f_equal.
  rewrite <- seq_shift, map_map. rewrite <- IH at 2. apply map_ext. auto.
Qed.

Lemma nil_F : forall h c, forall tg v, In (tg, v) (@nil (target * cell)) -> gc c tg = Some v /\ covers Rd h c tg.
Proof. intros h c tg v []. Qed.

(** The lookup: an unknown id changes nothing. *)
Lemma find_ok : forall ap h id k o, has Rd h LStructs ->
  (forall a, gc a (TB id) = None -> api_step a ap = Ok (fst o, snd o, a)) ->
  wp ap h (After o) [] [] (k None) ->
  (forall p, wp ap h Before [(TB id, CP p)] [] (k (Some p))) ->
  wp ap h Before [] [] (Access (find_bvh id) k).
Proof.
  intros ap h id k o S Ap W0 W1. cbn [wp]. intros c a E. split; [apply find_careful; auto|]. unfold find_bvh.
  destruct (nth_error (f_bvhs c) id) as [p|] eqn:Q.
  - exists Before, [(TB id, CP p)], [], a. split; [|split; auto].
    eapply effect_read; eauto.
    + intros tg v [[= <- <-]|[]]. split; [apply gcB; auto|exact S].
    + intros tg v [].
  - exists (After o), [], [], a. split; [|split; auto].
    + eapply effect_read; eauto; intros tg v [].
    + right. split; auto. exists o. split; auto. apply Ap.
      rewrite <- (e_slots _ _ _ _ _ _ E (TB id)) by (cbn; auto). cbn [gc]. rewrite Q. reflexivity.
Qed.

Lemma get_none : forall a id, gc a (TB (Z.to_nat id)) = None -> manager_get a id = Ok None.
Proof. intros a id H. unfold manager_get. cbn [gc] in H. rewrite map_none in H. rewrite H. reflexivity. Qed.

Lemma release_two : forall ap id m0 m1 o, wp ap [(LBvh id, m1); (LStructs, m0)] (After o) [] [] (Release (LBvh id) (Release LStructs (Return o))).
Proof.
  intros. cbn [wp drop_guard lock_eqb]. rewrite Nat.eqb_refl.
  split; [eexists; cbn; eauto|]. split; auto. cbn [drop_guard lock_eqb]. split; [eexists; cbn; eauto|]. auto.
Qed.
Lemma release_one : forall ap l m o, wp ap [(l, m)] (After o) [] [] (Release l (Return o)).
Proof.
  intros. cbn [wp drop_guard]. split; [eexists; cbn; eauto|]. split; auto.
  assert (lock_eqb l l = true) as -> by (destruct l; cbn; auto using Nat.eqb_refl). auto.
Qed.

Lemma create_m_ok : forall fuel h null, wp (ACreateM fuel h null) [] Before [] [] (create_mbvh_p fuel h null).
Proof.
  intros fuel h null. unfold create_mbvh_p.
  destruct (h_nodes h) as [pn|] eqn:Hn.
  2:{ cbn [wp]. split; auto. split; auto. right. split; auto. intro st. cbn [api_step]. unfold create_mbvh. rewrite Hn. reflexivity. }
  destruct (h_indices h) as [pi|] eqn:Hi.
  2:{ cbn [wp]. split; auto. split; auto. right. split; auto. intro st. cbn [api_step]. unfold create_mbvh. rewrite Hn, Hi. reflexivity. }
  destruct null.
  { cbn [wp]. split; auto. split; auto. right. split; auto. intro st. cbn [api_step]. unfold create_mbvh. rewrite Hn, Hi. reflexivity. }
  set (ap := ACreateM fuel h false). set (id := Z.to_nat (h_id h)).
  assert (forall a, api_step a ap = do b <- manager_get a (h_id h);
      match b with
      | Some b => do m <- mbvh_construct fuel b; Ok (COk, Some (fst (store_mbvh a m)), snd (store_mbvh a m))
      | None => Ok (CError, None, a)
      end) as Step.
  { intro a. unfold ap. cbn [api_step]. unfold create_mbvh. rewrite Hn, Hi.
    destruct (manager_get a (h_id h)) as [[b|]| | |]; auto. }
  clearbody ap.
  change (wp ap [] Before [] [] (Acquire LStructs Rd (Access (find_bvh id) (fun found =>
      match found with
      | None => Release LStructs (Return (CError, None))
      | Some (an, ai) =>
          Acquire (LBvh id) Rd (Access (nodes_len an) (fun n => read_all (node_at an) (seq 0 n) [] (fun ns =>
          Access (idx_len ai) (fun n => read_all (idx_at ai) (seq 0 n) [] (fun is =>
          locally (mbvh_construct fuel (Bvh ns is)) (fun m =>
          store_mbvh_p m (fun h => Release (LBvh id) (Release LStructs (Return (COk, Some h))))))))))
      end)))).
  split; [intros ? ? []|].
  apply (find_ok _ _ _ _ (CError, None)).
  - exists Rd. cbn; auto.
  - intros a N. rewrite Step, get_none; auto.
  - apply release_one.
  - intros [an ai]. split; [intros l' m' [[= <- <-]|[]]; cbn [rank]; lia|].
    assert (has Rd [(LBvh id, Rd); (LStructs, Rd)] LStructs) as HS by (exists Rd; cbn; auto).
    assert (has Rd [(LBvh id, Rd); (LStructs, Rd)] (LBvh id)) as HB by (exists Rd; cbn; auto).
    apply wp_read. intros c a E.
    destruct (e_F _ _ _ _ _ _ E _ _ (or_introl eq_refl)) as [F1 C1].
    destruct (live_b _ _ _ _ _ _ _ _ _ E F1 HS (or_intror HB)) as (Ab & ns & is & An & Ai & Cn & Ci & Vn & Vi).
    specialize (Cn (fun x => x)). specialize (Ci (fun x => x)).
    exists (length ns), [(TB id, CP (an, ai)); (TN an, CN (Some ns))], []. split.
    { intros c' Kc. rewrite <- (Kc _ Vn) in Cn. apply gcN in Cn. unfold nodes_len, heap_get. rewrite Cn. reflexivity. }
    split; [intros tg v [[= <- <-]|[[= <- <-]|[]]]; auto|]. split; [intros tg v []|]. split; [auto|].
    clear c a E F1 C1 Ab An Ai Cn Ci Vn Vi is.
    apply (read_nodes_ok _ _ _ _ _ _ ns aabb_new); [right; left; auto|intros i I; apply in_seq in I; lia|].
    rewrite map_nth_seq. cbn [app].
    apply wp_read. intros c a E.
    destruct (e_F _ _ _ _ _ _ E _ _ (or_introl eq_refl)) as [F1 C1].
    destruct (e_F _ _ _ _ _ _ E _ _ (or_intror (or_introl eq_refl))) as [F2 C2].
    destruct (live_b _ _ _ _ _ _ _ _ _ E F1 HS (or_intror HB)) as (Ab & ns' & is & An & Ai & Cn & Ci & Vn & Vi).
    specialize (Ci (fun x => x)).
    exists (length is), [(TB id, CP (an, ai)); (TN an, CN (Some ns)); (TI ai, CI (Some is))], []. split.
    { intros c' Kc. rewrite <- (Kc _ Vi) in Ci. apply gcI in Ci. unfold idx_len, heap_get. rewrite Ci. reflexivity. }
    split; [intros tg v [[= <- <-]|[[= <- <-]|[[= <- <-]|[]]]]; auto|]. split; [intros tg v []|]. split; [auto|].
    clear c a E F1 C1 F2 C2 Ab An Ai Cn Ci Vn Vi ns'.
    apply (read_idx_ok _ _ _ _ _ _ is 0); [right; right; left; auto|intros i I; apply in_seq in I; lia|].
    rewrite map_nth_seq. cbn [app].
    assert (forall h' c a, (forall x, In x [(LBvh id, Rd); (LStructs, Rd)] -> In x h') ->
      env ap h' [(TB id, CP (an, ai)); (TN an, CN (Some ns)); (TI ai, CI (Some is))] [] c a ->
      manager_get a (h_id h) = Ok (Some (Bvh ns is))) as Get.
    { intros h' c a Sub E.
      destruct (e_F _ _ _ _ _ _ E _ _ (or_introl eq_refl)) as [F1 C1].
      destruct (e_F _ _ _ _ _ _ E _ _ (or_intror (or_introl eq_refl))) as [F2 C2].
      destruct (e_F _ _ _ _ _ _ E _ _ (or_intror (or_intror (or_introl eq_refl)))) as [F3 C3].
      eapply (get_a a _ an ai).
      - rewrite (e_cov _ _ _ _ _ _ E); auto.
      - rewrite (e_cov _ _ _ _ _ _ E); auto.
      - rewrite (e_cov _ _ _ _ _ _ E); auto. }
    destruct (mbvh_construct fuel (Bvh ns is)) as [m| | |] eqn:Mc; cbn [locally].
    + apply store_m_ok.
      * intros l' m' [[= <- <-]|[[= <- <-]|[]]]; cbn [rank]; lia.
      * intros c a E. rewrite Step. rewrite (Get ((LQuads, Wr) :: [(LBvh id, Rd); (LStructs, Rd)]) c a); [|intros x I; right; exact I|exact E].
        cbn [bind]. rewrite Mc. reflexivity.
      * intro x. apply release_two.
    + split; auto. intros c a E x. rewrite Step, (Get _ c a (fun x I => I) E). cbn [bind]. rewrite Mc. discriminate.
    + split; auto. intros c a E x. rewrite Step, (Get _ c a (fun x I => I) E). cbn [bind]. rewrite Mc. discriminate.
    + split; auto. intros c a E x. rewrite Step, (Get _ c a (fun x I => I) E). cbn [bind]. rewrite Mc. discriminate.
Qed.

(** ** refit *)
Lemma set_nodes_gc : forall a id an ai ns tg, gc a (TB (Z.to_nat id)) = Some (CP (an, ai)) -> gc a (TN an) <> None ->
  gc (manager_set_nodes a id ns) tg = if target_dec tg (TN an) then Some (CN (Some ns)) else gc a tg.
Proof.
  intros a id an ai ns tg Hb Hn. apply gcB in Hb. unfold manager_set_nodes. rewrite Hb.
  destruct (target_dec tg (TN an)) as [->|N].
  - cbn [gc f_nodes] in *. rewrite map_none in Hn. rewrite nth_error_upd_same; [reflexivity|]. apply nth_error_Some. auto.
  - destruct tg as [x|x|x|x|x]; cbn [gc f_nodes f_idx f_quads f_bvhs f_mbvhs]; auto.
    rewrite nth_error_upd_other by congruence. reflexivity.
Qed.

Section Refit.
Variables (ap : api) (id an ai : nat) (is : list nat) (l : list aabb) (ns0 : list node).
Notation H := [(LBvh id, Wr); (LStructs, Rd)].
Notation FF cur := [(TB id, CP (an, ai)); (TI ai, CI (Some is)); (TN an, CN (Some cur))].
Notation PP := [(TN an, CN (Some ns0))].
Hypothesis Aim : api_refits (Z.of_nat id) ap = true.
Hypothesis Step : forall a, gc a (TB id) = Some (CP (an, ai)) -> gc a (TN an) = Some (CN (Some ns0)) -> gc a (TI ai) = Some (CI (Some is)) ->
  match for_each (rev (seq 0 (length ns0))) (refit_node is l) ns0 with
  | Ok ns => exists a', api_step a ap = Ok (COk, None, a') /\
      (forall tg, gc a' tg = if target_dec tg (TN an) then Some (CN (Some ns)) else gc a tg)
  | _ => crashes a ap
  end.

Lemma refit_facts : forall cur c a, env ap H (FF cur) PP c a ->
  gc a (TB id) = Some (CP (an, ai)) /\ gc a (TN an) = Some (CN (Some ns0)) /\ gc a (TI ai) = Some (CI (Some is)) /\
  gc c (TB id) = Some (CP (an, ai)) /\ gc c (TN an) = Some (CN (Some cur)) /\ gc c (TI ai) = Some (CI (Some is)) /\
  covers Wr H c (TN an) /\ covers Rd H c (TI ai).
Proof.
  intros cur c a E.
  destruct (e_F _ _ _ _ _ _ E _ _ (or_introl eq_refl)) as [F1 C1].
  destruct (e_F _ _ _ _ _ _ E _ _ (or_intror (or_introl eq_refl))) as [F2 C2].
  destruct (e_F _ _ _ _ _ _ E _ _ (or_intror (or_intror (or_introl eq_refl)))) as [F3 C3].
  destruct (e_P _ _ _ _ _ _ E _ _ (or_introl eq_refl)) as (P1 & [P2 _] & _).
  split; [|split; [exact P1|split]].
  - rewrite (e_cov _ _ _ _ _ _ E); auto. intros [Q|[]]; discriminate.
  - rewrite (e_cov _ _ _ _ _ _ E); auto. intros [Q|[]]; discriminate.
  - auto 10.
Qed.

Lemma refit_loop_ok : forall k, wp ap H (After (COk, None)) [] [] k ->
  forall ids cur, ids <> [] -> for_each ids (refit_node is l) cur = for_each (rev (seq 0 (length ns0))) (refit_node is l) ns0 ->
  wp ap H Before (FF cur) PP (refit_loop an ai l ids k).
Proof.
  intros k W ids. induction ids as [|i ids IH]; intros cur Ne Q; [congruence|]. cbn [refit_loop wp].
  intros c a E. destruct (refit_facts _ _ _ E) as (Ab & An & Ai & Cb & Cn & Ci & Vn & Vi).
  split; [apply (refit_careful _ _ _ _ _ _ cur is); auto; eapply covers_rd; exact Vn|].
  unfold refit_at, heap_get. rewrite (proj1 (gcN _ _ _) Cn), (proj1 (gcI _ _ _) Ci). cbn [bind]. cbn [for_each] in Q.
  specialize (Step a Ab An Ai).
  destruct (refit_node is l i cur) as [cur'| | |]; cbn [bind] in *.
  2, 3, 4: rewrite <- Q in Step; auto.
  set (c' := Ffi (upd (f_nodes c) an (Some cur')) (f_idx c) (f_quads c) (f_bvhs c) (f_mbvhs c)).
  assert (forall tg, gc c' tg = if target_dec tg (TN an) then Some (CN (Some cur')) else gc c tg) as Gc.
  { intro tg. destruct (target_dec tg (TN an)) as [->|N].
    - cbn [gc c' f_nodes]. rewrite nth_error_upd_same; [reflexivity|]. apply nth_error_Some.
      rewrite (proj1 (gcN _ _ _) Cn). discriminate.
    - destruct tg as [x|x|x|x|x]; cbn [gc c' f_nodes f_idx f_quads f_bvhs f_mbvhs]; auto. rewrite nth_error_upd_other by congruence. reflexivity. }
  assert (aims ap c (TN an)) as Am by (exists id, ai; split; [exact Cb|]; unfold works_on; rewrite Aim; apply orb_true_r).
  assert (forall tg, gc c' tg = gc c tg \/ (covers Wr H c tg /\ aims ap c tg) \/ gc c tg = None) as Ec.
  { intro tg. rewrite Gc. destruct (target_dec tg (TN an)) as [->|N]; auto. }
  assert (forall m tg, covers m H c tg -> covers m H c' tg) as Cv.
  { intros m tg Hc. destruct tg as [x|x|x|x|x]; exact Hc. }
  assert (forall tg v, In (tg, v) (FF cur') -> gc c' tg = Some v /\ covers Rd H c' tg) as HF.
  { intros tg v Hin. split.
    - rewrite Gc. destruct Hin as [[= <- <-]|[[= <- <-]|[[= <- <-]|[]]]].
      + destruct (target_dec (TB id) (TN an)) as [X|X]; [discriminate|auto].
      + destruct (target_dec (TI ai) (TN an)) as [X|X]; [discriminate|auto].
      + destruct (target_dec (TN an) (TN an)) as [X|X]; [auto|congruence].
    - apply Cv. destruct Hin as [[= <- <-]|[[= <- <-]|[[= <- <-]|[]]]].
      + exists Rd. cbn; auto.
      + exact Vi.
      + eapply covers_rd; exact Vn. }
  destruct ids as [|j ids].
  - cbn [for_each] in Q. rewrite <- Q in Step. destruct Step as (a' & Ap & Ga).
    exists (After (COk, None)), [], [], a'. split; [|split].
    + constructor; auto.
      * intro tg. rewrite Ga. destruct (target_dec tg (TN an)) as [->|N]; auto.
      * intros tg v [].
      * intros tg v [].
      * intros tg [<-|[]] _. cbn [fst]. rewrite Ga, Gc. destruct (target_dec (TN an) (TN an)); congruence.
      * intros tg _ X. rewrite Ga, Gc. destruct (target_dec tg (TN an)); auto.
      * intro tg. rewrite Ga, Gc. destruct (target_dec tg (TN an)); [split; discriminate|apply E].
    + right. split; auto. exists (COk, None). auto.
    + exact W.
  - exists Before, (FF cur'), PP, a. split; [|split].
    + constructor; auto.
      * intros tg v [[= <- <-]|[]]. split; [exact An|]. split; [|exact I]. split; [apply Cv; exact Vn|exact Am].
      * intros tg X Y. exfalso. auto.
      * intros tg Nk X. rewrite Gc. destruct (target_dec tg (TN an)) as [->|N]; auto. exfalso. apply Nk. left. auto.
      * intro tg. rewrite Gc. destruct (target_dec tg (TN an)) as [->|N]; [rewrite An; split; discriminate|apply E].
    + auto.
    + apply IH; [discriminate|]. exact Q.
Qed.
End Refit.

Lemma refit_ok : forall aabbs h, wp (ARefit aabbs h) [] Before [] [] (refit_p aabbs h).
Proof.
  intros aabbs h. unfold refit_p.
  assert (forall st x, ffi_refit st aabbs h = Ok (CError, st) -> x = (CError, @None handle) ->
    api_step st (ARefit aabbs h) = Ok (fst x, snd x, st)) as Err.
  { intros st x Q ->. cbn [api_step]. rewrite Q. reflexivity. }
  destruct aabbs as [ab|].
  2:{ cbn [wp]. split; [auto|]. split; [auto|]. right. split; [auto|]. intro st. apply Err; auto. }
  destruct (h_nodes h) as [pn|] eqn:Hn.
  2:{ cbn [wp]. split; [auto|]. split; [auto|]. right. split; [auto|]. intro st. apply Err; auto. unfold ffi_refit. rewrite Hn. auto. }
  destruct (h_indices h) as [pi|] eqn:Hi.
  2:{ cbn [wp]. split; [auto|]. split; [auto|]. right. split; [auto|]. intro st. apply Err; auto. unfold ffi_refit. rewrite Hn, Hi. auto. }
  set (ap := ARefit (Some ab) h). set (id := Z.to_nat (h_id h)).
  assert (forall a, api_step a ap = do b <- manager_get a (h_id h);
      match b with
      | Some b => do l <- raw_parts align_aabb ab (length (prim_indices b));
                  do b' <- BvhModel.refit b (map aabb_of_rt l);
                  Ok (COk, None, manager_set_nodes a (h_id h) (nodes b'))
      | None => Ok (CError, None, a)
      end) as Step.
  { intro a. unfold ap. cbn [api_step]. unfold ffi_refit. rewrite Hn, Hi.
    destruct (manager_get a (h_id h)) as [[b|]| | |]; auto. cbn [bind].
    destruct (raw_parts _ _ _); auto. cbn [bind]. destruct (BvhModel.refit b _); auto. }
  assert (api_refits (Z.of_nat id) ap = true) as Aim by (cbn [ap api_refits]; unfold id; rewrite Nat2Z.id; apply Nat.eqb_refl).
  clearbody ap. clear Err.
  change (wp ap [] Before [] [] (Acquire LStructs Rd (Access (find_bvh id) (fun found =>
      match found with
      | None => Release LStructs (Return (CError, None))
      | Some (an, ai) =>
          Acquire (LBvh id) Wr (Access (idx_len ai) (fun count =>
          locally (raw_parts align_aabb ab count) (fun l =>
          Access (nodes_len an) (fun n =>
          refit_loop an ai (map aabb_of_rt l) (rev (seq 0 n)) (
          Release (LBvh id) (Release LStructs (Return (COk, None))))))))
      end)))).
  split; [intros ? ? []|].
  apply (find_ok _ _ _ _ (CError, None)).
  - exists Rd. cbn; auto.
  - intros a N. rewrite Step, get_none; auto.
  - apply release_one.
  - intros [an ai]. split; [intros l' m' [[= <- <-]|[]]; cbn [rank]; lia|].
    set (H := [(LBvh id, Wr); (LStructs, Rd)]).
    assert (has Rd H LStructs) as HS by (exists Rd; cbn; auto).
    assert (has Rd H (LBvh id)) as HB by (exists Wr; cbn; auto).
    apply wp_read. intros c a E.
    destruct (e_F _ _ _ _ _ _ E _ _ (or_introl eq_refl)) as [F1 C1].
    destruct (live_b _ _ _ _ _ _ _ _ _ E F1 HS (or_intror HB)) as (Ab & ns & is & An & Ai & Cn & Ci & Vn & Vi).
    specialize (Ci (fun x => x)).
    exists (length is), [(TB id, CP (an, ai)); (TI ai, CI (Some is))], []. split.
    { intros c' Kc. rewrite <- (Kc _ Vi) in Ci. apply gcI in Ci. unfold idx_len, heap_get. rewrite Ci. reflexivity. }
    split; [intros tg v [[= <- <-]|[[= <- <-]|[]]]; auto|]. split; [intros tg v []|]. split; [auto|].
    clear c a E F1 C1 Ab An Ai Cn Ci Vn Vi ns.
    assert (forall c a, env ap H [(TB id, CP (an, ai)); (TI ai, CI (Some is))] [] c a ->
      exists ns, manager_get a (h_id h) = Ok (Some (Bvh ns is))) as Get.
    { intros c a E.
      destruct (e_F _ _ _ _ _ _ E _ _ (or_introl eq_refl)) as [F1 C1].
      destruct (e_F _ _ _ _ _ _ E _ _ (or_intror (or_introl eq_refl))) as [F2 C2].
      destruct (live_b _ _ _ _ _ _ _ _ _ E F1 HS (or_intror HB)) as (Ab & ns & is' & An & Ai & Cn & Ci & Vn & Vi).
      exists ns. eapply get_a; eauto. rewrite (e_cov _ _ _ _ _ _ E); auto. }
    destruct (raw_parts align_aabb ab (length is)) as [l| | |] eqn:Rp; cbn [locally].
    2, 3, 4: split; [auto|]; intros c a E x; destruct (Get _ _ E) as [ns G]; rewrite Step, G; cbn [bind prim_indices]; rewrite Rp; discriminate.
    cbn [wp]. intros c a E.
    destruct (e_F _ _ _ _ _ _ E _ _ (or_introl eq_refl)) as [F1 C1].
    destruct (e_F _ _ _ _ _ _ E _ _ (or_intror (or_introl eq_refl))) as [F2 C2].
    destruct (live_b _ _ _ _ _ _ _ _ _ E F1 HS (or_intror HB)) as (Ab & ns & is' & An & Ai & Cn & Ci & Vn & Vi).
    specialize (Cn (fun x => x)).
    split.
    { apply (careful_read _ _ _ _ (length ns)). intros c' Kc. pose proof (eq_trans (Kc _ Vn) Cn) as Cn'. apply gcN in Cn'.
      unfold nodes_len, heap_get. rewrite Cn'. reflexivity. }
    unfold nodes_len, heap_get. rewrite (proj1 (gcN _ _ _) Cn). cbn [bind].
    assert (forall a, gc a (TB id) = Some (CP (an, ai)) -> gc a (TN an) = Some (CN (Some ns)) -> gc a (TI ai) = Some (CI (Some is)) ->
      match for_each (rev (seq 0 (length ns))) (refit_node is (map aabb_of_rt l)) ns with
      | Ok ns' => exists a', api_step a ap = Ok (COk, None, a') /\
          (forall tg, gc a' tg = if target_dec tg (TN an) then Some (CN (Some ns')) else gc a tg)
      | _ => crashes a ap
      end) as St.
    { intros a1 A1 A2 A3. assert (api_step a1 ap = do ns' <- for_each (rev (seq 0 (length ns))) (refit_node is (map aabb_of_rt l)) ns;
        Ok (COk, None, manager_set_nodes a1 (h_id h) ns')) as Q.
      { rewrite Step, (get_a _ _ _ _ _ _ A1 A2 A3). cbn [bind prim_indices]. rewrite Rp. cbn [bind]. unfold BvhModel.refit.
        cbn [nodes prim_indices]. destruct (for_each _ _ ns); reflexivity. }
      destruct (for_each _ _ ns) as [ns'| | |]; cbn [bind] in Q.
      - eexists. split; [exact Q|]. intro tg. apply (set_nodes_gc _ _ _ ai); auto. congruence.
      - intros x. rewrite Q. discriminate.
      - intros x. rewrite Q. discriminate.
      - intros x. rewrite Q. discriminate. }
    assert (gc a (TI ai) = Some (CI (Some is))) as Ai' by (rewrite (e_cov _ _ _ _ _ _ E); auto).
    destruct ns as [|n0 ns].
    + specialize (St a Ab An Ai'). cbn [length seq rev for_each] in St. destruct St as (a' & Ap & Ga).
      exists (After (COk, None)), [], [], a'. split; [|split].
      * eapply effect_read; eauto; [|intros tg v []|intros tg v []].
        intro tg. rewrite Ga. destruct (target_dec tg (TN an)) as [->|N]; auto.
      * right. split; [auto|]. exists (COk, None). auto.
      * apply release_two.
    + exists Before, [(TB id, CP (an, ai)); (TI ai, CI (Some is)); (TN an, CN (Some (n0 :: ns)))], [(TN an, CN (Some (n0 :: ns)))], a.
      split; [|split; [auto|]].
      * eapply effect_read; eauto.
        -- intros tg v [[= <- <-]|[[= <- <-]|[[= <- <-]|[]]]]; auto.
        -- intros tg v [[= <- <-]|[]]. split; [exact An|]. split; [|exact I].
           split; [exists id, ai; split; [exact F1|]; split; [exact HS|]; right; cbn; auto|].
           exists id, ai. split; [exact F1|]. unfold works_on. rewrite Aim. apply orb_true_r.
        -- intros tg [].
      * apply refit_loop_ok; auto.
        -- apply release_two.
        -- cbn [length]. intro X. apply (f_equal (@length nat)) in X. rewrite rev_length, seq_length in X. discriminate.
Qed.

(** ** free_bvh, free_mbvh *)

(** One cell is overwritten; the reference keeps the old value for now. *)
Lemma effect_drop : forall ap h F P tg0 v0 v1 c a c', env ap h F P c a -> data tg0 ->
  covers Wr h c tg0 -> aims ap c tg0 -> ~ In tg0 (keys P) -> gc c tg0 = Some v0 ->
  (forall tg, gc c' tg = if target_dec tg tg0 then Some v1 else gc c tg) ->
  (forall m tg, covers m h c tg -> covers m h c' tg) -> (forall tg, aims ap c tg -> aims ap c' tg) ->
  effect ap h P ((tg0, v1) :: filter (fun x => if target_dec (fst x) tg0 then false else true) F) ((tg0, v0) :: P) c a c' a.
Proof.
  intros ap h F P tg0 v0 v1 c a c' E D Cw Am Nk Gc Q Cv Av. constructor; auto.
  - intro tg. rewrite Q. destruct (target_dec tg tg0) as [->|N]; auto.
  - intros tg v [[= <- <-]|K].
    + rewrite Q. destruct (target_dec tg0 tg0); [|congruence]. split; auto. apply Cv. eapply covers_rd; eauto.
    + apply filter_In in K as [K1 K2]. cbn [fst] in K2. rewrite Q. destruct (target_dec tg tg0); [discriminate|].
      destruct (e_F _ _ _ _ _ _ E _ _ K1). auto.
  - intros tg v [[= <- <-]|K].
    + split; [|auto]. rewrite (e_cov _ _ _ _ _ _ E); auto. eapply covers_rd; eauto.
    + destruct (e_P _ _ _ _ _ _ E _ _ K) as (A & [B B'] & C). auto.
  - intros tg A B. exfalso. apply B. right. exact A.
  - intros tg A B. rewrite Q. destruct (target_dec tg tg0) as [->|N]; auto. exfalso. apply A. left. reflexivity.
  - intro tg. rewrite Q. destruct (target_dec tg tg0) as [->|N]; [|apply E].
    pose proof (e_dom _ _ _ _ _ _ E tg0) as Dm. split; [discriminate|]. intro X. apply Dm in X. congruence.
Qed.

Lemma free_ok : forall h, wp (AFree h) [] Before [] [] (free_bvh_p h).
Proof.
  intro h. unfold free_bvh_p. set (id := Z.to_nat (h_id h)). set (ap := AFree h).
  assert (forall a, api_step a ap = Ok (COk, None, snd (manager_free a (h_id h)))) as Step by reflexivity.
  assert (api_frees (Z.of_nat id) ap = true) as Aim by (cbn [ap api_frees]; unfold id; rewrite Nat2Z.id; apply Nat.eqb_refl).
  clearbody ap.
  split; [intros ? ? []|]. set (H := [(LStructs, Wr)]).
  assert (has Rd H LStructs) as HS by (exists Wr; cbn; auto).
  assert (In (LStructs, Wr) H) as HW by (cbn; auto).
  apply (find_ok _ _ _ _ (COk, None)); auto.
  - intros a N. rewrite Step. cbn [fst snd]. do 2 f_equal. unfold manager_free. cbn [gc] in N. rewrite map_none in N.
    fold id. rewrite N. reflexivity.
  - apply release_one.
  - intros [an ai]. cbn [wp]. intros c a E.
    destruct (e_F _ _ _ _ _ _ E _ _ (or_introl eq_refl)) as [F1 C1].
    destruct (live_b _ _ _ _ _ _ _ _ _ E F1 HS (or_introl HW)) as (Ab & ns & is & An & Ai & Cn & Ci & Vn & Vi).
    specialize (Cn (fun x => x)). split; [eapply drop_nodes_careful; eauto|].
    unfold drop_nodes, heap_get. rewrite (proj1 (gcN _ _ _) Cn). cbn [bind].
    exists Before, [(TN an, CN None); (TB id, CP (an, ai))], [(TN an, CN (Some ns))], a. split; [|split; [auto|]].
    { apply (effect_drop ap H [(TB id, CP (an, ai))] [] (TN an) (CN (Some ns)) (CN None)); auto.
      - exact I.
      - exists id, ai. split; [exact F1|]. split; [exact HS|]. left. exact HW.
      - exists id, ai. split; [exact F1|]. unfold works_on. rewrite Aim. reflexivity.
      - intro tg. destruct (target_dec tg (TN an)) as [->|N].
        + cbn [gc f_nodes]. rewrite nth_error_upd_same; [reflexivity|]. apply nth_error_Some. rewrite (proj1 (gcN _ _ _) Cn). discriminate.
        + destruct tg; cbn [gc f_nodes f_idx f_quads f_bvhs f_mbvhs]; auto. rewrite nth_error_upd_other by congruence. reflexivity. }
    clear c a E F1 C1 Ab An Ai Cn Ci Vn Vi is.
    intros c a E.
    destruct (e_F _ _ _ _ _ _ E _ _ (or_introl eq_refl)) as [F2 C2].
    destruct (e_F _ _ _ _ _ _ E _ _ (or_intror (or_introl eq_refl))) as [F1 C1].
    destruct (live_b _ _ _ _ _ _ _ _ _ E F1 HS (or_introl HW)) as (Ab & ns' & is & An & Ai & Cn & Ci & Vn & Vi).
    assert (~ In (TI ai) (keys [(TN an, CN (Some ns))])) as Nk by (intros [X|[]]; discriminate).
    specialize (Ci Nk). split; [eapply drop_idx_careful; eauto|]. unfold drop_idx, heap_get. rewrite (proj1 (gcI _ _ _) Ci). cbn [bind].
    exists Before, [(TI ai, CI None); (TN an, CN None); (TB id, CP (an, ai))], [(TI ai, CI (Some is)); (TN an, CN (Some ns))], a.
    split; [|split; [auto|]].
    { apply (effect_drop ap H [(TN an, CN None); (TB id, CP (an, ai))] [(TN an, CN (Some ns))] (TI ai) (CI (Some is)) (CI None)); auto.
      - exact I.
      - left. exists id, an. split; [exact F1|]. split; [exact HS|]. left. exact HW.
      - left. exists id, an. split; [exact F1|exact Aim].
      - intro tg. destruct (target_dec tg (TI ai)) as [->|N].
        + cbn [gc f_idx]. rewrite nth_error_upd_same; [reflexivity|]. apply nth_error_Some. rewrite (proj1 (gcI _ _ _) Ci). discriminate.
        + destruct tg; cbn [gc f_nodes f_idx f_quads f_bvhs f_mbvhs]; auto. rewrite nth_error_upd_other by congruence. reflexivity. }
    clear c a E F1 C1 F2 C2 Ab An Ai Cn Ci Vn Vi ns' Nk.
    intros c a E.
    destruct (e_F _ _ _ _ _ _ E _ _ (or_introl eq_refl)) as [F3 C3].
    destruct (e_F _ _ _ _ _ _ E _ _ (or_intror (or_introl eq_refl))) as [F2 C2].
    destruct (e_F _ _ _ _ _ _ E _ _ (or_intror (or_intror (or_introl eq_refl)))) as [F1 C1].
    destruct (e_P _ _ _ _ _ _ E _ _ (or_introl eq_refl)) as (P1 & _ & _).
    destruct (e_P _ _ _ _ _ _ E _ _ (or_intror (or_introl eq_refl))) as (P2 & _ & _).
    assert (gc a (TB id) = Some (CP (an, ai))) as Ab by (rewrite <- (e_slots _ _ _ _ _ _ E (TB id)); cbn [data]; auto).
    destruct (dom_len _ _ (e_dom _ _ _ _ _ _ E)) as (Ln & Li & Lq & Lb & Lm).
    split; [apply reset_careful|]. unfold reset_bvh. exists (After (COk, None)), [], [], (snd (manager_free a (h_id h))).
    assert (snd (manager_free a (h_id h)) =
      Ffi (upd (f_nodes a) an None ++ [Some []]) (upd (f_idx a) ai None ++ [Some []]) (f_quads a)
          (upd (f_bvhs a) id (length (f_nodes a), length (f_idx a))) (f_mbvhs a)) as Q.
    { unfold manager_free. fold id. rewrite (proj1 (gcB _ _ _) Ab). reflexivity. }
    split; [|split].
    2:{ right. split; [auto|]. exists (COk, None). split; [auto|]. apply Step. }
    2:{ apply release_one. }
    rewrite Q. apply gcN in F2. apply gcN in P2. apply gcI in F3. apply gcI in P1. apply gcB in F1. apply gcB in Ab.
    pose proof (nth_lt _ _ _ P2) as Lt1. pose proof (nth_lt _ _ _ P1) as Lt2. pose proof (nth_lt _ _ _ Ab) as Lt3.
    constructor.
    + intros [x|x|x|x|x]; cbn [gc f_nodes f_idx f_quads f_bvhs f_mbvhs]; auto.
      * rewrite nth_app_at. destruct (Nat.eqb_spec x (length (f_nodes c))) as [->|N]; auto. right; right.
        rewrite (proj2 (nth_error_None _ _)); auto.
      * rewrite nth_app_at. destruct (Nat.eqb_spec x (length (f_idx c))) as [->|N]; auto. right; right.
        rewrite (proj2 (nth_error_None _ _)); auto.
      * rewrite nth_upd. destruct (Nat.eqb_spec x id) as [->|N]; [right; left; split; [exact HW|exact Aim]|auto].
    + intros [x|x|x|x|x]; cbn [gc f_nodes f_idx f_quads f_bvhs f_mbvhs]; auto.
      * rewrite nth_app_at, upd_length. destruct (Nat.eqb_spec x (length (f_nodes a))) as [->|N].
        -- right; right. rewrite (proj2 (nth_error_None _ _)); auto.
        -- destruct (Nat.eq_dec x an) as [->|N'].
           ++ right; left. exists id, ai. split; [apply gcB; exact F1|]. split; [exact HS|left; exact HW].
           ++ rewrite nth_error_upd_other by auto. auto.
      * rewrite nth_app_at, upd_length. destruct (Nat.eqb_spec x (length (f_idx a))) as [->|N].
        -- right; right. rewrite (proj2 (nth_error_None _ _)); auto.
        -- destruct (Nat.eq_dec x ai) as [->|N'].
           ++ right; left. left. exists id, an. split; [apply gcB; exact F1|]. split; [exact HS|left; exact HW].
           ++ rewrite nth_error_upd_other by auto. auto.
    + intros tg v [].
    + intros tg v [].
    + intros tg [<-|[<-|[]]] _; cbn [fst gc f_nodes f_idx].
      * rewrite !nth_app_at, upd_length. rewrite Li. destruct (Nat.eqb_spec ai (length (f_idx a))); [lia|].
        rewrite nth_error_upd_same by auto. rewrite F3. reflexivity.
      * rewrite !nth_app_at, upd_length. rewrite Ln. destruct (Nat.eqb_spec an (length (f_nodes a))); [lia|].
        rewrite nth_error_upd_same by auto. rewrite F2. reflexivity.
    + intros [x|x|x|x|x] _ X; cbn [gc f_nodes f_idx f_quads f_bvhs f_mbvhs] in *; auto.
      * rewrite !nth_app_at, upd_length, Ln. destruct (Nat.eqb_spec x (length (f_nodes a))); auto.
        destruct (Nat.eq_dec x an) as [->|N']; [rewrite P2, F2 in X; discriminate|]. rewrite nth_error_upd_other by auto. exact X.
      * rewrite !nth_app_at, upd_length, Li. destruct (Nat.eqb_spec x (length (f_idx a))); auto.
        destruct (Nat.eq_dec x ai) as [->|N']; [rewrite P1, F3 in X; discriminate|]. rewrite nth_error_upd_other by auto. exact X.
      * rewrite !nth_upd, Ln, Li, Lb. destruct ((x =? id) && (id <? length (f_bvhs a))); auto.
    + intros [x|x|x|x|x]; cbn [gc f_nodes f_idx f_quads f_bvhs f_mbvhs]; rewrite !map_none, !nth_error_None;
        rewrite ?app_length, ?upd_length; cbn [length]; lia.
Qed.

Lemma find_m_ok : forall ap h id k o, has Rd h LQuads ->
  (forall a, gc a (TM id) = None -> api_step a ap = Ok (fst o, snd o, a)) ->
  wp ap h (After o) [] [] (k None) ->
  (forall p, wp ap h Before [(TM id, CP p)] [] (k (Some p))) ->
  wp ap h Before [] [] (Access (find_mbvh id) k).
Proof.
  intros ap h id k o S Ap W0 W1. cbn [wp]. intros c a E. split; [apply find_m_careful; auto|]. unfold find_mbvh.
  destruct (nth_error (f_mbvhs c) id) as [p|] eqn:Q.
  - exists Before, [(TM id, CP p)], [], a. split; [|split; auto].
    eapply effect_read; eauto.
    + intros tg v [[= <- <-]|[]]. split; [apply gcM; auto|exact S].
    + intros tg v [].
  - exists (After o), [], [], a. split; [|split; auto].
    + eapply effect_read; eauto; intros tg v [].
    + right. split; auto. exists o. split; auto. apply Ap.
      rewrite <- (e_slots _ _ _ _ _ _ E (TM id)) by (cbn; auto). cbn [gc]. rewrite Q. reflexivity.
Qed.

Lemma free_m_ok : forall h, wp (AFreeM h) [] Before [] [] (free_mbvh_p h).
Proof.
  intro h. unfold free_mbvh_p. set (id := Z.to_nat (h_id h)). set (ap := AFreeM h).
  assert (forall a, api_step a ap = Ok (COk, None, snd (manager_free_mbvh a (h_id h)))) as Step by reflexivity.
  assert (api_frees_m (Z.of_nat id) ap = true) as Aim by (cbn [ap api_frees_m]; unfold id; rewrite Nat2Z.id; apply Nat.eqb_refl).
  clearbody ap.
  split; [intros ? ? []|]. set (H := [(LQuads, Wr)]).
  assert (has Rd H LQuads) as HS by (exists Wr; cbn; auto).
  assert (In (LQuads, Wr) H) as HW by (cbn; auto).
  apply (find_m_ok _ _ _ _ (COk, None)); auto.
  - intros a N. rewrite Step. cbn [fst snd]. do 2 f_equal. unfold manager_free_mbvh. cbn [gc] in N. rewrite map_none in N.
    fold id. rewrite N. reflexivity.
  - apply release_one.
  - intros [an ai]. cbn [wp]. intros c a E.
    destruct (e_F _ _ _ _ _ _ E _ _ (or_introl eq_refl)) as [F1 C1].
    destruct (live_m _ _ _ _ _ _ _ _ _ E F1 HS) as (Ab & ns & is & An & Ai & Cn & Ci & Vn & Vi).
    specialize (Cn (fun x => x)). split; [eapply drop_quads_careful; eauto|].
    unfold drop_quads, heap_get. rewrite (proj1 (gcQ _ _ _) Cn). cbn [bind].
    exists Before, [(TQ an, CQ None); (TM id, CP (an, ai))], [(TQ an, CQ (Some ns))], a. split; [|split; [auto|]].
    { apply (effect_drop ap H [(TM id, CP (an, ai))] [] (TQ an) (CQ (Some ns)) (CQ None)); auto.
      - exact I.
      - exists id, ai. split; [exact F1|exact HW].
      - exists id, ai. split; [exact F1|exact Aim].
      - intro tg. destruct (target_dec tg (TQ an)) as [->|N].
        + cbn [gc f_quads]. rewrite nth_error_upd_same; [reflexivity|]. apply nth_error_Some. rewrite (proj1 (gcQ _ _ _) Cn). discriminate.
        + destruct tg; cbn [gc f_nodes f_idx f_quads f_bvhs f_mbvhs]; auto. rewrite nth_error_upd_other by congruence. reflexivity. }
    clear c a E F1 C1 Ab An Ai Cn Ci Vn Vi is.
    intros c a E.
    destruct (e_F _ _ _ _ _ _ E _ _ (or_introl eq_refl)) as [F2 C2].
    destruct (e_F _ _ _ _ _ _ E _ _ (or_intror (or_introl eq_refl))) as [F1 C1].
    destruct (live_m _ _ _ _ _ _ _ _ _ E F1 HS) as (Ab & ns' & is & An & Ai & Cn & Ci & Vn & Vi).
    assert (~ In (TI ai) (keys [(TQ an, CQ (Some ns))])) as Nk by (intros [X|[]]; discriminate).
    specialize (Ci Nk). split; [eapply drop_idx_careful; eauto|]. unfold drop_idx, heap_get. rewrite (proj1 (gcI _ _ _) Ci). cbn [bind].
    exists Before, [(TI ai, CI None); (TQ an, CQ None); (TM id, CP (an, ai))], [(TI ai, CI (Some is)); (TQ an, CQ (Some ns))], a.
    split; [|split; [auto|]].
    { apply (effect_drop ap H [(TQ an, CQ None); (TM id, CP (an, ai))] [(TQ an, CQ (Some ns))] (TI ai) (CI (Some is)) (CI None)); auto.
      - exact I.
      - right. exists id, an. split; [exact F1|exact HW].
      - right. exists id, an. split; [exact F1|exact Aim].
      - intro tg. destruct (target_dec tg (TI ai)) as [->|N].
        + cbn [gc f_idx]. rewrite nth_error_upd_same; [reflexivity|]. apply nth_error_Some. rewrite (proj1 (gcI _ _ _) Ci). discriminate.
        + destruct tg; cbn [gc f_nodes f_idx f_quads f_bvhs f_mbvhs]; auto. rewrite nth_error_upd_other by congruence. reflexivity. }
    clear c a E F1 C1 F2 C2 Ab An Ai Cn Ci Vn Vi ns' Nk.
    intros c a E.
    destruct (e_F _ _ _ _ _ _ E _ _ (or_introl eq_refl)) as [F3 C3].
    destruct (e_F _ _ _ _ _ _ E _ _ (or_intror (or_introl eq_refl))) as [F2 C2].
    destruct (e_F _ _ _ _ _ _ E _ _ (or_intror (or_intror (or_introl eq_refl)))) as [F1 C1].
    destruct (e_P _ _ _ _ _ _ E _ _ (or_introl eq_refl)) as (P1 & _ & _).
    destruct (e_P _ _ _ _ _ _ E _ _ (or_intror (or_introl eq_refl))) as (P2 & _ & _).
    assert (gc a (TM id) = Some (CP (an, ai))) as Ab by (rewrite <- (e_slots _ _ _ _ _ _ E (TM id)); cbn [data]; auto).
    destruct (dom_len _ _ (e_dom _ _ _ _ _ _ E)) as (Ln & Li & Lq & Lb & Lm).
    split; [apply reset_m_careful|]. unfold reset_mbvh. exists (After (COk, None)), [], [], (snd (manager_free_mbvh a (h_id h))).
    assert (snd (manager_free_mbvh a (h_id h)) =
      Ffi (f_nodes a) (upd (f_idx a) ai None ++ [Some []]) (upd (f_quads a) an None ++ [Some []])
          (f_bvhs a) (upd (f_mbvhs a) id (length (f_quads a), length (f_idx a)))) as Q.
    { unfold manager_free_mbvh. fold id. rewrite (proj1 (gcM _ _ _) Ab). reflexivity. }
    split; [|split].
    2:{ right. split; [auto|]. exists (COk, None). split; [auto|]. apply Step. }
    2:{ apply release_one. }
    rewrite Q. apply gcQ in F2. apply gcQ in P2. apply gcI in F3. apply gcI in P1. apply gcM in F1. apply gcM in Ab.
    pose proof (nth_lt _ _ _ P2) as Lt1. pose proof (nth_lt _ _ _ P1) as Lt2. pose proof (nth_lt _ _ _ Ab) as Lt3.
    constructor.
    + intros [x|x|x|x|x]; cbn [gc f_nodes f_idx f_quads f_bvhs f_mbvhs]; auto.
      * rewrite nth_app_at. destruct (Nat.eqb_spec x (length (f_idx c))) as [->|N]; auto. right; right.
        rewrite (proj2 (nth_error_None _ _)); auto.
      * rewrite nth_app_at. destruct (Nat.eqb_spec x (length (f_quads c))) as [->|N]; auto. right; right.
        rewrite (proj2 (nth_error_None _ _)); auto.
      * rewrite nth_upd. destruct (Nat.eqb_spec x id) as [->|N]; [right; left; split; [exact HW|exact Aim]|auto].
    + intros [x|x|x|x|x]; cbn [gc f_nodes f_idx f_quads f_bvhs f_mbvhs]; auto.
      * rewrite nth_app_at, upd_length. destruct (Nat.eqb_spec x (length (f_idx a))) as [->|N].
        -- right; right. rewrite (proj2 (nth_error_None _ _)); auto.
        -- destruct (Nat.eq_dec x ai) as [->|N'].
           ++ right; left. right. exists id, an. split; [apply gcM; exact F1|exact HW].
           ++ rewrite nth_error_upd_other by auto. auto.
      * rewrite nth_app_at, upd_length. destruct (Nat.eqb_spec x (length (f_quads a))) as [->|N].
        -- right; right. rewrite (proj2 (nth_error_None _ _)); auto.
        -- destruct (Nat.eq_dec x an) as [->|N'].
           ++ right; left. exists id, ai. split; [apply gcM; exact F1|exact HW].
           ++ rewrite nth_error_upd_other by auto. auto.
    + intros tg v [].
    + intros tg v [].
    + intros tg [<-|[<-|[]]] _; cbn [fst gc f_idx f_quads].
      * rewrite !nth_app_at, upd_length. rewrite Li. destruct (Nat.eqb_spec ai (length (f_idx a))); [lia|].
        rewrite nth_error_upd_same by auto. rewrite F3. reflexivity.
      * rewrite !nth_app_at, upd_length. rewrite Lq. destruct (Nat.eqb_spec an (length (f_quads a))); [lia|].
        rewrite nth_error_upd_same by auto. rewrite F2. reflexivity.
    + intros [x|x|x|x|x] _ X; cbn [gc f_nodes f_idx f_quads f_bvhs f_mbvhs] in *; auto.
      * rewrite !nth_app_at, upd_length, Li. destruct (Nat.eqb_spec x (length (f_idx a))); auto.
        destruct (Nat.eq_dec x ai) as [->|N']; [rewrite P1, F3 in X; discriminate|]. rewrite nth_error_upd_other by auto. exact X.
      * rewrite !nth_app_at, upd_length, Lq. destruct (Nat.eqb_spec x (length (f_quads a))); auto.
        destruct (Nat.eq_dec x an) as [->|N']; [rewrite P2, F2 in X; discriminate|]. rewrite nth_error_upd_other by auto. exact X.
      * rewrite !nth_upd, Lq, Li, Lm. destruct ((x =? id) && (id <? length (f_mbvhs a))); auto.
    + intros [x|x|x|x|x]; cbn [gc f_nodes f_idx f_quads f_bvhs f_mbvhs]; rewrite !map_none, !nth_error_None;
        rewrite ?app_length, ?upd_length; cbn [length]; lia.
Qed.

Lemma all_calls_ok : calls_ok.
Proof.
  intros [bs aabbs n centers stride ppl k null|bd co aabbs n stride vertices vs ts ppl null|fuel h null|aabbs h|h|h]; cbn [prog_of].
  - apply create_ok.
  - apply spatial_ok.
  - apply create_m_ok.
  - apply refit_ok.
  - apply free_ok.
  - apply free_m_ok.
Qed.
