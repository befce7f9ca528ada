(** * Proofs about the C interface *)
Require Import List ZArith Bool Arith Lia.
From Verif Require Import F32 Vec RayModel AabbModel Base NodeModel IterModel LocbModel MbvhModel BvhModel
  FfiModel SpecTraverse SpecFfi.
Import ListNotations.
Local Open Scope nat_scope.

(** ** Lists *)
Lemma nth_app_at : forall {A} (l : list A) x i,
  nth_error (l ++ [x]) i = if i =? length l then Some x else nth_error l i.
Proof.
  intros A l x i. destruct (Nat.eqb_spec i (length l)) as [->|N].
  - rewrite nth_error_app2, Nat.sub_diag; auto.
  - destruct (Nat.lt_ge_cases i (length l)).
    + apply nth_error_app1; auto.
    + rewrite nth_error_app2 by lia. destruct (i - length l) as [|k] eqn:E; [lia|].
      cbn. rewrite (proj2 (nth_error_None l i)) by lia. destruct k; auto.
Qed.

Lemma nth_upd : forall {A} (l : list A) k x i,
  nth_error (upd l k x) i = if (i =? k) && (k <? length l) then Some x else nth_error l i.
Proof.
  intros A l k x i. destruct (Nat.eqb_spec i k) as [->|N]; cbn [andb].
  - destruct (Nat.ltb_spec k (length l)).
    + apply nth_error_upd_same; auto.
    + rewrite !(proj2 (nth_error_None _ k)); auto. rewrite upd_length; auto.
  - apply nth_error_upd_other; auto.
Qed.

Lemma nth_lt : forall {A} (l : list A) i x, nth_error l i = Some x -> i < length l.
Proof. intros A l i x H. apply nth_error_Some. congruence. Qed.

(** refit keeps the number of nodes and the indices. *)
Lemma for_each_length : forall {X A} (l : list X) (f : X -> list A -> res (list A)) s s',
  (forall x s s', f x s = Ok s' -> length s' = length s) -> for_each l f s = Ok s' -> length s' = length s.
Proof.
  induction l as [|x l IH]; intros f s s' H E; cbn [for_each] in E; [congruence|].
  destruct (f x s) as [s1| | |] eqn:Ef; try discriminate. cbn [bind] in E.
  rewrite (IH f s1 s' H E). eapply H; eauto.
Qed.
Lemma refit_keeps : forall b l b', BvhModel.refit b l = Ok b' ->
  length (nodes b') = length (nodes b) /\ prim_indices b' = prim_indices b.
Proof.
  intros b l b' E. unfold BvhModel.refit in E.
  destruct (for_each _ _ _) as [ns| | |] eqn:F; try discriminate. cbn [bind] in E. injection E as <-. cbn [nodes prim_indices].
  split; auto. eapply for_each_length; [|exact F]. intros x s s' H. unfold refit_node in H.
  destruct (get s x); try discriminate. cbn [bind] in H. destruct (refit_bounds _ _ _ _); try discriminate. cbn [bind] in H.
  apply set_inv in H as [_ ->]. apply upd_length.
Qed.

(** ** The table *)

(** Addresses of live structures are live and distinct. *)
Record inv (st : ffi) (t : table) : Prop := Inv {
  i_len : length (f_bvhs st) = length (fst t);
  i_mlen : length (f_mbvhs st) = length (snd t);
  i_bvh : forall i an ai b, nth_error (f_bvhs st) i = Some (an, ai) -> nth_error (fst t) i = Some b ->
          nth_error (f_nodes st) an = Some (Some (nodes b)) /\ nth_error (f_idx st) ai = Some (Some (prim_indices b));
  i_mbvh : forall i aq ai m, nth_error (f_mbvhs st) i = Some (aq, ai) -> nth_error (snd t) i = Some m ->
          nth_error (f_quads st) aq = Some (Some (fst m)) /\ nth_error (f_idx st) ai = Some (Some (snd m));
  i_inj : forall i j an ai an' ai', nth_error (f_bvhs st) i = Some (an, ai) -> nth_error (f_bvhs st) j = Some (an', ai') ->
          i <> j -> an <> an' /\ ai <> ai';
  i_minj : forall i j an ai an' ai', nth_error (f_mbvhs st) i = Some (an, ai) -> nth_error (f_mbvhs st) j = Some (an', ai') ->
          i <> j -> an <> an' /\ ai <> ai';
  i_cross : forall i j an ai aq ai', nth_error (f_bvhs st) i = Some (an, ai) -> nth_error (f_mbvhs st) j = Some (aq, ai') ->
          ai <> ai' }.

Lemma inv_new : inv ffi_new ([], []).
Proof.
  constructor; auto; cbn; intros; try (destruct i; discriminate).
Qed.

Lemma inv_lookup : forall st t i b, inv st t -> nth_error (fst t) i = Some b -> exists an ai, nth_error (f_bvhs st) i = Some (an, ai) /\
  nth_error (f_nodes st) an = Some (Some (nodes b)) /\ nth_error (f_idx st) ai = Some (Some (prim_indices b)).
Proof.
  intros st t i b I H. destruct (nth_error (f_bvhs st) i) as [[an ai]|] eqn:E.
  - exists an, ai. split; auto. eapply i_bvh; eauto.
  - exfalso. apply nth_error_None in E. rewrite (i_len _ _ I) in E. apply nth_lt in H. lia.
Qed.
Lemma inv_lookup_m : forall st t i m, inv st t -> nth_error (snd t) i = Some m -> exists aq ai, nth_error (f_mbvhs st) i = Some (aq, ai) /\
  nth_error (f_quads st) aq = Some (Some (fst m)) /\ nth_error (f_idx st) ai = Some (Some (snd m)).
Proof.
  intros st t i b I H. destruct (nth_error (f_mbvhs st) i) as [[an ai]|] eqn:E.
  - exists an, ai. split; auto. eapply i_mbvh; eauto.
  - exfalso. apply nth_error_None in E. rewrite (i_mlen _ _ I) in E. apply nth_lt in H. lia.
Qed.
Lemma inv_live : forall st t i an ai, inv st t -> nth_error (f_bvhs st) i = Some (an, ai) ->
  an < length (f_nodes st) /\ ai < length (f_idx st) /\ exists b, nth_error (fst t) i = Some b.
Proof.
  intros st t i an ai I H. destruct (nth_error (fst t) i) as [b|] eqn:E.
  - destruct (i_bvh _ _ I _ _ _ _ H E) as [A B]. split; [eapply nth_lt; eauto|]. split; [eapply nth_lt; eauto|eauto].
  - exfalso. apply nth_error_None in E. rewrite <- (i_len _ _ I) in E. apply nth_lt in H. lia.
Qed.
Lemma inv_live_m : forall st t i aq ai, inv st t -> nth_error (f_mbvhs st) i = Some (aq, ai) ->
  aq < length (f_quads st) /\ ai < length (f_idx st) /\ exists m, nth_error (snd t) i = Some m.
Proof.
  intros st t i an ai I H. destruct (nth_error (snd t) i) as [b|] eqn:E.
  - destruct (i_mbvh _ _ I _ _ _ _ H E) as [A B]. split; [eapply nth_lt; eauto|]. split; [eapply nth_lt; eauto|eauto].
  - exfalso. apply nth_error_None in E. rewrite <- (i_mlen _ _ I) in E. apply nth_lt in H. lia.
Qed.

Lemma get_table : forall st t id, inv st t -> manager_get st id = Ok (nth_error (fst t) (Z.to_nat id)).
Proof.
  intros st t id I. unfold manager_get. destruct (nth_error (fst t) (Z.to_nat id)) as [b|] eqn:E.
  - destruct (inv_lookup _ _ _ _ I E) as (an & ai & -> & Hn & Hi). unfold heap_get. rewrite Hn, Hi. cbn [bind].
    destruct b; reflexivity.
  - assert (nth_error (f_bvhs st) (Z.to_nat id) = None) as ->; auto.
    apply nth_error_None. rewrite (i_len _ _ I). apply nth_error_None; auto.
Qed.

Ltac at_end H i l := rewrite nth_app_at in H; destruct (Nat.eqb_spec i (length l)) as [?|?].

Lemma inv_store : forall st bs ms b, inv st (bs, ms) -> inv (snd (store st b)) (bs ++ [b], ms).
Proof.
  intros st bs ms b I. pose proof (i_len _ _ I) as L. cbn [fst] in L.
  unfold store; cbn [snd]. constructor; cbn [fst snd f_nodes f_idx f_quads f_bvhs f_mbvhs].
  - rewrite !app_length; cbn; lia.
  - apply (i_mlen _ _ I).
  - intros i an ai b' H H'. cbn [fst snd] in H'. rewrite nth_app_at in H; rewrite nth_app_at in H'. rewrite L in H.
    destruct (Nat.eqb_spec i (length bs)).
    + injection H as <- <-. injection H' as <-. rewrite !nth_app_at, !Nat.eqb_refl. auto.
    + destruct (inv_live _ _ _ _ _ I H) as (A & B & _).
      rewrite !nth_app_at. destruct (Nat.eqb_spec an (length (f_nodes st))), (Nat.eqb_spec ai (length (f_idx st))); try lia.
      apply (i_bvh _ _ I _ _ _ _ H H').
  - intros i aq ai m H H'. destruct (inv_live_m _ _ _ _ _ I H) as (A & B & _).
    rewrite nth_app_at. destruct (Nat.eqb_spec ai (length (f_idx st))); try lia.
    apply (i_mbvh _ _ I _ _ _ _ H H').
  - intros i j an ai an' ai' H H' N. rewrite nth_app_at in H; rewrite nth_app_at in H'.
    destruct (Nat.eqb_spec i (length (f_bvhs st))), (Nat.eqb_spec j (length (f_bvhs st))); try lia.
    + injection H as <- <-. destruct (inv_live _ _ _ _ _ I H') as (A & B & _). lia.
    + injection H' as <- <-. destruct (inv_live _ _ _ _ _ I H) as (A & B & _). lia.
    + apply (i_inj _ _ I _ _ _ _ _ _ H H' N).
  - apply (i_minj _ _ I).
  - intros i j an ai aq ai' H H'. rewrite nth_app_at in H.
    destruct (Nat.eqb_spec i (length (f_bvhs st))).
    + injection H as <- <-. destruct (inv_live_m _ _ _ _ _ I H') as (A & B & _). lia.
    + apply (i_cross _ _ I _ _ _ _ _ _ H H').
Qed.

Lemma inv_store_m : forall st bs ms m, inv st (bs, ms) ->
  inv (snd (store_mbvh st m)) (bs, ms ++ [(m_nodes m, mb_indices m)]).
Proof.
  intros st bs ms b I. pose proof (i_mlen _ _ I) as L. cbn [snd] in L.
  unfold store_mbvh; cbn [snd]. constructor; cbn [fst snd f_nodes f_idx f_quads f_bvhs f_mbvhs].
  - apply (i_len _ _ I).
  - rewrite !app_length; cbn; lia.
  - intros i an ai b' H H'. destruct (inv_live _ _ _ _ _ I H) as (A & B & _).
    rewrite nth_app_at. destruct (Nat.eqb_spec ai (length (f_idx st))); try lia.
    apply (i_bvh _ _ I _ _ _ _ H H').
  - intros i an ai b' H H'. cbn [fst snd] in H'. rewrite nth_app_at in H; rewrite nth_app_at in H'. rewrite L in H.
    destruct (Nat.eqb_spec i (length ms)).
    + injection H as <- <-. injection H' as <-. rewrite !nth_app_at, !Nat.eqb_refl. auto.
    + destruct (inv_live_m _ _ _ _ _ I H) as (A & B & _).
      rewrite !nth_app_at. destruct (Nat.eqb_spec an (length (f_quads st))), (Nat.eqb_spec ai (length (f_idx st))); try lia.
      apply (i_mbvh _ _ I _ _ _ _ H H').
  - apply (i_inj _ _ I).
  - intros i j an ai an' ai' H H' N. rewrite nth_app_at in H; rewrite nth_app_at in H'.
    destruct (Nat.eqb_spec i (length (f_mbvhs st))), (Nat.eqb_spec j (length (f_mbvhs st))); try lia.
    + injection H as <- <-. destruct (inv_live_m _ _ _ _ _ I H') as (A & B & _). lia.
    + injection H' as <- <-. destruct (inv_live_m _ _ _ _ _ I H) as (A & B & _). lia.
    + apply (i_minj _ _ I _ _ _ _ _ _ H H' N).
  - intros i j an ai aq ai' H H'. rewrite nth_app_at in H'.
    destruct (Nat.eqb_spec j (length (f_mbvhs st))).
    + injection H' as <- <-. destruct (inv_live _ _ _ _ _ I H) as (A & B & _). lia.
    + apply (i_cross _ _ I _ _ _ _ _ _ H H').
Qed.

Lemma inv_set_nodes : forall st bs ms id b ns, inv st (bs, ms) -> nth_error bs (Z.to_nat id) = Some b ->
  inv (manager_set_nodes st id ns) (upd bs (Z.to_nat id) (Bvh ns (prim_indices b)), ms).
Proof.
  intros st bs ms id b ns I E. destruct (inv_lookup _ (bs, ms) _ _ I E) as (an & ai & E' & Hn & Hi).
  unfold manager_set_nodes. rewrite E'.
  constructor; cbn [fst snd f_nodes f_idx f_quads f_bvhs f_mbvhs]; try apply I.
  - rewrite upd_length. apply (i_len _ _ I).
  - intros i an' ai' b' H H'. cbn [fst snd] in H'. rewrite nth_upd in H'.
    destruct (Nat.eqb_spec i (Z.to_nat id)) as [->|N]; cbn [andb] in H'.
    + assert (Z.to_nat id < length bs) as Lt by (eapply nth_lt; eauto).
      destruct (Nat.ltb_spec (Z.to_nat id) (length bs)); [|lia]. injection H' as <-.
      rewrite E' in H. injection H as <- <-. cbn [nodes prim_indices]. split; auto.
      apply nth_error_upd_same. eapply nth_lt; eauto.
    + destruct (i_inj _ _ I _ _ _ _ _ _ H E' N) as [D _].
      rewrite nth_error_upd_other by auto. apply (i_bvh _ _ I _ _ _ _ H H').
Qed.

Lemma inv_free : forall st bs ms id, inv st (bs, ms) ->
  inv (snd (manager_free st id)) (upd bs (Z.to_nat id) empty_bvh, ms) /\
  fst (manager_free st id) = (Z.to_nat id <? length bs).
Proof.
  intros st bs ms id I. pose proof (i_len _ _ I) as L. cbn [fst] in L. unfold manager_free.
  destruct (nth_error (f_bvhs st) (Z.to_nat id)) as [[an ai]|] eqn:E; cbn [fst snd].
  2:{ apply nth_error_None in E. split; [|symmetry; apply Nat.ltb_ge; lia].
      replace (upd bs (Z.to_nat id) empty_bvh) with bs; auto.
      apply nth_error_ext. intro i. rewrite nth_upd.
      destruct (Nat.ltb_spec (Z.to_nat id) (length bs)); [lia|]. rewrite andb_false_r. auto. }
  pose proof (nth_lt _ _ _ E) as Lt. split; [|symmetry; apply Nat.ltb_lt; lia].
  destruct (inv_live _ _ _ _ _ I E) as (La & Li & _).
  constructor; cbn [fst snd f_nodes f_idx f_quads f_bvhs f_mbvhs].
  - rewrite !upd_length. auto.
  - apply (i_mlen _ _ I).
  - intros i an' ai' b' H H'. cbn [fst snd] in H'. rewrite nth_upd in H; rewrite nth_upd in H'. rewrite L in H.
    destruct (Nat.ltb_spec (Z.to_nat id) (length bs)); [|lia].
    destruct (Nat.eqb_spec i (Z.to_nat id)) as [->|N]; cbn [andb] in H, H'.
    + injection H as <- <-. injection H' as <-. rewrite !nth_app_at, !upd_length, !Nat.eqb_refl. auto.
    + destruct (inv_live _ _ _ _ _ I H) as (A & B & _).
      destruct (i_inj _ _ I _ _ _ _ _ _ H E N) as [D1 D2].
      rewrite !nth_app_at, !upd_length.
      destruct (Nat.eqb_spec an' (length (f_nodes st))), (Nat.eqb_spec ai' (length (f_idx st))); try lia.
      rewrite !nth_error_upd_other by auto. apply (i_bvh _ _ I _ _ _ _ H H').
  - intros i aq ai' m H H'. destruct (inv_live_m _ _ _ _ _ I H) as (A & B & _).
    pose proof (i_cross _ _ I _ _ _ _ _ _ E H) as D.
    rewrite nth_app_at, upd_length. destruct (Nat.eqb_spec ai' (length (f_idx st))); try lia.
    rewrite nth_error_upd_other by auto. apply (i_mbvh _ _ I _ _ _ _ H H').
  - intros i j an1 ai1 an2 ai2 H H' N. rewrite nth_upd in H; rewrite nth_upd in H'.
    destruct (Nat.ltb_spec (Z.to_nat id) (length (f_bvhs st))); [|lia].
    destruct (Nat.eqb_spec i (Z.to_nat id)), (Nat.eqb_spec j (Z.to_nat id)); cbn [andb] in H, H'; try lia.
    + injection H as <- <-. destruct (inv_live _ _ _ _ _ I H') as (A & B & _). lia.
    + injection H' as <- <-. destruct (inv_live _ _ _ _ _ I H) as (A & B & _). lia.
    + apply (i_inj _ _ I _ _ _ _ _ _ H H' N).
  - apply (i_minj _ _ I).
  - intros i j an1 ai1 aq ai2 H H'. rewrite nth_upd in H.
    destruct ((i =? Z.to_nat id) && (Z.to_nat id <? length (f_bvhs st))).
    + injection H as <- <-. destruct (inv_live_m _ _ _ _ _ I H') as (A & B & _). lia.
    + apply (i_cross _ _ I _ _ _ _ _ _ H H').
Qed.

Lemma inv_free_m : forall st bs ms id, inv st (bs, ms) ->
  inv (snd (manager_free_mbvh st id)) (bs, upd ms (Z.to_nat id) ([], [])) /\
  fst (manager_free_mbvh st id) = (Z.to_nat id <? length ms).
Proof.
  intros st bs ms id I. pose proof (i_mlen _ _ I) as L. cbn [snd] in L. unfold manager_free_mbvh.
  destruct (nth_error (f_mbvhs st) (Z.to_nat id)) as [[an ai]|] eqn:E; cbn [fst snd].
  2:{ apply nth_error_None in E. split; [|symmetry; apply Nat.ltb_ge; lia].
      replace (upd ms (Z.to_nat id) ([], [])) with ms; auto.
      apply nth_error_ext. intro i. rewrite nth_upd.
      destruct (Nat.ltb_spec (Z.to_nat id) (length ms)); [lia|]. rewrite andb_false_r. auto. }
  pose proof (nth_lt _ _ _ E) as Lt. split; [|symmetry; apply Nat.ltb_lt; lia].
  destruct (inv_live_m _ _ _ _ _ I E) as (La & Li & _).
  constructor; cbn [fst snd f_nodes f_idx f_quads f_bvhs f_mbvhs].
  - apply (i_len _ _ I).
  - rewrite !upd_length. auto.
  - intros i aq ai' m H H'. destruct (inv_live _ _ _ _ _ I H) as (A & B & _).
    pose proof (i_cross _ _ I _ _ _ _ _ _ H E) as D.
    rewrite nth_app_at, upd_length. destruct (Nat.eqb_spec ai' (length (f_idx st))); try lia.
    rewrite nth_error_upd_other by auto. apply (i_bvh _ _ I _ _ _ _ H H').
  - intros i an' ai' b' H H'. cbn [fst snd] in H'. rewrite nth_upd in H; rewrite nth_upd in H'. rewrite L in H.
    destruct (Nat.ltb_spec (Z.to_nat id) (length ms)); [|lia].
    destruct (Nat.eqb_spec i (Z.to_nat id)) as [->|N]; cbn [andb] in H, H'.
    + injection H as <- <-. injection H' as <-. rewrite !nth_app_at, !upd_length, !Nat.eqb_refl. auto.
    + destruct (inv_live_m _ _ _ _ _ I H) as (A & B & _).
      destruct (i_minj _ _ I _ _ _ _ _ _ H E N) as [D1 D2].
      rewrite !nth_app_at, !upd_length.
      destruct (Nat.eqb_spec an' (length (f_quads st))), (Nat.eqb_spec ai' (length (f_idx st))); try lia.
      rewrite !nth_error_upd_other by auto. apply (i_mbvh _ _ I _ _ _ _ H H').
  - apply (i_inj _ _ I).
  - intros i j an1 ai1 an2 ai2 H H' N. rewrite nth_upd in H; rewrite nth_upd in H'.
    destruct (Nat.ltb_spec (Z.to_nat id) (length (f_mbvhs st))); [|lia].
    destruct (Nat.eqb_spec i (Z.to_nat id)), (Nat.eqb_spec j (Z.to_nat id)); cbn [andb] in H, H'; try lia.
    + injection H as <- <-. destruct (inv_live_m _ _ _ _ _ I H') as (A & B & _). lia.
    + injection H' as <- <-. destruct (inv_live_m _ _ _ _ _ I H) as (A & B & _). lia.
    + apply (i_minj _ _ I _ _ _ _ _ _ H H' N).
  - intros i j an1 ai1 aq ai2 H H'. rewrite nth_upd in H'.
    destruct ((j =? Z.to_nat id) && (Z.to_nat id <? length (f_mbvhs st))).
    + injection H' as <- <-. destruct (inv_live _ _ _ _ _ I H) as (A & B & _). lia.
    + apply (i_cross _ _ I _ _ _ _ _ _ H H').
Qed.

(** The model's table is the specification's. *)
Lemma step_table : forall st t o, inv st t ->
  match step st o, table_step t o with
  | Some st', Some t' => inv st' t'
  | None, None => True
  | _, _ => False
  end.
Proof.
  intros st [bs ms] o I. destruct o as [b|m|id l|id|id]; cbn [step table_step].
  - apply inv_store; auto.
  - apply inv_store_m; auto.
  - rewrite (get_table _ _ id I). cbn [fst]. destruct (nth_error bs (Z.to_nat id)) as [b|] eqn:E; auto.
    destruct (BvhModel.refit b l) as [b'| | |] eqn:R; auto.
    destruct (refit_keeps _ _ _ R) as [_ K].
    pose proof (inv_set_nodes st bs ms id b (nodes b') I E) as J. rewrite <- K in J. destruct b'; exact J.
  - apply inv_free; auto.
  - apply inv_free_m; auto.
Qed.

Lemma run_table : forall os st t, inv st t ->
  match run st os, table_run t os with
  | Some st', Some t' => inv st' t'
  | None, None => True
  | _, _ => False
  end.
Proof.
  induction os as [|o os IH]; intros st t I; cbn [run table_run]; auto.
  pose proof (step_table st t o I) as S. destruct (step st o), (table_step t o); try contradiction; auto. apply IH; auto.
Qed.

Lemma run_inv : forall os st st' t, inv st t -> run st os = Some st' -> exists t', table_run t os = Some t' /\ inv st' t'.
Proof.
  intros os st st' t I R. pose proof (run_table os st t I) as H. rewrite R in H.
  destruct (table_run t os) as [t'|]; [eauto|contradiction].
Qed.

(** ** Pointers *)

(** The buffers of structure [id] stay where they are until it is freed. *)
Lemma step_ptrs : forall st st' t o i p, inv st t -> step st o = Some st' -> nth_error (f_bvhs st) i = Some p ->
  (match o with OFree j => Z.to_nat j <> i | _ => True end) -> nth_error (f_bvhs st') i = Some p.
Proof.
  intros st st' t o i p I S H F. destruct o as [b|m|id l|id|id]; cbn [step] in S.
  - injection S as <-. cbn. rewrite nth_app_at. apply nth_lt in H as H'. destruct (Nat.eqb_spec i (length (f_bvhs st))); [lia|auto].
  - injection S as <-. auto.
  - destruct (manager_get st id) as [[b|]| | |]; try discriminate; [|injection S as <-; auto].
    destruct (BvhModel.refit b l); try discriminate. injection S as <-. unfold manager_set_nodes.
    destruct (nth_error (f_bvhs st) (Z.to_nat id)) as [[an ai]|]; auto.
  - injection S as <-. unfold manager_free. destruct (nth_error (f_bvhs st) (Z.to_nat id)) as [[an ai]|]; auto.
    cbn. rewrite nth_error_upd_other; auto.
  - injection S as <-. unfold manager_free_mbvh. destruct (nth_error (f_mbvhs st) (Z.to_nat id)) as [[an ai]|]; auto.
Qed.
Lemma run_ptrs : forall os st st' t id i p, inv st t -> run st os = Some st' -> nth_error (f_bvhs st) i = Some p ->
  i = Z.to_nat id -> forallb (fun o => negb (frees id o)) os = true -> nth_error (f_bvhs st') i = Some p.
Proof.
  induction os as [|o os IH]; intros st st' t id i p I R H Ei F; cbn [run] in R; [congruence|].
  cbn [forallb] in F. apply andb_true_iff in F as [F1 F2].
  pose proof (step_table st t o I) as S. destruct (step st o) as [st1|] eqn:E; [|discriminate].
  destruct (table_step t o) as [t1|]; [|contradiction].
  apply (IH st1 st' t1 id i p); auto. apply (step_ptrs st st1 t o i p I E H).
  destruct o; try exact Logic.I; cbn [frees] in F1; apply negb_true_iff in F1; apply Nat.eqb_neq in F1; lia.
Qed.
Lemma step_ptrs_m : forall st st' t o i p, inv st t -> step st o = Some st' -> nth_error (f_mbvhs st) i = Some p ->
  (match o with OFreeM j => Z.to_nat j <> i | _ => True end) -> nth_error (f_mbvhs st') i = Some p.
Proof.
  intros st st' t o i p I S H F. destruct o as [b|m|id l|id|id]; cbn [step] in S.
  - injection S as <-. auto.
  - injection S as <-. cbn. rewrite nth_app_at. apply nth_lt in H as H'. destruct (Nat.eqb_spec i (length (f_mbvhs st))); [lia|auto].
  - destruct (manager_get st id) as [[b|]| | |]; try discriminate; [|injection S as <-; auto].
    destruct (BvhModel.refit b l); try discriminate. injection S as <-. unfold manager_set_nodes.
    destruct (nth_error (f_bvhs st) (Z.to_nat id)) as [[an ai]|]; auto.
  - injection S as <-. unfold manager_free. destruct (nth_error (f_bvhs st) (Z.to_nat id)) as [[an ai]|]; auto.
  - injection S as <-. unfold manager_free_mbvh. destruct (nth_error (f_mbvhs st) (Z.to_nat id)) as [[an ai]|]; auto.
    cbn. rewrite nth_error_upd_other; auto.
Qed.
Lemma run_ptrs_m : forall os st st' t id i p, inv st t -> run st os = Some st' -> nth_error (f_mbvhs st) i = Some p ->
  i = Z.to_nat id -> forallb (fun o => negb (frees_m id o)) os = true -> nth_error (f_mbvhs st') i = Some p.
Proof.
  induction os as [|o os IH]; intros st st' t id i p I R H Ei F; cbn [run] in R; [congruence|].
  cbn [forallb] in F. apply andb_true_iff in F as [F1 F2].
  pose proof (step_table st t o I) as S. destruct (step st o) as [st1|] eqn:E; [|discriminate].
  destruct (table_step t o) as [t1|]; [|contradiction].
  apply (IH st1 st' t1 id i p); auto. apply (step_ptrs_m st st1 t o i p I E H).
  destruct o; try exact Logic.I; cbn [frees_m] in F1; apply negb_true_iff in F1; apply Nat.eqb_neq in F1; lia.
Qed.

(** A freed buffer stays freed. *)
Definition dead {A} (l : list (option A)) (a : nat) : Prop := nth_error l a = Some None.
Lemma dead_get : forall {A} (l : list (option A)) a, dead l a -> heap_get l a = UB.
Proof. intros A l a H. unfold heap_get. rewrite H. reflexivity. Qed.
Lemma dead_app : forall {A} (l : list (option A)) a x, dead l a -> dead (l ++ [x]) a.
Proof.
  intros A l a x H. unfold dead in *. rewrite nth_app_at. apply nth_lt in H as L.
  destruct (Nat.eqb_spec a (length l)); [lia|auto].
Qed.
Lemma step_dead : forall st st' t o a, inv st t -> step st o = Some st' -> dead (f_nodes st) a -> dead (f_nodes st') a.
Proof.
  intros st st' t o a I S D. destruct o as [b|m|id l|id|id]; cbn [step] in S.
  - injection S as <-. apply dead_app; auto.
  - injection S as <-. auto.
  - rewrite (get_table _ _ id I) in S. destruct (nth_error (fst t) (Z.to_nat id)) as [b|] eqn:E; [|injection S as <-; auto].
    destruct (BvhModel.refit b l); try discriminate. injection S as <-. unfold manager_set_nodes.
    destruct (nth_error (f_bvhs st) (Z.to_nat id)) as [[an ai]|] eqn:E'; auto. cbn [f_nodes].
    destruct (i_bvh _ _ I _ _ _ _ E' E) as [Hn _]. unfold dead in *. rewrite nth_error_upd_other; auto.
    intro Q; subst; congruence.
  - injection S as <-. unfold manager_free. destruct (nth_error (f_bvhs st) (Z.to_nat id)) as [[an ai]|]; auto.
    cbn. apply dead_app. unfold dead in *. rewrite nth_upd.
    destruct (Nat.eqb_spec a an) as [->|]; cbn [andb]; auto. destruct (an <? length (f_nodes st)); auto.
  - injection S as <-. unfold manager_free_mbvh. destruct (nth_error (f_mbvhs st) (Z.to_nat id)) as [[an ai]|]; auto.
Qed.
Lemma run_dead : forall os st st' t a, inv st t -> run st os = Some st' -> dead (f_nodes st) a -> dead (f_nodes st') a.
Proof.
  induction os as [|o os IH]; intros st st' t a I R D; cbn [run] in R; [congruence|].
  pose proof (step_table st t o I) as S. destruct (step st o) as [st1|] eqn:E; [|discriminate].
  destruct (table_step t o) as [t1|]; [|contradiction].
  apply (IH st1 st' t1 a); auto. apply (step_dead st st1 t o a I E D).
Qed.

(** ** Loops with break *)
Lemma ffi_loop_run : forall {R H C} inter closer found ns is (cb : C -> nat -> R -> bool * C * R) fuel c r s full rays ce,
  bvh_run R H inter closer found ns is C (forget_stop cb) fuel c r s = Ok (full, rays, ce) ->
  exists ps r' c', ffi_loop (bvh_turn R H inter closer found ns is) cb fuel c r s = Ok (ps, r', c') /\
    calls_made cb c r full ps /\ client_fold (forget_stop cb) ps c r = (c', r').
Proof.
  intros R H C inter closer found ns is cb. induction fuel as [|fuel IH]; intros c r s full rays ce E; [discriminate|].
  cbn [bvh_run ffi_loop] in *. destruct (bvh_turn R H inter closer found ns is r s) as [[t s']| | |]; try discriminate.
  cbn [bind] in *. destruct t as [p| |].
  - unfold forget_stop at 1 in E. destruct (cb c p r) as [[stop c1] r1] eqn:Ecb.
    destruct (bvh_run R H inter closer found ns is C (forget_stop cb) fuel c1 r1 s') as [[[ps rs] c2]| | |] eqn:E1; try discriminate.
    cbn [bind] in E. injection E as <- <- <-.
    destruct stop.
    + exists [p], r1, c1. split; auto. split.
      * cbn [calls_made]. rewrite Ecb. auto.
      * unfold client_fold. cbn. unfold forget_stop. rewrite Ecb. reflexivity.
    + destruct (IH _ _ _ _ _ _ E1) as (ps' & r' & c' & -> & CM & CF). cbn [bind].
      exists (p :: ps'), r', c'. split; auto. split.
      * cbn [calls_made]. rewrite Ecb. auto.
      * unfold client_fold in *. cbn [fold_left fst snd]. unfold forget_stop at 2. rewrite Ecb. exact CF.
  - eapply IH; eauto.
  - injection E as <- <- <-. exists [], r, c. cbn. auto.
Qed.

Lemma ffi_loop_mrun : forall {R C} inter found ms is (cb : C -> nat -> R -> bool * C * R) fuel c r s full rays ce,
  mbvh_run R inter found ms is C (forget_stop cb) fuel c r s = Ok (full, rays, ce) ->
  exists ps r' c', ffi_loop (mbvh_turn R inter found ms is) cb fuel c r s = Ok (ps, r', c') /\
    calls_made cb c r full ps /\ client_fold (forget_stop cb) ps c r = (c', r').
Proof.
  intros R C inter found ms is cb. induction fuel as [|fuel IH]; intros c r s full rays ce E; [discriminate|].
  cbn [mbvh_run ffi_loop] in *. destruct (mbvh_turn R inter found ms is r s) as [[t s']| | |]; try discriminate.
  cbn [bind] in *. destruct t as [p| |].
  - unfold forget_stop at 1 in E. destruct (cb c p r) as [[stop c1] r1] eqn:Ecb.
    destruct (mbvh_run R inter found ms is C (forget_stop cb) fuel c1 r1 s') as [[[ps rs] c2]| | |] eqn:E1; try discriminate.
    cbn [bind] in E. injection E as <- <- <-.
    destruct stop.
    + exists [p], r1, c1. split; auto. split.
      * cbn [calls_made]. rewrite Ecb. auto.
      * unfold client_fold. cbn. unfold forget_stop. rewrite Ecb. reflexivity.
    + destruct (IH _ _ _ _ _ _ E1) as (ps' & r' & c' & -> & CM & CF). cbn [bind].
      exists (p :: ps'), r', c'. split; auto. split.
      * cbn [calls_made]. rewrite Ecb. auto.
      * unfold client_fold in *. cbn [fold_left fst snd]. unfold forget_stop at 2. rewrite Ecb. exact CF.
  - eapply IH; eauto.
  - injection E as <- <- <-. exists [], r, c. cbn. auto.
Qed.

(** A callback that never stops sees everything. *)
Lemma calls_all : forall {C R} (cb : C -> nat -> R -> bool * C * R), (forall c p r, fst (fst (cb c p r)) = false) ->
  forall full ps c r, calls_made cb c r full ps -> ps = full.
Proof.
  intros C R cb N. induction full as [|y full IH]; intros [|p ps] c r H; cbn [calls_made] in H; try contradiction; auto.
  destruct H as [-> H]. specialize (N c p r). destruct (cb c p r) as [[stop c'] r']. cbn in N. subst stop.
  f_equal. eapply IH; eauto.
Qed.

(** Only membership of the ids matters for [found]. *)
Lemma run_found : forall R H inter closer f1 f2 ns is C (client : C -> nat -> R -> C * R),
  (forall p, In p is -> f1 p = f2 p) -> forall fuel c r s,
  bvh_run R H inter closer f1 ns is C client fuel c r s = bvh_run R H inter closer f2 ns is C client fuel c r s.
Proof.
  intros R H inter closer g1 g2 ns is C client E.
  assert (forall r s, bvh_turn R H inter closer g1 ns is r s = bvh_turn R H inter closer g2 ns is r s) as T.
  { intros r s. unfold bvh_turn. destruct (b_sp s <? 0)%Z; auto.
    destruct (get_unchecked (b_stack s) _); auto. cbn [bind]. destruct (get_unchecked ns _); auto. cbn [bind].
    destruct (_ >? -1)%Z; auto. destruct (_ <? _)%Z; auto.
    unfold get_unchecked. destruct (nth_error is _) as [p|] eqn:P; auto. cbn [bind].
    rewrite (E p); auto. eapply nth_error_In; eauto. }
  induction fuel as [|fuel IH]; intros c r s; auto. cbn [bvh_run]. rewrite T.
  destruct (bvh_turn R H inter closer g2 ns is r s) as [[t s']| | |]; auto. cbn [bind].
  destruct t; auto. destruct (client c prim r). rewrite IH. auto.
Qed.
