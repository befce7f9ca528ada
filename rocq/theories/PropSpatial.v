(** * Properties C22, C51, C52 of the parallel spatial-split builder *)
Require Import List ZArith Bool Arith Lia Permutation.
From Verif Require Import F32 F32Facts Vec Base AabbModel NodeModel UtilsModel SpecGeom SpecTree
  LocbModel SpawnModel SpawnProofs TriModel BinnedModel SpatialModel SpecSpatial SpatialPlan SpatialProofs SpatialComplete
  SpatialShare LocbProofs PropBox.
From Verif Require SpatialCost.
Import ListNotations.
Local Open Scope nat_scope.

(** Inputs: one AABB per triangle, at least one, at most about 3 * 10^8 (the
    reference arrays have [max_refs n] elements).  No condition on the
    coordinates. *)
Definition spatial_input (aabbs : list aabb) (prims : list tri) : Prop :=
  length prims = length aabbs /\ 1 <= length aabbs /\ (Z.of_nat (max_refs (length aabbs)) <= 536870912)%Z.
(** The library's sort: any function that returns a permutation. *)
Definition permutes (sorter : nat -> list sref -> list sref) : Prop := forall axis l, Permutation (sorter axis l) l.

Lemma insertion_permutes : permutes insertion_sort.
Proof.
  intros axis l. unfold insertion_sort.
  assert (forall x l, Permutation (insert_ref axis x l) (x :: l)) as I.
  { intros x. induction l0 as [|y l0 IH]; simpl; auto. destruct (flt _ _); auto. rewrite IH. apply perm_swap. }
  assert (forall l acc, Permutation (fold_left (fun acc x => insert_ref axis x acc) l acc) (l ++ acc)) as G.
  { induction l0 as [|x l0 IH]; intros acc; simpl; auto. rewrite IH, I. symmetry. apply Permutation_middle. }
  rewrite G, app_nil_r. auto.
Qed.

Lemma stores_prims : forall idx t a, stores idx t a -> prims idx t = a_prims a.
Proof.
  intros idx. unfold prims. induction t as [i nd|i nd l IHl r IHr]; intros [box ids|box sh mv al ar] H; simpl in H; try contradiction.
  - apply H.
  - destruct H as (_ & _ & Hl & Hr). simpl. rewrite map_app, (IHl _ Hl), (IHr _ Hr). auto.
Qed.
Lemma stores_size : forall idx t a, stores idx t a -> length (t_ids t) = a_size a.
Proof.
  intros idx. induction t as [i nd|i nd l IHl r IHr]; intros [box ids|box sh mv al ar] H; simpl in H; try contradiction; simpl; auto.
  destruct H as (_ & _ & Hl & Hr). rewrite app_length, (IHl _ Hl), (IHr _ Hr). auto.
Qed.
Lemma stores_depth : forall idx t a, stores idx t a -> depth t = a_depth a.
Proof.
  intros idx. induction t as [i nd|i nd l IHl r IHr]; intros [box ids|box sh mv al ar] H; simpl in H; try contradiction; simpl; auto.
  destruct H as (_ & _ & Hl & Hr). rewrite (IHl _ Hl), (IHr _ Hr). auto.
Qed.
Lemma stores_same : forall idx1 idx2 t1 t2 a, stores idx1 t1 a -> stores idx2 t2 a -> same_tree idx1 t1 idx2 t2.
Proof.
  intros idx1 idx2. induction t1 as [i nd|i nd l IHl r IHr]; intros [j me|j me l' r'] [box ids|box sh mv al ar] H1 H2; simpl in *; try contradiction.
  - intuition congruence.
  - destruct H1 as (A & B & Hl & Hr), H2 as (A' & B' & Hl' & Hr'). split; [congruence|]. split; [congruence|]. eauto.
Qed.

Lemma spa_seq : forall sorter ppl aabbs tris centers,
  spa sorter tris (max_leaf_size ppl) (spatial_threshold aabbs) (root_ent aabbs centers) = seq_spatial sorter ppl aabbs tris centers.
Proof.
  intros. rewrite spa_eq. change (w_depth (e_t (root_ent aabbs centers))) with 0. rewrite Nat.sub_0_r.
  unfold seq_spatial, root_ent. cbn [e_t e_box e_w]. reflexivity.
Qed.
(** What a build that returns has built. *)
Lemma spatial_result : forall sorter ppl aabbs tris centers b, permutes sorter -> spatial_input aabbs tris ->
  spatial_build sorter ppl aabbs tris centers b ->
  exists t T, seq_spatial sorter ppl aabbs tris centers = Ok T /\ stores (prim_indices b) t T /\
    repr (nodes b) t /\ t_idx t = 0 /\ Permutation (t_ids t) (seq 0 (length (nodes b))) /\ children_after t /\
    Permutation (positions t) (seq 0 (length (positions t))) /\ length (positions t) <= max_refs (length aabbs) /\
    length (prim_indices b) = max_refs (length aabbs) /\ length (nodes b) <= 2 * max_refs (length aabbs) + 1.
Proof.
  intros sorter ppl aabbs tris centers b Sp (L & N & M) B. unfold spatial_build in B.
  rewrite L, Nat.eqb_refl in B. replace (length aabbs =? 0) with false in B by (symmetry; apply Nat.eqb_neq; lia).
  cbn [negb orb] in B. destruct B as (s & R & Rt & ->).
  destruct (returned_spatial sorter Sp tris (max_leaf_size ppl) (spatial_threshold aabbs) aabbs centers N M s R Rt) as (t & T & H).
  cbv zeta in H. destruct H as (E & H). rewrite spa_seq in E. exists t, T. split; [exact E|exact H].
Qed.

(** ** C22 *)
(** Whatever the schedule, a build that returns has built a binary tree over
    all its node slots, of depth at most 64, whose leaf ranges are disjoint
    parts of [prim_indices] that hold numbers of primitives. *)
Theorem C22_tree : forall sorter ppl aabbs tris centers b,
  permutes sorter -> spatial_input aabbs tris -> spatial_build sorter ppl aabbs tris centers b ->
  exists t, repr (nodes b) t /\ t_idx t = 0 /\ Permutation (t_ids t) (seq 0 (length (nodes b))) /\ children_after t /\
    depth t <= 64 /\ NoDup (positions t) /\ Forall (fun k => k < length (prim_indices b)) (positions t) /\
    Forall (fun p => p < length aabbs) (prims (prim_indices b) t).
Proof.
  intros sorter ppl aabbs tris centers b Sp I B. pose proof I as (L & N & M).
  destruct (spatial_result _ _ _ _ _ _ Sp I B) as (t & T & ET & St & Rp & T0 & Ids & Ca & Ps & Lp & Li & _).
  destruct (root_facts sorter Sp tris (max_leaf_size ppl) (spatial_threshold aabbs) aabbs centers N T) as [Sm Dp].
  { rewrite spa_seq. exact ET. }
  exists t. split; auto. split; auto. split; auto. split; auto.
  split; [rewrite (stores_depth _ _ _ St); exact Dp|].
  split; [eapply Permutation_NoDup; [symmetry; exact Ps|apply seq_NoDup]|].
  split.
  - apply Forall_forall. intros k Ik. apply (Permutation_in _ Ps) in Ik. apply in_seq in Ik. lia.
  - rewrite (stores_prims _ _ _ St). exact Sm.
Qed.

(** How many references there are: one and three quarters times as many as
    triangles, as long as the f32 arithmetic of the code is exact.  The leaf
    ranges fill the front of [prim_indices] without gaps. *)
Theorem C22_capacity : forall sorter ppl aabbs tris centers b t,
  permutes sorter -> spatial_input aabbs tris -> spatial_build sorter ppl aabbs tris centers b ->
  (Z.of_nat (length aabbs) <= 5592405)%Z -> repr (nodes b) t -> t_idx t = 0 ->
  let n := length aabbs in
  length (prim_indices b) = n + 3 * n / 4 /\ length (positions t) <= n + 3 * n / 4 /\
  Permutation (positions t) (seq 0 (length (positions t))) /\ length (nodes b) <= 2 * (n + 3 * n / 4) + 1.
Proof.
  intros sorter ppl aabbs tris centers b t Sp I B Ln Rp T0 n.
  destruct (spatial_result _ _ _ _ _ _ Sp I B) as (t' & T & ET & St & Rp' & T0' & Ids & Ca & Ps & Lp & Li & Lc).
  assert (t = t') as -> by (eapply repr_unique; eauto; congruence).
  assert (3 * Z.of_nat n < 16777216)%Z as H by (unfold n; lia).
  rewrite (max_refs_exact n H : max_refs (length aabbs) = _) in Lp, Li, Lc. auto.
Qed.

Lemma seq_spatial_eq : forall sorter ppl aabbs tris centers,
  seq_spatial sorter ppl aabbs tris centers =
  seq_tree sorter tris (max_leaf_size ppl) (spatial_threshold aabbs) MAX_DEPTH
    (spatial_root aabbs) (union_of_list aabbs) (p_refs (spatial_start aabbs centers)).
Proof. reflexivity. Qed.
Lemma complete_fuel : forall sorter ppl aabbs tris centers fuel T, permutes sorter -> 1 <= length aabbs ->
  seq_tree sorter tris (max_leaf_size ppl) (spatial_threshold aabbs) fuel
    (spatial_root aabbs) (union_of_list aabbs) (p_refs (spatial_start aabbs centers)) = Ok T ->
  harmless T -> forall p, p < length aabbs -> In p (a_prims T).
Proof.
  intros sorter ppl aabbs tris centers fuel T Sp N ET Hm.
  pose proof (M_ge aabbs N) as Mge.
  pose proof (seq_complete sorter Sp tris (max_leaf_size ppl) (spatial_threshold aabbs) (length aabbs) fuel
    (spatial_root aabbs) (union_of_list aabbs) (p_refs (spatial_start aabbs centers)) (max_refs (length aabbs)) (seq 0 (length aabbs)) T) as H.
  intros p Lt. assert (incl (seq 0 (length aabbs)) (a_prims T)) as G; [|apply G; apply in_seq; lia].
  apply H; auto; clear H ET.
  - unfold w_size, spatial_root. cbn [w_end w_begin]. lia.
  - unfold spatial_root. cbn [w_split_end w_begin]. lia.
  - unfold spatial_root. cbn [w_end w_begin]. lia.
  - split; [|split]; [apply (start_refs aabbs centers N 0)|apply (start_refs aabbs centers N 1)|apply (start_refs aabbs centers N 2)].
  - split; [apply seq_NoDup|]. unfold w_size, spatial_root, spatial_start. cbn [w_end w_begin p_refs]. rewrite Nat.sub_0_r.
    assert (pr (firstn (length aabbs) (first_refs aabbs centers ++ repeat sref_new (max_refs (length aabbs) - length aabbs))) = seq 0 (length aabbs)) as E.
    { rewrite firstn_app_len by (unfold first_refs; rewrite map_length, seq_length; auto).
      unfold pr, first_refs. rewrite map_map. cbn [s_prim]. apply map_id. }
    split; [|split]; cbn [pick]; rewrite E; auto.
Qed.

(** If, besides, the reference moves of the build were harmless -- whenever
    the references of a right child were moved, they were moved by at least
    their number -- every primitive is in some leaf.  (That they are harmless
    is not guaranteed: see [C65_lost_refuted].) *)
Theorem C65_complete_partial : forall sorter ppl aabbs tris centers b T t,
  permutes sorter -> spatial_input aabbs tris -> spatial_build sorter ppl aabbs tris centers b ->
  seq_spatial sorter ppl aabbs tris centers = Ok T -> harmless T ->
  repr (nodes b) t -> t_idx t = 0 ->
  forall p, p < length aabbs -> In p (prims (prim_indices b) t).
Proof.
  intros sorter ppl aabbs tris centers b T t Sp I B ET Hm Rp T0 p Lt. pose proof I as (L & N & M).
  destruct (spatial_result _ _ _ _ _ _ Sp I B) as (t' & T' & ET' & St & Rp' & T0' & _ & _).
  rewrite ET in ET'. injection ET' as <-.
  assert (t = t') as -> by (eapply repr_unique; eauto; congruence).
  rewrite (stores_prims _ _ _ St).
  rewrite seq_spatial_eq in ET. exact (complete_fuel sorter ppl aabbs tris centers MAX_DEPTH T Sp N ET Hm p Lt).
Qed.

(** ** Builds of at most two triangles *)
(** Without free references nothing is moved. *)
Lemma full_harmless : forall sorter tris lsize th n k t bounds w T, permutes sorter ->
  w_begin t <= w_end t -> w_split_end t = w_end t -> all3 (okw n (w_size t)) w ->
  seq_tree sorter tris lsize th k t bounds w = Ok T -> harmless T.
Proof.
  intros sorter tris lsize th n. induction k as [|k IH]; intros t bounds w T Sp LB EW O E; rewrite stree_eq in E;
    (destruct (plan_task sorter tris lsize th t bounds w) as [[w1 d]| | |] eqn:Ep; cbn [bind] in E; try discriminate E);
    (destruct (plan_ok sorter Sp tris lsize n th (w_size t) _ _ _ _ _ (Nat.le_refl _) O Ep) as (Ow & Od)).
  - destruct d as [|c]; [|discriminate E]. match type of E with Ok ?x = Ok _ => assert (T = x) as -> by congruence end. exact I.
  - destruct d as [|c]. { match type of E with Ok ?x = Ok _ => assert (T = x) as -> by congruence end. exact I. }
    destruct Od as (Crb & Cre & _ & _). assert (c_right_end c = w_size t) as Re by lia.
    assert (w_split_end t - (w_begin t + c_right_end c) = 0) as Rm by (unfold w_size in *; lia).
    rewrite Rm in E. unfold left_split_count in E. cbn [Nat.eqb] in E. cbv zeta in E.
    assert (move3 w1 (c_right_begin c) (c_right_end c) 0 = Ok w1) as Em by (destruct w1 as [[x y] z]; reflexivity).
    rewrite Em in E. cbn [bind] in E.
    destruct Ow as ((L0 & F0) & (L1 & F1) & (L2 & F2)). set (rb := c_right_begin c) in *. set (W := w_size t) in *.
    assert (forall l, length l = W -> small n l -> okw n rb (firstn rb l) /\ okw n (W - rb) (skipn rb l)) as G.
    { intros l Ll Sl. unfold small in Sl. rewrite <- (firstn_skipn rb l) in Sl. apply Forall_app in Sl as (Sa & Sb).
      split; split; auto; [rewrite firstn_length|rewrite skipn_length]; lia. }
    destruct (G _ L0 F0) as (G0 & H0). destruct (G _ L1 F1) as (G1 & H1). destruct (G _ L2 F2) as (G2 & H2).
    match type of E with bind ?x _ = _ => destruct x as [Tl| | |] eqn:El; cbn [bind] in E; try discriminate E end.
    match type of E with bind ?x _ = _ => destruct x as [Tr| | |] eqn:Er; cbn [bind] in E; try discriminate E end.
    match type of E with Ok ?x = Ok _ => assert (T = x) as -> by congruence end.
    cbn [harmless]. split; [left; lia|]. split.
    + eapply IH; [exact Sp| | | |exact El]; cbn [w_begin w_end w_split_end]; try lia.
      replace (w_size _) with rb by (unfold w_size; cbn [w_begin w_end]; lia).
      split; [exact G0|split; [exact G1|exact G2]].
    + eapply IH; [exact Sp| | | |exact Er]; cbn [w_begin w_end w_split_end].
      * lia.
      * unfold W in *. unfold w_size in *. lia.
      * replace (w_size _) with (W - rb) by (unfold w_size; cbn [w_begin w_end]; lia). split; [exact H0|split; [exact H1|exact H2]].
Qed.

Lemma object_pass_index : forall axis len l after box i best,
  (forall j, o_index best = Some j -> 1 <= j) -> forall j, o_index (object_pass axis len l after box i best) = Some j -> 1 <= j.
Proof.
  intros axis len l. induction l as [|r l IH]; intros [|a after] box i best H j; cbn [object_pass]; try apply H.
  apply IH. intros j' E. destruct (flt _ _); [|auto]. cbn [o_index] in E. injection E as <-. lia.
Qed.
Lemma object_index : forall refs j, o_index (find_object_split refs) = Some j -> 1 <= j.
Proof.
  intros refs. unfold find_object_split. cbn [fold_left]. unfold object_axis.
  apply object_pass_index. apply object_pass_index. apply object_pass_index. intros j E. discriminate E.
Qed.
Lemma object_begin : forall len w axis index L R w' c, apply_object_split len w axis index L R = Ok (w', c) -> c_right_begin c = index.
Proof.
  intros len w axis index L R w' c E. unfold apply_object_split in E. destruct (negb _); [discriminate E|].
  match type of E with Ok ?x = Ok _ => assert ((w', c) = x) as Q by congruence end. assert (c = snd (w', c)) as -> by reflexivity. rewrite Q. reflexivity.
Qed.
Lemma pair_plan : forall sorter tris lsize th n t bounds w w' c, permutes sorter ->
  w_begin t = 0 -> w_end t = 2 -> w_split_end t = 3 -> all3 (okw n 3) w ->
  plan_task sorter tris lsize th t bounds w = Ok (w', Divide c) -> c_right_end c = 2 -> 1 <= c_right_begin c.
Proof.
  intros sorter tris lsize th n t bounds w w' c Sp B0 E2 S3 O E Re. unfold plan_task in E.
  assert (w_size t = 2) as Sz by (unfold w_size; lia). rewrite Sz in E.
  destruct ((2 <=? 1) || (MAX_DEPTH <=? w_depth t)); [discriminate E|].
  cbv zeta in E.
  match type of E with context [find_object_split ?r] => pose proof (object_index r) as Oi; set (os := find_object_split r) in * end.
  match type of E with bind ?x _ = _ => destruct x as [sp| | |]; cbn [bind] in E; try discriminate E end.
  assert (all3 (okw n 3) (if w_sorted t then w else sort_refs sorter 2 w)) as O'.
  { destruct (w_sorted t); auto. apply sort_ok; auto. }
  set (w0 := if w_sorted t then w else sort_refs sorter 2 w) in *.
  assert (forall x, (do (w, c) <- x; Ok (w, Divide c)) = Ok (w', Divide c) -> x = Ok (w', c)) as Dv.
  { intros [[x y]| | |] H; cbn [bind] in H; try discriminate H. congruence. }
  destruct (fge _ _).
  - destruct (lsize <? 2); [|discriminate E]. apply Dv in E. apply object_begin in E. rewrite E. cbn. lia.
  - destruct (flt _ _).
    + apply Dv in E. rewrite B0 in E. unfold apply_spatial_split in E. cbv zeta in E.
      pose proof (classify_ok n 3 (ss_axis sp) (ss_pos sp) 2 (pick w0 (ss_axis sp)) 0 0 2 aabb_new aabb_new) as Ck.
      destruct (classify _ _ _ _ _ _ _ _ _) as [[[[[w1 le] rb] L] R]| | |]; cbn [bind] in E; try discriminate E.
      destruct (Ck _ _ _ _ _ (all3_pick _ _ _ _ O') eq_refl (Nat.le_refl _) ltac:(lia) eq_refl) as ((Lw1 & _) & Lle & Lrb). clear Ck.
      assert (forall le rb L R, le <= rb <= 2 -> fallback 0 2 w1 le rb L R = Ok (le, rb, L, R) \/
        exists le' L' R', fallback 0 2 w1 le rb L R = Ok (le', le', L', R') /\ (1 <= le')) as Fb.
      { clear - Lw1. intros le rb L R H. unfold fallback. cbv zeta.
        destruct (((le =? 0) || (2 - rb =? 0)) && (le =? rb)) eqn:Q; [right|left; reflexivity].
        apply andb_true_iff in Q as [Q1 Q2]. apply Nat.eqb_eq in Q2. subst rb. apply orb_true_iff in Q1.
        assert (le = 0 \/ le = 2) as [ -> | -> ] by (destruct Q1 as [Q|Q]; apply Nat.eqb_eq in Q; lia); cbn [Nat.ltb Nat.leb bind Nat.div Nat.sub Nat.add fst snd Nat.divmod];
          do 3 eexists; (split; [reflexivity|lia]). }
      destruct (Fb le rb L R ltac:(lia)) as [F|(le' & L' & R' & F & Lle')]; rewrite F in E; cbn [bind] in E.
      * match type of E with bind ?x _ = _ => destruct x as [[[[[w2 rb2] re2] L2] R2]| | |] eqn:Es; cbn [bind] in E; try discriminate E end.
        match type of E with Ok ?x = Ok _ => assert ((w', c) = x) as Q by congruence end.
        assert (c = snd (w', c)) as Ec by reflexivity. rewrite Q in Ec. cbn [snd] in Ec. subst c. cbn [c_right_begin c_right_end] in *. subst re2.
        destruct (SpatialCost.straddle_more _ _ _ _ _ _ _ _ _ _ _ _ _ _ _ _ _ Es) as (_ & Sm).
        destruct (Nat.eq_dec le rb) as [Eq|Ne]; [|exfalso; specialize (Sm ltac:(lia) ltac:(lia)); lia].
        subst rb. rewrite Nat.sub_diag in Es. cbn [straddle] in Es. assert (rb2 = le) as -> by congruence.
        destruct le as [|le]; [|lia]. exfalso. clear - F. unfold fallback in F. cbn in F. discriminate F.
      * rewrite Nat.sub_diag in E. cbn [straddle bind] in E.
        match type of E with Ok ?x = Ok _ => assert ((w', c) = x) as Q by congruence end.
        assert (c = snd (w', c)) as Ec by reflexivity. rewrite Q in Ec. cbn [snd] in Ec. subst c. cbn [c_right_begin]. exact Lle'.
    + destruct (o_index os) as [j|] eqn:Ei; [|discriminate E]. apply Dv in E. apply object_begin in E. rewrite E. auto.
Qed.

Lemma pair_harmless : forall sorter tris lsize th n k t bounds w T, permutes sorter ->
  w_begin t = 0 -> w_end t = 2 -> w_split_end t = 3 -> all3 (okw n 3) w ->
  seq_tree sorter tris lsize th k t bounds w = Ok T -> harmless T.
Proof.
  intros sorter tris lsize th n k t bounds w T Sp B0 E2 S3 O E. rewrite stree_eq in E.
  assert (w_size t = 2) as Sz by (unfold w_size; lia).
  destruct (plan_task sorter tris lsize th t bounds w) as [[w1 d]| | |] eqn:Ep; cbn [bind] in E; try discriminate E.
  assert (w_size t <= 3) as Sz3 by lia. destruct (plan_ok sorter Sp tris lsize n th 3 _ _ _ _ _ Sz3 O Ep) as (Ow & Od).
  destruct d as [|c]. { match type of E with Ok ?x = Ok _ => assert (T = x) as -> by congruence end. exact I. }
  destruct k as [|k]; [discriminate E|]. cbv zeta in E. rewrite B0, S3 in E. cbn [Nat.add] in E.
  destruct Od as (Crb & Cre & _ & _). rewrite Sz in *.
  destruct Ow as ((L0 & F0) & (L1 & F1) & (L2 & F2)). set (rb := c_right_begin c) in *.
  assert (c_right_end c = 3 \/ c_right_end c = 2 /\ 1 <= rb) as Cs.
  { destruct (Nat.eq_dec (c_right_end c) 2) as [E'|]; [right|left; lia]. split; auto.
    eapply (pair_plan sorter tris lsize th n t bounds w w1 c); eauto. }
  set (re := c_right_end c) in *. set (sh := left_split_count (3 - re) c) in *.
  assert ((sh <= 0)%Z \/ (Z.of_nat (re - rb) <= sh)%Z) as Hs.
  { destruct Cs as [C|(C & C1)]; [left; unfold sh, left_split_count; rewrite C; cbn; lia|]. lia. }
  assert (re - rb <= 1 \/ re = 3) as Few by lia.
  pose proof (move3_window n w1 0 3 rb re sh) as Mv.
  specialize (Mv ltac:(split; [|split]; lia) ltac:(lia) ltac:(lia) ltac:(intros _; split; [|split]; lia)).
  assert (map3 (fun l => window l 0 3) w1 = w1) as Ew1.
  { unfold map3. rewrite <- L0 at 1. rewrite <- L1 at 1. rewrite <- L2 at 1. rewrite !window_all. destruct w1 as [[x y] z]; auto. }
  rewrite Ew1 in Mv.
  destruct (move3 w1 rb re sh) as [w2| | |] eqn:Em; cbn [bind] in E; try discriminate E.
  destruct Mv as (_ & (M0 & M1 & M2) & Sm). destruct Sm as (Q0 & Q1 & Q2); [repeat split; auto|].
  assert (forall l, length l = 3 -> small n l -> okw n rb (firstn rb l) /\ okw n (3 - rb) (skipn rb l)) as G.
  { intros l Ll Sl. unfold small in Sl. rewrite <- (firstn_skipn rb l) in Sl. apply Forall_app in Sl as (Sa & Sb).
    split; split; auto; [rewrite firstn_length|rewrite skipn_length]; lia. }
  destruct (G _ M0 Q0) as (G0 & H0). destruct (G _ M1 Q1) as (G1 & H1). destruct (G _ M2 Q2) as (G2 & H2).
  match type of E with bind ?x _ = _ => destruct x as [Tl| | |] eqn:El; cbn [bind] in E; try discriminate E end.
  match type of E with bind ?x _ = _ => destruct x as [Tr| | |] eqn:Er; cbn [bind] in E; try discriminate E end.
  match type of E with Ok ?x = Ok _ => assert (T = x) as -> by congruence end. clear E.
  cbn [harmless]. split; [exact Hs|]. split.
  - eapply (full_harmless sorter tris lsize th n); [exact Sp| | | |exact El]; cbn [w_begin w_end w_split_end]; try lia.
    replace (w_size _) with rb by (unfold w_size; cbn [w_begin w_end]; lia).
    split; [exact G0|split; [exact G1|exact G2]].
  - destruct Few as [Few|R3].
    + rewrite stree_eq in Er. unfold plan_task in Er.
      replace (w_size _) with (re - rb) in Er by (unfold w_size; cbn [w_begin w_end]; lia).
      replace (re - rb <=? 1) with true in Er by (symmetry; apply Nat.leb_le; lia). cbn [orb bind] in Er.
      match type of Er with Ok ?x = Ok _ => assert (Tr = x) as -> by congruence end. exact I.
    + eapply (full_harmless sorter tris lsize th n); [exact Sp| | | |exact Er]; cbn [w_begin w_end w_split_end]; try lia.
      replace (w_size _) with (3 - rb) by (unfold w_size; cbn [w_begin w_end]; lia).
      split; [exact H0|split; [exact H1|exact H2]].
Qed.
Lemma few_harmless : forall sorter ppl aabbs tris centers fuel T, permutes sorter -> 1 <= length aabbs <= 2 ->
  seq_tree sorter tris (max_leaf_size ppl) (spatial_threshold aabbs) fuel
    (spatial_root aabbs) (union_of_list aabbs) (p_refs (spatial_start aabbs centers)) = Ok T -> harmless T.
Proof.
  intros sorter ppl aabbs tris centers fuel T Sp N E.
  destruct (Nat.eq_dec (length aabbs) 1) as [N1|N1].
  - rewrite stree_eq in E. unfold plan_task in E.
    replace (w_size _) with 1 in E by (unfold w_size, spatial_root; cbn [w_begin w_end]; lia). cbn [Nat.leb orb bind] in E.
    match type of E with Ok ?x = Ok _ => assert (T = x) as -> by congruence end. exact I.
  - assert (length aabbs = 2) as N2 by lia. assert (max_refs 2 = 3) as M3 by (vm_compute; reflexivity).
    eapply (pair_harmless sorter tris _ _ 2); [exact Sp| | | | |exact E]; try (unfold spatial_root; cbn [w_begin w_end w_split_end]; congruence).
    assert (1 <= length aabbs) as N' by lia.
    pose proof (start_refs aabbs centers N') as G. rewrite N2, M3 in G.
    split; [apply (G 0)|split; [apply (G 1)|apply (G 2)]].
Qed.
(** With at most two triangles every build that returns has all of them.  (Three
    are too many: [C65_lost_refuted].) *)
Theorem C65_two_partial : forall sorter ppl aabbs tris centers b t,
  permutes sorter -> spatial_input aabbs tris -> length aabbs <= 2 -> spatial_build sorter ppl aabbs tris centers b ->
  repr (nodes b) t -> t_idx t = 0 ->
  forall p, p < length aabbs -> In p (prims (prim_indices b) t).
Proof.
  intros sorter ppl aabbs tris centers b t Sp I N2 B Rp T0 p Lt. pose proof I as (_ & N & _).
  destruct (spatial_result _ _ _ _ _ _ Sp I B) as (_ & T & ET & _).
  eapply (C65_complete_partial sorter ppl aabbs tris centers b T); eauto.
  rewrite seq_spatial_eq in ET. eapply (few_harmless sorter ppl aabbs tris centers MAX_DEPTH); eauto.
Qed.

(** Every execution is finite: it takes at most [12 * 2^65] steps, it is never
    stuck, and so ends with the build returning, or with a crash. *)
Definition spatial_steps sorter ppl aabbs tris :=
  steps QRun w_size (qstep sorter tris (max_leaf_size ppl) (spatial_threshold aabbs)) WORK_THRESHOLD.
Definition spatial_crashes sorter ppl aabbs tris (s : state witem pmem pprog) : Prop :=
  crashes (qstep sorter tris (max_leaf_size ppl) (spatial_threshold aabbs)) s.
Theorem C22_terminates : forall sorter ppl aabbs tris centers,
  (forall k s, spatial_steps sorter ppl aabbs tris k (initial (spatial_start aabbs centers) (spatial_root aabbs)) s ->
     k <= 12 * 2 ^ 65) /\
  (forall s, spatial_reaches sorter ppl aabbs tris centers s ->
     returned s \/ spatial_crashes sorter ppl aabbs tris s \/ exists s', spatial_steps sorter ppl aabbs tris 1 s s') /\
  (forall s, spatial_reaches sorter ppl aabbs tris centers s ->
     exists k s', spatial_steps sorter ppl aabbs tris k s s' /\ (returned s' \/ spatial_crashes sorter ppl aabbs tris s')).
Proof.
  intros sorter ppl aabbs tris centers.
  pose proof (q_pays sorter tris (max_leaf_size ppl) (spatial_threshold aabbs) [aabb_new] (le_n 1)) as P.
  split; [|split].
  - intros k s St. pose proof (bounded_steps _ _ _ _ w_size _ WORK_THRESHOLD _ _ P _ _ _ _ St) as H.
    eapply Nat.le_trans; [exact H|]. unfold q_pot. change (w_depth (spatial_root aabbs)) with 0. rewrite Nat.sub_0_r.
    apply Nat.le_sub_l.
  - intros s R. destruct (progress _ _ _ _ w_size _ WORK_THRESHOLD _ _ s R) as [H|[H|(s' & H)]]; auto.
    right. right. exists s'. econstructor; [exact H|constructor].
  - intros s R. exact (completes _ _ _ _ w_size _ WORK_THRESHOLD _ _ P _ _ s R).
Qed.

(** Without primitives, or with a different number of AABBs, the result is the
    empty BVH. *)
Theorem C22_rejects : forall sorter ppl aabbs tris centers b,
  length tris <> length aabbs \/ aabbs = [] ->
  (spatial_build sorter ppl aabbs tris centers b <-> b = Bvh [] []).
Proof.
  intros sorter ppl aabbs tris centers b H. unfold spatial_build.
  replace (negb (length tris =? length aabbs) || (length tris =? 0) || (length aabbs =? 0)) with true; [reflexivity|].
  symmetry. destruct H as [H| ->].
  - rewrite (proj2 (Nat.eqb_neq _ _) H). reflexivity.
  - rewrite orb_true_r. reflexivity.
Qed.

(** ** C52 *)
(** Two builds of the same scene, under whatever schedules, return the same
    tree up to the numbering of nodes and index positions. *)
Theorem C52_same_tree : forall sorter ppl aabbs tris centers b1 b2,
  permutes sorter -> spatial_input aabbs tris ->
  spatial_build sorter ppl aabbs tris centers b1 -> spatial_build sorter ppl aabbs tris centers b2 ->
  length (nodes b1) = length (nodes b2) /\ length (prim_indices b1) = length (prim_indices b2) /\
  exists t1 t2, repr (nodes b1) t1 /\ t_idx t1 = 0 /\ repr (nodes b2) t2 /\ t_idx t2 = 0 /\
    same_tree (prim_indices b1) t1 (prim_indices b2) t2.
Proof.
  intros sorter ppl aabbs tris centers b1 b2 Sp I B1 B2.
  destruct (spatial_result _ _ _ _ _ _ Sp I B1) as (t1 & T1 & E1 & S1 & R1 & Z1 & I1 & _ & _ & _ & L1 & _).
  destruct (spatial_result _ _ _ _ _ _ Sp I B2) as (t2 & T2 & E2 & S2 & R2 & Z2 & I2 & _ & _ & _ & L2 & _).
  rewrite E1 in E2. injection E2 as <-.
  split.
  { rewrite <- (seq_length (length (nodes b1)) 0), <- (seq_length (length (nodes b2)) 0).
    rewrite <- (Permutation_length I1), <- (Permutation_length I2), (stores_size _ _ _ S1), (stores_size _ _ _ S2). auto. }
  split; [congruence|].
  exists t1, t2. split; auto. split; auto. split; auto. split; auto. eapply stores_same; eauto.
Qed.

(** Whether a build crashes does not depend on the schedule either: if some
    schedule returns, no schedule crashes. *)
Theorem C52_crash : forall sorter ppl aabbs tris centers b s,
  permutes sorter -> spatial_input aabbs tris -> spatial_build sorter ppl aabbs tris centers b ->
  spatial_reaches sorter ppl aabbs tris centers s -> ~ spatial_crashes sorter ppl aabbs tris s.
Proof.
  intros sorter ppl aabbs tris centers b s Sp I B R Cr. pose proof I as (L & N & M).
  destruct (spatial_result _ _ _ _ _ _ Sp I B) as (t & T & ET & St & _ & _ & Ids & _ & _ & _ & _ & Ln).
  rewrite <- spa_seq in ET.
  pose proof (crash_seq sorter Sp tris (max_leaf_size ppl) (spatial_threshold aabbs) aabbs centers N M s T R Cr ET) as Big.
  rewrite <- (stores_size _ _ _ St), (Permutation_length Ids), seq_length in Big. lia.
Qed.
(** So if some schedule returns, every execution ends with a result. *)
Theorem C52_returns : forall sorter ppl aabbs tris centers b s,
  permutes sorter -> spatial_input aabbs tris -> spatial_build sorter ppl aabbs tris centers b ->
  spatial_reaches sorter ppl aabbs tris centers s ->
  exists k s', spatial_steps sorter ppl aabbs tris k s s' /\ returned s' /\
    spatial_build sorter ppl aabbs tris centers (spatial_finish (s_mem s')).
Proof.
  intros sorter ppl aabbs tris centers b s Sp I B R.
  destruct (proj2 (proj2 (C22_terminates sorter ppl aabbs tris centers)) s R) as (k & s' & St & E).
  pose proof (steps_reach _ _ _ _ w_size _ WORK_THRESHOLD _ _ _ _ R St) as R'.
  assert (returned s') as Rt by (destruct E as [E|E]; auto; exfalso; eapply C52_crash; eauto).
  exists k, s'. split; auto. split; auto. destruct I as (L & N & M). unfold spatial_build.
  rewrite L, Nat.eqb_refl. replace (length aabbs =? 0) with false by (symmetry; apply Nat.eqb_neq; lia). cbn [negb orb].
  exists s'. auto.
Qed.

(** ** C51 *)
(** A task whose next action is a crash is about to panic or has undefined
    behaviour of that kind. *)
Theorem C66_crash_kind_partial : forall sorter ppl aabbs tris centers s j t p st subs,
  permutes sorter -> spatial_input aabbs tris -> spatial_reaches sorter ppl aabbs tris centers s ->
  nth_error (s_threads s) j = Some (Th (Some (t, p)) st subs) ->
  qstep sorter tris (max_leaf_size ppl) (spatial_threshold aabbs) p (s_mem s) = PCrash -> p = QPanic \/ p = QUb.
Proof.
  intros sorter ppl aabbs tris centers s j t p st subs Sp (L & N & M) R Ej Cr.
  exact (crash_kind sorter Sp tris (max_leaf_size ppl) (spatial_threshold aabbs) aabbs centers N M s j t p st subs R Ej Cr).
Qed.

(** The tasks that are running or waiting in any thread. *)
Definition live_items (s : state witem pmem pprog) : list witem :=
  flat_map (fun th => match t_cur th with Some (t, _) => [t] | None => [] end ++ t_stack th) (s_threads s).

(** At any moment of any execution the live tasks own disjoint ranges of the
    reference arrays, inside them, and different nodes. *)
Theorem C51_disjoint : forall sorter ppl aabbs tris centers s,
  permutes sorter -> spatial_input aabbs tris -> spatial_reaches sorter ppl aabbs tris centers s ->
  NoDup (flat_map owned (live_items s)) /\ Forall (fun i => i < max_refs (length aabbs)) (flat_map owned (live_items s)) /\
  NoDup (map w_node (live_items s)).
Proof.
  intros sorter ppl aabbs tris centers s Sp (L & N & M) R.
  assert (live_items s = live s) as E.
  { unfold live_items, live, items. induction (s_threads s) as [|[[[t p]|] st subs] ths IH]; auto; simpl;
      rewrite map_app, IH; unfold th_items; cbn [t_cur t_stack]; simpl; rewrite map_map; cbn [fst]; rewrite map_id; reflexivity. }
  rewrite E. exact (live_disjoint sorter Sp tris (max_leaf_size ppl) (spatial_threshold aabbs) aabbs centers N M s R).
Qed.

(** No data races.  A phase of a running task that completes touches only its
    own footprint, which lies inside the arrays: everything else stays as it
    was, and what the phase does is determined by the footprint and the atomic
    counters: in any memory that agrees there, the same phase does the same. *)
Theorem C51_private : forall sorter ppl aabbs tris centers s j t p st subs p' m',
  permutes sorter -> spatial_input aabbs tris -> spatial_reaches sorter ppl aabbs tris centers s ->
  nth_error (s_threads s) j = Some (Th (Some (t, p)) st subs) ->
  qstep sorter tris (max_leaf_size ppl) (spatial_threshold aabbs) p (s_mem s) = PStep p' m' ->
  Forall (fun i => i < length (p_nodes (s_mem s))) (foot_nodes t (Some p)) /\
  Forall (fun i => i < length (p_idx (s_mem s))) (foot_idx (Some p)) /\
  (forall a, a < 3 -> w_split_end t <= length (pick (p_refs (s_mem s)) a)) /\
  (forall i, ~ In i (foot_nodes t (Some p)) -> nth_error (p_nodes m') i = nth_error (p_nodes (s_mem s)) i) /\
  (forall i, ~ In i (foot_idx (Some p)) -> nth_error (p_idx m') i = nth_error (p_idx (s_mem s)) i) /\
  (forall a i, a < 3 -> ~ In i (owned t) -> nth_error (pick (p_refs m') a) i = nth_error (pick (p_refs (s_mem s)) a) i) /\
  (forall m2, agree_on (foot_nodes t (Some p)) (owned t) [] (s_mem s) m2 ->
     exists m2', qstep sorter tris (max_leaf_size ppl) (spatial_threshold aabbs) p m2 = PStep p' m2' /\
       agree_on (foot_nodes t (Some p)) (owned t) (foot_idx (Some p)) m' m2').
Proof.
  intros sorter ppl aabbs tris centers s j t p st subs p' m' Sp (L & N & M) R.
  exact (step_private sorter Sp tris (max_leaf_size ppl) (spatial_threshold aabbs) aabbs centers N M s j t p st subs p' m' R).
Qed.
(** The footprints of a running task and of any other task - waiting in the
    same thread, or running or waiting in another thread - are disjoint. *)
Theorem C51_race_free : forall sorter ppl aabbs tris centers s j t p st subs t2 p2,
  permutes sorter -> spatial_input aabbs tris -> spatial_reaches sorter ppl aabbs tris centers s ->
  nth_error (s_threads s) j = Some (Th (Some (t, p)) st subs) ->
  (In t2 st /\ p2 = None \/
   exists j2 cur2 st2 subs2, j2 <> j /\ nth_error (s_threads s) j2 = Some (Th cur2 st2 subs2) /\
     (In t2 st2 /\ p2 = None \/ exists q2, cur2 = Some (t2, q2) /\ p2 = Some q2)) ->
  apart (foot_nodes t (Some p)) (foot_nodes t2 p2) /\ apart (foot_idx (Some p)) (foot_idx p2) /\ apart (owned t) (owned t2).
Proof.
  intros sorter ppl aabbs tris centers s j t p st subs t2 p2 Sp (L & N & M) R.
  exact (race_free sorter Sp tris (max_leaf_size ppl) (spatial_threshold aabbs) aabbs centers N M s j t p st subs t2 p2 R).
Qed.

(** ** Concrete scenes *)
(** The AABB and the center of a triangle as the examples of the crate compute
    them. *)
Definition tri_box (t : tri) : aabb := aabb_macro [tv0 t; tv1 t; tv2 t].
Definition third : f32 := fdiv f1 (f_of_Z 3).
Definition tri_mid (t : tri) : vec3 := vscale (vadd (vadd (tv0 t) (tv1 t)) (tv2 t)) third.


Definition build_of (ppl : option nat) (tris : list tri) (b : bvh) : Prop :=
  spatial_build insertion_sort ppl (map tri_box tris) tris (map tri_mid tris) b.
Notation seq_of ppl tris := (seq_spatial insertion_sort ppl (map tri_box tris) tris (map tri_mid tris)).
Definition small_scene (tris : list tri) : bool :=
  (1 <=? length tris) && (max_refs (length tris) <=? 100).
Lemma small_input : forall tris, small_scene tris = true -> spatial_input (map tri_box tris) tris.
Proof.
  intros tris H. apply andb_true_iff in H as [A B]. apply Nat.leb_le in A. apply Nat.leb_le in B.
  unfold spatial_input. rewrite !map_length. split; auto. split; auto. lia.
Qed.
(** The sequential computation predicts that every schedule returns. *)
Lemma seq_returns : forall ppl aabbs tris centers T, spatial_input aabbs tris ->
  seq_spatial insertion_sort ppl aabbs tris centers = Ok T ->
  a_size T <= 2 * max_refs (length aabbs) + 1 -> exists b, spatial_build insertion_sort ppl aabbs tris centers b.
Proof.
  intros ppl aabbs tris centers T I ET Sz. pose proof I as (L & N & M).
  destruct (proj2 (proj2 (C22_terminates insertion_sort ppl aabbs tris centers)) _ (reach_init _ _ _ _ _ _ _ _)) as (k & s & St & E).
  pose proof (steps_reach _ _ _ _ w_size _ WORK_THRESHOLD _ _ _ _ (reach_init _ _ _ _ _ _ _ _) St) as R.
  destruct E as [Rt|Cr].
  - exists (spatial_finish (s_mem s)). unfold spatial_build.
    rewrite L, Nat.eqb_refl. replace (length aabbs =? 0) with false by (symmetry; apply Nat.eqb_neq; lia). cbn [negb orb].
    exists s. auto.
  - exfalso. rewrite <- spa_seq in ET.
    pose proof (crash_seq insertion_sort insertion_permutes tris (max_leaf_size ppl) (spatial_threshold aabbs) aabbs centers N M s T R Cr ET) as Big.
    lia.
Qed.
Definition check (f : atree -> bool) (tris : list tri) : bool :=
  small_scene tris && match seq_of None tris with Ok T => (a_size T <=? 2 * max_refs (length tris) + 1) && f T | _ => false end.
Lemma check_ok : forall f tris, check f tris = true -> spatial_input (map tri_box tris) tris /\
  (exists b, build_of None tris b) /\ exists T, seq_of None tris = Ok T /\ f T = true.
Proof.
  intros f tris H. apply andb_true_iff in H as [A B]. apply small_input in A. split; auto.
  destruct (seq_of None tris) as [T| | |] eqn:E; try discriminate B.
  apply andb_true_iff in B as [B C]. apply Nat.leb_le in B. split; [|exists T; split; [reflexivity|exact C]].
  unfold build_of. apply (seq_returns None (map tri_box tris) tris (map tri_mid tris) T A); [exact E|].
  rewrite map_length. exact B.
Qed.
Definition same_nats (a b : list nat) : bool := if list_eq_dec Nat.eq_dec a b then true else false.

(** Three triangles: a build (with the default settings) returns under every
    schedule, and never has triangle 2 in a leaf. *)
Definition three : list tri :=
  [Tri (pt (-1) (-1) 1) (pt 0 1 1) (pt (-1) 0 0); Tri (pt 1 1 1) (pt 1 0 (-1)) (pt 1 0 1); Tri (pt 1 1 (-1)) (pt 1 0 (-1)) (pt 1 0 1)].
Definition lists_011 (T : atree) : bool := same_nats (a_prims T) [0; 1; 1].
Theorem C65_lost_refuted : (exists b, build_of None three b) /\
  forall b t, build_of None three b -> repr (nodes b) t -> t_idx t = 0 -> ~ In 2 (prims (prim_indices b) t).
Proof.
  destruct (check_ok lists_011 three) as (I & Ex & T & ET & F); [vm_compute; reflexivity|].
  split; auto. intros b t B Rp T0.
  destruct (spatial_result _ _ _ _ _ _ insertion_permutes I B) as (t' & T' & ET' & St & Rp' & T0' & _).
  rewrite ET in ET'. injection ET' as <-.
  assert (t = t') as -> by (eapply repr_unique; eauto; congruence).
  rewrite (stores_prims _ _ _ St). unfold lists_011, same_nats in F. destruct (list_eq_dec _ _ _) as [-> |]; [|discriminate F].
  simpl. lia.
Qed.

(** Four triangles for which every schedule ends with a crash: no build
    returns. *)
Definition four : list tri :=
  [Tri (pt 11 (-10) (-11)) (pt 8 (-8) (-10)) (pt 8 (-10) (-11)); Tri (pt 12 (-12) (-11)) (pt 10 (-9) (-11)) (pt 10 (-12) (-12));
   Tri (pt 11 (-12) (-11)) (pt 10 (-8) (-9)) (pt 9 (-11) (-12)); Tri (pt 12 (-10) (-11)) (pt 8 (-10) (-9)) (pt 10 (-10) (-12))].
Definition panics (r : res atree) : bool := match r with Panic => true | _ => false end.
Lemma panics_eq : forall r, panics r = true -> r = Panic.
Proof. intros [| | |] H; try discriminate H; reflexivity. Qed.
Lemma no_result : forall tris, small_scene tris = true -> (forall T, seq_of None tris <> Ok T) ->
  (forall b, ~ build_of None tris b) /\
  forall s, spatial_reaches insertion_sort None (map tri_box tris) tris (map tri_mid tris) s ->
    exists k s', spatial_steps insertion_sort None (map tri_box tris) tris k s s' /\ spatial_crashes insertion_sort None (map tri_box tris) tris s'.
Proof.
  intros tris H No. apply small_input in H. pose proof H as (L & N & M).
  assert (forall b, ~ build_of None tris b) as NB.
  { intros b B. destruct (spatial_result _ _ _ _ _ _ insertion_permutes H B) as (t & T & ET & _). exact (No T ET). }
  split; auto. intros s R.
  destruct (proj2 (proj2 (C22_terminates insertion_sort None (map tri_box tris) tris (map tri_mid tris))) s R) as (k & s' & St & [Rt|Cr]); eauto.
  exfalso. apply (NB (spatial_finish (s_mem s'))). unfold build_of, spatial_build.
  rewrite L, Nat.eqb_refl. replace (length (map tri_box tris) =? 0) with false by (symmetry; apply Nat.eqb_neq; lia). cbn [negb orb].
  exists s'. split; auto. exact (steps_reach _ _ _ _ w_size _ WORK_THRESHOLD _ _ _ _ R St).
Qed.
Theorem C66_panic_refuted : spatial_input (map tri_box four) four /\ (forall b, ~ build_of None four b) /\
  forall s, spatial_reaches insertion_sort None (map tri_box four) four (map tri_mid four) s ->
    exists k s', spatial_steps insertion_sort None (map tri_box four) four k s s' /\
      spatial_crashes insertion_sort None (map tri_box four) four s'.
Proof.
  assert (seq_of None four = Panic) as E by (apply panics_eq; vm_compute; reflexivity).
  split; [apply small_input; vm_compute; reflexivity|].
  apply no_result; [vm_compute; reflexivity|]. intros T ET. rewrite E in ET. discriminate ET.
Qed.

(** Nine triangles: a schedule reaches a write beyond the reference arrays. *)
Definition hp (a b c : Z) : vec3 := let h z := fdiv (f_of_Z z) (f_of_Z 2) in V3 (h a) (h b) (h c).
Definition nine : list tri :=
  [Tri (hp (-4) 18 (-8)) (hp (-10) 4 (-8)) (hp 8 (-4) (-2)); Tri (hp 6 (-6) (-8)) (hp 8 12 3) (hp (-8) (-8) 0);
   Tri (hp (-2) 25 (-15)) (hp (-14) 10 (-6)) (hp 10 2 (-2)); Tri (hp 12 16 (-16)) (hp (-5) (-10) (-2)) (hp (-10) (-6) (-12));
   Tri (hp 0 (-8) 8) (hp (-4) (-6) 4) (hp (-10) 12 14); Tri (hp 12 2 (-12)) (hp (-2) 2 (-4)) (hp 6 (-3) (-15));
   Tri (hp (-2) 6 10) (hp 12 14 1) (hp (-11) (-2) 8); Tri (hp (-2) 13 (-18)) (hp (-14) 6 (-6)) (hp 10 2 (-4));
   Tri (hp (-16) 8 20) (hp 4 (-6) (-2)) (hp 14 (-17) (-14))].
Definition run_spatial (tris : list tri) (fuel : nat) : state witem pmem pprog :=
  run_first QRun w_size (qstep insertion_sort tris (max_leaf_size None) (spatial_threshold (map tri_box tris))) WORK_THRESHOLD fuel
    (initial (spatial_start (map tri_box tris) (map tri_mid tris)) (spatial_root (map tri_box tris))).
Definition at_ub (s : state witem pmem pprog) : bool :=
  match s_threads s with Th (Some (_, QUb)) _ _ :: _ => true | _ => false end.
Lemma at_ub_spec : forall s, at_ub s = true -> exists t st subs, nth_error (s_threads s) 0 = Some (Th (Some (t, QUb)) st subs).
Proof.
  intros s H. unfold at_ub in H. destruct (s_threads s) as [|[[[t p]|] st subs] ths]; try discriminate H.
  destruct p; try discriminate H. exists t, st, subs. reflexivity.
Qed.
Theorem C66_ub_refuted : spatial_input (map tri_box nine) nine /\
  exists s t st subs, spatial_reaches insertion_sort None (map tri_box nine) nine (map tri_mid nine) s /\
    nth_error (s_threads s) 0 = Some (Th (Some (t, QUb)) st subs).
Proof.
  split; [apply small_input; vm_compute; reflexivity|].
  assert (exists fuel, at_ub (run_spatial nine fuel) = true) as (fuel & H) by (exists 200; vm_compute; reflexivity).
  destruct (at_ub_spec _ H) as (t & st & subs & E).
  exists (run_spatial nine fuel), t, st, subs. split; auto. apply run_first_reach. constructor.
Qed.

(** ** The hypotheses can be met *)
(** Two triangles: the build returns, the moves are harmless, both are found. *)
Definition two : list tri := [Tri (pt 0 0 0) (pt 1 0 0) (pt 0 1 0); Tri (pt 5 0 2) (pt 6 0 2) (pt 5 1 3)].
(** The left child writes its leaf while the right child waits. *)
Definition mid_leaf (s : state witem pmem pprog) : bool :=
  match s_threads s with
  | [Th (Some (_, QLeafAt t f)) [_] _] =>
      (w_size t =? 1) &&
      match qstep insertion_sort two (max_leaf_size None) (spatial_threshold (map tri_box two)) (QLeafAt t f) (s_mem s) with
      | PStep (QRet None) _ => true | _ => false end
  | _ => false
  end.
Example C51_private_nonvacuous : permutes insertion_sort /\ spatial_input (map tri_box two) two /\
  exists s t0 t f t2 subs m', spatial_reaches insertion_sort None (map tri_box two) two (map tri_mid two) s /\
    nth_error (s_threads s) 0 = Some (Th (Some (t0, QLeafAt t f)) [t2] subs) /\ w_size t = 1 /\
    qstep insertion_sort two (max_leaf_size None) (spatial_threshold (map tri_box two)) (QLeafAt t f) (s_mem s) = PStep (QRet None) m'.
Proof.
  split; [apply insertion_permutes|]. split; [apply small_input; vm_compute; reflexivity|].
  assert (exists fuel, mid_leaf (run_spatial two fuel) = true) as (fuel & H) by (exists 8; vm_compute; reflexivity).
  exists (run_spatial two fuel).
  assert (spatial_reaches insertion_sort None (map tri_box two) two (map tri_mid two) (run_spatial two fuel)) as R
    by (apply run_first_reach; constructor).
  revert R H. generalize (run_spatial two fuel). clear fuel. intros s R H. unfold mid_leaf in H.
  destruct (s_threads s) as [|[[[t0 p]|] st subs] ths] eqn:Et; try discriminate H.
  destruct p as [|t1|t f| | | | |]; try discriminate H. destruct st as [|t2 [|]]; try discriminate H. destruct ths; try discriminate H.
  apply andb_true_iff in H as [Hs H]. apply Nat.eqb_eq in Hs.
  destruct (qstep _ _ _ _ _ _) as [[| | | | |[]| |] m'| |] eqn:Eq; try discriminate H.
  exists t0, t, f, t2, subs, m'. auto.
Qed.
Fixpoint harmless_b (t : atree) : bool :=
  match t with
  | ALeaf _ _ => true
  | ANode _ shift moved l r => ((shift <=? 0)%Z || (Z.of_nat moved <=? shift)%Z) && harmless_b l && harmless_b r
  end.
Lemma harmless_b_spec : forall t, harmless_b t = true -> harmless t.
Proof.
  induction t as [box ids|box sh mv l IHl r IHr]; simpl; auto. intro H.
  apply andb_true_iff in H as [H Hr]. apply andb_true_iff in H as [H Hl]. apply orb_true_iff in H.
  split; auto. destruct H as [H|H]; apply Z.leb_le in H; auto.
Qed.
Definition fine (T : atree) : bool := harmless_b T && (a_size T =? 3).
Example C22_nonvacuous : permutes insertion_sort /\ spatial_input (map tri_box two) two /\
  exists b T, build_of None two b /\ seq_of None two = Ok T /\ harmless T /\ a_size T = 3.
Proof.
  split; [apply insertion_permutes|].
  destruct (check_ok fine two) as (I & (b & B) & T & ET & F); [vm_compute; reflexivity|].
  split; auto. exists b, T. apply andb_true_iff in F as [F1 F2]. apply Nat.eqb_eq in F2.
  split; auto. split; auto. split; auto. apply harmless_b_spec. auto.
Qed.
