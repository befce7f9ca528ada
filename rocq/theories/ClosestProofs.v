(** * Closest-hit search through the iterator *)
Require Import List ZArith Bool Lia Permutation Arith Reals Lra.
From Flocq Require Import Core BinarySingleNaN.
From Verif Require Import F32 F32Facts Vec RayModel AabbModel Base NodeModel IterModel SpecGeom SpecTree SpecTraverse IterProofs TraverseProofs.
Import ListNotations.

Lemma fr_inj : forall x y : f32, notnan x -> notnan y -> fr x = fr y -> (fr x <> 0)%R -> x = y.
Proof.
  intros x y Nx Ny E Z. pose proof BIG_pos as BP.
  destruct (is_finite x) eqn:Fx; destruct (is_finite y) eqn:Fy.
  - rewrite !fr_fin in E by auto. rewrite fr_fin in Z by auto.
    apply B2R_Bsign_inj; auto.
    destruct (Bsign_B2R x Fx) as [A B]. destruct (Bsign_B2R y Fy) as [A' B'].
    destruct (Bsign x), (Bsign y); auto; exfalso.
    + specialize (A eq_refl). specialize (B' eq_refl). lra.
    + specialize (B eq_refl). specialize (A' eq_refl). lra.
  - exfalso. pose proof (fin_fr_lt x Fx) as L; pose proof bpow128_lt_BIG as BL. destruct y as [|s| |]; try discriminate. simpl in E.
    rewrite E in L. destruct s; [rewrite Rabs_left in L|rewrite Rabs_pos_eq in L]; lra.
  - exfalso. pose proof (fin_fr_lt y Fy) as L; pose proof bpow128_lt_BIG as BL. destruct x as [|s| |]; try discriminate. simpl in E.
    rewrite <- E in L. destruct s; [rewrite Rabs_left in L|rewrite Rabs_pos_eq in L]; lra.
  - destruct x as [|s| |]; try discriminate. destruct y as [|s'| |]; try discriminate.
    simpl in E. destruct s, s'; auto; lra.
Qed.

Lemma closest_fold : forall dist ps r,
  fnan (r_t r) = false -> (forall p d, dist p = Some d -> fnan d = false) ->
  let r' := snd (client_fold (closest_body dist) ps tt r) in
  same_line r' r /\ fnan (r_t r') = false /\
  (r_t r' = r_t r \/ exists p d, In p ps /\ dist p = Some d /\ r_t r' = d) /\
  fle (r_t r') (r_t r) = true /\
  (forall p d, In p ps -> dist p = Some d -> fle (r_t r') d = true).
Proof.
  intros dist ps; induction ps as [|p ps IH]; intros r N Nd.
  - cbn. split; [apply same_line_refl|]. split; [auto|]. split; [auto|]. split; [apply fle_refl; auto|].
    intros p d [].
  - intro r'. unfold client_fold in r'. cbn [fold_left fst snd] in r'.
    unfold closest_body at 2 in (value of r').
    destruct (dist p) as [d|] eqn:Ed; [destruct (flt d (r_t r)) eqn:L|]; cbn [fst snd] in r'.
    + destruct (IH (ray_set_t r d)) as (A & B & G & D & E); auto. { cbn. eauto. }
      change (snd _) with r' in A, B, G, D, E. cbn [r_t ray_set_t] in *.
      split; [destruct A as [t ->]; exists t; reflexivity|]. split; [auto|]. split; [|split].
      * destruct G as [->|(q & e & I & Q & ->)]; right; [exists p, d|exists q, e]; simpl; auto.
      * eapply fle_trans; [apply D|]. apply flt_fle; auto.
      * intros q e [<-|I] Q; [|eauto]. congruence.
    + destruct (IH r) as (A & B & G & D & E); auto. change (snd _) with r' in A, B, G, D, E.
      split; [auto|]. split; [auto|]. split; [|split; [auto|]].
      * destruct G as [->|(q & e & I & Q & ->)]; [auto|right; exists q, e; simpl; auto].
      * intros q e [<-|I] Q; [|eauto]. eapply fle_trans; [apply D|].
        rewrite Ed in Q. injection Q as <-. apply flt_false in L; eauto. apply fle_spec; eauto.
    + destruct (IH r) as (A & B & G & D & E); auto. change (snd _) with r' in A, B, G, D, E.
      split; [auto|]. split; [auto|]. split; [|split; [auto|]].
      * destruct G as [->|(q & e & I & Q & ->)]; [auto|right; exists q, e; simpl; auto].
      * intros q e [<-|I] Q; [congruence|eauto].
Qed.

Lemma closest_same : forall dist ps qs r,
  flt f0 (r_t r) = true -> (forall p d, dist p = Some d -> flt f0 d = true) ->
  (forall p d, dist p = Some d -> (In p ps <-> In p qs)) ->
  snd (client_fold (closest_body dist) ps tt r) = snd (client_fold (closest_body dist) qs tt r).
Proof.
  intros dist ps qs r Pr Pd S.
  assert (fnan (r_t r) = false) as N by (apply flt_notnan in Pr; tauto).
  assert (forall p d, dist p = Some d -> fnan d = false) as Nd.
  { intros p d E. apply Pd in E. apply flt_notnan in E; tauto. }
  destruct (closest_fold dist ps r N Nd) as ([t1 E1] & N1 & G1 & L1 & B1).
  destruct (closest_fold dist qs r N Nd) as ([t2 E2] & N2 & G2 & L2 & B2).
  set (r1 := snd (client_fold (closest_body dist) ps tt r)) in *.
  set (r2 := snd (client_fold (closest_body dist) qs tt r)) in *.
  assert (r_t r1 = r_t r2) as T.
  { assert (fle (r_t r1) (r_t r2) = true) as X.
    { destruct G2 as [->|(p & d & I & Q & ->)]; auto. apply (B1 p); auto. apply (S p d Q); auto. }
    assert (fle (r_t r2) (r_t r1) = true) as Y.
    { destruct G1 as [->|(p & d & I & Q & ->)]; auto. apply (B2 p); auto. apply (S p d Q); auto. }
    assert (flt f0 (r_t r1) = true) as P.
    { destruct G1 as [->|(p & d & I & Q & ->)]; eauto. }
    apply fr_inj; auto.
    - apply fle_spec in X; auto. apply fle_spec in Y; auto. lra.
    - apply flt_spec in P; auto. simpl in P. lra. }
  rewrite E1, E2 in *. cbn [r_t ray_set_t] in T. subst; auto.
Qed.

Lemma in_flat_reached : forall indices (h : aabb -> bool) p t,
  In p (prims indices t) -> (forall b, on_path indices p t b -> h b = true) ->
  In p (flat_map (leaf_prims indices) (reached h t)).
Proof.
  intros indices h p t; induction t as [i n|i n l IHl r IHr]; intros I P.
  - simpl. rewrite app_nil_r. exact I.
  - simpl. rewrite flat_map_app. apply in_or_app.
    unfold prims in I. simpl in I. rewrite map_app in I. apply in_app_or in I.
    destruct I as [I|I]; [left|right].
    + rewrite (P (t_rec l)) by (apply op_left; apply op_self; auto).
      apply IHl; auto. intros b O. apply P. apply op_left; auto.
    + rewrite (P (t_rec r)) by (apply op_right; apply op_self; auto).
      apply IHr; auto. intros b O. apply P. apply op_right; auto.
Qed.

Lemma flat_leaf_recs : forall indices t, flat_map (leaf_prims indices) (leaf_recs t) = prims indices t.
Proof.
  intros indices t; induction t as [i n|i n l IHl r IHr].
  - simpl. rewrite app_nil_r. reflexivity.
  - simpl. rewrite flat_map_app, IHl, IHr. unfold prims. simpl. rewrite map_app. auto.
Qed.

Lemma in_reached_prims : forall indices h p t,
  In p (flat_map (leaf_prims indices) (reached h t)) -> In p (prims indices t).
Proof.
  intros indices h p t I. rewrite <- flat_leaf_recs.
  apply in_flat_map in I. destruct I as (x & Ix & Ip). apply in_flat_map. exists x. split; auto.
  eapply submset_in; [apply (reached_leaves h)|auto].
Qed.

Lemma prims_valid : forall indices t n,
  Permutation (positions t) (seq 0 (length indices)) -> Permutation indices (seq 0 n) ->
  Permutation (prims indices t) (seq 0 n).
Proof.
  intros indices t n P Q. unfold prims. eapply Permutation_trans; [apply Permutation_map, P|].
  eapply Permutation_trans; [|apply Q].
  assert (forall k, k <= length indices -> map (fun j => nth j indices 0) (seq 0 k) = firstn k indices) as G.
  { induction k as [|k IH]; intro L; [reflexivity|].
    rewrite seq_S, map_app, IH by lia. simpl.
    assert (k < length indices) as L' by lia.
    clear - L'. revert k L'. induction indices as [|a l IH]; intros [|k] L; simpl in *; try lia; auto.
    f_equal. apply IH. lia. }
  rewrite G by auto. rewrite firstn_all. apply Permutation_refl.
Qed.

Lemma t_ids_size : forall t, length (t_ids t) = t_size t.
Proof. induction t as [|i n l IHl r IHr]; simpl; auto. rewrite app_length. lia. Qed.

Lemma depth_leaves : forall t, depth t < t_leaves t.
Proof. induction t as [|i n l IHl r IHr]; simpl; lia. Qed.

Lemma size_leaves : forall t, S (t_size t) = 2 * t_leaves t.
Proof. induction t as [|i n l IHl r IHr]; simpl; lia. Qed.

Theorem closest_hit_gen : forall nodes indices n t dist r fuel,
  (Z.of_nat (length nodes) <= 2147483648)%Z -> (Z.of_nat (length indices) <= 2147483648)%Z ->
  repr nodes t -> t_idx t = 0 -> depth t <= 31 ->
  Permutation (positions t) (seq 0 (length indices)) -> Permutation indices (seq 0 n) ->
  vok (r_origin r) -> vok (r_dir r) -> flt f0 (r_t r) = true ->
  (forall p d, dist p = Some d -> flt f0 d = true) ->
  (forall p d, dist p = Some d -> p < n -> In p (flat_map (leaf_prims indices) (reached (hit_box r) t))) ->
  t_size t + length (positions t) + 1 <= fuel ->
  exists ps rs, iter_ray_prims n nodes indices (closest_body dist) fuel tt r = Ok (ps, rs, tt) /\
    last rs r = snd (client_fold (closest_body dist) (seq 0 n) tt r).
Proof.
  intros nodes indices n t dist r fuel Hn Hi Rp T0 D P Q Vo Vd Pt Pd HB Fu.
  pose proof (prims_valid indices t n P Q) as PV.
  destruct (Nat.eq_dec n 0) as [->|Nz].
  { (* no primitives: the iterator is dead *)
    exists [], [r]. unfold iter_ray_prims. simpl negb. rewrite andb_false_r.
    destruct fuel as [|fuel]; [lia|]. split; reflexivity. }
  destruct (ray_run_exact unit (fun p => p <? n) nodes indices t (closest_body dist) fuel tt r)
    as (ls & rs & c' & E & S1 & F); auto.
  { intros c p r0. unfold closest_body. destruct (dist p) as [d|]; [destruct (flt d (r_t r0))|]; simpl.
    - exists d; auto.
    - apply same_line_refl.
    - apply same_line_refl. }
  { apply Forall_forall. intros k Ik.
    assert (k < length indices) as Lk by (apply (Permutation_in _ P) in Ik; apply in_seq in Ik; lia).
    split; auto. apply Nat.ltb_lt. 
    assert (In (nth k indices 0) (seq 0 n)) as I by (apply (Permutation_in _ Q); apply nth_In; auto).
    apply in_seq in I. lia. }
  exists (flat_map (leaf_prims indices) ls), rs. destruct c'. split.
  - unfold iter_ray_prims. replace (ray_alive nodes r && negb (n =? 0)) with true; auto.
    symmetry. apply andb_true_iff. split.
    + unfold ray_alive. destruct nodes; [destruct t; simpl in Rp; rewrite T0 in Rp || idtac|].
      * simpl in T0; subst; simpl in Rp; destruct Rp; discriminate.
      * simpl in T0; subst; simpl in Rp; destruct Rp; discriminate.
      * unfold vnan. destruct Vo as (-> & -> & ->). destruct Vd as (-> & -> & ->). reflexivity.
    + apply negb_true_iff. apply Nat.eqb_neq; auto.
  - change (fold_left _ _ _) with (client_fold (closest_body dist) (flat_map (leaf_prims indices) ls) tt r) in F.
    rewrite <- (f_equal snd F : snd (client_fold _ _ _ _) = last rs r).
    apply closest_same; auto.
    intros p d Ed.
    assert (In p (flat_map (leaf_prims indices) ls) <-> In p (flat_map (leaf_prims indices) (reached (hit_box r) t))) as ->.
    { split; apply Permutation_in; apply Permutation_flat_map; [auto|symmetry; auto]. }
    split; intro I.
    + apply in_reached_prims in I. eapply Permutation_in; eauto.
    + apply (HB p d); auto. apply in_seq in I. lia.
Qed.

Theorem closest_hit : forall nodes indices n t dist r fuel,
  (Z.of_nat (length nodes) <= 2147483648)%Z -> (Z.of_nat (length indices) <= 2147483648)%Z ->
  repr nodes t -> t_idx t = 0 -> depth t <= 31 ->
  Permutation (positions t) (seq 0 (length indices)) -> Permutation indices (seq 0 n) ->
  vok (r_origin r) -> vok (r_dir r) -> flt f0 (r_t r) = true ->
  (forall p d, dist p = Some d -> flt f0 d = true) ->
  (forall p d b, dist p = Some d -> on_path indices p t b -> hit_box r b = true) ->
  t_size t + length (positions t) + 1 <= fuel ->
  exists ps rs, iter_ray_prims n nodes indices (closest_body dist) fuel tt r = Ok (ps, rs, tt) /\
    last rs r = snd (client_fold (closest_body dist) (seq 0 n) tt r).
Proof.
  intros nodes indices n t dist r fuel Hn Hi Rp T0 D P Q Vo Vd Pt Pd HB Fu.
  apply (closest_hit_gen nodes indices n t dist r fuel); auto.
  intros p d Ed L. apply in_flat_reached; [|intros b O; eapply HB; eauto].
  apply (Permutation_in _ (Permutation_sym (prims_valid indices t n P Q))). apply in_seq. lia.
Qed.
