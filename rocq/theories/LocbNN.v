(** * Nearest neighbour search of the clustering builder *)
Require Import List ZArith Bool Arith NArith Lia.
From Verif Require Import F32 Vec Base AabbModel UtilsModel UtilsProofs LocbModel.
Import ListNotations.

Lemma for_each_seq : forall S (P : nat -> S -> Prop) f n a s, P a s ->
  (forall i s, a <= i < a + n -> P i s -> exists s', f i s = Ok s' /\ P (Datatypes.S i) s') ->
  exists s', for_each (seq a n) f s = Ok s' /\ P (a + n) s'.
Proof.
  intros S P f n; induction n as [|n IH]; intros a s H0 Hs; simpl.
  - exists s. rewrite Nat.add_0_r. auto.
  - destruct (Hs a s ltac:(lia) H0) as (s1 & E & H1). rewrite E. simpl.
    destruct (IH (Datatypes.S a) s1 H1) as (s2 & E2 & H2).
    + intros i s' Hi Hp. apply Hs; auto. lia.
    + exists s2. split; auto. replace (a + Datatypes.S n) with (Datatypes.S a + n) by lia. auto.
Qed.

Lemma for_each_app : forall A S (f : A -> S -> res S) l1 l2 s,
  for_each (l1 ++ l2) f s = bind (for_each l1 f s) (for_each l2 f).
Proof.
  intros A S f l1 l2; induction l1 as [|x t IH]; intro s; simpl; auto.
  destruct (f x s); simpl; auto.
Qed.

Lemma for_each_pure : forall A S (f : A -> S -> res S) (g : A -> S -> S) l s,
  (forall x s, In x l -> f x s = Ok (g x s)) -> for_each l f s = Ok (fold_left (fun s x => g x s) l s).
Proof.
  intros A S f g l; induction l as [|x t IH]; intros s H; simpl; auto.
  rewrite H by (simpl; auto). simpl. apply IH. intros; apply H; simpl; auto.
Qed.

Section NN.
  Variables (radius : nat) (input : list aabb) (begin end_ : nat).
  Hypothesis R1 : 1 <= radius.
  Hypothesis Le : end_ <= length input.

  Definition dflt : aabb := aabb_new.
  Definition nd (k : nat) : aabb := nth k input dflt.
  (** The distance of two clusters, in the operand order of the code (lower index first). *)
  Definition pair_d (i j : nat) : f32 := distance (nd (Nat.min i j)) (nd (Nat.max i j)).
  Definition best_of (i : nat) (l : list nat) (b : f32 * option nat) : f32 * option nat :=
    fold_left (fun b j => best_step j (pair_d i j) b) l b.
  Definition sb (i : nat) : nat := fst (search_range radius i begin end_).
  Definition se (i : nat) : nat := snd (search_range radius i begin end_).
  (** What is stored for cluster [i]. *)
  Definition nn (i : nat) : option nat :=
    snd (best_of i (range (sb i) i ++ range (i + 1) (se i)) (fMAX, None)).

  Definition rows_ok (rs : list nat) : Prop :=
    length rs = radius + 1 /\
    (forall k, k <= radius -> exists q, q <= radius /\ nth_error rs k = Some (q * radius)) /\
    (forall k k' p, nth_error rs k = Some p -> nth_error rs k' = Some p -> k = k').
  Definition dm_ok (m : dmatrix) : Prop :=
    length (distances m) = (radius + 1) * radius /\ rows_ok (rows m).

  Lemma dm_new_ok : dm_ok (dm_new radius).
  Proof.
    split; [simpl; apply repeat_length|]. split; [simpl; rewrite map_length, seq_length; auto|]. simpl.
    assert (forall k p, nth_error (map (fun i => i * radius) (seq 0 (radius + 1))) k = Some p ->
              k < radius + 1 /\ p = k * radius) as G.
    { intros k p H. assert (k < radius + 1) as L.
      { assert (k < length (map (fun i => i * radius) (seq 0 (radius + 1)))) by (apply nth_error_Some; congruence).
        rewrite map_length, seq_length in *; auto. }
      split; auto. rewrite (map_nth_error _ k (seq 0 (radius + 1)) (d := k)) in H; [congruence|].
      rewrite (nth_error_nth' _ 0) by (rewrite seq_length; auto). rewrite seq_nth by auto. auto. }
    split.
    - intros k L. exists k. split; auto.
      destruct (nth_error_Some_ex _ (map (fun i => i * radius) (seq 0 (radius + 1))) k) as [p E].
      { rewrite map_length, seq_length. lia. }
      rewrite E. apply G in E as [_ ->]. auto.
    - intros k k' p A B. apply G in A as [_ ->]. apply G in B as [_ E]. nia.
  Qed.

  Lemma cell_lt : forall q e, q <= radius -> e < radius -> q * radius + e < (radius + 1) * radius.
  Proof. intros; nia. Qed.

  Lemma dm_set_ok : forall m k e v, dm_ok m -> k <= radius -> e < radius ->
    exists m', dm_set m k e v = Ok m' /\ dm_ok m' /\ dm_get m' k e = Ok v /\ rows m' = rows m /\
      forall k' e', k' <= radius -> e' < radius -> (k' <> k \/ e' <> e) -> dm_get m' k' e' = dm_get m k' e'.
  Proof.
    intros m k e v (Ld & Lr & Rq & Ri) Lk Lee.
    destruct (Rq k Lk) as (q & Lq & Eq).
    pose proof (cell_lt q e Lq Lee) as C.
    exists (Dm (upd (distances m) (q * radius + e) v) (rows m)).
    unfold dm_set, dm_get, get, get_unchecked, set_unchecked. cbn [rows distances]. rewrite Eq. cbn [bind].
    replace (q * radius + e <? length (distances m)) with true by (symmetry; apply Nat.ltb_lt; lia).
    cbn [bind]. split; auto. split.
    { split; [cbn; rewrite upd_length; auto|]. split; auto. }
    split; [rewrite nth_error_upd_same by lia; auto|]. split; auto.
    intros k' e' Lk' Le' D. destruct (Rq k' Lk') as (q' & Lq' & Eq'). rewrite Eq'. cbn [bind].
    rewrite nth_error_upd_other; auto.
    intro X. assert (q = q') as Y.
    { assert ((q * radius + e) / radius = (q' * radius + e') / radius) as Z by congruence.
      rewrite !(Nat.add_comm (_ * radius)), !Nat.div_add, !Nat.div_small in Z by lia. auto. }
    subst q'. destruct D as [D|D]; [|lia]. apply D. eapply Ri; eauto.
  Qed.

  Lemma dm_rotate_ok : forall m, dm_ok m -> exists m', dm_rotate radius m = Ok m' /\ dm_ok m' /\
    (forall k e, k < radius -> dm_get m' (S k) e = dm_get m k e).
  Proof.
    intros m (Ld & Lr & Rq & Ri).
    destruct (Rq radius ltac:(lia)) as (ql & Lql & El).
    destruct (move_backward_spec nat (rows m) 0 radius (radius + 1) (S radius)) as (rs & E & Lrs & A & B); try lia.
    rewrite Nat.add_0_l in E. replace (radius + 1 - radius) with 1 in * by lia. simpl in A.
    unfold dm_rotate. unfold get at 1. rewrite El. cbn [bind]. rewrite E. cbn [bind].
    unfold set. replace (0 <? length rs) with true by (symmetry; apply Nat.ltb_lt; lia). cbn [bind].
    exists (Dm (distances m) (upd rs 0 (ql * radius))). split; auto.
    assert (forall k, k < radius -> nth_error (upd rs 0 (ql * radius)) (S k) = nth_error (rows m) k) as H1.
    { intros k L. rewrite nth_error_upd_other by lia. apply A; auto. }
    assert (nth_error (upd rs 0 (ql * radius)) 0 = nth_error (rows m) radius) as H0.
    { rewrite nth_error_upd_same by lia. auto. }
    assert (length (upd rs 0 (ql * radius)) = radius + 1) as HL by (rewrite upd_length; lia).
    split.
    - split; auto. split; auto. cbn [rows]. split.
      + intros [|k] L; [rewrite H0; apply Rq; lia|rewrite H1 by lia; apply Rq; lia].
      + intros k k' p X Y.
        assert (k < radius + 1) by (rewrite <- HL; apply nth_error_Some; congruence).
        assert (k' < radius + 1) by (rewrite <- HL; apply nth_error_Some; congruence).
        destruct k as [|k], k' as [|k']; auto;
          rewrite ?H0, ?H1 in X by lia; rewrite ?H0, ?H1 in Y by lia; pose proof (Ri _ _ _ X Y); lia.
    - intros k e L. unfold dm_get, get. cbn [rows distances]. rewrite H1 by auto. auto.
  Qed.

  Lemma sb_bounds : forall i, begin <= i -> begin <= sb i <= i /\ i - sb i <= radius.
  Proof. intros i L. unfold sb, search_range; cbn [fst]. destruct (Nat.ltb_spec (begin + radius) i); lia. Qed.
  Lemma sb_mono : forall i, begin <= i -> sb i <= sb (S i).
  Proof.
    intros i L. unfold sb, search_range; cbn [fst].
    destruct (Nat.ltb_spec (begin + radius) i), (Nat.ltb_spec (begin + radius) (S i)); lia.
  Qed.
  Lemma sb_next : forall i j, begin <= i -> sb (S i) <= j -> S i - j <= radius.
  Proof. intros i j L H. pose proof (sb_bounds (S i) ltac:(lia)). lia. Qed.
  Lemma se_bounds : forall i, i < end_ -> i < se i <= end_ /\ se i <= i + radius + 1.
  Proof. intros i L. unfold se, search_range; cbn [snd]. lia. Qed.
  Lemma se_in : forall i e, e < radius -> i + 1 + e < end_ <-> i + 1 + e < se i /\ e < radius.
  Proof. intros i e L. unfold se, search_range; cbn [snd]. lia. Qed.
  (** The search range is symmetric. *)
  Lemma range_in : forall i j, begin <= i < end_ ->
    In j (range (sb i) i ++ range (i + 1) (se i)) <->
    j <> i /\ begin <= j < end_ /\ i <= j + radius /\ j <= i + radius.
  Proof.
    intros i j H. unfold range. rewrite in_app_iff, !in_seq.
    unfold sb, se, search_range; cbn [fst snd]. destruct (Nat.ltb_spec (begin + radius) i); lia.
  Qed.

  (** The distances that later iterations read are in place. *)
  Definition dm_inv (i : nat) (m : dmatrix) : Prop :=
    dm_ok m /\ forall j e, sb i <= j < i -> e < radius -> j + 1 + e < end_ ->
      dm_get m (i - j) e = Ok (pair_d j (j + 1 + e)).

  Lemma get_nd : forall k, k < end_ -> get input k = Ok (nd k).
  Proof. intros k L. unfold get. rewrite (nth_error_nth' input dflt) by lia. auto. Qed.
  Lemma pair_d_lt : forall i j, i < j -> pair_d i j = distance (nd i) (nd j).
  Proof. intros. unfold pair_d. rewrite Nat.min_l, Nat.max_r by lia. auto. Qed.
  Lemma pair_d_sym : forall i j, pair_d i j = pair_d j i.
  Proof. intros. unfold pair_d. rewrite Nat.min_comm, Nat.max_comm. auto. Qed.

  Lemma init_matrix_ok : forall cb, begin <= cb <= end_ ->
    exists m, init_matrix radius input cb begin end_ (dm_new radius) = Ok m /\ dm_inv cb m.
  Proof.
    intros cb H. unfold init_matrix, range. fold (sb cb).
    pose proof (sb_bounds cb ltac:(lia)) as Sb.
    destruct (for_each_seq dmatrix (fun i m => dm_ok m /\ forall j e, sb cb <= j < i -> e < radius -> j + 1 + e < end_ ->
                dm_get m (cb - j) e = Ok (pair_d j (j + 1 + e)))
       (fun i => for_each (range (i + 1) (snd (search_range radius i begin end_))) (init_cell input cb i))
       (cb - sb cb) (sb cb) (dm_new radius)) as (m & E & Hm & Hd).
    - split; [apply dm_new_ok|intros; lia].
    - intros i m Hi (Om & Hm). fold (se i). pose proof (se_bounds i ltac:(lia)) as Se.
      unfold range.
      destruct (for_each_seq dmatrix (fun x m' => dm_ok m' /\
          (forall j e, sb cb <= j < i -> e < radius -> j + 1 + e < end_ -> dm_get m' (cb - j) e = Ok (pair_d j (j + 1 + e))) /\
          (forall e, e < radius -> i + 1 + e < x -> dm_get m' (cb - i) e = Ok (pair_d i (i + 1 + e))))
        (init_cell input cb i) (se i - (i + 1)) (i + 1) m) as (m' & E' & Om' & Hm' & Hn').
      + split; auto. split; auto. intros; lia.
      + intros j m1 Hj (O1 & H1 & N1). unfold init_cell. rewrite !get_nd by lia. cbn [bind].
        unfold usub. replace (i <=? cb) with true by (symmetry; apply Nat.leb_le; lia). cbn [bind].
        destruct (dm_set_ok m1 (cb - i) (j - i - 1) (distance (nd i) (nd j)) O1) as (m2 & E2 & O2 & G2 & _ & F2); try lia.
        exists m2. split; auto. split; auto. split.
        * intros j' e Hj' Lee Lje. rewrite F2 by lia. auto.
        * intros e Lee Lie. destruct (Nat.eq_dec (i + 1 + e) j) as [<-|N].
          -- replace (i + 1 + e - i - 1) with e in G2 by lia. rewrite G2, pair_d_lt by lia. auto.
          -- rewrite F2 by lia. apply N1; lia.
      + exists m'. split; auto. split; auto. intros j e Hj Lee Lje.
        destruct (Nat.eq_dec j i) as [->|N]; [|apply Hm'; auto; lia].
        apply Hn'; auto. unfold se, search_range; cbn [snd]. lia.
    - exists m. split; auto. split; auto. intros j e Hj. apply Hd. lia.
  Qed.

  Lemma backward_ok : forall i m b, begin <= i < end_ -> dm_inv i m ->
    for_each (range (sb i) i) (backward i m) b = Ok (best_of i (range (sb i) i) b).
  Proof.
    intros i m b Hi (Om & Hm). unfold best_of.
    rewrite (for_each_pure _ _ _ (fun j b => best_step j (pair_d i j) b)); auto.
    intros j s Hj. unfold range in Hj. apply in_seq in Hj. pose proof (sb_bounds i ltac:(lia)).
    unfold backward. rewrite Hm by lia. cbn [bind].
    replace (j + 1 + (i - j - 1)) with i by lia. rewrite pair_d_sym. auto.
  Qed.

  Lemma forward_ok : forall i m b, begin <= i < end_ -> dm_inv i m ->
    exists m', for_each (range (i + 1) (se i)) (forward input i) (m, b) =
                 Ok (m', best_of i (range (i + 1) (se i)) b) /\
      dm_ok m' /\
      (forall j e, sb i <= j < i -> e < radius -> j + 1 + e < end_ -> dm_get m' (i - j) e = Ok (pair_d j (j + 1 + e))) /\
      (forall e, e < radius -> i + 1 + e < end_ -> dm_get m' 0 e = Ok (pair_d i (i + 1 + e))).
  Proof.
    intros i m b Hi (Om & Hm). unfold range. pose proof (se_bounds i ltac:(lia)) as Se.
    destruct (for_each_seq _ (fun x (s : dmatrix * (f32 * option nat)) => let (m', b') := s in
        b' = best_of i (seq (i + 1) (x - (i + 1))) b /\ dm_ok m' /\
        (forall j e, sb i <= j < i -> e < radius -> j + 1 + e < end_ -> dm_get m' (i - j) e = Ok (pair_d j (j + 1 + e))) /\
        (forall e, e < radius -> i + 1 + e < x -> dm_get m' 0 e = Ok (pair_d i (i + 1 + e))))
      (forward input i) (se i - (i + 1)) (i + 1) (m, b)) as ((m' & b') & E & Eb & Om' & H1 & H2).
    - rewrite Nat.sub_diag. split; auto. split; auto. split; auto. intros; lia.
    - intros j (m1 & b1) Hj (Eb1 & O1 & H1 & N1). unfold forward. rewrite !get_nd by lia. cbn [bind fst snd].
      destruct (dm_set_ok m1 0 (j - i - 1) (distance (nd i) (nd j)) O1) as (m2 & E2 & O2 & G2 & _ & F2); try lia.
      rewrite E2. cbn [bind]. eexists. split; [reflexivity|]. cbn beta iota. split.
      { subst b1. replace (S j - (i + 1)) with (S (j - (i + 1))) by lia. rewrite seq_S. unfold best_of.
        rewrite fold_left_app. simpl. replace (i + 1 + (j - (i + 1))) with j by lia. rewrite pair_d_lt by lia. auto. }
      split; auto. split.
      + intros j' e Hj' Lee Lje. rewrite F2; auto; try lia. pose proof (sb_bounds i ltac:(lia)). lia.
      + intros e Lee Lie. destruct (Nat.eq_dec (i + 1 + e) j) as [<-|N].
        * replace (i + 1 + e - i - 1) with e in G2 by lia. rewrite G2, pair_d_lt by lia. auto.
        * rewrite F2 by lia. apply N1; lia.
    - exists m'. replace (i + 1 + (se i - (i + 1))) with (se i) in * by lia. subst b'.
      split; auto. split; auto. split; auto. intros e Lee Lie. apply H2; auto. apply (se_in i e Lee); auto.
  Qed.

  Lemma nearest_ok : forall i m nbs, begin <= i < end_ -> end_ <= length nbs -> dm_inv i m ->
    exists m', nearest radius input begin end_ i (m, nbs) = Ok (m', upd nbs i (neighbour_u32 (nn i))) /\ dm_inv (S i) m'.
  Proof.
    intros i m nbs Hi Ln Im. unfold nearest. 
    rewrite (surjective_pairing (search_range radius i begin end_)). fold (sb i). fold (se i).
    rewrite backward_ok by auto. cbn [bind].
    destruct (forward_ok i m (best_of i (range (sb i) i) (fMAX, None)) Hi Im) as (m1 & E1 & O1 & H1 & H2).
    rewrite E1. cbn [bind]. unfold set_unchecked.
    replace (i <? length nbs) with true by (symmetry; apply Nat.ltb_lt; lia). cbn [bind].
    destruct (dm_rotate_ok m1 O1) as (m2 & E2 & O2 & H3). rewrite E2. cbn [bind].
    exists m2. split.
    - f_equal. f_equal. unfold nn, best_of. rewrite fold_left_app. auto.
    - split; auto. intros j e Hj Lee Lje. pose proof (sb_mono i ltac:(lia)). pose proof (sb_next i j ltac:(lia) ltac:(lia)).
      replace (S i - j) with (S (i - j)) by lia. rewrite H3 by lia.
      destruct (Nat.eq_dec j i) as [->|N].
      + rewrite Nat.sub_diag. auto.
      + apply H1; auto; lia.
  Qed.

  Definition put (i : nat) (nbs : list N) : list N := upd nbs i (neighbour_u32 (nn i)).
  Lemma put_all_length : forall l nbs, length (fold_left (fun s i => put i s) l nbs) = length nbs.
  Proof.
    induction l as [|x l IH]; intro nbs; simpl; auto. rewrite IH. unfold put. apply upd_length.
  Qed.

  Lemma chunk_ok : forall n a nbs m, begin <= a -> a + n <= end_ -> end_ <= length nbs -> dm_inv a m ->
    exists m', for_each (seq a n) (nearest radius input begin end_) (m, nbs) =
      Ok (m', fold_left (fun s i => put i s) (seq a n) nbs).
  Proof.
    induction n as [|n IH]; intros a nbs m La Lb Ln Hm; cbn [seq for_each fold_left].
    - eauto.
    - destruct (nearest_ok a m nbs ltac:(lia) Ln Hm) as (m1 & E1 & H1). rewrite E1. cbn [bind].
      apply (IH (S a) (put a nbs) m1); try lia; auto. unfold put. rewrite upd_length. auto.
  Qed.

  (** Chunking does not matter. *)
  Theorem all_neighbours_ok : forall threads nbs, 1 <= threads -> begin <= end_ -> end_ <= length nbs ->
    all_neighbours radius input begin end_ threads nbs = Ok (fold_left (fun s i => put i s) (range begin end_) nbs).
  Proof.
    intros threads nbs T Lbe Ln. unfold all_neighbours.
    replace (threads =? 0) with false by (symmetry; apply Nat.eqb_neq; lia).
    set (cs := (end_ - begin) / threads).
    assert (threads * cs <= end_ - begin) as Hcs by (unfold cs; apply Nat.mul_div_le; lia).
    assert (forall t nbs, t < threads -> end_ <= length nbs ->
      chunk radius input begin end_ threads t nbs =
      Ok (fold_left (fun s i => put i s) (range (begin + t * cs) (if t =? threads - 1 then end_ else begin + t * cs + cs)) nbs)) as C.
    { intros t nb Lt Lnb. unfold chunk. fold cs.
      assert (t * cs + cs <= end_ - begin) as Ht by nia.
      destruct (init_matrix_ok (begin + t * cs)) as (m & E & Im); [lia|]. rewrite E. cbn [bind].
      set (ce := if t =? threads - 1 then end_ else begin + t * cs + cs).
      assert (begin + t * cs <= ce <= end_) as Hce by (unfold ce; destruct (t =? threads - 1); lia).
      unfold range. destruct (chunk_ok (ce - (begin + t * cs)) (begin + t * cs) nb m) as (m' & E'); try lia; auto. rewrite E'. reflexivity. }
    assert (forall k, k <= threads - 1 -> for_each (seq 0 k) (chunk radius input begin end_ threads) nbs =
      Ok (fold_left (fun s i => put i s) (seq begin (k * cs)) nbs)) as D.
    { induction k as [|k IH]; intro Lk; [reflexivity|].
      rewrite seq_S, for_each_app, IH by lia. cbn [bind for_each]. rewrite Nat.add_0_l.
      rewrite C by (rewrite ?put_all_length; lia). cbn [bind].
      replace (k =? threads - 1) with false by (symmetry; apply Nat.eqb_neq; lia).
      unfold range. replace (begin + k * cs + cs - (begin + k * cs)) with cs by lia.
      rewrite <- fold_left_app, <- seq_app. f_equal. f_equal. f_equal. lia. }
    replace threads with (S (threads - 1)) at 1 by lia. rewrite seq_S, for_each_app, D by lia.
    cbn [bind for_each]. rewrite Nat.add_0_l, C by (rewrite ?put_all_length; lia). cbn [bind].
    rewrite Nat.eqb_refl. unfold range.
    rewrite <- fold_left_app.
    assert ((threads - 1) * cs <= end_ - begin) by nia.
    replace (end_ - (begin + (threads - 1) * cs)) with (end_ - begin - (threads - 1) * cs) by lia.
    rewrite <- seq_app. do 3 f_equal. lia.
  Qed.

  Lemma put_all_nth : forall l nbs k, (forall i, In i l -> i < length nbs) ->
    nth_error (fold_left (fun s i => put i s) l nbs) k =
    if in_dec Nat.eq_dec k l then Some (neighbour_u32 (nn k)) else nth_error nbs k.
  Proof.
    intros l. induction l as [|x l IH] using rev_ind; intros nbs k H; [reflexivity|].
    rewrite fold_left_app. cbn [fold_left]. unfold put at 1.
    destruct (Nat.eq_dec x k) as [->|N].
    - rewrite nth_error_upd_same by (rewrite put_all_length; apply H, in_or_app; simpl; auto).
      destruct (in_dec Nat.eq_dec k (l ++ [k])) as [_|F]; auto. exfalso; apply F, in_or_app; simpl; auto.
    - rewrite nth_error_upd_other by auto. rewrite IH by (intros; apply H, in_or_app; auto).
      destruct (in_dec Nat.eq_dec k l) as [I|I], (in_dec Nat.eq_dec k (l ++ [x])) as [J|J]; auto.
      + exfalso; apply J, in_or_app; auto.
      + apply in_app_or in J as [J|[J|[]]]; congruence.
  Qed.
End NN.
