(** * Merging mutual neighbours: where every cluster goes *)
Require Import List ZArith Bool Arith NArith Lia Permutation.
From Verif Require Import F32 Vec Base AabbModel NodeModel UtilsModel UtilsProofs LocbModel LocbNN.
Import ListNotations.

(** ** Counting *)
Definition cnt (f : nat -> bool) (a n : nat) : nat := length (filter f (seq a n)).
Lemma cnt_S : forall f a n, cnt f a (S n) = cnt f a n + if f (a + n) then 1 else 0.
Proof. intros f a n. unfold cnt. rewrite seq_S, filter_app, app_length. simpl. destruct (f (a + n)); auto. Qed.
Lemma cnt_mono : forall f a m n, m <= n -> cnt f a m <= cnt f a n.
Proof. intros f a m n L. induction L; auto. rewrite cnt_S. lia. Qed.
Lemma cnt_negb : forall f a n, cnt f a n + cnt (fun k => negb (f k)) a n = n.
Proof. induction n as [|n IH]; auto. rewrite !cnt_S. destruct (f (a + n)); simpl; lia. Qed.
Lemma cnt_lt : forall f a k k', a <= k < k' -> f k = true -> cnt f a (k - a) < cnt f a (k' - a).
Proof.
  intros f a k k' L H. assert (cnt f a (S (k - a)) <= cnt f a (k' - a)) by (apply cnt_mono; lia).
  rewrite cnt_S in *. replace (a + (k - a)) with k in * by lia. rewrite H in *. lia.
Qed.
Lemma cnt_inj : forall f a k k', a <= k -> a <= k' -> f k = true -> f k' = true ->
  cnt f a (k - a) = cnt f a (k' - a) -> k = k'.
Proof.
  intros f a k k' L L' H H' E. destruct (Nat.lt_trichotomy k k') as [X|[X|X]]; auto.
  - pose proof (cnt_lt f a k k' ltac:(lia) H). lia.
  - pose proof (cnt_lt f a k' k ltac:(lia) H'). lia.
Qed.
Lemma map_rank : forall f a n, map (fun k => cnt f a (k - a)) (filter f (seq a n)) = seq 0 (cnt f a n).
Proof.
  intros f a n; induction n as [|n IH]; [reflexivity|].
  rewrite seq_S, filter_app, map_app, IH, cnt_S. simpl.
  destruct (f (a + n)); simpl.
  - replace (a + n - a) with n by lia. rewrite Nat.add_1_r, seq_S. auto.
  - rewrite app_nil_r, Nat.add_0_r. auto.
Qed.

Lemma map_add_seq : forall b n a, map (fun r => b + r) (seq a n) = seq (b + a) n.
Proof. intros b n; induction n as [|n IH]; intro a; simpl; auto. f_equal. rewrite IH. f_equal. lia. Qed.

Lemma nth_error_skipn_add : forall A a (l : list A) k, nth_error (skipn a l) k = nth_error l (a + k).
Proof. induction a as [|a IH]; intros [|x l] k; simpl; auto. destruct k; auto. Qed.

(** ** Lists of writes *)
Definition apply_writes {A} (ws : list (nat * A)) (l : list A) : list A :=
  fold_left (fun l w => upd l (fst w) (snd w)) ws l.
Lemma apply_writes_length : forall A (ws : list (nat * A)) l, length (apply_writes ws l) = length l.
Proof. intros A ws; induction ws as [|w ws IH]; intro l; simpl; auto. unfold apply_writes in *. simpl. rewrite IH. apply upd_length. Qed.
Lemma apply_writes_in : forall A (ws : list (nat * A)) l p v,
  (forall w, In w ws -> fst w < length l) ->
  (forall w w', In w ws -> In w' ws -> fst w = fst w' -> snd w = snd w') ->
  In (p, v) ws -> nth_error (apply_writes ws l) p = Some v.
Proof.
  intros A ws. induction ws as [|w ws IH] using rev_ind; intros l p v B F I; [destruct I|].
  unfold apply_writes in *. rewrite fold_left_app. cbn [fold_left].
  destruct (Nat.eq_dec (fst w) p) as [E|N].
  - rewrite E, nth_error_upd_same.
    + f_equal. apply (F w (p, v)); auto. apply in_or_app; simpl; auto.
    + fold (apply_writes ws l). rewrite apply_writes_length. rewrite <- E. apply B, in_or_app; simpl; auto.
  - rewrite nth_error_upd_other by auto. apply IH.
    + intros; apply B, in_or_app; auto.
    + intros; apply F; auto; apply in_or_app; auto.
    + apply in_app_or in I as [I|[I|[]]]; auto. subst w. simpl in N. congruence.
Qed.
Lemma apply_writes_out : forall A (ws : list (nat * A)) l p,
  (forall w, In w ws -> fst w <> p) -> nth_error (apply_writes ws l) p = nth_error l p.
Proof.
  intros A ws; induction ws as [|w ws IH]; intros l p H; auto.
  unfold apply_writes in *. simpl. rewrite IH by (intros; apply H; simpl; auto).
  apply nth_error_upd_other. apply H; simpl; auto.
Qed.
Lemma apply_writes_app : forall A (w1 w2 : list (nat * A)) l, apply_writes (w1 ++ w2) l = apply_writes w2 (apply_writes w1 l).
Proof. intros. unfold apply_writes. apply fold_left_app. Qed.

Section Merge.
  Variables (begin end_ : nat) (nb : nat -> nat).
  Hypothesis Hbe : begin < end_.
  Hypothesis Hnb : forall i, begin <= i < end_ -> begin <= nb i < end_ /\ nb i <> i.

  Notation c := (end_ - begin).
  Definition mutual (i : nat) : bool := nb (nb i) =? i.
  Definition low (i : nat) : bool := (i <? nb i) && mutual i.
  Definition up (i : nat) : bool := (nb i <? i) && mutual i.
  Definition kept (i : nat) : bool := negb (low i).
  Definition M : nat := cnt low begin c.
  Definition nbeg : nat := begin - M.
  Definition cbeg : nat := end_ - 2 * M.
  Definition pos (k : nat) : nat := nbeg + cnt kept begin (k - begin).
  Definition fc (i : nat) : nat := cbeg + 2 * cnt low begin (i - begin).
  Definition all : list nat := seq begin c.
  Definition lows := filter low all.
  Definition ups := filter up all.
  Definition kepts := filter kept all.

  Lemma in_all : forall i, In i all <-> begin <= i < end_.
  Proof. intro i. unfold all. rewrite in_seq. lia. Qed.
  Lemma low_up : forall i, begin <= i < end_ -> low i = true -> up (nb i) = true /\ nb (nb i) = i.
  Proof.
    intros i Hi H. unfold low, mutual in H. apply andb_true_iff in H as [L E].
    apply Nat.ltb_lt in L. apply Nat.eqb_eq in E. split; auto.
    unfold up, mutual. rewrite E, Nat.eqb_refl. replace (i <? nb i) with true by (symmetry; apply Nat.ltb_lt; auto). auto.
  Qed.
  Lemma up_low : forall i, begin <= i < end_ -> up i = true -> low (nb i) = true /\ nb (nb i) = i.
  Proof.
    intros i Hi H. unfold up, mutual in H. apply andb_true_iff in H as [L E].
    apply Nat.ltb_lt in L. apply Nat.eqb_eq in E. split; auto.
    unfold low, mutual. rewrite E, Nat.eqb_refl. replace (nb i <? i) with true by (symmetry; apply Nat.ltb_lt; auto). auto.
  Qed.
  Lemma up_kept : forall i, up i = true -> kept i = true.
  Proof.
    intros i H. unfold up, kept, low in *. apply andb_true_iff in H as [L _]. apply Nat.ltb_lt in L.
    replace (i <? nb i) with false by (symmetry; apply Nat.ltb_ge; lia). auto.
  Qed.
  (** Each cluster is a lower partner, an upper partner or unmatched. *)
  Lemma mutual_cases : forall i, begin <= i < end_ -> mutual i = low i || up i.
  Proof.
    intros i Hi. unfold low, up. destruct (mutual i); rewrite ?andb_false_r; auto. rewrite !andb_true_r.
    destruct (Hnb i Hi) as [_ N]. destruct (Nat.ltb_spec i (nb i)), (Nat.ltb_spec (nb i) i); auto; lia.
  Qed.

  Lemma ups_lows : Permutation (map nb ups) lows.
  Proof.
    apply NoDup_Permutation.
    - assert (forall l, NoDup l -> (forall x, In x l -> In x ups) -> NoDup (map nb l)) as G.
      { induction l as [|x l IH]; intros Nd Hin; simpl; constructor.
        - inversion Nd; subst. intro I. apply in_map_iff in I as (y & E & Iy).
          assert (In x ups) as X by (apply Hin; simpl; auto). assert (In y ups) as Y by (apply Hin; simpl; auto).
          apply filter_In in X as [X1 X2]. apply filter_In in Y as [Y1 Y2]. apply in_all in X1. apply in_all in Y1.
          destruct (up_low x X1 X2) as [_ Ex]. destruct (up_low y Y1 Y2) as [_ Ey]. congruence.
        - inversion Nd; subst. apply IH; auto. intros; apply Hin; simpl; auto. }
      apply G; auto. unfold ups, all. apply NoDup_filter, seq_NoDup.
    - apply NoDup_filter, seq_NoDup.
    - intro x. rewrite in_map_iff. split.
      + intros (y & <- & I). apply filter_In in I as [I U]. apply in_all in I. apply filter_In. split.
        * apply in_all. apply Hnb; auto.
        * apply up_low; auto.
      + intro I. apply filter_In in I as [I U]. apply in_all in I. destruct (low_up x I U) as [A B].
        exists (nb x). split; auto. apply filter_In. split; auto. apply in_all. apply Hnb; auto.
  Qed.
  Lemma ups_count : length ups = M.
  Proof. rewrite <- (map_length nb ups), (Permutation_length ups_lows). reflexivity. Qed.
  Lemma two_M : 2 * M <= c.
  Proof.
    assert (length ups <= length kepts) as L.
    { apply NoDup_incl_length; [apply NoDup_filter, seq_NoDup|].
      intros x I. apply filter_In in I as [I U]. apply filter_In. split; auto. apply up_kept; auto. }
    rewrite ups_count in L. pose proof (cnt_negb low begin c) as E. fold kepts in L.
    assert (length kepts = cnt (fun k => negb (low k)) begin c) by reflexivity. fold M in E. lia.
  Qed.
  Lemma kept_count : cnt kept begin c = c - M.
  Proof. pose proof (cnt_negb low begin c). fold M in H. change (cnt kept begin c) with (cnt (fun k => negb (low k)) begin c). lia. Qed.

  Hypothesis HM : M <= begin.

  Lemma nbeg_cbeg : nbeg + (c - M) = cbeg.
  Proof. unfold nbeg, cbeg. pose proof two_M. lia. Qed.
  Lemma pos_range : forall k, begin <= k < end_ -> kept k = true -> nbeg <= pos k < cbeg.
  Proof.
    intros k Hk K. unfold pos. pose proof (cnt_lt kept begin k end_ ltac:(lia) K) as L.
    rewrite kept_count in L. pose proof nbeg_cbeg. lia.
  Qed.
  Lemma fc_range : forall i, begin <= i < end_ -> low i = true -> cbeg <= fc i /\ fc i + 1 < end_.
  Proof.
    intros i Hi L. unfold fc. pose proof (cnt_lt low begin i end_ ltac:(lia) L) as X. fold M in X.
    unfold cbeg in *. pose proof two_M. lia.
  Qed.
  Lemma map_pos : map pos kepts = seq nbeg (c - M).
  Proof.
    unfold pos. rewrite <- kept_count. unfold kepts, all.
    rewrite <- (map_map (fun k => cnt kept begin (k - begin)) (fun r => nbeg + r)), map_rank.
    rewrite map_add_seq, Nat.add_0_r. auto.
  Qed.
  Lemma flat_fc : flat_map (fun i => [fc i; S (fc i)]) lows = seq cbeg (2 * M).
  Proof.
    unfold fc, M, lows, all. generalize cbeg. intro b. generalize c. intro n.
    induction n as [|n IH]; [reflexivity|].
    rewrite seq_S, filter_app, flat_map_app, IH, cnt_S. simpl.
    destruct (low (begin + n)); simpl.
    - replace (begin + n - begin) with n by lia.
      replace (cnt low begin n + 1 + (cnt low begin n + 1 + 0)) with (2 * cnt low begin n + 2) by lia.
      change (cnt low begin n + (cnt low begin n + 0)) with (2 * cnt low begin n).
      rewrite seq_app. auto.
    - rewrite app_nil_r, Nat.add_0_r. auto.
  Qed.
  Lemma kepts_lows : Permutation (kepts ++ lows) all.
  Proof.
    unfold kepts, lows, kept. generalize all. induction l as [|x l IH]; simpl; auto.
    destruct (low x); simpl; auto.
    eapply Permutation_trans; [symmetry; apply Permutation_middle|]. auto.
  Qed.

  (** ** The merge loop *)
  Variables (input : list aabb) (neighbours : list N) (merged : list nat).
  Hypothesis Li : end_ <= length input.
  Hypothesis Ln : end_ <= length neighbours.
  Hypothesis Lm : end_ <= length merged.
  Hypothesis Hn : forall i, begin <= i < end_ -> nth_error neighbours i = Some (N.of_nat (nb i)).

  Notation nd := (nd input).

  Lemma getN_nb : forall i, begin <= i < end_ -> getN neighbours (N.of_nat i) = Ok (N.of_nat (nb i)).
  Proof.
    intros i Hi. unfold getN. replace (N.of_nat i <? N.of_nat (length neighbours))%N with true by (symmetry; apply N.ltb_lt; lia).
    rewrite Nat2N.id. unfold get. rewrite Hn by auto. auto.
  Qed.

  Lemma flags_ok : exists mg, for_each (range begin end_) (merge_flag neighbours) merged = Ok mg /\
    length mg = length merged /\
    forall i, begin <= i < end_ -> nth_error mg i = Some (if low i then 1 else 0).
  Proof.
    unfold range.
    destruct (for_each_seq _ (fun x mg => length mg = length merged /\
       forall i, begin <= i < x -> nth_error mg i = Some (if low i then 1 else 0)) (merge_flag neighbours) c begin merged)
      as (mg & E & L & H).
    - split; auto. intros; lia.
    - intros i mg Hi (L & H). unfold merge_flag. rewrite getN_nb by lia. cbn [bind].
      rewrite getN_nb by (apply Hnb; lia). cbn [bind]. unfold set.
      replace (i <? length mg) with true by (symmetry; apply Nat.ltb_lt; lia).
      eexists. split; [reflexivity|]. rewrite upd_length. split; auto.
      intros k Hk. destruct (Nat.eq_dec k i) as [->|N].
      + rewrite nth_error_upd_same by lia. unfold low, mutual. f_equal.
        replace (N.of_nat i <? N.of_nat (nb i))%N with (i <? nb i).
        2: { destruct (Nat.ltb_spec i (nb i)), (N.ltb_spec (N.of_nat i) (N.of_nat (nb i))); auto; lia. }
        replace (N.of_nat (nb (nb i)) =? N.of_nat i)%N with (nb (nb i) =? i); auto.
        destruct (Nat.eqb_spec (nb (nb i)) i), (N.eqb_spec (N.of_nat (nb (nb i))) (N.of_nat i)); auto; lia.
      + rewrite nth_error_upd_other by auto. apply H. lia.
    - exists mg. split; auto. split; auto. intros i Hi. apply H. lia.
  Qed.

  Lemma list_sum_low : forall mg, (forall i, begin <= i < end_ -> nth_error mg i = Some (if low i then 1 else 0)) ->
    forall k, k <= c -> list_sum (firstn k (skipn begin mg)) = cnt low begin k.
  Proof.
    intros mg H k; induction k as [|k IH]; intro L; [reflexivity|].
    rewrite (firstn_S_nth _ (skipn begin mg) k (if low (begin + k) then 1 else 0)).
    - rewrite list_sum_snoc, IH by lia. rewrite cnt_S. auto.
    - rewrite nth_error_skipn_add. apply H. lia.
  Qed.

  Lemma prefix_ok : forall mg, length mg = length merged ->
    (forall i, begin <= i < end_ -> nth_error mg i = Some (if low i then 1 else 0)) ->
    exists mg', sub_prefix_sum mg begin end_ = Ok mg' /\ length mg' = length merged /\
      forall i, begin <= i < end_ -> nth_error mg' i = Some (cnt low begin (S (i - begin))).
  Proof.
    intros mg L H. unfold sub_prefix_sum.
    replace (end_ <=? length mg) with true by (symmetry; apply Nat.leb_le; lia).
    set (sub := firstn c (skipn begin mg)).
    assert (length sub = c) as Ls by (unfold sub; rewrite firstn_length, skipn_length; lia).
    unfold prefix_sum. replace (c =? 0) with false by (symmetry; apply Nat.eqb_neq; lia).
    destruct (prefix_loop_spec c 0 sub sub 0) as (out & E & Lo & A & _); try lia; auto.
    rewrite E. cbn [bind]. eexists. split; [reflexivity|].
    assert (length (firstn begin mg) = begin) as Lf by (rewrite firstn_length; lia).
    split.
    - rewrite !app_length, skipn_length. lia.
    - intros i Hi. rewrite nth_error_app2 by lia. rewrite nth_error_app1 by lia.
      rewrite Lf, A by lia. f_equal. unfold sub. rewrite firstn_firstn, Nat.min_l by lia.
      apply list_sum_low; auto. lia.
  Qed.

  (** Now with the finished prefix sums. *)
  Variable mg : list nat.
  Hypothesis Lmg : end_ <= length mg.
  Hypothesis Hmg : forall i, begin <= i < end_ -> nth_error mg i = Some (cnt low begin (S (i - begin))).

  Definition parent_of (k : nat) : aabb :=
    set_left_first (set_count (union_of (nd k) (nd (nb k))) None) (Some (Z.of_nat (fc (nb k)))).
  Definition val (k : nat) : aabb := if up k then parent_of k else nd k.
  Definition writes (i : nat) : list (nat * aabb) :=
    if mutual i then
      if i <? nb i then [(pos (nb i), parent_of (nb i)); (fc i, nd i); (fc i + 1, nd (nb i))] else []
    else [(pos i, nd i)].

  Lemma pos_calc : forall k, begin <= k < end_ -> kept k = true ->
    usub (nbeg + k - begin) (cnt low begin (S (k - begin))) = Ok (pos k).
  Proof.
    intros k Hk K. unfold usub, pos. rewrite cnt_S. replace (begin + (k - begin)) with k by lia.
    unfold kept in K. apply negb_true_iff in K. rewrite K, Nat.add_0_r.
    pose proof (cnt_negb low begin (k - begin)) as E. change (cnt kept begin (k - begin)) with (cnt (fun k => negb (low k)) begin (k - begin)).
    replace (nbeg + k - begin) with (nbeg + (k - begin)) by lia.
    replace (cnt low begin (k - begin) <=? nbeg + (k - begin)) with true by (symmetry; apply Nat.leb_le; lia).
    f_equal. lia.
  Qed.

  Lemma up_range : forall i, begin <= i < end_ -> low i = true -> begin <= nb i < end_ /\ up (nb i) = true /\ kept (nb i) = true.
  Proof.
    intros i Hi H. destruct (Hnb i Hi) as [A _]. destruct (low_up i Hi H) as [B _].
    split; auto. split; auto. apply up_kept; auto.
  Qed.

  Lemma merge_step_ok : forall i out, begin <= i < end_ -> end_ <= length out ->
    merge_step input neighbours mg begin nbeg cbeg i out = Ok (apply_writes (writes i) out).
  Proof.
    intros i out Hi Lo. unfold merge_step. rewrite getN_nb by lia. cbn [bind].
    pose proof (Hnb i Hi) as [Hni Nne].
    rewrite getN_nb by auto. cbn [bind].
    assert ((N.of_nat (nb (nb i)) =? N.of_nat i)%N = mutual i) as E1.
    { unfold mutual. destruct (Nat.eqb_spec (nb (nb i)) i), (N.eqb_spec (N.of_nat (nb (nb i))) (N.of_nat i)); auto; lia. }
    assert ((N.of_nat i <? N.of_nat (nb i))%N = (i <? nb i)) as E2.
    { destruct (Nat.ltb_spec i (nb i)), (N.ltb_spec (N.of_nat i) (N.of_nat (nb i))); auto; lia. }
    rewrite E1, E2. unfold writes. destruct (mutual i) eqn:Em.
    - destruct (i <? nb i) eqn:El; [|reflexivity].
      assert (low i = true) as Lw by (unfold low; rewrite Em, El; auto).
      destruct (up_range i Hi Lw) as (Hj & Uj & Kj). destruct (low_up i Hi Lw) as [_ Ennb].
      rewrite Nat2N.id.
      unfold get at 1 2. rewrite !Hmg by auto. cbn [bind].
      rewrite pos_calc by auto. cbn [bind].
      unfold usub. rewrite cnt_S. replace (begin + (i - begin)) with i by lia. rewrite Lw.
      replace (1 <=? cnt low begin (i - begin) + 1) with true by (symmetry; apply Nat.leb_le; lia). cbn [bind].
      rewrite !(get_nd 1 input end_ (le_n 1) Li) by lia. cbn [bind].
      replace (cbeg + (cnt low begin (i - begin) + 1 - 1) * 2) with (fc i) by (unfold fc; lia).
      pose proof (pos_range _ Hj Kj) as P. pose proof (fc_range i Hi Lw) as F.
      assert (cbeg <= end_) as Cb by (unfold cbeg; lia).
      unfold set_unchecked.
      replace (pos (nb i) <? length out) with true by (symmetry; apply Nat.ltb_lt; lia). cbn [bind].
      rewrite upd_length.
      replace (fc i <? length out) with true by (symmetry; apply Nat.ltb_lt; lia). cbn [bind].
      rewrite !upd_length.
      replace (fc i + 1 <? length out) with true by (symmetry; apply Nat.ltb_lt; lia).
      unfold apply_writes. cbn [fold_left fst snd]. unfold parent_of. rewrite Ennb. reflexivity.
    - assert (low i = false) as Lw by (unfold low; rewrite Em, andb_false_r; auto).
      assert (kept i = true) as K by (unfold kept; rewrite Lw; auto).
      unfold get at 1. rewrite Hmg by auto. cbn [bind]. rewrite pos_calc by auto. cbn [bind].
      rewrite (get_nd 1 input end_ (le_n 1) Li) by lia. cbn [bind]. unfold set_unchecked.
      pose proof (pos_range _ Hi K) as P. assert (cbeg <= end_) as Cb by (unfold cbeg; lia).
      replace (pos i <? length out) with true by (symmetry; apply Nat.ltb_lt; lia). reflexivity.
  Qed.

  Lemma merge_loop : forall l out, (forall i, In i l -> begin <= i < end_) -> end_ <= length out ->
    for_each l (merge_step input neighbours mg begin nbeg cbeg) out = Ok (apply_writes (flat_map writes l) out).
  Proof.
    induction l as [|x l IH]; intros out H Lo; [reflexivity|]. cbn [for_each flat_map].
    rewrite merge_step_ok by (auto; apply H; simpl; auto). cbn [bind].
    rewrite IH; [rewrite apply_writes_app; auto| |rewrite apply_writes_length; auto].
    intros; apply H; simpl; auto.
  Qed.

  (** What is written where. *)
  Lemma in_writes : forall w, In w (flat_map writes all) ->
    (exists k, begin <= k < end_ /\ kept k = true /\ w = (pos k, val k)) \/
    (exists i, begin <= i < end_ /\ low i = true /\ w = (fc i, nd i)) \/
    (exists i, begin <= i < end_ /\ low i = true /\ w = (fc i + 1, nd (nb i))).
  Proof.
    intros w I. apply in_flat_map in I as (i & Ii & I). apply in_all in Ii. unfold writes in I.
    destruct (mutual i) eqn:Em.
    - destruct (i <? nb i) eqn:El; [|destruct I].
      assert (low i = true) as Lw by (unfold low; rewrite Em, El; auto).
      destruct (up_range i Ii Lw) as (Hj & Uj & Kj).
      destruct I as [<-|[<-|[<-|[]]]]; eauto 10.
      left. exists (nb i). unfold val. rewrite Uj. auto.
    - destruct I as [<-|[]]. left. exists i. split; auto. unfold kept, val, up, low. rewrite Em, !andb_false_r. auto.
  Qed.
  Lemma writes_pos : forall k, begin <= k < end_ -> kept k = true -> In (pos k, val k) (flat_map writes all).
  Proof.
    intros k Hk K. apply in_flat_map. unfold val. destruct (up k) eqn:U.
    - destruct (up_low k Hk U) as [L E]. exists (nb k). split; [apply in_all, Hnb; auto|].
      unfold writes. unfold low in L. apply andb_true_iff in L as [L1 L2]. rewrite L1, L2, E. simpl. auto.
    - exists k. split; [apply in_all; auto|]. unfold writes. rewrite mutual_cases, U by auto.
      unfold kept in K. apply negb_true_iff in K. rewrite K. simpl. auto.
  Qed.
  Lemma writes_fc : forall i, begin <= i < end_ -> low i = true ->
    In (fc i, nd i) (flat_map writes all) /\ In (fc i + 1, nd (nb i)) (flat_map writes all).
  Proof.
    intros i Hi L. split; apply in_flat_map; exists i; (split; [apply in_all; auto|]); unfold writes;
      unfold low in L; apply andb_true_iff in L as [L1 L2]; rewrite L1, L2; simpl; auto.
  Qed.
  Lemma writes_functional : forall w w', In w (flat_map writes all) -> In w' (flat_map writes all) ->
    fst w = fst w' -> snd w = snd w'.
  Proof.
    intros w w' I I' E.
    assert (forall i i', begin <= i < end_ -> begin <= i' < end_ -> low i = true -> low i' = true ->
       cnt low begin (i - begin) = cnt low begin (i' - begin) -> i = i') as J
      by (intros i0 i1 Hi0 Hi1 L0 L1 Ec; apply (cnt_inj low begin i0 i1); auto; lia).
    apply in_writes in I. apply in_writes in I'.
    destruct I as [(k & Hk & Kk & ->)|[(i & Hi & Ki & ->)|(i & Hi & Ki & ->)]];
    destruct I' as [(k' & Hk' & Kk' & ->)|[(i' & Hi' & Ki' & ->)|(i' & Hi' & Ki' & ->)]]; simpl in *;
    try (pose proof (pos_range k Hk Kk)); try (pose proof (pos_range k' Hk' Kk'));
    try (pose proof (fc_range i Hi Ki)); try (pose proof (fc_range i' Hi' Ki')); try lia.
    - f_equal. unfold pos in E. apply (cnt_inj kept begin k k'); auto; lia.
    - unfold fc in E. f_equal. apply J; auto; lia.
    - unfold fc in E. lia.
    - unfold fc in E. lia.
    - unfold fc in E. do 2 f_equal. apply J; auto; lia.
  Qed.
  Lemma writes_range : forall w, In w (flat_map writes all) -> nbeg <= fst w < end_.
  Proof.
    intros w I. assert (cbeg <= end_) as Cb by (unfold cbeg; lia).
    assert (nbeg <= cbeg) by (pose proof nbeg_cbeg; lia).
    apply in_writes in I as [(k & Hk & Kk & ->)|[(i & Hi & Ki & ->)|(i & Hi & Ki & ->)]]; simpl.
    - pose proof (pos_range k Hk Kk). lia.
    - pose proof (fc_range i Hi Ki). lia.
    - pose proof (fc_range i Hi Ki). lia.
  Qed.

  Theorem merge_ok : forall out, end_ <= length out ->
    exists out', for_each (range begin end_) (merge_step input neighbours mg begin nbeg cbeg) out = Ok out' /\
      length out' = length out /\
      (forall k, begin <= k < end_ -> kept k = true -> nth_error out' (pos k) = Some (val k)) /\
      (forall i, begin <= i < end_ -> low i = true ->
         nth_error out' (fc i) = Some (nd i) /\ nth_error out' (S (fc i)) = Some (nd (nb i))) /\
      (forall p, end_ <= p -> nth_error out' p = nth_error out p).
  Proof.
    intros out Lo. unfold range. exists (apply_writes (flat_map writes all) out).
    split; [apply merge_loop; auto; intros i I; apply in_all; auto|].
    split; [apply apply_writes_length|].
    assert (forall w, In w (flat_map writes all) -> fst w < length out) as B.
    { intros w I. pose proof (writes_range w I). lia. }
    split; [|split].
    - intros k Hk K. apply apply_writes_in; auto; [apply writes_functional|apply writes_pos; auto].
    - intros i Hi L. destruct (writes_fc i Hi L) as [W1 W2].
      split; apply apply_writes_in; auto; try apply writes_functional. rewrite <- Nat.add_1_r. auto.
    - intros p Hp. apply apply_writes_out. intros w I. pose proof (writes_range w I). lia.
  Qed.
End Merge.
