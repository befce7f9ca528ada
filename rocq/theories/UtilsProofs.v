(** * Proofs about src/utils.rs: prefix sums, partition, move_backward *)
Require Import List ZArith Bool Arith NArith Lia Permutation.
From Verif Require Import Base UtilsModel.
Import ListNotations.

(** ** prefix_sum *)
Lemma firstn_S_nth : forall A (l : list A) k x, nth_error l k = Some x -> firstn (S k) l = firstn k l ++ [x].
Proof.
  induction l as [|a l IH]; intros [|k] x H; simpl in *; try discriminate; auto.
  - congruence.
  - rewrite <- (IH k x H). reflexivity.
Qed.

Lemma list_sum_snoc : forall l x, list_sum (l ++ [x]) = list_sum l + x.
Proof. intros l x. rewrite list_sum_app. simpl. lia. Qed.

Lemma nth_error_Some_ex : forall A (l : list A) k, k < length l -> exists x, nth_error l k = Some x.
Proof. intros A l k H. destruct (nth_error l k) eqn:E; eauto. apply nth_error_None in E. lia. Qed.

Lemma prefix_loop_spec : forall count i first output sum,
  i + count <= length first -> i + count <= length output -> sum = list_sum (firstn i first) ->
  exists out', prefix_loop i count first output sum = Ok (out', list_sum (firstn (i + count) first)) /\
    length out' = length output /\
    (forall j, i <= j < i + count -> nth_error out' j = Some (list_sum (firstn (S j) first))) /\
    (forall j, j < i \/ i + count <= j -> nth_error out' j = nth_error output j).
Proof.
  induction count as [|k IH]; intros i first output sum L1 L2 Es.
  - exists output. rewrite Nat.add_0_r. subst sum. simpl. repeat split; auto; intros; lia.
  - cbn [prefix_loop]. destruct (nth_error_Some_ex _ first i ltac:(lia)) as [v E].
    unfold get. rewrite E. cbn [bind]. rewrite set_Ok by lia. cbn [bind].
    pose proof (firstn_S_nth _ _ _ _ E) as FS.
    destruct (IH (S i) first (upd output i (sum + v)) (sum + v)) as (out' & R & Lo & A & B).
    + lia.
    + rewrite upd_length; lia.
    + rewrite FS, list_sum_snoc. lia.
    + exists out'. rewrite R. replace (i + S k) with (S i + k) by lia. split; auto.
      rewrite upd_length in Lo. split; auto. split.
      * intros j Hj. destruct (Nat.eq_dec j i) as [->|N].
        -- rewrite B by lia. rewrite nth_error_upd_same by lia. rewrite FS, list_sum_snoc. subst; auto.
        -- apply A. lia.
      * intros j Hj. rewrite B by lia. apply nth_error_upd_other. lia.
Qed.

(** ** move_backward *)
Lemma move_backward_spec : forall T (a : list T) first k d fuel,
  first + k <= d -> d <= length a -> k < fuel ->
  exists a', move_backward fuel a first (first + k) d = Ok (a', d - k) /\
    length a' = length a /\
    (forall j, j < k -> nth_error a' (d - k + j) = nth_error a (first + j)) /\
    (forall j, j < d - k \/ d <= j -> nth_error a' j = nth_error a j).
Proof.
  intros T a first k; revert a. induction k as [|k IH]; intros a d fuel L1 L2 F.
  - destruct fuel as [|fuel]; [lia|]. exists a. cbn [move_backward].
    replace (first =? first + 0) with true by (symmetry; apply Nat.eqb_eq; lia).
    replace (d - 0) with d by lia. repeat split; auto. intros; lia.
  - destruct fuel as [|fuel]; [lia|]. cbn [move_backward].
    replace (first =? first + S k) with false by (symmetry; apply Nat.eqb_neq; lia).
    replace (first + S k) with (S (first + k)) by lia.
    destruct d as [|d]; [lia|].
    destruct (nth_error_Some_ex _ a (first + k) ltac:(lia)) as [v E].
    unfold get_unchecked. rewrite E. cbn [bind]. rewrite set_unchecked_Ok by lia. cbn [bind].
    destruct (IH (upd a d v) d fuel) as (a' & R & La & A & B).
    + lia.
    + rewrite upd_length; lia.
    + lia.
    + exists a'. rewrite R. replace (S d - S k) with (d - k) by lia. split; auto.
      rewrite upd_length in La. split; auto. split.
      * intros j Hj. destruct (Nat.eq_dec j k) as [->|N].
        -- rewrite B by lia. replace (d - k + k) with d by lia. rewrite nth_error_upd_same by lia. auto.
        -- rewrite A by lia. apply nth_error_upd_other. lia.
      * intros j Hj. rewrite B by lia. apply nth_error_upd_other. lia.
Qed.

(** ** partition *)
Lemma swap_Ok : forall T (a : list T) i j x y,
  nth_error a i = Some x -> nth_error a j = Some y -> swap a i j = Ok (upd (upd a i y) j x).
Proof. intros T a i j x y E F. unfold swap. rewrite E, F. reflexivity. Qed.

Lemma nth_error_swap : forall T (a : list T) i j x y k,
  nth_error a i = Some x -> nth_error a j = Some y ->
  nth_error (upd (upd a i y) j x) k =
    if k =? j then Some x else if k =? i then Some y else nth_error a k.
Proof.
  intros T a i j x y k E F.
  assert (i < length a) by (apply nth_error_Some; congruence).
  assert (j < length a) by (apply nth_error_Some; congruence).
  destruct (Nat.eqb_spec k j) as [->|N]; [rewrite nth_error_upd_same; auto; rewrite upd_length; auto|].
  rewrite nth_error_upd_other by auto.
  destruct (Nat.eqb_spec k i) as [->|N']; [rewrite nth_error_upd_same; auto|].
  apply nth_error_upd_other; auto.
Qed.

Lemma upd_split : forall T (a : list T) i v, i < length a -> upd a i v = firstn i a ++ v :: skipn (S i) a.
Proof.
  induction a as [|h t IH]; intros [|i] v L; simpl in *; try lia; auto.
  rewrite IH by lia. reflexivity.
Qed.

Lemma perm_upd_swap : forall T (a : list T) i j x y,
  nth_error a i = Some x -> nth_error a j = Some y -> Permutation (upd (upd a i y) j x) a.
Proof.
  intros T a i j x y E F.
  assert (i < length a) as Li by (apply nth_error_Some; congruence).
  assert (j < length a) as Lj by (apply nth_error_Some; congruence).
  symmetry. apply (Permutation_nth_error a (upd (upd a i y) j x)).
  split; [rewrite !upd_length; auto|].
  exists (fun k => if k =? j then i else if k =? i then j else k). split.
  - intros p q. destruct (Nat.eqb_spec p j), (Nat.eqb_spec q j), (Nat.eqb_spec p i), (Nat.eqb_spec q i); intros; subst; auto; congruence.
  - intro k. rewrite (nth_error_swap _ _ _ _ _ _ _ E F).
    destruct (Nat.eqb_spec k j); [congruence|]. destruct (Nat.eqb_spec k i); [congruence|auto].
Qed.

Definition count_if {T} (check : T -> bool) (l : list T) : nat := length (filter check l).

Lemma count_if_snoc : forall T check (l : list T) x,
  count_if check (l ++ [x]) = count_if check l + if check x then 1 else 0.
Proof.
  intros T check l x. unfold count_if. rewrite filter_app, app_length. simpl. destruct (check x); auto.
Qed.
Lemma count_if_le : forall T check (l : list T), count_if check l <= length l.
Proof. intros T check l. unfold count_if. induction l as [|a l IH]; simpl; auto. destruct (check a); simpl; lia. Qed.

(** Loop invariant: the first [count] elements satisfy [check], those between
    [count] and [i] do not, those from [i] on are as in [a0]. *)
Lemma partition_loop_spec : forall T (check : T -> bool) len i a0 a count,
  i + len <= length a0 -> length a = length a0 -> Permutation a a0 ->
  count <= i -> count = count_if check (firstn i a0) ->
  (forall j x, j < count -> nth_error a j = Some x -> check x = true) ->
  (forall j x, count <= j < i -> nth_error a j = Some x -> check x = false) ->
  (forall j, i <= j -> nth_error a j = nth_error a0 j) ->
  exists a', partition_loop check i len a count = Ok (a', count_if check (firstn (i + len) a0)) /\
    length a' = length a0 /\ Permutation a' a0 /\
    (forall j x, j < count_if check (firstn (i + len) a0) -> nth_error a' j = Some x -> check x = true) /\
    (forall j x, count_if check (firstn (i + len) a0) <= j < i + len -> nth_error a' j = Some x -> check x = false) /\
    (forall j, i + len <= j -> nth_error a' j = nth_error a0 j).
Proof.
  intros T check len; induction len as [|k IH]; intros i a0 a count L La P Ci Cc A B D.
  - exists a. rewrite Nat.add_0_r in *. cbn [partition_loop]. rewrite <- Cc. auto 10.
  - cbn [partition_loop]. destruct (nth_error_Some_ex _ a0 i ltac:(lia)) as [v E0].
    assert (nth_error a i = Some v) as E by (rewrite D; auto).
    unfold get. rewrite E. cbn [bind]. pose proof (firstn_S_nth _ _ _ _ E0) as FS.
    replace (i + S k) with (S i + k) by lia.
    destruct (check v) eqn:Cv.
    + destruct (nth_error_Some_ex _ a count ltac:(lia)) as [w Ew].
      rewrite (swap_Ok _ _ _ _ _ _ E Ew). cbn [bind].
      apply IH.
      * lia.
      * rewrite !upd_length; auto.
      * eapply Permutation_trans; [apply perm_upd_swap; eauto|auto].
      * lia.
      * rewrite FS, count_if_snoc, Cv. lia.
      * intros j x Hj Ej. rewrite (nth_error_swap _ _ _ _ _ _ _ E Ew) in Ej.
        destruct (Nat.eqb_spec j count); [congruence|]. destruct (Nat.eqb_spec j i); [lia|]. apply (A j); auto. lia.
      * intros j x Hj Ej. rewrite (nth_error_swap _ _ _ _ _ _ _ E Ew) in Ej.
        destruct (Nat.eqb_spec j count); [lia|]. destruct (Nat.eqb_spec j i).
        -- injection Ej as <-. subst j. apply (B count w); auto. lia.
        -- apply (B j); auto. lia.
      * intros j Hj. rewrite (nth_error_swap _ _ _ _ _ _ _ E Ew).
        destruct (Nat.eqb_spec j count); [lia|]. destruct (Nat.eqb_spec j i); [lia|]. apply D; lia.
    + apply IH; auto; try lia.
      * rewrite FS, count_if_snoc, Cv. lia.
      * intros j x Hj Ej. destruct (Nat.eq_dec j i) as [->|]; [congruence|]. apply (B j); auto; lia.
      * intros j Hj. apply D; lia.
Qed.

Theorem partition_spec : forall T (a : list T) m check, m <= length a ->
  exists a' c, partition a 0 m check = Ok (a', c) /\ c = count_if check (firstn m a) /\ c <= m /\
    Permutation a' a /\ length a' = length a /\
    (forall j x, j < c -> nth_error a' j = Some x -> check x = true) /\
    (forall j x, c <= j < m -> nth_error a' j = Some x -> check x = false) /\
    (forall j, m <= j -> nth_error a' j = nth_error a j).
Proof.
  intros T a m check L. unfold partition. rewrite Nat.sub_0_r.
  destruct (partition_loop_spec T check m 0 a a 0) as (a' & E & La & P & A & B & D); auto.
  - intros; lia.
  - intros; lia.
  - exists a', (count_if check (firstn m a)). simpl in *. rewrite E.
    pose proof (count_if_le T check (firstn m a)) as CL. rewrite firstn_length in CL.
    repeat split; auto. lia.
Qed.
