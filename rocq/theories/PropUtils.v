(** * Properties C33-C36: prefix sums, partitioning, Morton codes and Morton sort *)
Require Import List ZArith Bool Arith NArith Lia Permutation Sorted.
From Verif Require Import F32 Vec Base AabbModel UtilsModel UtilsProofs MortonProofs.
Import ListNotations.

(** ** C33 *)

(** For at least one value: position [i] receives the sum of values [0..i],
    the total is returned and nothing else is written. *)
Theorem C33_running_sums : forall first output k,
  1 <= k -> k <= length first -> k <= length output ->
  exists out, prefix_sum first k output = Ok (out, list_sum (firstn k first)) /\
    length out = length output /\
    (forall i, i < k -> nth_error out i = Some (list_sum (firstn (S i) first))) /\
    (forall i, k <= i -> nth_error out i = nth_error output i).
Proof.
  intros first output k K L1 L2. unfold prefix_sum.
  destruct (Nat.eqb_spec k 0) as [->|_]; [lia|].
  destruct (prefix_loop_spec k 0 first output 0 L1 L2 eq_refl) as (out & E & L & A & B).
  exists out. repeat split; auto.
  intros i Hi. apply A. lia.
Qed.

(** In-place use, as in the clustering builder. *)
Theorem C33_in_place : forall a k, 1 <= k -> k <= length a ->
  exists out, prefix_sum a k a = Ok (out, list_sum (firstn k a)) /\
    (forall i, i < k -> nth_error out i = Some (list_sum (firstn (S i) a))).
Proof. intros a k K L. destruct (C33_running_sums a a k K L L) as (out & E & _ & A & _). eauto. Qed.

Example C33_example : prefix_sum [3; 1; 4; 1; 5] 4 [0; 0; 0; 0; 7] = Ok ([3; 4; 8; 9; 7], 9).
Proof. reflexivity. Qed.

(** For a count of zero the total should be 0 but is the first element, or a
    panic when there is none. *)
Theorem C33_zero_refuted :
  prefix_sum [5; 1] 0 [0; 0] = Ok ([0; 0], 5) /\ list_sum (firstn 0 [5; 1]) = 0 /\ prefix_sum [] 0 [] = Panic.
Proof. repeat split. Qed.

(** ** C34 *)

(** The number of elements of [a] at positions [0 .. m) that satisfy [check]. *)
Theorem C34_partition : forall T (a : list T) m check, m <= length a ->
  exists a' c, partition a 0 m check = Ok (a', c) /\
    c = length (filter check (firstn m a)) /\ c <= m /\
    Permutation a' a /\ length a' = length a /\
    (forall j x, j < c -> nth_error a' j = Some x -> check x = true) /\
    (forall j x, c <= j < m -> nth_error a' j = Some x -> check x = false) /\
    (forall j, m <= j -> nth_error a' j = nth_error a j).
Proof. exact partition_spec. Qed.

Example C34_partition_example : partition [5; 2; 7; 4; 9] 0 4 (fun x => x <? 5) = Ok ([2; 4; 7; 5; 9], 2).
Proof. reflexivity. Qed.

(** With a range that does not start at 0 the elements found are swapped to the
    front of the whole slice: elements outside the range move. *)
Theorem C34_partition_offset_refuted :
  exists (a : list nat) check a' c, partition a 1 3 check = Ok (a', c) /\ c = 1 /\
    nth_error a' 0 <> nth_error a 0.
Proof. exists [9; 8; 1; 7], (fun x => x <? 5), [1; 8; 9; 7], 1. repeat split. discriminate. Qed.

(** [move_backward first last d_last] with a destination at or after the source
    copies the range so that it ends at [d_last], returns its new start, and
    touches nothing else (overlap allowed). *)
Theorem C34_move_backward : forall T (a : list T) first k d fuel,
  first + k <= d -> d <= length a -> k < fuel ->
  exists a', move_backward fuel a first (first + k) d = Ok (a', d - k) /\
    length a' = length a /\
    (forall j, j < k -> nth_error a' (d - k + j) = nth_error a (first + j)) /\
    (forall j, j < d - k \/ d <= j -> nth_error a' j = nth_error a j).
Proof. exact move_backward_spec. Qed.

Example C34_move_example : move_backward 9 [1; 2; 3; 4; 5; 6] 1 4 5 = Ok ([1; 2; 2; 3; 4; 6], 2).
Proof. reflexivity. Qed.

(** [shuffle_prims] picks the listed elements in order. *)
Theorem C34_shuffle : forall T (prims : list T) indices,
  (forall i, In i indices -> i < length prims) ->
  exists r, shuffle_prims prims indices = Ok r /\ length r = length indices /\
    forall k i, nth_error indices k = Some i -> nth_error r k = nth_error prims i.
Proof.
  intros T prims indices; induction indices as [|i is IH]; intro H; simpl.
  - exists []. repeat split; auto. intros [|k]; discriminate.
  - destruct (nth_error_Some_ex _ prims i (H i (or_introl eq_refl))) as [v E].
    destruct IH as (r & Er & Lr & Hr); [intros; apply H; simpl; auto|].
    exists (v :: r). unfold get. rewrite E. cbn. rewrite Er. cbn. repeat split; auto.
    intros [|k] j Hj; simpl in *; auto. injection Hj as ->. auto.
Qed.

(** ** C35 *)

(** Bit [3k+a] of the code of [(x,y,z)] is bit [k] of coordinate number [a];
    the code is a 32-bit number. *)
Theorem C35_interleaved : forall x y z k, k < 10 ->
  N.testbit (morton_encode x y z) (N.of_nat (3 * k)) = N.testbit x (N.of_nat k) /\
  N.testbit (morton_encode x y z) (N.of_nat (3 * k + 1)) = N.testbit y (N.of_nat k) /\
  N.testbit (morton_encode x y z) (N.of_nat (3 * k + 2)) = N.testbit z (N.of_nat k).
Proof.
  intros x y z k L.
  assert (forall a, a < 3 -> (3 * k + a) mod 3 = a /\ (3 * k + a) / 3 = k) as M.
  { intros a La. replace (3 * k + a) with (a + k * 3) by lia. split.
    - rewrite Nat.mod_add by lia. apply Nat.mod_small; auto.
    - rewrite Nat.div_add by lia. rewrite Nat.div_small; auto. }
  pose proof (M 0 ltac:(lia)) as [A0 B0]. rewrite Nat.add_0_r in A0, B0.
  pose proof (M 1 ltac:(lia)) as [A1 B1]. pose proof (M 2 ltac:(lia)) as [A2 B2].
  rewrite !encode_bit by lia. rewrite A0, B0, A1, B1, A2, B2. auto.
Qed.

Theorem C35_injective : forall x y z x' y' z',
  (x < 1024)%N -> (y < 1024)%N -> (z < 1024)%N -> (x' < 1024)%N -> (y' < 1024)%N -> (z' < 1024)%N ->
  morton_encode x y z = morton_encode x' y' z' -> x = x' /\ y = y' /\ z = z'.
Proof. exact encode_inj. Qed.

(** Strictly increasing in each coordinate. *)
Theorem C35_monotone : forall x y z v, (x < 1024)%N -> (y < 1024)%N -> (z < 1024)%N -> (v < 1024)%N ->
  ((x < v)%N -> (morton_encode x y z < morton_encode v y z)%N) /\
  ((y < v)%N -> (morton_encode x y z < morton_encode x v z)%N) /\
  ((z < v)%N -> (morton_encode x y z < morton_encode x y v)%N).
Proof.
  intros x y z v Hx Hy Hz Hv. repeat split; intro L.
  - exact (enc3_mono 0 x y z x v ltac:(lia) Hx Hv L).
  - exact (enc3_mono 1 x y z y v ltac:(lia) Hy Hv L).
  - exact (enc3_mono 2 x y z z v ltac:(lia) Hz Hv L).
Qed.

Example C35_example : morton_encode 1023 0 1 = 153391693%N /\ morton_encode 5 9 1 = 1095%N.
Proof. split; vm_compute; reflexivity. Qed.

(** The limit is real: the split keeps 11 bits. *)
Example C35_limit : morton_split 2048 = 0%N.
Proof. vm_compute; reflexivity. Qed.

(** ** C36 *)

(** The grid cell of a coordinate is always in the grid, even for NaN. *)
Lemma grid_in_range : forall e g, (1 <= grid_dim e)%Z -> (Z.of_N (grid_coord e g) < grid_dim e)%Z.
Proof. intros e g H. unfold grid_coord. rewrite Z2N.id by lia. lia. Qed.

Theorem C36_codes_in_grid : forall b dim p, (1 <= dim <= 1024)%Z ->
  exists x y z, encode (encoder_new b dim) p = morton_encode x y z /\
    (x < 1024)%N /\ (y < 1024)%N /\ (z < 1024)%N /\ (encode (encoder_new b dim) p < 2 ^ 30)%N.
Proof.
  intros b dim p D. unfold encode. cbv zeta.
  set (e := encoder_new b dim). assert (grid_dim e = dim) as Ed by reflexivity.
  set (g := vadd _ _).
  pose proof (grid_in_range e (vx g) ltac:(lia)). pose proof (grid_in_range e (vy g) ltac:(lia)).
  pose proof (grid_in_range e (vz g) ltac:(lia)).
  exists (grid_coord e (vx g)), (grid_coord e (vy g)), (grid_coord e (vz g)).
  split; auto. split; [lia|]. split; [lia|]. split; [lia|].
  set (m := morton_encode _ _ _).
  destruct (N.eq_dec m 0) as [->|Nz]; [reflexivity|].
  apply N.log2_lt_pow2; [lia|].
  apply N.nle_gt. intro Q. pose proof (N.bit_log2 m Nz) as T.
  destruct (N.lt_ge_cases (N.log2 m) 32) as [L|L]; [|unfold m in T at 1; rewrite encode_high in T by auto; discriminate].
  unfold m in T at 1. rewrite <- (N2Nat.id (N.log2 m)) in T. rewrite encode_bit in T by lia.
  assert (10 <= N.to_nat (N.log2 m) / 3) as G by (apply Nat.div_le_lower_bound; lia).
  destruct (N.to_nat (N.log2 m) mod 3) as [|[|]]; apply (small_bit _ _ 10) in T; try lia;
    change (2 ^ 10)%N with 1024%N; lia.
Qed.

(** Sorted means: an index precedes another iff its code is smaller, or the
    codes are equal and the index is smaller (stability). *)
Theorem C36_sorted_permutation : forall e centers,
  let (idx, codes) := get_sorted_indices e centers in
  codes = map (encode e) centers /\
  Permutation idx (seq 0 (length centers)) /\
  (forall i j a b, i < j -> nth_error idx i = Some a -> nth_error idx j = Some b ->
     exists ca cb, nth_error codes a = Some ca /\ nth_error codes b = Some cb /\
       ((ca < cb)%N \/ (ca = cb /\ a < b))).
Proof.
  intros e centers. unfold get_sorted_indices. cbv zeta.
  set (codes := map (encode e) centers).
  destruct (sort_seq (fun i => nth i codes 0%N) (length centers)) as [P S].
  split; auto. split; auto.
  intros i j a b L Ea Eb.
  assert (forall x, In x (stable_sort_by (fun i => nth i codes 0%N) (seq 0 (length centers))) -> 
            nth_error codes x = Some (nth x codes 0%N)) as V.
  { intros x I. apply nth_error_nth'. unfold codes. rewrite map_length.
    apply (Permutation_in _ P) in I. apply in_seq in I. lia. }
  exists (nth a codes 0%N), (nth b codes 0%N).
  split; [apply V; eapply nth_error_In; eauto|]. split; [apply V; eapply nth_error_In; eauto|].
  clear V P. revert i j L Ea Eb. induction S as [|x l S IH F]; intros i j L Ea Eb; [destruct i; discriminate|].
  destruct j as [|j]; [lia|]. destruct i as [|i]; simpl in *.
  - injection Ea as ->. apply nth_error_In in Eb. rewrite Forall_forall in F. exact (F b Eb).
  - apply (IH i j); auto. lia.
Qed.

(** Four points, two of them in one cell, one with a NaN coordinate. *)
Example C36_example :
  fst (get_sorted_indices (encoder_new (Bb (V3 f0 f0 f0) 0 (V3 f2 f2 f2) 0) 1024)
        [V3 f1 f1 f1; V3 f0 f0 f0; V3 f1 f1 f1; V3 fnan_v f0 f0]) = [1; 3; 0; 2].
Proof. vm_compute. reflexivity. Qed.

(** [round_up_log2] (public in utils.rs) is the least exponent, at least the
    given offset, whose power of two is not below [bits]. *)
Lemma log2_loop_spec : forall fuel bits offset, (bits <= 2 ^ (offset + N.of_nat fuel))%N ->
  let r := log2_loop fuel bits offset in
  (offset <= r)%N /\ (bits <= 2 ^ r)%N /\ (forall k, (offset <= k)%N -> (bits <= 2 ^ k)%N -> (r <= k)%N).
Proof.
  induction fuel as [|fuel IH]; intros bits offset B; cbn [log2_loop].
  - cbv zeta. replace (offset + N.of_nat 0)%N with offset in B by lia. split; [lia|]. split; [exact B|]. intros; lia.
  - rewrite N.shiftl_1_l. destruct (N.ltb_spec (2 ^ offset) bits) as [L|L].
    + specialize (IH bits (offset + 1)%N). destruct IH as (A & C & D).
      { replace (offset + 1 + N.of_nat fuel)%N with (offset + N.of_nat (S fuel))%N by lia. exact B. }
      cbv zeta. split; [lia|]. split; [exact C|]. intros k Lk Bk. apply D; auto.
      destruct (N.eq_dec k offset) as [->|]; [exfalso|]; lia.
    + cbv zeta. split; [lia|]. split; [exact L|]. intros; lia.
Qed.
Theorem C35_round_up_log2 : forall bits, (0 < bits <= 2 ^ 31)%N ->
  (bits <= 2 ^ round_up_log2 bits 0)%N /\ (forall k, (bits <= 2 ^ k)%N -> (round_up_log2 bits 0 <= k)%N).
Proof.
  intros bits [P B]. unfold round_up_log2. rewrite (proj2 (N.eqb_neq bits 0)) by lia.
  destruct (log2_loop_spec 32 bits 0) as (_ & C & D).
  - eapply N.le_trans; [exact B|]. apply N.pow_le_mono_r; lia.
  - split; auto. intros k Bk. apply D; auto. lia.
Qed.
