(** * Proofs about src/morton.rs *)
Require Import List ZArith Bool Arith NArith Lia Permutation Sorted.
From Verif Require Import F32 Vec Base AabbModel UtilsModel.
Import ListNotations.

Lemma shl64_bit : forall x n i, (i < 64)%N ->
  N.testbit (shl64 x n) i = (n <=? i)%N && N.testbit x (i - n).
Proof.
  intros x n i L. unfold shl64, W64. change 18446744073709551616%N with (2 ^ 64)%N.
  rewrite N.mod_pow2_bits_low by auto.
  destruct (N.leb_spec n i) as [H|H]; simpl.
  - apply N.shiftl_spec_high'; auto.
  - apply N.shiftl_spec_low; auto.
Qed.

(** The loop with its five masks computed. *)
Definition stp (x n m : N) : N := N.land (N.lor x (shl64 x n)) m.
Lemma stp_bit : forall x n m i, (i <? 64)%N = true ->
  N.testbit (stp x n m) i = (N.testbit x i || ((n <=? i)%N && N.testbit x (i - n))) && N.testbit m i.
Proof.
  intros x n m i L. apply N.ltb_lt in L. unfold stp. rewrite N.land_spec, N.lor_spec, shl64_bit by auto. reflexivity.
Qed.

Lemma morton_split_unfold : forall x, morton_split x =
  N.modulo (stp (stp (stp (stp (stp x 32 65535) 16 4278190335) 8 1031043870735) 4 13403570319555) 2 40210710958665)
           (2 ^ 32).
Proof. intro x. reflexivity. Qed.

(** Boolean case analysis on the values of bit functions. *)
Ltac fin_bits := intros;
  repeat match goal with h : N -> bool |- context [?g ?a] => constr_eq g h; destruct (g a) end; reflexivity.

(** One step on bit functions; bits from 64 up are never consulted. *)
Definition stpb (f : N -> bool) (n m i : N) : bool :=
  N.testbit m i && (f i || ((n <=? i)%N && f (i - n)%N)).
Lemma stpb_ok : forall x f n m, (forall i, (i < 64)%N -> N.testbit x i = f i) ->
  forall i, (i < 64)%N -> N.testbit (stp x n m) i = stpb f n m i.
Proof.
  intros x f n m H i L. rewrite stp_bit by (apply N.ltb_lt; auto). unfold stpb.
  rewrite !H by lia. apply andb_comm.
Qed.

(** Bit [i] of the split number. *)
Lemma split_bit : forall x k, k < 32 ->
  N.testbit (morton_split x) (N.of_nat k) = (k mod 3 =? 0) && N.testbit x (N.of_nat (k / 3)).
Proof.
  intros x k L. rewrite morton_split_unfold. rewrite N.mod_pow2_bits_low by lia.
  rewrite (stpb_ok _ (stpb (stpb (stpb (stpb (N.testbit x) 32 65535) 16 4278190335) 8 1031043870735) 4 13403570319555)).
  2: repeat (apply stpb_ok); auto.
  2: lia.
  generalize (N.testbit x). intro f.
  do 32 (destruct k as [|k]; [clear L; revert f; vm_compute; fin_bits|]).
  lia.
Qed.

Lemma split_high : forall x i, (32 <= i)%N -> N.testbit (morton_split x) i = false.
Proof. intros x i L. rewrite morton_split_unfold. apply N.mod_pow2_bits_high; auto. Qed.

Lemma shl32_bit : forall x n k, k < 32 ->
  N.testbit ((N.shiftl x (N.of_nat n)) mod 4294967296) (N.of_nat k) = (n <=? k) && N.testbit x (N.of_nat (k - n)).
Proof.
  intros x n k L. change 4294967296%N with (2 ^ 32)%N. rewrite N.mod_pow2_bits_low by lia.
  destruct (Nat.leb_spec n k) as [H|H]; simpl.
  - rewrite N.shiftl_spec_high' by lia. f_equal. lia.
  - apply N.shiftl_spec_low. lia.
Qed.

(** Bit [3k + a] of a Morton code is bit [k] of coordinate [a]. *)
Lemma encode_bit : forall x y z k, k < 32 ->
  N.testbit (morton_encode x y z) (N.of_nat k) =
  N.testbit (match (k mod 3)%nat with 0%nat => x | 1%nat => y | _ => z end) (N.of_nat (k / 3)).
Proof.
  intros x y z k L. unfold morton_encode. rewrite !N.lor_spec.
  rewrite (shl32_bit _ 1), (shl32_bit _ 2) by auto. rewrite !split_bit by lia.
  replace (N.testbit (match (k mod 3)%nat with 0%nat => x | 1%nat => y | _ => z end) (N.of_nat (k / 3)))
    with (match (k mod 3)%nat with 0%nat => N.testbit x (N.of_nat (k / 3)) | 1%nat => N.testbit y (N.of_nat (k / 3))
          | _ => N.testbit z (N.of_nat (k / 3)) end) by (destruct (k mod 3) as [|[|r]]; reflexivity).
  do 32 (destruct k as [|k]; [
    generalize (N.testbit x), (N.testbit y), (N.testbit z); vm_compute; fin_bits|]).
  lia.
Qed.

Lemma encode_high : forall x y z i, (32 <= i)%N -> N.testbit (morton_encode x y z) i = false.
Proof.
  intros x y z i L. unfold morton_encode. rewrite !N.lor_spec, split_high by auto.
  change 4294967296%N with (2 ^ 32)%N. rewrite !N.mod_pow2_bits_high by auto. reflexivity.
Qed.

(** Comparison by the highest differing bit. *)
Lemma lt_by_bit : forall a b k, N.testbit a k = false -> N.testbit b k = true ->
  (forall j, (k < j)%N -> N.testbit a j = N.testbit b j) -> (a < b)%N.
Proof.
  intros a b k A B H.
  assert (N.shiftr a (k + 1) = N.shiftr b (k + 1)) as E.
  { apply N.bits_inj. intro j. rewrite !N.shiftr_spec by lia. apply H. lia. }
  rewrite !N.shiftr_div_pow2 in E.
  assert (2 ^ (k + 1) = 2 * 2 ^ k)%N as P by (rewrite N.pow_add_r; change (2 ^ 1)%N with 2%N; lia).
  assert (0 < 2 ^ k)%N as Q by (apply N.neq_0_lt_0; apply N.pow_nonzero; lia).
  assert (a mod 2 ^ (k + 1) < 2 ^ k)%N as Ra.
  { apply N.nle_gt. intro X.
    assert (N.testbit (a mod 2 ^ (k + 1)) k = true) as T.
    { rewrite N.testbit_true. replace (a mod 2 ^ (k + 1) / 2 ^ k)%N with 1%N; [reflexivity|].
      pose proof (N.mod_lt a (2 ^ (k + 1)) ltac:(lia)).
      apply (N.div_unique _ _ _ (a mod 2 ^ (k + 1) - 2 ^ k)); lia. }
    rewrite N.mod_pow2_bits_low in T by lia. congruence. }
  assert (2 ^ k <= b mod 2 ^ (k + 1))%N as Rb.
  { apply N.le_ngt. intro X.
    assert (N.testbit (b mod 2 ^ (k + 1)) k = false) as T.
    { rewrite N.testbit_false. rewrite N.div_small by auto. reflexivity. }
    rewrite N.mod_pow2_bits_low in T by lia. congruence. }
  pose proof (N.div_mod a (2 ^ (k + 1)) ltac:(lia)) as Da.
  pose proof (N.div_mod b (2 ^ (k + 1)) ltac:(lia)) as Db. rewrite <- E in Db. nia.
Qed.

Lemma bit_of_lt : forall a b, (a < b)%N -> exists k, N.testbit a k = false /\ N.testbit b k = true /\
  (forall j, (k < j)%N -> N.testbit a j = N.testbit b j).
Proof.
  intros a b L. set (c := N.lxor a b).
  assert (c <> 0)%N as Nz by (unfold c; rewrite N.lxor_eq_0_iff; lia).
  exists (N.log2 c).
  assert (N.testbit c (N.log2 c) = true) as T by (apply N.bit_log2; auto).
  assert (forall j, (N.log2 c < j)%N -> N.testbit a j = N.testbit b j) as H.
  { intros j Hj. pose proof (N.bits_above_log2 c j Hj) as Z. unfold c in Z. rewrite N.lxor_spec in Z.
    destruct (N.testbit a j), (N.testbit b j); auto; discriminate. }
  unfold c in T. rewrite N.lxor_spec in T. fold c in T.
  destruct (N.testbit a (N.log2 c)) eqn:A, (N.testbit b (N.log2 c)) eqn:B; try discriminate; auto.
  exfalso. assert (b < a)%N; [|lia]. eapply lt_by_bit; eauto. intros j Hj. symmetry; auto.
Qed.

Lemma small_bit : forall x k n, (x < 2 ^ n)%N -> N.testbit x k = true -> (k < n)%N.
Proof.
  intros x k n L T. apply N.nle_gt. intro H.
  rewrite <- (N.mod_small x (2 ^ n)) in T by auto. rewrite N.mod_pow2_bits_high in T by auto. discriminate.
Qed.

(** Injective on 10-bit coordinates. *)
Lemma encode_inj : forall x y z x' y' z',
  (x < 1024)%N -> (y < 1024)%N -> (z < 1024)%N -> (x' < 1024)%N -> (y' < 1024)%N -> (z' < 1024)%N ->
  morton_encode x y z = morton_encode x' y' z' -> x = x' /\ y = y' /\ z = z'.
Proof.
  intros x y z x' y' z' Hx Hy Hz Hx' Hy' Hz' E.
  assert (forall k, k < 30 -> N.testbit (morton_encode x y z) (N.of_nat k) = N.testbit (morton_encode x' y' z') (N.of_nat k)) as G
    by (intros; rewrite E; auto).
  assert (forall a b : N, (a < 1024)%N -> (b < 1024)%N -> (forall k, k < 10 -> N.testbit a (N.of_nat k) = N.testbit b (N.of_nat k)) -> a = b) as I.
  { intros a b La Lb H. apply N.bits_inj. intro j.
    destruct (N.lt_ge_cases j 10) as [Lj|Lj].
    - rewrite <- (N2Nat.id j). apply H. lia.
    - destruct (N.testbit a j) eqn:A; [apply (small_bit a j 10) in A; auto; lia|].
      destruct (N.testbit b j) eqn:B; [apply (small_bit b j 10) in B; auto; lia|]. auto. }
  assert (forall a k, a < 3 -> (k * 3 + a) mod 3 = a /\ (k * 3 + a) / 3 = k) as M.
  { intros a k La. split.
    - rewrite Nat.add_comm, Nat.mod_add by lia. apply Nat.mod_small; auto.
    - rewrite Nat.add_comm, Nat.div_add by lia. rewrite Nat.div_small; auto. }
  split; [|split]; apply I; auto; intros k Lk.
  - pose proof (G (k * 3 + 0) ltac:(lia)) as X. rewrite !encode_bit in X by lia.
    destruct (M 0 k ltac:(lia)) as [M1 M2]. rewrite M1, M2 in X. exact X.
  - pose proof (G (k * 3 + 1) ltac:(lia)) as X. rewrite !encode_bit in X by lia.
    destruct (M 1 k ltac:(lia)) as [M1 M2]. rewrite M1, M2 in X. exact X.
  - pose proof (G (k * 3 + 2) ltac:(lia)) as X. rewrite !encode_bit in X by lia.
    destruct (M 2 k ltac:(lia)) as [M1 M2]. rewrite M1, M2 in X. exact X.
Qed.

(** Strictly monotone in each coordinate. *)
Definition upd3 (a : nat) (x y z v : N) : N * N * N :=
  match a with 0 => (v, y, z) | 1 => (x, v, z) | _ => (x, y, v) end.
Definition enc3 (p : N * N * N) : N := morton_encode (fst (fst p)) (snd (fst p)) (snd p).

Lemma enc3_mono : forall a x y z v w, a < 3 -> (v < 1024)%N -> (w < 1024)%N -> (v < w)%N ->
  (enc3 (upd3 a x y z v) < enc3 (upd3 a x y z w))%N.
Proof.
  intros a x y z v w La Lv Lw L.
  destruct (bit_of_lt v w L) as (k & K0 & K1 & Kh).
  assert (k < 10)%N as Lk by (apply (small_bit w k 10); auto).
  set (kk := N.to_nat k). assert (k = N.of_nat kk) as Ek by (unfold kk; lia). 
  assert ((kk * 3 + a) mod 3 = a /\ (kk * 3 + a) / 3 = kk) as [M1 M2].
  { split.
    - rewrite Nat.add_comm, Nat.mod_add by lia. apply Nat.mod_small; auto.
    - rewrite Nat.add_comm, Nat.div_add by lia. rewrite Nat.div_small; auto. }
  apply (lt_by_bit _ _ (N.of_nat (kk * 3 + a))).
  - unfold enc3. rewrite encode_bit by lia. rewrite M1, M2, <- Ek.
    destruct a as [|[|[|a]]]; try lia; exact K0.
  - unfold enc3. rewrite encode_bit by lia. rewrite M1, M2, <- Ek.
    destruct a as [|[|[|a]]]; try lia; exact K1.
  - intros j Lj. destruct (N.lt_ge_cases j 32) as [L32|L32].
    2: { unfold enc3. rewrite !encode_high by auto. auto. }
    rewrite <- (N2Nat.id j). set (jj := N.to_nat j) in *.
    assert (kk * 3 + a < jj) as Ljj by (unfold jj; lia).
    unfold enc3. rewrite !encode_bit by (unfold jj; lia).
    pose proof (Nat.div_mod jj 3 ltac:(lia)) as Dj. pose proof (Nat.mod_upper_bound jj 3 ltac:(lia)) as Mj.
    destruct (Nat.eq_dec (jj mod 3) a) as [Ea|Na].
    + rewrite Ea. assert (kk < jj / 3) as Lq by lia.
      assert (N.testbit v (N.of_nat (jj / 3)) = N.testbit w (N.of_nat (jj / 3))) as T by (apply Kh; lia).
      destruct a as [|[|[|a]]]; try lia; exact T.
    + destruct a as [|[|[|a]]]; try lia; destruct (jj mod 3) as [|[|[|r]]] eqn:Er; try lia; reflexivity.
Qed.

(** ** The sort *)
Section Sort.
  Variable key : nat -> N.
  (** by key, then by index *)
  Definition before (a b : nat) : Prop := (key a < key b)%N \/ (key a = key b /\ a < b).

  Lemma insert_perm : forall x l, Permutation (insert_by key x l) (x :: l).
  Proof.
    intros x l; induction l as [|y t IH]; simpl; auto.
    destruct (N.ltb (key x) (key y)); auto.
    eapply Permutation_trans; [apply perm_skip, IH|apply perm_swap].
  Qed.

  Lemma insert_sorted : forall x l, StronglySorted before l -> (forall y, In y l -> y < x) ->
    StronglySorted before (insert_by key x l).
  Proof.
    intros x l S; induction S as [|y t S IH F]; intro Hx; simpl.
    - constructor; constructor.
    - destruct (N.ltb_spec (key x) (key y)) as [L|L].
      + constructor; [constructor; auto|]. constructor; [left; auto|].
        eapply Forall_impl; [|apply F]. intros z [B|[B _]]; left; lia.
      + constructor; [apply IH; intros; apply Hx; simpl; auto|].
        apply Forall_forall. intros z Iz. apply (Permutation_in _ (insert_perm x t)) in Iz.
        destruct Iz as [<-|Iz].
        * destruct (N.eq_dec (key y) (key x)) as [E|N]; [right|left; lia]. split; auto. apply Hx; simpl; auto.
        * rewrite Forall_forall in F. auto.
  Qed.

  Lemma sort_seq : forall n, 
    Permutation (stable_sort_by key (seq 0 n)) (seq 0 n) /\ StronglySorted before (stable_sort_by key (seq 0 n)).
  Proof.
    induction n as [|n [P S]]; [split; constructor|].
    unfold stable_sort_by in *. rewrite seq_S, fold_left_app. simpl.
    split.
    - eapply Permutation_trans; [apply insert_perm|]. 
      eapply Permutation_trans; [apply perm_skip, P|]. apply Permutation_cons_append.
    - apply insert_sorted; auto. intros y Iy. apply (Permutation_in _ P) in Iy. apply in_seq in Iy. lia.
  Qed.
End Sort.
