(** * Outcomes and array primitives

    Slices and [Vec]s of the Rust code are lists; out-of-range accesses are
    explicit outcomes.  Nothing here models a particular function of /repo:
    these are the Rust core/std primitives that all modules use. *)
Require Import List Arith Lia ZArith Bool.
Import ListNotations.
Set Implicit Arguments.

(** Outcome of a piece of Rust code: a value, a panic (failed bounds check,
    [unwrap] on [None], ...), undefined behaviour (an out-of-range
    [get_unchecked] or raw pointer access), or "the model ran out of fuel",
    which every theorem excludes explicitly. *)
Inductive res (A : Type) : Type :=
| Ok (a : A)
| Panic
| UB
| OutOfFuel.
Arguments Ok {A} a.
Arguments Panic {A}.
Arguments UB {A}.
Arguments OutOfFuel {A}.

Definition bind {A B} (r : res A) (f : A -> res B) : res B :=
  match r with
  | Ok a => f a
  | Panic => Panic
  | UB => UB
  | OutOfFuel => OutOfFuel
  end.

Notation "'do' x <- r ; k" := (bind r (fun x => k))
  (at level 200, x pattern, r at level 100, k at level 200, right associativity).

(** [slice[i]]: checked read. *)
Definition get {A} (l : list A) (i : nat) : res A :=
  match nth_error l i with Some a => Ok a | None => Panic end.

(** [slice.get_unchecked(i)]: undefined behaviour when out of range. *)
Definition get_unchecked {A} (l : list A) (i : nat) : res A :=
  match nth_error l i with Some a => Ok a | None => UB end.

(** Functional array update; the list is unchanged when [i] is out of range. *)
Fixpoint upd {A} (l : list A) (i : nat) (v : A) : list A :=
  match l, i with
  | [], _ => []
  | _ :: t, O => v :: t
  | h :: t, S j => h :: upd t j v
  end.

(** [slice[i] = v]: checked write. *)
Definition set {A} (l : list A) (i : nat) (v : A) : res (list A) :=
  if i <? length l then Ok (upd l i v) else Panic.

(** [*slice.get_unchecked_mut(i) = v]. *)
Definition set_unchecked {A} (l : list A) (i : nat) (v : A) : res (list A) :=
  if i <? length l then Ok (upd l i v) else UB.

(** [slice.swap(i, j)]. *)
Definition swap {A} (l : list A) (i j : nat) : res (list A) :=
  match nth_error l i, nth_error l j with
  | Some a, Some b => Ok (upd (upd l i b) j a)
  | _, _ => Panic
  end.

(** ** Integer casts *)

(** [x as i32] for an unsigned [x] (wrap-around). *)
Definition as_i32 (z : Z) : Z :=
  let m := (z mod 4294967296)%Z in
  if (m <? 2147483648)%Z then m else (m - 4294967296)%Z.

(** [x as u32] for an integer [x] (wrap-around). *)
Definition as_u32 (z : Z) : Z := (z mod 4294967296)%Z.

(** [x as usize] for a signed [x] on a 64-bit target (wrap-around); the
    result is used as an index only, so a negative [x] yields an index that
    is out of range of every slice. *)
Definition as_usize (z : Z) : nat := Z.to_nat (z mod 18446744073709551616).

(** ** Facts *)

Lemma upd_length : forall A (l : list A) i v, length (upd l i v) = length l.
Proof. induction l as [|h t IH]; intros [|i] v; simpl; auto. Qed.

Lemma nth_error_upd_same : forall A (l : list A) i v,
  i < length l -> nth_error (upd l i v) i = Some v.
Proof.
  induction l as [|h t IH]; intros [|i] v H; simpl in *; try lia; auto.
  apply IH; lia.
Qed.

Lemma nth_error_upd_other : forall A (l : list A) i j v,
  i <> j -> nth_error (upd l i v) j = nth_error l j.
Proof.
  induction l as [|h t IH]; intros [|i] [|j] v H; simpl; auto; try lia.
Qed.

Lemma nth_upd_same : forall A (l : list A) i v d, i < length l -> nth i (upd l i v) d = v.
Proof.
  induction l as [|h t IH]; intros [|i] v d H; simpl in *; try lia; auto.
  apply IH; lia.
Qed.

Lemma nth_upd_other : forall A (l : list A) i j v d,
  i <> j -> nth j (upd l i v) d = nth j l d.
Proof.
  induction l as [|h t IH]; intros [|i] [|j] v d H; simpl; auto; try lia.
Qed.

Lemma get_Ok : forall A (l : list A) i a, get l i = Ok a <-> nth_error l i = Some a.
Proof. unfold get; intros A l i a; destruct (nth_error l i); split; congruence. Qed.

Lemma get_unchecked_Ok : forall A (l : list A) i a,
  get_unchecked l i = Ok a <-> nth_error l i = Some a.
Proof. unfold get_unchecked; intros A l i a; destruct (nth_error l i); split; congruence. Qed.

Lemma set_Ok : forall A (l : list A) i v,
  i < length l -> set l i v = Ok (upd l i v).
Proof. unfold set; intros A l i v H; destruct (Nat.ltb_spec i (length l)); auto; lia. Qed.

Lemma set_inv : forall A (l l' : list A) i v,
  set l i v = Ok l' -> i < length l /\ l' = upd l i v.
Proof.
  unfold set; intros A l l' i v; destruct (Nat.ltb_spec i (length l)); [|discriminate].
  intro E; injection E as E; auto.
Qed.

Lemma set_unchecked_Ok : forall A (l : list A) i v,
  i < length l -> set_unchecked l i v = Ok (upd l i v).
Proof. unfold set_unchecked; intros A l i v H; destruct (Nat.ltb_spec i (length l)); auto; lia. Qed.

Lemma upd_app_l : forall A (l m : list A) i v, i < length l -> upd (l ++ m) i v = upd l i v ++ m.
Proof.
  induction l as [|h t IH]; intros m [|i] v H; simpl in *; try lia; auto.
  rewrite IH by lia; auto.
Qed.

Lemma upd_app_r : forall A (l m : list A) i v, length l <= i -> upd (l ++ m) i v = l ++ upd m (i - length l) v.
Proof.
  induction l as [|h t IH]; intros m i v H; simpl in *.
  - rewrite Nat.sub_0_r; auto.
  - destruct i as [|i]; [lia|]. simpl. rewrite IH by lia; auto.
Qed.

Lemma nth_error_ext : forall A (l m : list A),
  (forall i, nth_error l i = nth_error m i) -> l = m.
Proof.
  induction l as [|h t IH]; intros [|h' t'] H; auto.
  - specialize (H 0); discriminate.
  - specialize (H 0); discriminate.
  - f_equal.
    + specialize (H 0); simpl in H; congruence.
    + apply IH; intro i; apply (H (S i)).
Qed.

Lemma upd_self : forall A (l : list A) i v, nth_error l i = Some v -> upd l i v = l.
Proof.
  induction l as [|h t IH]; intros [|i] v H; simpl in *; try discriminate.
  - congruence.
  - rewrite IH; auto.
Qed.

Lemma as_i32_small : forall z, (0 <= z < 2147483648)%Z -> as_i32 z = z.
Proof.
  intros z H; unfold as_i32. rewrite Z.mod_small by lia.
  destruct (Z.ltb_spec z 2147483648); lia.
Qed.

Lemma as_i32_range : forall z, (-2147483648 <= as_i32 z < 2147483648)%Z.
Proof.
  intro z; unfold as_i32.
  pose proof (Z.mod_pos_bound z 4294967296 ltac:(lia)).
  destruct (Z.ltb_spec (z mod 4294967296) 2147483648); lia.
Qed.

Lemma as_u32_small : forall z, (0 <= z < 4294967296)%Z -> as_u32 z = z.
Proof. intros z H; unfold as_u32; apply Z.mod_small; lia. Qed.

Lemma as_usize_small : forall z, (0 <= z < 18446744073709551616)%Z -> as_usize z = Z.to_nat z.
Proof. intros z H; unfold as_usize. rewrite Z.mod_small by lia; auto. Qed.

(** Reading a list at all its positions gives the list. *)
Lemma map_nth_seq : forall A (l : list A) d, map (fun k => nth k l d) (seq 0 (length l)) = l.
Proof.
  intros A l d. induction l as [|x l IH]; auto. simpl. f_equal.
  rewrite <- seq_shift, map_map. exact IH.
Qed.
