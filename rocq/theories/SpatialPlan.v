(** * What one task of the spatial-split builder does to its references *)
Require Import List ZArith Bool Arith Lia Permutation.
From Verif Require Import F32 Vec AabbModel Base NodeModel UtilsModel UtilsProofs LocbModel SpawnModel TriModel BinnedModel
  SpatialModel.
Import ListNotations.

(** ** Windows *)
Lemma window_nth : forall A (l : list A) b len j, j < len -> nth_error (window l b len) j = nth_error l (b + j).
Proof.
  intros A l b len j L. unfold window.
  rewrite <- (firstn_skipn b l) at 2.
  destruct (Nat.le_gt_cases b (length l)) as [Lb|Lb].
  - rewrite nth_error_app2 by (rewrite firstn_length; lia). rewrite firstn_length, Nat.min_l by lia.
    replace (b + j - b) with j by lia. revert L. generalize (skipn b l) as s. clear. revert j.
    induction len as [|len IH]; intros j s L; [lia|]. destruct s as [|x s]; [destruct j; auto|].
    destruct j as [|j]; simpl; auto. apply IH. lia.
  - rewrite (skipn_all2 l) by lia. rewrite app_nil_r, firstn_nil.
    rewrite (proj2 (nth_error_None [] j)) by (simpl; lia). symmetry. apply nth_error_None. rewrite firstn_length. lia.
Qed.
Lemma window_length : forall A (l : list A) b len, b + len <= length l -> length (window l b len) = len.
Proof. intros. unfold window. rewrite firstn_length, skipn_length. lia. Qed.
Lemma put_length : forall A (l : list A) b w, b + length w <= length l -> length (put_window l b w) = length l.
Proof. intros. unfold put_window. rewrite !app_length, firstn_length, skipn_length. lia. Qed.
Lemma put_in : forall A (l : list A) b w j, b + length w <= length l -> j < length w ->
  nth_error (put_window l b w) (b + j) = nth_error w j.
Proof.
  intros A l b w j L Lj. unfold put_window.
  rewrite nth_error_app2 by (rewrite firstn_length; lia). rewrite firstn_length, Nat.min_l by lia.
  replace (b + j - b) with j by lia. apply nth_error_app1; auto.
Qed.
Lemma put_out : forall A (l : list A) b w i, b + length w <= length l -> i < b \/ b + length w <= i ->
  nth_error (put_window l b w) i = nth_error l i.
Proof.
  intros A l b w i L H. unfold put_window. destruct H as [H|H].
  - rewrite nth_error_app1 by (rewrite firstn_length; lia).
    rewrite <- (firstn_skipn b l) at 2. rewrite nth_error_app1 by (rewrite firstn_length; lia). auto.
  - rewrite app_assoc. rewrite nth_error_app2 by (rewrite app_length, firstn_length; lia).
    rewrite app_length, firstn_length, Nat.min_l by lia.
    rewrite <- (firstn_skipn (b + length w) l) at 2. rewrite nth_error_app2 by (rewrite firstn_length; lia).
    rewrite firstn_length, Nat.min_l by lia. auto.
Qed.
Lemma nth_error_eq : forall A (l m : list A), length l = length m ->
  (forall j, j < length l -> nth_error l j = nth_error m j) -> l = m.
Proof.
  intros A l m L H. apply nth_error_ext. intro i. destruct (Nat.lt_ge_cases i (length l)) as [Li|Li]; auto.
  rewrite (proj2 (nth_error_None l i)), (proj2 (nth_error_None m i)); auto; lia.
Qed.

(** ** One list per axis *)
Definition all3 {A} (P : A -> Prop) (t : per_axis A) : Prop := P (pick t 0) /\ P (pick t 1) /\ P (pick t 2).
Lemma all3_pick : forall A (P : A -> Prop) t a, all3 P t -> P (pick t a).
Proof. intros A P [[x y] z] [|[|a]] (H0 & H1 & H2); auto. Qed.
Lemma all3_map : forall A B (P : A -> Prop) (Q : B -> Prop) f t, (forall x, P x -> Q (f x)) -> all3 P t -> all3 Q (map3 f t).
Proof. intros A B P Q f [[x y] z] H (H0 & H1 & H2). repeat split; apply H; auto. Qed.
Lemma all3_imp : forall A (P Q : A -> Prop) t, (forall x, P x -> Q x) -> all3 P t -> all3 Q t.
Proof. intros A P Q t H (H0 & H1 & H2). repeat split; auto. Qed.

Section Plan.
  Variable sorter : nat -> list sref -> list sref.
  Hypothesis sorter_perm : forall a l, Permutation (sorter a l) l.
  Variable prims : list tri.
  Variables (leaf_size n : nat).

  Definition small (l : list sref) : Prop := Forall (fun r => s_prim r < n) l.
  (** A window: [W] references to existing primitives. *)
  Definition okw (W : nat) (l : list sref) : Prop := length l = W /\ small l.

  Lemma small_perm : forall l l', Permutation l l' -> small l -> small l'.
  Proof. intros l l' P F. unfold small in *. rewrite Forall_forall in *. intros x I. apply F. apply (Permutation_in x (Permutation_sym P)). auto. Qed.
  Lemma small_app : forall l l', small (l ++ l') <-> small l /\ small l'.
  Proof. intros. unfold small. apply Forall_app. Qed.
  Lemma small_firstn : forall k l, small l -> small (firstn k l).
  Proof. intros k l F. rewrite <- (firstn_skipn k l) in F. apply small_app in F. apply F. Qed.
  Lemma small_skipn : forall k l, small l -> small (skipn k l).
  Proof. intros k l F. rewrite <- (firstn_skipn k l) in F. apply small_app in F. apply F. Qed.
  Lemma small_nth : forall l i r, small l -> nth_error l i = Some r -> s_prim r < n.
  Proof. intros l i r F E. unfold small in F. rewrite Forall_forall in F. apply F. eapply nth_error_In; eauto. Qed.
  Lemma small_upd : forall l i r, small l -> s_prim r < n -> small (upd l i r).
  Proof.
    induction l as [|h t IH]; intros [|i] r F L; simpl; auto; inversion F; subst; constructor; auto.
    apply IH; auto.
  Qed.

  Lemma partition_marked_perm : forall mark l, Permutation (partition_marked mark l) l.
  Proof.
    intros mark l. unfold partition_marked. induction l as [|r l IH]; simpl; auto.
    destruct (mark (s_prim r)); simpl; [apply perm_skip; auto|].
    rewrite <- Permutation_middle. apply perm_skip. auto.
  Qed.

  Lemma sort_ok : forall W len w, len <= W -> all3 (okw W) w -> all3 (okw W) (sort_refs sorter len w).
  Proof.
    intros W len w L (H0 & H1 & H2).
    assert (forall a l, okw W l -> okw W (sorter a (firstn len l) ++ skipn len l)) as S.
    { intros a l (Ll & F). split.
      - rewrite app_length, (Permutation_length (sorter_perm _ _)), <- app_length, firstn_skipn. auto.
      - apply small_app. split; [eapply small_perm; [symmetry; apply sorter_perm|apply small_firstn; auto]|apply small_skipn; auto]. }
    split; [exact (S 0 _ H0)|split; [exact (S 1 _ H1)|exact (S 2 _ H2)]].
  Qed.

  Lemma object_ok : forall W len w axis index l r w' c, len <= W -> all3 (okw W) w ->
    apply_object_split len w axis index l r = Ok (w', c) ->
    all3 (okw W) w' /\ c = Ch index len l r true /\ index < len.
  Proof.
    intros W len w axis index l r w' c L O E. unfold apply_object_split in E.
    destruct (Nat.ltb_spec index len) as [Li|Li]; simpl in E; [|discriminate].
    injection E as <- <-. split; [|auto].
    set (mark := marked _ _).
    assert (forall a l, okw W l -> okw W (if a =? axis then l else partition_marked mark (firstn len l) ++ skipn len l)) as S.
    { intros a x (Ll & F). destruct (a =? axis); [split; auto|]. split.
      - rewrite app_length, (Permutation_length (partition_marked_perm _ _)), <- app_length, firstn_skipn. auto.
      - apply small_app. split; [eapply small_perm; [symmetry; apply partition_marked_perm|apply small_firstn; auto]|apply small_skipn; auto]. }
    destruct O as (O0 & O1 & O2). split; [exact (S 0 _ O0)|split; [exact (S 1 _ O1)|exact (S 2 _ O2)]].
  Qed.

  Lemma swap_perm : forall A (l l' : list A) i j, swap l i j = Ok l' -> Permutation l' l /\ length l' = length l.
  Proof.
    intros A l l' i j E. unfold swap in E.
    destruct (nth_error l i) as [a|] eqn:Ei; [|discriminate]. destruct (nth_error l j) as [b|] eqn:Ej; [|discriminate].
    injection E as <-. split; [|rewrite !upd_length; auto].
    assert (i < length l) as Li by (apply nth_error_Some; congruence).
    assert (j < length l) as Lj by (apply nth_error_Some; congruence).
    destruct (Nat.eq_dec i j) as [->|N].
    - assert (a = b) as -> by congruence.
      replace (upd (upd l j b) j b) with l; auto. apply nth_error_ext. intro k.
      destruct (Nat.eq_dec k j) as [->|Nk].
      + rewrite nth_error_upd_same by (rewrite upd_length; auto). auto.
      + rewrite !nth_error_upd_other by auto. auto.
    - symmetry. apply Permutation_nth_error_bis. exists (fun k => if k =? i then j else if k =? j then i else k).
      split; [|split].
      + intros x y E. destruct (Nat.eqb_spec x i), (Nat.eqb_spec y i), (Nat.eqb_spec x j), (Nat.eqb_spec y j); subst; auto; try lia.
      + intros k Lk. destruct (Nat.eqb_spec k i), (Nat.eqb_spec k j); auto.
      + intro k. destruct (Nat.eqb_spec k i) as [->|Ni].
        * rewrite nth_error_upd_other by auto. rewrite nth_error_upd_same by auto. congruence.
        * destruct (Nat.eqb_spec k j) as [->|Nj].
          -- rewrite nth_error_upd_same by (rewrite upd_length; auto). congruence.
          -- rewrite !nth_error_upd_other by auto. auto.
  Qed.
  Lemma swap_ok : forall W l l' i j, okw W l -> swap l i j = Ok l' -> okw W l'.
  Proof.
    intros W l l' i j (L & F) E. destruct (swap_perm _ _ _ _ _ E) as (P & Ll). split; [congruence|].
    eapply small_perm; [symmetry; eauto|auto].
  Qed.

  Lemma classify_ok : forall W axis pos k w i le rb L R w' le' rb' L' R', okw W w -> i + k = rb -> le <= i -> rb <= W ->
    classify axis pos k w i le rb L R = Ok (w', le', rb', L', R') ->
    okw W w' /\ le' <= rb' <= rb.
  Proof.
    intros W axis pos. induction k as [|k IH]; intros w i le rb L R w' le' rb' L' R' O E1 E2 E3 E; cbn [classify] in E.
    - injection E as <- <- <- <- <-. split; auto. lia.
    - destruct (get w i) as [r| | |] eqn:Er; cbn [bind] in E; try discriminate.
      destruct (fle _ pos).
      { destruct (swap w i le) as [w1| | |] eqn:Es; cbn [bind] in E; try discriminate.
        apply IH in E; [destruct E; split; auto; lia|eapply swap_ok; eauto|lia|lia|lia]. }
      destruct (fge _ pos).
      { destruct (swap w i (rb - 1)) as [w1| | |] eqn:Es; cbn [bind] in E; try discriminate.
        apply IH in E; [destruct E; split; auto; lia|eapply swap_ok; eauto|lia|lia|lia]. }
      apply IH in E; [destruct E; split; auto; lia|auto|lia|lia|lia].
  Qed.

  Lemma fallback_ok : forall begin len w le rb L R le' rb' L' R', le <= rb <= len ->
    fallback begin len w le rb L R = Ok (le', rb', L', R') -> le' <= rb' <= len.
  Proof.
    intros begin len w le rb L R le' rb' L' R' H E. unfold fallback in E.
    destruct (((le =? 0) || (len - rb =? 0)) && (le =? rb)) eqn:C; [|injection E as <- <- <- <-; auto].
    apply andb_prop in C as [C1 C2]. apply Nat.eqb_eq in C2.
    destruct (0 <? le) eqn:Z.
    - assert (le / 2 <= le) by (apply Nat.div_le_upper_bound; lia). remember (le / 2) as h.
      destruct (h <? begin); [discriminate|]. cbn [bind] in E. remember (h - begin) as hb.
      injection E as <- <- <- <-. lia.
    - cbn [bind] in E. apply Nat.ltb_ge in Z. assert (le = 0) as -> by lia. rewrite <- C2 in *. rewrite Nat.sub_0_r in E.
      assert (len / 2 <= len) by (apply Nat.div_le_upper_bound; lia).
      remember (len / 2) as h. injection E as <- <- <- <-. lia.
  Qed.

  Lemma straddle_ok : forall W axis pos k w le rb re lc rc L R w' rb' re' L' R', okw W w -> le + k = rb -> rb <= re -> re <= W ->
    straddle prims axis pos k w le rb re lc rc L R = Ok (w', rb', re', L', R') ->
    okw W w' /\ le <= rb' <= rb /\ re <= re' <= W.
  Proof.
    intros W axis pos. induction k as [|k IH]; intros w le rb re lc rc L R w' rb' re' L' R' O E1 E2 E3 E; cbn [straddle] in E.
    - injection E as <- <- <- <- <-. split; auto. lia.
    - destruct (get w le) as [r| | |] eqn:Er; cbn [bind] in E; try discriminate. apply get_Ok in Er.
      pose proof (small_nth _ _ _ (proj2 O) Er) as Sr.
      destruct (get prims (s_prim r)) as [t| | |] eqn:Et; cbn [bind] in E; try discriminate.
      destruct (tri_split t axis pos) as [lb rbx]. destruct (0 <? length w - re) eqn:Sp.
      { destruct (set w re _) as [w1| | |] eqn:S1; cbn [bind] in E; try discriminate.
        destruct (set w1 le _) as [w2| | |] eqn:S2; cbn [bind] in E; try discriminate.
        apply set_inv in S1 as (L1 & ->). apply set_inv in S2 as (L2 & ->).
        destruct O as (Lw & F). apply Nat.ltb_lt in Sp.
        apply IH in E; try lia.
        - destruct E. split; auto. lia.
        - split; [rewrite !upd_length; auto|]. apply small_upd; [apply small_upd; auto|auto]. }
      destruct (lc <? rc).
      { apply IH in E; [destruct E; split; auto; lia|auto|lia|lia|lia]. }
      destruct (swap w (rb - 1) le) as [w1| | |] eqn:Es; cbn [bind] in E; try discriminate.
      apply IH in E; [destruct E; split; auto; lia|eapply swap_ok; eauto|lia|lia|lia].
  Qed.

  Lemma spatial_ok : forall W begin len w split w' c, len <= W -> all3 (okw W) w ->
    apply_spatial_split prims begin len w split = Ok (w', c) ->
    all3 (okw W) w' /\ c_right_begin c <= len /\ len <= c_right_end c <= W.
  Proof.
    intros W begin len w split w' c L O E. unfold apply_spatial_split in E.
    destruct (classify _ _ _ _ _ _ _ _ _) as [[[[[w1 le1] rb1] L1] R1]| | |] eqn:E1; cbn [bind] in E; try discriminate.
    apply (classify_ok W) in E1; auto; try lia; [|apply all3_pick; auto]. destruct E1 as (O1 & B1).
    destruct (fallback _ _ _ _ _ _ _) as [[[[le2 rb2] L2] R2]| | |] eqn:E2; cbn [bind] in E; try discriminate.
    apply fallback_ok in E2; [|lia].
    destruct (straddle _ _ _ _ _ _ _ _ _ _ _ _) as [[[[[w3 rb3] re3] L3] R3]| | |] eqn:E3; cbn [bind] in E; try discriminate.
    apply (straddle_ok W) in E3; auto; try lia. destruct E3 as (O3 & B3 & B4).
    injection E as <- <-. cbn [c_right_begin c_right_end]. split; [|lia].
    assert (forall a l, okw W l -> okw W (if a =? ss_axis split then w3 else firstn re3 w3 ++ skipn re3 l)) as S.
    { intros a l (Ll & F). destruct (a =? ss_axis split); auto. destruct O3 as (L3' & F3). split.
      - rewrite app_length, firstn_length, skipn_length. lia.
      - apply small_app. split; [apply small_firstn; auto|apply small_skipn; auto]. }
    destruct O as (H0 & H1 & H2). split; [exact (S 0 _ H0)|split; [exact (S 1 _ H1)|exact (S 2 _ H2)]].
  Qed.

  (** What [plan_task] does to the windows, and what the children get. *)
  Lemma plan_ok : forall threshold W t bounds w w' d, w_size t <= W -> all3 (okw W) w ->
    plan_task sorter prims leaf_size threshold t bounds w = Ok (w', d) ->
    all3 (okw W) w' /\
    match d with
    | Leaf => True
    | Divide c => c_right_begin c <= w_size t /\ w_size t <= c_right_end c <= W /\ w_depth t < MAX_DEPTH /\ 2 <= w_size t
    end.
  Proof.
    intros threshold W t bounds w w' d L O E. unfold plan_task in E.
    destruct ((w_size t <=? 1) || (MAX_DEPTH <=? w_depth t)) eqn:C; [injection E as <- <-; auto|].
    apply orb_false_elim in C as [C1 C2]. apply Nat.leb_gt in C1. apply Nat.leb_gt in C2.
    assert (all3 (okw W) (if w_sorted t then w else sort_refs sorter (w_size t) w)) as O1
      by (destruct (w_sorted t); auto; apply sort_ok; auto).
    revert E. set (w1 := if w_sorted t then w else sort_refs sorter (w_size t) w) in *. clearbody w1. cbv zeta.
    destruct (if _ && _ then _ else _) as [ss| | |]; cbn [bind]; try discriminate.
    destruct (fge _ _).
    { destruct (leaf_size <? w_size t); [|intro E; injection E as <- <-; auto].
      destruct (apply_object_split _ _ _ _ _ _) as [[w2 c]| | |] eqn:E2; cbn [bind]; try discriminate.
      intro E; injection E as <- <-. apply (object_ok W) in E2; auto. destruct E2 as (O2 & -> & Li). cbn [c_right_begin c_right_end]. split; auto; try lia. }
    destruct (flt _ _).
    { destruct (apply_spatial_split _ _ _ _ _) as [[w2 c]| | |] eqn:E2; cbn [bind]; try discriminate.
      intro E; injection E as <- <-. apply (spatial_ok W) in E2; auto. destruct E2 as (O2 & B1 & B2). split; [auto|lia]. }
    destruct (o_index _) as [ix|]; [|intro E; injection E as <- <-; auto].
    destruct (apply_object_split _ _ _ _ _ _) as [[w2 c]| | |] eqn:E2; cbn [bind]; try discriminate.
    intro E; injection E as <- <-. apply (object_ok W) in E2; auto. destruct E2 as (O2 & -> & Li). cbn [c_right_begin c_right_end]. split; auto; try lia.
  Qed.

  (** Moving the right references within the own window. *)
  Lemma move_window : forall a b W rb re shift, b + W <= length a -> rb <= re -> re <= W ->
    ((0 < shift)%Z -> b + W = length a) ->
    match move_right (window a b W) rb re shift with
    | Ok w' => move_right a (b + rb) (b + re) shift = Ok (put_window a b w') /\ length w' = W /\
        (small (window a b W) -> small w')
    | UB => move_right a (b + rb) (b + re) shift = UB
    | _ => False
    end.
  Proof.
    intros a b W rb re shift L1 L2 L3 Hs. unfold move_right. rewrite window_length by auto.
    destruct (Z.ltb_spec 0 shift) as [P|P].
    2:{ rewrite window_length by auto. repeat split; auto. f_equal. apply nth_error_eq.
        - rewrite put_length; auto. rewrite window_length by auto. auto.
        - intros j Lj. destruct (Nat.lt_ge_cases j b) as [H|H]; [rewrite put_out; auto; rewrite window_length by auto; auto|].
          destruct (Nat.lt_ge_cases j (b + W)) as [H'|H'].
          + replace j with (b + (j - b)) by lia. rewrite put_in by (rewrite window_length by auto; lia).
            rewrite window_nth by lia. auto.
          + rewrite put_out; auto; rewrite window_length by auto; auto. }
    rewrite <- (Hs P).
    replace (Z.of_nat (b + W) <? Z.of_nat (b + re) + shift)%Z with (Z.of_nat W <? Z.of_nat re + shift)%Z
      by (destruct (Z.ltb_spec (Z.of_nat W) (Z.of_nat re + shift)), (Z.ltb_spec (Z.of_nat (b + W)) (Z.of_nat (b + re) + shift)); auto; lia).
    destruct (Z.ltb_spec (Z.of_nat W) (Z.of_nat re + shift)) as [U|U]; auto.
    remember (Z.to_nat shift) as s eqn:Es. assert (re + s <= W) as Ls by lia.
    destruct (move_backward_spec _ (window a b W) rb (re - rb) (re + s) (S W)) as (w' & E1 & Lw & In1 & Out1); try lia.
    { rewrite window_length; lia. }
    rewrite window_length in Lw by lia.
    replace (rb + (re - rb)) with re in E1 by lia. rewrite E1. cbn [bind].
    destruct (move_backward_spec _ a (b + rb) (re - rb) (b + (re + s)) (S (b + W))) as (a' & E2 & La & In2 & Out2); try lia.
    replace (b + rb + (re - rb)) with (b + re) in E2 by lia. replace (b + re + s) with (b + (re + s)) by lia.
    rewrite E2. cbn [bind].
    assert (a' = put_window a b w') as ->.
    { apply nth_error_eq; [rewrite put_length; lia|]. intros j Lj.
      destruct (Nat.lt_ge_cases j b) as [H|H]; [rewrite put_out by lia; apply Out2; lia|].
      replace j with (b + (j - b)) by lia. remember (j - b) as q.
      rewrite put_in by lia.
      destruct (Nat.lt_ge_cases q (re + s - (re - rb))) as [H1|H1].
      + rewrite Out2 by lia. rewrite Out1 by lia. rewrite window_nth by lia. auto.
      + destruct (Nat.lt_ge_cases q (re + s)) as [H2|H2].
        * replace q with (re + s - (re - rb) + (q - (re + s - (re - rb)))) by lia. remember (q - (re + s - (re - rb))) as x.
          rewrite In1 by lia.
          replace (b + (re + s - (re - rb) + x)) with (b + (re + s) - (re - rb) + x) by lia. rewrite In2 by lia.
          rewrite window_nth by lia. f_equal. lia.
        * rewrite Out2 by lia. rewrite Out1 by lia. rewrite window_nth by lia. auto. }
    split; auto. split; auto.
    intro F. unfold small in *. rewrite Forall_forall in *. intros r Ir. apply In_nth_error in Ir as [q Eq].
    assert (q < W) as Lq by (rewrite <- Lw; apply nth_error_Some; congruence).
    destruct (Nat.lt_ge_cases q (re + s - (re - rb))) as [H1|H1].
    - rewrite Out1 in Eq by lia. apply F. eapply nth_error_In; eauto.
    - destruct (Nat.lt_ge_cases q (re + s)) as [H2|H2].
      + replace q with (re + s - (re - rb) + (q - (re + s - (re - rb)))) in Eq by lia. rewrite In1 in Eq by lia.
        apply F. eapply nth_error_In; eauto.
      + rewrite Out1 in Eq by lia. apply F. eapply nth_error_In; eauto.
  Qed.
  Lemma move3_window : forall a b W rb re shift, all3 (fun l => b + W <= length l) a -> rb <= re -> re <= W ->
    ((0 < shift)%Z -> all3 (fun l => b + W = length l) a) ->
    match move3 (map3 (fun l => window l b W) a) rb re shift with
    | Ok w' => move3 a (b + rb) (b + re) shift =
          Ok (put_window (pick a 0) b (pick w' 0), put_window (pick a 1) b (pick w' 1), put_window (pick a 2) b (pick w' 2)) /\
        all3 (fun l => length l = W) w' /\ (all3 small (map3 (fun l => window l b W) a) -> all3 small w')
    | UB => move3 a (b + rb) (b + re) shift = UB
    | _ => False
    end.
  Proof.
    intros [[a0 a1] a2] b W rb re shift (L0 & L1 & L2) B1 B2 Hs. unfold move3, map3. cbn [pick] in *.
    assert ((0 < shift)%Z -> b + W = length a0 /\ b + W = length a1 /\ b + W = length a2) as Hs' by (intro P; apply (Hs P)).
    pose proof (move_window a0 b W rb re shift L0 B1 B2 (fun P => proj1 (Hs' P))) as M0.
    pose proof (move_window a1 b W rb re shift L1 B1 B2 (fun P => proj1 (proj2 (Hs' P)))) as M1.
    pose proof (move_window a2 b W rb re shift L2 B1 B2 (fun P => proj2 (proj2 (Hs' P)))) as M2.
    destruct (move_right (window a0 b W) rb re shift) as [w0| | |]; cbn [bind]; try contradiction; [|rewrite M0; auto].
    destruct M0 as (-> & N0 & S0). cbn [bind].
    destruct (move_right (window a1 b W) rb re shift) as [w1| | |]; cbn [bind]; try contradiction; [|rewrite M1; auto].
    destruct M1 as (-> & N1 & S1). cbn [bind].
    destruct (move_right (window a2 b W) rb re shift) as [w2| | |]; cbn [bind]; try contradiction; [|rewrite M2; auto].
    destruct M2 as (-> & N2 & S2). cbn [bind pick]. repeat split; auto.
    all: destruct H as (F0 & F1 & F2); auto.
  Qed.

  (** Nothing in the planning is undefined behaviour. *)
  Lemma bind_ub : forall A B (x : res A) (f : A -> res B), x <> UB -> (forall a, f a <> UB) -> bind x f <> UB.
  Proof. intros A B [a| | |] f H1 H2; simpl; auto; discriminate. Qed.
  Lemma get_ub : forall A (l : list A) i, get l i <> UB.
  Proof. intros. unfold get. destruct (nth_error l i); discriminate. Qed.
  Lemma set_ub : forall A (l : list A) i v, set l i v <> UB.
  Proof. intros. unfold set. destruct (i <? length l); discriminate. Qed.
  Lemma swap_ub : forall A (l : list A) i j, swap l i j <> UB.
  Proof. intros. unfold swap. destruct (nth_error l i), (nth_error l j); discriminate. Qed.
  Lemma chop_ub : forall axis mn bs p k j bins cur, chop prims axis mn bs p k j bins cur <> UB.
  Proof.
    induction k as [|k IH]; intros j bins cur; cbn [chop]; [discriminate|].
    apply bind_ub; [apply get_ub|]. intro t. destruct (tri_split _ _ _). destruct (nth j bins empty_bin). apply IH.
  Qed.
  Lemma fill_bins_ub : forall axis mn bs inv refs bins, fill_bins prims axis mn bs inv refs bins <> UB.
  Proof.
    induction refs as [|r refs IH]; intro bins; cbn [fill_bins]; [discriminate|].
    destruct (negb _); [discriminate|]. destruct (_ <? _); [discriminate|].
    apply bind_ub; [apply chop_ub|]. intros [b c]. destruct (nth _ b empty_bin). destruct (nth _ _ empty_bin). apply IH.
  Qed.
  Lemma passes_ub : forall k refs split axis mn mx, binning_passes prims k refs split axis mn mx <> UB.
  Proof.
    induction k as [|k IH]; intros; cbn [binning_passes]; [discriminate|].
    apply bind_ub.
    - unfold run_binning_pass. apply bind_ub; [apply fill_bins_ub|]. intro b. destruct (spatial_pass _ _ _ _ _ _ _ _ _ _). discriminate.
    - intros [s [[a b]|]]; [apply IH|discriminate].
  Qed.
  Lemma find_spatial_ub : forall bounds refs, find_spatial_split prims bounds refs <> UB.
  Proof.
    intros. unfold find_spatial_split. generalize ssplit_new as s. generalize [0; 1; 2] as l.
    induction l as [|a l IH]; intro s; cbn [for_each]; [discriminate|]. apply bind_ub; [apply passes_ub|]. intro. apply IH.
  Qed.
  Lemma classify_ub : forall axis pos k w i le rb L R, classify axis pos k w i le rb L R <> UB.
  Proof.
    induction k as [|k IH]; intros; cbn [classify]; [discriminate|]. apply bind_ub; [apply get_ub|]. intro r.
    destruct (fle _ _); [apply bind_ub; [apply swap_ub|intro; apply IH]|].
    destruct (fge _ _); [apply bind_ub; [apply swap_ub|intro; apply IH]|apply IH].
  Qed.
  Lemma straddle_ub : forall axis pos k w le rb re lc rc L R, straddle prims axis pos k w le rb re lc rc L R <> UB.
  Proof.
    induction k as [|k IH]; intros; cbn [straddle]; [discriminate|]. apply bind_ub; [apply get_ub|]. intro r.
    apply bind_ub; [apply get_ub|]. intro t. destruct (tri_split _ _ _).
    destruct (0 <? _); [apply bind_ub; [apply set_ub|intro; apply bind_ub; [apply set_ub|intro; apply IH]]|].
    destruct (lc <? rc); [apply IH|]. apply bind_ub; [apply swap_ub|intro; apply IH].
  Qed.
  Lemma apply_spatial_ub : forall begin len w split, apply_spatial_split prims begin len w split <> UB.
  Proof.
    intros. unfold apply_spatial_split. apply bind_ub; [apply classify_ub|]. intros [[[[w1 le] rb] L] R].
    apply bind_ub.
    - unfold fallback. destruct (_ && _); [|discriminate]. apply bind_ub; [|discriminate].
      destruct (0 <? le); [destruct (_ <? _)|]; discriminate.
    - intros [[[le2 rb2] L2] R2]. apply bind_ub; [apply straddle_ub|]. intros [[[[w3 rb3] re3] L3] R3]. discriminate.
  Qed.
  Lemma apply_object_ub : forall len w axis index l r, apply_object_split len w axis index l r <> UB.
  Proof. intros. unfold apply_object_split. destruct (negb _); discriminate. Qed.
  Lemma plan_ub : forall threshold t bounds w, plan_task sorter prims leaf_size threshold t bounds w <> UB.
  Proof.
    intros. unfold plan_task. destruct (_ || _); [discriminate|]. cbv zeta.
    apply bind_ub; [destruct (_ && _); [apply find_spatial_ub|discriminate]|]. intro ss.
    destruct (fge _ _).
    { destruct (leaf_size <? _); [|discriminate]. apply bind_ub; [apply apply_object_ub|]. intros [? ?]. discriminate. }
    destruct (flt _ _); [apply bind_ub; [apply apply_spatial_ub|]; intros [? ?]; discriminate|].
    destruct (o_index _); [|discriminate]. apply bind_ub; [apply apply_object_ub|]. intros [? ?]. discriminate.
  Qed.
End Plan.

(** Windows in terms of positions. *)
Lemma window_same : forall A (l l' : list A) b len, length l' = length l ->
  (forall i, b <= i < b + len -> nth_error l' i = nth_error l i) -> window l' b len = window l b len.
Proof.
  intros A l l' b len L H. apply nth_error_eq.
  - unfold window. rewrite !firstn_length, !skipn_length, L. auto.
  - intros j Lj. assert (j < len) by (revert Lj; unfold window; rewrite firstn_length; lia).
    rewrite !window_nth by auto. apply H. lia.
Qed.
Lemma window_put : forall A (l : list A) b w, b + length w <= length l -> window (put_window l b w) b (length w) = w.
Proof.
  intros A l b w L. apply nth_error_eq.
  - apply window_length. rewrite put_length; auto.
  - intros j Lj. rewrite window_length in Lj by (rewrite put_length; auto). rewrite window_nth by auto. apply put_in; auto.
Qed.
Lemma window_firstn : forall A (l : list A) b len k, k <= len -> window l b k = firstn k (window l b len).
Proof. intros A l b len k L. unfold window. rewrite firstn_firstn, Nat.min_l by lia. auto. Qed.
Lemma window_skipn : forall A (l : list A) b len k, window l (b + k) (len - k) = skipn k (window l b len).
Proof.
  intros A l b len k. unfold window. rewrite skipn_firstn_comm. f_equal.
  rewrite Nat.add_comm. revert l. induction b as [|b IH]; intro l; simpl; [rewrite Nat.add_0_r; auto|].
  rewrite Nat.add_succ_r. destruct l as [|x l]; [simpl; rewrite skipn_nil; auto|]. apply IH.
Qed.
