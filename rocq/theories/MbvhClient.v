(** * Client loops over 4-wide BVHs, and whole collapsed trees *)
Require Import List ZArith Bool Lia Permutation Arith.
From Verif Require Import F32 F32Facts Vec RayModel AabbModel Base NodeModel IterModel LocbModel SpecGeom SpecTree SpecTraverse
  IterProofs TraverseProofs ClosestProofs MbvhModel SpecMbvh SpecQuad MbvhProofs MbvhMerge.
Import ListNotations.

Section Gen.
  Variable R : Type.
  Variable inter : mnode -> R -> mhit.
  Variable found : nat -> bool.
  Variable mnodes : list mnode.
  Variable indices : list nat.
  Variable C : Type.
  Variable client : C -> nat -> R -> C * R.
  Notation run := (mbvh_run R inter found mnodes indices C client).

  Lemma mrun_fold : forall fuel c r s ps rs c',
    run fuel c r s = Ok (ps, rs, c') ->
    exists rs', rs = r :: rs' /\ client_fold client ps c r = (c', last rs r).
  Proof.
    unfold client_fold.
    induction fuel as [|fuel IH]; intros c r s ps rs c' E; [discriminate|].
    cbn [mbvh_run] in E. destruct (mbvh_turn R inter found mnodes indices r s) as [[t s']| | |];
      try discriminate. cbn [bind] in E. destruct t as [p| |].
    - destruct (client c p r) as [c1 r1] eqn:Ec.
      destruct (run fuel c1 r1 s') as [[[ps1 rs1] c2]| | |] eqn:E1;
        try discriminate. cbn [bind] in E. injection E as <- <- <-.
      destruct (IH _ _ _ _ _ _ E1) as (rs' & -> & G). exists (r1 :: rs'). split; auto.
      simpl fold_left. rewrite Ec. rewrite G. f_equal. 
      change (last (r :: r1 :: rs') r) with (last (r1 :: rs') r). apply last_any.
    - eapply IH; eauto.
    - injection E as <- <- <-. exists []. auto.
  Qed.

  Lemma mrun_rays : forall (P : R -> Prop) (Q : R -> R -> Prop),
    (forall c p r, P r -> P (snd (client c p r))) ->
    (forall c p r r', P r -> P r' -> Q (snd (client c p r)) r' -> Q r r') -> (forall r, P r -> Q r r) ->
    forall fuel c r s ps rs c', P r -> run fuel c r s = Ok (ps, rs, c') ->
    Forall P rs /\ P (last rs r) /\ Forall (fun x => Q x (last rs r)) rs.
  Proof.
    intros P Q HP HQ HQr. induction fuel as [|fuel IH]; intros c r s ps rs c' Pr E; [discriminate|].
    cbn [mbvh_run] in E. destruct (mbvh_turn R inter found mnodes indices r s) as [[t s']| | |];
      try discriminate. cbn [bind] in E. destruct t as [p| |].
    - destruct (client c p r) as [c1 r1] eqn:Ec.
      destruct (run fuel c1 r1 s') as [[[ps1 rs1] c2]| | |] eqn:E1;
        try discriminate. cbn [bind] in E. injection E as <- <- <-.
      assert (P r1) as P1 by (pose proof (HP c p r Pr) as X; rewrite Ec in X; auto).
      destruct (IH _ _ _ _ _ _ P1 E1) as (A & B & D).
      destruct (mrun_fold _ _ _ _ _ _ _ E1) as (rs' & -> & _).
      assert (last (r :: r1 :: rs') r = last (r1 :: rs') r1) as L.
      { change (last (r :: r1 :: rs') r) with (last (r1 :: rs') r). apply last_any. }
      rewrite L. split; [constructor; auto|]. split; auto. constructor; auto.
      apply (HQ c p r); auto. rewrite Ec. inversion D; auto.
    - eapply IH; eauto.
    - injection E as <- <- <-. simpl. auto.
  Qed.
End Gen.

(** ** Reached leaves and paths *)
Lemma mpaths_head : forall t x, In x (mpaths t) -> exists tl, snd x = mbox t :: tl.
Proof.
  intros [|b f c|b i c0 c1 c2 c3] x I; simpl in I; [contradiction| |].
  - destruct I as [<-|[]]. simpl. eauto.
  - apply in_map_iff in I as (y & <- & _). simpl. eauto.
Qed.
Lemma filter_map' : forall A B (f : A -> B) p l, filter p (map f l) = map f (filter (fun x => p (f x)) l).
Proof. intros A B f p l; induction l as [|a l IH]; simpl; auto. destruct (p (f a)); simpl; rewrite IH; auto. Qed.
Lemma filter_ext' : forall A (p q : A -> bool) l, (forall x, In x l -> p x = q x) -> filter p l = filter q l.
Proof.
  intros A p q l; induction l as [|a l IH]; intro H; simpl; auto. rewrite (H a) by (left; auto).
  rewrite IH by (intros; apply H; right; auto). auto.
Qed.

(** [mreached] said with paths: all boxes of the path but the root's are hit. *)
Lemma mreached_paths : forall h t, mreached h t = map fst (filter (fun x => forallb h (tl (snd x))) (mpaths t)).
Proof.
  intros h t. induction t as [|b f c|b i c0 I0 c1 I1 c2 I2 c3 I3]; simpl; auto.
  assert (forall c, mreached h c = map fst (filter (fun x => forallb h (tl (snd x))) (mpaths c)) ->
     (if h (mbox c) then mreached h c else []) = map fst (filter (fun x => forallb h (snd x)) (mpaths c))) as G.
  { intros c E. destruct (h (mbox c)) eqn:Eb.
    - rewrite E. f_equal. apply filter_ext'. intros x Ix. apply mpaths_head in Ix as (tl' & ->). simpl. rewrite Eb. auto.
    - assert (filter (fun x => forallb h (snd x)) (mpaths c) = []) as ->; auto.
      assert (forall x, In x (mpaths c) -> forallb h (snd x) = false) as Z.
      { intros x Ix. apply mpaths_head in Ix as (tl' & ->). simpl. rewrite Eb. auto. }
      clear - Z. induction (mpaths c) as [|x l IH]; auto. simpl. rewrite Z by (left; auto). apply IH. intros y Iy. apply Z. right; auto. }
  rewrite !G by auto. rewrite filter_map', map_map. cbn [snd tl fst].
  rewrite !filter_app, !map_app. auto.
Qed.

Lemma submset_filter : forall A B (f : A -> B) p q l, (forall x, In x l -> p x = true -> q x = true) ->
  submset (map f (filter p l)) (map f (filter q l)).
Proof.
  intros A B f p q l; induction l as [|a l IH]; intro H; simpl; [apply submset_refl|].
  destruct IH as (r & IH); [intros; apply H; auto; right; auto|].
  destruct (p a) eqn:Pa.
  - rewrite (H a) by (auto; left; auto). exists r. simpl. constructor. auto.
  - destruct (q a); [exists (f a :: r)|exists r; auto]. simpl. rewrite <- IH. apply Permutation_sym, Permutation_middle.
Qed.

(** A leaf all of whose boxes in the binary tree are hit is reached. *)
Lemma follows_reached : forall h mt t, follows mt t ->
  submset (map fst (filter (fun x => forallb h (snd x)) (tpaths t))) (mreached h mt).
Proof.
  intros h mt t F. rewrite mreached_paths. unfold follows in F.
  eapply submset_trans; [|apply (submset_filter _ _ fst (fun x => forallb h (snd x)))].
  - induction F as [|x y ps qs [A B] F IH]; [apply submset_refl|]. simpl.
    destruct (forallb h (snd y)) eqn:Ey.
    + assert (forallb h (snd x) = true) as ->.
      { rewrite forallb_forall in *. auto. }
      simpl. rewrite A. destruct IH as (r & IH). exists r. simpl. constructor. auto.
    + destruct (forallb h (snd x)); auto. simpl. destruct IH as (r & IH). exists (fst x :: r).
      rewrite <- IH. apply Permutation_sym, Permutation_middle.
  - intros x _ Hx. destruct (snd x); simpl in *; auto. apply andb_true_iff in Hx. tauto.
Qed.

Lemma mleaves_paths : forall t, mleaves t = map fst (mpaths t).
Proof.
  induction t as [|b f c|b i c0 I0 c1 I1 c2 I2 c3 I3]; simpl; auto.
  rewrite map_map. cbn [fst]. rewrite !map_app, I0, I1, I2, I3. auto.
Qed.
Lemma tpaths_leaves : forall t, map fst (tpaths t) = map (fun n => (ex2 n, ex1 n)) (leaf_recs t).
Proof.
  induction t as [|i n l IHl r IHr]; simpl; auto. rewrite map_map.
  transitivity (map fst (tpaths l ++ tpaths r)); [reflexivity|]. rewrite !map_app, IHl, IHr. auto.
Qed.
Lemma follows_leaves : forall mt t, follows mt t -> mleaves mt = map (fun n => (ex2 n, ex1 n)) (leaf_recs t).
Proof.
  intros mt t F. rewrite mleaves_paths, <- tpaths_leaves. induction F as [|x y ps qs [A B] F IH]; simpl; congruence.
Qed.
Lemma positions_leaves : forall t, positions t = flat_map leaf_positions (leaf_recs t).
Proof.
  induction t as [|i n l IHl r IHr]; simpl; [rewrite app_nil_r; auto|]. rewrite flat_map_app, IHl, IHr. auto.
Qed.

Lemma mweight_bound : forall t, mweight t = 5 * length (m_ids t) + list_sum (map (fun l => Z.to_nat (snd l)) (mleaves t)).
Proof.
  induction t as [|b f c|b i c0 I0 c1 I1 c2 I2 c3 I3]; cbn [mweight m_ids mleaves]; auto.
  - unfold list_sum. simpl. lia.
  - rewrite !map_app, !list_sum_app. simpl length. rewrite !app_length. lia.
Qed.
Lemma leaves_sum : forall t, list_sum (map (fun l : Z * Z => Z.to_nat (snd l)) (map (fun n => (ex2 n, ex1 n)) (leaf_recs t)))
  = length (positions t).
Proof.
  intro t. rewrite positions_leaves. induction (leaf_recs t) as [|n l IH]; auto.
  cbn [map flat_map]. rewrite app_length. unfold list_sum in *. cbn [fold_right snd]. rewrite IH.
  unfold leaf_positions. rewrite seq_length. auto.
Qed.

(** ** A stored 4-wide tree over a binary one *)
Definition stores (ms : list mnode) (mt : mtree) (t : tree) : Prop :=
  is_mnode mt /\ m_idx mt = 0 /\ mrepr ms mt /\ NoDup (m_ids mt) /\ Forall (fun i => i < length ms) (m_ids mt) /\
  follows mt t /\ 2 * mlevels mt <= Nat.max 4 (S (depth t)).

Lemma stores_weight : forall ms mt t n, stores ms mt t -> length (positions t) <= n -> mweight mt <= 5 * length ms + n.
Proof.
  intros ms mt t n (N & I0 & Rp & Nd & F & Fo & L) P. rewrite mweight_bound.
  rewrite (follows_leaves mt t Fo), leaves_sum.
  assert (length (m_ids mt) <= length ms).
  { rewrite <- (seq_length (length ms) 0). apply NoDup_incl_length; auto. intros i Ii. rewrite Forall_forall in F.
    apply in_seq. specialize (F i Ii). lia. }
  lia.
Qed.

Lemma stores_leaf_fine : forall found indices nodes ms mt t, stores ms mt t -> repr nodes t ->
  Forall (fun k => k < length indices /\ found (nth k indices 0) = true) (positions t) ->
  Forall (leaf_fine found indices) (mleaves mt).
Proof.
  intros found indices nodes ms mt t (N & I0 & Rp & Nd & F & Fo & L) Rt P. rewrite (follows_leaves mt t Fo).
  rewrite positions_leaves in P.
  assert (Forall (fun n => (0 <= ex1 n)%Z /\ (0 <= ex2 n)%Z) (leaf_recs t)) as Pos.
  { clear - Rt. induction t as [i n|i n l IHl r IHr]; simpl in *.
    - constructor; auto. tauto.
    - rewrite Forall_app. tauto. }
  induction (leaf_recs t) as [|n l IH]; [constructor|]. simpl in P. rewrite Forall_app in P. destruct P as [P1 P2].
  inversion Pos; subst. constructor; [|apply IH; auto].
  split; [simpl; tauto|]. split; [simpl; tauto|]. cbn [fst snd]. intros k K. rewrite Forall_forall in P1.
  apply P1. unfold leaf_positions. apply in_seq. lia.
Qed.

(** ** Construction *)
Definition i32_nodes (ns : list aabb) : Prop := Forall (fun n => (ex2 n < 2147483648)%Z) ns.

Lemma depth_lt_size : forall t, depth t < t_size t.
Proof. induction t as [|i n l IHl r IHr]; simpl; lia. Qed.

Lemma leaf_starts_at_0 : forall n k, 1 <= k -> (0 <= ex2 n)%Z -> Permutation (leaf_positions n) (seq 0 k) -> ex2 n = 0%Z.
Proof.
  intros n k L C P. assert (In 0 (leaf_positions n)) as I by (apply (Permutation_in _ (Permutation_sym P)); apply in_seq; lia).
  unfold leaf_positions in I. apply in_seq in I. lia.
Qed.

Lemma fresh_repeat : forall k mi a b, mi < k -> b <= k -> fresh (repeat mnode_new k) mi a b.
Proof.
  intros k mi a b A B. assert (forall j, j < k -> nth_error (repeat mnode_new k) j = Some mnode_new) as G.
  { intros j J. rewrite nth_error_nth' with (d := mnode_new) by (rewrite repeat_length; auto).
    f_equal. apply nth_repeat. }
  split; auto. intros j J. apply G. lia.
Qed.

Lemma merge_root : forall ns indices n t fuel,
  repr ns t -> t_idx t = 0 -> Permutation (t_ids t) (seq 0 (length ns)) ->
  Permutation (positions t) (seq 0 (length indices)) -> Permutation indices (seq 0 n) ->
  1 <= n -> (Z.of_nat (length ns) <= 2147483648)%Z -> i32_nodes ns -> length ns <= fuel ->
  exists pool mt, merge_nodes fuel ns 0 0 (repeat mnode_new (length ns)) 1 = Ok (pool, length (m_ids mt)) /\
    length pool = length ns /\ length (m_ids mt) <= length ns /\
    m_ids mt = seq 0 (length (m_ids mt)) /\ quartered_root t mt /\ mbox mt = box_of (t_rec t) /\
    stores pool mt t.
Proof.
  intros ns indices n t fuel Rp T0 P1 P2 P3 N1 Sm I32 Fu.
  assert (t_size t = length ns) as Sz.
  { rewrite <- t_ids_size. rewrite (Permutation_length P1), seq_length. auto. }
  assert (length indices = n) as Li by (rewrite (Permutation_length P3), seq_length; auto).
  destruct t as [i nn|i nn l r].
  - simpl in Sz, T0. subst i. pose proof Rp as (E & C1 & C2).
    destruct ns as [|x [|y ns]]; try discriminate. simpl in E. injection E as ->.
    simpl in P2. pose proof (leaf_starts_at_0 nn (length indices) ltac:(lia) C2 P2) as Z2.
    destruct (merge_root_leaf [nn] fuel nn [mnode_new]) as (pool & E & R & L); auto.
    exists pool, (MNode (box_of nn) 0 (MLeaf (box_of nn) 0 (ex1 nn)) MEmpty MEmpty MEmpty).
    split; [exact E|]. split; [auto|]. split; [simpl; lia|]. split; [reflexivity|]. split; [simpl; rewrite Z2; reflexivity|]. split; [reflexivity|].
    unfold stores. cbn [is_mnode m_idx]. split; [auto|]. split; [auto|]. split; [auto|].
    split; [repeat constructor; auto|]. split; [repeat constructor; simpl; lia|]. split; [|simpl; lia].
    unfold follows. simpl. rewrite Z2. constructor; [|constructor]. split; simpl; auto. intros z Hz. simpl in *. tauto.
  - pose proof (msize_le (depth (TNode i nn l r)) (TNode i nn l r) (Nat.le_refl _)) as Ms.
    pose proof (msize_pos (TNode i nn l r)) as Mp.
    pose proof (depth_lt_size (TNode i nn l r)) as Dp. simpl in T0. subst i.
    destruct (merge_ok ns Sm I32 fuel 0 nn l r 0 (repeat mnode_new (length ns)) 1) as (pool & mt & E & M); auto; try lia.
    { apply fresh_repeat; lia. } { rewrite repeat_length. lia. }
    destruct M as ((Lk & _) & Im & Bx & Ix & Rm & Pm & Qm & Fo & Lv & Nn).
    replace (S (msize (TNode 0 nn l r)) - 1) with (msize (TNode 0 nn l r)) in E by lia.
    assert (m_ids mt = seq 0 (msize (TNode 0 nn l r))) as Pm'.
    { rewrite Pm. destruct (msize (TNode 0 nn l r)) as [|k]; [lia|]. 
      replace (S k - 1) with k by lia. reflexivity. }
    assert (length (m_ids mt) = msize (TNode 0 nn l r)) as Lm by (rewrite Pm', seq_length; auto).
    rewrite repeat_length in Lk.
    exists pool, mt. rewrite Lm. split; [rewrite E; f_equal; f_equal; lia|]. split; [auto|]. split; [lia|]. split; [auto|]. split; [exact Qm|]. split; [auto|].
    split; [auto|]. split; [auto|]. split; [auto|]. split.
    { rewrite Pm'. apply seq_NoDup. }
    split. { apply Forall_forall. intros k Ik. rewrite Pm' in Ik. apply in_seq in Ik. lia. }
    split; [auto|]. lia.
Qed.

Lemma resize_shrink : forall A (l : list A) n d, n <= length l -> resize l n d = firstn n l.
Proof. intros A l n d L. unfold resize. replace (n - length l) with 0 by lia. simpl. apply app_nil_r. Qed.
Lemma nth_error_firstn' : forall A (l : list A) n k, k < n -> nth_error (firstn n l) k = nth_error l k.
Proof. intros A l; induction l as [|a l IH]; intros [|n] [|k] L; simpl; auto; try lia. apply IH. lia. Qed.

Theorem construct_ok : forall b n t fuel,
  repr (nodes b) t -> t_idx t = 0 -> Permutation (t_ids t) (seq 0 (length (nodes b))) ->
  Permutation (positions t) (seq 0 (length (prim_indices b))) -> Permutation (prim_indices b) (seq 0 n) ->
  1 <= n -> (Z.of_nat (length (nodes b)) <= 2147483648)%Z -> i32_nodes (nodes b) -> length (nodes b) <= fuel ->
  exists mb mt, mbvh_construct fuel b = Ok mb /\ mb_nodes mb = nodes b /\ mb_indices mb = prim_indices b /\
    length (m_nodes mb) <= length (nodes b) /\
    m_ids mt = seq 0 (length (m_nodes mb)) /\ quartered_root t mt /\ mbox mt = box_of (t_rec t) /\
    stores (m_nodes mb) mt t.
Proof.
  intros b n t fuel Rp T0 P1 P2 P3 N1 Sm I32 Fu.
  destruct (merge_root (nodes b) (prim_indices b) n t fuel) as (pool & mt & E & Lp & Lm & Pm & Qr & Bx & St); auto.
  assert (nodes b <> []) as Ne.
  { apply repr_idx in Rp. rewrite T0 in Rp. destruct (nodes b); discriminate. }
  exists (Mbvh (nodes b) (firstn (length (m_ids mt)) pool) (prim_indices b)), mt.
  split.
  { unfold mbvh_construct. destruct (nodes b) eqn:En; [congruence|]. rewrite <- En in *. rewrite E. cbn [bind].
    rewrite resize_shrink by lia. auto. }
  cbn [mb_nodes mb_indices m_nodes]. split; [auto|]. split; [auto|].
  rewrite firstn_length_le by lia. split; [lia|]. split; [auto|]. split; [exact Qr|]. split; [auto|].
  destruct St as (S1 & S2 & S3 & S4 & S5 & S6 & S7).
  split; [auto|]. split; [auto|]. split.
  { apply (mrepr_ext pool); auto. intros k Ik. rewrite Pm in Ik. apply in_seq in Ik.
    apply nth_error_firstn'. lia. }
  split; [auto|]. split; [|auto]. rewrite firstn_length_le by lia.
  apply Forall_forall. intros k Ik. rewrite Pm in Ik. apply in_seq in Ik. lia.
Qed.

Theorem from_raw_ok : forall ns indices n t fuel,
  repr ns t -> t_idx t = 0 -> Permutation (t_ids t) (seq 0 (length ns)) ->
  Permutation (positions t) (seq 0 (length indices)) -> Permutation indices (seq 0 n) ->
  1 <= n -> (Z.of_nat (length ns) <= 2147483648)%Z -> i32_nodes ns -> length ns <= fuel ->
  exists mb mt, mbvh_from_raw fuel ns indices = Ok mb /\ mb_nodes mb = ns /\ mb_indices mb = indices /\
    length (m_nodes mb) = length ns /\
    (if length ns <=? 4 then copied_root t mt else quartered_root t mt /\ m_ids mt = seq 0 (length (m_ids mt))) /\
    stores (m_nodes mb) mt t.
Proof.
  intros ns indices n t fuel Rp T0 P1 P2 P3 N1 Sm I32 Fu.
  assert (t_size t = length ns) as Sz.
  { rewrite <- t_ids_size. rewrite (Permutation_length P1), seq_length. auto. }
  destruct (Nat.leb_spec (length ns) 4) as [L4|L4].
  - unfold mbvh_from_raw. replace (length ns <=? 4) with true at 1 2 by (symmetry; apply Nat.leb_le; auto).
    destruct t as [i nn|i nn l r].
    + simpl in Sz, T0. subst i. pose proof Rp as (E & C1 & C2).
      destruct ns as [|x [|y ns]]; try discriminate. simpl in E. injection E as ->.
      assert (length indices = n) as Li by (rewrite (Permutation_length P3), seq_length; auto).
      simpl in P2. pose proof (leaf_starts_at_0 nn (length indices) ltac:(lia) C2 P2) as Z2.
      eexists _, (MNode (box_of nn) 0 (MLeaf (box_of nn) 0 (ex1 nn)) MEmpty MEmpty MEmpty).
      split; [reflexivity|]. cbn [mb_nodes mb_indices m_nodes]. split; [auto|]. split; [auto|]. split; [reflexivity|].
      split; [simpl; rewrite ?Z2; reflexivity|]. split; [exact I|]. split; [reflexivity|]. split.
      { cbn [mrepr]. split; [|auto]. eexists. split; [reflexivity|]. destruct nn as [[] ? [] ?]. simpl in *. subst. 
        repeat split; auto; simpl; lia. }
      split; [repeat constructor; auto|]. split; [repeat constructor; simpl; lia|]. split; [|simpl; lia].
      unfold follows. simpl. rewrite Z2. constructor; [|constructor]. split; simpl; auto. intros z Hz. simpl in *. tauto.
    + cbn [t_size] in Sz.
      destruct l as [il nl|]; [|simpl in Sz; pose proof (t_size_ge l1); pose proof (t_size_ge l2); pose proof (t_size_ge r); lia].
      destruct r as [ir nr|]; [|simpl in Sz; pose proof (t_size_ge r1); pose proof (t_size_ge r2); lia].
      simpl in T0. subst i. destruct Rp as (E & C1 & C2 & C3 & (El & L1 & L2) & (Er & R1 & R2)). simpl in C2, C3, Sz.
      destruct ns as [|x0 [|x1 [|x2 [|x3 ns]]]]; simpl in Sz; try lia. simpl in E. injection E as ->.
      assert (il = 1 /\ ir = 2) as [-> ->].
      { simpl in P1. assert (In il [0; il; ir]) as I1 by (right; left; auto). assert (In ir [0; il; ir]) as I2 by (right; right; left; auto).
        apply (Permutation_in _ P1) in I1, I2. simpl in I1, I2.
        assert (NoDup [0; il; ir]) as Nd by (apply (Permutation_NoDup (Permutation_sym P1)); repeat constructor; simpl; lia).
        inversion Nd; subst. simpl in H1. lia. }
      simpl in El, Er. injection El as ->. injection Er as ->.
      eexists _, (MNode (box_of nn) 0 (MNode (box_of nn) 1 MEmpty MEmpty MEmpty MEmpty)
                    (MLeaf (box_of nl) (ex2 nl) (ex1 nl)) (MLeaf (box_of nr) (ex2 nr) (ex1 nr)) MEmpty).
      split; [reflexivity|]. cbn [mb_nodes mb_indices m_nodes]. split; [auto|]. split; [auto|]. split; [reflexivity|].
      split; [simpl; rewrite ?Z2; reflexivity|]. split; [exact I|]. split; [reflexivity|]. split.
      { cbn [mrepr]. split; [|split; [|auto]].
        - eexists. split; [reflexivity|]. unfold left_first_unchecked, count_unchecked.
          destruct nn as [[] ? [] ?], nl as [[] ? [] ?], nr as [[] ? [] ?]. simpl in *. subst. repeat split; auto; simpl; lia.
        - split; [|auto]. eexists. split; [reflexivity|]. repeat split; simpl; lia. }
      split; [repeat constructor; simpl; lia|]. split; [repeat constructor; simpl; lia|]. split; [|simpl; lia].
      unfold follows. simpl. constructor; [|constructor; [|constructor]]; (split; [reflexivity|]); intros z Hz; exact Hz.
  - destruct (merge_root ns indices n t fuel) as (pool & mt & E & Lp & Lm & Pm & Qr & Bx & St); auto.
    exists (Mbvh ns pool indices), mt. split.
    { unfold mbvh_from_raw. replace (length ns <=? 4) with false by (symmetry; apply Nat.leb_gt; auto).
      rewrite E. reflexivity. }
    split; [auto|]. split; [auto|]. split; [auto|].
    replace (length ns <=? 4) with false by (symmetry; apply Nat.leb_gt; auto). split; [auto|]. exact St.
Qed.
