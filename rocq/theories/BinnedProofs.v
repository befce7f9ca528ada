(** * The binned-SAH build is correct under every schedule *)
Require Import List Arith Lia ZArith Bool Permutation.
From Verif Require Import F32 Vec AabbModel Base NodeModel UtilsModel UtilsProofs LocbModel SpawnModel SpawnProofs
  SpecGeom SpecTree BinnedModel.
Import ListNotations.

Section B.
  Variables (mls : nat) (aabbs : list aabb) (centers : list vec3).
  Let n := length aabbs.
  Let slots := 2 * n - 1.
  Hypothesis Hlen : length centers = n.
  Hypothesis Hpos : 1 <= n.
  Hypothesis Hsmall : (Z.of_nat n <= 1073741824)%Z.

  (** ** The tree a task builds, computed sequentially *)
  Fixpoint sah (k begin : nat) (ids : list nat) (box : aabb) : shape * list nat :=
    let b1 := with_offset box f1em4 in
    let leaf ids :=
      let b2 := with_offset b1 f1em4 in
      (SLeaf (bmin b2) (bmax b2) (Z.of_nat begin) (Z.of_nat (length ids)), ids) in
    match k with
    | O => leaf ids
    | S k =>
        if length ids <=? 1 then leaf ids else
        match make_plan aabbs centers mls b1 ids with
        | Ok (Split axis si lb rb) =>
            match partition ids 0 (length ids) (goes_left centers b1 axis si) with
            | Ok (ids', c) =>
                if (0 <? c) && (c <? length ids) then
                  let l := sah k begin (firstn c ids') lb in
                  let r := sah k (begin + c) (skipn c ids') rb in
                  (SNode (bmin b1) (bmax b1) (fst l) (fst r), snd l ++ snd r)
                else leaf ids'
            | _ => leaf ids
            end
        | _ => leaf ids
        end
    end.

  (** ** Ghost state *)
  Record ent := En { e_node : nat; e_begin : nat; e_ids : list nat; e_depth : nat; e_box : aabb }.
  Definition e_len (e : ent) : nat := length (e_ids e).
  Definition task_of (e : ent) : btask := Bt (e_node e) (e_begin e) (e_begin e + e_len e) (e_depth e).
  Definition sah_of (e : ent) := sah (MAX_DEPTH - e_depth e) (e_begin e) (e_ids e) (e_box e).

  Inductive gt :=
  | GOpen (e : ent) (c : option nat) (p : option prog)
  | GLeaf (i begin : nat) (nd : aabb) (ids : list nat)
  | GNode (i : nat) (nd : aabb) (l r : gt).

  Definition own (e : ent) (c : option nat) : list nat :=
    match c with None => [e_node e] | Some c => [e_node e; c; S c] end.
  Fixpoint gids (g : gt) : list nat :=
    match g with
    | GOpen e c _ => own e c
    | GLeaf i _ _ _ => [i]
    | GNode i _ l r => i :: gids l ++ gids r
    end.
  Definition g_idx (g : gt) : nat := match g with GOpen e _ _ => e_node e | GLeaf i _ _ _ => i | GNode i _ _ _ => i end.
  Fixpoint gpos (g : gt) : list nat :=
    match g with
    | GOpen e _ _ => seq (e_begin e) (e_len e)
    | GLeaf _ b _ ids => seq b (length ids)
    | GNode _ _ l r => gpos l ++ gpos r
    end.
  Fixpoint gitems (g : gt) : list (btask * option prog) :=
    match g with GOpen e _ p => [(task_of e, p)] | GLeaf _ _ _ _ => [] | GNode _ _ l r => gitems l ++ gitems r end.
  (** The nodes of all tasks created so far. *)
  Fixpoint gmade (g : gt) : list nat :=
    match g with
    | GOpen e _ _ => [e_node e]
    | GLeaf i _ _ _ => [i]
    | GNode i _ l r => i :: gmade l ++ gmade r
    end.
  Fixpoint gbudget (g : gt) : nat :=
    match g with
    | GOpen e None _ => 2 * (e_len e - 1)
    | GOpen e (Some _) _ => 2 * (e_len e - 2)
    | GLeaf _ _ _ _ => 0
    | GNode _ _ l r => gbudget l + gbudget r
    end.
  Fixpoint gpred (g : gt) : shape * list nat :=
    match g with
    | GOpen e _ _ => sah_of e
    | GLeaf _ _ nd ids => (SLeaf (bmin nd) (bmax nd) (ex2 nd) (ex1 nd), ids)
    | GNode _ nd l r => (SNode (bmin nd) (bmax nd) (fst (gpred l)) (fst (gpred r)), snd (gpred l) ++ snd (gpred r))
    end.

  (** The positions from [b] on hold [l]. *)
  Definition at_idx (m : smem) (b : nat) (l : list nat) : Prop :=
    forall j, j < length l -> nth_error (m_idx m) (b + j) = nth_error l j.
  Definition waits (e : ent) (m : smem) : Prop :=
    nth_error (m_nodes m) (e_node e) = Some (e_box e) /\ at_idx m (e_begin e) (e_ids e) /\
    0 < e_len e /\ Forall (fun p => p < n) (e_ids e) /\ e_begin e + e_len e <= n /\ e_depth e <= MAX_DEPTH.

  (** What holds when a task returns. *)
  Definition post (e : ent) (r : option (btask * btask)) (c : option nat) (m : smem) : Prop :=
    match r with
    | None => c = None /\ exists nd ids', nth_error (m_nodes m) (e_node e) = Some nd /\ at_idx m (e_begin e) ids' /\
        length ids' = e_len e /\ ex1 nd = Z.of_nat (e_len e) /\ ex2 nd = Z.of_nat (e_begin e) /\
        sah_of e = (SLeaf (bmin nd) (bmax nd) (ex2 nd) (ex1 nd), ids')
    | Some (a, b) => exists c' el er nd, c = Some c' /\ e_node e < c' /\ a = task_of el /\ b = task_of er /\
        e_node el = c' /\ e_node er = S c' /\ e_begin el = e_begin e /\ e_begin er = e_begin e + e_len el /\
        e_len e = e_len el + e_len er /\ waits el m /\ waits er m /\
        nth_error (m_nodes m) (e_node e) = Some nd /\ (ex1 nd < 0)%Z /\ ex2 nd = Z.of_nat c' /\
        sah_of e = (SNode (bmin nd) (bmax nd) (fst (sah_of el)) (fst (sah_of er)), snd (sah_of el) ++ snd (sah_of er))
    end.

  (** The two memories agree on what the task owns. *)
  Definition same (ids pos : list nat) (m m' : smem) : Prop :=
    length (m_nodes m') = length (m_nodes m) /\ length (m_idx m') = length (m_idx m) /\
    (forall i, In i ids -> nth_error (m_nodes m') i = nth_error (m_nodes m) i) /\
    (forall i, In i pos -> nth_error (m_idx m') i = nth_error (m_idx m) i).

  Definition epos (e : ent) : list nat := seq (e_begin e) (e_len e).

  (** The program only touches what it owns and ends as it should. *)
  Fixpoint wp (e : ent) (p : prog) (c : option nat) (m : smem) : Prop :=
    match p with
    | Ret r => post e r c m
    | Fail => False
    | RdN i k => In i (own e c) /\ forall v, nth_error (m_nodes m) i = Some v -> wp e (k v) c m
    | WrN i v k => In i (own e c) /\ wp e k c (Sm (upd (m_nodes m) i v) (m_idx m) (m_ctr m))
    | RdI i k => In i (epos e) /\ forall v, nth_error (m_idx m) i = Some v -> wp e (k v) c m
    | WrI i v k => In i (epos e) /\ wp e k c (Sm (m_nodes m) (upd (m_idx m) i v) (m_ctr m))
    | Alloc k => c = None /\ 2 <= e_len e /\ forall left m', same (own e c) (epos e) m m' -> S left < slots ->
        S left < length (m_nodes m') -> e_node e < left -> wp e (k left) (Some left) m'
    end.

  Lemma same_refl : forall ids pos m, same ids pos m m.
  Proof. unfold same; auto. Qed.
  Lemma same_trans : forall ids pos m1 m2 m3, same ids pos m1 m2 -> same ids pos m2 m3 -> same ids pos m1 m3.
  Proof.
    intros ids pos m1 m2 m3 (A & B & C & D) (A' & B' & C' & D'). unfold same. repeat split; try congruence.
    - intros i I. rewrite C', C; auto.
    - intros i I. rewrite D', D; auto.
  Qed.
  Lemma same_sub : forall ids pos ids' pos' m m', incl ids' ids -> incl pos' pos -> same ids pos m m' -> same ids' pos' m m'.
  Proof. intros ids pos ids' pos' m m' I J (A & B & C & D). unfold same. repeat split; auto. Qed.
  Lemma same_upd : forall ids pos m m' ns ns' is is' c c',
    same ids pos m m' ->
    (forall i, In i ids -> nth_error (m_nodes m') i = nth_error (m_nodes m) i -> nth_error ns' i = nth_error ns i) ->
    (forall i, In i pos -> nth_error (m_idx m') i = nth_error (m_idx m) i -> nth_error is' i = nth_error is i) ->
    length ns' = length ns -> length is' = length is -> same ids pos (Sm ns is c) (Sm ns' is' c').
  Proof. intros ids pos m m' ns ns' is is' c c' (A & B & C & D) H1 H2 L1 L2. unfold same; simpl. auto 8. Qed.

  Lemma nth_error_upd : forall A (l : list A) i v j,
    nth_error (upd l i v) j = if (i =? j) && (i <? length l) then Some v else nth_error l j.
  Proof.
    intros A l i v j. destruct (Nat.eqb_spec i j) as [->|N]; simpl; [|apply nth_error_upd_other; auto].
    destruct (Nat.ltb_spec j (length l)) as [L|L]; [apply nth_error_upd_same; auto|].
    rewrite (proj2 (nth_error_None l j)) by auto. apply nth_error_None. rewrite upd_length. auto.
  Qed.

  Lemma at_idx_same : forall e m m' b l ids, same ids (epos e) m m' -> at_idx m b l ->
    e_begin e <= b -> b + length l <= e_begin e + e_len e -> at_idx m' b l.
  Proof.
    intros e m m' b l ids (_ & _ & _ & D) A L1 L2 j Lj. rewrite D; auto. unfold epos. apply in_seq. lia.
  Qed.
  Lemma waits_same : forall ids pos e m m', same ids pos m m' -> In (e_node e) ids -> incl (epos e) pos -> waits e m -> waits e m'.
  Proof.
    intros ids pos e m m' S I J (A & B & C & D & E & F). unfold waits. repeat split; auto.
    - destruct S as (_ & _ & S & _). rewrite S; auto.
    - apply at_idx_same with (e := e) (m := m) (ids := ids); auto. eapply same_sub; eauto. apply incl_refl.
  Qed.

  Lemma post_same : forall e r c m m', same (own e c) (epos e) m m' -> post e r c m -> post e r c m'.
  Proof.
    intros e r c m m' S P. pose proof S as (_ & _ & S3 & S4). destruct r as [[a b]|]; simpl in *.
    - destruct P as (c' & el & er & nd & -> & Lt & Ea & Eb & N1 & N2 & B1 & B2 & L & Wl & Wr & En & X1 & X2 & Es).
      assert (waits el m') as Wl'.
      { apply (waits_same _ _ _ _ _ S); auto; [simpl; rewrite N1; auto|]. intros x Hx. unfold epos in *. apply in_seq in Hx. apply in_seq. lia. }
      assert (waits er m') as Wr'.
      { apply (waits_same _ _ _ _ _ S); auto; [simpl; rewrite N2; auto|]. intros x Hx. unfold epos in *. apply in_seq in Hx. apply in_seq. lia. }
      assert (nth_error (m_nodes m') (e_node e) = Some nd) as En' by (rewrite S3; simpl; auto).
      exists c', el, er, nd. auto 20.
    - destruct P as (-> & nd & ids' & En & A & L & X1 & X2 & Es). split; auto. exists nd, ids'. repeat split; auto.
      + rewrite S3; auto. simpl; auto.
      + eapply at_idx_same; eauto; lia.
  Qed.

  Lemma wp_same : forall e p c m m', same (own e c) (epos e) m m' -> wp e p c m -> wp e p c m'.
  Proof.
    intros e p. induction p as [r| |i k IH|i v k IH|i k IH|i v k IH|k IH]; intros c m m' S W; simpl in *.
    - eapply post_same; eauto.
    - auto.
    - destruct W as [I W]. split; auto. intros v E. eapply IH; eauto. apply W. destruct S as (_ & _ & S & _). rewrite <- S; auto.
    - destruct W as [I W]. split; auto. eapply IH; [|apply W].
      eapply same_upd; eauto; try (rewrite !upd_length; apply S).
      + intros j J E. rewrite !nth_error_upd, E. destruct S as (-> & _). auto.
      + apply S.
    - destruct W as [I W]. split; auto. intros v E. eapply IH; eauto. apply W. destruct S as (_ & _ & _ & S). rewrite <- S; auto.
    - destruct W as [I W]. split; auto. eapply IH; [|apply W].
      eapply same_upd; eauto; try (rewrite !upd_length; apply S).
      + intros j J E. rewrite !nth_error_upd, E. destruct S as (_ & -> & _). auto.
      + apply S.
    - destruct W as (E & L & W). split; auto. split; auto. intros left m2 S2 L2 L3 N1. apply W; auto.
      eapply same_trans; eauto.
  Qed.

  (** ** The program of a task *)

  Lemma wp_read_ids : forall e c m k len i acc l, at_idx m i l -> length l = len ->
    e_begin e <= i -> i + len <= e_begin e + e_len e ->
    wp e (k (rev acc ++ l)) c m -> wp e (read_ids i len acc k) c m.
  Proof.
    intros e c m k. induction len as [|len IH]; intros i acc l A L L1 L2 W; simpl.
    - destruct l; [|discriminate]. rewrite app_nil_r in W. auto.
    - destruct l as [|x l]; [discriminate|]. simpl in L. split; [apply in_seq; lia|].
      intros v E. specialize (A 0) as A0. rewrite Nat.add_0_r in A0. rewrite A0 in E by (simpl; lia). simpl in E. injection E as <-.
      apply IH with (l := l); try lia.
      + intros j Lj. specialize (A (S j)). simpl in A. rewrite Nat.add_succ_r in A. apply A. lia.
      + simpl. rewrite <- app_assoc. auto.
  Qed.

  Lemma at_idx_upd : forall ns is c b l i v, at_idx (Sm ns is c) b l -> i < length l -> b + length l <= length is ->
    at_idx (Sm ns (upd is (b + i) v) c) b (upd l i v).
  Proof.
    intros ns is c b l i v A Li Lb j Lj. rewrite upd_length in Lj. simpl. rewrite !nth_error_upd.
    replace (b + i =? b + j) with (i =? j) by (destruct (Nat.eqb_spec i j), (Nat.eqb_spec (b + i) (b + j)); auto; lia).
    replace (b + i <? length is) with true by (symmetry; apply Nat.ltb_lt; lia).
    replace (i <? length l) with true by (symmetry; apply Nat.ltb_lt; lia).
    destruct (i =? j); simpl; [reflexivity|apply (A j Lj)].
  Qed.

  Lemma wp_part_loop : forall e c check k len i count l m l' cnt, at_idx m (e_begin e) l -> length l = e_len e ->
    i + len <= e_len e -> count <= i -> e_begin e + e_len e <= length (m_idx m) ->
    partition_loop check i len l count = Ok (l', cnt) ->
    (forall m', at_idx m' (e_begin e) l' -> m_nodes m' = m_nodes m -> length (m_idx m') = length (m_idx m) -> wp e (k cnt) c m') ->
    wp e (part_loop check (e_begin e) i len count k) c m.
  Proof.
    intros e c check k. induction len as [|len IH]; intros i count l m l' cnt A L Li Lc Lm P W; simpl in *.
    - injection P as -> ->. apply W; auto.
    - split; [apply in_seq; lia|]. intros v Ev.
      rewrite (A i) in Ev by lia. unfold get in P. rewrite Ev in P. simpl in P.
      destruct (check v) eqn:Ck.
      + split; [apply in_seq; lia|]. intros a Ea. rewrite (A i) in Ea by lia. assert (a = v) as -> by congruence.
        split; [apply in_seq; lia|]. intros b Eb. rewrite (A count) in Eb by lia.
        split; [apply in_seq; lia|]. split; [apply in_seq; lia|]. cbn [m_nodes m_idx m_ctr].
        unfold swap in P. rewrite Ev, Eb in P. simpl in P.
        eapply IH; [| | | | |apply P|].
        * destruct m as [ns is ct]. cbn [m_nodes m_idx m_ctr] in *.
          apply at_idx_upd; [apply at_idx_upd; auto; lia|rewrite upd_length; lia|rewrite !upd_length; lia].
        * rewrite !upd_length; auto.
        * lia.
        * lia.
        * simpl. rewrite !upd_length. auto.
        * intros m' A' N' L'. apply W; auto. simpl in L'. rewrite !upd_length in L'. auto.
      + eapply IH; eauto; lia.
  Qed.

  Lemma fill_ok : forall bounds ids, Forall (fun p => p < n) ids -> exists bins, fill aabbs centers bounds ids = Ok bins.
  Proof.
    intros bounds ids F. unfold fill. generalize (repeat empty_bin BINS, repeat empty_bin BINS, repeat empty_bin BINS) as s.
    induction F as [|p ids Lp F IH]; intro s; simpl; [eauto|].
    unfold fill_one, get.
    destruct (nth_error centers p) as [cp|] eqn:E1; [|apply nth_error_None in E1; lia].
    destruct (nth_error aabbs p) as [bp|] eqn:E2; [|apply nth_error_None in E2; fold n in E2; lia].
    simpl. destruct s as [[s0 s1] s2]. simpl. apply IH.
  Qed.
  Lemma plan_ok : forall bounds ids, Forall (fun p => p < n) ids -> exists pl, make_plan aabbs centers mls bounds ids = Ok pl.
  Proof.
    intros bounds ids F. unfold make_plan. destruct (fill_ok bounds ids F) as (bins & ->). cbn [bind].
    destruct ((_ =? BINS) || _); [destruct (mls <? length ids)|]; eauto.
  Qed.

  Lemma small_u32 : forall k, k < 2 * n -> as_i32 (as_u32 (Z.of_nat k)) = Z.of_nat k.
  Proof.
    intros k L. unfold as_i32, as_u32. rewrite (Z.mod_small (Z.of_nat k)) by lia. rewrite Z.mod_small by lia.
    destruct (Z.ltb_spec (Z.of_nat k) 2147483648); lia.
  Qed.

  Lemma own_in : forall e c, In (e_node e) (own e c).
  Proof. intros e [c|]; simpl; auto. Qed.

  (** [make_leaf] and return. *)
  Lemma wp_leaf : forall e m b1 ids', nth_error (m_nodes m) (e_node e) = Some b1 -> at_idx m (e_begin e) ids' ->
    length ids' = e_len e -> e_begin e + e_len e <= n ->
    (let b2 := with_offset b1 f1em4 in
     sah_of e = (SLeaf (bmin b2) (bmax b2) (Z.of_nat (e_begin e)) (Z.of_nat (e_len e)), ids')) ->
    wp e (leaf_prog (task_of e)) None m.
  Proof.
    intros e m b1 ids' En A L Lb S. unfold leaf_prog. cbn [wp task_of k_node k_begin k_end own].
    assert (e_node e < length (m_nodes m)) as Ln by (apply nth_error_Some; congruence).
    split; [simpl; auto|]. intros v Ev. assert (v = b1) as -> by congruence.
    split; [simpl; auto|]. split; [simpl; auto|]. split; [simpl; auto|].
    cbn [post m_nodes m_idx]. split; auto.
    eexists _, ids'. split; [apply nth_error_upd_same; rewrite !upd_length; auto|].
    split; [exact A|]. split; auto.
    unfold set_count, set_left_first. cbn [ex1 ex2 bmin bmax].
    replace (e_begin e + e_len e - e_begin e) with (e_len e) by lia.
    rewrite !small_u32 by lia. split; auto.
  Qed.

  Lemma run_wp : forall e m, waits e m -> length (m_idx m) = n ->
    wp e (run slots mls aabbs centers (task_of e)) None m.
  Proof.
    intros e m (En & A & Lp & F & Lb & Ld) Li. unfold run. cbn [wp task_of k_node k_begin k_end k_depth own].
    assert (e_node e < length (m_nodes m)) as Ln by (apply nth_error_Some; congruence).
    assert (b_work (task_of e) = e_len e) as Hw by (unfold b_work, task_of; simpl; lia).
    change (Bt (e_node e) (e_begin e) (e_begin e + e_len e) (e_depth e)) with (task_of e) in *. rewrite Hw.
    split; [simpl; auto|]. intros v Ev. assert (v = e_box e) as -> by congruence. clear Ev.
    split; [simpl; auto|].
    set (b1 := with_offset (e_box e) f1em4).
    set (m1 := Sm (upd (m_nodes m) (e_node e) b1) (m_idx m) (m_ctr m)).
    assert (nth_error (m_nodes m1) (e_node e) = Some b1) as E1 by (apply nth_error_upd_same; auto).
    assert (at_idx m1 (e_begin e) (e_ids e)) as A1 by exact A.
    assert (length (m_idx m1) = n) as Li1 by exact Li.
    clearbody m1. clear En A m Li Ln. rename m1 into m, E1 into E, A1 into A, Li1 into Li.
    assert (e_node e < length (m_nodes m)) as Ln by (apply nth_error_Some; congruence).
    destruct ((e_len e <=? 1) || (MAX_DEPTH <=? e_depth e)) eqn:Stop.
    - eapply wp_leaf; eauto. fold b1. unfold sah_of.
      destruct (MAX_DEPTH - e_depth e) as [|k] eqn:Ek; cbn [sah]; fold b1; fold (e_len e); auto.
      apply orb_true_iff in Stop as [St|St]; [rewrite St; auto|]. apply Nat.leb_le in St. lia.
    - apply orb_false_iff in Stop as [S1 S2]. apply Nat.leb_gt in S1, S2.
      cbn [wp]. split; [simpl; auto|]. intros v Ev. assert (v = b1) as -> by congruence. clear Ev.
      apply wp_read_ids with (l := e_ids e); auto. cbn [rev app].
      destruct (plan_ok b1 (e_ids e) F) as (pl & Epl). rewrite Epl.
      assert (forall (P : shape * list nat -> Prop),
        (forall k, MAX_DEPTH - e_depth e = S k -> MAX_DEPTH - S (e_depth e) = k ->
         P (match pl with
            | Split axis si lb rb =>
                match partition (e_ids e) 0 (length (e_ids e)) (goes_left centers b1 axis si) with
                | Ok (ids', c) =>
                  if (0 <? c) && (c <? length (e_ids e)) then
                    let l := sah k (e_begin e) (firstn c ids') lb in
                    let r := sah k (e_begin e + c) (skipn c ids') rb in
                    (SNode (bmin b1) (bmax b1) (fst l) (fst r), snd l ++ snd r)
                  else (SLeaf (bmin (with_offset b1 f1em4)) (bmax (with_offset b1 f1em4)) (Z.of_nat (e_begin e)) (Z.of_nat (length ids')), ids')
                | _ => (SLeaf (bmin (with_offset b1 f1em4)) (bmax (with_offset b1 f1em4)) (Z.of_nat (e_begin e)) (Z.of_nat (length (e_ids e))), e_ids e)
                end
            | MakeLeaf => (SLeaf (bmin (with_offset b1 f1em4)) (bmax (with_offset b1 f1em4)) (Z.of_nat (e_begin e)) (Z.of_nat (length (e_ids e))), e_ids e)
            end)) -> P (sah_of e)) as Unf.
      { intros P H. destruct (MAX_DEPTH - e_depth e) as [|k] eqn:Ek; [lia|]. specialize (H k eq_refl ltac:(lia)).
        unfold sah_of. rewrite Ek. cbn [sah]. fold b1. destruct (Nat.leb_spec (length (e_ids e)) 1) as [Q|Q]; [unfold e_len in S1; lia|].
        rewrite Epl. destruct pl as [|axis si lb rb]; auto. }
      destruct pl as [|axis si lb rb].
      + eapply wp_leaf; eauto. fold b1. apply Unf. auto.
      + destruct (partition_spec _ (e_ids e) (length (e_ids e)) (goes_left centers b1 axis si)) as (ids' & cnt & Ep & Ec & Lc & Pm & Lids & _); auto.
        pose proof Ep as Ep'. unfold partition in Ep. rewrite Nat.sub_0_r in Ep.
        eapply wp_part_loop; [exact A| | | | |exact Ep|]; auto; try lia.
        intros m2 A2 N2 L2.
        assert (Forall (fun p => p < n) ids') as F' by (eapply Permutation_Forall; [symmetry; eauto|auto]).
        destruct ((0 <? cnt) && (cnt <? e_len e)) eqn:Both.
        * apply andb_true_iff in Both as [B1 B2]. apply Nat.ltb_lt in B1, B2.
          cbn [wp]. split; auto. split; [lia|]. intros left m3 S3 Ls Lm3 N3.
          assert (e_node e <> left /\ e_node e <> S left) as [N5 N6] by (split; lia).
          destruct (Nat.leb_spec slots left) as [Bad|_]; [lia|].
          assert (nth_error (m_nodes m3) (e_node e) = Some b1) as E3.
          { destruct S3 as (_ & _ & S3 & _). rewrite S3, N2; simpl; auto. }
          assert (at_idx m3 (e_begin e) ids') as A3 by (eapply at_idx_same; eauto; unfold e_len; lia).
          cbn [wp own]. split; [simpl; auto|]. intros v Ev. assert (v = b1) as -> by congruence.
          split; [simpl; auto|]. split; [simpl; auto|]. split; [simpl; auto|]. split; [simpl; auto|].
          cbn [m_nodes m_idx m_ctr post].
          set (el := En left (e_begin e) (firstn cnt ids') (S (e_depth e)) lb).
          set (er := En (S left) (e_begin e + cnt) (skipn cnt ids') (S (e_depth e)) rb).
          assert (e_len el = cnt) as Ll by (unfold e_len, el; simpl; rewrite firstn_length; unfold e_len in *; lia).
          assert (e_len er = e_len e - cnt) as Lr by (unfold e_len, er; simpl; rewrite skipn_length; unfold e_len in *; lia).
          assert (length (m_nodes m3) = length (m_nodes m3)) as Hn by auto.
          assert (e_node e < length (m_nodes m3)) as Ln3 by (apply nth_error_Some; congruence).
          eexists left, el, er, _. split; auto. split; auto.
          split; [unfold task_of; rewrite Ll; reflexivity|].
          split; [unfold task_of; rewrite Lr; unfold er; simpl; f_equal; lia|].
          split; auto. split; auto. split; auto. split; [rewrite Ll; reflexivity|]. split; [lia|].
          rewrite <- (firstn_skipn cnt ids') in F'. apply Forall_app in F' as [F1 F2].
          split.
          { unfold waits. cbn [m_nodes m_idx]. split.
            - change (e_node el) with left. rewrite nth_error_upd_other by auto. apply nth_error_upd_same. rewrite !upd_length. lia.
            - split; [|split; [lia|split; [exact F1|split; [rewrite Ll; change (e_begin el) with (e_begin e); lia|simpl; lia]]]].
              intros j Lj. change (e_ids el) with (firstn cnt ids') in Lj |- *. rewrite firstn_length in Lj. cbn [m_idx e_begin el].
              rewrite (A3 j) by lia. rewrite <- (firstn_skipn cnt ids') at 1. rewrite nth_error_app1; auto. rewrite firstn_length; lia. }
          split.
          { unfold waits. cbn [m_nodes m_idx]. split.
            - change (e_node er) with (S left). apply nth_error_upd_same. rewrite !upd_length. lia.
            - split; [|split; [lia|split; [exact F2|split; [rewrite Lr; change (e_begin er) with (e_begin e + cnt); lia|simpl; lia]]]].
              intros j Lj. change (e_ids er) with (skipn cnt ids') in Lj |- *. rewrite skipn_length in Lj. cbn [m_idx e_begin er].
              rewrite <- Nat.add_assoc. rewrite (A3 (cnt + j)) by lia. rewrite <- (firstn_skipn cnt ids') at 1.
              rewrite nth_error_app2 by (rewrite firstn_length; lia). f_equal. rewrite firstn_length. lia. }
          split.
          { rewrite !nth_error_upd_other by auto. apply nth_error_upd_same. rewrite upd_length. auto. }
          unfold set_count, set_left_first. cbn [ex1 ex2 bmin bmax].
          split; [lia|]. split; [apply small_u32; unfold slots in *; lia|].
          apply Unf. intros k Ek Ek'. rewrite Ep'. fold (e_len e).
          replace ((0 <? cnt) && (cnt <? e_len e)) with true
            by (symmetry; apply andb_true_iff; split; apply Nat.ltb_lt; auto).
          unfold sah_of. cbn [e_depth e_begin e_ids e_box el er]. rewrite Ek'. reflexivity.
        * apply (wp_leaf e m2 b1 ids'); auto; [rewrite N2; auto|]. cbn zeta.
          apply Unf. intros k Ek Ek'. rewrite Ep'. fold (e_len e). rewrite Both. unfold e_len. rewrite Lids. reflexivity.
  Qed.

  (** ** The whole memory *)
  Fixpoint agree (m : smem) (g : gt) : Prop :=
    match g with
    | GOpen e c None => c = None /\ waits e m
    | GOpen e c (Some p) => wp e p c m /\ e_begin e + e_len e <= n
    | GLeaf i b nd ids => nth_error (m_nodes m) i = Some nd /\ at_idx m b ids /\
        ex1 nd = Z.of_nat (length ids) /\ ex2 nd = Z.of_nat b
    | GNode i nd l r => nth_error (m_nodes m) i = Some nd /\ i < g_idx l /\ (ex1 nd < 0)%Z /\ ex2 nd = Z.of_nat (g_idx l) /\
        g_idx r = S (g_idx l) /\ agree m l /\ agree m r
    end.

  Lemma agree_same : forall g m m', same (gids g) (gpos g) m m' -> agree m g -> agree m' g.
  Proof.
    induction g as [e c p|i b nd ids|i nd l IHl r IHr]; intros m m' S A; simpl in *.
    - destruct p as [p|].
      + destruct A as [A L]. split; auto. eapply wp_same; eauto.
      + destruct A as [-> A]. split; auto. apply (waits_same _ _ _ _ _ S); simpl; auto. apply incl_refl.
    - destruct A as (A & B & C). destruct S as (_ & _ & S3 & S4). split; [rewrite S3; simpl; auto|]. split; auto.
      intros j Lj. rewrite S4; auto. apply in_seq. lia.
    - destruct A as (A & A' & B & C & D & Al & Ar). split; [destruct S as (_ & _ & -> & _); simpl; auto|].
      repeat (split; [auto; fail|]). split.
      + eapply IHl; eauto. eapply same_sub; eauto; [right; apply in_or_app; auto|apply incl_appl, incl_refl].
      + eapply IHr; eauto. eapply same_sub; eauto; [right; apply in_or_app; auto|apply incl_appr, incl_refl].
  Qed.

  (** Contexts. *)
  Inductive frame := FL (i : nat) (nd : aabb) (r : gt) | FR (i : nat) (nd : aabb) (l : gt).
  Fixpoint plug (C : list frame) (x : gt) : gt :=
    match C with
    | [] => x
    | FL i nd r :: C => GNode i nd (plug C x) r
    | FR i nd l :: C => GNode i nd l (plug C x)
    end.
  Definition sib (f : frame) : gt := match f with FL _ _ r => r | FR _ _ l => l end.
  Definition f_idx (f : frame) : nat := match f with FL i _ _ => i | FR i _ _ => i end.
  Definition cids (C : list frame) : list nat := flat_map (fun f => f_idx f :: gids (sib f)) C.
  Definition cpos (C : list frame) : list nat := flat_map (fun f => gpos (sib f)) C.
  Definition citems (C : list frame) := flat_map (fun f => gitems (sib f)) C.

  Lemma plug_ids : forall C x, Permutation (gids (plug C x)) (gids x ++ cids C).
  Proof.
    induction C as [|[i nd g|i nd g] C IH]; intro x; simpl.
    - rewrite app_nil_r. auto.
    - rewrite <- Permutation_middle. apply perm_skip. rewrite IH, <- app_assoc. apply Permutation_app_head, Permutation_app_comm.
    - rewrite IH. rewrite <- Permutation_middle. apply perm_skip. apply Permutation_app_swap_app.
  Qed.

  Definition cmade (C : list frame) : list nat := flat_map (fun f => f_idx f :: gmade (sib f)) C.
  Lemma plug_made : forall C x, Permutation (gmade (plug C x)) (gmade x ++ cmade C).
  Proof.
    induction C as [|[i nd g|i nd g] C IH]; intro x; simpl.
    - rewrite app_nil_r. auto.
    - rewrite <- Permutation_middle. apply perm_skip. rewrite IH, <- app_assoc. apply Permutation_app_head, Permutation_app_comm.
    - rewrite IH. rewrite <- Permutation_middle. apply perm_skip. apply Permutation_app_swap_app.
  Qed.
  Lemma plug_pos : forall C x, exists pre suf, (forall y, gpos (plug C y) = pre ++ gpos y ++ suf) /\
    Permutation (gpos (plug C x)) (gpos x ++ cpos C).
  Proof.
    induction C as [|[i nd g|i nd g] C IH]; intro x; simpl.
    - exists [], []. split; [intro; rewrite app_nil_r; auto|rewrite app_nil_r; auto].
    - destruct (IH x) as (pre & suf & H & P). exists pre, (suf ++ gpos g). split.
      + intro y. rewrite H, <- !app_assoc. auto.
      + rewrite P, <- app_assoc. apply Permutation_app_head, Permutation_app_comm.
    - destruct (IH x) as (pre & suf & H & P). exists (gpos g ++ pre), suf. split.
      + intro y. rewrite H, <- !app_assoc. auto.
      + rewrite P. apply Permutation_app_swap_app.
  Qed.
  Lemma plug_items : forall C x, Permutation (gitems (plug C x)) (gitems x ++ citems C).
  Proof.
    induction C as [|[i nd g|i nd g] C IH]; intro x; simpl.
    - rewrite app_nil_r. auto.
    - rewrite IH, <- app_assoc. apply Permutation_app_head, Permutation_app_comm.
    - rewrite IH. apply Permutation_app_swap_app.
  Qed.
  Lemma plug_budget : forall C, exists k, forall x, gbudget (plug C x) = gbudget x + k.
  Proof.
    induction C as [|[i nd g|i nd g] C (k & IH)]; simpl.
    - exists 0. intro; lia.
    - exists (k + gbudget g). intro x. rewrite IH. lia.
    - exists (k + gbudget g). intro x. rewrite IH. lia.
  Qed.
  Lemma plug_pred : forall C x y, gpred x = gpred y -> gpred (plug C x) = gpred (plug C y).
  Proof. induction C as [|[i nd g|i nd g] C IH]; intros x y E; simpl; auto; rewrite (IH x y E); auto. Qed.
  Lemma plug_idx : forall C x y, g_idx x = g_idx y -> g_idx (plug C x) = g_idx (plug C y).
  Proof. intros [|[i nd g|i nd g] C] x y E; simpl; auto. Qed.
  Lemma plug_agree : forall C x m, agree m (plug C x) -> agree m x.
  Proof. induction C as [|[i nd g|i nd g] C IH]; intros x m A; simpl in *; auto; apply IH, A. Qed.
  Lemma plug_replace : forall C x y m m', agree m (plug C x) -> g_idx x = g_idx y -> agree m' y ->
    same (cids C) (cpos C) m m' -> agree m' (plug C y).
  Proof.
    induction C as [|[i nd g|i nd g] C IH]; intros x y m m' A E Ay S; simpl in *; auto;
      destruct A as (A1 & A' & A2 & A3 & A4 & Al & Ar).
    - split; [destruct S as (_ & _ & -> & _); simpl; auto|]. split; [rewrite (plug_idx C y x); auto|]. split; auto. split; [rewrite (plug_idx C y x); auto|].
      split; [rewrite (plug_idx C y x); auto|]. split.
      + eapply IH; eauto. eapply same_sub; eauto; [intros z Hz; right; apply in_or_app; auto|apply incl_appr, incl_refl].
      + eapply agree_same; eauto. eapply same_sub; eauto; [intros z Hz; right; apply in_or_app; auto|apply incl_appl, incl_refl].
    - split; [destruct S as (_ & _ & -> & _); simpl; auto|]. split; auto. split; auto. split; auto.
      split; [rewrite (plug_idx C y x); auto|]. split.
      + eapply agree_same; eauto. eapply same_sub; eauto; [intros z Hz; right; apply in_or_app; auto|apply incl_appl, incl_refl].
      + eapply IH; eauto. eapply same_sub; eauto; [intros z Hz; right; apply in_or_app; auto|apply incl_appr, incl_refl].
  Qed.

  Lemma find_item : forall g t p, In (t, p) (gitems g) -> exists C e c, g = plug C (GOpen e c p) /\ task_of e = t.
  Proof.
    induction g as [e c q|i b nd ids|i nd l IHl r IHr]; intros t p I; simpl in I.
    - destruct I as [I|[]]. injection I as <- <-. exists [], e, c. auto.
    - destruct I.
    - apply in_app_or in I as [I|I].
      + destruct (IHl t p I) as (C & e & c & -> & E). exists (FL i nd r :: C), e, c. auto.
      + destruct (IHr t p I) as (C & e & c & -> & E). exists (FR i nd l :: C), e, c. auto.
  Qed.

  (** ** The invariant *)
  Definition root_ent : ent := En 0 0 (seq 0 n) 0 (union_of_list aabbs).
  Definition th_items (th : thread btask prog) : list (btask * option prog) :=
    match t_cur th with Some (t, p) => [(t, Some p)] | None => [] end ++ map (fun t => (t, None)) (t_stack th).
  Definition items (ths : list (thread btask prog)) := flat_map th_items ths.

  Record inv (s : state btask smem prog) (g : gt) : Prop := Inv {
    i_items : Permutation (gitems g) (items (s_threads s));
    i_ids : Permutation (gids g) (seq 0 (m_ctr (s_mem s)));
    i_pos : gpos g = seq 0 n;
    i_budget : m_ctr (s_mem s) + gbudget g <= slots;
    i_nodes : length (m_nodes (s_mem s)) = slots;
    i_idx : length (m_idx (s_mem s)) = n;
    i_agree : agree (s_mem s) g;
    i_pred : gpred g = sah_of root_ent;
    i_root : g_idx g = 0;
    i_made : Permutation (map k_node (root_task aabbs :: new_tasks (s_trace s))) (gmade g);
  }.

  Notation start := (run slots mls aabbs centers).
  Notation step := (step start b_work pstep WORK_THRESHOLD).
  Notation reachable := (reachable start b_work pstep WORK_THRESHOLD).
  Notation init := (initial (binned_start aabbs) (root_task aabbs)).

  Lemma inv_init : inv init (GOpen root_ent None None).
  Proof.
    assert (length (repeat node_new slots) = slots) as Lr by apply repeat_length.
    unfold initial, binned_start. fold n slots. constructor; cbn [s_mem s_threads m_ctr m_nodes m_idx].
    - simpl. unfold task_of, root_task, root_ent, e_len. simpl. rewrite seq_length. auto.
    - simpl. auto.
    - simpl. unfold e_len. simpl. rewrite seq_length. auto.
    - simpl gbudget. unfold e_len. simpl e_ids. rewrite seq_length. unfold slots. lia.
    - rewrite upd_length, repeat_length. auto.
    - apply seq_length.
    - cbn [agree]. split; auto. unfold waits, root_ent, e_len. cbn [m_nodes m_idx e_node e_box e_begin e_ids e_depth].
      rewrite seq_length. split; [apply nth_error_upd_same; rewrite repeat_length; unfold slots; lia|].
      split; [intros j Lj; auto|]. split; [lia|]. split; [apply Forall_forall; intros p I; apply in_seq in I; lia|].
      unfold MAX_DEPTH. lia.
    - reflexivity.
    - reflexivity.
    - simpl. auto.
  Qed.

  Lemma items_mid : forall l1 x l2, Permutation (items (l1 ++ x :: l2)) (th_items x ++ items (l1 ++ l2)).
  Proof. intros. apply flat_map_mid. Qed.

  (** Replacing one open node. *)
  Lemma replace_open : forall s m' ths' tr' C e c p y its rest,
    inv s (plug C (GOpen e c p)) ->
    Permutation (items (s_threads s)) ((task_of e, p) :: rest) ->
    Permutation (items ths') (its ++ rest) ->
    gitems y = its ->
    (forall D, Permutation (gids (plug C (GOpen e c p))) (own e c ++ D) -> Permutation (gids y ++ D) (seq 0 (m_ctr m'))) ->
    gpos y = epos e ->
    m_ctr m' + gbudget y <= m_ctr (s_mem s) + gbudget (GOpen e c p) ->
    length (m_nodes m') = slots -> length (m_idx m') = n ->
    agree m' y -> gpred y = sah_of e -> g_idx y = e_node e ->
    same (cids C) (cpos C) (s_mem s) m' ->
    Permutation (map k_node (new_tasks tr') ++ [e_node e]) (map k_node (new_tasks (s_trace s)) ++ gmade y) ->
    inv (St m' ths' tr') (plug C y).
  Proof.
    intros s m' ths' tr' C e c p y its rest I P1 P2 Gi Gd Gp Gb Ln Li Ag Gr Gx S Mk.
    constructor; cbn [s_mem s_threads s_trace].
    - rewrite plug_items, P2, Gi. apply Permutation_app_head.
      apply (Permutation_cons_inv (a := (task_of e, p))). rewrite <- P1, <- (i_items _ _ I), plug_items. auto.
    - rewrite plug_ids. apply Gd. apply plug_ids.
    - destruct (plug_pos C y) as (pre & suf & H & _). rewrite H, Gp. rewrite <- (i_pos _ _ I), H. auto.
    - pose proof (i_budget _ _ I) as B. destruct (plug_budget C) as (k & H). rewrite H in *. lia.
    - auto.
    - auto.
    - eapply plug_replace; [apply (i_agree _ _ I)| | |]; auto.
    - rewrite <- (i_pred _ _ I). apply plug_pred. auto.
    - rewrite <- (i_root _ _ I). apply plug_idx. auto.
    - pose proof (i_made _ _ I) as M. rewrite plug_made in M |- *. cbn [gmade map] in *.
      apply (Permutation_app_inv_l [e_node e]).
      rewrite (Permutation_app_comm [e_node e]). cbn [app]. 
      rewrite Mk. change ([e_node e] ++ gmade y ++ cmade C) with (e_node e :: gmade y ++ cmade C).
      rewrite (Permutation_app_comm (gmade y) (cmade C)).
      change (e_node e :: cmade C ++ gmade y) with (([e_node e] ++ cmade C) ++ gmade y). rewrite <- M. auto.
  Qed.

  Lemma open_disjoint : forall s C e c p, inv s (plug C (GOpen e c p)) ->
    (forall i, In i (own e c) -> ~ In i (cids C) /\ i < m_ctr (s_mem s) /\ i < slots) /\
    (forall i, In i (epos e) -> ~ In i (cpos C) /\ i < n) /\
    (forall i, In i (cids C) -> i < m_ctr (s_mem s)).
  Proof.
    intros s C e c p I.
    assert (Permutation (own e c ++ cids C) (seq 0 (m_ctr (s_mem s)))) as P1.
    { rewrite <- (i_ids _ _ I), plug_ids. auto. }
    assert (Permutation (epos e ++ cpos C) (seq 0 n)) as P2.
    { rewrite <- (i_pos _ _ I). destruct (plug_pos C (GOpen e c p)) as (_ & _ & _ & P). rewrite P. auto. }
    pose proof (i_budget _ _ I) as B.
    assert (NoDup (own e c ++ cids C)) as N1 by (eapply Permutation_NoDup; [symmetry; eauto|apply seq_NoDup]).
    assert (NoDup (epos e ++ cpos C)) as N2 by (eapply Permutation_NoDup; [symmetry; eauto|apply seq_NoDup]).
    assert (forall A (l1 l2 : list A) x, NoDup (l1 ++ l2) -> In x l1 -> ~ In x l2) as Nd.
    { induction l1 as [|h t IH]; intros l2 x N Ix; [destruct Ix|]. simpl in N. inversion N; subst.
      destruct Ix as [->|Ix]; auto. intro Bad. apply H1. apply in_or_app. auto. }
    split; [|split].
    - intros i Ii. split; [eapply Nd; eauto|].
      assert (In i (seq 0 (m_ctr (s_mem s)))) as Is by (eapply Permutation_in; [apply P1|apply in_or_app; auto]).
      apply in_seq in Is. lia.
    - intros i Ii. split; [eapply Nd; eauto|].
      assert (In i (seq 0 n)) as Is by (eapply Permutation_in; [apply P2|apply in_or_app; auto]).
      apply in_seq in Is. lia.
    - intros i Ii. assert (In i (seq 0 (m_ctr (s_mem s)))) as Is by (eapply Permutation_in; [apply P1|apply in_or_app; auto]).
      apply in_seq in Is. lia.
  Qed.

  Lemma perm_in : forall s g t p rest, inv s g -> Permutation (items (s_threads s)) ((t, p) :: rest) ->
    exists C e c, g = plug C (GOpen e c p) /\ task_of e = t.
  Proof.
    intros s g t p rest I P. apply find_item. eapply Permutation_in; [symmetry; apply (i_items _ _ I)|].
    eapply Permutation_in; [symmetry; apply P|]. simpl; auto.
  Qed.

  Lemma inv_step : forall s s' g, inv s g -> step s s' -> exists g', inv s' g'.
  Proof.
    intros s s' g I St. inversion St; subst; clear St;
      (destruct (upd_mid _ _ _ _ H) as (l1 & l2 & -> & Hl & Hu)); rewrite Hu; clear Hu.
    - (* pop *)
      assert (Permutation (items (l1 ++ {| t_cur := None; t_stack := t :: st; t_subs := subs |} :: l2))
        ((t, None) :: map (fun t => (t, None)) st ++ items (l1 ++ l2))) as P1 by (rewrite items_mid; auto).
      destruct (perm_in _ _ _ _ _ I P1) as (C & e & c & -> & <-).
      pose proof (i_nodes _ _ I) as Ln. pose proof (i_idx _ _ I) as Li. cbn [s_mem] in Ln, Li.
      pose proof (plug_agree _ _ _ (i_agree _ _ I)) as [-> W]. cbn [s_mem] in W.
      exists (plug C (GOpen e None (Some (start (task_of e))))).
      refine (replace_open _ m _ _ C e _ _ (GOpen e None (Some (start (task_of e)))) [(task_of e, Some (start (task_of e)))] _ I P1 _ _ _ _ _ _ _ _ _ _ _ _); cbn [m_nodes m_idx m_ctr s_mem s_trace].
      { rewrite items_mid. simpl. apply Permutation_refl. }
      { reflexivity. }
      { intros D P. simpl in *. rewrite <- P. apply (i_ids _ _ I). }
      { reflexivity. }
      { apply Nat.le_refl. }
      { auto. }
      { auto. }
      { cbn [agree]. split; [apply run_wp; auto|]. apply W. }
      { reflexivity. }
      { reflexivity. }
      { apply same_refl. }
      { unfold new_tasks. rewrite flat_map_app. simpl. rewrite app_nil_r. auto. }
    - (* run *)
      assert (Permutation (items (l1 ++ {| t_cur := Some (t, p); t_stack := st; t_subs := subs |} :: l2))
        ((t, Some p) :: map (fun t => (t, None)) st ++ items (l1 ++ l2))) as P1 by (rewrite items_mid; auto).
      destruct (perm_in _ _ _ _ _ I P1) as (C & e & c & -> & <-).
      pose proof (i_nodes _ _ I) as Ln. pose proof (i_idx _ _ I) as Li. cbn [s_mem] in Ln, Li.
      pose proof (plug_agree _ _ _ (i_agree _ _ I)) as [W Lb]. cbn [s_mem] in W.
      destruct (open_disjoint _ _ _ _ _ I) as (D1 & D2 & D3). cbn [s_mem] in D1, D3.
      assert (forall q, Permutation (items (l1 ++ {| t_cur := Some (task_of e, q); t_stack := st; t_subs := subs |} :: l2))
        ([(task_of e, Some q)] ++ map (fun t => (t, None)) st ++ items (l1 ++ l2))) as P2 by (intro q; rewrite items_mid; simpl; auto).
      destruct p as [r| |i k|i v k|i k|i v k|k]; cbn [pstep wp] in *; try discriminate.
      + destruct W as [Ii W]. destruct (nth_error (m_nodes m) i) as [v|] eqn:E; [|discriminate]. injection H0 as <- <-.
        exists (plug C (GOpen e c (Some (k v)))).
        refine (replace_open _ m _ _ C e _ _ (GOpen e c (Some (k v))) [(task_of e, Some (k v))] _ I P1 _ _ _ _ _ _ _ _ _ _ _ _); cbn [m_nodes m_idx m_ctr s_mem s_trace].
        { apply P2. }
        { reflexivity. }
        { intros D P. simpl in *. rewrite <- P. apply (i_ids _ _ I). }
        { reflexivity. }
        { destruct c; apply Nat.le_refl. }
        { auto. }
        { auto. }
        { cbn [agree]. auto. }
        { reflexivity. }
        { reflexivity. }
        { apply same_refl. }
        { apply Permutation_refl. }
      + destruct W as [Ii W]. destruct (Nat.ltb_spec i (length (m_nodes m))) as [L|L]; [|discriminate]. injection H0 as <- <-.
        exists (plug C (GOpen e c (Some k))).
        refine (replace_open _ (Sm (upd (m_nodes m) i v) (m_idx m) (m_ctr m)) _ _ C e _ _ (GOpen e c (Some k)) [(task_of e, Some k)] _ I P1 _ _ _ _ _ _ _ _ _ _ _ _); cbn [m_nodes m_idx m_ctr s_mem s_trace].
        { apply P2. }
        { reflexivity. }
        { intros D P. simpl in *. rewrite <- P. apply (i_ids _ _ I). }
        { reflexivity. }
        { destruct c; apply Nat.le_refl. }
        { rewrite ?upd_length. auto. }
        { rewrite ?upd_length. auto. }
        { cbn [agree]. auto. }
        { reflexivity. }
        { reflexivity. }
        { unfold same; cbn [m_nodes m_idx]. rewrite upd_length. repeat split; auto. intros q Hq.
          apply nth_error_upd_other. intros ->. apply (D1 q); auto. }
        { apply Permutation_refl. }
      + destruct W as [Ii W]. destruct (nth_error (m_idx m) i) as [v|] eqn:E; [|discriminate]. injection H0 as <- <-.
        exists (plug C (GOpen e c (Some (k v)))).
        refine (replace_open _ m _ _ C e _ _ (GOpen e c (Some (k v))) [(task_of e, Some (k v))] _ I P1 _ _ _ _ _ _ _ _ _ _ _ _); cbn [m_nodes m_idx m_ctr s_mem s_trace].
        { apply P2. }
        { reflexivity. }
        { intros D P. simpl in *. rewrite <- P. apply (i_ids _ _ I). }
        { reflexivity. }
        { destruct c; apply Nat.le_refl. }
        { auto. }
        { auto. }
        { cbn [agree]. auto. }
        { reflexivity. }
        { reflexivity. }
        { apply same_refl. }
        { apply Permutation_refl. }
      + destruct W as [Ii W]. destruct (Nat.ltb_spec i (length (m_idx m))) as [L|L]; [|discriminate]. injection H0 as <- <-.
        exists (plug C (GOpen e c (Some k))).
        refine (replace_open _ (Sm (m_nodes m) (upd (m_idx m) i v) (m_ctr m)) _ _ C e _ _ (GOpen e c (Some k)) [(task_of e, Some k)] _ I P1 _ _ _ _ _ _ _ _ _ _ _ _); cbn [m_nodes m_idx m_ctr s_mem s_trace].
        { apply P2. }
        { reflexivity. }
        { intros D P. simpl in *. rewrite <- P. apply (i_ids _ _ I). }
        { reflexivity. }
        { destruct c; apply Nat.le_refl. }
        { rewrite ?upd_length. auto. }
        { rewrite ?upd_length. auto. }
        { cbn [agree]. auto. }
        { reflexivity. }
        { reflexivity. }
        { unfold same; cbn [m_nodes m_idx]. rewrite upd_length. repeat split; auto. intros q Hq.
          apply nth_error_upd_other. intros ->. apply (D2 q); auto. }
        { apply Permutation_refl. }
      + destruct W as (-> & L2 & W). injection H0 as <- <-.
        pose proof (i_budget _ _ I) as B. cbn [s_mem] in B. destruct (plug_budget C) as (kb & Hb). rewrite Hb in B. cbn [gbudget] in B.
        exists (plug C (GOpen e (Some (m_ctr m)) (Some (k (m_ctr m))))).
        refine (replace_open _ (Sm (m_nodes m) (m_idx m) (m_ctr m + 2)) _ _ C e _ _ (GOpen e (Some (m_ctr m)) (Some (k (m_ctr m)))) [(task_of e, Some (k (m_ctr m)))] _ I P1 _ _ _ _ _ _ _ _ _ _ _ _); cbn [m_nodes m_idx m_ctr s_mem s_trace].
        { apply P2. }
        { reflexivity. }
        { intros D P. pose proof (i_ids _ _ I) as Pi. cbn [s_mem] in Pi. rewrite P in Pi. cbn [gids own app] in *.
          replace (m_ctr m + 2) with (m_ctr m + 1 + 1) by lia. rewrite !seq_app. cbn [seq].
          replace (0 + (m_ctr m + 1)) with (S (m_ctr m)) by lia. replace (0 + m_ctr m) with (m_ctr m) by lia.
          rewrite <- Pi. cbn [app].
          apply perm_skip. rewrite <- app_assoc. cbn [app].
          change (m_ctr m :: S (m_ctr m) :: D) with ([m_ctr m; S (m_ctr m)] ++ D). apply Permutation_app_comm. }
        { reflexivity. }
        { cbn [gbudget]. lia. }
        { auto. }
        { auto. }
        { cbn [agree]. split; auto. apply W.
          - unfold same; cbn; auto.
          - lia.
          - cbn [m_nodes]. lia.
          - apply D1. apply own_in. }
        { reflexivity. }
        { reflexivity. }
        { unfold same; cbn [m_nodes m_idx]. auto. }
        { apply Permutation_refl. }
    - (* none *)
      assert (Permutation (items (l1 ++ {| t_cur := Some (t, p); t_stack := st; t_subs := subs |} :: l2))
        ((t, Some p) :: map (fun t => (t, None)) st ++ items (l1 ++ l2))) as P1 by (rewrite items_mid; auto).
      destruct (perm_in _ _ _ _ _ I P1) as (C & e & c & -> & <-).
      pose proof (i_nodes _ _ I) as Ln. pose proof (i_idx _ _ I) as Li. cbn [s_mem] in Ln, Li.
      pose proof (plug_agree _ _ _ (i_agree _ _ I)) as [W Lb]. cbn [s_mem] in W.
      destruct p as [r| |i k|i v k|i k|i v k|k]; cbn [pstep] in *; try discriminate;
        try (destruct (nth_error (m_nodes m) i); discriminate); try (destruct (nth_error (m_idx m) i); discriminate);
        try (destruct (i <? length (m_nodes m)); discriminate); try (destruct (i <? length (m_idx m)); discriminate). injection H0 as ->.
      destruct W as (-> & nd & ids' & En & A & L & X1 & X2 & Es).
      exists (plug C (GLeaf (e_node e) (e_begin e) nd ids')).
      refine (replace_open _ m _ _ C e _ _ (GLeaf (e_node e) (e_begin e) nd ids') [] _ I P1 _ _ _ _ _ _ _ _ _ _ _ _); cbn [m_nodes m_idx m_ctr s_mem s_trace].
      { rewrite items_mid. simpl. apply Permutation_refl. }
      { reflexivity. }
      { intros D P. simpl in *. rewrite <- P. apply (i_ids _ _ I). }
      { simpl. unfold epos. congruence. }
      { simpl. lia. }
      { auto. }
      { auto. }
      { cbn [agree s_mem]. repeat split; auto. congruence. }
      { simpl. congruence. }
      { reflexivity. }
      { apply same_refl. }
      { unfold new_tasks. rewrite flat_map_app. simpl. rewrite app_nil_r. auto. }
    - (* push *)
      assert (Permutation (items (l1 ++ {| t_cur := Some (t, p); t_stack := st; t_subs := subs |} :: l2))
        ((t, Some p) :: map (fun t => (t, None)) st ++ items (l1 ++ l2))) as P1 by (rewrite items_mid; auto).
      destruct (perm_in _ _ _ _ _ I P1) as (C & e & c & -> & <-).
      pose proof (i_nodes _ _ I) as Ln. pose proof (i_idx _ _ I) as Li. cbn [s_mem] in Ln, Li.
      pose proof (plug_agree _ _ _ (i_agree _ _ I)) as [W Lb]. cbn [s_mem] in W.
      destruct p as [r| |i k|i v k|i k|i v k|k]; cbn [pstep] in *; try discriminate;
        try (destruct (nth_error (m_nodes m) i); discriminate); try (destruct (nth_error (m_idx m) i); discriminate);
        try (destruct (i <? length (m_nodes m)); discriminate); try (destruct (i <? length (m_idx m)); discriminate). injection H0 as ->.
      destruct W as (c' & el & er & nd & -> & Lt & -> & -> & N1 & N2 & B1 & B2 & Ls & Wl & Wr & En & X1 & X2 & Es).
      exists (plug C (GNode (e_node e) nd (GOpen el None None) (GOpen er None None))).
      refine (replace_open _ m _ _ C e _ _ (GNode (e_node e) nd (GOpen el None None) (GOpen er None None)) [(task_of el, None); (task_of er, None)] _ I P1 _ _ _ _ _ _ _ _ _ _ _ _); cbn [m_nodes m_idx m_ctr s_mem s_trace].
      { rewrite items_mid. simpl. apply (ordered_perm btask b_work) in H1.
        apply (Permutation_map (fun t => (t, @None prog))) in H1. simpl in H1.
        refine (Permutation_app_tail _ (Permutation_sym H1)). }
      { reflexivity. }
      { intros D P. simpl in *. rewrite N1, N2. rewrite <- P. apply (i_ids _ _ I). }
      { simpl. unfold epos. rewrite B1, B2, Ls. symmetry. apply seq_app. }
      { destruct Wl as (_ & _ & Wl & _). destruct Wr as (_ & _ & Wr & _). simpl. lia. }
      { auto. }
      { auto. }
      { cbn [agree s_mem g_idx]. rewrite N1. auto 12. }
      { simpl. congruence. }
      { reflexivity. }
      { apply same_refl. }
      { unfold new_tasks. rewrite flat_map_app. simpl. rewrite map_app, <- app_assoc. apply Permutation_app_head. simpl. apply Permutation_sym. change [e_node e; e_node el; e_node er] with ([e_node e] ++ [e_node el; e_node er]). apply Permutation_app_comm. }
    - (* spawn *)
      assert (Permutation (items (l1 ++ {| t_cur := Some (t, p); t_stack := st; t_subs := subs |} :: l2))
        ((t, Some p) :: map (fun t => (t, None)) st ++ items (l1 ++ l2))) as P1 by (rewrite items_mid; auto).
      destruct (perm_in _ _ _ _ _ I P1) as (C & e & c & -> & <-).
      pose proof (i_nodes _ _ I) as Ln. pose proof (i_idx _ _ I) as Li. cbn [s_mem] in Ln, Li.
      pose proof (plug_agree _ _ _ (i_agree _ _ I)) as [W Lb]. cbn [s_mem] in W.
      destruct p as [r| |i k|i v k|i k|i v k|k]; cbn [pstep] in *; try discriminate;
        try (destruct (nth_error (m_nodes m) i); discriminate); try (destruct (nth_error (m_idx m) i); discriminate);
        try (destruct (i <? length (m_nodes m)); discriminate); try (destruct (i <? length (m_idx m)); discriminate). injection H0 as ->.
      destruct W as (c' & el & er & nd & -> & Lt & -> & -> & N1 & N2 & B1 & B2 & Ls & Wl & Wr & En & X1 & X2 & Es).
      exists (plug C (GNode (e_node e) nd (GOpen el None None) (GOpen er None None))).
      refine (replace_open _ m _ _ C e _ _ (GNode (e_node e) nd (GOpen el None None) (GOpen er None None)) [(task_of el, None); (task_of er, None)] _ I P1 _ _ _ _ _ _ _ _ _ _ _ _); cbn [m_nodes m_idx m_ctr s_mem s_trace].
      { match goal with |- Permutation (items (?a ++ ?b)) _ => replace (items (a ++ b)) with (items a ++ items b) by (symmetry; apply flat_map_app) end.
        rewrite items_mid. rewrite Permutation_app_comm. simpl. apply (ordered_perm btask b_work) in H1.
        apply (Permutation_map (fun t => (t, @None prog))) in H1. simpl in H1.
        refine (Permutation_app_tail _ (Permutation_sym H1)). }
      { reflexivity. }
      { intros D P. simpl in *. rewrite N1, N2. rewrite <- P. apply (i_ids _ _ I). }
      { simpl. unfold epos. rewrite B1, B2, Ls. symmetry. apply seq_app. }
      { destruct Wl as (_ & _ & Wl & _). destruct Wr as (_ & _ & Wr & _). simpl. lia. }
      { auto. }
      { auto. }
      { cbn [agree s_mem g_idx]. rewrite N1. auto 12. }
      { simpl. congruence. }
      { reflexivity. }
      { apply same_refl. }
      { unfold new_tasks. rewrite flat_map_app. simpl. rewrite map_app, <- app_assoc. apply Permutation_app_head. simpl. apply Permutation_sym. change [e_node e; e_node el; e_node er] with ([e_node e] ++ [e_node el; e_node er]). apply Permutation_app_comm. }
    - (* join *)
      exists g. destruct I. constructor; auto. cbn [s_threads] in *. rewrite items_mid in *. auto.
  Qed.

  Theorem reach_inv : forall s, reachable init s -> exists g, inv s g.
  Proof.
    intros s R. induction R as [|s s' R (g & I) St]; [eexists; apply inv_init|]. eapply inv_step; eauto.
  Qed.

  (** ** The end *)
  Fixpoint to_tree (g : gt) : tree :=
    match g with
    | GOpen e _ _ => TLeaf (e_node e) (e_box e)
    | GLeaf i _ nd _ => TLeaf i nd
    | GNode i nd l r => TNode i nd (to_tree l) (to_tree r)
    end.
  Lemma to_tree_idx : forall g, t_idx (to_tree g) = g_idx g.
  Proof. destruct g; auto. Qed.

  Lemma map_nth_at : forall m b l, at_idx m b l -> map (fun k => nth k (m_idx m) 0) (seq b (length l)) = l.
  Proof.
    intros m b l. revert b. induction l as [|x l IH]; intros b A; simpl; auto. f_equal.
    - specialize (A 0). rewrite Nat.add_0_r in A. simpl in A. apply nth_error_nth, A. lia.
    - apply IH. intros j Lj. specialize (A (S j)). simpl in A. rewrite Nat.add_succ_r in A. apply A. lia.
  Qed.

  Lemma done_tree : forall g m, gitems g = [] -> agree m g ->
    repr (m_nodes m) (to_tree g) /\ t_ids (to_tree g) = gids g /\ positions (to_tree g) = gpos g /\
    shape_of (to_tree g) = fst (gpred g) /\ children_after (to_tree g) /\
    map (fun k => nth k (m_idx m) 0) (gpos g) = snd (gpred g).
  Proof.
    induction g as [e c p|i b nd ids|i nd l IHl r IHr]; intros m G A; simpl in *.
    - discriminate.
    - destruct A as (A & B & C & D). unfold leaf_positions. rewrite C, D, !Nat2Z.id.
      repeat split; auto; try lia. apply map_nth_at; auto.
    - apply app_eq_nil in G as [Gl Gr]. destruct A as (A & A' & B & C & D & Al & Ar).
      destruct (IHl m Gl Al) as (R1 & I1 & P1 & S1 & C1 & M1). destruct (IHr m Gr Ar) as (R2 & I2 & P2 & S2 & C2 & M2).
      rewrite !to_tree_idx, I1, I2, P1, P2, S1, S2, map_app, M1, M2. repeat split; auto. lia.
  Qed.

  Theorem returned_bvh : forall s, reachable init s -> returned s ->
    exists t, let b := finish (s_mem s) in
      repr (nodes b) t /\ t_idx t = 0 /\ Permutation (t_ids t) (seq 0 (length (nodes b))) /\
      positions t = seq 0 n /\ length (prim_indices b) = n /\ children_after t /\
      shape_of t = fst (sah_of root_ent) /\ prim_indices b = snd (sah_of root_ent) /\
      length (nodes b) <= slots.
  Proof.
    intros s R Rt. destruct (reach_inv s R) as (g & I).
    pose proof (returned_all _ _ _ _ _ _ _ _ _ _ R Rt) as Fin.
    assert (items (s_threads s) = []) as It.
    { unfold items. clear - Fin. induction Fin as [|th l E F IH]; auto. simpl. rewrite IH, E. reflexivity. }
    assert (gitems g = []) as Gi.
    { apply Permutation_nil. rewrite <- It. symmetry. apply (i_items _ _ I). }
    destruct (done_tree g _ Gi (i_agree _ _ I)) as (Rp & Ids & Ps & Sh & Ca & Mp).
    pose proof (i_budget _ _ I) as B. pose proof (i_nodes _ _ I) as Ln. pose proof (i_idx _ _ I) as Li.
    set (ctr := m_ctr (s_mem s)) in *.
    assert (nodes (finish (s_mem s)) = firstn ctr (m_nodes (s_mem s))) as Nd.
    { unfold finish, resize. simpl. fold ctr. rewrite Ln. replace (ctr - slots) with 0 by lia. simpl. apply app_nil_r. }
    assert (length (nodes (finish (s_mem s))) = ctr) as Lc by (rewrite Nd, firstn_length; lia).
    exists (to_tree g). cbn zeta. split.
    - rewrite Nd. assert (forall a b t, (forall x, In x (t_ids t) -> nth_error a x = nth_error b x) -> repr a t -> repr b t) as Ext.
      { clear. induction t as [i nd|i nd l IHl r IHr]; simpl; intros H R.
        - rewrite <- H; auto.
        - destruct R as (R1 & R2 & R3 & R4 & R5 & R6). rewrite <- H by auto. repeat split; auto.
          + apply IHl; auto. intros x Ix. apply H. right. apply in_or_app; auto.
          + apply IHr; auto. intros x Ix. apply H. right. apply in_or_app; auto. }
      eapply Ext; [|exact Rp]. intros x Hx. rewrite Ids in Hx.
      assert (In x (seq 0 ctr)) as Hs by (eapply Permutation_in; [apply (i_ids _ _ I)|auto]). apply in_seq in Hs.
      rewrite <- (firstn_skipn ctr (m_nodes (s_mem s))) at 1. apply nth_error_app1. rewrite firstn_length. lia.
    - split; [rewrite to_tree_idx; apply (i_root _ _ I)|].
      split; [rewrite Ids, Lc; apply (i_ids _ _ I)|].
      split; [rewrite Ps; apply (i_pos _ _ I)|].
      split; [exact Li|]. split; auto. split; [rewrite Sh, (i_pred _ _ I); auto|]. split; [|lia].
      rewrite <- (i_pred _ _ I), <- Mp, (i_pos _ _ I), <- Li. unfold finish. cbn [prim_indices].
      symmetry. apply map_nth_seq.
  Qed.

  (** No task ever panics or leaves its arrays. *)
  Theorem no_crash : forall s, reachable init s -> ~ crashes pstep s.
  Proof.
    intros s R (j & t & p & st & subs & Ej & Cr). destruct (reach_inv s R) as (g & I).
    destruct s as [m ths tr]. cbn [s_threads s_mem] in *.
    destruct (upd_mid _ _ _ _ Ej) as (l1 & l2 & -> & _ & _).
    assert (Permutation (items (l1 ++ {| t_cur := Some (t, p); t_stack := st; t_subs := subs |} :: l2))
      ((t, Some p) :: map (fun t => (t, None)) st ++ items (l1 ++ l2))) as P1 by (rewrite items_mid; auto).
    destruct (perm_in _ _ _ _ _ I P1) as (C & e & c & -> & <-).
    pose proof (plug_agree _ _ _ (i_agree _ _ I)) as [W Lb]. cbn [s_mem] in W.
    destruct (open_disjoint _ _ _ _ _ I) as (D1 & D2 & D3).
    pose proof (i_nodes _ _ I) as Ln. pose proof (i_idx _ _ I) as Li. cbn [s_mem] in *.
    destruct p as [r| |i k|i v k|i k|i v k|k]; cbn [pstep wp] in *; try discriminate; auto; destruct W as [Ii W].
    - destruct (nth_error (m_nodes m) i) eqn:E; [discriminate|]. apply nth_error_None in E. apply D1 in Ii. lia.
    - destruct (Nat.ltb_spec i (length (m_nodes m))); [discriminate|]. apply D1 in Ii. lia.
    - destruct (nth_error (m_idx m) i) eqn:E; [discriminate|]. apply nth_error_None in E. apply D2 in Ii. lia.
    - destruct (Nat.ltb_spec i (length (m_idx m))); [discriminate|]. apply D2 in Ii. lia.
  Qed.

  (** What the next step of a running task touches. *)
  Lemma owned : forall s g t p rest, inv s g -> Permutation (items (s_threads s)) ((t, Some p) :: rest) ->
    exists C e c, g = plug C (GOpen e c (Some p)) /\ task_of e = t /\ Permutation rest (citems C) /\ wp e p c (s_mem s).
  Proof.
    intros s g t p rest I P. destruct (perm_in _ _ _ _ _ I P) as (C & e & c & -> & <-). exists C, e, c.
    repeat split; auto.
    - apply (Permutation_cons_inv (a := (task_of e, Some p))). rewrite <- P, <- (i_items _ _ I), plug_items. auto.
    - apply (plug_agree _ _ _ (i_agree _ _ I)).
  Qed.
  Lemma in_context : forall C x m t p, agree m (plug C x) -> In (t, p) (citems C) ->
    exists e c, task_of e = t /\ agree m (GOpen e c p) /\ incl (own e c) (cids C) /\ incl (epos e) (cpos C).
  Proof.
    induction C as [|f C IH]; intros x m t p A I; simpl in I; [destruct I|].
    apply in_app_or in I as [I|I].
    - destruct (find_item _ _ _ I) as (D & e & c & E & Et).
      assert (agree m (sib f)) as As by (destruct f; simpl in A; apply A).
      rewrite E in As. exists e, c. split; auto. split; [eapply plug_agree; eauto|]. simpl. rewrite E. split.
      + intros i Hi. right. apply in_or_app. left. eapply Permutation_in; [symmetry; apply plug_ids|]. apply in_or_app. auto.
      + intros i Hi. apply in_or_app. left. destruct (plug_pos D (GOpen e c p)) as (_ & _ & _ & P).
        eapply Permutation_in; [symmetry; apply P|]. apply in_or_app. auto.
    - destruct (IH x m t p) as (e & c & Et & Ae & I1 & I2); auto; [destruct f; simpl in A; apply A|].
      exists e, c. repeat split; auto.
      + intros i Hi. simpl. right. apply in_or_app. right. auto.
      + intros i Hi. simpl. apply in_or_app. right. auto.
  Qed.
End B.
