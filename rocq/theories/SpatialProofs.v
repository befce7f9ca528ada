(** * The spatial-split build under every schedule *)
Require Import List Arith Lia ZArith Bool Permutation.
From Verif Require Import F32 Vec AabbModel Base NodeModel UtilsModel UtilsProofs LocbModel SpawnModel SpawnProofs
  SpecGeom SpecTree TriModel BinnedModel SpatialModel SpecSpatial SpatialPlan.
Import ListNotations.

Section B.
  Variable sorter : nat -> list sref -> list sref.
  Hypothesis sorter_perm : forall a l, Permutation (sorter a l) l.
  Variables (prims : list tri) (lsize : nat) (th : f32) (aabbs : list aabb) (centers : list vec3).
  Let n := length aabbs.
  Let M := max_refs n.
  Let slots := 2 * M + 1.
  Hypothesis Hpos : 1 <= n.
  Hypothesis Hsmall : (Z.of_nat M <= 536870912)%Z.

  Notation plan := (plan_task sorter prims lsize th).
  Notation stree := (seq_tree sorter prims lsize th).
  Notation pst := (qstep sorter prims lsize th).

  (** ** Ghost state *)
  Record ent := En { e_t : witem; e_box : aabb; e_w : per_axis (list sref) }.
  Definition e_node (e : ent) : nat := w_node (e_t e).
  Definition e_b (e : ent) : nat := w_begin (e_t e).
  Definition e_W (e : ent) : nat := w_split_end (e_t e) - w_begin (e_t e).
  Definition e_len (e : ent) : nat := w_size (e_t e).
  Definition spa (e : ent) : res atree := stree (MAX_DEPTH - w_depth (e_t e)) (e_t e) (e_box e) (e_w e).
  Definition istask (e : ent) : Prop :=
    task_of sorter prims lsize th (spatial_root aabbs) (union_of_list aabbs) (p_refs (spatial_start aabbs centers)) (e_t e) (e_box e) (e_w e).
  Definition wf (e : ent) : Prop :=
    w_begin (e_t e) <= w_end (e_t e) <= w_split_end (e_t e) /\ w_split_end (e_t e) <= M /\
    (w_split_end (e_t e) = M \/ w_split_end (e_t e) = w_end (e_t e)) /\ (w_depth (e_t e) <= MAX_DEPTH /\ istask e) /\
    all3 (okw n (e_W e)) (e_w e).
  Definition epos (e : ent) : list nat := seq (e_b e) (e_W e).

  Inductive gt :=
  | GOpen (e : ent) (c : option nat) (f : option nat) (p : option pprog)
  | GLeaf (i b W : nat) (nd box : aabb) (first : nat) (ids : list nat)
  | GNode (i : nat) (nd box : aabb) (shift : Z) (moved : nat) (l r : gt).

  Definition own (e : ent) (c : option nat) : list nat :=
    match c with None => [e_node e] | Some c => [e_node e; c; S c] end.
  Definition iown (e : ent) (f : option nat) : list nat :=
    match f with None => [] | Some f => seq f (e_len e) end.
  Fixpoint gids (g : gt) : list nat :=
    match g with
    | GOpen e c _ _ => own e c
    | GLeaf i _ _ _ _ _ _ => [i]
    | GNode i _ _ _ _ l r => i :: gids l ++ gids r
    end.
  Definition g_idx (g : gt) : nat :=
    match g with GOpen e _ _ _ => e_node e | GLeaf i _ _ _ _ _ _ => i | GNode i _ _ _ _ _ _ => i end.
  (** Owned positions of the reference arrays, of the index array. *)
  Fixpoint gref (g : gt) : list nat :=
    match g with
    | GOpen e _ _ _ => epos e
    | GLeaf _ b W _ _ _ _ => seq b W
    | GNode _ _ _ _ _ l r => gref l ++ gref r
    end.
  Fixpoint gpos (g : gt) : list nat :=
    match g with
    | GOpen e _ f _ => iown e f
    | GLeaf _ _ _ _ _ first ids => seq first (length ids)
    | GNode _ _ _ _ _ l r => gpos l ++ gpos r
    end.
  Fixpoint gitems (g : gt) : list (witem * option pprog) :=
    match g with
    | GOpen e _ _ p => [(e_t e, p)]
    | GLeaf _ _ _ _ _ _ _ => []
    | GNode _ _ _ _ _ l r => gitems l ++ gitems r
    end.
  Fixpoint gpred (g : gt) : res atree :=
    match g with
    | GOpen e _ _ _ => spa e
    | GLeaf _ _ _ _ box _ ids => Ok (ALeaf box ids)
    | GNode _ _ box shift moved l r => do l <- gpred l; do r <- gpred r; Ok (ANode box shift moved l r)
    end.

  (** ** Agreement of the memory *)
  Definition windows (m : pmem) (e : ent) : per_axis (list sref) := map3 (fun l => window l (e_b e) (e_W e)) (p_refs m).
  Definition at_idx (m : pmem) (b : nat) (l : list nat) : Prop :=
    forall j, j < length l -> nth_error (p_idx m) (b + j) = nth_error l j.
  Definition waits (e : ent) (m : pmem) : Prop :=
    nth_error (p_nodes m) (e_node e) = Some (e_box e) /\ windows m e = e_w e /\ wf e.
  Definition leafy (e : ent) (m : pmem) : Prop :=
    wf e /\ nth_error (p_nodes m) (e_node e) = Some (e_box e) /\
    spa e = Ok (ALeaf (e_box e) (map s_prim (firstn (e_len e) (pick (windows m e) 0)))).
  Definition divided (e : ent) (c : children) (m : pmem) : Prop :=
    wf e /\ nth_error (p_nodes m) (e_node e) = Some (e_box e) /\
    plan (e_t e) (e_box e) (e_w e) = Ok (windows m e, Divide c).

  Definition open_ok (m : pmem) (e : ent) (c f : option nat) (p : option pprog) : Prop :=
    match p with
    | None => c = None /\ f = None /\ waits e m
    | Some (QRun t) => t = e_t e /\ c = None /\ f = None /\ waits e m
    | Some (QLeaf t) => t = e_t e /\ c = None /\ f = None /\ leafy e m
    | Some (QLeafAt t first) => t = e_t e /\ c = None /\ f = Some first /\ first + e_len e <= M /\ leafy e m
    | Some (QAlloc t ch) => t = e_t e /\ c = None /\ f = None /\ divided e ch m
    | Some (QChildren t ch lft) => t = e_t e /\ c = Some lft /\ f = None /\ S lft < slots /\ e_node e < lft /\ divided e ch m
    | Some (QRet None) => c = None /\ e_len e <= e_W e /\ exists first nd box ids, f = Some first /\ length ids = e_len e /\
        nth_error (p_nodes m) (e_node e) = Some nd /\ at_idx m first ids /\ ex1 nd = Z.of_nat (length ids) /\
        ex2 nd = Z.of_nat first /\ bmin nd = bmin box /\ bmax nd = bmax box /\ spa e = Ok (ALeaf box ids)
    | Some (QRet (Some (a, b))) => exists lft el er nd box shift moved, c = Some lft /\ f = None /\ e_node e < lft /\
        a = e_t el /\ b = e_t er /\ e_node el = lft /\ e_node er = S lft /\ epos e = epos el ++ epos er /\
        waits el m /\ waits er m /\ nth_error (p_nodes m) (e_node e) = Some nd /\ (ex1 nd < 0)%Z /\ ex2 nd = Z.of_nat lft /\
        bmin nd = bmin box /\ bmax nd = bmax box /\
        spa e = (do l <- spa el; do r <- spa er; Ok (ANode box shift moved l r))
    | Some QPanic => f = None /\
        (c = None /\ (forall a, spa e <> Ok a) \/
         exists lft ch w, c = Some lft /\ slots <= lft /\ w_depth (e_t e) < MAX_DEPTH /\
           plan (e_t e) (e_box e) (e_w e) = Ok (w, Divide ch))
    | Some QUb => f = None /\ spa e = UB /\ wf e /\ exists w ch, plan (e_t e) (e_box e) (e_w e) = Ok (w, Divide ch) /\
        (Z.of_nat (w_split_end (e_t e) - (w_begin (e_t e) + c_right_end ch)) <
           left_split_count (w_split_end (e_t e) - (w_begin (e_t e) + c_right_end ch)) ch)%Z
    end.

  Record same (ids rp ip : list nat) (m m' : pmem) : Prop := Same {
    sm_nodes : length (p_nodes m') = length (p_nodes m);
    sm_idx : length (p_idx m') = length (p_idx m);
    sm_refs : forall a, a < 3 -> length (pick (p_refs m') a) = length (pick (p_refs m) a);
    sm_n : forall i, In i ids -> nth_error (p_nodes m') i = nth_error (p_nodes m) i;
    sm_r : forall a i, a < 3 -> In i rp -> nth_error (pick (p_refs m') a) i = nth_error (pick (p_refs m) a) i;
    sm_i : forall i, In i ip -> nth_error (p_idx m') i = nth_error (p_idx m) i }.

  Lemma same_refl : forall ids rp ip m, same ids rp ip m m.
  Proof. constructor; auto. Qed.
  Lemma same_sub : forall ids rp ip ids' rp' ip' m m', incl ids' ids -> incl rp' rp -> incl ip' ip ->
    same ids rp ip m m' -> same ids' rp' ip' m m'.
  Proof. intros ids rp ip ids' rp' ip' m m' I1 I2 I3 [A B C D E F]. constructor; auto. Qed.

  Lemma windows_same : forall ids ip e m m', same ids (epos e) ip m m' -> windows m' e = windows m e.
  Proof.
    intros ids ip e m m' S. unfold windows, map3.
    assert (forall a, a < 3 -> window (pick (p_refs m') a) (e_b e) (e_W e) = window (pick (p_refs m) a) (e_b e) (e_W e)) as H.
    { intros a La. apply window_same; [apply (sm_refs _ _ _ _ _ S); auto|]. intros i Hi.
      apply (sm_r _ _ _ _ _ S); auto. unfold epos. apply in_seq. lia. }
    rewrite !H; auto.
  Qed.
  Lemma waits_same : forall ids rp ip e m m', same ids rp ip m m' -> In (e_node e) ids -> incl (epos e) rp -> waits e m -> waits e m'.
  Proof.
    intros ids rp ip e m m' S I J (A & B & C).
    assert (same ids (epos e) ip m m') as S' by (eapply same_sub; eauto; apply incl_refl).
    split; [rewrite (sm_n _ _ _ _ _ S); auto|]. split; auto. rewrite (windows_same _ _ _ _ _ S'). auto.
  Qed.
  Lemma leafy_same : forall ids ip e m m', same ids (epos e) ip m m' -> In (e_node e) ids -> leafy e m -> leafy e m'.
  Proof.
    intros ids ip e m m' S I (A & B & C). split; auto. split; [rewrite (sm_n _ _ _ _ _ S); auto|].
    rewrite (windows_same _ _ _ _ _ S). auto.
  Qed.
  Lemma divided_same : forall ids ip e ch m m', same ids (epos e) ip m m' -> In (e_node e) ids -> divided e ch m -> divided e ch m'.
  Proof.
    intros ids ip e ch m m' S I (A & B & C). split; auto. split; [rewrite (sm_n _ _ _ _ _ S); auto|].
    rewrite (windows_same _ _ _ _ _ S). auto.
  Qed.
  Lemma at_idx_same : forall ids rp ip m m' b l, same ids rp ip m m' -> incl (seq b (length l)) ip -> at_idx m b l -> at_idx m' b l.
  Proof. intros ids rp ip m m' b l S I A j Lj. rewrite (sm_i _ _ _ _ _ S); auto. apply I. apply in_seq. lia. Qed.

  Lemma own_in : forall e c, In (e_node e) (own e c).
  Proof. intros e [c|]; simpl; auto. Qed.

  Lemma open_same : forall e c f p m m', same (own e c) (epos e) (iown e f) m m' -> open_ok m e c f p -> open_ok m' e c f p.
  Proof.
    intros e c f p m m' S O. pose proof (own_in e c) as I.
    destruct p as [[t|t|t first|t ch|t ch lft|[[a b]|]| |]|]; simpl in O |- *.
    - destruct O as (-> & -> & -> & W). repeat (split; [reflexivity|]). eapply waits_same; eauto. apply incl_refl.
    - destruct O as (-> & -> & -> & W). repeat (split; [reflexivity|]). eapply leafy_same; eauto.
    - destruct O as (-> & -> & -> & L & W). repeat (split; [auto; fail|]). eapply leafy_same; eauto.
    - destruct O as (-> & -> & -> & W). repeat (split; [reflexivity|]). eapply divided_same; eauto.
    - destruct O as (-> & -> & -> & L & L2 & W). repeat (split; [auto; fail|]). eapply divided_same; eauto.
    - destruct O as (lft & el & er & nd & box & sh & mv & -> & -> & Lt & -> & -> & N1 & N2 & Ps & Wl & Wr & En & X).
      exists lft, el, er, nd, box, sh, mv. repeat (split; [auto; fail|]).
      split; [apply (waits_same _ _ _ _ _ _ S); auto; [rewrite N1; simpl; auto|rewrite Ps; apply incl_appl, incl_refl]|].
      split; [apply (waits_same _ _ _ _ _ _ S); auto; [rewrite N2; simpl; auto|rewrite Ps; apply incl_appr, incl_refl]|].
      split; [rewrite (sm_n _ _ _ _ _ S); auto|]. auto.
    - destruct O as (-> & LW & first & nd & box & ids & -> & L & En & A & X). split; auto. split; auto.
      exists first, nd, box, ids. split; auto. split; auto. split; [rewrite (sm_n _ _ _ _ _ S); auto|]. split; auto.
      eapply at_idx_same; eauto. simpl. rewrite L. apply incl_refl.
    - auto.
    - auto.
    - destruct O as (-> & -> & W). repeat (split; [reflexivity|]). eapply waits_same; eauto. apply incl_refl.
  Qed.

  Fixpoint agree (m : pmem) (g : gt) : Prop :=
    match g with
    | GOpen e c f p => open_ok m e c f p
    | GLeaf i b W nd box first ids => nth_error (p_nodes m) i = Some nd /\ at_idx m first ids /\ length ids <= W /\
        ex1 nd = Z.of_nat (length ids) /\ ex2 nd = Z.of_nat first /\ bmin nd = bmin box /\ bmax nd = bmax box
    | GNode i nd box _ _ l r => nth_error (p_nodes m) i = Some nd /\ i < g_idx l /\ (ex1 nd < 0)%Z /\
        ex2 nd = Z.of_nat (g_idx l) /\ g_idx r = S (g_idx l) /\ bmin nd = bmin box /\ bmax nd = bmax box /\
        agree m l /\ agree m r
    end.

  Lemma agree_same : forall g m m', same (gids g) (gref g) (gpos g) m m' -> agree m g -> agree m' g.
  Proof.
    induction g as [e c f p|i b W nd box first ids|i nd box sh mv l IHl r IHr]; intros m m' S A; simpl in *.
    - eapply open_same; eauto.
    - destruct A as (A & B & C). split; [rewrite (sm_n _ _ _ _ _ S); simpl; auto|]. split; auto.
      eapply at_idx_same; eauto. apply incl_refl.
    - destruct A as (A & A' & B & C & D & E & F & Al & Ar). split; [rewrite (sm_n _ _ _ _ _ S); simpl; auto|].
      repeat (split; [auto; fail|]). split.
      + eapply IHl; eauto. eapply same_sub; eauto; [right; apply in_or_app; auto|apply incl_appl, incl_refl|apply incl_appl, incl_refl].
      + eapply IHr; eauto. eapply same_sub; eauto; [right; apply in_or_app; auto|apply incl_appr, incl_refl|apply incl_appr, incl_refl].
  Qed.

  (** Each node's share of the index array is at most its share of the
      references. *)
  Lemma open_pos : forall m e c f p, open_ok m e c f p -> length (iown e f) <= e_W e.
  Proof.
    intros m e c f p O.
    assert (forall f, wf e -> length (iown e f) <= e_W e) as G.
    { intros [x|] (W & _); simpl; [|lia]. rewrite seq_length. unfold e_len, w_size, e_W. lia. }
    assert (f = None -> length (iown e f) <= e_W e) as G0 by (intros ->; simpl; lia).
    destruct p as [[t|t|t first|t ch|t ch lft|[[a b]|]| |]|]; simpl in O; try (apply G0; apply O).
    - destruct O as (_ & _ & _ & _ & (W & _)). auto.
    - destruct O as (? & ? & ? & ? & ? & ? & ? & _ & -> & _). simpl; lia.
    - destruct O as (_ & LW & first & nd & box & ids & -> & _). simpl. rewrite seq_length. auto.
  Qed.
  Lemma agree_pos : forall m g, agree m g -> length (gpos g) <= length (gref g).
  Proof.
    induction g as [e c f p|i b W nd box first ids|i nd box sh mv l IHl r IHr]; simpl; intro A.
    - unfold epos. rewrite seq_length. eapply open_pos; eauto.
    - rewrite !seq_length. apply A.
    - rewrite !app_length. destruct A as (_ & _ & _ & _ & _ & _ & _ & Al & Ar). specialize (IHl Al). specialize (IHr Ar). lia.
  Qed.

  (** ** Contexts *)
  Inductive frame :=
  | FL (i : nat) (nd box : aabb) (sh : Z) (mv : nat) (r : gt)
  | FR (i : nat) (nd box : aabb) (sh : Z) (mv : nat) (l : gt).
  Fixpoint plug (C : list frame) (x : gt) : gt :=
    match C with
    | [] => x
    | FL i nd box sh mv r :: C => GNode i nd box sh mv (plug C x) r
    | FR i nd box sh mv l :: C => GNode i nd box sh mv l (plug C x)
    end.
  Definition sib (f : frame) : gt := match f with FL _ _ _ _ _ r => r | FR _ _ _ _ _ l => l end.
  Definition f_idx (f : frame) : nat := match f with FL i _ _ _ _ _ => i | FR i _ _ _ _ _ => i end.
  Definition cids (C : list frame) : list nat := flat_map (fun f => f_idx f :: gids (sib f)) C.
  Definition cref (C : list frame) : list nat := flat_map (fun f => gref (sib f)) C.
  Definition cpos (C : list frame) : list nat := flat_map (fun f => gpos (sib f)) C.
  Definition citems (C : list frame) := flat_map (fun f => gitems (sib f)) C.

  Lemma plug_ids : forall C x, Permutation (gids (plug C x)) (gids x ++ cids C).
  Proof.
    induction C as [|[i nd bx sh mv g|i nd bx sh mv g] C IH]; intro x; simpl.
    - rewrite app_nil_r. auto.
    - rewrite <- Permutation_middle. apply perm_skip. rewrite IH, <- app_assoc. apply Permutation_app_head, Permutation_app_comm.
    - rewrite IH. rewrite <- Permutation_middle. apply perm_skip. apply Permutation_app_swap_app.
  Qed.
  Lemma plug_ref : forall C x, exists pre suf, (forall y, gref (plug C y) = pre ++ gref y ++ suf) /\
    Permutation (gref (plug C x)) (gref x ++ cref C).
  Proof.
    induction C as [|[i nd bx sh mv g|i nd bx sh mv g] C IH]; intro x; simpl.
    - exists [], []. split; [intro; rewrite app_nil_r; auto|rewrite app_nil_r; auto].
    - destruct (IH x) as (pre & suf & H & P). exists pre, (suf ++ gref g). split.
      + intro y. rewrite H, <- !app_assoc. auto.
      + rewrite P, <- app_assoc. apply Permutation_app_head, Permutation_app_comm.
    - destruct (IH x) as (pre & suf & H & P). exists (gref g ++ pre), suf. split.
      + intro y. rewrite H, <- !app_assoc. auto.
      + rewrite P. apply Permutation_app_swap_app.
  Qed.
  Lemma plug_pos : forall C x, Permutation (gpos (plug C x)) (gpos x ++ cpos C).
  Proof.
    induction C as [|[i nd bx sh mv g|i nd bx sh mv g] C IH]; intro x; simpl.
    - rewrite app_nil_r. auto.
    - rewrite IH, <- app_assoc. apply Permutation_app_head, Permutation_app_comm.
    - rewrite IH. apply Permutation_app_swap_app.
  Qed.
  Lemma plug_items : forall C x, Permutation (gitems (plug C x)) (gitems x ++ citems C).
  Proof.
    induction C as [|[i nd bx sh mv g|i nd bx sh mv g] C IH]; intro x; simpl.
    - rewrite app_nil_r. auto.
    - rewrite IH, <- app_assoc. apply Permutation_app_head, Permutation_app_comm.
    - rewrite IH. apply Permutation_app_swap_app.
  Qed.
  Lemma plug_pred : forall C x y, gpred x = gpred y -> gpred (plug C x) = gpred (plug C y).
  Proof. induction C as [|[i nd bx sh mv g|i nd bx sh mv g] C IH]; intros x y E; simpl; auto; rewrite (IH x y E); auto. Qed.
  Lemma plug_idx : forall C x y, g_idx x = g_idx y -> g_idx (plug C x) = g_idx (plug C y).
  Proof. intros [|[i nd bx sh mv g|i nd bx sh mv g] C] x y E; simpl; auto. Qed.
  Lemma plug_agree : forall C x m, agree m (plug C x) -> agree m x.
  Proof. induction C as [|[i nd bx sh mv g|i nd bx sh mv g] C IH]; intros x m A; simpl in *; auto; apply IH, A. Qed.
  Lemma plug_cpos : forall C x m, agree m (plug C x) -> length (cpos C) <= length (cref C).
  Proof.
    induction C as [|[i nd bx sh mv g|i nd bx sh mv g] C IH]; intros x m A; simpl in *; auto;
      destruct A as (_ & _ & _ & _ & _ & _ & _ & Al & Ar); rewrite !app_length.
    - specialize (IH _ _ Al). pose proof (agree_pos _ _ Ar). lia.
    - specialize (IH _ _ Ar). pose proof (agree_pos _ _ Al). lia.
  Qed.
  Lemma plug_replace : forall C x y m m', agree m (plug C x) -> g_idx x = g_idx y -> agree m' y ->
    same (cids C) (cref C) (cpos C) m m' -> agree m' (plug C y).
  Proof.
    induction C as [|[i nd bx sh mv g|i nd bx sh mv g] C IH]; intros x y m m' A E Ay S; simpl in *; auto;
      destruct A as (A1 & A' & A2 & A3 & A4 & A5 & A6 & Al & Ar).
    - split; [rewrite (sm_n _ _ _ _ _ S); simpl; auto|]. split; [rewrite (plug_idx C y x); auto|]. split; auto. split; [rewrite (plug_idx C y x); auto|].
      split; [rewrite (plug_idx C y x); auto|]. split; auto. split; auto. split.
      + eapply IH; eauto. eapply same_sub; eauto; [intros z Hz; right; apply in_or_app; auto|apply incl_appr, incl_refl|apply incl_appr, incl_refl].
      + eapply agree_same; eauto. eapply same_sub; eauto; [intros z Hz; right; apply in_or_app; auto|apply incl_appl, incl_refl|apply incl_appl, incl_refl].
    - split; [rewrite (sm_n _ _ _ _ _ S); simpl; auto|]. split; auto. split; auto. split; auto.
      split; [rewrite (plug_idx C y x); auto|]. split; auto. split; auto. split.
      + eapply agree_same; eauto. eapply same_sub; eauto; [intros z Hz; right; apply in_or_app; auto|apply incl_appl, incl_refl|apply incl_appl, incl_refl].
      + eapply IH; eauto. eapply same_sub; eauto; [intros z Hz; right; apply in_or_app; auto|apply incl_appr, incl_refl|apply incl_appr, incl_refl].
  Qed.

  Lemma find_item : forall g t p, In (t, p) (gitems g) -> exists C e c f, g = plug C (GOpen e c f p) /\ e_t e = t.
  Proof.
    induction g as [e c f q|i b W nd box first ids|i nd box sh mv l IHl r IHr]; intros t p I; simpl in I.
    - destruct I as [I|[]]. injection I as <- <-. exists [], e, c, f. auto.
    - destruct I.
    - apply in_app_or in I as [I|I].
      + destruct (IHl t p I) as (C & e & c & f & -> & E). exists (FL i nd box sh mv r :: C), e, c, f. auto.
      + destruct (IHr t p I) as (C & e & c & f & -> & E). exists (FR i nd box sh mv l :: C), e, c, f. auto.
  Qed.

  (** ** The sequential reading *)
  Lemma stree_eq : forall k t bounds w, stree k t bounds w =
    do (w, d) <- plan t bounds w;
    match d with
    | Leaf => Ok (ALeaf bounds (map s_prim (firstn (w_size t) (pick w 0))))
    | Divide c =>
        match k with
        | O => OutOfFuel
        | S k =>
            do w <- move3 w (c_right_begin c) (c_right_end c)
                      (left_split_count (w_split_end t - (w_begin t + c_right_end c)) c);
            do l <- stree k (Wi 0 (w_begin t) (w_begin t + c_right_begin c) (w_begin t + c_right_begin c) (S (w_depth t)) (c_sorted c))
                      (c_left c) (map3 (firstn (c_right_begin c)) w);
            do r <- stree k (Wi 0 (w_begin t + c_right_begin c) (w_begin t + c_right_end c) (w_split_end t) (S (w_depth t)) (c_sorted c))
                      (c_right c) (map3 (skipn (c_right_begin c)) w);
            Ok (ANode (with_offset bounds f1em4) (left_split_count (w_split_end t - (w_begin t + c_right_end c)) c)
                  (c_right_end c - c_right_begin c) l r)
        end
    end.
  Proof. intros [|k] t bounds w; reflexivity. Qed.
  (** Node numbers do not matter. *)
  Lemma stree_node : forall k i j b e se d s bounds w, stree k (Wi i b e se d s) bounds w = stree k (Wi j b e se d s) bounds w.
  Proof. intros. rewrite !stree_eq. reflexivity. Qed.

  (** ** The invariant *)
  Definition root_ent : ent := En (spatial_root aabbs) (union_of_list aabbs) (p_refs (spatial_start aabbs centers)).
  Definition th_items (t : thread witem pprog) : list (witem * option pprog) :=
    match t_cur t with Some (t, p) => [(t, Some p)] | None => [] end ++ map (fun t => (t, None)) (t_stack t).
  Definition items (ths : list (thread witem pprog)) := flat_map th_items ths.

  Record inv (s : state witem pmem pprog) (g : gt) : Prop := Inv {
    i_items : Permutation (gitems g) (items (s_threads s));
    i_ids : Permutation (gids g) (seq 0 (p_ctr (s_mem s)));
    i_ref : gref g = seq 0 M;
    i_pos : Permutation (gpos g) (seq 0 (p_count (s_mem s)));
    i_odd : exists k, p_ctr (s_mem s) = S (2 * k);
    i_nodes : length (p_nodes (s_mem s)) = slots;
    i_idx : length (p_idx (s_mem s)) = M;
    i_refs : forall a, length (pick (p_refs (s_mem s)) a) = M;
    i_agree : agree (s_mem s) g;
    i_pred : gpred g = spa root_ent;
    i_root : g_idx g = 0 }.

  Notation step := (step QRun w_size pst WORK_THRESHOLD).
  Notation reachable := (reachable QRun w_size pst WORK_THRESHOLD).
  Notation init := (initial (spatial_start aabbs centers) (spatial_root aabbs)).

  Lemma M_ge : n <= M.
  Proof. unfold M, max_refs. lia. Qed.
  Lemma start_refs : forall a, okw n M (pick (p_refs (spatial_start aabbs centers)) a).
  Proof.
    intro a. unfold spatial_start. cbn [p_refs]. fold n. fold M.
    assert (okw n M (first_refs aabbs centers ++ repeat sref_new (M - n))) as O.
    { pose proof M_ge as G. split.
      - rewrite app_length, repeat_length. unfold first_refs. rewrite map_length, seq_length. fold n. lia.
      - unfold small. apply Forall_app. split; apply Forall_forall; intros r Ir.
        + unfold first_refs in Ir. apply in_map_iff in Ir as (i & <- & Hi). apply in_seq in Hi. cbn [s_prim]. unfold n. lia.
        + apply repeat_spec in Ir. subst r. cbn. lia. }
    destruct a as [|[|a]]; exact O.
  Qed.

  Lemma window_all : forall A (l : list A), window l 0 (length l) = l.
  Proof. intros. unfold window. simpl. apply firstn_all. Qed.

  Lemma inv_init : inv init (GOpen root_ent None None None).
  Proof.
    pose proof M_ge as G.
    assert (forall a, length (pick (p_refs (spatial_start aabbs centers)) a) = M) as Lr by (intro a; apply start_refs).
    assert (e_W root_ent = M) as EW by (unfold e_W, root_ent, spatial_root; cbn [e_t w_begin w_split_end]; fold n; fold M; lia).
    constructor; cbn [initial s_mem s_threads].
    - apply Permutation_refl.
    - apply Permutation_refl.
    - cbn [gref]. unfold epos. rewrite EW. reflexivity.
    - apply Permutation_refl.
    - exists 0. reflexivity.
    - unfold spatial_start. cbn [p_nodes]. rewrite upd_length, repeat_length. reflexivity.
    - unfold spatial_start. cbn [p_idx]. rewrite repeat_length. reflexivity.
    - auto.
    - cbn [agree open_ok]. split; auto. split; auto. unfold waits. split; [|split].
      + unfold spatial_start. cbn [p_nodes]. apply nth_error_upd_same. rewrite repeat_length. change (0 < 2 * M + 1). lia.
      + unfold windows, map3. rewrite EW. change (e_b root_ent) with 0.
        transitivity (pick (p_refs (spatial_start aabbs centers)) 0, pick (p_refs (spatial_start aabbs centers)) 1,
                      pick (p_refs (spatial_start aabbs centers)) 2).
        * f_equal; [f_equal|].
          -- rewrite <- (Lr 0). apply window_all.
          -- rewrite <- (Lr 1). apply window_all.
          -- rewrite <- (Lr 2). apply window_all.
        * reflexivity.
      + unfold wf. rewrite EW. change (w_begin (e_t root_ent)) with 0. change (w_end (e_t root_ent)) with n.
        change (w_split_end (e_t root_ent)) with M. change (w_depth (e_t root_ent)) with 0.
        split; [lia|]. split; [lia|]. split; [auto|]. split; [split; [lia|apply task_root]|].
        split; [exact (start_refs 0)|]. split; [exact (start_refs 1)|exact (start_refs 2)].
    - reflexivity.
    - reflexivity.
  Qed.

  Lemma items_mid : forall l1 x l2, Permutation (items (l1 ++ x :: l2)) (th_items x ++ items (l1 ++ l2)).
  Proof. intros. apply flat_map_mid. Qed.

  (** Replacing one open node. *)
  Lemma replace_open : forall s m' ths' tr' C e c f p y its rest,
    inv s (plug C (GOpen e c f p)) ->
    Permutation (items (s_threads s)) ((e_t e, p) :: rest) ->
    Permutation (items ths') (its ++ rest) ->
    gitems y = its ->
    (forall D, Permutation (own e c ++ D) (seq 0 (p_ctr (s_mem s))) -> Permutation (gids y ++ D) (seq 0 (p_ctr m'))) ->
    gref y = epos e ->
    (forall D, Permutation (iown e f ++ D) (seq 0 (p_count (s_mem s))) -> Permutation (gpos y ++ D) (seq 0 (p_count m'))) ->
    (p_ctr m' = p_ctr (s_mem s) \/ p_ctr m' = p_ctr (s_mem s) + 2) ->
    agree m' y -> gpred y = spa e -> g_idx y = e_node e ->
    same (cids C) (cref C) (cpos C) (s_mem s) m' ->
    inv (St m' ths' tr') (plug C y).
  Proof.
    intros s m' ths' tr' C e c f p y its rest I P1 P2 Gi Gd Gr Gp Gc Ag Gq Gx S.
    constructor; cbn [s_mem s_threads s_trace].
    - rewrite plug_items, P2, Gi. apply Permutation_app_head.
      apply (Permutation_cons_inv (a := (e_t e, p))). rewrite <- P1, <- (i_items _ _ I), plug_items. auto.
    - rewrite plug_ids. apply Gd. rewrite <- (i_ids _ _ I), plug_ids. auto.
    - destruct (plug_ref C y) as (pre & suf & H & _). rewrite H, Gr. rewrite <- (i_ref _ _ I), H. auto.
    - rewrite plug_pos. apply Gp. rewrite <- (i_pos _ _ I), plug_pos. auto.
    - destruct (i_odd _ _ I) as (k & K). destruct Gc as [-> | ->]; [exists k; auto|exists (k + 1); lia].
    - rewrite (sm_nodes _ _ _ _ _ S). apply (i_nodes _ _ I).
    - rewrite (sm_idx _ _ _ _ _ S). apply (i_idx _ _ I).
    - intro a. assert (exists a', a' < 3 /\ forall t : per_axis (list sref), pick t a = pick t a') as (a' & La & Ea).
      { destruct a as [|[|a]]; [exists 0|exists 1|exists 2]; split; try lia; intros [[x y0] z]; auto. }
      rewrite Ea, (sm_refs _ _ _ _ _ S) by auto. apply (i_refs _ _ I).
    - eapply plug_replace; [apply (i_agree _ _ I)| | |]; auto.
    - rewrite <- (i_pred _ _ I). apply plug_pred. auto.
    - rewrite <- (i_root _ _ I). apply plug_idx. auto.
  Qed.

  Lemma nodup_disj : forall A (l1 l2 : list A) x, NoDup (l1 ++ l2) -> In x l1 -> ~ In x l2.
  Proof.
    induction l1 as [|h t IH]; intros l2 x N Ix; [destruct Ix|]. simpl in N. inversion N; subst.
    destruct Ix as [->|Ix]; auto. intro Bad. apply H1. apply in_or_app. auto.
  Qed.
  Lemma open_disjoint : forall s C e c f p, inv s (plug C (GOpen e c f p)) ->
    (forall i, In i (own e c) -> ~ In i (cids C) /\ i < p_ctr (s_mem s)) /\
    (forall i, In i (epos e) -> ~ In i (cref C) /\ i < M) /\
    (forall i, In i (iown e f) -> ~ In i (cpos C)) /\
    e_W e + length (cref C) = M /\ length (iown e f) + length (cpos C) = p_count (s_mem s) /\
    length (cpos C) <= length (cref C).
  Proof.
    intros s C e c f p I.
    assert (Permutation (own e c ++ cids C) (seq 0 (p_ctr (s_mem s)))) as P1.
    { rewrite <- (i_ids _ _ I), plug_ids. auto. }
    assert (Permutation (epos e ++ cref C) (seq 0 M)) as P2.
    { rewrite <- (i_ref _ _ I). destruct (plug_ref C (GOpen e c f p)) as (_ & _ & _ & P). rewrite P. auto. }
    assert (Permutation (iown e f ++ cpos C) (seq 0 (p_count (s_mem s)))) as P3.
    { rewrite <- (i_pos _ _ I), plug_pos. auto. }
    assert (NoDup (own e c ++ cids C)) as N1 by (eapply Permutation_NoDup; [symmetry; eauto|apply seq_NoDup]).
    assert (NoDup (epos e ++ cref C)) as N2 by (eapply Permutation_NoDup; [symmetry; eauto|apply seq_NoDup]).
    assert (NoDup (iown e f ++ cpos C)) as N3 by (eapply Permutation_NoDup; [symmetry; eauto|apply seq_NoDup]).
    split; [|split; [|split; [|split; [|split]]]].
    - intros i Ii. split; [eapply nodup_disj; eauto|].
      assert (In i (seq 0 (p_ctr (s_mem s)))) as Is by (eapply Permutation_in; [apply P1|apply in_or_app; auto]).
      apply in_seq in Is. lia.
    - intros i Ii. split; [eapply nodup_disj; eauto|].
      assert (In i (seq 0 M)) as Is by (eapply Permutation_in; [apply P2|apply in_or_app; auto]).
      apply in_seq in Is. lia.
    - intros i Ii. eapply nodup_disj; eauto.
    - apply Permutation_length in P2. rewrite app_length, seq_length in P2. unfold epos in P2. rewrite seq_length in P2. auto.
    - apply Permutation_length in P3. rewrite app_length, seq_length in P3. auto.
    - eapply plug_cpos. apply (i_agree _ _ I).
  Qed.

  Lemma perm_in : forall s g t p rest, inv s g -> Permutation (items (s_threads s)) ((t, p) :: rest) ->
    exists C e c f, g = plug C (GOpen e c f p) /\ e_t e = t.
  Proof.
    intros s g t p rest I P. apply find_item. eapply Permutation_in; [symmetry; apply (i_items _ _ I)|].
    eapply Permutation_in; [symmetry; apply P|]. simpl; auto.
  Qed.

  Lemma spa_eq : forall e, spa e = stree (MAX_DEPTH - w_depth (e_t e)) (e_t e) (e_box e) (e_w e).
  Proof. reflexivity. Qed.

  Lemma put3_windows : forall m e w, (forall a, length (pick (p_refs m) a) = M) -> wf e -> all3 (fun l => length l = e_W e) w ->
    let m' := Pm (put_window (pick (p_refs m) 0) (e_b e) (pick w 0), put_window (pick (p_refs m) 1) (e_b e) (pick w 1),
                  put_window (pick (p_refs m) 2) (e_b e) (pick w 2)) (p_nodes m) (p_idx m) (p_ctr m) (p_count m) in
    windows m' e = w /\
    forall ids rp ip, (forall i, In i (epos e) -> ~ In i rp) -> same ids rp ip m m'.
  Proof.
    intros m e w L (W1 & W2 & W3 & _) (A0 & A1 & A2).
    assert (e_b e + e_W e <= M) as Le by (unfold e_b, e_W; lia).
    assert (forall a l, length l = e_W e -> window (put_window (pick (p_refs m) a) (e_b e) l) (e_b e) (e_W e) = l) as Wn.
    { intros a l El. rewrite <- El. apply window_put. rewrite L. lia. }
    cbv zeta. split.
    - unfold windows, map3. cbn [p_refs pick].
      transitivity (pick w 0, pick w 1, pick w 2); [|destruct w as [[x y] z]; auto].
      rewrite !Wn by auto. reflexivity.
    - intros ids rp ip D.
      assert (forall a l, length l = e_W e -> length (put_window (pick (p_refs m) a) (e_b e) l) = length (pick (p_refs m) a)) as Pl.
      { intros a l El. apply put_length. rewrite L. lia. }
      assert (forall a l i, length l = e_W e -> In i rp -> nth_error (put_window (pick (p_refs m) a) (e_b e) l) i = nth_error (pick (p_refs m) a) i) as Pn.
      { intros a l i El Ii. apply put_out; [rewrite L; lia|]. rewrite El.
        destruct (Nat.lt_ge_cases i (e_b e)) as [H|H]; auto. destruct (Nat.lt_ge_cases i (e_b e + e_W e)) as [H'|H']; auto.
        exfalso. apply (D i); auto. unfold epos. apply in_seq. lia. }
      constructor; cbn [p_nodes p_idx p_refs]; auto.
      + intros [|[|[|a]]] La; try lia; cbn [pick]; apply Pl; auto.
      + intros [|[|[|a]]] i La Ii; try lia; cbn [pick]; apply Pn; auto.
  Qed.

  Lemma move_right_ub : forall l rb re sh, rb <= re -> move_right l rb re sh = UB ->
    (0 < sh)%Z /\ (Z.of_nat (length l) < Z.of_nat re + sh)%Z.
  Proof.
    intros l rb re sh B E. unfold move_right in E. destruct (Z.ltb_spec 0 sh) as [P|P]; [|discriminate E].
    destruct (Z.ltb_spec (Z.of_nat (length l)) (Z.of_nat re + sh)) as [Q|Q]; [auto|].
    destruct (move_backward_spec _ l rb (re - rb) (re + Z.to_nat sh) (S (length l))) as (l' & E' & _); try lia.
    replace (rb + (re - rb)) with re in E' by lia. rewrite E' in E. discriminate E.
  Qed.
  Lemma move3_ub : forall t rb re sh, rb <= re -> move3 t rb re sh = UB ->
    (0 < sh)%Z /\ exists a, (Z.of_nat (length (pick t a)) < Z.of_nat re + sh)%Z.
  Proof.
    intros t rb re sh B E. unfold move3 in E.
    destruct (move_right (pick t 0) rb re sh) eqn:E0; cbn [bind] in E; try discriminate E;
      [|apply move_right_ub in E0 as (P & Q); auto; split; auto; exists 0; auto].
    destruct (move_right (pick t 1) rb re sh) eqn:E1; cbn [bind] in E; try discriminate E;
      [|apply move_right_ub in E1 as (P & Q); auto; split; auto; exists 1; auto].
    destruct (move_right (pick t 2) rb re sh) eqn:E2; cbn [bind] in E; try discriminate E.
    apply move_right_ub in E2 as (P & Q); auto; split; auto; exists 2; auto.
  Qed.
  Lemma small_u32 : forall k, k <= 2 * M -> as_i32 (as_u32 (Z.of_nat k)) = Z.of_nat k.
  Proof.
    intros k L. assert (Z.of_nat k <= 1073741824)%Z as H by lia.
    unfold as_i32, as_u32. rewrite (Z.mod_small (Z.of_nat k)) by lia. rewrite Z.mod_small by lia.
    destruct (Z.ltb_spec (Z.of_nat k) 2147483648); lia.
  Qed.
  Lemma run_step : forall s C e c f p rest ths' tr' p' m',
    inv s (plug C (GOpen e c f (Some p))) ->
    Permutation (items (s_threads s)) ((e_t e, Some p) :: rest) ->
    Permutation (items ths') ([(e_t e, Some p')] ++ rest) ->
    pst p (s_mem s) = PStep p' m' ->
    exists g', inv (St m' ths' tr') g'.
  Proof.
    intros s C e c f p rest ths' tr' p' m' I P1 P2 E.
    pose proof (plug_agree _ _ _ (i_agree _ _ I)) as W. cbn [agree] in W.
    destruct (open_disjoint _ _ _ _ _ _ I) as (D1 & D2 & D3 & D4 & D5 & D6).
    pose proof (i_nodes _ _ I) as Ln. pose proof (i_idx _ _ I) as Li. pose proof (i_refs _ _ I) as Lr.
    destruct p as [t|t|t first|t ch|t ch lft|r| |]; cbn [qstep] in E; try discriminate.
    - (* QRun *)
      cbn [open_ok] in W. destruct W as (-> & -> & -> & Wn & Ww & Wf).
      change (w_node (e_t e)) with (e_node e) in E. rewrite Wn in E. cbv zeta in E.
      change (map3 (fun l => window l (w_begin (e_t e)) (w_split_end (e_t e) - w_begin (e_t e))) (p_refs (s_mem s)))
        with (windows (s_mem s) e) in E. rewrite Ww in E.
      destruct (plan (e_t e) (e_box e) (e_w e)) as [[w d]| | |] eqn:Ep; injection E as <- <-.
      + assert (e_len e <= e_W e) as LW by (destruct Wf; unfold e_len, w_size, e_W; lia).
        destruct (plan_ok sorter sorter_perm prims lsize n th (e_W e) _ _ _ _ _ LW (proj2 (proj2 (proj2 (proj2 Wf)))) Ep) as (Ow & Od).
        destruct (put3_windows (s_mem s) e w Lr Wf (all3_imp _ _ _ _ (fun x H => proj1 H) Ow)) as (N1 & N2).
        set (m2 := Pm _ _ _ _ _) in *.
        change (Pm _ _ _ _ _) with m2.
        set (q := match d with Leaf => QLeaf (e_t e) | Divide c => QAlloc (e_t e) c end) in *.
        exists (plug C (GOpen e None None (Some q))).
        refine (replace_open _ m2 _ _ C e _ _ _ (GOpen e None None (Some q)) [(e_t e, Some q)] _ I P1 P2 eq_refl _ eq_refl _ _ _ eq_refl eq_refl _).
        * auto.
        * auto.
        * auto.
        * cbn [agree]. unfold q. destruct d as [|c0]; cbn [open_ok]; repeat (split; [reflexivity|]).
          -- split; auto. split; [exact Wn|]. rewrite N1, spa_eq, stree_eq, Ep. reflexivity.
          -- split; auto. split; [exact Wn|]. rewrite N1. exact Ep.
        * apply N2. intros i Hi. apply D2; auto.
      + exists (plug C (GOpen e None None (Some QPanic))).
        refine (replace_open _ (s_mem s) _ _ C e _ _ _ (GOpen e None None (Some QPanic)) [(e_t e, Some QPanic)] _ I P1 P2 eq_refl _ eq_refl _ _ _ eq_refl eq_refl (same_refl _ _ _ _)); auto.
        cbn [agree open_ok]. split; auto. left. split; auto. intros a. rewrite spa_eq, stree_eq, Ep. discriminate.
      + exfalso. apply (plan_ub sorter prims lsize th (e_t e) (e_box e) (e_w e)). exact Ep.
      + exists (plug C (GOpen e None None (Some QPanic))).
        refine (replace_open _ (s_mem s) _ _ C e _ _ _ (GOpen e None None (Some QPanic)) [(e_t e, Some QPanic)] _ I P1 P2 eq_refl _ eq_refl _ _ _ eq_refl eq_refl (same_refl _ _ _ _)); auto.
        cbn [agree open_ok]. split; auto. left. split; auto. intros a. rewrite spa_eq, stree_eq, Ep. discriminate.
    - (* QLeaf *)
      cbn [open_ok] in W. destruct W as (-> & -> & -> & Lf). injection E as <- <-.
      set (k := p_count (s_mem s)) in *.
      exists (plug C (GOpen e None (Some k) (Some (QLeafAt (e_t e) k)))).
      refine (replace_open _ _ _ _ C e _ _ _ (GOpen e None (Some k) (Some (QLeafAt (e_t e) k))) [(e_t e, Some (QLeafAt (e_t e) k))] _ I P1 P2 eq_refl _ eq_refl _ _ _ eq_refl eq_refl _).
      + auto.
      + intros D PD. cbn [gpos iown p_count app] in *. unfold e_len. fold k in PD. rewrite seq_app.
        rewrite Permutation_app_comm. apply Permutation_app_tail. auto.
      + auto.
      + assert (k + e_len e <= M).
        { assert (e_len e <= e_W e) by (destruct Lf as (Wf & _); destruct Wf; unfold e_len, w_size, e_W; lia).
          cbn [iown length] in D5. lia. }
        cbn [agree open_ok]. repeat (split; [auto; fail|]). eapply leafy_same; [| |exact Lf].
        * instantiate (1 := []). instantiate (1 := [e_node e]). constructor; auto.
        * simpl; auto.
      + constructor; auto.
    - (* QLeafAt *)
      cbn [open_ok] in W. destruct W as (-> & -> & -> & Lb & Wf & Wn & Es).
      change (w_node (e_t e)) with (e_node e) in E. rewrite Wn in E.
      change (w_size (e_t e)) with (e_len e) in E. change (w_begin (e_t e)) with (e_b e) in E.
      destruct (Nat.ltb_spec (length (p_idx (s_mem s))) (first + e_len e)) as [Bad|_]; [lia|]. cbv zeta in E.
      set (ids := map s_prim (window (pick (p_refs (s_mem s)) 0) (e_b e) (e_len e))) in *.
      assert (e_len e <= e_W e) as LW by (destruct Wf; unfold e_len, w_size, e_W; lia).
      assert (e_b e + e_W e <= M) as LW2 by (destruct Wf as (? & ? & _); unfold e_b, e_W; lia).
      assert (length ids = e_len e) as Lids.
      { unfold ids. rewrite map_length. apply window_length. rewrite Lr. lia. }
      assert (ids = map s_prim (firstn (e_len e) (pick (windows (s_mem s) e) 0))) as Eids.
      { unfold ids, windows, map3. cbn [pick]. f_equal. apply window_firstn. auto. }
      rewrite <- Eids in Es.
      set (nd := set_count _ _) in E.
      match type of E with PStep ?p ?x = _ => assert (p' = p) as -> by congruence; assert (m' = x) as -> by congruence end. clear E.
      assert (ex1 nd = Z.of_nat (length ids)) as X1.
      { unfold nd, set_count, set_left_first. cbn [ex1]. rewrite Lids. apply small_u32. lia. }
      assert (ex2 nd = Z.of_nat first) as X2.
      { unfold nd, set_count, set_left_first. cbn [ex2]. apply small_u32. lia. }
      assert (bmin nd = bmin (e_box e)) as B1 by reflexivity. assert (bmax nd = bmax (e_box e)) as B2 by reflexivity.
      clearbody nd.
      exists (plug C (GOpen e None (Some first) (Some (QRet None)))).
      refine (replace_open _ _ _ _ C e _ _ _ (GOpen e None (Some first) (Some (QRet None))) [(e_t e, Some (QRet None))] _ I P1 P2 eq_refl _ eq_refl _ _ _ eq_refl eq_refl _).
      + auto.
      + auto.
      + auto.
      + cbn [agree open_ok p_nodes p_idx]. split; auto. split; auto. exists first, nd, (e_box e), ids.
        split; auto. split; auto. split; [apply nth_error_upd_same; apply nth_error_Some; congruence|].
        split; [|auto 8].
        intros j Lj. cbn [p_idx]. unfold set_idx. apply put_in; lia.
      + constructor; cbn [p_nodes p_idx p_refs]; auto.
        * apply upd_length.
        * unfold set_idx. apply put_length. lia.
        * intros i Hi. apply nth_error_upd_other. intros <-. apply (D1 (e_node e)); auto. simpl; auto.
        * intros i Hi. unfold set_idx. apply put_out; [lia|].
          destruct (Nat.lt_ge_cases i first) as [H|H]; auto.
          destruct (Nat.lt_ge_cases i (first + length ids)) as [H'|H']; auto.
          exfalso. apply (D3 i); auto. cbn [iown]. apply in_seq. lia.
    - (* QAlloc *)
      cbn [open_ok] in W. destruct W as (-> & -> & -> & Dv). cbv zeta in E.
      set (k := p_ctr (s_mem s)) in *.
      assert (forall D, Permutation (own e None ++ D) (seq 0 k) -> Permutation (own e (Some k) ++ D) (seq 0 (k + 2))) as PI.
      { intros D PD. cbn [own app] in *. replace (k + 2) with (k + 1 + 1) by lia. rewrite !seq_app. cbn [seq].
        replace (0 + (k + 1)) with (S k) by lia. replace (0 + k) with k by lia.
        rewrite <- PD. cbn [app].
        apply perm_skip. rewrite <- app_assoc. cbn [app].
        change (k :: S k :: D) with ([k; S k] ++ D). apply Permutation_app_comm. }
      set (m2 := Pm (p_refs (s_mem s)) (p_nodes (s_mem s)) (p_idx (s_mem s)) (k + 2) (p_count (s_mem s))) in *.
      assert (forall ids rp ip, same ids rp ip (s_mem s) m2) as Sm by (intros; constructor; auto).
      rewrite Ln in E.
      destruct (Nat.leb_spec slots k) as [L|L]; injection E as <- <-.
      + exists (plug C (GOpen e (Some k) None (Some QPanic))).
        refine (replace_open _ m2 _ _ C e _ _ _ (GOpen e (Some k) None (Some QPanic)) [(e_t e, Some QPanic)] _ I P1 P2 eq_refl PI eq_refl _ _ _ eq_refl eq_refl _); auto.
        cbn [agree open_ok]. split; auto. right. exists k, ch, (windows (s_mem s) e). split; auto. split; auto.
        destruct Dv as (Wf & _ & Ep).
        assert (e_len e <= e_W e) as LW by (destruct Wf; unfold e_len, w_size, e_W; lia).
        destruct (plan_ok sorter sorter_perm prims lsize n th (e_W e) _ _ _ _ _ LW (proj2 (proj2 (proj2 (proj2 Wf)))) Ep) as (_ & _ & _ & Hd & _).
        auto.
      + exists (plug C (GOpen e (Some k) None (Some (QChildren (e_t e) ch k)))).
        refine (replace_open _ m2 _ _ C e _ _ _ (GOpen e (Some k) None (Some (QChildren (e_t e) ch k))) [(e_t e, Some (QChildren (e_t e) ch k))] _ I P1 P2 eq_refl PI eq_refl _ _ _ eq_refl eq_refl _); auto.
        cbn [agree open_ok]. destruct (i_odd _ _ I) as (h & Hh). fold k in Hh.
        repeat (split; [auto; fail|]). split; [unfold slots in *; lia|]. split; [apply (D1 (e_node e)); apply own_in|].
        eapply divided_same; [apply (Sm [e_node e] (epos e) [])|simpl; auto|exact Dv].
    - (* QChildren *)
      cbn [open_ok] in W. destruct W as (-> & -> & -> & Ls & Lt & Wf & Wn & Ep).
      change (w_node (e_t e)) with (e_node e) in E. rewrite Wn in E. rewrite Ln in E.
      destruct (Nat.leb_spec slots (S lft)) as [Bad|_]; [lia|]. cbv zeta in E.
      assert (e_len e <= e_W e) as LW by (destruct Wf; unfold e_len, w_size, e_W; lia).
      destruct (plan_ok sorter sorter_perm prims lsize n th (e_W e) _ _ _ _ _ LW (proj2 (proj2 (proj2 (proj2 Wf)))) Ep) as (Ow & Crb & Cre & Hd & H2).
      change (w_size (e_t e)) with (e_len e) in *. change (w_begin (e_t e)) with (e_b e) in *.
      set (sh := left_split_count (w_split_end (e_t e) - (e_b e + c_right_end ch)) ch) in *.
      assert (e_b e + e_W e = w_split_end (e_t e)) as EW by (destruct Wf as (? & _); unfold e_b, e_W; lia).
      assert (w_split_end (e_t e) <= M) as LM by (apply Wf).
      assert ((0 < sh)%Z -> w_split_end (e_t e) = M) as Full.
      { intro P. destruct Wf as (B1 & B2 & [B3|B3] & _); auto. exfalso. revert P. unfold sh, left_split_count.
        replace (w_split_end (e_t e) - (e_b e + c_right_end ch)) with 0 by (revert Cre; unfold e_len, w_size, e_W, e_b; lia).
        simpl. lia. }
      pose proof (move3_window n (p_refs (s_mem s)) (e_b e) (e_W e) (c_right_begin ch) (c_right_end ch) sh) as Mv.
      specialize (Mv ltac:(split; [|split]; rewrite Lr; lia) ltac:(lia) ltac:(lia)).
      specialize (Mv ltac:(intro P; specialize (Full P); split; [|split]; rewrite Lr; lia)).
      change (map3 (fun l => window l (e_b e) (e_W e)) (p_refs (s_mem s))) with (windows (s_mem s) e) in Mv.
      assert (exists k, MAX_DEPTH - w_depth (e_t e) = S k /\ k = MAX_DEPTH - S (w_depth (e_t e))) as (k & Ek & Ek') by (exists (MAX_DEPTH - S (w_depth (e_t e))); lia).
      pose proof (spa_eq e) as Es. rewrite stree_eq, Ep in Es. cbn [bind] in Es. rewrite Ek in Es.
      change (w_begin (e_t e)) with (e_b e) in Es. fold sh in Es.
      destruct (move3 (windows (s_mem s) e) (c_right_begin ch) (c_right_end ch) sh) as [w'| | |] eqn:Em; try contradiction.
      2:{ rewrite Mv in E. injection E as <- <-.
          exists (plug C (GOpen e (Some lft) None (Some QUb))).
          refine (replace_open _ (s_mem s) _ _ C e _ _ _ (GOpen e (Some lft) None (Some QUb)) [(e_t e, Some QUb)] _ I P1 P2 eq_refl _ eq_refl _ _ _ eq_refl eq_refl (same_refl _ _ _ _)); auto.
          cbn [agree open_ok]. split; auto. split; [rewrite Es; reflexivity|]. split; auto.
          exists (windows (s_mem s) e), ch. split; auto. change (w_begin (e_t e)) with (e_b e). fold sh.
          assert (c_right_begin ch <= c_right_end ch) as Lbe by lia. destruct (move3_ub _ (e_b e + c_right_begin ch) (e_b e + c_right_end ch) sh ltac:(lia) Mv) as (P & a & La). rewrite Lr in La. specialize (Full P). lia. }
      destruct Mv as (Mv & Lw' & Sw'). rewrite Mv in E. cbn [bind] in Es.
      assert (all3 (fun l => length l = e_W e /\ small n l) w') as Ow'.
      { destruct Ow as ((_ & O0) & (_ & O1) & (_ & O2)). assert (all3 (small n) (windows (s_mem s) e)) as X by (repeat split; auto).
        specialize (Sw' X). destruct Lw' as (? & ? & ?), Sw' as (? & ? & ?). repeat split; auto. }
      destruct (put3_windows (s_mem s) e w' Lr Wf Lw') as (N1 & N2). cbv zeta in N1, N2.
      set (nd := with_offset _ _) in E. set (box := with_offset (e_box e) f1em4) in *.
      match type of E with PStep ?p ?x = _ => assert (p' = p) as -> by congruence; assert (m' = x) as -> by congruence end. clear E.
      assert (bmin nd = bmin box /\ bmax nd = bmax box) as (B1 & B2) by (split; reflexivity).
      assert ((ex1 nd < 0)%Z) as X1 by (unfold nd, with_offset, set_count; cbn [ex1]; lia).
      assert (ex2 nd = Z.of_nat lft) as X2.
      { unfold nd, with_offset, set_count, set_left_first. cbn [ex2]. apply small_u32. unfold slots in *. lia. }
      clearbody nd box.
      set (rb := c_right_begin ch) in *. set (re := c_right_end ch) in *.
      set (wl := Wi lft (e_b e) (e_b e + rb) (e_b e + rb) (S (w_depth (e_t e))) (c_sorted ch)) in *.
      set (wr := Wi (S lft) (e_b e + rb) (e_b e + re) (w_split_end (e_t e)) (S (w_depth (e_t e))) (c_sorted ch)) in *.
      set (el := En wl (c_left ch) (map3 (firstn rb) w')).
      set (er := En wr (c_right ch) (map3 (skipn rb) w')).
      assert (e_W el = rb) as Wl by (unfold e_W, el, wl; cbn [e_t w_begin w_split_end]; lia).
      assert (e_W er = e_W e - rb) as Wr by (unfold e_W, er, wr; cbn [e_t w_begin w_split_end]; fold (e_b e); lia).
      assert (okw n rb (firstn rb (pick w' 0)) /\ okw n rb (firstn rb (pick w' 1)) /\ okw n rb (firstn rb (pick w' 2))) as Ol.
      { assert (forall l, length l = e_W e /\ small n l -> okw n rb (firstn rb l)) as G.
        { intros l (L1 & L2). split; [rewrite firstn_length; lia|]. unfold small in *. rewrite <- (firstn_skipn rb l) in L2. apply Forall_app in L2. apply L2. }
        destruct Ow' as (O0 & O1 & O2). auto. }
      assert (okw n (e_W e - rb) (skipn rb (pick w' 0)) /\ okw n (e_W e - rb) (skipn rb (pick w' 1)) /\ okw n (e_W e - rb) (skipn rb (pick w' 2))) as Or.
      { assert (forall l, length l = e_W e /\ small n l -> okw n (e_W e - rb) (skipn rb l)) as G.
        { intros l (L1 & L2). split; [rewrite skipn_length; lia|]. unfold small in *. rewrite <- (firstn_skipn rb l) in L2. apply Forall_app in L2. apply L2. }
        destruct Ow' as (O0 & O1 & O2). auto. }
      match goal with |- exists g', inv (St ?x _ _) g' => set (m2 := x) in * end.
      exists (plug C (GOpen e (Some lft) None (Some (QRet (Some (wl, wr)))))).
      assert (forall i, i <> e_node e -> i <> lft -> i <> S lft -> nth_error (p_nodes m2) i = nth_error (p_nodes (s_mem s)) i) as Nn.
      { intros i N3 N4 N5. unfold m2. cbn [p_nodes]. rewrite !nth_error_upd_other; auto. }
      refine (replace_open _ m2 _ _ C e _ _ _ (GOpen e (Some lft) None (Some (QRet (Some (wl, wr))))) [(e_t e, Some (QRet (Some (wl, wr))))] _ I P1 P2 eq_refl _ eq_refl _ _ _ eq_refl eq_refl _).
      + auto.
      + auto.
      + auto.
      + cbn [agree open_ok]. exists lft, el, er, nd, box, sh, (re - rb).
        assert (pick (p_refs m2) 0 = put_window (pick (p_refs (s_mem s)) 0) (e_b e) (pick w' 0) /\
                pick (p_refs m2) 1 = put_window (pick (p_refs (s_mem s)) 1) (e_b e) (pick w' 1) /\
                pick (p_refs m2) 2 = put_window (pick (p_refs (s_mem s)) 2) (e_b e) (pick w' 2)) as (Q0 & Q1 & Q2) by (repeat split).
        assert (windows m2 e = w') as Ww2 by (rewrite <- N1; reflexivity).
        assert (windows m2 el = map3 (firstn rb) w') as Wwl.
        { rewrite <- Ww2. unfold windows, map3. cbn [pick]. rewrite Wl. change (e_b el) with (e_b e).
          rewrite !(window_firstn _ _ (e_b e) (e_W e) rb) by lia. reflexivity. }
        assert (windows m2 er = map3 (skipn rb) w') as Wwr.
        { rewrite <- Ww2. unfold windows, map3. cbn [pick]. rewrite Wr. change (e_b er) with (e_b e + rb).
          rewrite !window_skipn. reflexivity. }
        repeat (split; [auto; fail|]).
        split; [unfold epos; rewrite Wl, Wr; change (e_b el) with (e_b e); change (e_b er) with (e_b e + rb);
                rewrite <- seq_app; f_equal; lia|].
        split.
        { split; [|split].
          - unfold m2. cbn [p_nodes]. change (e_node el) with lft. rewrite nth_error_upd_other by lia.
            apply nth_error_upd_same. rewrite upd_length. lia.
          - exact Wwl.
          - unfold wf. rewrite Wl. unfold el, wl. cbn [e_t e_w w_begin w_end w_split_end w_depth].
            split; [lia|]. split; [lia|]. split; [auto|]. split; [split; [lia|exact (task_left _ _ _ _ _ _ _ _ _ _ _ _ _ _ (proj2 (proj1 (proj2 (proj2 (proj2 Wf))))) Ep Em)]|]. exact Ol. }
        split.
        { split; [|split].
          - unfold m2. cbn [p_nodes]. change (e_node er) with (S lft).
            apply nth_error_upd_same. rewrite !upd_length. lia.
          - exact Wwr.
          - unfold wf. rewrite Wr. unfold er, wr. cbn [e_t e_w w_begin w_end w_split_end w_depth].
            split; [lia|]. split; [lia|]. split; [|split; [split; [lia|exact (task_right _ _ _ _ _ _ _ _ _ _ _ _ _ _ (proj2 (proj1 (proj2 (proj2 (proj2 Wf))))) Ep Em)]|exact Or]].
            destruct Wf as (_ & _ & [B3|B3] & _); [left; auto|right]. revert Cre B3 EW. unfold e_len, w_size, e_b. fold (e_b e). unfold e_b. lia. }
        split.
        { unfold m2. cbn [p_nodes]. rewrite !nth_error_upd_other by lia. apply nth_error_upd_same. apply nth_error_Some; congruence. }
        split; auto. split; auto. split; auto. split; auto.
        rewrite Es. rewrite (spa_eq el), (spa_eq er). unfold el, er, wl, wr. cbn [e_t e_box e_w w_depth]. rewrite <- Ek'.
        rewrite (stree_node k lft 0), (stree_node k (S lft) 0). reflexivity.
      + pose proof (N2 (cids C) (cref C) (cpos C) ltac:(intros i Hi; apply D2; auto)) as Sm.
        destruct Sm as [Sa Sb Sc Sd Se Sf]. constructor; auto.
        * unfold m2. cbn [p_nodes]. rewrite !upd_length. auto.
        * intros i Hi. apply Nn; intros ->; [apply (D1 (e_node e))|apply (D1 lft)|apply (D1 (S lft))]; simpl; auto.
  Qed.

  Lemma inv_step : forall s s' g, inv s g -> step s s' -> exists g', inv s' g'.
  Proof.
    intros s s' g I St. inversion St; subst; clear St;
      (destruct (upd_mid _ _ _ _ H) as (l1 & l2 & -> & Hl & Hu)); rewrite Hu; clear Hu.
    - (* pop *)
      assert (Permutation (items (l1 ++ {| t_cur := None; t_stack := t :: st; t_subs := subs |} :: l2))
        ((t, None) :: map (fun t => (t, None)) st ++ items (l1 ++ l2))) as P1 by (rewrite items_mid; auto).
      destruct (perm_in _ _ _ _ _ I P1) as (C & e & c & f & -> & <-).
      pose proof (plug_agree _ _ _ (i_agree _ _ I)) as W. cbn [s_mem agree open_ok] in W. destruct W as (-> & -> & W).
      exists (plug C (GOpen e None None (Some (QRun (e_t e))))).
      refine (replace_open _ m _ _ C e _ _ _ (GOpen e None None (Some (QRun (e_t e)))) [(e_t e, Some (QRun (e_t e)))] _ I P1 _ eq_refl _ eq_refl _ _ _ eq_refl eq_refl (same_refl _ _ _ _)); auto.
      { rewrite items_mid. simpl. apply Permutation_refl. }
      cbn [agree open_ok]. auto.
    - (* run *)
      assert (Permutation (items (l1 ++ {| t_cur := Some (t, p); t_stack := st; t_subs := subs |} :: l2))
        ((t, Some p) :: map (fun t => (t, None)) st ++ items (l1 ++ l2))) as P1 by (rewrite items_mid; auto).
      destruct (perm_in _ _ _ _ _ I P1) as (C & e & c & f & -> & <-).
      eapply run_step; [exact I|exact P1| |exact H0]. rewrite items_mid. simpl. apply Permutation_refl.
    - (* none *)
      assert (Permutation (items (l1 ++ {| t_cur := Some (t, p); t_stack := st; t_subs := subs |} :: l2))
        ((t, Some p) :: map (fun t => (t, None)) st ++ items (l1 ++ l2))) as P1 by (rewrite items_mid; auto).
      destruct (perm_in _ _ _ _ _ I P1) as (C & e & c & f & -> & <-).
      pose proof (plug_agree _ _ _ (i_agree _ _ I)) as W. cbn [s_mem agree] in W.
      assert (p = QRet None) as ->.
      { destruct p; cbn [qstep] in H0; cbv zeta in H0; try discriminate H0; [| | | |congruence];
        repeat match type of H0 with context [match ?x with _ => _ end] => destruct x; try discriminate H0 end. }
      cbn [open_ok] in W. destruct W as (-> & LW & first & nd & box & ids & -> & L & En & A & X1 & X2 & B1 & B2 & Es).
      exists (plug C (GLeaf (e_node e) (e_b e) (e_W e) nd box first ids)).
      refine (replace_open _ m _ _ C e _ _ _ (GLeaf (e_node e) (e_b e) (e_W e) nd box first ids) [] _ I P1 _ eq_refl _ eq_refl _ _ _ _ eq_refl (same_refl _ _ _ _)); auto.
      { rewrite items_mid. simpl. apply Permutation_refl. }
      { cbn [gpos iown s_mem]. rewrite L. auto. }
      cbn [agree s_mem]. repeat split; auto. lia.
    - (* push *)
      assert (Permutation (items (l1 ++ {| t_cur := Some (t, p); t_stack := st; t_subs := subs |} :: l2))
        ((t, Some p) :: map (fun t => (t, None)) st ++ items (l1 ++ l2))) as P1 by (rewrite items_mid; auto).
      destruct (perm_in _ _ _ _ _ I P1) as (C & e & c & f & -> & <-).
      pose proof (plug_agree _ _ _ (i_agree _ _ I)) as W. cbn [s_mem agree] in W.
      assert (p = QRet (Some (a, b))) as ->.
      { destruct p; cbn [qstep] in H0; cbv zeta in H0; try discriminate H0; [| | | |congruence];
        repeat match type of H0 with context [match ?x with _ => _ end] => destruct x; try discriminate H0 end. }
      cbn [open_ok] in W.
      destruct W as (lft & el & er & nd & box & sh & mv & -> & -> & Lt & -> & -> & N1 & N2 & Ps & Wl & Wr & En & X1 & X2 & B1 & B2 & Es).
      exists (plug C (GNode (e_node e) nd box sh mv (GOpen el None None None) (GOpen er None None None))).
      refine (replace_open _ m _ _ C e _ _ _ (GNode (e_node e) nd box sh mv (GOpen el None None None) (GOpen er None None None)) [(e_t el, None); (e_t er, None)] _ I P1 _ eq_refl _ _ _ _ _ _ eq_refl (same_refl _ _ _ _)); auto.
      { rewrite items_mid. simpl. apply (ordered_perm witem w_size) in H1.
        apply (Permutation_map (fun t => (t, @None pprog))) in H1. simpl in H1.
        refine (Permutation_app_tail _ (Permutation_sym H1)). }
      { intros D P. cbn [gids own app] in *. rewrite N1, N2. exact P. }
      { cbn [agree s_mem g_idx open_ok]. rewrite N1, N2. auto 16. }
    - (* spawn *)
      assert (Permutation (items (l1 ++ {| t_cur := Some (t, p); t_stack := st; t_subs := subs |} :: l2))
        ((t, Some p) :: map (fun t => (t, None)) st ++ items (l1 ++ l2))) as P1 by (rewrite items_mid; auto).
      destruct (perm_in _ _ _ _ _ I P1) as (C & e & c & f & -> & <-).
      pose proof (plug_agree _ _ _ (i_agree _ _ I)) as W. cbn [s_mem agree] in W.
      assert (p = QRet (Some (a, b))) as ->.
      { destruct p; cbn [qstep] in H0; cbv zeta in H0; try discriminate H0; [| | | |congruence];
        repeat match type of H0 with context [match ?x with _ => _ end] => destruct x; try discriminate H0 end. }
      cbn [open_ok] in W.
      destruct W as (lft & el & er & nd & box & sh & mv & -> & -> & Lt & -> & -> & N1 & N2 & Ps & Wl & Wr & En & X1 & X2 & B1 & B2 & Es).
      exists (plug C (GNode (e_node e) nd box sh mv (GOpen el None None None) (GOpen er None None None))).
      refine (replace_open _ m _ _ C e _ _ _ (GNode (e_node e) nd box sh mv (GOpen el None None None) (GOpen er None None None)) [(e_t el, None); (e_t er, None)] _ I P1 _ eq_refl _ _ _ _ _ _ eq_refl (same_refl _ _ _ _)); auto.
      { match goal with |- Permutation (items (?a ++ ?b)) _ => replace (items (a ++ b)) with (items a ++ items b) by (symmetry; apply flat_map_app) end.
        rewrite items_mid. rewrite Permutation_app_comm. simpl. apply (ordered_perm witem w_size) in H1.
        apply (Permutation_map (fun t => (t, @None pprog))) in H1. simpl in H1.
        refine (Permutation_app_tail _ (Permutation_sym H1)). }
      { intros D P. cbn [gids own app] in *. rewrite N1, N2. exact P. }
      { cbn [agree s_mem g_idx open_ok]. rewrite N1, N2. auto 16. }
    - (* join *)
      exists g. destruct I. constructor; auto. cbn [s_threads] in *. rewrite items_mid in *. auto.
  Qed.

  Theorem reach_inv : forall s, reachable init s -> exists g, inv s g.
  Proof.
    intros s R. induction R as [|s s' R (g & I) St]; [eexists; apply inv_init|]. eapply inv_step; eauto.
  Qed.

  (** ** The end *)
  Fixpoint to_tree (g : gt) : tree :=
    match g with
    | GOpen e _ _ _ => TLeaf (e_node e) (e_box e)
    | GLeaf i _ _ nd _ _ _ => TLeaf i nd
    | GNode i nd _ _ _ l r => TNode i nd (to_tree l) (to_tree r)
    end.
  Lemma to_tree_idx : forall g, t_idx (to_tree g) = g_idx g.
  Proof. destruct g; auto. Qed.

  Lemma map_nth_at : forall m b l, at_idx m b l -> map (fun k => nth k (p_idx m) 0) (seq b (length l)) = l.
  Proof.
    intros m b l. revert b. induction l as [|x l IH]; intros b A; simpl; auto. f_equal.
    - specialize (A 0). rewrite Nat.add_0_r in A. simpl in A. apply nth_error_nth, A. lia.
    - apply IH. intros j Lj. specialize (A (S j)). simpl in A. rewrite Nat.add_succ_r in A. apply A. lia.
  Qed.

  Lemma done_tree : forall g m, gitems g = [] -> agree m g ->
    repr (p_nodes m) (to_tree g) /\ t_ids (to_tree g) = gids g /\ positions (to_tree g) = gpos g /\
    children_after (to_tree g) /\ exists T, gpred g = Ok T /\ stores (p_idx m) (to_tree g) T.
  Proof.
    induction g as [e c f p|i b W nd box first ids|i nd box sh mv l IHl r IHr]; intros m G A; simpl in *.
    - discriminate.
    - destruct A as (A & B & _ & C & D & B1 & B2). unfold leaf_positions. rewrite C, D, !Nat2Z.id.
      split; [split; auto; lia|]. split; auto. split; auto. split; auto. eexists. split; [reflexivity|].
      simpl. split; auto. split; auto. unfold leaf_prims, leaf_positions. rewrite C, D, !Nat2Z.id. apply map_nth_at; auto.
    - apply app_eq_nil in G as [Gl Gr]. destruct A as (A & A' & B & C & D & B1 & B2 & Al & Ar).
      destruct (IHl m Gl Al) as (R1 & I1 & P1 & C1 & Tl & E1 & S1). destruct (IHr m Gr Ar) as (R2 & I2 & P2 & C2 & Tr & E2 & S2).
      rewrite !to_tree_idx, I1, I2, P1, P2, E1, E2. cbn [bind]. repeat split; auto; try lia.
      eexists. split; [reflexivity|]. simpl. auto.
  Qed.

  Theorem returned_spatial : forall s, reachable init s -> returned s ->
    exists t T, let b := spatial_finish (s_mem s) in
      spa root_ent = Ok T /\ stores (prim_indices b) t T /\
      repr (nodes b) t /\ t_idx t = 0 /\ Permutation (t_ids t) (seq 0 (length (nodes b))) /\ children_after t /\
      Permutation (positions t) (seq 0 (length (positions t))) /\ length (positions t) <= M /\ length (prim_indices b) = M /\
      length (nodes b) <= slots.
  Proof.
    intros s R Rt. destruct (reach_inv s R) as (g & I).
    pose proof (returned_all _ _ _ _ _ _ _ _ _ _ R Rt) as Fin.
    assert (items (s_threads s) = []) as It.
    { unfold items. clear - Fin. induction Fin as [|t l E F IH]; auto. simpl. rewrite IH, E. reflexivity. }
    assert (gitems g = []) as Gi.
    { apply Permutation_nil. rewrite <- It. symmetry. apply (i_items _ _ I). }
    destruct (done_tree g _ Gi (i_agree _ _ I)) as (Rp & Ids & Ps & Ca & T & Ep & St).
    pose proof (i_nodes _ _ I) as Ln. pose proof (i_idx _ _ I) as Li.
    set (ctr := p_ctr (s_mem s)) in *.
    assert (forall t x, repr (p_nodes (s_mem s)) t -> In x (t_ids t) -> x < slots) as Bd.
    { clear - Ln. intros t x. rewrite <- Ln. induction t as [i nd|i nd l IHl r IHr]; simpl; intros R Ix.
      - destruct Ix as [<-|[]]. apply nth_error_Some. destruct R as (-> & _). discriminate.
      - destruct R as (R1 & _ & _ & _ & Rl & Rr). destruct Ix as [<-|Ix]; [apply nth_error_Some; congruence|].
        apply in_app_or in Ix as [Ix|Ix]; auto. }
    assert (ctr <= slots) as Lc0.
    { destruct (Nat.le_gt_cases ctr slots) as [L|L]; auto. exfalso.
      assert (slots < slots); [|lia]. apply (Bd (to_tree g)); auto. rewrite Ids.
      eapply Permutation_in; [symmetry; apply (i_ids _ _ I)|]. fold ctr. apply in_seq. lia. }
    assert (nodes (spatial_finish (s_mem s)) = firstn ctr (p_nodes (s_mem s))) as Nd.
    { unfold spatial_finish, resize. cbn [nodes]. fold ctr. rewrite Ln. replace (ctr - slots) with 0 by lia. simpl. apply app_nil_r. }
    assert (length (nodes (spatial_finish (s_mem s))) = ctr) as Lc by (rewrite Nd, firstn_length; lia).
    exists (to_tree g), T. cbn zeta. rewrite Ps.
    assert (length (gpos g) = p_count (s_mem s)) as Lp.
    { rewrite (Permutation_length (i_pos _ _ I)). apply seq_length. }
    split; [rewrite <- (i_pred _ _ I); auto|]. split; [exact St|].
    split; [|split; [|split; [|split; [|split; [|split; [|split]]]]]].
    - rewrite Nd. assert (forall a b t, (forall x, In x (t_ids t) -> nth_error a x = nth_error b x) -> repr a t -> repr b t) as Ext.
      { clear. induction t as [i nd|i nd l IHl r IHr]; simpl; intros H R.
        - rewrite <- H; auto.
        - destruct R as (R1 & R2 & R3 & R4 & R5 & R6). rewrite <- H by auto. repeat split; auto.
          + apply IHl; auto. intros x Ix. apply H. right. apply in_or_app; auto.
          + apply IHr; auto. intros x Ix. apply H. right. apply in_or_app; auto. }
      eapply Ext; [|exact Rp]. intros x Hx. rewrite Ids in Hx.
      assert (In x (seq 0 ctr)) as Hs by (eapply Permutation_in; [apply (i_ids _ _ I)|auto]). apply in_seq in Hs.
      rewrite <- (firstn_skipn ctr (p_nodes (s_mem s))) at 1. apply nth_error_app1. rewrite firstn_length. lia.
    - rewrite to_tree_idx. apply (i_root _ _ I).
    - rewrite Ids, Lc. apply (i_ids _ _ I).
    - auto.
    - rewrite Lp. apply (i_pos _ _ I).
    - pose proof (agree_pos _ _ (i_agree _ _ I)) as Q. rewrite (i_ref _ _ I), seq_length in Q. auto.
    - exact Li.
    - lia.
  Qed.

  (** ** Crashes *)
  Lemma plug_not_ok : forall C x, (forall a, gpred x <> Ok a) -> forall a, gpred (plug C x) <> Ok a.
  Proof.
    induction C as [|[i nd bx sh mv g|i nd bx sh mv g] C IH]; intros x N a; simpl; auto.
    - destruct (gpred (plug C x)) eqn:E; cbn [bind]; try discriminate. exfalso. eapply IH; eauto.
    - destruct (gpred g); cbn [bind]; try discriminate. destruct (gpred (plug C x)) eqn:E; cbn [bind]; try discriminate.
      exfalso. eapply IH; eauto.
  Qed.
  Lemma spa_size : forall e T w ch, plan (e_t e) (e_box e) (e_w e) = Ok (w, Divide ch) -> spa e = Ok T -> 3 <= a_size T.
  Proof.
    intros e T w ch Ep E. rewrite spa_eq, stree_eq, Ep in E. cbn [bind] in E.
    destruct (MAX_DEPTH - w_depth (e_t e)); [discriminate E|].
    repeat match type of E with bind ?x _ = _ => destruct x; cbn [bind] in E; try discriminate E end.
    match type of E with Ok ?x = Ok _ => assert (T = x) as -> by congruence end. simpl.
    assert (forall t, 1 <= a_size t) as P by (destruct t; simpl; lia). pose proof (P a0). pose proof (P a1). lia.
  Qed.
  Lemma ids_size : forall g m T, agree m g -> gpred g = Ok T -> length (gids g) <= a_size T.
  Proof.
    induction g as [e c f p|i b W nd box first ids|i nd box sh mv l IHl r IHr]; intros m T A E; simpl in *.
    - assert (1 <= a_size T) as P by (destruct T; simpl; lia). destruct c as [c|]; cbn [own length]; auto.
      destruct p as [[t|t|t first|t ch|t ch lft|[[a b]|]| |]|]; simpl in A.
      + destruct A as (_ & A & _). discriminate A.
      + destruct A as (_ & A & _). discriminate A.
      + destruct A as (_ & A & _). discriminate A.
      + destruct A as (_ & A & _). discriminate A.
      + destruct A as (_ & _ & _ & _ & _ & _ & _ & Ep). eapply spa_size; eauto.
      + destruct A as (lft & el & er & nd & box & sh & mv & _ & _ & _ & _ & _ & _ & _ & _ & _ & _ & _ & _ & _ & _ & _ & Es).
        rewrite Es in E. destruct (spa el); cbn [bind] in E; try discriminate E. destruct (spa er); cbn [bind] in E; try discriminate E.
        match type of E with Ok ?x = Ok _ => assert (T = x) as -> by congruence end. simpl.
        assert (forall t, 1 <= a_size t) as P' by (destruct t; simpl; lia). pose proof (P' a0). pose proof (P' a1). lia.
      + destruct A as (A & _). discriminate A.
      + destruct A as (_ & [(A & _)|(lft & ch & w & _ & _ & _ & Ep)]); [discriminate A|]. eapply spa_size; eauto.
      + destruct A as (_ & A & _). rewrite A in E. discriminate E.
      + destruct A as (A & _). discriminate A.
    - match type of E with Ok ?x = Ok _ => assert (T = x) as -> by congruence end. simpl. lia.
    - destruct A as (_ & _ & _ & _ & _ & _ & _ & Al & Ar).
      destruct (gpred l) as [Tl| | |]; cbn [bind] in E; try discriminate E. destruct (gpred r) as [Tr| | |]; cbn [bind] in E; try discriminate E.
      match type of E with Ok ?x = Ok _ => assert (T = x) as -> by congruence end. simpl. rewrite app_length.
      specialize (IHl m Tl Al eq_refl). specialize (IHr m Tr Ar eq_refl). lia.
  Qed.

  (** The next action of a task is a crash only after a panic or the move out
      of range. *)
  Lemma crash_kind : forall s j t p st subs, reachable init s ->
    nth_error (s_threads s) j = Some (Th (Some (t, p)) st subs) -> pst p (s_mem s) = PCrash -> p = QPanic \/ p = QUb.
  Proof.
    intros s j t p st subs R Ej Cr. destruct (reach_inv s R) as (g & I).
    destruct s as [m ths tr]. cbn [s_threads s_mem] in *.
    destruct (upd_mid _ _ _ _ Ej) as (l1 & l2 & -> & _ & _).
    assert (Permutation (items (l1 ++ {| t_cur := Some (t, p); t_stack := st; t_subs := subs |} :: l2))
      ((t, Some p) :: map (fun t => (t, None)) st ++ items (l1 ++ l2))) as P1 by (rewrite items_mid; auto).
    destruct (perm_in _ _ _ _ _ I P1) as (C & e & c & f & -> & <-).
    pose proof (plug_agree _ _ _ (i_agree _ _ I)) as W. cbn [agree s_mem] in W.
    destruct p as [t|t|t first|t ch|t ch lft|r| |]; auto; cbn [qstep] in Cr; cbv zeta in Cr; cbn [open_ok] in W; try discriminate Cr.
    - destruct W as (-> & _ & _ & Wn & _). change (w_node (e_t e)) with (e_node e) in Cr. rewrite Wn in Cr.
      destruct (plan_task _ _ _ _ _ _ _) as [[w d]| | |]; discriminate Cr.
    - destruct W as (-> & _ & _ & _ & _ & Wn & _). change (w_node (e_t e)) with (e_node e) in Cr. rewrite Wn in Cr.
      destruct (_ <? _); discriminate Cr.
    - destruct (_ <=? _); discriminate Cr.
    - destruct W as (-> & _ & _ & _ & _ & _ & Wn & _). change (w_node (e_t e)) with (e_node e) in Cr. rewrite Wn in Cr.
      destruct (_ <=? _); [discriminate Cr|]. destruct (move3 _ _ _ _); discriminate Cr.
  Qed.

  (** Schedule-independence of failure. *)
  Theorem crash_seq : forall s T, reachable init s -> crashes pst s -> spa root_ent = Ok T -> slots < a_size T.
  Proof.
    intros s T R (j & t & p & st & subs & Ej & Cr) ET.
    pose proof (crash_kind _ _ _ _ _ _ R Ej Cr) as K. destruct (reach_inv s R) as (g & I).
    destruct s as [m ths tr]. cbn [s_threads s_mem] in *.
    destruct (upd_mid _ _ _ _ Ej) as (l1 & l2 & -> & _ & _).
    assert (Permutation (items (l1 ++ {| t_cur := Some (t, p); t_stack := st; t_subs := subs |} :: l2))
      ((t, Some p) :: map (fun t => (t, None)) st ++ items (l1 ++ l2))) as P1 by (rewrite items_mid; auto).
    destruct (perm_in _ _ _ _ _ I P1) as (C & e & c & f & -> & <-).
    pose proof (plug_agree _ _ _ (i_agree _ _ I)) as W. cbn [agree s_mem] in W.
    pose proof (i_pred _ _ I) as Pr. rewrite ET in Pr.
    destruct K as [-> | ->]; cbn [open_ok] in W.
    - destruct W as (_ & [(_ & N)|(lft & ch & w & -> & L & _ & Ep)]).
      + exfalso. eapply plug_not_ok; [|exact Pr]. cbn [gpred]. auto.
      + pose proof (ids_size _ _ _ (i_agree _ _ I) Pr) as Sz.
        destruct (open_disjoint _ _ _ _ _ _ I) as (D1 & _). destruct (D1 (S lft)) as (_ & L2); [simpl; auto|].
        rewrite (Permutation_length (i_ids _ _ I)), seq_length in Sz. cbn [s_mem] in *. lia.
    - exfalso. destruct W as (_ & Es & _). eapply plug_not_ok; [|exact Pr]. cbn [gpred]. rewrite Es. discriminate.
  Qed.

  (** The only undefined behaviour is the move of the right references beyond
      the arrays: the share of the free space computed in floating point is
      larger than the free space. *)
  Theorem ub_cause : forall s j t p st subs, reachable init s ->
    nth_error (s_threads s) j = Some (Th (Some (t, p)) st subs) -> p = QUb ->
    exists bounds w w' c, plan t bounds w = Ok (w', Divide c) /\ w_begin t + c_right_end c <= w_split_end t <= M /\
      c_right_begin c <= c_right_end c /\
      let remaining := w_split_end t - (w_begin t + c_right_end c) in
      (Z.of_nat remaining < left_split_count remaining c)%Z.
  Proof.
    intros s j t p st subs R Ej ->. destruct (reach_inv s R) as (g & I).
    destruct s as [m ths tr]. cbn [s_threads s_mem] in *.
    destruct (upd_mid _ _ _ _ Ej) as (l1 & l2 & -> & _ & _).
    assert (Permutation (items (l1 ++ {| t_cur := Some (t, QUb); t_stack := st; t_subs := subs |} :: l2))
      ((t, Some QUb) :: map (fun t => (t, None)) st ++ items (l1 ++ l2))) as P1 by (rewrite items_mid; auto).
    destruct (perm_in _ _ _ _ _ I P1) as (C & e & c & f & -> & <-).
    pose proof (plug_agree _ _ _ (i_agree _ _ I)) as W. cbn [agree s_mem open_ok] in W.
    destruct W as (_ & _ & Wf & w & ch & Ep & L).
    assert (w_size (e_t e) <= e_W e) as LW by (destruct Wf; unfold w_size, e_W; lia).
    destruct (plan_ok sorter sorter_perm prims lsize n th (e_W e) _ _ _ _ _ LW (proj2 (proj2 (proj2 (proj2 Wf)))) Ep) as (_ & Crb & Cre & _).
    exists (e_box e), (e_w e), w, ch. split; auto. destruct Wf as (B1 & B2 & _). revert Cre. unfold e_W. intro Cre.
    split; [lia|]. split; [lia|exact L].
  Qed.

  (** ** Live tasks own disjoint parts of the arrays *)
  Definition live (s : state witem pmem pprog) : list witem := map fst (items (s_threads s)).
  Lemma submset : forall g, exists D, Permutation (gref g) (flat_map (fun t => seq (w_begin t) (w_split_end t - w_begin t)) (map fst (gitems g)) ++ D).
  Proof.
    induction g as [e c f p|i b W nd box first ids|i nd box sh mv l (Dl & IHl) r (Dr & IHr)]; simpl.
    - exists []. rewrite !app_nil_r. auto.
    - eexists. apply Permutation_refl.
    - exists (Dl ++ Dr). rewrite IHl, IHr, map_app, flat_map_app, <- !app_assoc.
      apply Permutation_app_head. rewrite !app_assoc. apply Permutation_app_tail. apply Permutation_app_comm.
  Qed.
  Lemma nodup_l : forall A (l1 l2 : list A), NoDup (l1 ++ l2) -> NoDup l1.
  Proof.
    induction l1 as [|h t IH]; intros l2 N; [constructor|]. simpl in N. inversion N; subst. constructor; eauto.
    intro Bad. apply H1. apply in_or_app. auto.
  Qed.
  Lemma subids : forall g, exists D, Permutation (gids g) (map w_node (map fst (gitems g)) ++ D).
  Proof.
    induction g as [e c f p|i b W nd box first ids|i nd box sh mv l (Dl & IHl) r (Dr & IHr)]; simpl.
    - destruct c as [c|]; [exists [c; S c]|exists []]; simpl; auto.
    - eexists. apply Permutation_refl.
    - exists (i :: Dl ++ Dr). rewrite IHl, IHr, !map_app, <- Permutation_middle, <- !app_assoc.
      apply perm_skip, Permutation_app_head. rewrite !app_assoc. apply Permutation_app_tail. apply Permutation_app_comm.
  Qed.
  Theorem live_disjoint : forall s, reachable init s ->
    NoDup (flat_map (fun t => seq (w_begin t) (w_split_end t - w_begin t)) (live s)) /\
    Forall (fun i => i < M) (flat_map (fun t => seq (w_begin t) (w_split_end t - w_begin t)) (live s)) /\
    NoDup (map w_node (live s)).
  Proof.
    intros s R. destruct (reach_inv s R) as (g & I). unfold live.
    assert (Permutation (map fst (gitems g)) (map fst (items (s_threads s)))) as P by (apply Permutation_map, (i_items _ _ I)).
    destruct (submset g) as (D & Q). rewrite (i_ref _ _ I) in Q.
    split; [|split].
    - eapply Permutation_NoDup; [apply (Permutation_flat_map _ P)|].
      eapply nodup_l. eapply Permutation_NoDup; [exact Q|apply seq_NoDup].
    - rewrite Forall_forall. intros i Hi. eapply Permutation_in in Hi; [|symmetry; apply (Permutation_flat_map _ P)].
      assert (In i (seq 0 M)) as Hs by (eapply Permutation_in; [symmetry; exact Q|apply in_or_app; auto]).
      apply in_seq in Hs. lia.
    - eapply Permutation_NoDup; [apply (Permutation_map _ P)|].
      destruct (subids g) as (D' & Q'). rewrite (i_ids _ _ I) in Q'.
      eapply nodup_l. eapply Permutation_NoDup; [exact Q'|apply seq_NoDup].
  Qed.

  (** ** Facts about the sequential reading *)
  Lemma seq_small : forall k t bounds w W T, w_size t <= W -> W = w_split_end t - w_begin t -> w_begin t <= w_end t ->
    all3 (okw n W) w -> stree k t bounds w = Ok T ->
    Forall (fun p => p < n) (a_prims T) /\ a_depth T <= k.
  Proof.
    induction k as [|k IH]; intros t bounds w W T LW EW LB O E; rewrite stree_eq in E;
      (destruct (plan t bounds w) as [[w1 d]| | |] eqn:Ep; cbn [bind] in E; try discriminate E);
      (destruct (plan_ok sorter sorter_perm prims lsize n th W _ _ _ _ _ LW O Ep) as (Ow & Od)).
    - destruct d as [|c]; [|discriminate E].
      match type of E with Ok ?x = Ok _ => assert (T = x) as -> by congruence end. cbn [a_prims a_depth]. split; [|lia].
      apply Forall_forall. intros p Hp. apply in_map_iff in Hp as (r & <- & Hr).
      pose proof (all3_pick _ _ _ 0 Ow) as (_ & F). unfold small in F. rewrite Forall_forall in F. apply F.
      rewrite <- (firstn_skipn (w_size t) (pick w1 0)). apply in_or_app. auto.
    - destruct d as [|c].
      { match type of E with Ok ?x = Ok _ => assert (T = x) as -> by congruence end. cbn [a_prims a_depth]. split; [|lia].
        apply Forall_forall. intros p Hp. apply in_map_iff in Hp as (r & <- & Hr).
        pose proof (all3_pick _ _ _ 0 Ow) as (_ & F). unfold small in F. rewrite Forall_forall in F. apply F.
        rewrite <- (firstn_skipn (w_size t) (pick w1 0)). apply in_or_app. auto. }
      destruct Od as (Crb & Cre & Hd & H2).
      set (rb := c_right_begin c) in *. set (re := c_right_end c) in *.
      set (sh := left_split_count (w_split_end t - (w_begin t + re)) c) in *.
      assert (rb <= W) as LrbW by lia.
      pose proof (move3_window n w1 0 W rb re sh) as Mv.
      destruct Ow as ((L0 & F0) & (L1 & F1) & (L2 & F2)).
      specialize (Mv ltac:(split; [|split]; lia) ltac:(lia) ltac:(lia) ltac:(intros _; split; [|split]; lia)).
      assert (map3 (fun l => window l 0 W) w1 = w1) as Ew1.
      { unfold map3. rewrite <- L0 at 1. rewrite <- L1 at 1. rewrite <- L2 at 1. rewrite !window_all. destruct w1 as [[x y] z]; auto. }
      rewrite Ew1 in Mv.
      destruct (move3 w1 rb re sh) as [w2| | |]; cbn [bind] in E; try discriminate E.
      destruct Mv as (_ & (M0 & M1 & M2) & Sm). destruct Sm as (S0 & S1 & S2); [repeat split; auto|].
      assert (forall l, length l = W -> small n l -> okw n rb (firstn rb l) /\ okw n (W - rb) (skipn rb l)) as G.
      { intros l Ll Sl. unfold small in Sl. rewrite <- (firstn_skipn rb l) in Sl. apply Forall_app in Sl as (Sa & Sb).
        split; split; auto; [rewrite firstn_length|rewrite skipn_length]; lia. }
      destruct (G _ M0 S0) as (G0 & H0). destruct (G _ M1 S1) as (G1 & H1). destruct (G _ M2 S2) as (G2 & H2').
      match type of E with bind ?x _ = _ => destruct x as [Tl| | |] eqn:El; cbn [bind] in E; try discriminate E end.
      match type of E with bind ?x _ = _ => destruct x as [Tr| | |] eqn:Er; cbn [bind] in E; try discriminate E end.
      match type of E with Ok ?x = Ok _ => assert (T = x) as -> by congruence end. clear E.
      apply (IH _ _ _ rb) in El as (Pl & Dl); cbn [w_size w_begin w_end w_split_end]; try lia; [|unfold w_size; cbn [w_begin w_end]; lia|repeat split; first [apply G0|apply G1|apply G2]].
      apply (IH _ _ _ (W - rb)) in Er as (Pr & Dr); cbn [w_size w_begin w_end w_split_end]; try lia;
        [|unfold w_size; cbn [w_begin w_end]; lia|repeat split; first [apply H0|apply H1|apply H2']].
      cbn [a_prims a_depth]. split; [apply Forall_app; auto|lia].
  Qed.
  Lemma root_facts : forall T, spa root_ent = Ok T -> Forall (fun p => p < n) (a_prims T) /\ a_depth T <= MAX_DEPTH.
  Proof.
    intros T E. rewrite spa_eq in E. change (w_depth (e_t root_ent)) with 0 in E. rewrite Nat.sub_0_r in E.
    eapply (seq_small MAX_DEPTH _ _ _ M); [| | |split; [|split]|exact E].
    - unfold w_size. change (w_end (e_t root_ent)) with n. pose proof M_ge. lia.
    - change (w_split_end (e_t root_ent)) with M. change (w_begin (e_t root_ent)) with 0. lia.
    - change (w_begin (e_t root_ent)) with 0. lia.
    - apply (start_refs 0).
    - apply (start_refs 1).
    - apply (start_refs 2).
  Qed.

  (** ** Termination *)
  Definition q_pot (t : witem) : nat := 12 * 2 ^ (65 - w_depth t) - 6.
  Inductive q_cost : pprog -> nat -> Prop :=
  | qc_run : forall t, q_cost (QRun t) (q_pot t - 1)
  | qc_leaf : forall t, q_cost (QLeaf t) 3
  | qc_leafat : forall t f, q_cost (QLeafAt t f) 2
  | qc_none : q_cost (QRet None) 1
  | qc_alloc : forall t c, w_depth t < MAX_DEPTH -> q_cost (QAlloc t c) (q_pot t - 2)
  | qc_children : forall t c l, w_depth t < MAX_DEPTH -> q_cost (QChildren t c l) (q_pot t - 3)
  | qc_some : forall a b, q_cost (QRet (Some (a, b))) (q_pot a + q_pot b + 2)
  | qc_panic : q_cost QPanic 0
  | qc_ub : q_cost QUb 0.
  Lemma pot_ge : forall t, 6 <= q_pot t.
  Proof. intro t. unfold q_pot. pose proof (Nat.pow_nonzero 2 (65 - w_depth t) ltac:(lia)). lia. Qed.
  Lemma plan_depth : forall t bounds w w' c, plan t bounds w = Ok (w', Divide c) -> w_depth t < MAX_DEPTH.
  Proof.
    intros t bounds w w' c E. unfold plan_task in E. destruct (Nat.leb_spec MAX_DEPTH (w_depth t)) as [L|L]; auto.
    rewrite orb_true_r in E. discriminate E.
  Qed.
  Lemma q_pays : pays witem pmem pprog QRun pst q_pot q_cost.
  Proof.
    split; [|split; [|split]].
    - intro t. exists (q_pot t - 1). split; [constructor|]. pose proof (pot_ge t). lia.
    - intros p e m p' m' Q E. inversion Q; subst; clear Q; cbn [qstep] in E; cbv zeta in E; try discriminate E.
      + destruct (nth_error (p_nodes m) (w_node t)); [|discriminate E]. pose proof (pot_ge t).
        destruct (plan_task _ _ _ _ _ _ _) as [[w d]| | |] eqn:Ep; injection E as <- <-.
        * destruct d as [|c]; [exists 3|exists (q_pot t - 2)]; split; try constructor; try lia. eapply plan_depth; eauto.
        * exists 0. split; [constructor|lia].
        * exists 0. split; [constructor|lia].
        * exists 0. split; [constructor|lia].
      + injection E as <- <-. exists 2. split; [constructor|lia].
      + destruct (nth_error (p_nodes m) (w_node t)); [|discriminate E]. destruct (_ <? _).
        * injection E as <- <-. exists 0. split; [constructor|lia].
        * assert (p' = QRet None) as -> by congruence. exists 1. split; [constructor|lia].
      + pose proof (pot_ge t). destruct (_ <=? _); injection E as <- <-; [exists 0|exists (q_pot t - 3)]; split; try constructor; auto; lia.
      + destruct (nth_error (p_nodes m) (w_node t)); [|discriminate E]. pose proof (pot_ge t). destruct (_ <=? _).
        * injection E as <- <-. exists 0. split; [constructor|lia].
        * destruct (move3 _ _ _ _).
          -- match type of E with PStep ?x _ = _ => assert (p' = x) as -> by congruence end.
             eexists. split; [constructor|]. unfold q_pot. cbn [w_depth].
             replace (65 - w_depth t) with (S (65 - S (w_depth t))) by (revert H; unfold MAX_DEPTH; lia). rewrite Nat.pow_succ_r'.
             pose proof (Nat.pow_nonzero 2 (65 - S (w_depth t)) ltac:(lia)). lia.
          -- injection E as <- <-. exists 0. split; [constructor|lia].
          -- injection E as <- <-. exists 0. split; [constructor|lia].
          -- injection E as <- <-. exists 0. split; [constructor|lia].
    - intros p e m Q E. assert (p = QRet None) as ->.
      { destruct p; cbn [qstep] in E; cbv zeta in E; try discriminate E; [| | | |congruence];
        repeat match type of E with context [match ?x with _ => _ end] => destruct x; try discriminate E end. }
      inversion Q. lia.
    - intros p e m a b Q E. assert (p = QRet (Some (a, b))) as ->.
      { destruct p; cbn [qstep] in E; cbv zeta in E; try discriminate E; [| | | |congruence];
        repeat match type of E with context [match ?x with _ => _ end] => destruct x; try discriminate E end. }
      inversion Q. lia.
  Qed.

  (** ** What a phase touches *)
  Definition ids_out (l l' : list nat) : Prop := forall i, In i l -> ~ In i l'.
  Lemma disj_seq : forall l b k i, ids_out l (seq b k) -> In i l -> i < b \/ b + k <= i.
  Proof.
    intros l b k i D I. destruct (Nat.lt_ge_cases i b) as [H|H]; auto. destruct (Nat.lt_ge_cases i (b + k)) as [H'|H']; auto.
    exfalso. apply (D i); auto. apply in_seq. lia.
  Qed.
  Lemma same_sym : forall ids rp ip m m', same ids rp ip m m' -> same ids rp ip m' m.
  Proof. intros ids rp ip m m' [A B C D E F]. constructor; intros; symmetry; auto. Qed.
  Lemma windows_put : forall m e w, (forall a, length (pick (p_refs m) a) = M) -> wf e -> all3 (fun l => length l = e_W e) w ->
    forall a, a < 3 -> length (pick (put_window (pick (p_refs m) 0) (e_b e) (pick w 0), put_window (pick (p_refs m) 1) (e_b e) (pick w 1),
                  put_window (pick (p_refs m) 2) (e_b e) (pick w 2)) a) = M /\
      forall j, j < e_W e -> nth_error (pick (put_window (pick (p_refs m) 0) (e_b e) (pick w 0), put_window (pick (p_refs m) 1) (e_b e) (pick w 1),
                  put_window (pick (p_refs m) 2) (e_b e) (pick w 2)) a) (e_b e + j) = nth_error (pick w a) j.
  Proof.
    intros m e w L (W1 & W2 & W3 & _) (A0 & A1 & A2) a La.
    assert (e_b e + e_W e <= M) as Le by (unfold e_b, e_W; lia).
    destruct a as [|[|[|a]]]; [| | |lia]; cbn [pick]; (split; [rewrite put_length; rewrite ?L; lia|intros j Lj; apply put_in; rewrite ?L; lia]).
  Qed.

  Lemma move_own : forall m e ch, (forall a, length (pick (p_refs m) a) = M) -> wf e ->
    c_right_begin ch <= c_right_end ch -> e_len e <= c_right_end ch <= e_W e ->
    let sh := left_split_count (w_split_end (e_t e) - (e_b e + c_right_end ch)) ch in
    match move3 (windows m e) (c_right_begin ch) (c_right_end ch) sh with
    | Ok w' => move3 (p_refs m) (e_b e + c_right_begin ch) (e_b e + c_right_end ch) sh =
          Ok (put_window (pick (p_refs m) 0) (e_b e) (pick w' 0), put_window (pick (p_refs m) 1) (e_b e) (pick w' 1),
              put_window (pick (p_refs m) 2) (e_b e) (pick w' 2)) /\ all3 (fun l => length l = e_W e) w'
    | UB => move3 (p_refs m) (e_b e + c_right_begin ch) (e_b e + c_right_end ch) sh = UB
    | _ => False
    end.
  Proof.
    intros m e ch Lr Wf Crb Cre sh.
    assert (e_b e + e_W e = w_split_end (e_t e)) as EW by (destruct Wf as (? & _); unfold e_b, e_W; lia).
    assert (w_split_end (e_t e) <= M) as LM by (apply Wf).
    assert ((0 < sh)%Z -> w_split_end (e_t e) = M) as Full.
    { intro P. destruct Wf as (B1 & B2 & [B3|B3] & _); auto. exfalso. revert P. unfold sh, left_split_count.
      replace (w_split_end (e_t e) - (e_b e + c_right_end ch)) with 0 by (revert Cre; unfold e_len, w_size, e_W, e_b; lia).
      simpl. lia. }
    pose proof (move3_window n (p_refs m) (e_b e) (e_W e) (c_right_begin ch) (c_right_end ch) sh) as Mv.
    specialize (Mv ltac:(split; [|split]; rewrite Lr; lia) ltac:(lia) ltac:(lia)).
    specialize (Mv ltac:(intro P; specialize (Full P); split; [|split]; rewrite Lr; lia)).
    change (map3 (fun l => window l (e_b e) (e_W e)) (p_refs m)) with (windows m e) in Mv.
    destruct (move3 (windows m e) _ _ _); auto. destruct Mv as (A & B & _). auto.
  Qed.

  Lemma step_writes : forall s C e c f p p' m' ids rp ip,
    inv s (plug C (GOpen e c f (Some p))) -> pst p (s_mem s) = PStep p' m' ->
    ids_out ids (own e c) -> ids_out rp (epos e) -> ids_out ip (iown e f) ->
    same ids rp ip (s_mem s) m'.
  Proof.
    intros s C e c f p p' m' ids rp ip I E Oi Or Op.
    pose proof (plug_agree _ _ _ (i_agree _ _ I)) as W. cbn [agree] in W.
    pose proof (i_nodes _ _ I) as Ln. pose proof (i_idx _ _ I) as Li. pose proof (i_refs _ _ I) as Lr.
    assert (forall i, In i (epos e) -> ~ In i rp) as Or' by (intros i H1 H2; apply (Or i); auto).
    destruct p as [t|t|t first|t ch|t ch lft|r| |]; cbn [qstep] in E; try discriminate.
    - cbn [open_ok] in W. destruct W as (-> & -> & -> & Wn & Ww & Wf).
      change (w_node (e_t e)) with (e_node e) in E. rewrite Wn in E. cbv zeta in E.
      change (map3 (fun l => window l (w_begin (e_t e)) (w_split_end (e_t e) - w_begin (e_t e))) (p_refs (s_mem s)))
        with (windows (s_mem s) e) in E. rewrite Ww in E.
      destruct (plan (e_t e) (e_box e) (e_w e)) as [[w d]| | |] eqn:Ep; injection E as <- <-; try apply same_refl.
      assert (e_len e <= e_W e) as LW by (destruct Wf; unfold e_len, w_size, e_W; lia).
      destruct (plan_ok sorter sorter_perm prims lsize n th (e_W e) _ _ _ _ _ LW (proj2 (proj2 (proj2 (proj2 Wf)))) Ep) as (Ow & Od).
      destruct (put3_windows (s_mem s) e w Lr Wf (all3_imp _ _ _ _ (fun x H => proj1 H) Ow)) as (N1 & N2).
      apply N2. auto.
    - injection E as <- <-. constructor; auto.
    - cbn [open_ok] in W. destruct W as (-> & -> & -> & Lb & Wf & Wn & Es).
      change (w_node (e_t e)) with (e_node e) in E. rewrite Wn in E.
      change (w_size (e_t e)) with (e_len e) in E. change (w_begin (e_t e)) with (e_b e) in E.
      destruct (Nat.ltb_spec (length (p_idx (s_mem s))) (first + e_len e)) as [Bad|_]; [lia|]. cbv zeta in E.
      set (l := map s_prim (window (pick (p_refs (s_mem s)) 0) (e_b e) (e_len e))) in *.
      assert (e_len e <= e_W e) as LW by (destruct Wf; unfold e_len, w_size, e_W; lia).
      assert (e_b e + e_W e <= M) as LW2 by (destruct Wf as (? & ? & _); unfold e_b, e_W; lia).
      assert (length l = e_len e) as Ll.
      { unfold l. rewrite map_length. apply window_length. rewrite Lr. lia. }
      match type of E with PStep ?p ?x = _ => assert (m' = x) as -> by congruence end. clear E.
      constructor; cbn [p_nodes p_idx p_refs]; auto.
      + apply upd_length.
      + unfold set_idx. apply put_length. lia.
      + intros i Hi. apply nth_error_upd_other. intros <-. apply (Oi (e_node e)); simpl; auto.
      + intros i Hi. unfold set_idx. apply put_out; [lia|]. rewrite Ll. apply (disj_seq ip); auto.
    - cbv zeta in E. destruct (_ <=? _); injection E as <- <-; constructor; auto.
    - cbn [open_ok] in W. destruct W as (-> & -> & -> & Ls & Lt & Wf & Wn & Ep).
      change (w_node (e_t e)) with (e_node e) in E. rewrite Wn in E. rewrite Ln in E.
      destruct (Nat.leb_spec slots (S lft)) as [Bad|_]; [lia|]. cbv zeta in E.
      assert (e_len e <= e_W e) as LW by (destruct Wf; unfold e_len, w_size, e_W; lia).
      destruct (plan_ok sorter sorter_perm prims lsize n th (e_W e) _ _ _ _ _ LW (proj2 (proj2 (proj2 (proj2 Wf)))) Ep) as (Ow & Crb & Cre & Hd & H2).
      change (w_size (e_t e)) with (e_len e) in *. change (w_begin (e_t e)) with (e_b e) in *.
      set (sh := left_split_count (w_split_end (e_t e) - (e_b e + c_right_end ch)) ch) in *.
      pose proof (move_own (s_mem s) e ch Lr Wf ltac:(lia) ltac:(lia)) as Mv. cbv zeta in Mv. fold sh in Mv.
      destruct (move3 (windows (s_mem s) e) (c_right_begin ch) (c_right_end ch) sh) as [w'| | |] eqn:Em; try contradiction.
      2:{ rewrite Mv in E. injection E as <- <-. apply same_refl. }
      destruct Mv as (Mv & Lw'). rewrite Mv in E.
      destruct (put3_windows (s_mem s) e w' Lr Wf Lw') as (N1 & N2). cbv zeta in N1, N2.
      set (nd := with_offset _ _) in E. clearbody nd.
      match type of E with PStep ?p ?x = _ => assert (m' = x) as -> by congruence end. clear E.
      destruct (N2 ids rp ip Or') as [Sa Sb Sc Sd Se Sf]. constructor; auto; cbn [p_nodes].
      + rewrite !upd_length. auto.
      + intros i Hi. rewrite !nth_error_upd_other; auto; intros <-.
        * apply (Oi (e_node e)); simpl; auto.
        * apply (Oi lft); simpl; auto.
        * apply (Oi (S lft)); simpl; auto.
  Qed.

  Lemma step_reads : forall s C e c f p m2,
    inv s (plug C (GOpen e c f (Some p))) ->
    same (own e c) (epos e) [] (s_mem s) m2 -> p_ctr m2 = p_ctr (s_mem s) -> p_count m2 = p_count (s_mem s) ->
    match pst p (s_mem s) with
    | PStep p' m' => exists m2', pst p m2 = PStep p' m2' /\ same (own e c) (epos e) (iown e f) m' m2' /\
                       p_ctr m2' = p_ctr m' /\ p_count m2' = p_count m'
    | r => pst p m2 = r
    end.
  Proof.
    intros s C e c f p m2 I S E1 E2.
    pose proof (plug_agree _ _ _ (i_agree _ _ I)) as W. cbn [agree] in W.
    pose proof (i_nodes _ _ I) as Ln. pose proof (i_idx _ _ I) as Li. pose proof (i_refs _ _ I) as Lr.
    pose proof (windows_same _ _ _ _ _ S) as Sw.
    assert (forall a, length (pick (p_refs m2) a) = M) as Lr2.
    { intro a. assert (exists a', a' < 3 /\ forall t : per_axis (list sref), pick t a = pick t a') as (a' & La & Ea).
      { destruct a as [|[|a]]; [exists 0|exists 1|exists 2]; split; try lia; intros [[x y0] z]; auto. }
      rewrite Ea, (sm_refs _ _ _ _ _ S) by auto. apply Lr. }
    assert (iown e f = [] -> same (own e c) (epos e) (iown e f) (s_mem s) m2) as S0 by (intros ->; exact S).
    assert (nth_error (p_nodes m2) (e_node e) = nth_error (p_nodes (s_mem s)) (e_node e)) as Sn by (apply (sm_n _ _ _ _ _ S), own_in).
    assert (length (p_nodes m2) = slots) as Ln2 by (rewrite (sm_nodes _ _ _ _ _ S); auto).
    assert (length (p_idx m2) = M) as Li2 by (rewrite (sm_idx _ _ _ _ _ S); auto).
    destruct p as [t|t|t first|t ch|t ch lft|r| |]; cbn [qstep]; auto.
    - cbn [open_ok] in W. destruct W as (-> & -> & -> & Wn & Ww & Wf).
      change (w_node (e_t e)) with (e_node e). rewrite Sn, Wn. cbv zeta.
      change (map3 (fun l => window l (w_begin (e_t e)) (w_split_end (e_t e) - w_begin (e_t e))) (p_refs (s_mem s)))
        with (windows (s_mem s) e).
      change (map3 (fun l => window l (w_begin (e_t e)) (w_split_end (e_t e) - w_begin (e_t e))) (p_refs m2))
        with (windows m2 e). rewrite Sw, Ww.
      destruct (plan (e_t e) (e_box e) (e_w e)) as [[w d]| | |] eqn:Ep.
      2-4: exists m2; auto.
      eexists. split; [reflexivity|]. cbn [p_ctr p_count]. split; [|auto].
      assert (e_len e <= e_W e) as LW by (destruct Wf; unfold e_len, w_size, e_W; lia).
      destruct (plan_ok sorter sorter_perm prims lsize n th (e_W e) _ _ _ _ _ LW (proj2 (proj2 (proj2 (proj2 Wf)))) Ep) as (Ow & Od).
      pose proof (all3_imp _ _ _ _ (fun x H => proj1 H) Ow) as Lw. cbv beta in Lw.
      pose proof (windows_put (s_mem s) e w Lr Wf Lw) as Q1. pose proof (windows_put m2 e w Lr2 Wf Lw) as Q2.
      constructor; cbn [p_nodes p_idx p_refs]; auto.
      + rewrite Ln2, Ln; auto.
      + rewrite Li2, Li; auto.
      + intros a La. exact (eq_trans (proj1 (Q2 a La)) (eq_sym (proj1 (Q1 a La)))).
      + intros i Hi. apply (sm_n _ _ _ _ _ S); auto.
      + intros a i La Hi. unfold epos in Hi. apply in_seq in Hi.
        replace i with (e_b e + (i - e_b e)) by lia. exact (eq_trans (proj2 (Q2 a La) (i - e_b e) ltac:(lia)) (eq_sym (proj2 (Q1 a La) (i - e_b e) ltac:(lia)))).
      + intros i [].
    - cbn [open_ok] in W. destruct W as (-> & -> & -> & Lf). rewrite E1, E2. eexists. split; [reflexivity|].
      cbn [p_ctr p_count]. split; auto. destruct S as [A B C0 D E F]. constructor; auto.
    - cbn [open_ok] in W. destruct W as (-> & -> & -> & Lb & Wf & Wn & Es).
      change (w_node (e_t e)) with (e_node e). rewrite Sn, Wn.
      change (w_size (e_t e)) with (e_len e). change (w_begin (e_t e)) with (e_b e). rewrite Li, Li2.
      destruct (Nat.ltb_spec M (first + e_len e)) as [Bad|_]; [lia|]. cbv zeta.
      assert (e_len e <= e_W e) as LW by (destruct Wf; unfold e_len, w_size, e_W; lia).
      assert (e_b e + e_W e <= M) as LW2 by (destruct Wf as (? & ? & _); unfold e_b, e_W; lia).
      assert (window (pick (p_refs m2) 0) (e_b e) (e_len e) = window (pick (p_refs (s_mem s)) 0) (e_b e) (e_len e)) as ->.
      { rewrite !(window_firstn _ _ (e_b e) (e_W e) (e_len e)) by auto. f_equal.
        change (pick (windows m2 e) 0 = pick (windows (s_mem s) e) 0). rewrite Sw. auto. }
      set (l := map s_prim (window (pick (p_refs (s_mem s)) 0) (e_b e) (e_len e))) in *.
      assert (length l = e_len e) as Ll.
      { unfold l. rewrite map_length. apply window_length. rewrite Lr. lia. }
      set (nd := set_count _ _). clearbody nd.
      eexists. split; [reflexivity|]. cbn [p_ctr p_count]. split; auto.
      constructor; cbn [p_nodes p_idx p_refs].
      + rewrite !upd_length, Ln, Ln2; auto.
      + unfold set_idx. rewrite !put_length by lia. lia.
      + intros a La. apply (sm_refs _ _ _ _ _ S); auto.
      + intros i Hi. cbn [own] in Hi. destruct Hi as [<-|[]].
        rewrite !nth_error_upd_same by (apply nth_error_Some; congruence). auto.
      + intros a i La Hi. apply (sm_r _ _ _ _ _ S); auto.
      + intros i Hi. cbn [iown] in Hi. apply in_seq in Hi. unfold set_idx.
        replace i with (first + (i - first)) by lia. rewrite !put_in by lia. auto.
    - cbn [open_ok] in W. destruct W as (-> & -> & -> & Dv). cbv zeta. rewrite Ln, Ln2, E1, E2.
      destruct (slots <=? p_ctr (s_mem s)); (eexists; split; [reflexivity|]); cbn [p_ctr p_count]; (split; [|auto]);
        destruct S as [A B C0 D E F]; constructor; auto.
    - cbn [open_ok] in W. destruct W as (-> & -> & -> & Ls & Lt & Wf & Wn & Ep).
      change (w_node (e_t e)) with (e_node e). rewrite Sn, Wn, Ln, Ln2.
      destruct (Nat.leb_spec slots (Datatypes.S lft)) as [Bad|_]; [lia|]. cbv zeta.
      assert (e_len e <= e_W e) as LW by (destruct Wf; unfold e_len, w_size, e_W; lia).
      destruct (plan_ok sorter sorter_perm prims lsize n th (e_W e) _ _ _ _ _ LW (proj2 (proj2 (proj2 (proj2 Wf)))) Ep) as (Ow & Crb & Cre & Hd & H2).
      change (w_size (e_t e)) with (e_len e) in *. change (w_begin (e_t e)) with (e_b e) in *.
      set (sh := left_split_count (w_split_end (e_t e) - (e_b e + c_right_end ch)) ch) in *.
      pose proof (move_own (s_mem s) e ch Lr Wf ltac:(lia) ltac:(lia)) as Mv. pose proof (move_own m2 e ch Lr2 Wf ltac:(lia) ltac:(lia)) as Mv2. cbv zeta in Mv, Mv2.
      fold sh in Mv, Mv2. rewrite Sw in Mv2.
      destruct (move3 (windows (s_mem s) e) (c_right_begin ch) (c_right_end ch) sh) as [w'| | |] eqn:Em; try contradiction.
      2:{ rewrite Mv, Mv2. exists m2. auto. }
      destruct Mv as (Mv & Lw'), Mv2 as (Mv2 & _). rewrite Mv, Mv2.
      pose proof (windows_put (s_mem s) e w' Lr Wf Lw') as Q1. pose proof (windows_put m2 e w' Lr2 Wf Lw') as Q2.
      set (nd := with_offset _ _). clearbody nd.
      eexists. split; [reflexivity|]. cbn [p_ctr p_count]. split; auto.
      constructor; cbn [p_nodes p_idx p_refs].
      + rewrite !upd_length, Ln, Ln2; auto.
      + rewrite Li2, Li; auto.
      + intros a La. exact (eq_trans (proj1 (Q2 a La)) (eq_sym (proj1 (Q1 a La)))).
      + intros i Hi. cbn [own] in Hi.
        assert (i = Datatypes.S lft \/ i = lft \/ i = e_node e) as [-> | [-> | ->]] by (simpl in Hi; intuition).
        * rewrite !nth_error_upd_same by (rewrite !upd_length; lia). auto.
        * rewrite !(@nth_error_upd_other _ _ (Datatypes.S lft)) by lia. rewrite !nth_error_upd_same by (rewrite !upd_length; lia). auto.
        * rewrite !(@nth_error_upd_other _ _ (Datatypes.S lft)), !(@nth_error_upd_other _ _ lft) by lia.
          rewrite !nth_error_upd_same by lia. auto.
      + intros a i La Hi. unfold epos in Hi. apply in_seq in Hi.
        replace i with (e_b e + (i - e_b e)) by lia. exact (eq_trans (proj2 (Q2 a La) (i - e_b e) ltac:(lia)) (eq_sym (proj2 (Q1 a La) (i - e_b e) ltac:(lia)))).
      + intros i [].
  Qed.

  (** The ghost node of a task in a reachable state. *)
  Lemma open_of : forall s j t p st subs, reachable init s -> nth_error (s_threads s) j = Some (Th (Some (t, p)) st subs) ->
    exists C e c f, inv s (plug C (GOpen e c f (Some p))) /\ e_t e = t.
  Proof.
    intros s j t p st subs R Ej. destruct (reach_inv s R) as (g & I). pose proof I as I'.
    destruct s as [m ths tr]. cbn [s_threads s_mem] in *.
    destruct (upd_mid _ _ _ _ Ej) as (l1 & l2 & -> & _ & _).
    assert (Permutation (items (l1 ++ {| t_cur := Some (t, p); t_stack := st; t_subs := subs |} :: l2))
      ((t, Some p) :: map (fun t => (t, None)) st ++ items (l1 ++ l2))) as P1 by (rewrite items_mid; auto).
    destruct (perm_in _ _ _ _ _ I P1) as (C & e & c & f & -> & <-). exists C, e, c, f. auto.
  Qed.
  Lemma foot_own : forall m e c f p, open_ok m e c f p ->
    incl (foot_nodes (e_t e) p) (own e c) /\ incl (foot_idx p) (iown e f) /\
    (forall q p' m', p = Some q -> pst q m = PStep p' m' -> own e c = foot_nodes (e_t e) p /\ iown e f = foot_idx p /\
      (length (p_nodes m) = slots -> Forall (fun i => i < slots) (own e c)) /\
      (w_split_end (e_t e) <= M) /\ Forall (fun i => i < M) (iown e f)).
  Proof.
    intros m e c f p O.
    assert (forall c, incl [w_node (e_t e)] (own e c)) as G by (intros c0 i [<-|[]]; apply own_in).
    assert (nth_error (p_nodes m) (e_node e) = Some (e_box e) -> length (p_nodes m) = slots -> e_node e < slots) as G2.
    { intros H <-. apply nth_error_Some. congruence. }
    destruct p as [[t|t|t first|t ch|t ch lft|[[a b]|]| |]|]; cbn [open_ok foot_nodes foot_idx] in *;
      (split; [try apply G|split; [try (intros i []; fail)|intros q p' m' Eq Es; try discriminate Eq; injection Eq as <-; try discriminate Es]]).
    - destruct O as (-> & -> & -> & Wn & _ & Wf). cbn [own iown]. repeat (split; [reflexivity|]). 
      split; [constructor; auto|]. split; [apply Wf|constructor].
    - destruct O as (-> & -> & -> & Wf & Wn & _). cbn [own iown]. repeat (split; [reflexivity|]). 
      split; [constructor; auto|]. split; [apply Wf|constructor].
    - destruct O as (-> & -> & -> & _). cbn [iown]. apply incl_refl.
    - destruct O as (-> & -> & -> & L & Wf & Wn & _). cbn [own iown]. repeat (split; [reflexivity|]).
      split; [constructor; auto|]. split; [apply Wf|]. apply Forall_forall. intros i Hi. apply in_seq in Hi. lia.
    - destruct O as (-> & -> & -> & Wf & Wn & _). cbn [own iown]. repeat (split; [reflexivity|]).
      split; [constructor; auto|]. split; [apply Wf|constructor].
    - destruct O as (-> & -> & _). apply incl_refl.
    - destruct O as (-> & -> & -> & L & Lt & Wf & Wn & _). cbn [own iown]. repeat (split; [reflexivity|]).
      split; [|split; [apply Wf|constructor]]. intro. repeat constructor; auto; lia.
  Qed.

  Theorem step_private : forall s j t p st subs p' m',
    reachable init s -> nth_error (s_threads s) j = Some (Th (Some (t, p)) st subs) -> pst p (s_mem s) = PStep p' m' ->
    Forall (fun i => i < length (p_nodes (s_mem s))) (foot_nodes t (Some p)) /\
    Forall (fun i => i < length (p_idx (s_mem s))) (foot_idx (Some p)) /\
    (forall a, a < 3 -> w_split_end t <= length (pick (p_refs (s_mem s)) a)) /\
    (forall i, ~ In i (foot_nodes t (Some p)) -> nth_error (p_nodes m') i = nth_error (p_nodes (s_mem s)) i) /\
    (forall i, ~ In i (foot_idx (Some p)) -> nth_error (p_idx m') i = nth_error (p_idx (s_mem s)) i) /\
    (forall a i, a < 3 -> ~ In i (owned t) ->
       nth_error (pick (p_refs m') a) i = nth_error (pick (p_refs (s_mem s)) a) i) /\
    (forall m2, agree_on (foot_nodes t (Some p)) (owned t) [] (s_mem s) m2 ->
       exists m2', pst p m2 = PStep p' m2' /\ agree_on (foot_nodes t (Some p)) (owned t) (foot_idx (Some p)) m' m2').
  Proof.
    intros s j t p st subs p' m' R Ej Es.
    destruct (open_of _ _ _ _ _ _ R Ej) as (C & e & c & f & I & <-).
    pose proof (plug_agree _ _ _ (i_agree _ _ I)) as W. cbn [agree] in W.
    pose proof (i_nodes _ _ I) as Ln. pose proof (i_idx _ _ I) as Li. pose proof (i_refs _ _ I) as Lr.
    destruct (foot_own _ _ _ _ _ W) as (_ & _ & G). destruct (G p p' m' eq_refl Es) as (G1 & G2 & G3 & G4 & G5).
    rewrite <- G1, <- G2, Ln, Li. change (owned (e_t e)) with (epos e).
    split; [auto|]. split; [auto|]. split; [intros a _; rewrite Lr; auto|].
    split.
    { intros i Hi. apply (sm_n [i] [] [] _ _ (step_writes _ _ _ _ _ _ _ _ [i] [] [] I Es
        ltac:(intros x [<-|[]]; auto) ltac:(intros x []) ltac:(intros x []))). simpl; auto. }
    split.
    { intros i Hi. apply (sm_i [] [] [i] _ _ (step_writes _ _ _ _ _ _ _ _ [] [] [i] I Es
        ltac:(intros x []) ltac:(intros x []) ltac:(intros x [<-|[]]; auto))). simpl; auto. }
    split.
    { intros a i La Hi. apply (sm_r [] [i] [] _ _ (step_writes _ _ _ _ _ _ _ _ [] [i] [] I Es
        ltac:(intros x []) ltac:(intros x [<-|[]]; auto) ltac:(intros x []))); simpl; auto. }
    intros m2 [A1 A2 A3 A4 A5 A6 A7 A8].
    assert (same (own e c) (epos e) [] (s_mem s) m2) as Sm.
    { constructor; auto. }
    pose proof (step_reads _ _ _ _ _ _ _ I Sm A7 A8) as Rd. rewrite Es in Rd.
    destruct Rd as (m2' & B1 & [B2 B3 B4 B5 B6 B7] & B8 & B9). exists m2'. split; auto.
    constructor; auto; rewrite <- ?G1, <- ?G2; auto.
  Qed.

  Lemma item_sub : forall g m t p, agree m g -> In (t, p) (gitems g) -> exists e c f, e_t e = t /\ open_ok m e c f p /\
    incl (own e c) (gids g) /\ incl (epos e) (gref g) /\ incl (iown e f) (gpos g).
  Proof.
    induction g as [e c f q|i b W nd box first ids|i nd box sh mv l IHl r IHr]; intros m t p A I; simpl in I.
    - destruct I as [I|[]]. injection I as <- <-. exists e, c, f. simpl. repeat split; auto; apply incl_refl.
    - destruct I.
    - simpl in A. destruct A as (_ & _ & _ & _ & _ & _ & _ & Al & Ar). apply in_app_or in I as [I|I].
      + destruct (IHl m t p Al I) as (e & c & f & X & O & A & B & D). exists e, c, f. split; auto. split; auto. simpl.
        split; [apply incl_tl, incl_appl, A|]. split; apply incl_appl; auto.
      + destruct (IHr m t p Ar I) as (e & c & f & X & O & A & B & D). exists e, c, f. split; auto. split; auto. simpl.
        split; [apply incl_tl, incl_appr, A|]. split; apply incl_appr; auto.
  Qed.
  Lemma ctx_agree : forall C x m, agree m (plug C x) -> Forall (fun f => agree m (sib f)) C.
  Proof.
    induction C as [|[i nd bx sh mv g|i nd bx sh mv g] C IH]; intros x m A; constructor; simpl in *;
      destruct A as (_ & _ & _ & _ & _ & _ & _ & Al & Ar); eauto.
  Qed.
  Lemma ctx_item : forall C m t p, Forall (fun f => agree m (sib f)) C -> In (t, p) (citems C) ->
    exists e c f, e_t e = t /\ open_ok m e c f p /\
      incl (own e c) (cids C) /\ incl (epos e) (cref C) /\ incl (iown e f) (cpos C).
  Proof.
    induction C as [|fr C IH]; intros m t p A I; [destruct I|]. inversion A; subst. simpl in I. apply in_app_or in I as [I|I].
    - destruct (item_sub _ _ _ _ H1 I) as (e & c & f & X & O & B1 & B2 & B3). exists e, c, f. split; auto. split; auto. simpl.
      split; [apply incl_tl, incl_appl, B1|]. split; apply incl_appl; auto.
    - destruct (IH m t p H2 I) as (e & c & f & X & O & B1 & B2 & B3). exists e, c, f. split; auto. split; auto. simpl.
      split; [apply incl_tl, incl_appr, B1|]. split; apply incl_appr; auto.
  Qed.
  Theorem race_free : forall s j t p st subs t2 p2,
    reachable init s -> nth_error (s_threads s) j = Some (Th (Some (t, p)) st subs) ->
    (In t2 st /\ p2 = None \/
     exists j2 cur2 st2 subs2, j2 <> j /\ nth_error (s_threads s) j2 = Some (Th cur2 st2 subs2) /\
       (In t2 st2 /\ p2 = None \/ exists q2, cur2 = Some (t2, q2) /\ p2 = Some q2)) ->
    apart (foot_nodes t (Some p)) (foot_nodes t2 p2) /\ apart (foot_idx (Some p)) (foot_idx p2) /\ apart (owned t) (owned t2).
  Proof.
    intros s j t p st subs t2 p2 R Ej H2. destruct (reach_inv s R) as (g & I).
    destruct s as [m ths tr]. cbn [s_threads s_mem] in *.
    destruct (upd_mid _ _ _ _ Ej) as (l1 & l2 & -> & Hl & _).
    assert (Permutation (items (l1 ++ {| t_cur := Some (t, p); t_stack := st; t_subs := subs |} :: l2))
      ((t, Some p) :: map (fun t => (t, None)) st ++ items (l1 ++ l2))) as P1 by (rewrite items_mid; auto).
    assert (In (t2, p2) (map (fun t => (t, None)) st ++ items (l1 ++ l2))) as I2.
    { apply in_or_app. destruct H2 as [(H2 & ->)|(j2 & cur2 & st2 & subs2 & Nj & E2 & H2)]; [left; apply in_map_iff; exists t2; auto|right].
      set (th2 := Th cur2 st2 subs2) in *.
      assert (In (t2, p2) (th_items th2)) as H3.
      { apply in_or_app. destruct H2 as [(H2 & ->)|(q2 & -> & ->)]; [right; apply in_map_iff; exists t2; auto|left; simpl; auto]. }
      assert (In th2 (l1 ++ l2)) as It.
      { apply in_or_app. destruct (Nat.lt_ge_cases j2 j) as [L|L].
        - left. rewrite nth_error_app1 in E2 by lia. eapply nth_error_In; eauto.
        - right. rewrite nth_error_app2 in E2 by lia.
          destruct (j2 - length l1) as [|k] eqn:Ek; [lia|]. simpl in E2. eapply nth_error_In; eauto. }
      unfold items. apply in_flat_map. exists th2. auto. }
    destruct (perm_in _ _ _ _ _ I P1) as (C & e & c & f & -> & <-).
    assert (In (t2, p2) (citems C)) as I3.
    { eapply Permutation_in; [|exact I2]. apply (Permutation_cons_inv (a := (e_t e, Some p))).
      rewrite <- P1. change (l1 ++ {| t_cur := Some (e_t e, p); t_stack := st; t_subs := subs |} :: l2) with
        (s_threads (St m (l1 ++ {| t_cur := Some (e_t e, p); t_stack := st; t_subs := subs |} :: l2) tr)).
      rewrite <- (i_items _ _ I), plug_items. auto. }
    destruct (ctx_item C m t2 p2 (ctx_agree _ _ _ (i_agree _ _ I)) I3) as (e2 & c2 & f2 & <- & O2 & B1 & B2 & B3).
    pose proof (plug_agree _ _ _ (i_agree _ _ I)) as W. cbn [agree] in W.
    destruct (open_disjoint _ _ _ _ _ _ I) as (D1 & D2 & D3 & _).
    destruct (foot_own _ _ _ _ _ W) as (F1 & F2 & _). destruct (foot_own _ _ _ _ _ O2) as (F1' & F2' & _).
    split; [|split].
    - intros i Hi Bad. destruct (D1 i (F1 i Hi)) as (X & _). auto.
    - intros i Hi Bad. apply (D3 i (F2 i Hi)). auto.
    - intros i Hi Bad. destruct (D2 i Hi) as (X & _). apply X. apply B2. exact Bad.
  Qed.
End B.
