(** * The plane chosen by [find_spatial_split] *)
Require Import List ZArith Bool Arith Lia Lra.
From Flocq Require Import BinarySingleNaN.
From Verif Require Import Base F32 F32Facts Vec AabbModel NodeModel UtilsModel LocbModel BinnedModel TriModel SpatialModel SpecPlane.
Import ListNotations.
Local Open Scope nat_scope.

(** A reference with its triangle. *)
Definition item_of (prims : list tri) (r : sref) : item := (s_box r, nth (s_prim r) prims (Tri (vsplat f0) (vsplat f0) (vsplat f0))).

(** Adding slices to bins. *)
Definition add_slice (bins : list bin) (s : nat * aabb) : list bin :=
  upd bins (fst s) (grow_bb (fst (nth (fst s) bins empty_bin)) (snd s), snd (nth (fst s) bins empty_bin)).

Lemma add_length : forall l bins, length (fold_left add_slice l bins) = length bins.
Proof. induction l as [|s l IH]; intro bins; [reflexivity|]. cbn [fold_left]. rewrite IH. unfold add_slice. apply upd_length. Qed.
Lemma add_nth : forall l bins i, Forall (fun s => fst s < length bins) l ->
  nth i (fold_left add_slice l bins) empty_bin =
  (fold_left grow_bb (map snd (filter (fun s => fst s =? i) l)) (fst (nth i bins empty_bin)), snd (nth i bins empty_bin)).
Proof.
  induction l as [|s l IH]; intros bins i F; cbn [fold_left filter map].
  - apply surjective_pairing.
  - inversion F as [|? ? Fs Fl]; subst. rewrite IH.
    2:{ eapply Forall_impl; [|exact Fl]. intros x. unfold add_slice. rewrite upd_length. auto. }
    unfold add_slice at 1 2. destruct (Nat.eqb_spec (fst s) i) as [<-|N].
    + rewrite nth_upd_same by auto. reflexivity.
    + rewrite nth_upd_other by auto. reflexivity.
Qed.

Lemma get_nth : forall A (l : list A) i v d, get l i = Ok v -> nth i l d = v.
Proof. intros A l i v d E. unfold get in E. destruct (nth_error l i) eqn:En; [|discriminate]. apply nth_error_nth with (d := d) in En. congruence. Qed.

Lemma slab_lt : forall lo hi x, slab lo hi x < 16.
Proof. intros. unfold slab. assert (Z.min 15 (f_as_usize (fmax (fmul (fdiv f1 (thick lo hi)) (fsub x lo)) f0)) <= 15)%Z by lia. lia. Qed.

Section OneAxis.
  Variable prims : list tri.
  Variables (axis : nat) (lo hi : f32).
  Notation items := (map (item_of prims)).

  Lemma chop_slices : forall prim k j bins cur bins' cur',
    chop prims axis lo (thick lo hi) prim k j bins cur = Ok (bins', cur') ->
    upd bins' (j + k) (grow_bb (fst (nth (j + k) bins' empty_bin)) cur', snd (nth (j + k) bins' empty_bin)) =
    fold_left add_slice (slices axis lo hi (nth prim prims (Tri (vsplat f0) (vsplat f0) (vsplat f0))) k j cur) bins.
  Proof.
    intros prim. induction k as [|k IH]; intros j bins cur bins' cur' E; cbn [chop] in E.
    - injection E as <- <-. rewrite Nat.add_0_r. reflexivity.
    - destruct (get prims prim) as [t| | |] eqn:Et; cbn [bind] in E; try discriminate E.
      cbn [slices fold_left]. rewrite (get_nth _ _ _ _ (Tri (vsplat f0) (vsplat f0) (vsplat f0)) Et).
      change (fadd lo (fmul (fn (S j)) (thick lo hi))) with (border lo hi (S j)) in E.
      destruct (tri_split t axis (border lo hi (S j))) as [lb rb] eqn:Es. cbn [fst snd].
      destruct (nth j bins empty_bin) as [b c] eqn:En. apply IH in E.
      rewrite (get_nth _ _ _ _ (Tri (vsplat f0) (vsplat f0) (vsplat f0)) Et) in E.
      replace (j + S k) with (S j + k) by lia. rewrite E. unfold add_slice at 3. cbn [fst snd]. rewrite En. reflexivity.
  Qed.

  Lemma slices_range : forall t k j rest, Forall (fun s => fst s <= j + k) (slices axis lo hi t k j rest).
  Proof.
    intro t. induction k as [|k IH]; intros j rest; cbn [slices].
    - constructor; [simpl; lia|constructor].
    - cbv zeta. constructor; [simpl; lia|]. eapply Forall_impl; [|apply IH]. cbv beta. intros; lia.
  Qed.
  Lemma chop_length : forall prim k j bins cur bins' cur',
    chop prims axis lo (thick lo hi) prim k j bins cur = Ok (bins', cur') -> length bins' = length bins.
  Proof.
    intros prim k j bins cur bins' cur' E. apply chop_slices in E. apply (f_equal (@length _)) in E. rewrite upd_length, add_length in E. auto.
  Qed.

  (** References that start in slab [i]. *)
  Definition entering (refs : list item) (i : nat) : nat := length (filter (fun r => first_slab axis lo hi r =? i) (upright refs)).

  Lemma fill_slabs : forall refs bins bins',
    fill_bins prims axis lo (thick lo hi) (fdiv f1 (thick lo hi)) refs bins = Ok bins' -> length bins = 16 ->
    length bins' = 16 /\
    forall i, i < 16 -> nth i bins' empty_bin =
      (fold_left grow_bb (map snd (filter (fun s => fst s =? i) (flat_map (slices_of axis lo hi) (upright (items refs))))) (fst (nth i bins empty_bin)),
       snd (nth i bins empty_bin) + entering (items refs) i).
  Proof.
    induction refs as [|r refs IH]; intros bins bins' E L; cbn [fill_bins] in E.
    - injection E as <-. split; auto. intros i Li. unfold entering. simpl. rewrite Nat.add_0_r. apply surjective_pairing.
    - cbv zeta in E.
      change (spatial_bin (fdiv f1 (thick lo hi)) lo (vget (bmin (s_box r)) axis)) with (first_slab axis lo hi (item_of prims r)) in E.
      change (spatial_bin (fdiv f1 (thick lo hi)) lo (vget (bmax (s_box r)) axis)) with (last_slab axis lo hi (item_of prims r)) in E.
      pose proof (slab_lt lo hi (vget (bmin (s_box r)) axis)) as Lf. change (slab lo hi (vget (bmin (s_box r)) axis)) with (first_slab axis lo hi (item_of prims r)) in Lf.
      pose proof (slab_lt lo hi (vget (bmax (s_box r)) axis)) as Ll. change (slab lo hi (vget (bmax (s_box r)) axis)) with (last_slab axis lo hi (item_of prims r)) in Ll.
      unfold entering. cbn [map upright]. change (fst (item_of prims r)) with (s_box r).
      destruct (is_valid (s_box r)) eqn:Ev; cbn [negb] in E.
      2:{ injection E as <-. split; auto. intros i Li. simpl. rewrite Nat.add_0_r. apply surjective_pairing. }
      assert (slices_of axis lo hi (item_of prims r) = slices axis lo hi (nth (s_prim r) prims (Tri (vsplat f0) (vsplat f0) (vsplat f0)))
        (last_slab axis lo hi (item_of prims r) - first_slab axis lo hi (item_of prims r)) (first_slab axis lo hi (item_of prims r)) (s_box r)) as Es by reflexivity.
      cbn [flat_map filter].
      revert E Lf Ll Es. generalize (first_slab axis lo hi (item_of prims r)) as f. generalize (last_slab axis lo hi (item_of prims r)) as l.
      intros l f E Lf Ll Es. destruct (Nat.ltb_spec l f) as [Q|Q]; [discriminate E|].
      destruct (chop _ _ _ _ _ _ _ _ _) as [[bins1 cur]| | |] eqn:Ec; cbn [bind] in E; try discriminate E.
      pose proof (chop_length _ _ _ _ _ _ _ Ec) as L1. apply chop_slices in Ec. replace (f + (l - f)) with l in Ec by lia.
      destruct (nth l bins1 empty_bin) as [b c]. cbn [fst snd] in Ec. rewrite Ec in E. rewrite <- Es in E. clear Ec.
      pose proof (slices_range (nth (s_prim r) prims (Tri (vsplat f0) (vsplat f0) (vsplat f0))) (l - f) f (s_box r)) as Rg. rewrite <- Es in Rg.
      assert (Forall (fun s => fst s < length bins) (slices_of axis lo hi (item_of prims r))) as Rg'.
      { eapply Forall_impl; [|exact Rg]. cbv beta. intros s Hs. lia. }
      pose proof (fun i => add_nth _ bins i Rg') as An. pose proof (add_length (slices_of axis lo hi (item_of prims r)) bins) as L2.
      set (bins2 := fold_left add_slice (slices_of axis lo hi (item_of prims r)) bins) in *. clearbody bins2.
      destruct (nth f bins2 empty_bin) as [b' c'] eqn:Ef. apply IH in E; [|rewrite upd_length; lia].
      destruct E as (Lb & E). split; auto. intros i Li. rewrite (E i Li). clear E.
      rewrite filter_app, map_app, fold_left_app.
      destruct (Nat.eqb_spec f i) as [->|Nf].
      + rewrite nth_upd_same by lia. specialize (An i). rewrite Ef in An. injection An as <- <-. cbn [fst snd]. simpl length. f_equal. unfold entering. lia.
      + rewrite nth_upd_other by auto. rewrite An. reflexivity.
  Qed.
End OneAxis.

(** ** The sweep *)
Lemma list_of_nth : forall A (l : list A) n d, length l = n -> l = map (fun i => nth i l d) (seq 0 n).
Proof.
  intros A l n d <-. apply nth_ext with (d := d) (d' := d); [rewrite map_length, seq_length; auto|].
  intros i Li. set (f := fun i => nth i l d). transitivity (nth i (map f (seq 0 (length l))) (f 0)).
  - rewrite map_nth, seq_nth by auto. reflexivity.
  - apply nth_indep. rewrite map_length, seq_length. auto.
Qed.

(** Bookkeeping of "not less". *)
Definition low (x c : f32) : Prop := flt x c = false.
Lemma low_trans : forall x c c', fnan c = false -> low x c -> flt c' c = true -> low x c'.
Proof.
  intros x c c' Nc L F. destruct (fnan x) eqn:Nx.
  - unfold low. destruct x; try discriminate Nx. destruct c'; reflexivity.
  - destruct (flt_notnan _ _ F) as (Nc' & _). unfold low.
    apply (flt_spec c' c Nc' Nc) in F. apply (flt_false x c Nx Nc) in L. apply (flt_false x c' Nx Nc'). lra.
Qed.

Lemma pass_cons : forall axis min bin_size b c b' c' l left_count right_count current i split found,
  spatial_pass axis min bin_size ((b, c) :: (b', c') :: l) left_count right_count current i split found =
  let left_count := left_count + c in
  let right_count := right_count - c in
  let current := grow_bb current b in
  let cost := fadd (fmul (fn left_count) (half_area current)) (fmul (fn right_count) (half_area b')) in
  if flt cost (ss_cost split)
  then spatial_pass axis min bin_size ((b', c') :: l) left_count right_count current (S i)
         (Ss cost (fadd min (fmul (fn (S i)) bin_size)) axis) true
  else spatial_pass axis min bin_size ((b', c') :: l) left_count right_count current (S i) split found.
Proof. reflexivity. Qed.

(** ** Unions that start at the empty box *)
Definition under (m : f32) : Prop := m = f1e34 \/ flt m f1e34 = true.
Definition over (m : f32) : Prop := m = fneg f1e34 \/ flt (fneg f1e34) m = true.
Lemma flt_tr : forall a b c : f32, flt a b = true -> flt b c = true -> flt a c = true.
Proof.
  intros a b c F G. destruct (flt_notnan _ _ F) as (Na & Nb), (flt_notnan _ _ G) as (_ & Nc).
  apply (flt_spec a b Na Nb) in F. apply (flt_spec b c Nb Nc) in G. apply (flt_spec a c Na Nc). lra.
Qed.
Lemma under_nn : forall m, under m -> fnan m = false.
Proof. intros m [->|F]; [reflexivity|]. apply (flt_notnan _ _ F). Qed.
Lemma over_nn : forall m, over m -> fnan m = false.
Proof. intros m [->|F]; [reflexivity|]. apply (flt_notnan _ _ F). Qed.
Lemma under_min : forall m y, under m -> under (fmin m y).
Proof.
  intros m y U. unfold fmin. rewrite (under_nn _ U). destruct (fnan y); auto. destruct (flt y m) eqn:F; auto.
  right. destruct U as [->|U]; auto. eapply flt_tr; eauto.
Qed.
Lemma over_max : forall m y, over m -> over (fmax m y).
Proof.
  intros m y U. unfold fmax. rewrite (over_nn _ U). destruct (fnan y); auto. destruct (flt m y) eqn:F; auto.
  right. destruct U as [->|U]; auto. eapply flt_tr; eauto.
Qed.
Lemma min_under : forall m, under m -> fmin f1e34 m = m.
Proof.
  intros m U. unfold fmin. replace (fnan f1e34) with false by reflexivity. rewrite (under_nn _ U).
  destruct U as [->|U]; [rewrite flt_irrefl; auto|]. rewrite U. auto.
Qed.
Lemma max_over : forall m, over m -> fmax (fneg f1e34) m = m.
Proof.
  intros m U. unfold fmax. replace (fnan (fneg f1e34)) with false by reflexivity. rewrite (over_nn _ U).
  destruct U as [->|U]; [rewrite flt_irrefl; auto|]. rewrite U. auto.
Qed.
(** [m] is not above [x] (which is not NaN). *)
Lemma min_absorb : forall m x, fnan m = false -> fnan x = false -> flt x m = false -> fmin m x = m.
Proof. intros m x Nm Nx F. unfold fmin. rewrite Nm, Nx, F. auto. Qed.
Lemma max_absorb : forall m x, fnan m = false -> fnan x = false -> flt m x = false -> fmax m x = m.
Proof. intros m x Nm Nx F. unfold fmax. rewrite Nm, Nx, F. auto. Qed.
Lemma min_keeps : forall m x y, fnan m = false -> fnan x = false -> flt x m = false -> flt x (fmin m y) = false.
Proof.
  intros m x y Nm Nx F. unfold fmin. rewrite Nm. destruct (fnan y) eqn:Ny; auto. destruct (flt y m) eqn:G; auto.
  exact (low_trans x m y Nm F G).
Qed.
Lemma max_keeps : forall m x y, fnan m = false -> fnan x = false -> flt m x = false -> flt (fmax m y) x = false.
Proof.
  intros m x y Nm Nx F. unfold fmax. rewrite Nm. destruct (fnan y) eqn:Ny; auto. destruct (flt m y) eqn:G; auto.
  apply (flt_false m x Nm Nx) in F. apply (flt_spec m y Nm Ny) in G. apply (flt_false y x Ny Nx). lra.
Qed.

(** A union that started at the empty box, and one that is part of another. *)
Definition grown (b : aabb) : Prop :=
  ex1 b = 0%Z /\ ex2 b = 0%Z /\
  (under (vx (bmin b)) /\ under (vy (bmin b)) /\ under (vz (bmin b))) /\
  (over (vx (bmax b)) /\ over (vy (bmax b)) /\ over (vz (bmax b))).
Definition part (x b : aabb) : Prop :=
  (flt (vx (bmin x)) (vx (bmin b)) = false /\ flt (vy (bmin x)) (vy (bmin b)) = false /\ flt (vz (bmin x)) (vz (bmin b)) = false) /\
  (flt (vx (bmax b)) (vx (bmax x)) = false /\ flt (vy (bmax b)) (vy (bmax x)) = false /\ flt (vz (bmax b)) (vz (bmax x)) = false).
Lemma grown_new : grown aabb_new.
Proof. repeat split; left; reflexivity. Qed.
Lemma grown_grow : forall b x, grown b -> grown (grow_bb b x).
Proof.
  intros b x (E1 & E2 & (A1 & A2 & A3) & B1 & B2 & B3). unfold grow_bb, grown. cbn [ex1 ex2 bmin bmax vmin vmax vmap2 vx vy vz].
  repeat split; auto using under_min, over_max.
Qed.
Lemma part_refl : forall b, part b b.
Proof. intro b. repeat split; apply flt_irrefl. Qed.
Lemma part_grow : forall b x y, grown b -> grown x -> part x b -> part x (grow_bb b y).
Proof.
  intros b x y (_ & _ & (A1 & A2 & A3) & B1 & B2 & B3) (_ & _ & (C1 & C2 & C3) & D1 & D2 & D3) ((P1 & P2 & P3) & Q1 & Q2 & Q3).
  unfold grow_bb, part. cbn [bmin bmax vmin vmax vmap2 vx vy vz].
  repeat split; first [apply min_keeps|apply max_keeps]; auto using under_nn, over_nn.
Qed.
Lemma grow_part : forall b x, grown b -> grown x -> part x b -> grow_bb b x = b.
Proof.
  intros [[mx my mz] e1 [Mx My Mz] e2] x (E1 & E2 & (A1 & A2 & A3) & B1 & B2 & B3) (_ & _ & (C1 & C2 & C3) & D1 & D2 & D3) ((P1 & P2 & P3) & Q1 & Q2 & Q3).
  cbn [ex1 ex2 bmin bmax vx vy vz] in *. unfold grow_bb, vmin, vmax, vmap2. cbn [ex1 ex2 bmin bmax vx vy vz].
  rewrite !min_absorb, !max_absorb; auto using under_nn, over_nn.
Qed.
Lemma new_grow : forall b, grown b -> grow_bb aabb_new b = b.
Proof.
  intros [[mx my mz] e1 [Mx My Mz] e2] (E1 & E2 & (A1 & A2 & A3) & B1 & B2 & B3).
  cbn [ex1 ex2 bmin bmax vx vy vz] in *. subst. unfold grow_bb, aabb_new, vmin, vmax, vmap2, vsplat. cbn [ex1 ex2 bmin bmax vx vy vz].
  rewrite !min_under, !max_over by auto. reflexivity.
Qed.

Section Sweep.
  Variables (axis : nat) (lo hi : f32) (refs : list item).
  Notation est := (estimate axis lo hi refs).
  Notation ent := (entering axis lo hi refs).
  Notation st := (starts axis lo hi refs).

  Lemma starts_S : forall k, st (S k) = st k + ent k.
  Proof.
    intro k. unfold starts, entering. induction (upright refs) as [|r l IH]; [reflexivity|]. cbn [filter].
    destruct (Nat.ltb_spec (first_slab axis lo hi r) (S k)), (Nat.ltb_spec (first_slab axis lo hi r) k), (Nat.eqb_spec (first_slab axis lo hi r) k); cbn [length]; lia.
  Qed.
  Lemma starts_0 : st 0 = 0.
  Proof. unfold starts. induction (upright refs); auto. Qed.

  Lemma suffix_map : forall len j, j + len = 16 ->
    suffix_bins (map (fun i => (slab_box axis lo hi refs i, ent i)) (seq j len)) =
    map (fun i => (box_from axis lo hi refs i, ent i)) (seq j len).
  Proof.
    induction len as [|len IH]; intros j Hj; [reflexivity|]. cbn [seq map suffix_bins]. cbv zeta. rewrite IH by lia. f_equal. f_equal.
    unfold box_from at 2. replace (16 - j) with (S len) by lia. cbn [seq fold_right]. f_equal.
    destruct len as [|len]; [reflexivity|]. cbn [seq map hd fst]. unfold box_from. replace (16 - S j) with (S len) by lia. reflexivity.
  Qed.

  (** What the code takes for the box before border [k]: its bins hold the
      unions [box_from] by then. *)
  Definition box_before (k : nat) : aabb := fold_left (fun b i => grow_bb b (box_from axis lo hi refs i)) (seq 0 k) aabb_new.
  Lemma from_grown : forall j, grown (box_from axis lo hi refs j).
  Proof. intro j. unfold box_from. induction (seq j (16 - j)) as [|i l IH]; [apply grown_new|]. cbn [fold_right]. apply grown_grow. auto. Qed.
  Lemma from_part : forall i, i <= 16 -> part (box_from axis lo hi refs i) (box_from axis lo hi refs 0).
  Proof.
    intros i Hi. pose proof (from_grown i) as G. unfold box_from at 2. change (16 - 0) with 16. replace 16 with (i + (16 - i)) at 1 by lia.
    rewrite seq_app, fold_right_app. change (fold_right _ aabb_new (seq (0 + i) (16 - i))) with (box_from axis lo hi refs i).
    assert (forall l B, grown B -> part (box_from axis lo hi refs i) B ->
      grown (fold_right (fun i b => grow_bb b (slab_box axis lo hi refs i)) B l) /\
      part (box_from axis lo hi refs i) (fold_right (fun i b => grow_bb b (slab_box axis lo hi refs i)) B l)) as H.
    { induction l as [|a l IH]; intros B GB PB; [auto|]. cbn [fold_right]. destruct (IH B GB PB) as (G1 & P1).
      split; [apply grown_grow; auto|apply part_grow; auto]. }
    apply H; auto using part_refl.
  Qed.
  Lemma before_all : forall k, 1 <= k <= 16 -> box_before k = box_from axis lo hi refs 0.
  Proof.
    induction k as [|k IH]; intros Hk; [lia|]. unfold box_before. rewrite seq_S, fold_left_app. cbn [fold_left plus].
    destruct k as [|k]; [apply new_grow, from_grown|]. fold (box_before (S k)). rewrite IH by lia.
    apply grow_part; auto using from_grown. apply from_part. lia.
  Qed.

  Lemma pass_spec : forall len i split found split' found', i + len = 16 -> fnan (ss_cost split) = false ->
    spatial_pass axis lo (thick lo hi) (map (fun i => (box_from axis lo hi refs i, ent i)) (seq i len))
      (st i) (length refs - st i) (box_before i) i split found = (split', found') ->
    fnan (ss_cost split') = false /\
    (forall x, low x (ss_cost split) -> low x (ss_cost split')) /\
    (forall k, i < k -> k <= 15 -> low (est k) (ss_cost split')) /\
    ((split' = split /\ found' = found) \/
     exists k, i < k /\ k <= 15 /\ split' = Ss (est k) (border lo hi k) axis /\ found' = true).
  Proof.
    induction len as [|len IH]; intros i split found split' found' Hi Nn E.
    - injection E as <- <-. split; auto. split; auto. split; [intros; lia|]. auto.
    - destruct len as [|len].
      + injection E as <- <-. split; auto. split; auto. split; [intros; lia|]. auto.
      + remember (S len) as m eqn:Em. cbn [seq map] in E.
        assert (map (fun i => (box_from axis lo hi refs i, ent i)) (seq (S i) m) =
                (box_from axis lo hi refs (S i), ent (S i)) :: map (fun i => (box_from axis lo hi refs i, ent i)) (seq (S (S i)) len)) as Eq by (rewrite Em; reflexivity).
        rewrite Eq, pass_cons, <- Eq in E. cbv zeta in E. clear Eq.
        rewrite <- starts_S in E. replace (length refs - st i - ent i) with (length refs - st (S i)) in E by (rewrite starts_S; lia).
        assert (grow_bb (box_before i) (box_from axis lo hi refs i) = box_before (S i)) as Eb.
        { unfold box_before. rewrite seq_S, fold_left_app. reflexivity. }
        rewrite Eb, before_all in E by lia.
        change (fadd (fmul (fn (st (S i))) (half_area (box_from axis lo hi refs 0))) (fmul (fn (length refs - st (S i))) (half_area (box_from axis lo hi refs (S i))))) with (est (S i)) in E.
        change (fadd lo (fmul (fn (S i)) (thick lo hi))) with (border lo hi (S i)) in E.
        destruct (flt (est (S i)) (ss_cost split)) eqn:F.
        * rewrite <- (before_all (S i)) in E by lia. apply IH in E; [|lia|cbn [ss_cost]; apply (flt_notnan _ _ F)]. destruct E as (N' & Mo & Lo & Wh). cbn [ss_cost] in *.
          split; auto. split; [|split].
          -- intros x Lx. apply Mo. eapply low_trans; [exact Nn|exact Lx|exact F].
          -- intros k K1 K2. destruct (Nat.eq_dec k (S i)) as [->|Nk]; [|apply Lo; lia]. apply Mo. unfold low. apply flt_irrefl.
          -- right. destruct Wh as [(-> & ->)|(k & K1 & K2 & -> & ->)]; [exists (S i)|exists k]; repeat split; auto; lia.
        * rewrite <- (before_all (S i)) in E by lia. apply IH in E; [|lia|auto]. destruct E as (N' & Mo & Lo & Wh).
          split; auto. split; auto. split.
          -- intros k K1 K2. destruct (Nat.eq_dec k (S i)) as [->|Nk]; [|apply Lo; lia]. apply Mo. exact F.
          -- destruct Wh as [Wh|(k & K1 & K2 & -> & ->)]; auto. right. exists k. repeat split; auto; lia.
  Qed.
End Sweep.

(** ** A pass over an axis, and all of them *)
Section Find.
  Variable prims : list tri.
  Notation items := (map (item_of prims)).

  Lemma binning_pass : forall refs split axis lo hi split' next, fnan (ss_cost split) = false ->
    run_binning_pass prims refs split axis lo hi = Ok (split', next) ->
    fnan (ss_cost split') = false /\
    (forall x, low x (ss_cost split) -> low x (ss_cost split')) /\
    (forall k, inner k -> low (estimate axis lo hi (items refs) k) (ss_cost split')) /\
    ((split' = split /\ next = None) \/
     exists k, inner k /\ split' = Ss (estimate axis lo hi (items refs) k) (border lo hi k) axis /\
               next = Some (fsub (border lo hi k) (thick lo hi), fadd (border lo hi k) (thick lo hi))).
  Proof.
    intros refs split axis lo hi split' next Nn E. unfold run_binning_pass in E. cbv zeta in E.
    change (fdiv (fsub hi lo) f_bins) with (thick lo hi) in E.
    destruct (fill_bins _ _ _ _ _ _ _) as [bins| | |] eqn:Ef; cbn [bind] in E; try discriminate E.
    apply fill_slabs in Ef; [|reflexivity]. destruct Ef as (Lb & Nb).
    assert (bins = map (fun i => (slab_box axis lo hi (items refs) i, entering axis lo hi (items refs) i)) (seq 0 16)) as Eb.
    { rewrite (list_of_nth _ bins 16 empty_bin Lb) at 1. apply map_ext_in. intros i Ii. apply in_seq in Ii. rewrite Nb by lia.
      replace (nth i (repeat empty_bin BINS) empty_bin) with empty_bin; [reflexivity|]. symmetry. apply nth_repeat. }
    rewrite Eb, suffix_map in E by lia. rewrite <- (map_length (item_of prims) refs) in E.
    destruct (spatial_pass _ _ _ _ _ _ _ _ _ _) as [s fo] eqn:Es.
    pose proof (pass_spec axis lo hi (items refs) 16 0 split false s fo eq_refl Nn) as P.
    rewrite starts_0, Nat.sub_0_r in P. specialize (P Es). destruct P as (N' & Mo & Lo & Wh).
    assert (split' = s) as -> by congruence.
    split; auto. split; auto. split; [intros k (K1 & K2); apply Lo; lia|].
    destruct Wh as [(-> & ->)|(k & K1 & K2 & -> & ->)]; [left; split; congruence|].
    right. exists k. split; [split; lia|]. split; [reflexivity|]. cbn [ss_pos] in E. congruence.
  Qed.

  (** What the passes over some axes [done] establish. *)
  Definition settled (bounds : aabb) (refs : list item) (done : nat -> Prop) (s : ssplit) : Prop :=
    fnan (ss_cost s) = false /\
    (forall a k, done a -> inner k -> low (estimate a (vget (bmin bounds) a) (vget (bmax bounds) a) refs k) (ss_cost s)) /\
    (s = ssplit_new \/
     let lo := vget (bmin bounds) (ss_axis s) in let hi := vget (bmax bounds) (ss_axis s) in
     done (ss_axis s) /\ exists k, inner k /\
     let mid := border lo hi k in let d := thick lo hi in
     (ss_pos s = mid /\ ss_cost s = estimate (ss_axis s) lo hi refs k \/
      exists k', inner k' /\ ss_pos s = border (fsub mid d) (fadd mid d) k' /\
                 ss_cost s = estimate (ss_axis s) (fsub mid d) (fadd mid d) refs k') /\
     (forall k', inner k' -> low (estimate (ss_axis s) (fsub mid d) (fadd mid d) refs k') (ss_cost s))).

  Lemma axis_settled : forall bounds refs done axis s s', settled bounds (items refs) done s ->
    binning_passes prims BINNING_PASSES refs s axis (vget (bmin bounds) axis) (vget (bmax bounds) axis) = Ok s' ->
    settled bounds (items refs) (fun a => done a \/ a = axis) s'.
  Proof.
    intros bounds refs done axis s s' (Nn & Lo & Wh) E. unfold BINNING_PASSES in E. cbn [binning_passes] in E.
    destruct (run_binning_pass _ _ _ _ _ _) as [[s1 n1]| | |] eqn:E1; cbn [bind] in E; try discriminate E.
    apply binning_pass in E1; auto. destruct E1 as (N1 & M1 & L1 & [(-> & ->)|(k & Ik & -> & ->)]).
    - assert (s' = s) as -> by congruence. split; auto. split.
      + intros a k [D| ->] Ik; auto.
      + destruct Wh as [Wh|(D & Wh)]; auto.
    - destruct (run_binning_pass _ _ _ _ _ _) as [[s2 n2]| | |] eqn:E2 in E; cbn [bind] in E; try discriminate E.
      assert (s' = s2) as -> by (destruct n2 as [[? ?]|]; congruence). clear E.
      apply binning_pass in E2; auto. destruct E2 as (N2 & M2 & L2 & W2). cbn [ss_cost] in *.
      split; auto. split; [intros a j [D| ->] Ij; apply M2; auto|]. right.
      destruct W2 as [(-> & ->)|(k' & Ik' & -> & ->)]; cbn [ss_axis ss_pos ss_cost] in *; (split; [auto|]); exists k; (split; [auto|]); cbv zeta; split; auto.
      right. exists k'. auto.
  Qed.

  Lemma find_settled : forall bounds refs s, find_spatial_split prims bounds refs = Ok s ->
    settled bounds (items refs) (fun a => ((False \/ a = 0) \/ a = 1) \/ a = 2) s.
  Proof.
    intros bounds refs s E. unfold find_spatial_split in E. cbn [for_each] in E.
    assert (settled bounds (items refs) (fun _ => False) ssplit_new) as S0.
    { split; [reflexivity|]. split; [intros ? ? []|]. auto. }
    destruct (binning_passes _ _ _ _ 0 _ _) as [s0| | |] eqn:E0; cbn [bind] in E; try discriminate E.
    apply (axis_settled _ _ _ _ _ _ S0) in E0.
    destruct (binning_passes _ _ _ _ 1 _ _) as [s1| | |] eqn:E1; cbn [bind] in E; try discriminate E.
    apply (axis_settled _ _ _ _ _ _ E0) in E1.
    destruct (binning_passes _ _ _ _ 2 _ _) as [s2| | |] eqn:E2; cbn [bind] in E; try discriminate E.
    apply (axis_settled _ _ _ _ _ _ E1) in E2. assert (s = s2) as -> by congruence. exact E2.
  Qed.
  (** No border has a lower estimate than what is found. *)
  Lemma find_low : forall bounds refs s, find_spatial_split prims bounds refs = Ok s ->
    fnan (ss_cost s) = false /\
    forall a k, a < 3 -> inner k -> flt (estimate a (vget (bmin bounds) a) (vget (bmax bounds) a) (items refs) k) (ss_cost s) = false.
  Proof.
    intros bounds refs s E. apply find_settled in E as (Nn & Lo & _). split; auto. intros a k La Ik. apply Lo; auto. lia.
  Qed.
  Theorem find_plane : forall bounds refs s, find_spatial_split prims bounds refs = Ok s ->
    s = ssplit_new \/ cheapest_plane bounds (items refs) (ss_axis s) (ss_pos s) (ss_cost s).
  Proof.
    intros bounds refs s E. apply find_settled in E as (_ & Lo & [->|(_ & Wh)]); auto. right. unfold cheapest_plane. cbv zeta. split; [exact Wh|].
    intros a k La Ik. apply Lo; auto. lia.
  Qed.
End Find.
