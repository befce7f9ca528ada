(** * The binned builder takes a cheapest split *)
Require Import List Arith Lia ZArith Bool Permutation Reals Lra.
From Flocq Require Import Core.Core IEEE754.BinarySingleNaN.
From Verif Require Import F32 F32Facts Vec AabbModel AabbProofs Base NodeModel UtilsModel UtilsProofs LocbModel SpawnModel SpawnProofs
  SpecGeom SpecTree BinnedModel BinnedProofs BinnedFacts BinnedLeaf SpecBinned.
Import ListNotations.
Local Open Scope nat_scope.

(** ** Floats up to the sign of zero *)
Definition fzero (x : f32) : bool := match x with B754_zero _ => true | _ => false end.
Definition sim (x y : f32) : Prop := x = y \/ (fzero x = true /\ fzero y = true).
Lemma sim_refl : forall x, sim x x.
Proof. left; auto. Qed.
Lemma sim_sym : forall x y, sim x y -> sim y x.
Proof. intros x y [->|[A B]]; [left|right]; auto. Qed.
Lemma sim_trans : forall x y z, sim x y -> sim y z -> sim x z.
Proof. intros x y z [->|[A B]] [->|[C D]]; [left|right|right|right]; auto. Qed.

Lemma sim_fadd : forall x x' y y', sim x x' -> sim y y' -> sim (fadd x y) (fadd x' y').
Proof.
  intros x x' y y' [->|[A B]] [->|[C D]]; [left; auto| | |].
  - destruct y as [sy|sy| |sy my ey Hy], y' as [sy'|sy'| |sy' my' ey' Hy']; try discriminate.
    destruct x' as [s|s| |s m e H]; try (left; reflexivity). right. destruct s, sy, sy'; auto.
  - destruct x as [sy|sy| |sy my ey Hy], x' as [sy'|sy'| |sy' my' ey' Hy']; try discriminate.
    destruct y' as [s|s| |s m e H]; try (left; reflexivity). right. destruct s, sy, sy'; auto.
  - destruct x as [sx|sx| |sx mx ex Hx], x' as [sx'|sx'| |sx' mx' ex' Hx']; try discriminate.
    destruct y as [sy|sy| |sy my ey Hy], y' as [sy'|sy'| |sy' my' ey' Hy']; try discriminate.
    right. destruct sx, sx', sy, sy'; auto.
Qed.
Lemma sim_fsub : forall x x' y y', sim x x' -> sim y y' -> sim (fsub x y) (fsub x' y').
Proof.
  intros x x' y y' [->|[A B]] [->|[C D]]; [left; auto| | |].
  - destruct y as [sy|sy| |sy my ey Hy], y' as [sy'|sy'| |sy' my' ey' Hy']; try discriminate.
    destruct x' as [s|s| |s m e H]; try (left; reflexivity). right. destruct s, sy, sy'; auto.
  - destruct x as [sy|sy| |sy my ey Hy], x' as [sy'|sy'| |sy' my' ey' Hy']; try discriminate.
    destruct y' as [s|s| |s m e H]; try (left; reflexivity). right. destruct s, sy, sy'; auto.
  - destruct x as [sx|sx| |sx mx ex Hx], x' as [sx'|sx'| |sx' mx' ex' Hx']; try discriminate.
    destruct y as [sy|sy| |sy my ey Hy], y' as [sy'|sy'| |sy' my' ey' Hy']; try discriminate.
    right. destruct sx, sx', sy, sy'; auto.
Qed.
Lemma sim_fmul : forall x x' y y', sim x x' -> sim y y' -> sim (fmul x y) (fmul x' y').
Proof.
  intros x x' y y' [->|[A B]] [->|[C D]]; [left; auto| | |].
  - destruct y as [sy|sy| |sy my ey Hy], y' as [sy'|sy'| |sy' my' ey' Hy']; try discriminate.
    destruct x' as [s|s| |s m e H]; try (left; reflexivity); right; auto.
  - destruct x as [sy|sy| |sy my ey Hy], x' as [sy'|sy'| |sy' my' ey' Hy']; try discriminate.
    destruct y' as [s|s| |s m e H]; try (left; reflexivity); right; auto.
  - destruct x as [sx|sx| |sx mx ex Hx], x' as [sx'|sx'| |sx' mx' ex' Hx']; try discriminate.
    destruct y as [sy|sy| |sy my ey Hy], y' as [sy'|sy'| |sy' my' ey' Hy']; try discriminate.
    right. auto.
Qed.
Lemma sim_flt : forall x x' y y', sim x x' -> sim y y' -> flt x y = flt x' y'.
Proof.
  intros x x' y y' [->|[A B]] [->|[C D]]; auto.
  - destruct y as [sy|sy| |sy my ey Hy], y' as [sy'|sy'| |sy' my' ey' Hy']; try discriminate.
    destruct x' as [s|s| |s m e H]; try reflexivity.
  - destruct x as [sy|sy| |sy my ey Hy], x' as [sy'|sy'| |sy' my' ey' Hy']; try discriminate.
    destruct y' as [s|s| |s m e H]; try reflexivity.
  - destruct x as [sx|sx| |sx mx ex Hx], x' as [sx'|sx'| |sx' mx' ex' Hx']; try discriminate.
    destruct y as [sy|sy| |sy my ey Hy], y' as [sy'|sy'| |sy' my' ey' Hy']; try discriminate. reflexivity.
Qed.
Lemma sim_fle : forall x y : f32, fle x y = true -> fle y x = true -> sim x y.
Proof.
  intros x y A B. destruct (fle_notnan _ _ A) as [Nx Ny].
  apply (fle_spec x y Nx Ny) in A. apply (fle_spec y x Ny Nx) in B.
  assert (fr x = fr y) as E by lra. clear A B.
  assert (forall z : f32, is_finite z = true -> (- BIG < fr z < BIG)%R) as Fb.
  { intros z Fz. pose proof (fin_fr_lt z Fz) as Az. pose proof bpow128_lt_BIG. apply Rabs_def2 in Az. lra. }
  assert (forall s (z : f32), is_finite z = true -> fr (B754_infinity s) <> fr z) as Fi.
  { intros s z Fz. specialize (Fb z Fz). change (fr (B754_infinity s)) with (if s then (- BIG)%R else BIG). destruct s; lra. }
  pose proof BIG_pos as Bp.
  destruct x as [sx|sx| |sx mx ex Hx], y as [sy|sy| |sy my ey Hy]; try discriminate.
  - right; auto.
  - exfalso. eapply Fi; [|symmetry; exact E]. reflexivity.
  - exfalso. rewrite !fr_fin in E by reflexivity. cbn [B2R] in E. symmetry in E. unfold F2R in E. cbn [Fnum Fexp cond_Zopp] in E.
    pose proof (bpow_gt_0 radix2 ey) as Bp2. apply Rmult_integral in E as [E|E]; [|lra].
    apply (eq_IZR _ 0) in E. destruct sy; discriminate.
  - exfalso. eapply Fi; [|exact E]. reflexivity.
  - left. change ((if sx then (- BIG)%R else BIG) = (if sy then (- BIG)%R else BIG)) in E. destruct sx, sy; auto; exfalso; lra.
  - exfalso. eapply Fi; [|exact E]. reflexivity.
  - exfalso. rewrite !fr_fin in E by reflexivity. cbn [B2R] in E. unfold F2R in E. cbn [Fnum Fexp cond_Zopp] in E.
    pose proof (bpow_gt_0 radix2 ex) as Bp2. apply Rmult_integral in E as [E|E]; [|lra].
    apply (eq_IZR _ 0) in E. destruct sx; discriminate.
  - exfalso. eapply Fi; [|symmetry; exact E]. reflexivity.
  - left. rewrite !fr_fin in E by reflexivity. apply B2R_inj; auto.
Qed.

Lemma half_area_sim : forall a b, box_in a b -> box_in b a -> sim (half_area a) (half_area b).
Proof.
  intros a b [(A1 & A2 & A3) (A4 & A5 & A6)] [(B1 & B2 & B3) (B4 & B5 & B6)].
  assert (sim (vx (bmin a)) (vx (bmin b))) as S1 by (apply sim_fle; auto).
  assert (sim (vy (bmin a)) (vy (bmin b))) as S2 by (apply sim_fle; auto).
  assert (sim (vz (bmin a)) (vz (bmin b))) as S3 by (apply sim_fle; auto).
  assert (sim (vx (bmax a)) (vx (bmax b))) as S4 by (apply sim_fle; auto).
  assert (sim (vy (bmax a)) (vy (bmax b))) as S5 by (apply sim_fle; auto).
  assert (sim (vz (bmax a)) (vz (bmax b))) as S6 by (apply sim_fle; auto).
  unfold half_area, diagonal, vsub. cbn [vx vy vz].
  repeat (apply sim_fadd || apply sim_fmul); apply sim_fsub; auto.
Qed.

Lemma flt_false_le : forall x y z : f32, flt x y = false -> fle z y = true -> flt x z = false.
Proof.
  intros x y z F L. destruct (flt x z) eqn:G; auto. destruct (flt_notnan _ _ G) as [Nx Nz]. destruct (fle_notnan _ _ L) as [_ Ny].
  apply (flt_spec x z Nx Nz) in G. apply (fle_spec z y Nz Ny) in L. apply (flt_false x y Nx Ny) in F. exfalso. lra.
Qed.

Section Cost.
  Variables (mls : nat) (aabbs : list aabb) (centers : list vec3).
  Hypothesis Hok : Forall box_ok aabbs.
  Hypothesis Hlen : length centers = length aabbs.
  Hypothesis Hpos : 1 <= length aabbs.

  Notation bx p := (nth p aabbs aabb_new).
  Lemma bx_ok : forall p, box_ok (bx p).
  Proof.
    intro p. destruct (Nat.lt_ge_cases p (length aabbs)) as [L|L].
    - rewrite Forall_forall in Hok. apply Hok, nth_In. auto.
    - rewrite nth_overflow by auto. apply aabb_new_ok.
  Qed.

  (** The box is the smallest one around the AABBs of [ids]. *)
  Definition tight (ids : list nat) (b : aabb) : Prop :=
    box_ok b /\ box_in aabb_new b /\ (forall p, In p ids -> box_in (bx p) b) /\
    (forall c, box_in aabb_new c -> (forall p, In p ids -> box_in (bx p) c) -> box_in b c).
  Lemma tight_nil : tight [] aabb_new.
  Proof.
    split; [apply aabb_new_ok|]. split; [apply box_in_refl, aabb_new_ok|]. split; [intros p []|auto].
  Qed.
  Lemma tight_one : forall p, box_in aabb_new (bx p) -> tight [p] (bx p).
  Proof.
    intros p H. split; [apply bx_ok|]. split; [auto|]. split.
    - intros q [->|[]]. apply box_in_refl, bx_ok.
    - intros c _ Hc. apply Hc. simpl; auto.
  Qed.
  Lemma tight_grow : forall s t u a b, tight s a -> tight t b -> (forall p, In p u <-> In p s \/ In p t) -> tight u (grow_bb a b).
  Proof.
    intros s t u a b (A1 & A2 & A3 & A4) (B1 & B2 & B3 & B4) U.
    split; [apply grow_bb_ok; auto|]. split; [eapply box_in_trans; [exact A2|apply grow_bb_in_l; auto]|]. split.
    - intros p Ip. apply U in Ip as [Ip|Ip].
      + eapply box_in_trans; [apply A3; auto|apply grow_bb_in_l; auto].
      + eapply box_in_trans; [apply B3; auto|apply grow_bb_in_r; auto].
    - intros c C1 C2. apply grow_bb_least; [apply A4|apply B4]; auto; intros p Ip; apply C2, U; auto.
  Qed.
  Lemma tight_grow1 : forall s u a p, tight s a -> (forall q, In q u <-> In q s \/ q = p) -> tight u (grow_bb a (bx p)).
  Proof.
    intros s u a p (A1 & A2 & A3 & A4) U. pose proof (bx_ok p) as Op.
    split; [apply grow_bb_ok; auto|]. split; [eapply box_in_trans; [exact A2|apply grow_bb_in_l; auto]|]. split.
    - intros q Iq. apply U in Iq as [Iq|Iq].
      + eapply box_in_trans; [apply A3; auto|apply grow_bb_in_l; auto].
      + subst q. apply grow_bb_in_r; auto.
    - intros c C1 C2. apply grow_bb_least; [apply A4; auto|]; [intros q Iq|]; apply C2, U; auto.
  Qed.
  Lemma tight_ext : forall s u a, tight s a -> (forall q, In q u <-> In q s) -> tight u a.
  Proof.
    intros s u a (A1 & A2 & A3 & A4) U. split; [auto|]. split; [auto|]. split.
    - intros q Iq. apply A3, U. auto.
    - intros c C1 C2. apply A4; auto. intros q Iq. apply C2, U. auto.
  Qed.
  Lemma tight_area : forall s a b, tight s a -> tight s b -> sim (half_area a) (half_area b).
  Proof.
    intros s a b (A1 & A2 & A3 & A4) (B1 & B2 & B3 & B4). apply half_area_sim; auto.
  Qed.
  Lemma hull_tight : forall ids, tight ids (hull aabbs ids).
  Proof.
    intro ids. unfold hull. rewrite <- (rev_involutive ids). induction (rev ids) as [|p l IH]; simpl; [apply tight_nil|].
    rewrite map_app, fold_left_app. simpl. eapply tight_grow1; [exact IH|].
    intro q. rewrite in_app_iff. simpl. intuition.
  Qed.
  Lemma hull_perm : forall l l', Permutation l l' -> sim (side_cost aabbs l) (side_cost aabbs l').
  Proof.
    intros l l' P. unfold side_cost. rewrite (Permutation_length P). apply sim_fmul; [|apply sim_refl].
    apply tight_area with l; [apply hull_tight|]. eapply tight_ext; [apply hull_tight|].
    intro q. split; apply Permutation_in; auto. apply Permutation_sym; auto.
  Qed.
  Lemma filter_perm : forall (f : nat -> bool) l l', Permutation l l' -> Permutation (filter f l) (filter f l').
  Proof.
    intros f l l' P. induction P; simpl; auto; try (destruct (f x); auto); try (destruct (f y); auto using perm_swap).
    eapply Permutation_trans; eauto.
  Qed.
  Lemma cost_perm : forall bounds axis k l l', Permutation l l' ->
    sim (split_cost aabbs centers bounds l axis k) (split_cost aabbs centers bounds l' axis k).
  Proof. intros. unfold split_cost. apply sim_fadd; apply hull_perm, filter_perm; auto. Qed.
  Lemma worth_perm : forall bounds axis k l l', Permutation l l' ->
    worthwhile aabbs centers bounds l axis k -> worthwhile aabbs centers bounds l' axis k.
  Proof.
    intros bounds axis k l l' P (A & B & C & D & E). unfold worthwhile, leaf_cost in *. rewrite <- (Permutation_length P).
    pose proof (cost_perm bounds axis k _ _ P) as S. repeat (split; [auto; lia|]).
    split; [rewrite <- D|rewrite <- E]; symmetry; apply sim_flt; auto using sim_refl.
  Qed.

  (** ** Bins hold the hulls of their primitives *)
  Section Bounds.
  Variable bounds : aabb.
  Notation sl axis p := (slab centers bounds axis p).

  Lemma fill_tight : forall ids pre bins0 bins, Forall (fun p => p < length aabbs) ids ->
    (forall axis, length (pick bins0 axis) = BINS) ->
    (forall axis k, tight (filter (fun p => sl axis p =? k) pre) (fst (nth k (pick bins0 axis) empty_bin))) ->
    for_each ids (fill_one aabbs centers bounds) bins0 = Ok bins ->
    (forall axis k, tight (filter (fun p => sl axis p =? k) (pre ++ ids)) (fst (nth k (pick bins axis) empty_bin))).
  Proof.
    intros ids. induction ids as [|p ids IH]; intros pre bins0 bins Lt L T E axis k; cbn [for_each] in E.
    - injection E as <-. rewrite app_nil_r. apply T.
    - unfold fill_one at 1 in E. unfold get in E. inversion Lt as [|? ? Lp Lt']; subst.
      destruct (nth_error centers p) as [c|] eqn:Ec; [|discriminate].
      destruct (nth_error aabbs p) as [bp|] eqn:Eb; [|discriminate].
      destruct bins0 as [[b0 b1] b2]. cbn [bind] in E.
      set (f := fun a => add_to_bin (pick (b0, b1, b2) a) (compute_bin_index bounds c a) bp).
      change (for_each ids (fill_one aabbs centers bounds) (f 0, f 1, f 2) = Ok bins) in E.
      assert (forall ax, pick (f 0, f 1, f 2) ax = add_to_bin (pick (b0, b1, b2) ax) (sl ax p) bp) as Pf.
      { intro ax. rewrite (pick_add f). unfold f. rewrite bin_axis. unfold slab. rewrite (nth_error_nth _ _ _ Ec).
        destruct ax as [|[|ax]]; reflexivity. }
      replace (pre ++ p :: ids) with ((pre ++ [p]) ++ ids) by (rewrite <- app_assoc; auto).
      refine (IH (pre ++ [p]) _ _ Lt' _ _ E axis k).
      + intro ax. rewrite Pf. unfold add_to_bin. rewrite upd_length. auto.
      + intros ax j. rewrite Pf. unfold add_to_bin. rewrite filter_app. cbn [filter].
        assert (sl ax p < BINS) as Lb by apply (bin_lt [] [] eq_refl).
        destruct (Nat.eqb_spec (sl ax p) j) as [Ej|Nj].
        * rewrite <- Ej. rewrite nth_upd_same by (rewrite L; auto). cbn [fst].
          rewrite <- (nth_error_nth _ _ aabb_new Eb). eapply tight_grow1; [apply T|].
          intro q. rewrite in_app_iff. simpl. rewrite Ej. intuition.
        * rewrite nth_upd_other by auto. rewrite app_nil_r. apply T.
  Qed.

  Section Bins.
  Variables (ids : list nat) (bins : list bin * list bin * list bin).
  Hypothesis Hids : Forall (fun p => p < length aabbs) ids.
  Hypothesis Hfill : fill aabbs centers bounds ids = Ok bins.

  Lemma bins_tight : forall axis k, tight (filter (fun p => sl axis p =? k) ids) (fst (nth k (pick bins axis) empty_bin)).
  Proof.
    intros axis k. refine (fill_tight ids [] _ _ Hids _ _ Hfill axis k); clear axis k.
    - intros [|[|axis]]; apply repeat_length.
    - intros axis k. assert (forall l, l = repeat empty_bin BINS -> tight [] (fst (nth k l empty_bin))) as G.
      { intros l ->. rewrite nth_repeat. apply tight_nil. }
      apply G. destruct axis as [|[|axis]]; reflexivity.
  Qed.

  Lemma box_of_snoc : forall l (x : bin), box_of (l ++ [x]) = grow_bb (box_of l) (fst x).
  Proof. intros. unfold box_of. rewrite fold_left_app. reflexivity. Qed.
  Lemma firstn_snoc : forall (l : list bin) j, j < length l -> firstn (S j) l = firstn j l ++ [nth j l empty_bin].
  Proof. induction l as [|x l IH]; intros [|j] L; simpl in L; try lia; auto.
    change (x :: firstn (S j) l = x :: firstn j l ++ [nth j l empty_bin]). rewrite IH by lia. auto. Qed.
  Lemma skipn_cons : forall (l : list bin) j, j < length l -> skipn j l = nth j l empty_bin :: skipn (S j) l.
  Proof. induction l as [|x l IH]; intros [|j] L; simpl in L; try lia; auto.
    change (skipn j l = nth j l empty_bin :: skipn (S j) l). apply IH. lia. Qed.

  Lemma pick_len : forall axis, length (pick bins axis) = BINS.
  Proof. intro axis. apply (fill_counts aabbs centers bounds ids bins axis Hfill). Qed.

  Lemma first_tight : forall axis j, j <= BINS -> tight (filter (fun p => sl axis p <? j) ids) (box_of (firstn j (pick bins axis))).
  Proof.
    intros axis j. induction j as [|j IH]; intro L.
    - cbn [firstn]. eapply tight_ext; [exact tight_nil|]. intro q. rewrite filter_In. destruct (Nat.ltb_spec (sl axis q) 0) as [Hq|Hq]; [lia|]. simpl. intuition congruence.
    - rewrite firstn_snoc by (rewrite pick_len; lia). rewrite box_of_snoc.
      eapply tight_grow; [apply IH; lia|apply bins_tight|]. intro q. rewrite !filter_In.
      destruct (Nat.ltb_spec (sl axis q) (S j)); destruct (Nat.ltb_spec (sl axis q) j); destruct (Nat.eqb_spec (sl axis q) j); intuition; try discriminate; lia.
  Qed.
  Lemma last_tight : forall axis d, d <= BINS ->
    tight (filter (fun p => negb (sl axis p <? BINS - d)) ids) (box_of (rev (skipn (BINS - d) (pick bins axis)))).
  Proof.
    intros axis d. induction d as [|d IH]; intro L.
    - rewrite Nat.sub_0_r. rewrite skipn_all2 by (rewrite pick_len; auto). cbn [rev]. eapply tight_ext; [exact tight_nil|].
      intro q. rewrite filter_In. assert (sl axis q < BINS) as Lb by apply (bin_lt [] [] eq_refl). apply Nat.ltb_lt in Lb. rewrite Lb. simpl. intuition congruence.
    - rewrite skipn_cons by (rewrite pick_len; unfold BINS in *; lia). replace (S (BINS - S d)) with (BINS - d) by lia.
      cbn [rev]. rewrite box_of_snoc. eapply tight_grow; [apply IH; lia|apply bins_tight|]. intro q. rewrite !filter_In.
      destruct (Nat.ltb_spec (sl axis q) (BINS - S d)); destruct (Nat.ltb_spec (sl axis q) (BINS - d)); destruct (Nat.eqb_spec (sl axis q) (BINS - S d));
        simpl; intuition; try discriminate; lia.
  Qed.

  (** The cost of the split below bin [k], from the bins. *)
  Definition bcost (l : list bin) (k : nat) : f32 :=
    fadd (fmul (half_area (box_of (firstn k l))) (fn (cnt (firstn k l))))
         (fmul (half_area (box_of (rev (skipn k l)))) (fn (cnt (skipn k l)))).
  Lemma bcost_sim : forall axis k, k <= BINS -> sim (bcost (pick bins axis) k) (split_cost aabbs centers bounds ids axis k).
  Proof.
    intros axis k L. destruct (fill_counts aabbs centers bounds ids bins axis Hfill) as (Lb & _ & _ & C).
    assert (cnt (firstn k (pick bins axis)) = length (filter (fun p => sl axis p <? k) ids)) as C1 by (apply C; auto).
    assert (cnt (skipn k (pick bins axis)) = length (filter (fun p => negb (sl axis p <? k)) ids)) as C2.
    { assert (cnt (pick bins axis) = length ids) as Tot.
      { rewrite <- (firstn_all (pick bins axis)), Lb, C by auto. apply filter_all. intros x _. apply Nat.ltb_lt. apply (bin_lt [] [] eq_refl). }
      pose proof (cnt_skipn (pick bins axis) k) as Cs. rewrite Tot, C1 in Cs.
      assert (forall f : nat -> bool, length ids = length (filter f ids) + length (filter (fun p => negb (f p)) ids)) as Sp.
      { intro f. clear. induction ids as [|x l IH]; simpl; auto. destruct (f x); simpl; lia. }
      specialize (Sp (fun p => sl axis p <? k)). cbv beta in Sp. lia. }
    unfold bcost, split_cost, side_cost. rewrite C1, C2.
    apply sim_fadd; apply sim_fmul; try apply sim_refl.
    - eapply tight_area; [apply first_tight; auto|apply hull_tight].
    - pose proof (last_tight axis (BINS - k) ltac:(lia)) as T. replace (BINS - (BINS - k)) with k in T by lia.
      eapply tight_area; [exact T|apply hull_tight].
  Qed.
  End Bins.

  (** ** [find_split] finds a cheapest split *)
  Lemma right_nth : forall l box count acc,
    right_costs l box count acc =
    rev (map (fun j => fmul (half_area (fold_left (fun a (b : bin) => grow_bb a (fst b)) (firstn (S j) l) box)) (fn (count + cnt (firstn (S j) l))))
      (seq 0 (length l))) ++ acc.
  Proof.
    induction l as [|[b c] l IH]; intros box count acc; cbn [right_costs]; [reflexivity|].
    rewrite IH. cbn [length seq map rev]. rewrite <- app_assoc. cbn [app]. rewrite <- seq_shift, map_map.
    f_equal.
    - f_equal. apply map_ext. intro j. cbn [firstn fold_left fst]. do 2 f_equal. unfold cnt. cbn [map list_sum fold_right snd]. 
      rewrite Nat.add_assoc. reflexivity.
    - f_equal. cbn [firstn fold_left fst]. unfold cnt. cbn [map list_sum fold_right snd]. do 2 f_equal. lia.
  Qed.

  Lemma left_best : forall l rights box count i best, is_nan (fst best) = false ->
    let r := left_pass l rights box count i best in
    is_nan (fst r) = false /\ fle (fst r) (fst best) = true /\
    (r = best \/ exists j, j < length l /\ j < length rights /\ snd r = S (i + j) /\
       fst r = fadd (fmul (half_area (fold_left (fun a (b : bin) => grow_bb a (fst b)) (firstn (S j) l) box)) (fn (count + cnt (firstn (S j) l)))) (nth j rights f0)) /\
    forall j, j < length l -> j < length rights ->
      flt (fadd (fmul (half_area (fold_left (fun a (b : bin) => grow_bb a (fst b)) (firstn (S j) l) box)) (fn (count + cnt (firstn (S j) l)))) (nth j rights f0)) (fst r) = false.
  Proof.
    induction l as [|[b c] l IH]; intros rights box count i best Nb r.
    - split; [auto|]. split; [apply fle_refl; auto|]. split; [left; auto|]. intros j Lj. simpl in Lj. lia.
    - destruct rights as [|rc rights].
      { split; [auto|]. split; [apply fle_refl; auto|]. split; [left; auto|]. intros j _ Lj. simpl in Lj. lia. }
      set (cost := fadd (fmul (half_area (grow_bb box b)) (fn (count + c))) rc).
      set (best' := if flt cost (fst best) then (cost, S i) else best).
      assert (r = left_pass l rights (grow_bb box b) (count + c) (S i) best') as Er by reflexivity. clearbody r. subst r.
      assert (is_nan (fst best') = false /\ fle (fst best') (fst best) = true /\ flt cost (fst best') = false) as (N' & L' & F').
      { unfold best'. destruct (flt cost (fst best)) eqn:F; cbn [fst].
        - split; [apply (flt_notnan _ _ F)|]. split; [apply flt_fle; auto|apply flt_irrefl].
        - split; [auto|]. split; [apply fle_refl; auto|auto]. }
      destruct (IH rights (grow_bb box b) (count + c) (S i) best' N') as (R1 & R2 & R3 & R4).
      set (r := left_pass l rights (grow_bb box b) (count + c) (S i) best') in *.
      assert (forall j, fmul (half_area (fold_left (fun a (b : bin) => grow_bb a (fst b)) (firstn (S (S j)) ((b, c) :: l)) box)) (fn (count + cnt (firstn (S (S j)) ((b, c) :: l)))) =
        fmul (half_area (fold_left (fun a (b : bin) => grow_bb a (fst b)) (firstn (S j) l) (grow_bb box b))) (fn (count + c + cnt (firstn (S j) l)))) as Sh.
      { intro j. do 2 f_equal. rewrite <- Nat.add_assoc. reflexivity. }
      assert (fmul (half_area (fold_left (fun a (b : bin) => grow_bb a (fst b)) (firstn 1 ((b, c) :: l)) box)) (fn (count + cnt (firstn 1 ((b, c) :: l)))) =
        fmul (half_area (grow_bb box b)) (fn (count + c))) as Sh0.
      { do 2 f_equal. unfold cnt. simpl. lia. }
      split; [auto|]. split; [eapply fle_trans; eauto|]. split.
      + destruct R3 as [R3|(j & J1 & J2 & J3 & J4)].
        * unfold best' in R3. destruct (flt cost (fst best)); [|left; auto]. right. exists 0. rewrite R3. cbn [length fst snd nth].
          split; [lia|]. split; [lia|]. split; [f_equal; lia|]. exact (f_equal (fun z => fadd z rc) (eq_sym Sh0)).
        * right. exists (S j). cbn [length nth]. split; [lia|]. split; [lia|]. split; [lia|]. rewrite Sh. auto.
      + intros [|j] J1 J2; cbn [length nth] in *.
        * eapply eq_trans; [exact (f_equal (fun z => flt (fadd z rc) (fst r)) Sh0)|]. apply flt_false_le with (fst best'); auto.
        * rewrite Sh. apply R4; lia.
  Qed.

  Lemma cnt_rev : forall l, cnt (rev l) = cnt l.
  Proof. induction l as [|x l IH]; [reflexivity|]. cbn [rev]. rewrite cnt_app, IH. unfold cnt. simpl. lia. Qed.
  Lemma find_split_best : forall l, length l = BINS ->
    is_nan (fst (find_split l)) = false /\
    (find_split l = (fMAX, BINS) \/ (0 < snd (find_split l) /\ snd (find_split l) < BINS /\ fst (find_split l) = bcost l (snd (find_split l)))) /\
    forall k, 0 < k -> k < BINS -> flt (bcost l k) (fst (find_split l)) = false.
  Proof.
    intros l L. unfold find_split.
    set (rights := right_costs (rev (skipn 1 l)) aabb_new 0 []).
    assert (length (skipn 1 l) = 15) as Ls by (rewrite skipn_length, L; reflexivity).
    assert (length rights = 15) as Lr.
    { unfold rights. rewrite right_nth, app_length, rev_length, map_length, seq_length, rev_length, Ls. reflexivity. }
    assert (forall j, j < 15 -> nth j rights f0 = fmul (half_area (box_of (rev (skipn (S j) l)))) (fn (cnt (skipn (S j) l)))) as Nr.
    { intros j Lj. unfold rights. rewrite right_nth, app_nil_r.
      set (F := fun j : nat => _). rewrite rev_nth by (rewrite map_length, seq_length, rev_length, Ls; auto).
      rewrite map_length, seq_length, rev_length, Ls.
      rewrite (nth_indep _ f0 (F 0)) by (rewrite map_length, seq_length, ?rev_length, ?Ls; lia).
      rewrite map_nth, seq_nth by (rewrite ?rev_length, ?Ls; lia). unfold F.
      replace (S (0 + (15 - S j))) with (15 - j) by lia. rewrite firstn_rev, Ls. replace (15 - (15 - j)) with j by lia.
      assert (skipn j (skipn 1 l) = skipn (S j) l) as -> by (destruct l as [|x l]; [discriminate|reflexivity]).
      unfold box_of. rewrite Nat.add_0_l. rewrite cnt_rev. reflexivity. }
    destruct (left_best l rights aabb_new 0 0 (fMAX, BINS) eq_refl) as (R1 & _ & R3 & R4).
    set (r := left_pass l rights aabb_new 0 0 (fMAX, BINS)) in *. clearbody r.
    split; [auto|]. split.
    - destruct R3 as [R3|(j & J1 & J2 & J3 & J4)]; [left; auto|right]. rewrite Lr in J2. rewrite J3, J4. cbn [Nat.add] in *.
      split; [lia|]. split; [unfold BINS; lia|]. rewrite Nr by auto. reflexivity.
    - intros [|k] K1 K2; [lia|]. unfold BINS in K2. specialize (R4 k ltac:(rewrite L; unfold BINS; lia) ltac:(lia)).
      rewrite Nr in R4 by lia. exact R4.
  Qed.
  End Bounds.

  Notation slb bounds axis p := (slab centers bounds axis p).
  Definition cheapest (bounds : aabb) (ids : list nat) (axis si : nat) : Prop :=
    worthwhile aabbs centers bounds ids axis si /\
    forall a k, a < 3 -> 0 < k -> k < 16 ->
      flt (split_cost aabbs centers bounds ids a k) (split_cost aabbs centers bounds ids axis si) = false.

  Lemma pick_find : forall bins a, pick (find_split (pick bins 0), find_split (pick bins 1), find_split (pick bins 2)) a = find_split (pick bins a).
  Proof. intros bins [|[|a]]; reflexivity. Qed.

  Lemma plan_best : forall bounds ids pl, Forall (fun p => p < length aabbs) ids ->
    make_plan aabbs centers mls bounds ids = Ok pl ->
    (exists a k, worthwhile aabbs centers bounds ids a k) ->
    exists axis si lb rb, pl = Split axis si lb rb /\ cheapest bounds ids axis si /\
      (0 < length (filter (goes_left centers bounds axis si) ids) < length ids) /\
      (forall p b, In p ids -> nth_error aabbs p = Some b -> goes_left centers bounds axis si p = true -> box_in b lb).
  Proof.
    intros bounds ids pl Lt E W. unfold make_plan in E.
    destruct (fill aabbs centers bounds ids) as [bins| | |] eqn:Ef; try discriminate. cbn [bind] in E.
    pose proof (fun a => pick_len bounds ids bins Ef a) as Lb.
    set (bs := (find_split (pick bins 0), find_split (pick bins 1), find_split (pick bins 2))) in E.
    assert (forall a, pick bs a = find_split (pick bins a)) as Pb by (intro a; apply pick_find).
    assert (forall a k, 0 < k -> k < 16 -> flt (split_cost aabbs centers bounds ids a k) (fst (pick bs a)) = false) as Min.
    { intros a k K1 K2. rewrite Pb. destruct (find_split_best (pick bins a) (Lb a)) as (_ & _ & H).
      rewrite <- (H k K1 K2). symmetry. apply sim_flt; [|apply sim_refl]. apply bcost_sim; auto. unfold BINS. lia. }
    assert (forall a, is_nan (fst (pick bs a)) = false) as Nb.
    { intro a. rewrite Pb. apply (find_split_best (pick bins a) (Lb a)). }
    set (b0 := if fgt (fst (pick bs 0)) (fst (pick bs 1)) then 1 else 0) in E.
    set (ba := if fgt (fst (pick bs b0)) (fst (pick bs 2)) then 2 else b0) in E.
    assert (ba < 3 /\ forall a, a < 3 -> fle (fst (pick bs ba)) (fst (pick bs a)) = true) as (B3 & Ba).
    { assert (forall a b, fgt (fst (pick bs a)) (fst (pick bs b)) = false -> fle (fst (pick bs a)) (fst (pick bs b)) = true) as Ng.
      { intros a b H. apply (flt_false _ _ (Nb b) (Nb a)) in H. apply (fle_spec _ _ (Nb a) (Nb b)). auto. }
      assert (forall a b, fgt (fst (pick bs a)) (fst (pick bs b)) = true -> fle (fst (pick bs b)) (fst (pick bs a)) = true) as Pg.
      { intros a b H. apply flt_fle. exact H. }
      assert (forall a, fle (fst (pick bs a)) (fst (pick bs a)) = true) as Rf by (intro a; apply fle_refl; auto).
      assert (b0 < 2 /\ forall a, a < 2 -> fle (fst (pick bs b0)) (fst (pick bs a)) = true) as (B2 & Hb0).
      { unfold b0. destruct (fgt (fst (pick bs 0)) (fst (pick bs 1))) eqn:G; (split; [lia|]); intros [|[|a]] La; try lia; auto. }
      unfold ba. destruct (fgt (fst (pick bs b0)) (fst (pick bs 2))) eqn:G; (split; [lia|]); intros [|[|[|a]]] La; try lia; auto.
      - eapply fle_trans; [apply Pg; exact G|]. apply Hb0. lia.
      - eapply fle_trans; [apply Pg; exact G|]. apply Hb0. lia. }
    clearbody ba. clear b0.
    assert (forall a k, a < 3 -> 0 < k -> k < 16 -> flt (split_cost aabbs centers bounds ids a k) (fst (pick bs ba)) = false) as Min'.
    { intros a k A K1 K2. eapply flt_false_le; [apply Min; eauto|auto]. }
    destruct W as (a & k & A & K1 & K2 & W1 & W2).
    fold (leaf_cost bounds ids) in E.
    assert (snd (pick bs ba) <> BINS) as Ns.
    { intro H. specialize (Min' a k A K1 K2). rewrite Pb in H, Min'.
      destruct (find_split_best (pick bins ba) (Lb ba)) as (_ & [Q|Q] & _); [|lia]. rewrite Q in Min'. cbn [fst] in Min'. congruence. }
    assert (fge (fst (pick bs ba)) (leaf_cost bounds ids) = false) as Nf.
    { destruct (fge (fst (pick bs ba)) (leaf_cost bounds ids)) eqn:G; auto.
      pose proof (flt_false_le _ _ _ (Min' a k A K1 K2) G). congruence. }
    destruct (Nat.eqb_spec (snd (pick bs ba)) BINS) as [|_]; [contradiction|]. rewrite Nf in E. cbn [orb] in E.
    assert (pl = Split ba (snd (pick bs ba)) (box_of (firstn (snd (pick bs ba)) (pick bins ba))) (box_of (skipn (snd (pick bs ba)) (pick bins ba)))) as Epl
      by (inversion E; auto). clear E.
    eexists _, _, _, _. split; [exact Epl|]. clear Epl.
    pose proof (Pb ba) as Pba. rewrite Pba in *. set (si := snd (find_split (pick bins ba))) in *.
    destruct (find_split_best (pick bins ba) (Lb ba)) as (N1 & [Q|(Q1 & Q2 & Q3)] & _); [unfold si in Ns; rewrite Q in Ns; contradiction|].
    fold si in Q1, Q2, Q3.
    assert (sim (fst (find_split (pick bins ba))) (split_cost aabbs centers bounds ids ba si)) as Sm.
    { rewrite Q3. apply bcost_sim; auto. lia. }
    assert (fle (fst (find_split (pick bins ba))) (split_cost aabbs centers bounds ids a k) = true) as Le.
    { destruct (flt_notnan _ _ W1) as [Nc _]. apply (fle_spec _ _ N1 Nc). apply (flt_false _ _ Nc N1). auto. }
    assert (forall z, flt (split_cost aabbs centers bounds ids a k) z = true -> flt (split_cost aabbs centers bounds ids ba si) z = true) as Tr.
    { intros z H. rewrite <- (sim_flt _ _ z z Sm (sim_refl z)). destruct (flt_notnan _ _ H) as [Nc Nz].
      apply (flt_spec _ _ Nc Nz) in H. apply (fle_spec _ _ N1 Nc) in Le. apply (flt_spec _ _ N1 Nz). lra. }
    split; [split|split].
    - unfold worthwhile. unfold BINS in Q2. split; [auto|]. split; [lia|]. split; [lia|]. split; apply Tr; auto.
    - intros a' k' A' K1' K2'. rewrite <- (sim_flt _ _ _ _ (sim_refl (split_cost aabbs centers bounds ids a' k')) Sm). apply Min'; auto.
    - destruct (fill_counts aabbs centers bounds ids bins ba Ef) as (L & T & _ & H).
      destruct (find_split_proper (pick bins ba) L T) as (S1 & S2 & S3); [auto|]. fold si in S1, S2, S3.
      rewrite (H si) in S2 by lia.
      assert (cnt (pick bins ba) = length ids) as Tot.
      { rewrite <- (firstn_all (pick bins ba)), L, H by auto. apply filter_all. intros x _. apply Nat.ltb_lt. apply (bin_lt [] [] eq_refl). }
      pose proof (cnt_skipn (pick bins ba) si) as Cs. rewrite Tot, H in Cs by lia. unfold goes_left. lia.
    - intros p b Ip Eb G. pose proof (first_tight bounds ids bins Lt Ef ba si ltac:(lia)) as (_ & _ & T & _).
      rewrite <- (nth_error_nth _ _ aabb_new Eb). apply T. apply filter_In. split; auto.
  Qed.

  (** Only the coordinates of [bounds] matter. *)
  Lemma slab_box : forall b b' axis p, bmin b = bmin b' -> bmax b = bmax b' -> slb b axis p = slb b' axis p.
  Proof. intros b b' axis p E1 E2. unfold slab, compute_bin_index, bin_offset, center_to_bin, diagonal. rewrite E1, E2. reflexivity. Qed.
  Lemma cost_box : forall b b' ids axis k, bmin b = bmin b' -> bmax b = bmax b' ->
    split_cost aabbs centers b ids axis k = split_cost aabbs centers b' ids axis k.
  Proof.
    intros b b' ids axis k E1 E2. unfold split_cost. f_equal; f_equal; apply filter_ext; intro p; rewrite (slab_box b b') by auto; reflexivity.
  Qed.
  Lemma leaf_box : forall b b' ids, bmin b = bmin b' -> bmax b = bmax b' -> leaf_cost b ids = leaf_cost b' ids.
  Proof. intros b b' ids E1 E2. unfold leaf_cost, half_area, diagonal. rewrite E1, E2. reflexivity. Qed.
  Lemma worth_box : forall b b' ids axis k, bmin b = bmin b' -> bmax b = bmax b' ->
    worthwhile aabbs centers b ids axis k -> worthwhile aabbs centers b' ids axis k.
  Proof.
    intros b b' ids axis k E1 E2 (A & B & C & D & F). unfold worthwhile.
    rewrite <- (cost_box b b'), <- (leaf_box b b') by auto. auto.
  Qed.
  Lemma cheapest_box : forall b b' ids axis k, bmin b = bmin b' -> bmax b = bmax b' -> cheapest b ids axis k -> cheapest b' ids axis k.
  Proof.
    intros b b' ids axis k E1 E2 [W C]. split; [eapply worth_box; eauto|]. intros a j A J1 J2.
    rewrite <- !(cost_box b b') by auto. apply C; auto.
  Qed.

  (** ** The tree *)
  Definition s_box (s : shape) : aabb := match s with SLeaf mn mx _ _ => Bb mn 0 mx 0 | SNode mn mx _ _ => Bb mn 0 mx 0 end.
  Definition split_well (bounds : aabb) (ids il ir : list nat) (lbox : aabb) : Prop :=
    (exists a k, worthwhile aabbs centers bounds ids a k) ->
    encl aabbs lbox il /\
    exists axis si, cheapest bounds ids axis si /\
      Forall (fun p => slb bounds axis p < si) il /\ Forall (fun p => si <= slb bounds axis p) ir.
  Fixpoint sopt (k : nat) (s : shape) (ids : list nat) : Prop :=
    length ids = s_len s /\
    match s with
    | SLeaf mn mx _ _ => 0 < k -> 1 < length ids ->
        exists bounds, mn = bmin (with_offset bounds f1em4) /\ mx = bmax (with_offset bounds f1em4) /\
          forall a j, ~ worthwhile aabbs centers bounds ids a j
    | SNode mn mx l r => exists il ir, ids = il ++ ir /\ split_well (Bb mn 0 mx 0) ids il ir (s_box l) /\ sopt (k - 1) l il /\ sopt (k - 1) r ir
    end.

  Lemma cheapest_perm : forall bounds axis si l l', Permutation l l' -> cheapest bounds l axis si -> cheapest bounds l' axis si.
  Proof.
    intros bounds axis si l l' P [W C]. split; [eapply worth_perm; eauto|]. intros a k A K1 K2. rewrite <- (C a k A K1 K2).
    symmetry. apply sim_flt; apply cost_perm; auto.
  Qed.
  Lemma sencl_box : forall must s ids, sencl mls aabbs must s ids -> must = true -> encl aabbs (s_box s) ids.
  Proof. intros must [mn mx f c|mn mx l r] ids (L & H) M; [auto|]. apply H. auto. Qed.

  Notation sah := (sah mls aabbs centers).
  Lemma sah_opt : forall k begin ids box, Forall (fun p => p < length aabbs) ids ->
    sopt k (fst (sah k begin ids box)) (snd (sah k begin ids box)).
  Proof.
    induction k as [|k IH]; intros begin ids box F.
    - cbn. split; [symmetry; apply Nat2Z.id|lia].
    - pose proof (sah_perm mls aabbs centers (S k) begin ids box) as Pall.
      pose proof (sah_len mls aabbs centers (S k) begin ids box) as Lall.
      cbn [BinnedProofs.sah] in *.
      assert (forall l, Permutation l ids -> length l <= 1 \/ (forall a j, ~ worthwhile aabbs centers (with_offset box f1em4) ids a j) ->
        sopt (S k) (SLeaf (bmin (with_offset (with_offset box f1em4) f1em4)) (bmax (with_offset (with_offset box f1em4) f1em4)) (Z.of_nat begin) (Z.of_nat (length l))) l) as Leaf.
      { intros l P H. cbn [sopt s_len]. split; [symmetry; apply Nat2Z.id|]. intros _ H1.
        exists (with_offset box f1em4). split; [reflexivity|]. split; [reflexivity|]. destruct H as [H|H]; [lia|].
        intros a j W. apply (H a j). eapply worth_perm; eauto. }
      destruct (Nat.leb_spec (length ids) 1) as [L1|L1]; [apply Leaf; auto|].
      destruct (plan_ok mls aabbs centers Hlen Hpos (with_offset box f1em4) ids F) as (pl & Ep). rewrite Ep in *.
      pose proof (plan_best _ _ _ F Ep) as PB.
      destruct pl as [|axis si lb rb].
      { apply Leaf; auto. right. intros a j W. destruct PB as (? & ? & ? & ? & Q & _); [exists a, j; auto|discriminate]. }
      destruct (partition_spec _ ids (length ids) (goes_left centers (with_offset box f1em4) axis si)) as (ids' & c & E & Cc & Lc & P & L & T & Fl & _); auto.
      rewrite firstn_all in Cc. rewrite E in *. unfold count_if in Cc.
      destruct ((0 <? c) && (c <? length ids)) eqn:Both.
      + cbn [fst snd sopt] in *. split; [rewrite (Permutation_length Pall); symmetry; exact Lall|].
        assert (Forall (fun p => p < length aabbs) ids') as Lt' by (eapply Permutation_Forall; [symmetry; eauto|auto]).
        rewrite <- (firstn_skipn c ids') in Lt'. apply Forall_app in Lt' as [Lt1 Lt2].
        pose proof (sah_perm mls aabbs centers k begin (firstn c ids') lb) as Pl.
        pose proof (sah_perm mls aabbs centers k (begin + c) (skipn c ids') rb) as Pr.
        eexists _, _. split; [reflexivity|]. rewrite Nat.sub_succ, Nat.sub_0_r. split; [|split; apply IH; auto].
        intros (a & j & W).
        remember (with_offset box f1em4) as bnd eqn:Hbnd. clear Hbnd.
        apply (worth_box _ bnd) in W; [|reflexivity|reflexivity].
        apply (worth_perm _ _ _ _ _ Pall) in W.
        destruct PB as (axis' & si' & lb' & rb' & Q & Ch & _ & Ib); [exists a, j; exact W|].
        assert (axis = axis' /\ si = si' /\ lb = lb') as (<- & <- & <-) by (inversion Q; auto). clear Q.
        assert (forall p, In p (firstn c ids') -> goes_left centers bnd axis si p = true /\ In p ids) as Gl.
        { intros p Ip. apply In_nth_error in Ip as [q Eq].
          assert (q < c) as Lj.
          { assert (q < length (firstn c ids')) by (apply nth_error_Some; congruence). rewrite firstn_length in H. lia. }
          assert (nth_error ids' q = Some p) as Ej'.
          { rewrite <- Eq. rewrite <- (firstn_skipn c ids') at 1. apply nth_error_app1. apply nth_error_Some. congruence. }
          split; [eapply T; eauto; lia|]. eapply Permutation_in; [exact P|]. eapply nth_error_In; eauto. }
        split.
        * apply (sencl_box true); auto. apply sah_encl; auto. intros _. unfold encl. apply Forall_forall. intros p Ip b Eb.
          destruct (Gl p Ip). eapply Ib; eauto.
        * exists axis, si. split; [apply (cheapest_box bnd); [reflexivity|reflexivity|]; eapply cheapest_perm; [apply Permutation_sym; exact Pall|exact Ch]|]. split.
          -- eapply Permutation_Forall; [apply Permutation_sym; exact Pl|]. apply Forall_forall. intros p Ip.
             rewrite <- (slab_box bnd) by reflexivity. apply Nat.ltb_lt. apply (Gl p Ip).
          -- eapply Permutation_Forall; [apply Permutation_sym; exact Pr|]. apply Forall_forall. intros p Ip.
             rewrite <- (slab_box bnd) by reflexivity. apply Nat.ltb_ge. apply In_nth_error in Ip as [q Eq].
             assert (q < length (skipn c ids')) as Lj by (apply nth_error_Some; congruence). rewrite skipn_length in Lj.
             assert (nth_error ids' (c + q) = Some p) as Ej'.
             { rewrite <- Eq. rewrite <- (firstn_skipn c ids') at 1. rewrite nth_error_app2; rewrite firstn_length; [f_equal; lia|lia]. }
             eapply Fl; [|exact Ej']. lia.
      + apply Leaf; auto. right. intros a j W.
        destruct PB as (axis' & si' & lb' & rb' & Q & _ & Ct & _); [exists a, j; exact W|].
        assert (axis = axis' /\ si = si') as (<- & <-) by (inversion Q; auto). rewrite <- Cc in Ct.
        apply andb_false_iff in Both as [Bo|Bo]; apply Nat.ltb_ge in Bo; lia.
  Qed.

  Lemma s_box_rec : forall s ids, encl aabbs (s_box (shape_of s)) ids -> encl aabbs (t_rec s) ids.
  Proof. intros [i n|i n l r] ids H; (eapply encl_box; [| |exact H]; reflexivity). Qed.

  Lemma sopt_tree : forall indices t k ids, sopt k (shape_of t) ids -> prims indices t = ids ->
    (forall d n, leaf_at d n t -> d < k -> 1 < length (leaf_prims indices n) ->
       exists bounds, bmin n = bmin (with_offset bounds f1em4) /\ bmax n = bmax (with_offset bounds f1em4) /\
         forall a j, ~ worthwhile aabbs centers bounds (leaf_prims indices n) a j) /\
    (forall i nd l r, subtree (TNode i nd l r) t ->
       split_well nd (prims indices (TNode i nd l r)) (prims indices l) (prims indices r) (t_rec l)).
  Proof.
    intros indices t. induction t as [i nd|i nd l IHl r IHr]; intros k ids S P; cbn [shape_of sopt] in S.
    - split.
      + intros d n La Ld L1. inversion La; subst. destruct S as [_ S].
        change (prims indices (TLeaf i nd)) with (leaf_prims indices nd) in S. apply S; auto.
      + intros j nd' l r Su. inversion Su.
    - destruct S as (_ & il & ir & E & Sw & Sl & Sr).
      assert (prims indices (TNode i nd l r) = prims indices l ++ prims indices r) as Ep by apply map_app.
      assert (length il = length (prims indices l)) as Ll.
      { unfold prims. rewrite map_length, shape_len. destruct l; simpl in Sl; apply Sl. }
      assert (il = prims indices l /\ ir = prims indices r) as [-> ->].
      { rewrite Ep in P. rewrite <- P in E. symmetry in E. apply app_inj_len in E; auto. }
      destruct (IHl _ _ Sl eq_refl) as (L1 & L2). destruct (IHr _ _ Sr eq_refl) as (R1 & R2). split.
      + intros d n La Ld Lg. inversion La; subst; [eapply L1|eapply R1]; eauto; lia.
      + intros j nd' l' r' Su. inversion Su; subst; eauto. intros (a & j & W). destruct Sw as (S1 & axis & si & S2 & S3 & S4).
        { exists a, j. rewrite <- Ep. apply (worth_box nd); [reflexivity|reflexivity|exact W]. }
        split; [apply s_box_rec; auto|]. exists axis, si. split; [rewrite Ep; apply (cheapest_box _ nd) in S2; [exact S2|reflexivity|reflexivity]|].
        split; [eapply Forall_impl; [|exact S3]|eapply Forall_impl; [|exact S4]]; intros p Hp; cbv beta in *; rewrite <- (slab_box (Bb (bmin nd) 0 (bmax nd) 0)) by reflexivity; exact Hp.
  Qed.
End Cost.
