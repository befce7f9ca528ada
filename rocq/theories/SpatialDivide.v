(** * How the spatial-split builder clips references, and the trees it makes *)
Require Import List ZArith Bool Arith Lia Permutation Sorted.
From Flocq Require Import BinarySingleNaN.
From Coq Require Import Reals Lra.
From Verif Require Import F32 F32Facts Vec Base AabbModel SpecGeom AabbProofs NodeModel UtilsModel UtilsProofs LocbModel SpecTree
  TriModel BinnedModel SpecBinned BinnedCost SpatialModel SpecSpatial SpatialPlan SpatialProofs SpatialComplete SpatialBoxes SpatialLeaf SpecPlane
  PlaneProofs SpecCut SpatialCost PropTri.
Import ListNotations.
Local Open Scope nat_scope.

(** ** Straddling references, exactly *)
Section Exact.
  Variables (prims : list tri) (axis : nat) (pos : f32).
  Definition tri_at (p : nat) : tri := nth p prims (Tri (vsplat f0) (vsplat f0) (vsplat f0)).
  Definition piece (b : aabb) (p : nat) : sref := Sr b (center b) p.
  Definition clip_l (r : sref) : sref := piece (shrink (fst (tri_split (tri_at (s_prim r)) axis pos)) (s_box r)) (s_prim r).
  Definition clip_r (r : sref) : sref := piece (shrink (snd (tri_split (tri_at (s_prim r)) axis pos)) (s_box r)) (s_prim r).

  Lemma straddle_exact : forall k A B C D lc rc L R w' rb' re' L' R',
    length B = k ->
    straddle prims axis pos k (A ++ B ++ C ++ D) (length A) (length A + length B) (length A + length B + length C) lc rc L R
      = Ok (w', rb', re', L', R') ->
    exists Bs Bl Br A' C' D', Permutation (Bs ++ Bl ++ Br) B /\ length Bs = Nat.min (length D) (length B) /\
      w' = A' ++ C' ++ D' /\ rb' = length A' /\ re' = length A' + length C' /\
      Permutation A' (A ++ map clip_l Bs ++ Bl) /\ Permutation C' (map clip_r Bs ++ Br ++ C) /\
      (lc = length A -> rc = length C -> (Bl <> [] -> length A' <= length C') /\ (Br <> [] -> length C' <= S (length A'))).
  Proof.
    induction k as [|k IH]; intros A B C D lc rc L R w' rb' re' L' R' Lb E; cbn [straddle] in E.
    - injection E as <- <- <- <- <-. destruct B; [|discriminate Lb]. simpl in *.
      exists [], [], [], A, C, D. rewrite Nat.add_0_r, Nat.min_0_r. simpl. rewrite app_nil_r. repeat split; auto; intro Q; contradiction Q; reflexivity.
    - destruct B as [|b B]; [discriminate Lb|]. injection Lb as Lb. cbn [app] in E.
      unfold get in E. rewrite nth_at in E. cbn [bind] in E.
      destruct (nth_error prims (s_prim b)) as [t|] eqn:Et; cbn [bind] in E; [|discriminate E].
      assert (tri_at (s_prim b) = t) as Etr by (apply nth_error_nth; auto).
      assert (clip_l b = piece (shrink (fst (tri_split t axis pos)) (s_box b)) (s_prim b)) as El by (unfold clip_l; rewrite Etr; auto).
      assert (clip_r b = piece (shrink (snd (tri_split t axis pos)) (s_box b)) (s_prim b)) as Er by (unfold clip_r; rewrite Etr; auto).
      destruct (tri_split t axis pos) as [lbx rbx]. cbn [fst snd] in El, Er. unfold piece in El, Er.
      destruct D as [|d D].
      + replace (0 <? length (A ++ b :: B ++ C ++ []) - (length A + length (b :: B) + length C)) with false in E
          by (symmetry; apply Nat.ltb_ge; rewrite !app_length; simpl; rewrite !app_length; simpl; lia).
        destruct (Nat.ltb_spec lc rc) as [Hlr|Hlr].
        * change (A ++ b :: B ++ C ++ []) with (A ++ [b] ++ B ++ C ++ []) in E. rewrite app_assoc in E.
          replace (S (length A)) with (length (A ++ [b])) in E by (rewrite app_length; simpl; lia).
          replace (length A + length (b :: B)) with (length (A ++ [b]) + length B) in E by (rewrite app_length; simpl; lia).
          apply IH in E as (Bs & Bl & Br & A' & C' & D' & P & Lm & -> & -> & -> & PA & PC & Bal); auto.
          exists Bs, (b :: Bl), Br, A', C', D'. cbn [length Nat.min] in *. destruct Bs; [|discriminate Lm].
          cbn [app map] in *. split; [apply perm_skip; exact P|]. repeat (split; [solve [auto]|]). split; [|split; [exact PC|]].
          { rewrite PA, <- app_assoc. auto. }
          intros E1 E2. destruct Bal as (B1 & B2); [rewrite app_length; simpl; lia|auto|]. split; [intros _|exact B2].
          destruct Bl as [|b' Bl]; [|apply B1; discriminate]. apply Permutation_length in PA. apply Permutation_length in PC. rewrite !app_length in PA. rewrite ?app_length in PC. simpl in PA. lia.
        * cbn [length] in E. destruct (swap _ _ _) as [w1| | |] eqn:Es; cbn [bind] in E; try discriminate E.
          assert (exists B', length B' = length B /\ Permutation B' B /\ w1 = A ++ B' ++ (b :: C) ++ []) as (B' & LB & PB & ->).
          { destruct B as [|z mid _] using rev_ind.
            - exists []. split; auto. split; auto. cbn [app length] in *. replace (length A + 1 - 1) with (length A) in Es by lia.
              unfold swap in Es. rewrite !nth_at in Es. rewrite !upd_at in Es. injection Es as <-. auto.
            - exists (z :: mid). rewrite app_length. cbn [length]. split; [lia|]. split; [apply Permutation_cons_append|].
              rewrite app_length in Es. cbn [length] in Es.
              replace (length A + S (length mid + 1) - 1) with (length (A ++ b :: mid)) in Es by (rewrite app_length; simpl; lia).
              assert (A ++ b :: (mid ++ [z]) ++ C ++ [] = (A ++ b :: mid) ++ z :: C ++ []) as Ew.
              { rewrite <- !app_assoc. cbn [app]. rewrite <- ?app_assoc. reflexivity. }
              unfold swap in Es. rewrite Ew in Es. rewrite nth_at in Es. rewrite <- Ew in Es at 1. rewrite nth_at in Es.
              rewrite upd_at in Es. rewrite <- app_assoc in Es. cbn [app] in Es. rewrite upd_at in Es. injection Es as <-. cbn [app]. reflexivity. }
          replace (length A + S (length B) - 1) with (length A + length B') in E by lia.
          replace (length A + S (length B) + length C) with (length A + length B' + length (b :: C)) in E by (simpl; lia).
          apply IH in E as (Bs & Bl & Br & A' & C' & D' & P & Lm & -> & -> & -> & PA & PC & Bal); try lia.
          exists Bs, Bl, (b :: Br), A', C', D'. cbn [length Nat.min] in *. destruct Bs; [|discriminate Lm].
          cbn [app map] in *. split; [rewrite <- Permutation_middle; apply perm_skip; rewrite P; exact PB|].
          repeat (split; [solve [auto]|]). split; [rewrite PC; symmetry; apply Permutation_middle|].
          intros E1 E2. destruct Bal as (B1 & B2); [auto|simpl; lia|]. split; [exact B1|intros _].
          destruct Br as [|b' Br]; [|apply B2; discriminate]. apply Permutation_length in PA. apply Permutation_length in PC. rewrite ?app_length in PA. simpl in PC. lia.
      + replace (0 <? length (A ++ b :: B ++ C ++ d :: D) - (length A + length (b :: B) + length C)) with true in E
          by (symmetry; apply Nat.ltb_lt; rewrite !app_length; simpl; rewrite !app_length; simpl; lia).
        rewrite <- El, <- Er in E.
        change (shrink lbx (s_box b)) with (s_box (Sr (shrink lbx (s_box b)) (center (shrink lbx (s_box b))) (s_prim b))) in E.
        change (shrink rbx (s_box b)) with (s_box (Sr (shrink rbx (s_box b)) (center (shrink rbx (s_box b))) (s_prim b))) in E.
        rewrite <- El, <- Er in E.
        remember (clip_r b) as x eqn:Hx. remember (clip_l b) as y eqn:Hy.
        assert (A ++ b :: B ++ C ++ d :: D = (A ++ b :: B ++ C) ++ d :: D) as Ew.
        { rewrite <- !app_assoc. cbn [app]. rewrite <- ?app_assoc. reflexivity. }
        assert (length A + length (b :: B) + length C = length (A ++ b :: B ++ C)) as Eln.
        { rewrite app_length. cbn [length]. rewrite app_length. lia. }
        unfold set in E. rewrite Ew, Eln in E.
        replace (length (A ++ b :: B ++ C) <? length ((A ++ b :: B ++ C) ++ d :: D)) with true in E
          by (symmetry; apply Nat.ltb_lt; rewrite (app_length (A ++ b :: B ++ C)); simpl; lia).
        cbn [bind] in E. rewrite upd_at in E.
        replace (length A <? length ((A ++ b :: B ++ C) ++ x :: D)) with true in E
          by (symmetry; apply Nat.ltb_lt; rewrite !app_length; simpl; lia).
        cbn [bind] in E. rewrite <- app_assoc in E. cbn [app] in E. rewrite upd_at in E.
        assert (A ++ y :: (B ++ C) ++ x :: D = (A ++ [y]) ++ B ++ (C ++ [x]) ++ D) as Ew2.
        { rewrite <- !app_assoc. reflexivity. }
        rewrite Ew2 in E. replace (S (length A)) with (length (A ++ [y])) in E by (rewrite app_length; simpl; lia).
        replace (length A + length (b :: B)) with (length (A ++ [y]) + length B) in E by (rewrite app_length; simpl; lia).
        replace (S (length (A ++ b :: B ++ C))) with (length (A ++ [y]) + length B + length (C ++ [x])) in E
          by (rewrite <- Eln, !app_length; simpl; lia).
        apply IH in E as (Bs & Bl & Br & A' & C' & D' & P & Lm & -> & -> & -> & PA & PC & Bal); auto.
        exists (b :: Bs), Bl, Br, A', C', D'. cbn [length Nat.min map app]. rewrite <- Hx, <- Hy.
        split; [apply perm_skip; exact P|]. split; [lia|]. repeat (split; [solve [auto]|]). split; [|split].
        * rewrite PA, <- app_assoc. auto.
        * rewrite PC. rewrite !app_assoc. symmetry. apply Permutation_cons_append.
        * intros E1 E2. apply Bal; rewrite app_length; simpl; lia.
  Qed.

  (** The two sides of a plane. *)
  Definition clip_refs (room : nat) (S S1 S2 : list sref) : Prop :=
    exists A Bs Bl Br C, Permutation (A ++ Bs ++ Bl ++ Br ++ C) S /\
      Forall (is_before axis pos) A /\ Forall (is_after axis pos) C /\ Forall (not_before axis pos) C /\
      Forall (is_cross axis pos) (Bs ++ Bl ++ Br) /\ length Bs = Nat.min room (length (Bs ++ Bl ++ Br)) /\
      Permutation S1 (A ++ map clip_l Bs ++ Bl) /\ Permutation S2 (map clip_r Bs ++ Br ++ C) /\
      (Bl <> [] -> length S1 <= length S2) /\ (Br <> [] -> length S2 <= length S1 + 1).
  Definition half_refs (S S1 S2 : list sref) : Prop :=
    Permutation (S1 ++ S2) S /\ length S1 <= length S / 2 /\ (Forall (is_before axis pos) S \/ Forall (is_after axis pos) S).
End Exact.

Lemma plane_exact : forall prims begin len room w split w' c, all3 (fun l => length l = len + room) w -> boxes_ok (firstn len (pick w (ss_axis split))) ->
  apply_spatial_split prims begin len w split = Ok (w', c) ->
  c_sorted c = false /\
  let S := firstn len (pick w (ss_axis split)) in
  let A := firstn (c_right_begin c) (pick w' 0) in
  let C := firstn (c_right_end c - c_right_begin c) (skipn (c_right_begin c) (pick w' 0)) in
  clip_refs prims (ss_axis split) (ss_pos split) room S A C \/ half_refs (ss_axis split) (ss_pos split) S A C.
Proof.
  intros prims begin len room w split w' c L Ox E. unfold apply_spatial_split in E. cbv zeta in E.
  pose proof (all3_pick _ _ _ (ss_axis split) L) as La. cbv beta in La.
  destruct (classify _ _ _ _ _ _ _ _ _) as [[[[[w1 le1] rb1] L1] R1]| | |] eqn:E1; cbn [bind] in E; try discriminate.
  cbv zeta. set (x := firstn len (pick w (ss_axis split))) in *. set (D := skipn len (pick w (ss_axis split))) in *.
  assert (pick w (ss_axis split) = x ++ D) as Ew by (unfold x, D; rewrite firstn_skipn; auto).
  assert (length x = len) as Lx by (unfold x; rewrite firstn_length; lia).
  assert (length D = room) as LD by (unfold D; rewrite skipn_length; lia).
  rewrite Ew in E1.
  pose proof (classify_parts (ss_axis split) (ss_pos split) len [] [] x [] D aabb_new aabb_new w1 le1 rb1 L1 R1 Lx) as Cl.
  cbn [app length plus] in Cl. rewrite Lx, app_nil_r in Cl.
  destruct (Cl E1 Ox hull_nil hull_nil (Forall_nil _) (Forall_nil _) (Forall_nil _) (Forall_nil _))
    as (A & B & C & -> & -> & -> & P1 & HA & HC & FA & FC & FB & FN). clear Cl E1.
  assert (length A + length B + length C = len) as Ll by (rewrite <- Lx, <- (Permutation_length P1), !app_length; lia).
  destruct (fallback _ _ _ _ _ _ _) as [[[[le2 rb2] L2] R2]| | |] eqn:E2; cbn [bind] in E; try discriminate.
  destruct (straddle _ _ _ _ _ _ _ _ _ _ _ _) as [[[[[w3 rb3] re3] L3] R3]| | |] eqn:E3; cbn [bind] in E; try discriminate.
  match type of E with Ok (?x, ?y) = Ok _ => assert (w' = x /\ c = y) as (-> & ->) by (split; congruence) end. clear E.
  cbn [c_right_begin c_right_end c_sorted]. split; auto.
  assert (exists A2 B2 C2, A ++ B ++ C = A2 ++ B2 ++ C2 /\ le2 = length A2 /\ rb2 = length A2 + length B2 /\
    ((A2 = A /\ B2 = B /\ C2 = C) \/ (B2 = [] /\ length A2 <= len / 2 /\ (Forall (is_before (ss_axis split) (ss_pos split)) x \/ Forall (is_after (ss_axis split) (ss_pos split)) x))))
    as (A2 & B2 & C2 & Eq & -> & -> & Kind).
  { unfold fallback in E2. cbv zeta in E2. destruct (_ && _) eqn:Eb.
    2:{ exists A, B, C. split; auto. split; [congruence|]. split; [congruence|]. auto. }
    match type of E2 with bind ?x _ = _ => destruct x as [m| | |] eqn:Em; cbn [bind] in E2; try discriminate E2 end.
    apply andb_prop in Eb as (Eb1 & Eb2). apply Nat.eqb_eq in Eb2. destruct B as [|? ?]; [|simpl in Eb2; lia].
    assert (le2 = m /\ rb2 = m) as (-> & ->) by (split; congruence). cbn [app length] in *.
    assert (m <= len / 2 /\ (A = [] \/ C = [])) as (Lm & AC).
    { destruct (Nat.ltb_spec 0 (length A)) as [LA|LA].
      - assert (length C = 0) as LC.
        { apply orb_prop in Eb1 as [Q|Q]; apply Nat.eqb_eq in Q; lia. }
        destruct C; [|discriminate LC]. split; auto.
        destruct (length A / 2 <? begin); [discriminate Em|]. assert (m = length A / 2 - begin) as -> by congruence.
        replace len with (length A) by (simpl in *; lia). lia.
      - destruct A; [|simpl in LA; lia]. split; auto.
        match type of Em with Ok ?x = Ok _ => assert (m = x) as -> by congruence end. cbn [length].
        replace (len - (0 + 0)) with len by lia. lia. }
    assert (m <= len) as Lm' by (pose proof (Nat.div_le_upper_bound len 2 len ltac:(lia) ltac:(lia)); lia).
    exists (firstn m (A ++ C)), [], (skipn m (A ++ C)). cbn [app length]. rewrite firstn_skipn.
    assert (length (firstn m (A ++ C)) = m) as Lf by (rewrite firstn_length, app_length; lia). rewrite Lf.
    split; auto. split; auto. split; [lia|]. right. split; auto. split; auto.
    destruct AC as [-> | ->]; [right|left]; eapply Permutation_Forall; [exact P1| |exact P1|]; cbn [app]; rewrite ?app_nil_r; auto. }
  assert (A ++ B ++ C ++ D = A2 ++ B2 ++ C2 ++ D) as Ed.
  { transitivity ((A ++ B ++ C) ++ D); [rewrite <- !app_assoc; auto|]. rewrite Eq, <- !app_assoc. auto. }
  rewrite Ed in E3.
  assert (length A2 + length B2 + length C2 = len) as Ll2 by (rewrite <- Ll, <- !Nat.add_assoc, <- !app_length, Eq; auto).
  rewrite <- Ll2 in E3 at 1. replace (length A2 + length B2 - length A2) with (length B2) in E3 by lia.
  apply straddle_exact in E3 as (Bs & Bl & Br & A' & C' & D' & P & Lm & Ew3 & -> & -> & PA & PC & Bal); auto.
  rewrite LD in Lm.
  assert (exists X, pick ((if 0 =? ss_axis split then w3 else firstn (length A' + length C') w3 ++ skipn (length A' + length C') (pick w 0)),
    (if 1 =? ss_axis split then w3 else firstn (length A' + length C') w3 ++ skipn (length A' + length C') (pick w 1)),
    (if 2 =? ss_axis split then w3 else firstn (length A' + length C') w3 ++ skipn (length A' + length C') (pick w 2))) 0 = A' ++ C' ++ X) as (X & EX).
  { cbn [pick]. destruct (0 =? ss_axis split); [exists D'; auto|]. eexists. rewrite Ew3, app_assoc. rewrite firstn_app_len by (apply app_length).
    rewrite <- app_assoc. reflexivity. }
  rewrite EX. replace (length A' + length C' - length A') with (length C') by lia.
  rewrite firstn_app_len, skipn_app_len by auto. rewrite firstn_app_len by auto.
  destruct Kind as [(-> & -> & ->)|(-> & Lh & Sd)].
  - left. exists A, Bs, Bl, Br, C.
    split; [rewrite <- P1; apply Permutation_app_head; rewrite <- P, <- !app_assoc; auto|].
    split; auto. split; auto. split; auto. split; [eapply Permutation_Forall; [symmetry; exact P|auto]|].
    rewrite (Permutation_length P). split; auto. split; auto. split; auto.
    destruct Bal as (B1 & B2); [auto|lia|]. split; auto. intro Q. specialize (B2 Q). lia.
  - right. apply Permutation_sym, Permutation_nil in P. apply app_eq_nil in P as (-> & P). apply app_eq_nil in P as (-> & ->).
    cbn [map app] in *. rewrite app_nil_r in PA. split; [rewrite PA, PC, <- Eq; exact P1|]. split; auto.
    rewrite (Permutation_length PA), Lx. auto.
Qed.

(** ** Arrays of the parts a node holds *)
Section Arrays.
  Variable n : nat.
  Definition look {A} (f : sref -> A) (d : A) (S : list sref) (p : nat) : A :=
    match find (fun r => s_prim r =? p) S with Some r => f r | None => d end.
  Definition arr {A} (f : sref -> A) (d : A) (S : list sref) : list A := map (look f d S) (seq 0 n).
  Lemma look_at : forall A (f : sref -> A) d S r, NoDup (pr S) -> In r S -> look f d S (s_prim r) = f r.
  Proof.
    intros A f d S r N I. unfold look. induction S as [|x S IH]; [contradiction|]. cbn [pr map] in N. inversion N as [|? ? Nx N']; subst.
    cbn [find]. destruct I as [->|I]; [rewrite Nat.eqb_refl; auto|]. destruct (Nat.eqb_spec (s_prim x) (s_prim r)) as [Ex|Ex]; [|auto].
    exfalso. apply Nx. rewrite Ex. apply in_map. auto.
  Qed.
  Lemma arr_at : forall A (f : sref -> A) d S r, NoDup (pr S) -> In r S -> s_prim r < n -> nth (s_prim r) (arr f d S) d = f r.
  Proof.
    intros A f d S r N I L. unfold arr. rewrite (nth_indep _ d (look f d S 0)) by (rewrite map_length, seq_length; auto).
    rewrite map_nth, seq_nth by auto. cbn [plus]. apply look_at; auto.
  Qed.
  Lemma arr_orig : forall S, NoDup (pr S) -> small n S -> Forall (orig (arr s_box aabb_new S) (arr s_center (vsplat f0) S)) S.
  Proof.
    intros S N L. unfold small in L. rewrite Forall_forall in *. intros r I. split; apply arr_at; auto.
  Qed.
  Lemma arr_all : forall A (P : A -> Prop) f d S, P d -> Forall (fun r => P (f r)) S -> Forall P (arr f d S).
  Proof.
    intros A P f d S Pd F. unfold arr. apply Forall_forall. intros x I. apply in_map_iff in I as (p & <- & _).
    unfold look. destruct (find _ S) as [r|] eqn:E; auto. apply find_some in E as (I & _). rewrite Forall_forall in F. auto.
  Qed.
End Arrays.

(** ** Finite boxes have centres *)
Definition fin_box (b : aabb) : Prop := forall a, ffinite (vget (bmin b) a) /\ ffinite (vget (bmax b) a).
Lemma fin_vok : forall v, (forall a, ffinite (vget v a)) -> vok v.
Proof.
  intros v F. pose proof (F 0) as F0. pose proof (F 1) as F1. pose proof (F 2) as F2. destruct v as [x y z]. cbn [vget vx vy vz] in *. unfold ffinite in *.
  repeat split; [destruct x|destruct y|destruct z]; auto; discriminate.
Qed.
Lemma fin_ok : forall b, fin_box b -> box_ok b.
Proof. intros b F. split; apply fin_vok; intro a; apply F. Qed.
Lemma fmax_fin : forall x y : f32, fle x f1e34 = true -> ffinite y -> ffinite (fmax x y).
Proof.
  intros x y L F. unfold ffinite in *. destruct (fle_notnan _ _ L) as (Nx & _). unfold fmax.
  change (fnan x = false) in Nx. rewrite Nx. destruct (fnan y) eqn:Ny; [destruct y; discriminate|].
  destruct (flt x y) eqn:E; auto. destruct x as [s|s| |s m e H]; auto. destruct s; [|discriminate L].
  destruct y as [s'|s'| |s' m' e' H']; try discriminate F; discriminate E.
Qed.
Lemma fmin_fin : forall x y : f32, fle (fneg f1e34) x = true -> ffinite y -> ffinite (fmin x y).
Proof.
  intros x y L F. unfold ffinite in *. destruct (fle_notnan _ _ L) as (_ & Nx). unfold fmin.
  change (fnan x = false) in Nx. rewrite Nx. destruct (fnan y) eqn:Ny; [destruct y; discriminate|].
  destruct (flt y x) eqn:E; auto. destruct x as [s|s| |s m e H]; auto. destruct s; [discriminate L|].
  destruct y as [s'|s'| |s' m' e' H']; try discriminate F; discriminate E.
Qed.
Lemma fadd_fin_ok : forall x y : f32, ffinite x -> ffinite y -> fnan (fadd x y) = false.
Proof. intros x y Fx Fy. apply (proj1 (fr_fadd x y Fx Fy)). Qed.
Lemma half_ok : forall x : f32, fnan x = false -> fnan (fmul x fhalf) = false.
Proof.
  intros x N. destruct x as [s|s| |s m e H]; try discriminate N; try reflexivity.
  apply (proj1 (fr_fmul (B754_finite s m e H) fhalf eq_refl eq_refl)).
Qed.
Lemma fin_center : forall b, fin_box b -> vok (center b).
Proof.
  intros b F. unfold center. pose proof (F 0) as (A0 & B0). pose proof (F 1) as (A1 & B1). pose proof (F 2) as (A2 & B2). cbn [vget] in *.
  unfold vscale, vadd, vmap2. repeat split; cbn [vx vy vz]; apply half_ok, fadd_fin_ok; auto.
Qed.
Lemma shrink_fin : forall x b, box_in aabb_new x -> fin_box b -> fin_box (shrink x b).
Proof.
  intros x b ((I1 & I2 & I3) & (J1 & J2 & J3)) F a. cbn [bmin bmax aabb_new vsplat vx vy vz] in *.
  destruct (F a) as (Fa & Fb). unfold shrink. cbn [bmin bmax]. unfold vmax, vmin.
  destruct a as [|[|a]]; cbn [vget vmap2 vx vy vz] in *; (split; [apply fmax_fin; auto|apply fmin_fin; auto]).
Qed.
Definition from_new (lr : aabb * aabb) : Prop :=
  (box_ok (fst lr) /\ box_ok (snd lr)) /\ box_in aabb_new (fst lr) /\ box_in aabb_new (snd lr).
Lemma from_new_mono : forall lr lr' : aabb * aabb,
  (box_in (fst lr) (fst lr') /\ box_ok (fst lr')) /\ (box_in (snd lr) (snd lr') /\ box_ok (snd lr')) -> from_new lr -> from_new lr'.
Proof.
  intros lr lr' ((X1 & X2) & (Y1 & Y2)) (_ & C & D). split; [split; auto|]. split; [exact (box_in_trans _ _ _ C X1)|exact (box_in_trans _ _ _ D Y1)].
Qed.
Lemma tri_split_new : forall tr axis position, box_in aabb_new (fst (tri_split tr axis position)) /\ box_in aabb_new (snd (tri_split tr axis position)).
Proof.
  intros tr axis position. unfold tri_split. cbn zeta.
  assert (forall q p lr, from_new lr -> from_new (grow_if q p lr)) as G.
  { intros q p lr N. eapply from_new_mono; [|exact N]. destruct N as ((A & B) & _). exact (grow_if_mono q p lr A B). }
  assert (forall q p lr, from_new lr -> from_new (split_if q p lr)) as H.
  { intros q p lr N. eapply from_new_mono; [|exact N]. destruct N as ((A & B) & _). exact (split_if_mono q p lr A B). }
  match goal with |- box_in _ (fst ?x) /\ _ => assert (from_new x) as (_ & N) end; [|exact N].
  apply H, H, H, G, G, G. split; split; try apply aabb_new_ok; apply box_in_refl, aabb_new_ok.
Qed.
Lemma clip_fin : forall prims axis pos r, fin_box (s_box r) ->
  fin_box (s_box (clip_l prims axis pos r)) /\ fin_box (s_box (clip_r prims axis pos r)).
Proof.
  intros prims axis pos r F. destruct (tri_split_new (tri_at prims (s_prim r)) axis pos) as (A & B).
  unfold clip_l, clip_r, piece. cbn [s_box]. split; apply shrink_fin; auto.
Qed.

Lemma fmin_le_l : forall a b : f32, fnan a = false -> fnan b = false -> fle (fmin a b) a = true.
Proof.
  intros a b Na Nb. unfold fmin. rewrite Na, Nb. destruct (flt b a) eqn:E; [apply flt_fle; auto|apply fle_refl; auto].
Qed.
Lemma orig_in : forall boxes mids S r, Forall (orig boxes mids) S -> In r S ->
  nth (s_prim r) boxes aabb_new = s_box r /\ nth (s_prim r) mids (vsplat f0) = s_center r.
Proof. intros boxes mids S r F I. rewrite Forall_forall in F. exact (F r I). Qed.

Lemma hull_perm_in : forall boxes, Forall box_ok boxes -> forall l l', Permutation l l' ->
  box_in (SpecBinned.hull boxes l) (SpecBinned.hull boxes l') /\ box_in (SpecBinned.hull boxes l') (SpecBinned.hull boxes l).
Proof.
  intros boxes Hok l l' P. destruct (BinnedCost.hull_tight boxes Hok l) as (A1 & A2 & A3 & A4).
  destruct (BinnedCost.hull_tight boxes Hok l') as (B1 & B2 & B3 & B4).
  split; [apply A4|apply B4]; auto; intros p I; [apply B3|apply A3]; [exact (Permutation_in _ P I)|exact (Permutation_in _ (Permutation_sym P) I)].
Qed.

(** ** What [plan_task] chooses *)
Section Plan.
  Variable sorter : nat -> list sref -> list sref.
  Hypothesis sorter_perm : forall a l, Permutation (sorter a l) l.
  Hypothesis sorter_sorts : sorts sorter.
  Variables (prims : list tri) (lsize : nat) (th : f32) (n : nat).
  Notation plan := (plan_task sorter prims lsize th).

  Definition fin_refs (S : list sref) : Prop := Forall (fun r => fin_box (s_box r)) S.
  Definition fits (S : list sref) (boxes : list aabb) (mids : list vec3) : Prop :=
    Forall box_ok boxes /\ Forall vok mids /\ Forall (orig boxes mids) S /\ fin_refs S /\ small n S /\ NoDup (pr S).

  Lemma fin_boxes : forall S, fin_refs S -> boxes_ok S.
  Proof. intros S F. unfold boxes_ok, fin_refs in *. rewrite Forall_forall in *. intros r I. apply fin_ok. auto. Qed.
  Lemma fits_part : forall S S1 S2 boxes mids, Permutation (S1 ++ S2) S -> fits S boxes mids -> fits S1 boxes mids /\ fits S2 boxes mids.
  Proof.
    intros S S1 S2 boxes mids P (A & B & C & D & E & F). unfold fin_refs, small in *.
    apply (Permutation_Forall (Permutation_sym P)) in C. apply (Permutation_Forall (Permutation_sym P)) in D.
    apply (Permutation_Forall (Permutation_sym P)) in E. apply Forall_app in C as (C1 & C2). apply Forall_app in D as (D1 & D2). apply Forall_app in E as (E1 & E2).
    assert (NoDup (pr S1 ++ pr S2)) as N by (rewrite <- pr_app; eapply Permutation_NoDup; [apply Permutation_map; symmetry; exact P|exact F]).
    split; (split; [auto|split; [auto|split; [auto|split; [auto|split; [auto|]]]]]).
    - eapply nodup_l; eauto.
    - apply (Permutation_NoDup (Permutation_app_comm _ _)) in N. eapply nodup_l; eauto.
  Qed.
  Lemma fits_clip : forall S, fin_refs S -> Forall (fun r => vok (s_center r)) S -> small n S -> NoDup (pr S) ->
    fits S (arr n s_box aabb_new S) (arr n s_center (vsplat f0) S).
  Proof.
    intros S F V L N. split; [apply arr_all; [apply aabb_new_ok|apply fin_boxes; auto]|].
    split; [apply arr_all; [repeat split|auto]|]. split; [apply arr_orig; auto|]. auto.
  Qed.
  Lemma fits_mids : forall S boxes mids, fits S boxes mids -> Forall (fun r => vok (s_center r)) S.
  Proof.
    intros S boxes mids (_ & V & O & _). rewrite Forall_forall in *. intros r I. destruct (O r I) as (_ & <-).
    destruct (Nat.lt_ge_cases (s_prim r) (length mids)) as [L|L]; [apply V, nth_In; auto|]. rewrite nth_overflow by auto. repeat split.
  Qed.

  (** Unclipped and clipped references, as the specification says it. *)
  Lemma unclipped_same : forall S S1 S2 boxes mids room, Permutation (S1 ++ S2) S ->
    unclipped (Hold (pr S) boxes mids room) (Hold (pr S1) boxes mids 0) (Hold (pr S2) boxes mids room).
  Proof.
    intros S S1 S2 boxes mids room P. unfold unclipped. cbn [h_prims h_room]. split; [rewrite <- pr_app; apply Permutation_map; auto|].
    split; auto. split; auto. split; apply Forall_forall; intros p _; split; reflexivity.
  Qed.
  Lemma pr_forall : forall (P : nat -> Prop) S, (forall r, In r S -> P (s_prim r)) -> Forall P (pr S).
  Proof. intros P S H. apply Forall_forall. intros p I. apply in_map_iff in I as (r & <- & I). auto. Qed.
  Lemma clipped_refs : forall axis pos S S1 S2 boxes mids boxes1 mids1 boxes2 mids2 room,
    fits S boxes mids -> fits S1 boxes1 mids1 -> fits S2 boxes2 mids2 -> clip_refs prims axis pos room S S1 S2 ->
    clipped prims axis pos (Hold (pr S) boxes mids room) (Hold (pr S1) boxes1 mids1 0)
      (Hold (pr S2) boxes2 mids2 (room - (length S1 + length S2 - length S))).
  Proof.
    intros axis pos S S1 S2 boxes mids boxes1 mids1 boxes2 mids2 room (_ & _ & O & _) (_ & _ & O1 & _) (_ & _ & O2 & _)
      (A & Bs & Bl & Br & C & P & FA & FC & FN & FB & Lm & P1 & P2 & B1 & B2).
    assert (forall r, In r (A ++ Bs ++ Bl ++ Br ++ C) -> nth (s_prim r) boxes aabb_new = s_box r /\ nth (s_prim r) mids (vsplat f0) = s_center r) as OS.
    { intros r I. apply (orig_in _ _ S); auto. apply (Permutation_in _ P). auto. }
    assert (forall r, In r (A ++ map (clip_l prims axis pos) Bs ++ Bl) -> nth (s_prim r) boxes1 aabb_new = s_box r /\ nth (s_prim r) mids1 (vsplat f0) = s_center r) as OS1.
    { intros r I. apply (orig_in _ _ S1); auto. apply (Permutation_in _ (Permutation_sym P1)). auto. }
    assert (forall r, In r (map (clip_r prims axis pos) Bs ++ Br ++ C) -> nth (s_prim r) boxes2 aabb_new = s_box r /\ nth (s_prim r) mids2 (vsplat f0) = s_center r) as OS2.
    { intros r I. apply (orig_in _ _ S2); auto. apply (Permutation_in _ (Permutation_sym P2)). auto. }
    unfold clipped. cbn [h_prims h_room]. cbv zeta. unfold part_box, part_mid. cbn [h_boxes h_mids].
    exists (pr A), (pr Bs), (pr Bl), (pr Br), (pr C).
    rewrite <- !pr_app. rewrite Forall_forall in FA, FC, FN, FB.
    assert (pr (map (clip_l prims axis pos) Bs) = pr Bs) as El by (unfold pr; rewrite map_map; reflexivity).
    assert (pr (map (clip_r prims axis pos) Bs) = pr Bs) as Er by (unfold pr; rewrite map_map; reflexivity).
    assert (forall l, length (pr l) = length l) as Lp by (intro l; unfold pr; apply map_length).
    rewrite !Lp.
    split; [apply Permutation_map; exact P|].
    split; [apply pr_forall; intros r I; rewrite (proj1 (OS r ltac:(rewrite !in_app_iff; auto))); apply FA; auto|].
    split; [apply pr_forall; intros r I; rewrite (proj1 (OS r ltac:(rewrite !in_app_iff; auto 8))); split; [apply FN|apply FC]; auto|].
    split; [apply pr_forall; intros r I; rewrite (proj1 (OS r ltac:(rewrite !in_app_iff in *; tauto))); apply FB; auto|].
    split; [exact Lm|].
    split; [apply (Permutation_map s_prim) in P1; fold (pr S1) in P1; rewrite P1; fold (pr (A ++ map (clip_l prims axis pos) Bs ++ Bl)); rewrite !pr_app, El; auto|].
    split; [|split; [|split; [|split; [auto|split]]]].
    { apply (Permutation_map s_prim) in P2. fold (pr S2) in P2. rewrite P2. fold (pr (map (clip_r prims axis pos) Bs ++ Br ++ C)).
      rewrite !pr_app, Er. auto. }
    { intro Q. apply B1. intro Z. apply Q. rewrite Z. reflexivity. }
    { intro Q. apply B2. intro Z. apply Q. rewrite Z. reflexivity. }
    { apply Permutation_length in P. apply Permutation_length in P1. apply Permutation_length in P2.
      rewrite !app_length in P. rewrite !app_length, !map_length in P1, P2. lia. }
    split; [apply pr_forall; intros r I; unfold kept, part_box, part_mid; cbn [h_boxes h_mids]; destruct (OS r) as (-> & ->); [rewrite !in_app_iff in *; tauto|];
      destruct (OS1 r) as (-> & ->); [rewrite !in_app_iff in *; tauto|]; split; reflexivity|].
    split; [apply pr_forall; intros r I; unfold kept, part_box, part_mid; cbn [h_boxes h_mids]; destruct (OS r) as (-> & ->); [rewrite !in_app_iff in *; tauto|];
      destruct (OS2 r) as (-> & ->); [rewrite !in_app_iff in *; tauto|]; split; reflexivity|].
    split; apply pr_forall; intros r I; rewrite (proj1 (OS r ltac:(rewrite !in_app_iff; auto))); unfold only, part_box, part_mid; cbn [h_boxes h_mids].
    - destruct (OS1 (clip_l prims axis pos r)) as (A1 & A2); [rewrite !in_app_iff; right; left; apply in_map; auto|]. split; [exact A1|exact A2].
    - destruct (OS2 (clip_r prims axis pos r)) as (A1 & A2); [rewrite !in_app_iff; left; apply in_map; auto|]. split; [exact A1|exact A2].
  Qed.

  Lemma plan_divides : forall boxes mids S t bounds w w' d, w_begin t <= w_end t ->
    all3 (fun l => w_size t <= length l) w -> all3 (fun l => length l = w_split_end t - w_begin t) w ->
    same3 S (w_size t) w -> fits S boxes mids -> (w_sorted t = true -> sorted3 (w_size t) w) -> plan t bounds w = Ok (w', d) ->
    let h := Hold (pr S) boxes mids (w_split_end t - w_end t) in
    match d with
    | Leaf => stays prims lsize th (w_depth t) h bounds
    | Divide c => w_depth t < 64 /\ forall S1 S2,
        same3 S1 (c_right_begin c) w' -> same3 S2 (c_right_end c - c_right_begin c) (map3 (skipn (c_right_begin c)) w') ->
        small n S1 -> small n S2 -> length S1 = c_right_begin c -> length S2 = c_right_end c - c_right_begin c -> c_right_begin c <= c_right_end c ->
        exists boxes1 mids1 boxes2 mids2, fits S1 boxes1 mids1 /\ fits S2 boxes2 mids2 /\
          splits prims lsize th h bounds (Hold (pr S1) boxes1 mids1 0) (Hold (pr S2) boxes2 mids2 (w_split_end t - (w_begin t + c_right_end c))) /\
          (c_sorted c = true -> sorted3 (c_right_begin c) w' /\ sorted3 (c_right_end c - c_right_begin c) (map3 (skipn (c_right_begin c)) w'))
    end.
  Proof.
    intros boxes mids S t bounds w w' d Lbe L LW Sm Ft Hs E. cbv zeta. set (room := w_split_end t - w_end t). unfold plan_task in E.
    pose proof Ft as (Hok & Hcen & Or & Fin & Sml & Ndp). pose proof (fin_boxes S Fin) as Ob.
    pose proof (same3_len S _ _ 0 L Sm) as LS.
    assert (length (pr S) = w_size t) as LpS by (unfold pr; rewrite map_length; auto).
    destruct (Nat.leb_spec (w_size t) 1) as [Q1|Q1]; cbn [orb] in E.
    { assert (d = Leaf) as -> by congruence. left. cbn [h_prims]. lia. }
    change MAX_DEPTH with 64 in E. destruct (Nat.leb_spec 64 (w_depth t)) as [Q2|Q2].
    { assert (d = Leaf) as -> by congruence. right; left. exact Q2. }
    pose proof (sort_sorted sorter sorter_perm sorter_sorts boxes mids Hcen S t w L Sm Or Hs) as So. clear Hs.
    assert (same3 S (w_size t) (if w_sorted t then w else sort_refs sorter (w_size t) w)) as Sm1
      by (destruct (w_sorted t); auto; apply sort_same; auto).
    assert (all3 (fun l => length l = w_split_end t - w_begin t) (if w_sorted t then w else sort_refs sorter (w_size t) w)) as LW1.
    { destruct (w_sorted t); auto. destruct LW as (L0 & L1 & L2).
      assert (forall a l, length l = w_split_end t - w_begin t -> length (sorter a (firstn (w_size t) l) ++ skipn (w_size t) l) = w_split_end t - w_begin t) as G.
      { intros a l Ll. rewrite app_length, (Permutation_length (sorter_perm _ _)), <- app_length, firstn_skipn. auto. }
      split; [exact (G 0 _ L0)|split; [exact (G 1 _ L1)|exact (G 2 _ L2)]]. }
    assert (w_size t <= w_split_end t - w_begin t) as Lwin by (destruct L as (L & _), LW as (LW & _); lia).
    assert (w_split_end t - w_begin t = w_size t + room) as Lroom by (unfold room, w_size in *; lia).
    clear L LW Sm. revert E So Sm1 LW1. set (w1 := if w_sorted t then w else sort_refs sorter (w_size t) w).
    clearbody w1. intros E So Sm1 LW1. cbv zeta in E.
    assert (all3 (fun l => w_size t <= length l) w1) as L1 by (eapply all3_imp; [|exact LW1]; intros l ->; auto).
    pose proof Sm1 as (Nd & Pm).
    set (X := map3 (firstn (w_size t)) w1) in *.
    assert (all3 (fun l => length l = w_size t) X) as X1.
    { eapply all3_map; [|exact L1]. intros l Ll. cbv beta in *. rewrite firstn_length. lia. }
    assert (all3 (Forall (orig boxes mids)) X) as X2.
    { eapply all3_map; [|exact Pm]. intros l Pl. eapply Permutation_Forall; [symmetry; exact Pl|auto]. }
    assert (all3 boxes_ok X) as X3.
    { eapply all3_map; [|exact Pm]. intros l Pl. eapply boxes_ok_perm; [symmetry; exact Pl|auto]. }
    pose proof (find_best boxes mids Hok X (w_size t) X1 X2 X3) as FB.
    pose proof (find_object_good X X3) as FG.
    set (os := find_object_split X) in *. cbv zeta in FB. destruct FB as (Fo & Fmx & Flo & Fno).
    clearbody os.
    assert (forall a, Permutation (pr S) (pr (pick X a))) as PX.
    { intro a. unfold X. rewrite pick_map3. symmetry. apply Permutation_map. exact (all3_pick _ _ _ a Pm). }
    assert (forall axis l r, axis < 3 -> cut mids (pr S) axis l r -> flt (pair_cost boxes l r) (o_cost os) = false) as NoCut.
    { intros axis l r La C.
      assert (NoDup (pr (pick X axis))) as NX by (eapply Permutation_NoDup; [apply PX|auto]).
      assert (by_center axis (pick X axis)) as SX by (unfold X; rewrite pick_map3; apply So; auto).
      destruct (cut_prefix boxes mids axis (pick X axis) (pr S) l r (all3_pick _ _ _ axis X2) SX NX (PX axis) C) as (j & Lj & P1 & P2).
      pose proof (all3_pick _ _ _ axis X1) as Ll. cbv beta in Ll. rewrite Ll in Lj.
      specialize (Flo axis j La Lj). unfold pc in Flo.
      rewrite <- (BinnedCost.sim_flt _ _ _ _ (pair_perm boxes Hok _ _ _ _ P1 P2) (BinnedCost.sim_refl _)). exact Flo. }
    destruct (fle_notnan _ _ Fmx) as (Nos & _). change (fnan (o_cost os) = false) in Nos.
    assert (leaf_cost bounds (pr S) = fmul (half_area bounds) (fsub (fn (w_size t)) f1)) as ELc.
    { unfold leaf_cost. rewrite LpS. auto. }
    rewrite <- ELc in E.
    (* the cut that was found *)
    assert (forall j, o_index os = Some j -> o_axis os < 3 /\ 0 < j < w_size t /\
      let l := pr (firstn j (pick X (o_axis os))) in let r := pr (skipn j (pick X (o_axis os))) in
      Permutation (l ++ r) (pr S) /\ in_order mids (o_axis os) l r /\ sim (o_cost os) (pair_cost boxes l r) /\
      fgt (area (shrink (SpecBinned.hull boxes l) (SpecBinned.hull boxes r))) th = fgt (area (shrink (o_left os) (o_right os))) th) as CutJ.
    { intros j Ej. destruct (Fo j Ej) as (La & Lj & Sc). destruct (FG j Ej) as (Hl & Hr). split; auto. split; auto. cbv zeta.
      pose proof (all3_pick _ _ _ (o_axis os) X2) as Xo. cbv beta in Xo.
      split; [rewrite <- pr_app, firstn_skipn; symmetry; apply PX|]. split; [|split; [exact Sc|]].
      - eapply order_split; [exact Xo| |reflexivity|reflexivity]. unfold X; rewrite pick_map3; apply So; auto.
      - assert (Forall (orig boxes mids) (firstn j (pick X (o_axis os))) /\ Forall (orig boxes mids) (skipn j (pick X (o_axis os)))) as (Xa & Xb).
        { rewrite <- (firstn_skipn j (pick X (o_axis os))) in Xo. apply Forall_app in Xo. auto. }
        destruct (hull_sim boxes mids Hok _ _ Xa Hl) as (I1 & I2). destruct (hull_sim boxes mids Hok _ _ Xb Hr) as (I3 & I4).
        unfold fgt. apply BinnedCost.sim_flt; [apply BinnedCost.sim_refl|]. apply area_sim; apply shrink_mono; auto. }
    assert (forall l r, Permutation (l ++ r) (pr S) -> sim (o_cost os) (pair_cost boxes l r) -> cheapest boxes mids l r) as Chp.
    { intros l r Pj Sc axis l' r' L3 Cc. rewrite <- (BinnedCost.sim_flt _ _ _ _ (BinnedCost.sim_refl _) Sc). eapply NoCut; eauto.
      eapply cut_perm; [exact Pj|exact Cc]. }
    destruct (if _ && _ then _ else _) as [ss| | |] eqn:Ess; cbn [bind] in E; try discriminate E.
    (* the plane that was found *)
    assert (fnan (ss_cost ss) = false) as Ns.
    { destruct (fgt _ th && _); [|assert (ss = ssplit_new) as -> by congruence; reflexivity]. apply find_low in Ess. apply Ess. }
    assert (room = 0 \/ fgt (area (shrink (o_left os) (o_right os))) th = false \/
      forall limit, fle limit (ss_cost ss) = true -> no_plane_below prims limit (Hold (pr S) boxes mids room) bounds) as Pln.
    { destruct (fgt _ th) eqn:Eo in Ess; [|right; left; exact Eo]. cbn [andb] in Ess. fold room in Ess.
      destruct (Nat.ltb_spec 0 room) as [Lr|Lr]; [|left; lia]. right; right. intros limit Le.
      destruct (find_low _ _ _ _ Ess) as (_ & Lo). exists (pr (pick X 0)). cbn [h_prims h_boxes]. split; [symmetry; apply PX|].
      intros a k La Ik. eapply BinnedCost.flt_false_le; [|exact Le].
      assert (map (whole_ref boxes prims) (pr (pick X 0)) = map (item_of prims) (firstn (w_size t) (pick w1 0))) as ->; [|apply Lo; auto].
      unfold pr. rewrite map_map. unfold X at 1. rewrite pick_map3. apply map_ext_in. intros r Ir.
      pose proof (all3_pick _ _ _ 0 X2) as X0. cbv beta in X0. unfold X in X0. rewrite pick_map3, Forall_forall in X0.
      destruct (X0 r Ir) as (O1 & _). unfold whole_ref, item_of. rewrite O1. reflexivity. }
    assert (forall limit, fle limit (ss_cost ss) = true -> no_better_plane prims th limit (Hold (pr S) boxes mids room) bounds) as NBP.
    { intros limit Le. destruct Pln as [Pz|[Po|Pp]]; [left; exact Pz| |right; right; apply Pp; auto]. right; left. unfold separate. cbn [h_prims h_boxes h_mids].
      destruct (o_index os) as [j|] eqn:Ej.
      - right. destruct (CutJ j eq_refl) as (La & Lj & Pj & Io & Sc & Ov). eexists _, _, _. split; [exact La|]. split; [exact Pj|]. split; [exact Io|].
        split; [apply Chp; auto|]. rewrite Ov. exact Po.
      - left. intros axis l r L3 Cc. rewrite <- (Fno eq_refl). apply (NoCut axis); auto. }
    assert (fnan (fmin (ss_cost ss) (o_cost os)) = false) as Nm.
    { unfold fmin. rewrite Ns, Nos. destruct (flt (o_cost os) (ss_cost ss)); auto. }
    destruct (fge _ _) eqn:Eg.
    { unfold fge in Eg. change (fle (leaf_cost bounds (pr S)) (fmin (ss_cost ss) (o_cost os)) = true) in Eg.
      assert (no_cut_below boxes mids (leaf_cost bounds (pr S)) (pr S)) as NB.
      { intros axis l r La C. eapply BinnedCost.flt_false_le; [eapply NoCut; eauto|].
        eapply fle_trans; [exact Eg|]. apply fmin_le_r; auto. }
      assert (fle (leaf_cost bounds (pr S)) (ss_cost ss) = true) as Lss by (eapply fle_trans; [exact Eg|]; apply fmin_le_l; auto).
      destruct (Nat.ltb_spec lsize (w_size t)) as [Q3|Q3].
      2:{ assert (d = Leaf) as -> by congruence. right; right; left. cbn [h_prims h_boxes h_mids]. split; [lia|]. split; auto. }
      destruct (apply_object_split _ _ _ _ _ _) as [[w2 c]| | |] eqn:E2; cbn [bind] in E; try discriminate E.
      assert (w2 = w' /\ d = Divide c) as (-> & ->) by (split; congruence). clear E.
      destruct (object_windows S _ _ _ _ _ _ _ _ (longest_lt bounds) L1 Sm1 So E2) as (Ec & Li & W1 & W2 & So1 & So2).
      subst c. cbn [c_right_begin c_right_end c_sorted]. split; auto. intros S1 S2 (_ & A1) (_ & A2) _ _ _ _ _.
      pose proof (all3_pick _ _ _ (longest_axis bounds) A1) as B1. cbv beta in B1. rewrite W1 in B1.
      pose proof (all3_pick _ _ _ (longest_axis bounds) A2) as B2. cbv beta in B2. rewrite pick_map3, W2 in B2.
      assert (Permutation (S1 ++ S2) S) as P12.
      { rewrite <- B1, <- B2, firstn_skipn. exact (all3_pick _ _ _ (longest_axis bounds) Pm). }
      destruct (fits_part S S1 S2 boxes mids P12 Ft) as (F1 & F2).
      exists boxes, mids, boxes, mids. split; auto. split; auto. split; [|auto].
      replace (w_split_end t - (w_begin t + w_size t)) with room by (unfold room, w_size in *; lia).
      right; left. cbn [h_prims h_boxes h_mids]. split; [apply unclipped_same; auto|]. split; [|apply NBP; auto].
      assert (Permutation (pr S1 ++ pr S2) (pr S)) as P12' by (rewrite <- pr_app; apply Permutation_map; auto).
      unfold by_half. rewrite (Permutation_length P12'), LpS. rewrite <- (leaf_cost_perm bounds (pr S) (pr S1 ++ pr S2)) by (symmetry; auto).
      split; [eapply below_perm; [symmetry; exact P12'|exact NB]|]. split; [auto|]. split.
      - unfold pr. rewrite map_length. rewrite <- (Permutation_length B1). rewrite firstn_length, firstn_length.
        pose proof (all3_pick _ _ _ (longest_axis bounds) L1) as Ll. cbv beta in Ll. lia.
      - eapply (order_split boxes mids (longest_axis bounds) (firstn (w_size t) (pick w1 (longest_axis bounds))) (w_size t / 2)).
        + pose proof (all3_pick _ _ _ (longest_axis bounds) X2) as Xa. cbv beta in Xa. unfold X in Xa. rewrite pick_map3 in Xa. exact Xa.
        + apply So, longest_lt.
        + symmetry; exact B1.
        + symmetry; exact B2. }
    destruct (flt _ (o_cost os)) eqn:El.
    { destruct (apply_spatial_split _ _ _ _ _) as [[w2 c]| | |] eqn:E2; cbn [bind] in E; try discriminate E.
      assert (w2 = w' /\ d = Divide c) as (-> & ->) by (split; congruence). clear E.
      split; auto. intros S1 S2 Sa1 Sa2 Sm1' Sm2' Le1 Le2 Le3.
      destruct (fgt _ th && _) eqn:Eo in Ess.
      2:{ exfalso. assert (ss = ssplit_new) as -> by congruence. cbn [ss_cost ssplit_new] in El.
          revert El. assert (flt (fmin fMAX (o_cost os)) (o_cost os) = false) as ->; [|discriminate].
          unfold fmin. replace (fnan fMAX) with false by reflexivity. rewrite Nos. destruct (flt (o_cost os) fMAX) eqn:F; [apply flt_irrefl|].
          apply (flt_false fMAX (o_cost os) eq_refl Nos). apply (fle_spec (o_cost os) fMAX Nos eq_refl). auto. }
      apply andb_prop in Eo as (Eo1 & Eo2). apply Nat.ltb_lt in Eo2. fold room in Eo2.
      pose proof (plane_axis _ _ _ _ Ess) as La3.
      assert (boxes_ok (firstn (w_size t) (pick w1 (ss_axis ss)))) as Oax.
      { pose proof (all3_pick _ _ _ (ss_axis ss) X3) as Xa; cbv beta in Xa; unfold X in Xa; rewrite pick_map3 in Xa; exact Xa. }
      assert (all3 (fun l => length l = w_size t + room) w1) as LW2 by (eapply all3_imp; [|exact LW1]; intros l ->; auto).
      destruct (plane_exact _ _ _ _ _ _ _ _ LW2 Oax E2) as (Cs & Hp). cbv zeta in Hp.
      assert (Permutation (firstn (w_size t) (pick w1 (ss_axis ss))) S) as Pax by exact (all3_pick _ _ _ (ss_axis ss) Pm).
      pose proof Sa1 as (Nd1 & A1 & _). pose proof Sa2 as (Nd2 & A2 & _). rewrite pick_map3 in A2.
      assert (clip_refs prims (ss_axis ss) (ss_pos ss) room S S1 S2 \/ half_refs (ss_axis ss) (ss_pos ss) S S1 S2) as Hp'.
      { destruct Hp as [(A & Bs & Bl & Br & C & Q0 & Q3 & Q4 & Q5 & Q6 & Q7 & Q8 & Q9 & Q10 & Q11)|(Q0 & Q3 & Q4)].
        - left. exists A, Bs, Bl, Br, C. split; [rewrite Q0; exact Pax|]. repeat (split; [solve [auto]|]).
          split; [rewrite <- A1; exact Q8|]. split; [rewrite <- A2; exact Q9|].
          rewrite <- (Permutation_length A1), <- (Permutation_length A2). split; [exact Q10|exact Q11].
        - right. split; [rewrite <- A1, <- A2, Q0; exact Pax|]. rewrite <- (Permutation_length A1), <- (Permutation_length Pax). split; auto.
          destruct Q4 as [Q4|Q4]; [left|right]; eapply Permutation_Forall; [exact Pax|exact Q4|exact Pax|exact Q4]. }
      clear Hp.
      assert (overlapping boxes mids th (pr S)) as Ovl.
      { destruct (o_index os) as [j|] eqn:Ej.
        - right. destruct (CutJ j eq_refl) as (La & Lj & Pj & Io & Sc & Ov). eexists _, _, _. split; [exact La|]. split; [exact Pj|]. split; [exact Io|].
          split; [apply Chp; auto|]. rewrite Ov. exact Eo1.
        - left. intros axis l r L3 Cc. rewrite <- (Fno eq_refl). apply (NoCut axis); auto. }
      assert (ss_cost ss = fmin (ss_cost ss) (o_cost os) /\ flt (ss_cost ss) (o_cost os) = true) as (Em & Lss).
      { revert El. unfold fmin. rewrite Ns, Nos.
        destruct (flt (o_cost os) (ss_cost ss)); [rewrite flt_irrefl; discriminate|]. auto. }
      assert (best_plane boxes prims mids bounds (pr S) (ss_axis ss) (ss_pos ss)) as Bp.
      { exists (pr (pick X 0)), (ss_cost ss). split; [symmetry; apply PX|]. split; [|split].
        - destruct (find_plane _ _ _ _ Ess) as [->|Cp].
          + exfalso. cbn [ss_cost ssplit_new] in Lss. apply (flt_spec fMAX (o_cost os) eq_refl Nos) in Lss.
            apply (fle_spec (o_cost os) fMAX Nos eq_refl) in Fmx. lra.
          + assert (map (whole_ref boxes prims) (pr (pick X 0)) = map (item_of prims) (firstn (w_size t) (pick w1 0))) as ->; [|exact Cp].
            unfold pr. rewrite map_map. unfold X at 1. rewrite pick_map3. apply map_ext_in. intros r Ir.
            pose proof (all3_pick _ _ _ 0 X2) as X0. cbv beta in X0. unfold X in X0. rewrite pick_map3, Forall_forall in X0.
            destruct (X0 r Ir) as (O1 & _). unfold whole_ref, item_of. rewrite O1. reflexivity.
        - rewrite Em. exact Eg.
        - intros a l r L3 Cc. specialize (NoCut _ _ _ L3 Cc).
          destruct (fle (pair_cost boxes l r) (ss_cost ss)) eqn:F; auto. exfalso.
          destruct (fle_notnan _ _ F) as (Np & _). apply (fle_spec _ _ Np Ns) in F.
          apply (flt_false _ _ Np Nos) in NoCut. apply (flt_spec _ _ Ns Nos) in Lss. lra. }
      destruct Hp' as [Cr|Hr].
      - pose proof Cr as (A & Bs & Bl & Br & C & Q0 & _ & _ & _ & _ & Q7 & Q8 & Q9 & _).
        assert (forall r, In r (A ++ Bs ++ Bl ++ Br ++ C) -> fin_box (s_box r) /\ vok (s_center r)) as FS.
        { intros r I. apply (Permutation_in _ Q0) in I. pose proof (fits_mids _ _ _ Ft) as Fm. unfold fin_refs in Fin. rewrite Forall_forall in Fin, Fm. auto. }
        assert (forall r, In r Bs -> (fin_box (s_box (clip_l prims (ss_axis ss) (ss_pos ss) r)) /\ vok (s_center (clip_l prims (ss_axis ss) (ss_pos ss) r))) /\
          (fin_box (s_box (clip_r prims (ss_axis ss) (ss_pos ss) r)) /\ vok (s_center (clip_r prims (ss_axis ss) (ss_pos ss) r)))) as FBs.
        { intros r I. destruct (FS r) as (Fr & _); [rewrite !in_app_iff; auto|]. destruct (clip_fin prims (ss_axis ss) (ss_pos ss) r Fr) as (G1 & G2).
          split; split; auto; apply fin_center; auto. }
        assert (forall r, In r S1 -> fin_box (s_box r) /\ vok (s_center r)) as FS1.
        { intros r I. apply (Permutation_in _ Q8) in I. rewrite !in_app_iff in I. destruct I as [I|[I|I]].
          - apply FS. rewrite !in_app_iff; auto.
          - apply in_map_iff in I as (b & <- & I). apply FBs; auto.
          - apply FS. rewrite !in_app_iff; auto. }
        assert (forall r, In r S2 -> fin_box (s_box r) /\ vok (s_center r)) as FS2.
        { intros r I. apply (Permutation_in _ Q9) in I. rewrite !in_app_iff in I. destruct I as [I|[I|I]].
          - apply in_map_iff in I as (b & <- & I). apply FBs; auto.
          - apply FS. rewrite !in_app_iff; auto.
          - apply FS. rewrite !in_app_iff; auto 8. }
        assert (fits S1 (arr n s_box aabb_new S1) (arr n s_center (vsplat f0) S1)) as F1.
        { apply fits_clip; auto; apply Forall_forall; intros r I; apply FS1; auto. }
        assert (fits S2 (arr n s_box aabb_new S2) (arr n s_center (vsplat f0) S2)) as F2.
        { apply fits_clip; auto; apply Forall_forall; intros r I; apply FS2; auto. }
        do 4 eexists. split; [exact F1|]. split; [exact F2|]. split; [|rewrite Cs; discriminate].
        right; right. cbn [h_prims h_boxes h_mids h_room]. split; auto. split; auto.
        exists (ss_axis ss), (ss_pos ss). split; auto. split; auto. left.
        pose proof (clipped_refs _ _ _ _ _ _ _ _ _ _ _ room Ft F1 F2 Cr) as G.
        assert (w_split_end t - (w_begin t + c_right_end c) = room - (length S1 + length S2 - length S)) as ->; [|exact G].
        apply Permutation_length in Q0, Q8, Q9. rewrite !app_length in Q0. rewrite !app_length, !map_length in Q8, Q9.
        unfold room, w_size in *. lia.
      - destruct Hr as (P12 & Lh & Sd). destruct (fits_part S S1 S2 boxes mids P12 Ft) as (F1 & F2).
        exists boxes, mids, boxes, mids. split; auto. split; auto. split; [|rewrite Cs; discriminate].
        right; right. cbn [h_prims h_boxes h_mids h_room]. split; auto. split; auto.
        exists (ss_axis ss), (ss_pos ss). split; auto. split; auto. right.
        assert (w_split_end t - (w_begin t + c_right_end c) = room) as ->.
        { apply Permutation_length in P12. rewrite app_length in P12. unfold room, w_size in *. lia. }
        split; [apply unclipped_same; auto|]. cbn [h_prims]. unfold part_box. cbn [h_boxes].
        split; [unfold pr; rewrite !map_length; auto|].
        destruct Sd as [Sd|Sd]; [left|right]; rewrite Forall_forall in Sd; apply pr_forall; intros r I;
          rewrite (proj1 (orig_in boxes mids S r Or I)); apply Sd; auto. }
    destruct (o_index os) as [j|] eqn:Ej.
    - destruct (apply_object_split _ _ _ _ _ _) as [[w2 c]| | |] eqn:E2; cbn [bind] in E; try discriminate E.
      assert (w2 = w' /\ d = Divide c) as (-> & ->) by (split; congruence). clear E.
      destruct (CutJ j eq_refl) as (La & Lj & Pj & Io & Sc & Ov).
      destruct (object_windows S _ _ _ _ _ _ _ _ La L1 Sm1 So E2) as (Ec & Li & W1 & W2 & So1 & So2).
      subst c. cbn [c_right_begin c_right_end c_sorted]. split; auto. intros S1 S2 (_ & A1) (_ & A2) _ _ _ _ _.
      pose proof (all3_pick _ _ _ (o_axis os) A1) as B1. cbv beta in B1. rewrite W1 in B1.
      pose proof (all3_pick _ _ _ (o_axis os) A2) as B2. cbv beta in B2. rewrite pick_map3, W2 in B2.
      assert (pick X (o_axis os) = firstn (w_size t) (pick w1 (o_axis os))) as EX by (unfold X; apply pick_map3).
      rewrite <- EX in B1, B2.
      assert (Permutation (S1 ++ S2) S) as P12.
      { rewrite <- B1, <- B2, firstn_skipn, EX. exact (all3_pick _ _ _ (o_axis os) Pm). }
      destruct (fits_part S S1 S2 boxes mids P12 Ft) as (F1 & F2).
      exists boxes, mids, boxes, mids. split; auto. split; auto. split; [|auto].
      replace (w_split_end t - (w_begin t + w_size t)) with room by (unfold room, w_size in *; lia).
      assert (Permutation (pr S1 ++ pr S2) (pr S)) as P12' by (rewrite <- pr_app; apply Permutation_map; auto).
      assert (Permutation (pr (firstn j (pick X (o_axis os)))) (pr S1)) as D1 by (apply Permutation_map; auto).
      assert (Permutation (pr (skipn j (pick X (o_axis os)))) (pr S2)) as D2 by (apply Permutation_map; auto).
      assert (sim (o_cost os) (pair_cost boxes (pr S1) (pr S2))) as Sc'.
      { eapply BinnedCost.sim_trans; [exact Sc|]. apply pair_perm; auto. }
      assert (fle (o_cost os) (ss_cost ss) = true) as Los.
      { apply (flt_false _ _ Nm Nos) in El. pose proof (fmin_le_l _ _ Ns Nos) as Q. apply (fle_spec _ _ Nm Ns) in Q.
        apply (fle_spec _ _ Nos Ns). lra. }
      left. cbn [h_prims h_boxes h_mids h_room]. split; [apply unclipped_same; auto|]. split.
      { split; [exists (o_axis os); split; auto; eapply order_perm; [exact D1|exact D2|exact Io]|]. split; [apply Chp; auto|].
        rewrite <- (leaf_cost_perm bounds (pr S) (pr S1 ++ pr S2)) by (symmetry; auto).
        rewrite <- (sim_fle2 _ _ _ Sc'). unfold fge in Eg.
        destruct (fle (leaf_cost bounds (pr S)) (o_cost os)) eqn:F; auto. exfalso.
        assert (fle (leaf_cost bounds (pr S)) (fmin (ss_cost ss) (o_cost os)) = true) as Q; [|unfold fle in Q, Eg; rewrite Q in Eg; discriminate Eg].
        eapply fle_trans; [exact F|]. apply (fle_spec _ _ Nos Nm). apply (flt_false _ _ Nm Nos). exact El. }
      destruct Pln as [Pz|[Po|Pp]]; [left; exact Pz| |].
      + right; left. rewrite <- Po, <- Ov.
        unfold fgt. apply BinnedCost.sim_flt; [apply BinnedCost.sim_refl|].
        destruct (hull_perm_in boxes Hok _ _ D1) as (I1 & I2). destruct (hull_perm_in boxes Hok _ _ D2) as (I3 & I4).
        apply area_sim; apply shrink_mono; auto.
      + right; right. destruct (Pp _ Los) as (order & Po & Lo). exists order. split; auto. intros a k L3 Ik.
        rewrite <- (BinnedCost.sim_flt _ _ _ _ (BinnedCost.sim_refl _) Sc'). apply Lo; auto.
    - assert (d = Leaf) as -> by congruence. right; right; right. cbn [h_prims h_boxes h_mids].
      pose proof (Fno eq_refl) as Ef. split.
      + intros axis l r L3 Cc. rewrite <- Ef. apply (NoCut axis); auto.
      + apply NBP. rewrite <- Ef. apply (flt_false _ _ Nm Nos) in El. pose proof (fmin_le_l _ _ Ns Nos) as Q. apply (fle_spec _ _ Nm Ns) in Q.
        apply (fle_spec _ _ Nos Ns). lra.
  Qed.
End Plan.

(** ** The whole tree *)
Section SeqDivide.
  Variable sorter : nat -> list sref -> list sref.
  Hypothesis sorter_perm : forall a l, Permutation (sorter a l) l.
  Hypothesis sorter_sorts : sorts sorter.
  Variables (prims : list tri) (lsize : nat) (th : f32) (n : nat).
  Notation plan := (plan_task sorter prims lsize th).
  Notation stree := (seq_tree sorter prims lsize th).
  Notation fits := (fits n).

  Inductive a_divides : nat -> holding -> aabb -> atree -> Prop :=
  | AD_leaf : forall d h bounds ids, Permutation ids (h_prims h) -> stays prims lsize th d h bounds ->
      a_divides d h bounds (ALeaf bounds ids)
  | AD_node : forall d h bounds s m l r hl hr bl br, d < 64 -> splits prims lsize th h bounds hl hr ->
      bounds_of hl bl -> bounds_of hr br -> a_divides (S d) hl bl l -> a_divides (S d) hr br r ->
      a_divides d h bounds (ANode (with_offset bounds f1em4) s m l r).

  Lemma small_first : forall k l, small n l -> small n (firstn k l).
  Proof. intros k l H. unfold small in *. rewrite <- (firstn_skipn k l) in H. apply Forall_app in H as (H & _). auto. Qed.
  Lemma small_skip : forall k l, small n l -> small n (skipn k l).
  Proof. intros k l H. unfold small in *. rewrite <- (firstn_skipn k l) in H. apply Forall_app in H as (_ & H). auto. Qed.
  Lemma fits_bounds : forall S boxes mids B room, fits S boxes mids -> SpatialBoxes.hull B S -> bounds_of (Hold (pr S) boxes mids room) B.
  Proof. intros S boxes mids B room (A & _ & Or & _) H. exact (hull_sim boxes mids A S B Or H). Qed.

  Lemma seq_divides : forall k t bounds w W S boxes mids T, w_size t <= W -> W = w_split_end t - w_begin t -> w_begin t <= w_end t ->
    all3 (okw n W) w -> same3 S (w_size t) w -> fits S boxes mids ->
    (w_sorted t = true -> sorted3 (w_size t) w) ->
    stree k t bounds w = Ok T -> harmless T ->
    a_divides (w_depth t) (Hold (pr S) boxes mids (w_split_end t - w_end t)) bounds T.
  Proof.
    induction k as [|k IH]; intros t bounds w W S boxes mids T LW EW LB O Nm Ft Srt E Hm; rewrite stree_eq in E;
      (destruct (plan t bounds w) as [[w1 d]| | |] eqn:Ep; cbn [bind] in E; try discriminate E);
      (destruct (plan_ok sorter sorter_perm prims lsize n th W _ _ _ _ _ LW O Ep) as (Ow & Od));
      (assert (all3 (fun l => w_size t <= length l) w) as Lw by (eapply all3_imp; [|exact O]; intros x (-> & _); auto));
      (assert (all3 (fun l => length l = w_split_end t - w_begin t) w) as Lw2 by (eapply all3_imp; [|exact O]; intros x (-> & _); auto));
      (assert (boxes_ok S) as Ob by (apply fin_boxes; apply Ft));
      (assert (all3 (fun l => w_size t <= length l) w1) as Lw1 by (eapply all3_imp; [|exact Ow]; intros x (-> & _); auto));
      pose proof (plan_same sorter sorter_perm prims lsize th S t bounds w w1 d Lw Nm Ob Ep) as Pn;
      pose proof (plan_divides sorter sorter_perm sorter_sorts prims lsize th n boxes mids S t bounds w w1 d LB Lw Lw2 Nm Ft Srt Ep) as PG;
      cbv zeta in PG.
    - destruct d as [|c]; [|discriminate E].
      match type of E with Ok ?x = Ok _ => assert (T = x) as -> by congruence end. constructor; [|exact PG].
      destruct Pn as (_ & P0 & _). apply (Permutation_map s_prim) in P0. exact P0.
    - destruct d as [|c].
      { match type of E with Ok ?x = Ok _ => assert (T = x) as -> by congruence end. constructor; [|exact PG].
        destruct Pn as (_ & P0 & _). apply (Permutation_map s_prim) in P0. exact P0. }
      destruct PG as (Ld & PG).
      destruct Od as (Crb & Cre & Hd & H2). destruct Pn as (Crr & S1 & S2 & N1 & N2 & _ & HL & HR).
      set (rb := c_right_begin c) in *. set (re := c_right_end c) in *.
      set (sh := left_split_count (w_split_end t - (w_begin t + re)) c) in *.
      assert (rb <= W) as LrbW by lia.
      pose proof (move3_window n w1 0 W rb re sh) as Mv.
      destruct Ow as ((L0 & F0) & (L1 & F1) & (L2 & F2)).
      assert (small n S1) as Sm1.
      { destruct N1 as (_ & P0 & _). eapply small_perm; [exact P0|]. apply small_first. exact F0. }
      assert (small n S2) as Sm2.
      { destruct N2 as (_ & P0 & _). eapply small_perm; [exact P0|]. apply small_first. destruct w1 as [[x y] z]. cbn [map3 fst snd]. apply small_skip. exact F0. }
      specialize (Mv ltac:(split; [|split]; lia) ltac:(lia) ltac:(lia) ltac:(intros _; split; [|split]; lia)).
      assert (map3 (fun l => window l 0 W) w1 = w1) as Ew1.
      { unfold map3. rewrite <- L0 at 1. rewrite <- L1 at 1. rewrite <- L2 at 1. rewrite !window_all. destruct w1 as [[x y] z]; auto. }
      rewrite Ew1 in Mv.
      destruct (move3 w1 rb re sh) as [w2| | |] eqn:Em; cbn [bind] in E; try discriminate E.
      destruct Mv as (_ & (M0 & M1 & M2) & Sm). destruct Sm as (Q0 & Q1 & Q2); [repeat split; auto|].
      assert (forall l, length l = W -> small n l -> okw n rb (firstn rb l) /\ okw n (W - rb) (skipn rb l)) as G.
      { intros l Ll Sl. split; split; auto using small_first, small_skip; [rewrite firstn_length|rewrite skipn_length]; lia. }
      destruct (G _ M0 Q0) as (G0 & H0). destruct (G _ M1 Q1) as (G1 & H1). destruct (G _ M2 Q2) as (G2 & H2').
      match type of E with bind ?x _ = _ => destruct x as [Tl| | |] eqn:El; cbn [bind] in E; try discriminate E end.
      match type of E with bind ?x _ = _ => destruct x as [Tr| | |] eqn:Er; cbn [bind] in E; try discriminate E end.
      match type of E with Ok ?x = Ok _ => assert (T = x) as -> by congruence end. clear E.
      cbn [harmless] in Hm. destruct Hm as (Hs & Hl & Hr).
      assert (all3 (fun l => re <= length l) w1) as Lre by (split; [|split]; lia).
      pose proof (move3_keeps w1 rb re sh w2 ltac:(lia) Lre Em Hs) as Keep.
      assert (all3 (okw n rb) (map3 (firstn rb) w2)) as Ol by (repeat split; first [apply G0|apply G1|apply G2]).
      assert (all3 (okw n (W - rb)) (map3 (skipn rb) w2)) as Orr by (repeat split; first [apply H0|apply H1|apply H2']).
      assert (forall a, firstn rb (pick (map3 (firstn rb) w2) a) = firstn rb (pick w1 a)) as Kl.
      { intro a. rewrite pick_map3, firstn_firstn, Nat.min_id. destruct (Keep a) as (_ & Ka).
        rewrite <- (Nat.min_l rb re) by lia. rewrite <- !firstn_firstn. rewrite Ka. auto. }
      assert (forall a, firstn (re - rb) (pick (map3 (skipn rb) w2) a) = firstn (re - rb) (pick (map3 (skipn rb) w1) a)) as Kr.
      { intro a. rewrite !pick_map3. destruct (Keep a) as (_ & Ka). rewrite <- !skipn_firstn_comm. rewrite Ka. auto. }
      assert (same3 S1 rb (map3 (firstn rb) w2)) as Sl by (eapply same3_ext; [exact Kl|exact N1]).
      assert (same3 S2 (re - rb) (map3 (skipn rb) w2)) as Sr by (eapply same3_ext; [exact Kr|exact N2]).
      assert (length S1 = rb) as X1.
      { eapply (same3_len S1 rb w1 0); [|exact N1]. eapply all3_imp; [|exact Lre]. intros x Hx. cbv beta in Hx. lia. }
      assert (length S2 = re - rb) as X2.
      { eapply (same3_len S2 _ (map3 (skipn rb) w1) 0); [|exact N2]. eapply all3_map; [|exact Lre]. intros x Hx. cbv beta in *. rewrite skipn_length. lia. }
      destruct (PG S1 S2 N1 N2 Sm1 Sm2 X1 X2 Crr) as (b1 & m1 & b2 & m2 & Ft1 & Ft2 & Sp & Sd).
      eapply AD_node; [exact Ld|exact Sp|apply (fits_bounds S1 b1 m1 (c_left c)); auto|apply (fits_bounds S2 b2 m2 (c_right c)); auto| |].
      + change (Datatypes.S (w_depth t)) with (w_depth (Wi 0 (w_begin t) (w_begin t + rb) (w_begin t + rb) (Datatypes.S (w_depth t)) (c_sorted c))).
        replace 0 with (w_split_end (Wi 0 (w_begin t) (w_begin t + rb) (w_begin t + rb) (Datatypes.S (w_depth t)) (c_sorted c)) -
           w_end (Wi 0 (w_begin t) (w_begin t + rb) (w_begin t + rb) (Datatypes.S (w_depth t)) (c_sorted c))) at 2 by (cbn [w_split_end w_end]; lia).
        eapply (IH _ _ _ rb S1 b1 m1 Tl); cbn [w_begin w_end w_split_end w_sorted]; try exact El; auto; try lia;
          [unfold w_size; cbn [w_begin w_end]; lia|unfold w_size; cbn [w_begin w_end]; replace (w_begin t + rb - w_begin t) with rb by lia; exact Sl|].
        intro Cs. destruct (Sd Cs) as (Sd1 & _). unfold w_size. cbn [w_begin w_end]. replace (w_begin t + rb - w_begin t) with rb by lia.
        intros a La. rewrite Kl. apply Sd1; auto.
      + change (Datatypes.S (w_depth t)) with (w_depth (Wi 0 (w_begin t + rb) (w_begin t + re) (w_split_end t) (Datatypes.S (w_depth t)) (c_sorted c))).
        eapply (IH (Wi 0 (w_begin t + rb) (w_begin t + re) (w_split_end t) (Datatypes.S (w_depth t)) (c_sorted c)) _ _ (W - rb) S2 b2 m2 Tr);
          cbn [w_begin w_end w_split_end w_sorted]; try exact Er; auto; try lia;
          [unfold w_size; cbn [w_begin w_end]; lia|unfold w_size; cbn [w_begin w_end]; replace (w_begin t + re - (w_begin t + rb)) with (re - rb) by lia; exact Sr|].
        intro Cs. destruct (Sd Cs) as (_ & Sd2). unfold w_size. cbn [w_begin w_end]. replace (w_begin t + re - (w_begin t + rb)) with (re - rb) by lia.
        intros a La. rewrite Kr. apply Sd2; auto.
  Qed.
End SeqDivide.
