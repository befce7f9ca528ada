(** * Consequences for the client-facing loops over a binary BVH *)
Require Import List ZArith Bool Lia Permutation Arith.
From Verif Require Import F32 F32Facts Vec RayModel AabbModel Base NodeModel IterModel SpecGeom SpecTree SpecTraverse IterProofs.
Import ListNotations.

Lemma last_any : forall A (l : list A) x d d', last (x :: l) d = last (x :: l) d'.
Proof.
  intros A l; induction l as [|a l IH]; intros x d d'; auto.
  change (last (a :: l) d = last (a :: l) d'). apply IH.
Qed.

Section Gen.
  Variable R H : Type.
  Variable inter : node -> R -> option H.
  Variable closer : H -> H -> bool.
  Variable found : nat -> bool.
  Variable nodes : list node.
  Variable indices : list nat.
  Variable C : Type.
  Variable client : C -> nat -> R -> C * R.

  Lemma t_size_ge : forall t, 1 <= t_size t.
  Proof. destruct t; simpl; lia. Qed.

  Theorem init_spec : forall t fuel c r,
    (Z.of_nat (length nodes) <= 2147483648)%Z -> (Z.of_nat (length indices) <= 2147483648)%Z ->
    repr nodes t -> t_idx t = 0 -> depth t <= 31 ->
    Forall (fun k => k < length indices /\ found (nth k indices 0) = true) (positions t) ->
    t_size t + length (positions t) + 1 <= fuel ->
    exists rs c' ls,
      bvh_run R H inter closer found nodes indices C client fuel c r (bvh_init true)
        = Ok (flat_map (leaf_prims indices) ls, r :: rs, c') /\
      submset (reached (hit_all R H inter (r :: rs)) t) ls /\
      submset ls (reached (hit_some R H inter (r :: rs)) t).
  Proof.
    intros t fuel c r Hn Hi Rp T0 D F Fu.
    destruct (run_spec R H inter closer found nodes indices C client Hn Hi fuel [t] 0 c r (bvh_init true))
      as (ps & rs & c' & ls & E1 & E2 & E3 & E4).
    - unfold inv, bvh_init; cbn [b_i b_stack b_sp length]. split; [reflexivity|]. split.
      + constructor; [constructor| |simpl; lia|split; auto]. simpl. rewrite T0. reflexivity.
      + split; [reflexivity|]. split; [reflexivity|]. destruct t; auto. lia.
    - unfold mu, list_sum. cbn [map fold_right]. rewrite turns_bound. lia.
    - unfold run in E1.
      exists rs, c', (match t with TLeaf _ n => [n] | _ => [] end ++ ls).
      rewrite E1, E2. split; [f_equal; f_equal; f_equal|].
      + destruct t; simpl; rewrite ?app_nil_r; auto.
      + destruct t as [i n|i n l r']; simpl tail_trees in *; cbn [flat_map] in E3, E4.
        * apply submset_nil_inv in E4. subst ls. split; apply submset_refl.
        * rewrite app_nil_r in E3, E4. split; auto.
  Qed.

  Lemma run_fold : forall fuel c r s ps rs c',
    bvh_run R H inter closer found nodes indices C client fuel c r s = Ok (ps, rs, c') ->
    exists rs', rs = r :: rs' /\
    fold_left (fun cr p => client (fst cr) p (snd cr)) ps (c, r) = (c', last rs r).
  Proof.
    induction fuel as [|fuel IH]; intros c r s ps rs c' E; [discriminate|].
    cbn [bvh_run] in E. destruct (bvh_turn R H inter closer found nodes indices r s) as [[t s']| | |];
      try discriminate. cbn [bind] in E. destruct t as [p| |].
    - destruct (client c p r) as [c1 r1] eqn:Ec.
      destruct (bvh_run R H inter closer found nodes indices C client fuel c1 r1 s') as [[[ps1 rs1] c2]| | |] eqn:E1;
        try discriminate. cbn [bind] in E. injection E as <- <- <-.
      destruct (IH _ _ _ _ _ _ E1) as (rs' & -> & G). exists (r1 :: rs'). split; auto.
      simpl fold_left. rewrite Ec. rewrite G. f_equal. 
      change (last (r :: r1 :: rs') r) with (last (r1 :: rs') r). apply last_any.
    - eapply IH; eauto.
    - injection E as <- <- <-. exists []. auto.
  Qed.

  (** What a client preserves holds of every ray the traversal sees. *)
  Lemma run_rays : forall (P : R -> Prop) (Q : R -> R -> Prop),
    (forall c p r, P r -> P (snd (client c p r))) ->
    (forall c p r r', P r -> P r' -> Q (snd (client c p r)) r' -> Q r r') -> (forall r, P r -> Q r r) ->
    forall fuel c r s ps rs c', P r ->
    bvh_run R H inter closer found nodes indices C client fuel c r s = Ok (ps, rs, c') ->
    Forall P rs /\ P (last rs r) /\ Forall (fun x => Q x (last rs r)) rs.
  Proof.
    intros P Q HP HQ HQr. induction fuel as [|fuel IH]; intros c r s ps rs c' Pr E; [discriminate|].
    cbn [bvh_run] in E. destruct (bvh_turn R H inter closer found nodes indices r s) as [[t s']| | |];
      try discriminate. cbn [bind] in E. destruct t as [p| |].
    - destruct (client c p r) as [c1 r1] eqn:Ec.
      destruct (bvh_run R H inter closer found nodes indices C client fuel c1 r1 s') as [[[ps1 rs1] c2]| | |] eqn:E1;
        try discriminate. cbn [bind] in E. injection E as <- <- <-.
      assert (P r1) as P1 by (pose proof (HP c p r Pr) as X; rewrite Ec in X; auto).
      destruct (IH _ _ _ _ _ _ P1 E1) as (A & B & D).
      destruct (run_fold _ _ _ _ _ _ _ E1) as (rs' & -> & _).
      assert (last (r :: r1 :: rs') r = last (r1 :: rs') r1) as L.
      { change (last (r :: r1 :: rs') r) with (last (r1 :: rs') r). apply last_any. }
      rewrite L. split; [constructor; auto|]. split; auto. constructor; auto.
      apply (HQ c p r); auto. rewrite Ec. inversion D; auto.
    - eapply IH; eauto.
    - injection E as <- <- <-. simpl. auto.
  Qed.
End Gen.

Lemma hit_all_const : forall R H inter (rs : list R) r (Q : R -> R -> Prop),
  (forall a x, Q a x -> forall b, hit R H inter a b = hit R H inter x b) ->
  rs <> [] -> Forall (fun a => Q a r) rs ->
  forall b, hit_all R H inter rs b = hit R H inter r b /\ hit_some R H inter rs b = hit R H inter r b.
Proof.
  intros R H inter rs r Q HQ Ne F b.
  assert (Forall (fun a => hit R H inter a b = hit R H inter r b) rs) as G.
  { eapply Forall_impl; [|apply F]. intros a Ha. apply HQ; auto. }
  unfold hit_all, hit_some.
  destruct (hit R H inter r b) eqn:E; split.
  - apply forallb_forall. rewrite Forall_forall in G. auto.
  - apply existsb_exists. destruct rs as [|a rs]; [congruence|]. exists a. inversion G; subst. simpl; auto.
  - destruct rs as [|a rs]; [congruence|]. simpl. inversion G as [|x l Hx Hl]; subst. rewrite Hx; auto.
  - apply not_true_is_false. intro X. apply existsb_exists in X. destruct X as (x & I & X).
    rewrite Forall_forall in G. rewrite (G x I) in X. discriminate.
Qed.

(** Single rays: the box test does not depend on [t]. *)
Definition same_line (a b : ray) : Prop := exists t, a = ray_set_t b t.

Lemma ray_hit_t : forall a x, same_line a x -> forall b,
  hit ray f32 intersect a b = hit ray f32 intersect x b.
Proof. intros a x [t ->] b. reflexivity. Qed.

Lemma same_line_refl : forall r, same_line r r.
Proof. intros [o tm d t i sx sy sz]; exists t; reflexivity. Qed.



Lemma ray_run_exact : forall C found nodes indices t (client : C -> nat -> ray -> C * ray) fuel c r,
  only_t client ->
  (Z.of_nat (length nodes) <= 2147483648)%Z -> (Z.of_nat (length indices) <= 2147483648)%Z ->
  repr nodes t -> t_idx t = 0 -> depth t <= 31 ->
  Forall (fun k => k < length indices /\ found (nth k indices 0) = true) (positions t) ->
  t_size t + length (positions t) + 1 <= fuel ->
  exists ls rs c', 
    bvh_run ray f32 intersect flt found nodes indices C client fuel c r (bvh_init true)
      = Ok (flat_map (leaf_prims indices) ls, rs, c') /\
    Permutation ls (reached (hit_box r) t) /\
    fold_left (fun cr p => client (fst cr) p (snd cr)) (flat_map (leaf_prims indices) ls) (c, r) = (c', last rs r).
Proof.
  intros C found nodes indices t client fuel c r Ot Hn Hi Rp T0 D F Fu.
  destruct (init_spec ray f32 intersect flt found nodes indices C client t fuel c r Hn Hi Rp T0 D F Fu)
    as (rs & c' & ls & E & S1 & S2).
  exists ls, (r :: rs), c'. split; [exact E|].
  destruct (run_rays ray f32 intersect flt found nodes indices C client (fun x => same_line x r) (fun _ _ => True))
    with (fuel := fuel) (c := c) (r := r) (s := bvh_init true) (ps := flat_map (leaf_prims indices) ls)
         (rs := r :: rs) (c' := c') as (A & _); auto using same_line_refl.
  { intros c0 p0 r0 [t0 ->]. destruct (Ot c0 p0 (ray_set_t r t0)) as [t1 ->]. exists t1. reflexivity. }
  pose proof (hit_all_const ray f32 intersect (r :: rs) r same_line ray_hit_t ltac:(discriminate) A) as G.
  split.
  - apply submset_antisym.
    + eapply submset_trans; [apply S2|]. rewrite (reached_ext (hit_some ray f32 intersect (r :: rs)) (hit_box r)); [apply submset_refl|].
      intro b. destruct (G b) as [_ ->]. reflexivity.
    + eapply submset_trans; [|apply S1]. rewrite (reached_ext (hit_all ray f32 intersect (r :: rs)) (hit_box r)); [apply submset_refl|].
      intro b. destruct (G b) as [-> _]. reflexivity.
  - destruct (run_fold _ _ _ _ _ _ _ _ _ _ _ _ _ _ _ _ E) as (rs' & _ & X). exact X.
Qed.

(** Packets: lowering a lane's [t] can only turn hits into misses. *)

Lemma flt_le_trans : forall x y z : f32, flt x y = true -> fle y z = true -> flt x z = true.
Proof.
  intros x y z A B. pose proof (flt_notnan _ _ A) as [N1 N2]. pose proof (fle_notnan _ _ B) as [_ N3].
  apply flt_spec in A; auto. apply fle_spec in B; auto. apply flt_spec; auto. Lra.lra.
Qed.

Lemma flt_at_most : forall x y z : f32, flt x y = true -> at_most y z -> flt x z = true.
Proof. intros x y z A [<- |B]; auto. eapply flt_le_trans; eauto. Qed.
Lemma at_most_trans : forall x y z, at_most x y -> at_most y z -> at_most x z.
Proof. intros x y z [<- |A] [<- |B]; unfold at_most; auto. right. eapply fle_trans; eauto. Qed.
Lemma wle_refl : forall a, wle a a.
Proof. intros; repeat split; left; reflexivity. Qed.

Lemma hit4_lower : forall p t b, wle t (p_t p) -> hit_box4 (packet_set_t p t) b = true -> hit_box4 p b = true.
Proof.
  intros p t b (A & B & C & D) H. unfold hit_box4, intersect4 in *.
  change (bb_slabs4 b (packet_set_t p t)) with (bb_slabs4 b p) in H.
  destruct (bb_slabs4 b p) as [mn mx]. cbn [p_t packet_set_t] in H.
  set (m := mand (wcmp fgt mx (wsplat f0)) (wcmp fgt mx mn)) in *.
  assert (many (mand m (wcmp flt mn t)) = true) as H' by (destruct (many (mand m (wcmp flt mn t))); auto; discriminate).
  clear H.
  assert (many (mand m (wcmp flt mn (p_t p))) = true) as ->; auto.
  unfold many, mand, wcmp in *. cbn [m0 m1 m2 m3] in *.
  rewrite !orb_true_iff, !andb_true_iff in *.
  destruct H' as [[[[X Y]|[X Y]]|[X Y]]|[X Y]]; [left; left; left|left; left; right|left; right|right];
    split; auto; eapply flt_at_most; eauto.
Qed.

Lemma wle_trans : forall a b c, wle a b -> wle b c -> wle a c.
Proof. intros a b c (A & B & C & D) (E & F & G & H); repeat split; eapply at_most_trans; eauto. Qed.

Lemma packet_run_between : forall C found nodes indices t (client : C -> nat -> packet -> C * packet) fuel c p,
  lowers_t client ->
  (Z.of_nat (length nodes) <= 2147483648)%Z -> (Z.of_nat (length indices) <= 2147483648)%Z ->
  repr nodes t -> t_idx t = 0 -> depth t <= 31 ->
  Forall (fun k => k < length indices /\ found (nth k indices 0) = true) (positions t) ->
  t_size t + length (positions t) + 1 <= fuel ->
  exists ls rs c',
    bvh_run packet vec4 intersect4 (fun a b => many (wcmp flt a b)) found nodes indices C client fuel c p (bvh_init true)
      = Ok (flat_map (leaf_prims indices) ls, rs, c') /\
    submset (reached (hit_box4 (last rs p)) t) ls /\
    submset ls (reached (hit_box4 p) t) /\
    fold_left (fun cr i => client (fst cr) i (snd cr)) (flat_map (leaf_prims indices) ls) (c, p) = (c', last rs p).
Proof.
  intros C found nodes indices t client fuel c p Ot Hn Hi Rp T0 D F Fu.
  destruct (init_spec packet vec4 intersect4 (fun a b => many (wcmp flt a b)) found nodes indices C client t fuel c p Hn Hi Rp T0 D F Fu)
    as (rs & c' & ls & E & S1 & S2).
  exists ls, (p :: rs), c'. split; [exact E|].
  set (below := fun a x : packet => exists w, a = packet_set_t x w /\ wle w (p_t x)).
  assert (forall q, below q q) as Br.
  { intros [a1 a2 a3 a4 a5 a6 a7 a8 a9 w]. exists w. split; [reflexivity|apply wle_refl]. }
  assert (forall a b x, below a b -> below b x -> below a x) as Bt.
  { intros a b x (w & -> & W) (w' & -> & W'). exists w. split; auto. eapply wle_trans; eauto. }
  destruct (run_rays packet vec4 intersect4 (fun a b => many (wcmp flt a b)) found nodes indices C client
     (fun x => below x p) (fun x y => below y x))
    with (fuel := fuel) (c := c) (r := p) (s := bvh_init true) (ps := flat_map (leaf_prims indices) ls)
         (rs := p :: rs) (c' := c') as (A & L & Q); auto.
  { intros c0 p0 r0 B. destruct (Ot c0 p0 r0) as (w & -> & W). eapply Bt; [|apply B]. exists w; auto. }
  { intros c0 p0 r0 r' B B' Q'. destruct (Ot c0 p0 r0) as (w & E' & W). eapply Bt; [apply Q'|]. exists w; auto. }
  split; [|split].
  - eapply submset_trans; [|apply S1]. apply reached_mono. intros b Hb.
    unfold hit_all. apply forallb_forall. intros x Ix.
    rewrite Forall_forall in Q. destruct (Q x Ix) as (w & Ew & W).
    change (hit packet vec4 intersect4 x b) with (hit_box4 x b). rewrite Ew in Hb. eapply hit4_lower; eauto.
  - eapply submset_trans; [apply S2|]. apply reached_mono. intros b Hb.
    unfold hit_some in Hb. apply existsb_exists in Hb. destruct Hb as (x & Ix & Hx).
    rewrite Forall_forall in A. destruct (A x Ix) as (w & -> & W). eapply hit4_lower; eauto.
  - destruct (run_fold _ _ _ _ _ _ _ _ _ _ _ _ _ _ _ _ E) as (rs' & _ & X). exact X.
Qed.
