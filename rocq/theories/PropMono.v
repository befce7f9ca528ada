(** * Property C61: traversal never loses a primitive whose own box is hit

    The box tests are monotone: whatever passes the test of a box passes the
    test of every box around it, in floating point, without any padding and at
    any scale of the coordinates.  Hence a traversal yields every primitive
    whose own AABB passes the library's test. *)
Require Import List ZArith Bool Arith Lia Permutation Reals Lra.
From Flocq Require Import Core BinarySingleNaN.
From Verif Require Import F32 F32Facts Vec RayModel Base AabbModel NodeModel IterModel BinnedModel BinnedProofs MbvhModel SpecGeom SpecSlab SpecTree SpecTraverse SpecMbvh
  AabbProofs MeasureProofs SlabProofs Slab4Proofs IterProofs TraverseProofs ClosestProofs MbvhClient LocbModel LocbProofs
  SpecBinned BinnedFacts BinnedCost BinnedRoom MonoProofs
  PropBox PropSlab PropTraverse PropLocb PropNoMiss PropMbvh PropNoMiss4 PropBinned PropNoMissBinned.
From Verif Require SpatialModel SpecSpatial PropSpatial PropSpatialBox SpatialProofs.
Import ListNotations.
Local Open Scope nat_scope.
Notation boxof := SpecMbvh.box_of.
Notation mnodes := MbvhModel.m_nodes.

(** Lane [k] of packet [p] passes the test of [AABB::intersect4] against [b]. *)
Definition lane_passes (p : packet) (k : nat) (b : aabb) : bool :=
  let near := slab_near (boxof b) (lane_origin p k) (lane_inv p k) in
  let far := slab_far (boxof b) (lane_origin p k) (lane_inv p k) in
  flt f0 far && flt near far && flt near (wget (p_t p) k).

Theorem C61_lanes : forall p b, hit_box4 p b = existsb (fun k => lane_passes p k b) [0; 1; 2; 3].
Proof.
  intros p b. unfold hit_box4, intersect4.
  assert (forall c : bool, (match (if c then Some (fst (bb_slabs4 b p)) else None) with Some _ => true | None => false end) = c) as G by (intros []; auto).
  destruct (bb_slabs4 b p) as [mn mx] eqn:E. cbn [fst] in G. rewrite G.
  assert (mn = fst (bb_slabs4 b p) /\ mx = snd (bb_slabs4 b p)) as [-> ->] by (rewrite E; auto).
  unfold many, mand, wcmp; cbn [m0 m1 m2 m3 existsb]. rewrite orb_false_r, !orb_assoc. reflexivity.
Qed.

(** ** The tests are monotone *)

Theorem C61_intersect : forall a b o d t x, vfinite o -> axes_fine a o d -> box_ok a -> box_in a b ->
  intersect a (ray_set_t (ray_new o d) t) = Some x ->
  exists y, intersect b (ray_set_t (ray_new o d) t) = Some y /\ fle x y = true.
Proof. intros a b o d t x Fo A Ok I E. apply (intersect_mono a b o d Ok I Fo A t x E). Qed.

Theorem C61_intersects : forall a b o d t, vfinite o -> axes_fine a o d -> box_ok a -> box_in a b ->
  intersects a (ray_set_t (ray_new o d) t) = true -> intersects b (ray_set_t (ray_new o d) t) = true.
Proof. intros a b o d t Fo A Ok I E. apply (intersects_mono a b o d Ok I Fo A t E). Qed.

Lemma lane_parts : forall p k o d, lane_is p k o d -> lane_origin p k = o /\ lane_inv p k = V3 (fdiv f1 (vx d)) (fdiv f1 (vy d)) (fdiv f1 (vz d)).
Proof. intros p k o d (_ & A & B). split; [symmetry; exact A|exact B]. Qed.

(** Lane for lane; a NaN in another lane does not matter. *)
Theorem C61_lane : forall a b p k o d, lane_is p k o d -> vfinite o -> axes_fine a o d -> vle (bmin a) (bmax a) -> box_in a b ->
  lane_passes p k a = true -> lane_passes p k b = true.
Proof.
  intros a b p k o d L Fo A V I E. destruct (lane_parts _ _ _ _ L) as [E1 E2].
  assert (box_ok a) as Ok by (apply box_in_ok in I; tauto).
  destruct (slabs_mono a b o d Ok I Fo A V) as [(n1 & n2 & n3 & n4 & l1 & l2) _].
  unfold lane_passes in *. cbv zeta in *. rewrite E1, E2 in *.
  apply andb_true_iff in E as [E T3]. apply andb_true_iff in E as [T1 T2].
  assert (notnan (wget (p_t p) k)) as Nt.
  { destruct (wget (p_t p) k); auto. destruct (slab_near _ _ _); discriminate T3. }
  apply flt_spec in T1; auto. apply flt_spec in T2; auto. apply flt_spec in T3; auto.
  rewrite !andb_true_iff. repeat split; apply flt_spec; auto; try reflexivity; lra.
Qed.

Theorem C61_intersect4 : forall a b p, (forall k, k < 4 -> exists o d, lane_is p k o d /\ vfinite o /\ axes_fine a o d) ->
  vle (bmin a) (bmax a) -> box_in a b -> hit_box4 p a = true -> hit_box4 p b = true.
Proof.
  intros a b p L V I E. rewrite C61_lanes in *. apply existsb_exists in E as (k & Ik & E). apply existsb_exists.
  exists k. split; auto. destruct (L k) as (o & d & L1 & Fo & A).
  { simpl in Ik. lia. }
  apply (C61_lane a b p k o d); auto.
Qed.

Theorem C61_quad : forall a b o d t, vfinite o -> axes_fine a o d -> vle (bmin a) (bmax a) -> box_in a b ->
  qhit (ray_set_t (ray_new o d) t) (boxof a) = true -> qhit (ray_set_t (ray_new o d) t) (boxof b) = true.
Proof.
  intros a b o d t Fo A V I E. assert (box_ok a) as Ok by (apply box_in_ok in I; tauto).
  destruct (slabs_mono a b o d Ok I Fo A V) as [(n1 & n2 & n3 & n4 & l1 & l2) _].
  unfold qhit in *. cbn [ray_set_t ray_new r_origin r_inv r_t] in *.
  change (vdivs f1 d) with (V3 (fdiv f1 (vx d)) (fdiv f1 (vy d)) (fdiv f1 (vz d))) in *.
  apply andb_true_iff in E as [T2 T3].
  assert (notnan t) as Nt by (destruct t; auto; destruct (slab_near _ _ _); discriminate T3).
  apply fle_spec in T2; auto. apply flt_spec in T3; auto.
  apply andb_true_iff. split; [apply fle_spec|apply flt_spec]; auto; lra.
Qed.

Theorem C61_quad_lane : forall a b p k o d, lane_is p k o d -> vfinite o -> axes_fine a o d -> vle (bmin a) (bmax a) -> box_in a b ->
  qhit_lane p k (boxof a) = true -> qhit_lane p k (boxof b) = true.
Proof.
  intros a b p k o d L Fo A V I E. destruct (lane_parts _ _ _ _ L) as [E1 E2].
  assert (box_ok a) as Ok by (apply box_in_ok in I; tauto).
  destruct (slabs_mono a b o d Ok I Fo A V) as [_ (n1 & n2 & n3 & n4 & l1 & l2)].
  unfold qhit_lane in *. rewrite E1, E2 in *.
  apply andb_true_iff in E as [T2 T3].
  assert (notnan (wget (p_t p) k)) as Nt.
  { destruct (wget (p_t p) k); auto. destruct (slab_near4 _ _ _); discriminate T3. }
  apply flt_spec in T2; auto. apply flt_spec in T3; auto.
  apply andb_true_iff. split; apply flt_spec; auto; lra.
Qed.

(** ** Traversals *)

(** If every box around primitive [i]'s box is hit, every box on the way is. *)
Lemma enclosing_path : forall aabbs indices t, encloses aabbs indices t ->
  forall x p a, In x (tpaths t) -> In p (range_prims indices (fst x)) -> nth_error aabbs p = Some a ->
  Forall (fun bx => exists n, bx = boxof n /\ box_in a n) (snd x).
Proof.
  intros aabbs indices t En x p a Ix Ip Ea. revert x Ix Ip.
  assert (forall x, In x (tpaths t) -> In p (range_prims indices (fst x)) -> In p (prims indices t) /\ 
    Forall (fun bx => exists n, bx = boxof n /\ box_in a n) (snd x)) as G; [|intros; apply G; auto].
  induction t as [i n|i n l IHl r IHr]; cbn [encloses tpaths t_rec] in *; intros x Ix Ip.
  - destruct Ix as [<-|[]]. cbn [fst snd] in *.
    assert (In p (prims indices (TLeaf i n))) as Q by exact Ip. split; auto.
    constructor; auto. exists n. split; auto. destruct En as [En _].
    rewrite Forall_forall in En. apply (En p); auto.
  - destruct En as (En & El & Er).
    apply in_map_iff in Ix as (y & <- & Iy). cbn [fst snd] in *.
    assert (In p (prims indices (TNode i n l r)) /\ Forall (fun bx => exists n, bx = boxof n /\ box_in a n) (snd y)) as [Q G].
    { unfold prims. cbn [positions]. rewrite map_app. apply in_app_iff in Iy as [Iy|Iy].
      - destruct (IHl El y Iy Ip) as [A B]. split; auto. apply in_or_app. left. exact A.
      - destruct (IHr Er y Iy Ip) as [A B]. split; auto. apply in_or_app. right. exact A. }
    split; auto. constructor; auto. exists n. split; auto. rewrite Forall_forall in En. apply (En p); auto.
Qed.

Lemma quad_visited : forall aabbs indices t hit leaves i b,
  encloses aabbs indices t -> Permutation (positions t) (seq 0 (length indices)) ->
  Permutation indices (seq 0 (length aabbs)) -> nth_error aabbs i = Some b ->
  (forall n, box_in b n -> hit (boxof n) = true) ->
  submset (map fst (filter (fun x => forallb hit (snd x)) (tpaths t))) leaves ->
  In i (flat_map (range_prims indices) leaves).
Proof.
  intros aabbs indices t hit leaves i b En P1 P2 Eb H Sb.
  assert (i < length aabbs) as Li by (apply nth_error_Some; congruence).
  destruct (path_of indices (length aabbs) t i P1 P2 Li) as (x & Ix & Ip).
  apply in_flat_map. exists (fst x). split; auto. eapply submset_in; [exact Sb|].
  apply in_map_iff. exists x. split; auto. apply filter_In. split; auto.
  apply forallb_forall. intros bx Ibx.
  pose proof (enclosing_path aabbs indices t En x i b Ix Ip Eb) as G. rewrite Forall_forall in G.
  destruct (G bx Ibx) as (n & -> & A). auto.
Qed.

Lemma hit_visited : forall aabbs indices t hit i b, encloses aabbs indices t -> In i (prims indices t) -> nth_error aabbs i = Some b ->
  (forall n, box_in b n -> hit n = true) -> In i (flat_map (leaf_prims indices) (reached hit t)).
Proof.
  intros aabbs indices t hit i b En Ii Eb H.
  destruct (reached_prim hit aabbs indices i b Eb t En) as (n & I1 & I2); auto.
  - clear - H. induction t; simpl; auto.
  - apply in_flat_map. exists n. auto.
Qed.

Lemma finite_vok : forall v, vfinite v -> vok v.
Proof. intros v (A & B & C). repeat split; apply fin_notnan; auto. Qed.
Lemma dirs_vok : forall d, dirs_fine d -> vok d.
Proof.
  intros d (H1 & H2 & H3).
  assert (forall x, dir_fine x -> fnan x = false) as G by (intros x [[F _]|H]; [apply fin_notnan; auto|subst; auto]).
  repeat split; apply G; auto.
Qed.

(** A ray through a binary BVH, one that may hold a primitive in several
    leaves included. *)
Theorem C61_ray : forall C nodes indices aabbs t (client : C -> nat -> ray -> C * ray) turns c o d t0,
  traversable nodes indices t -> encloses aabbs indices t -> enough t turns ->
  vfinite o -> dirs_fine d -> only_t client ->
  let r := ray_set_t (ray_new o d) t0 in
  exists ps rays c',
    iter_ray_indices nodes indices client turns c r = Ok (ps, rays, c') /\
    forall i b, In i (prims indices t) -> nth_error aabbs i = Some b -> box_ok b -> axes_fine b o d -> hit_box r b = true -> In i ps.
Proof.
  intros C nodes indices aabbs t client turns c o d t0 Tr En Fu Fo Hd Ot r.
  destruct (C23_ray_indices C nodes indices t client turns c r) as (ls & rs & c' & A & B & _); auto.
  { apply finite_vok; auto. } { apply dirs_vok; auto. }
  eexists; eexists; eexists. split; [exact A|]. intros i b Ii Eb Ok X H.
  eapply Permutation_in; [apply Permutation_flat_map; apply (Permutation_sym B)|].
  apply (hit_visited aabbs indices t _ i b); auto. intros n Bn.
  unfold hit_box in *. destruct (intersect b r) as [x|] eqn:Ex; [|discriminate].
  destruct (C61_intersect b n o d t0 x) as (y & Ey & _); auto. fold r in Ey. rewrite Ey. reflexivity.
Qed.

Theorem C61_closest : forall nodes indices aabbs t dist turns o d t0,
  traversable nodes indices t -> Permutation (positions t) (seq 0 (length indices)) ->
  Permutation indices (seq 0 (length aabbs)) -> encloses aabbs indices t -> Forall box_ok aabbs -> enough t turns ->
  vfinite o -> dirs_fine d -> flt f0 t0 = true ->
  let r := ray_set_t (ray_new o d) t0 in
  (forall p x, dist p = Some x -> flt f0 x = true) ->
  (forall p x b, dist p = Some x -> nth_error aabbs p = Some b -> axes_fine b o d /\ hit_box r b = true) ->
  exists ps rays, iter_ray_prims (length aabbs) nodes indices (closest_body dist) turns tt r = Ok (ps, rays, tt) /\
    last rays r = snd (client_fold (closest_body dist) (seq 0 (length aabbs)) tt r).
Proof.
  intros nodes indices aabbs t dist turns o d t0 Tr P1 P2 En Ok Fu Fo Hd Pt r Pd Hs.
  destruct Tr as (Hn & Hi & Rp & T0 & Dp & F).
  apply (closest_hit_gen nodes indices (length aabbs) t dist r turns); auto.
  { apply finite_vok; auto. } { apply dirs_vok; auto. }
  intros p x Ed Lp. pose proof Lp as Lp'. apply nth_error_Some in Lp. destruct (nth_error aabbs p) as [b|] eqn:Eb; [|congruence].
  destruct (Hs p x b Ed Eb) as (X & H). apply (hit_visited aabbs indices t _ p b); auto.
  - apply (Permutation_in _ (Permutation_sym (prims_valid _ _ _ P1 P2))). apply in_seq. lia.
  - intros n Bn. unfold hit_box in *. destruct (intersect b r) as [z|] eqn:Ex; [|discriminate].
    rewrite Forall_forall in Ok. destruct (C61_intersect b n o d t0 z) as (y & Ey & _); auto; [apply Ok; eapply nth_error_In; eauto|]. fold r in Ey. rewrite Ey. reflexivity.
Qed.

(** A packet through a binary BVH: what passes the test in a lane of the
    packet as it is at the end. *)
Theorem C61_packet : forall C nodes indices aabbs t (client : C -> nat -> packet -> C * packet) turns c p,
  traversable nodes indices t -> encloses aabbs indices t -> enough t turns ->
  lowers_t client -> packet_alive nodes p = true ->
  exists ps packets c',
    iter_packet_indices nodes indices client turns c p = Ok (ps, packets, c') /\
    forall i b k o d, In i (prims indices t) -> nth_error aabbs i = Some b -> vle (bmin b) (bmax b) ->
      lane_is p k o d -> vfinite o -> axes_fine b o d -> lane_passes (last packets p) k b = true -> In i ps.
Proof.
  intros C nodes indices aabbs t client turns c p Tr En Fu Lo Al.
  destruct (C29_packet C nodes indices t client turns c p Tr Lo Al Fu) as (ls & rs & c' & E & S1 & _ & Fo).
  exists (flat_map (leaf_prims indices) ls), rs, c'. split; auto.
  intros i b k o d Ii Eb V L Fin X H.
  assert (exists t', last rs p = packet_set_t p t') as [t' El].
  { rewrite <- (f_equal snd Fo : snd (client_fold _ _ _ _) = last rs p). apply lowers_t_fold; auto. }
  destruct (proj1 (in_flat_map (leaf_prims indices) _ i) (hit_visited aabbs indices t (hit_box4 (last rs p)) i b En Ii Eb
    ltac:(intros n Bn; rewrite C61_lanes; apply existsb_exists; exists k; split;
      [destruct L as [L _]; simpl; lia|apply (C61_lane b n (last rs p) k o d); auto; rewrite El; exact L]))) as (n & I1 & I2).
  apply in_flat_map. exists n. split; auto. eapply submset_in; eauto.
Qed.

(** Through a 4-wide BVH. *)
Theorem C61_quad_ray : forall C mb ns indices aabbs t (client : C -> nat -> ray -> C * ray) turns c o d t0,
  made_from mb ns indices (length aabbs) t -> encloses aabbs indices t -> depth t <= 22 -> quad_enough mb turns ->
  vfinite o -> lowers_ray client ->
  let r := ray_set_t (ray_new o d) t0 in
  exists ps rays c',
    miter_ray_indices (mnodes mb) (mb_indices mb) client turns c r = Ok (ps, rays, c') /\
    forall i b, nth_error aabbs i = Some b -> vle (bmin b) (bmax b) -> axes_fine b o d ->
      qhit (last rays r) (boxof b) = true -> In i ps.
Proof.
  intros C mb ns indices aabbs t client turns c o d t0 Hm En D Fu Fin Lo r.
  destruct (C27_ray_indices C mb ns indices (length aabbs) t client turns c r Hm D Fu Lo) as (mt & ls & rs & c' & _ & _ & E & S0 & _ & _ & Fo).
  exists (flat_map (range_prims indices) ls), rs, c'. split; auto.
  intros i b Eb V X H.
  assert (exists t', last rs r = ray_set_t r t') as [t' El].
  { rewrite <- (f_equal snd Fo : snd (client_fold _ _ _ _) = last rs r). apply lowers_ray_fold; auto. }
  destruct Hm as [(A & B & Cc & Dd & Ee & F & G & H' & I) _].
  apply (quad_visited aabbs indices t (qhit (last rs r)) ls i b); auto.
  intros n Bn. rewrite El in *. apply (C61_quad b n o d t'); auto.
Qed.

Theorem C61_quad_packet : forall C mb ns indices aabbs t (client : C -> nat -> packet -> C * packet) turns c p,
  made_from mb ns indices (length aabbs) t -> encloses aabbs indices t -> depth t <= 22 -> quad_enough mb turns ->
  lowers_t client ->
  exists ps packets c',
    miter_packet_indices (mnodes mb) (mb_indices mb) client turns c p = Ok (ps, packets, c') /\
    forall i b k o d, nth_error aabbs i = Some b -> vle (bmin b) (bmax b) ->
      lane_is p k o d -> vfinite o -> axes_fine b o d -> qhit_lane (last packets p) k (boxof b) = true -> In i ps.
Proof.
  intros C mb ns indices aabbs t client turns c p Hm En D Fu Lo.
  destruct (C27_packet_indices C mb ns indices (length aabbs) t client turns c p Hm D Fu Lo) as (mt & ls & rs & c' & _ & _ & E & S0 & _ & _ & Fo).
  exists (flat_map (range_prims indices) ls), rs, c'. split; auto.
  intros i b k o d Eb V L Fin X H.
  assert (exists t', last rs p = packet_set_t p t') as [t' El].
  { rewrite <- (f_equal snd Fo : snd (client_fold _ _ _ _) = last rs p). apply lowers_t_fold; auto. }
  destruct Hm as [(A & B & Cc & Dd & Ee & F & G & H' & I) _].
  apply (quad_visited aabbs indices t (qhit4 (last rs p)) ls i b); auto.
  intros n Bn. assert (qhit_lane (last rs p) k (boxof n) = true) as Q.
  { apply (C61_quad_lane b n (last rs p) k o d); auto. rewrite El. exact L. }
  unfold qhit4. destruct L as [L _]. destruct k as [|[|[|[|k]]]]; [| | | |lia]; rewrite Q, ?orb_true_r; reflexivity.
Qed.

Theorem C61_quad_closest : forall mb ns indices aabbs t dist turns o d t0,
  made_from mb ns indices (length aabbs) t -> encloses aabbs indices t -> depth t <= 22 -> quad_enough mb turns ->
  Forall (fun b => vle (bmin b) (bmax b)) aabbs -> vfinite o -> flt f0 t0 = true ->
  let r := ray_set_t (ray_new o d) t0 in
  (forall p x, dist p = Some x -> flt f0 x = true) ->
  (forall p x b, dist p = Some x -> nth_error aabbs p = Some b ->
     axes_fine b o d /\ forall t', flt x t' = true -> qhit (ray_set_t r t') (boxof b) = true) ->
  exists ps rays, miter_ray_prims (length aabbs) (mnodes mb) (mb_indices mb) (closest_body dist) turns tt r = Ok (ps, rays, tt) /\
    last rays r = snd (client_fold (closest_body dist) (seq 0 (length aabbs)) tt r).
Proof.
  intros mb ns indices aabbs t dist turns o d t0 Hm En D Fu V Fo Pt r Pd Hs.
  apply (C27_closest_hit mb ns indices (length aabbs) t); auto.
  intros p x y b Ed Iy Ip Ib t' Lt.
  pose proof Hm as [(A & B & Cc & Dd & Ee & F & G & H' & I) _].
  assert (In p (prims indices t)) as Ii by (apply (path_prim indices t y p); auto).
  apply (Permutation_in _ (prims_valid _ _ _ Dd Ee)) in Ii. apply in_seq in Ii.
  destruct (nth_error aabbs p) as [a|] eqn:Ea; [|apply nth_error_None in Ea; lia].
  destruct (Hs p x a Ed Ea) as [X H]. pose proof (enclosing_path aabbs indices t En y p a Iy Ip Ea) as P. rewrite Forall_forall in P.
  destruct (P b Ib) as (n & -> & Bn). rewrite Forall_forall in V. apply (C61_quad a n o d t'); auto.
  - apply V. eapply nth_error_In; eauto.
  - apply (H t' Lt).
Qed.

(** ** For the builders *)

Lemma locb_tree : forall fuel threads aabbs centers bv t,
  locb_input aabbs centers -> 1 <= threads -> Forall box_ok aabbs ->
  locb_build fuel threads aabbs centers = Ok bv -> repr (nodes bv) t -> t_idx t = 0 ->
  encloses aabbs (prim_indices bv) t /\ Permutation (prims (prim_indices bv) t) (seq 0 (length aabbs)) /\
  (3 <= length aabbs -> binary (nodes bv) (prim_indices bv) (length aabbs) t).
Proof.
  intros fuel threads aabbs centers bv t I T Ok E Rp T0. pose proof I as (L & N1 & M).
  destruct (C21_encloses fuel threads aabbs centers bv I T Ok E) as (u & Ru & U0 & Pm & En).
  assert (t = u) as -> by (apply (repr_unique (nodes bv)); congruence).
  split; auto. split; auto. intro N3.
  destruct (locb_sound 14 fuel threads aabbs centers bv) as (t' & Rp' & T0' & Pi & P1 & P2 & Ln & L1 & _); auto; [lia|].
  assert (t' = u) as -> by (apply (repr_unique (nodes bv)); congruence).
  destruct (Nat.leb_spec (length aabbs) 2) as [C2|C2]; [lia|].
  apply binary_of; auto; try lia. eapply Forall_impl; [|apply L1; auto]. simpl. intros r ->. lia.
Qed.

Theorem C61_locb : forall C fuel threads aabbs centers bv t (client : C -> nat -> ray -> C * ray) turns c o d t0,
  locb_input aabbs centers -> 1 <= threads -> Forall box_ok aabbs ->
  locb_build fuel threads aabbs centers = Ok bv -> repr (nodes bv) t -> t_idx t = 0 -> depth t <= 31 ->
  3 * length aabbs + 1 <= turns -> vfinite o -> dirs_fine d -> only_t client ->
  let r := ray_set_t (ray_new o d) t0 in
  exists ps rays c',
    iter_ray_indices (nodes bv) (prim_indices bv) client turns c r = Ok (ps, rays, c') /\
    forall i b, nth_error aabbs i = Some b -> axes_fine b o d -> hit_box r b = true -> In i ps.
Proof.
  intros C fuel threads aabbs centers bv t client turns c o d t0 I T Ok E Rp T0 D Fu Fo Hd Ot r.
  destruct (locb_tree fuel threads aabbs centers bv t I T Ok E Rp T0) as (En & Pm & _).
  destruct (locb_traversable fuel threads aabbs centers bv t) as (Tr & P1 & P2 & Sz & Sp); auto.
  destruct (C61_ray C (nodes bv) (prim_indices bv) aabbs t client turns c o d t0) as (ps & rays & c' & X & Y); auto.
  { unfold enough. lia. }
  exists ps, rays, c'. split; auto. intros i b Eb A H. apply (Y i b); auto.
  - apply (Permutation_in _ (Permutation_sym Pm)). apply in_seq. split; [lia|]. apply nth_error_Some. congruence.
  - rewrite Forall_forall in Ok. apply Ok. eapply nth_error_In; eauto.
Qed.

Theorem C61_locb_closest : forall fuel threads aabbs centers bv t dist turns o d t0,
  locb_input aabbs centers -> 1 <= threads -> Forall box_ok aabbs ->
  locb_build fuel threads aabbs centers = Ok bv -> repr (nodes bv) t -> t_idx t = 0 -> depth t <= 31 ->
  3 * length aabbs + 1 <= turns -> vfinite o -> dirs_fine d -> flt f0 t0 = true ->
  let r := ray_set_t (ray_new o d) t0 in
  (forall p x, dist p = Some x -> flt f0 x = true) ->
  (forall p x b, dist p = Some x -> nth_error aabbs p = Some b -> axes_fine b o d /\ hit_box r b = true) ->
  exists ps rays, iter_ray_prims (length aabbs) (nodes bv) (prim_indices bv) (closest_body dist) turns tt r = Ok (ps, rays, tt) /\
    last rays r = snd (client_fold (closest_body dist) (seq 0 (length aabbs)) tt r).
Proof.
  intros fuel threads aabbs centers bv t dist turns o d t0 I T Ok E Rp T0 D Fu Fo Hd Pt r Pd Hs.
  destruct (locb_tree fuel threads aabbs centers bv t I T Ok E Rp T0) as (En & Pm & _).
  destruct (locb_traversable fuel threads aabbs centers bv t) as (Tr & P1 & P2 & Sz & Sp); auto.
  apply (C61_closest (nodes bv) (prim_indices bv) aabbs t dist turns o d t0); auto. unfold enough. lia.
Qed.

Theorem C61_locb_packet : forall C fuel threads aabbs centers bv t (client : C -> nat -> packet -> C * packet) turns c p,
  locb_input aabbs centers -> 1 <= threads -> Forall box_ok aabbs ->
  locb_build fuel threads aabbs centers = Ok bv -> repr (nodes bv) t -> t_idx t = 0 -> depth t <= 31 ->
  3 * length aabbs + 1 <= turns -> lowers_t client -> packet_alive (nodes bv) p = true ->
  exists ps packets c',
    iter_packet_indices (nodes bv) (prim_indices bv) client turns c p = Ok (ps, packets, c') /\
    forall i b k o d, nth_error aabbs i = Some b -> vle (bmin b) (bmax b) ->
      lane_is p k o d -> vfinite o -> axes_fine b o d -> lane_passes (last packets p) k b = true -> In i ps.
Proof.
  intros C fuel threads aabbs centers bv t client turns c p I T Ok E Rp T0 D Fu Lo Al.
  destruct (locb_tree fuel threads aabbs centers bv t I T Ok E Rp T0) as (En & Pm & _).
  destruct (locb_traversable fuel threads aabbs centers bv t) as (Tr & P1 & P2 & Sz & Sp); auto.
  destruct (C61_packet C (nodes bv) (prim_indices bv) aabbs t client turns c p) as (ps & rays & c' & X & Y); auto.
  { unfold enough. lia. }
  exists ps, rays, c'. split; auto. intros i b k o d Eb V L F A H. apply (Y i b k o d); auto.
  apply (Permutation_in _ (Permutation_sym Pm)). apply in_seq. split; [lia|]. apply nth_error_Some. congruence.
Qed.

Theorem C61_locb_quad : forall C fuel threads aabbs centers bv mfuel mb t (client : C -> nat -> ray -> C * ray) turns c o d t0,
  locb_input aabbs centers -> 1 <= threads -> 3 <= length aabbs -> Forall box_ok aabbs ->
  locb_build fuel threads aabbs centers = Ok bv -> repr (nodes bv) t -> t_idx t = 0 -> depth t <= 22 ->
  length (nodes bv) <= mfuel -> mbvh_construct mfuel bv = Ok mb -> quad_enough mb turns ->
  vfinite o -> lowers_ray client ->
  let r := ray_set_t (ray_new o d) t0 in
  exists ps rays c',
    miter_ray_indices (mnodes mb) (mb_indices mb) client turns c r = Ok (ps, rays, c') /\
    forall i b, nth_error aabbs i = Some b -> vle (bmin b) (bmax b) -> axes_fine b o d ->
      qhit (last rays r) (boxof b) = true -> In i ps.
Proof.
  intros C fuel threads aabbs centers bv mfuel mb t client turns c o d t0 I T N3 Ok E Rp T0 D Mf Em Fu Fo Lo.
  destruct (locb_tree fuel threads aabbs centers bv t I T Ok E Rp T0) as (En & Pm & Bi).
  apply (C61_quad_ray C mb (nodes bv) (prim_indices bv) aabbs t); auto.
  split; auto. exists mfuel. split; [auto|]. left. destruct bv; exact Em.
Qed.

Theorem C61_locb_quad_packet : forall C fuel threads aabbs centers bv mfuel mb t (client : C -> nat -> packet -> C * packet) turns c p,
  locb_input aabbs centers -> 1 <= threads -> 3 <= length aabbs -> Forall box_ok aabbs ->
  locb_build fuel threads aabbs centers = Ok bv -> repr (nodes bv) t -> t_idx t = 0 -> depth t <= 22 ->
  length (nodes bv) <= mfuel -> mbvh_construct mfuel bv = Ok mb -> quad_enough mb turns -> lowers_t client ->
  exists ps packets c',
    miter_packet_indices (mnodes mb) (mb_indices mb) client turns c p = Ok (ps, packets, c') /\
    forall i b k o d, nth_error aabbs i = Some b -> vle (bmin b) (bmax b) ->
      lane_is p k o d -> vfinite o -> axes_fine b o d -> qhit_lane (last packets p) k (boxof b) = true -> In i ps.
Proof.
  intros C fuel threads aabbs centers bv mfuel mb t client turns c p I T N3 Ok E Rp T0 D Mf Em Fu Lo.
  destruct (locb_tree fuel threads aabbs centers bv t I T Ok E Rp T0) as (En & Pm & Bi).
  apply (C61_quad_packet C mb (nodes bv) (prim_indices bv) aabbs t); auto.
  split; auto. exists mfuel. split; [auto|]. left. destruct bv; exact Em.
Qed.

(** Binned SAH, as long as no node was cut by the median fallback (C16). *)
Lemma unpad : forall aabbs indices t, Forall box_ok aabbs ->
  encloses (map (fun b => with_offset b f1em4) aabbs) indices t -> encloses aabbs indices t.
Proof.
  intros aabbs indices t Ok. rewrite Forall_forall in Ok. induction t as [i n|i n l IHl r IHr]; cbn [encloses].
  - intros [E _]. split; auto. eapply Forall_impl; [|exact E]. intros p H b Eb.
    pose proof (map_nth_error (fun b => with_offset b f1em4) _ _ Eb) as Eb'. eapply box_in_trans; [|apply (H _ Eb')].
    apply with_offset_in; try reflexivity. apply Ok. eapply nth_error_In; eauto.
  - intros (E & El & Er). split; [|auto]. eapply Forall_impl; [|exact E]. intros p H b Eb.
    pose proof (map_nth_error (fun b => with_offset b f1em4) _ _ Eb) as Eb'. eapply box_in_trans; [|apply (H _ Eb')].
    apply with_offset_in; try reflexivity. apply Ok. eapply nth_error_In; eauto.
Qed.
Lemma binned_encloses : forall ppl aabbs centers bv t,
  binned_input aabbs centers -> Forall box_ok aabbs -> binned_build ppl aabbs centers bv ->
  repr (nodes bv) t -> t_idx t = 0 -> well_cut ppl aabbs centers (prim_indices bv) t ->
  encloses aabbs (prim_indices bv) t /\ Permutation (prims (prim_indices bv) t) (seq 0 (length aabbs)).
Proof.
  intros ppl aabbs centers bv t I Ok B Rp T0 Wc.
  destruct (binned_result _ _ _ _ I B) as (u & Ru & U0 & _ & Ps & _ & _ & Sh & Pi & _).
  assert (t = u) as -> by (apply (repr_unique (nodes bv)); congruence).
  pose proof I as (L & N & _). pose proof (result_prims _ _ _ _ u I B Ps) as Pr. pose proof (result_perm _ _ _ _ I B) as Pm.
  assert (sroom (max_leaf_size ppl) aabbs centers True (shape_of u) (prim_indices bv)) as Sr.
  { rewrite Sh, Pi. apply sah_of_room; auto.
    - cbn [root_ent e_ids]. apply Forall_forall. intros p Ip. apply in_seq in Ip. lia.
    - cbn [root_ent e_ids e_box]. unfold encl. apply Forall_forall. intros p _ b Eb.
      pose proof (C03_union_of_list_covers aabbs Ok) as Cv. rewrite Forall_forall in Cv. apply Cv. eapply nth_error_In; eauto. }
  clear Sh Pi. split; [|rewrite Pr; exact Pm]. apply unpad; auto.
  exact (sroom_tree (max_leaf_size ppl) aabbs centers (prim_indices bv) u True (prim_indices bv) Sr Pr Logic.I Wc).
Qed.

Theorem C61_binned : forall C ppl aabbs centers bv t (client : C -> nat -> ray -> C * ray) turns c o d t0,
  binned_input aabbs centers -> Forall box_ok aabbs -> binned_build ppl aabbs centers bv ->
  repr (nodes bv) t -> t_idx t = 0 -> depth t <= 31 -> well_cut ppl aabbs centers (prim_indices bv) t ->
  3 * length aabbs + 1 <= turns -> vfinite o -> dirs_fine d -> only_t client ->
  let r := ray_set_t (ray_new o d) t0 in
  exists ps rays c',
    iter_ray_indices (nodes bv) (prim_indices bv) client turns c r = Ok (ps, rays, c') /\
    forall i b, nth_error aabbs i = Some b -> axes_fine b o d -> hit_box r b = true -> In i ps.
Proof.
  intros C ppl aabbs centers bv t client turns c o d t0 I Ok B Rp T0 D Wc Fu Fo Hd Ot r.
  destruct (binned_encloses ppl aabbs centers bv t I Ok B Rp T0 Wc) as (En & Pm).
  destruct (binned_traversable ppl aabbs centers bv t) as (Tr & P1 & P2 & Sz & Sp); auto.
  destruct (C61_ray C (nodes bv) (prim_indices bv) aabbs t client turns c o d t0) as (ps & rays & c' & X & Y); auto.
  { unfold enough. lia. }
  exists ps, rays, c'. split; auto. intros i b Eb A H. apply (Y i b); auto.
  - apply (Permutation_in _ (Permutation_sym Pm)). apply in_seq. split; [lia|]. apply nth_error_Some. congruence.
  - rewrite Forall_forall in Ok. apply Ok. eapply nth_error_In; eauto.
Qed.

Theorem C61_binned_closest : forall ppl aabbs centers bv t dist turns o d t0,
  binned_input aabbs centers -> Forall box_ok aabbs -> binned_build ppl aabbs centers bv ->
  repr (nodes bv) t -> t_idx t = 0 -> depth t <= 31 -> well_cut ppl aabbs centers (prim_indices bv) t ->
  3 * length aabbs + 1 <= turns -> vfinite o -> dirs_fine d -> flt f0 t0 = true ->
  let r := ray_set_t (ray_new o d) t0 in
  (forall p x, dist p = Some x -> flt f0 x = true) ->
  (forall p x b, dist p = Some x -> nth_error aabbs p = Some b -> axes_fine b o d /\ hit_box r b = true) ->
  exists ps rays, iter_ray_prims (length aabbs) (nodes bv) (prim_indices bv) (closest_body dist) turns tt r = Ok (ps, rays, tt) /\
    last rays r = snd (client_fold (closest_body dist) (seq 0 (length aabbs)) tt r).
Proof.
  intros ppl aabbs centers bv t dist turns o d t0 I Ok B Rp T0 D Wc Fu Fo Hd Pt r Pd Hs.
  destruct (binned_encloses ppl aabbs centers bv t I Ok B Rp T0 Wc) as (En & Pm).
  destruct (binned_traversable ppl aabbs centers bv t) as (Tr & P1 & P2 & Sz & Sp); auto.
  apply (C61_closest (nodes bv) (prim_indices bv) aabbs t dist turns o d t0); auto. unfold enough. lia.
Qed.

Theorem C61_binned_quad : forall C ppl aabbs centers bv mfuel mb t (client : C -> nat -> ray -> C * ray) turns c o d t0,
  binned_input aabbs centers -> Forall box_ok aabbs -> binned_build ppl aabbs centers bv ->
  repr (nodes bv) t -> t_idx t = 0 -> depth t <= 22 -> well_cut ppl aabbs centers (prim_indices bv) t ->
  length (nodes bv) <= mfuel -> mbvh_construct mfuel bv = Ok mb -> quad_enough mb turns ->
  vfinite o -> lowers_ray client ->
  let r := ray_set_t (ray_new o d) t0 in
  exists ps rays c',
    miter_ray_indices (mnodes mb) (mb_indices mb) client turns c r = Ok (ps, rays, c') /\
    forall i b, nth_error aabbs i = Some b -> vle (bmin b) (bmax b) -> axes_fine b o d ->
      qhit (last rays r) (boxof b) = true -> In i ps.
Proof.
  intros C ppl aabbs centers bv mfuel mb t client turns c o d t0 I Ok B Rp T0 D Wc Mf Em Fu Fo Lo.
  destruct (binned_encloses ppl aabbs centers bv t I Ok B Rp T0 Wc) as (En & Pm).
  apply (C61_quad_ray C mb (nodes bv) (prim_indices bv) aabbs t); auto.
  split; [apply (binned_binary ppl aabbs centers bv t I B Rp T0)|]. exists mfuel. split; [auto|]. left. destruct bv; exact Em.
Qed.

(** Spatial splits, when the reference moves were harmless and no reference
    was duplicated (C22, C54). *)
Theorem C61_spatial_whole : forall C sorter ppl aabbs tris centers bv T t (client : C -> nat -> ray -> C * ray) turns c o d t0,
  PropSpatial.permutes sorter -> PropSpatial.spatial_input aabbs tris -> Forall box_ok aabbs ->
  SpatialModel.spatial_build sorter ppl aabbs tris centers bv ->
  SpecSpatial.seq_spatial sorter ppl aabbs tris centers = Ok T -> SpecSpatial.harmless T ->
  repr (nodes bv) t -> t_idx t = 0 -> depth t <= 31 -> length (positions t) = length aabbs ->
  enough t turns -> vfinite o -> dirs_fine d -> only_t client ->
  let r := ray_set_t (ray_new o d) t0 in
  exists ps rays c',
    iter_ray_indices (nodes bv) (prim_indices bv) client turns c r = Ok (ps, rays, c') /\
    forall i b, nth_error aabbs i = Some b -> axes_fine b o d -> hit_box r b = true -> In i ps.
Proof.
  intros C sorter ppl aabbs tris centers bv T t client turns c o d t0 Sp I Ok B ET Hm Rp T0 D Wh Fu Fo Hd Ot r.
  destruct (PropSpatialBox.C54_whole_partial _ _ _ _ _ _ _ _ Sp I Ok B ET Hm Rp T0) as (_ & En). destruct (En Wh) as [Pm Enc].
  pose proof I as (_ & _ & M).
  destruct (PropSpatial.spatial_result _ _ _ _ _ _ Sp I B) as (t' & T' & _ & _ & Rp' & T0' & _ & _ & Ps & Lp & Li & Lc).
  assert (t = t') as -> by (apply (repr_unique (nodes bv)); congruence).
  destruct (C61_ray C (nodes bv) (prim_indices bv) aabbs t' client turns c o d t0) as (ps & rays & c' & X & Y); auto.
  { repeat split; auto; try lia. apply Forall_forall. intros k Ik. apply (Permutation_in _ Ps) in Ik. apply in_seq in Ik. lia. }
  exists ps, rays, c'. split; auto. intros i b Eb A H. apply (Y i b); auto.
  - apply (Permutation_in _ (Permutation_sym Pm)). apply in_seq. split; [lia|]. apply nth_error_Some. congruence.
  - rewrite Forall_forall in Ok. apply Ok. eapply nth_error_In; eauto.
Qed.

(** ** The hypothesis on the axes is needed

    A ray with x direction +0 whose origin is on the x plane of the inner box:
    the plane gives NaN, which masks the entry through y, and the inner box
    passes although the box around it (rightly) does not. *)
Definition inner61 : aabb := Bb (pt 0 5 1) 0 (pt 1 6 2) 0.
Definition outer61 : aabb := Bb (pt (-1) 5 1) 0 (pt 1 6 2) 0.
Definition ray61 : ray := ray_new (pt 0 0 0) (V3 (B754_zero false) (fz 1) (fz 1)).
Theorem C61_axes_refuted : box_in inner61 outer61 /\ vfinite (pt 0 0 0) /\ dirs_fine (V3 (B754_zero false) (fz 1) (fz 1)) /\
  hit_box ray61 inner61 = true /\ intersects inner61 ray61 = true /\
  hit_box ray61 outer61 = false /\ intersects outer61 ray61 = false.
Proof.
  assert (dir_fine (fz 1)) as D.
  { left. split; [reflexivity|]. replace (fval (fz 1)) with 1%R by (vm_compute; lra). rewrite Rabs_R1.
    change 1%R with (bpow radix2 0). split; apply bpow_le; lia. }
  split; [repeat split; vm_compute; reflexivity|]. split; [repeat split; reflexivity|].
  split; [split; [right; reflexivity|split; exact D]|].
  repeat split; vm_compute; reflexivity.
Qed.

(** ** Concrete cases *)

(** The scenes of [C45_nonvacuous] and [C59_nonvacuous]: the ray along x (its y
    and z directions are +0) passes the test of box 0, lane by lane too. *)
Example C61_nonvacuous :
  locb_input lbs lcs /\ Forall box_ok lbs /\ (exists bv, locb_build 6 3 lbs lcs = Ok bv) /\ vfinite o45 /\ dirs_fine d45 /\
  axes_fine (lb 0) o45 d45 /\ vle (bmin (lb 0)) (bmax (lb 0)) /\ hit_box (ray_new o45 d45) (lb 0) = true /\
  qhit (ray_new o45 d45) (boxof (lb 0)) = true /\
  lane_is p58 2 o45 d45 /\ lane_passes p58 2 (lb 0) = true /\ qhit_lane p58 2 (boxof (lb 0)) = true /\
  Forall box_ok cubes /\ axes_fine (cube 0) (V3 (fz (-1)) half_f half_f) d45 /\
  hit_box (ray_new (V3 (fz (-1)) half_f half_f) d45) (cube 0) = true.
Proof.
  destruct C45_nonvacuous as (I & W & _ & E & Wo & Hd & E0 & _ & _).
  destruct C58_nonvacuous as (_ & _ & _ & _ & _ & _ & _ & _ & _ & _ & L).
  assert (forall lo hi o, flt lo o = true -> flt o hi = true -> axis_fine lo hi o (B754_zero false)) as Z by (intros; right; auto).
  assert (forall lo hi o, axis_fine lo hi o (vx d45)) as X.
  { intros. left. split; [reflexivity|]. replace (fval (vx d45)) with 1%R by (vm_compute; lra). rewrite Rabs_R1.
    change 1%R with (bpow radix2 0). split; apply bpow_le; lia. }
  split; auto. split; [eapply Forall_impl; [|apply W]; intros x; apply within_ok|]. split; auto.
  split; [repeat split; reflexivity|]. split; auto.
  split; [split; [apply X|split; apply Z; vm_compute; reflexivity]|].
  split; [repeat split; vm_compute; reflexivity|].
  split; [vm_compute; reflexivity|]. split; [vm_compute; reflexivity|]. split; [apply L; lia|].
  split; [vm_compute; reflexivity|]. split; [vm_compute; reflexivity|].
  split; [unfold cubes; repeat constructor; vm_compute; reflexivity|].
  split; [split; [apply X|split; apply Z; vm_compute; reflexivity]|]. vm_compute. reflexivity.
Qed.
