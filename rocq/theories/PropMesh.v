(** * Property C60: tracing a triangle mesh through a BVH finds what trying
    every triangle finds *)
Require Import List ZArith Bool Arith Lia Permutation Reals Lra.
From Flocq Require Import Core BinarySingleNaN.
From Verif Require Import F32 F32Facts Vec RayModel Base AabbModel NodeModel IterModel BinnedModel BinnedProofs MbvhModel SpecGeom SpecSlab SpecTree SpecTraverse SpecMbvh
  AabbProofs MeasureProofs SlabProofs Slab4Proofs IterProofs TraverseProofs ClosestProofs MbvhClient LocbModel LocbProofs
  SpecBinned BinnedFacts BinnedCost BinnedRoom TriModel SpecTri SpecMesh TriProofs TriError
  PropBox PropSlab PropTraverse PropLocb PropNoMiss PropMbvh PropNoMiss4 PropBinned PropNoMissBinned PropTri PropTriError NearProofs MeshProofs.
Import ListNotations.
Local Open Scope nat_scope.

(** ** From a reported triangle to its box *)

Lemma vwithin_coords : forall m v, ffinite m -> (fval m <= 1048576)%R -> vwithin m v -> coords_within (fval m) v.
Proof.
  intros m v Fm Bm ((L1 & L2 & L3) & (U1 & U2 & U3)). cbn [vsplat vx vy vz] in *. unfold ffinite, fval in *.
  assert (forall x : f32, fle (fneg m) x = true -> fle x m = true -> fin x /\ (Rabs (B2R x) <= B2R m)%R) as G.
  { intros x L U. destruct (fle_notnan _ _ U) as [N Nm]. destruct (fr_neg m Nm) as [Nn En].
    apply fle_spec in L; auto. apply fle_spec in U; auto. rewrite En in L. rewrite (fr_fin m) in * by auto.
    assert (fin x) as F.
    { apply fin_of_fr; auto. apply Rle_lt_trans with (bpow radix2 20).
      - apply Rabs_le. simpl. lra.
      - apply bpow_lt. reflexivity. }
    split; auto. rewrite (fr_fin x) in * by auto. apply Rabs_le. lra. }
  destruct (G _ L1 U1), (G _ L2 U2), (G _ L3 U3). split; [split; auto|]. unfold fval. auto.
Qed.

Lemma inside_coords : forall m margin bx v, ffinite m -> (fval m <= 1048576)%R -> (0 <= margin)%R ->
  box_within m bx -> vertex_inside margin bx v -> coords_within (fval m) v.
Proof.
  intros m margin bx v Fm Bm Mg [W1 W2] (Fv & V1 & V2 & V3).
  destruct (vwithin_coords m _ Fm Bm W1) as (_ & A1 & A2 & A3). destruct (vwithin_coords m _ Fm Bm W2) as (_ & B1 & B2 & B3).
  apply Rabs_le_inv in A1. apply Rabs_le_inv in A2. apply Rabs_le_inv in A3.
  apply Rabs_le_inv in B1. apply Rabs_le_inv in B2. apply Rabs_le_inv in B3.
  split; auto. repeat split; apply Rabs_le; lra.
Qed.

(** What [mesh_fits] gives for a triangle with a hit at [x] near the exact
    parameter [t]. *)
Lemma fits_near : forall m d margin rel far reports tris aabbs o dir p tr bx x t, (0 <= rel)%R ->
  mesh_fits m d margin rel far reports tris aabbs o dir -> (fval m <= 128)%R ->
  nth_error tris p = Some tr -> nth_error aabbs p = Some bx -> reports tr = true ->
  (fval f1em4 <= fval x)%R ->
  near_triangle (half_ulp * (758 * (fval m * fval m * d) / seen tr dir + 2)) (rv (tv0 tr)) (rv (tv1 tr)) (rv (tv2 tr)) (rv o) (rv dir) t ->
  (Rabs (fval x - t) <= half_ulp * (fval m * fval m * d * (165 * Rabs (fval x) + 1) + 472 * (fval m * fval m * fval m)) / seen tr dir)%R ->
  exists mu, (0 <= mu)%R /\ (mu + half_ulp * (rel * fval m + 2) <= fval f1em4)%R /\
    (exists s, (fval f1em4 <= s)%R /\ ray_point_near mu bx o dir s) /\
    (reaches (fval m) far dir -> exists s, (fval f1em4 <= s <= fval x)%R /\ (s <= far)%R /\ ray_point_near mu bx o dir s).
Proof.
  intros m d margin rel far reports tris aabbs o dir p tr bx x t R0
    (Ln & Wa & Wo & Fm & M1 & [D1 D2] & Wd & [G0 G1] & F1 & Hr & Ht) Mx Et Eb Rp Lx N E.
  destruct (Ht p tr bx Et Eb) as ((I0 & I1 & I2) & Hs). destruct (Hs Rp) as [NZ Cl].
  assert (box_within m bx) as Wb by (rewrite Forall_forall in Wa; apply Wa; eapply nth_error_In; eauto).
  assert (fval m <= 1048576)%R as Mb by lra.
  pose proof (inside_coords m margin bx _ Fm Mb G0 Wb I0) as C0.
  pose proof (inside_coords m margin bx _ Fm Mb G0 Wb I1) as C1.
  pose proof (inside_coords m margin bx _ Fm Mb G0 Wb I2) as C2.
  pose proof (vwithin_coords m o Fm Mb Wo) as Co.
  assert (0 < seen tr dir)%R as PA by (unfold seen in *; pose proof (Rabs_pos (facing (rv (tv0 tr)) (rv (tv1 tr)) (rv (tv2 tr)) (rv dir))); lra).
  set (A := seen tr dir) in *. set (b := fval m) in *.
  pose proof fr_1em4_bounds as Fb. change (fr f1em4) with (fval f1em4) in Fb.
  assert (0 <= half_ulp * (rel * b + 2))%R as P.
  { apply Rmult_le_pos; [unfold half_ulp; lra|]. assert (0 <= rel * b)%R by (apply Rmult_le_pos; lra). lra. }
  assert (clearance b d A far <= / 4)%R as C4 by lra.
  assert (0 < fval f1em4 <= / 1000)%R as Hm0 by lra.
  pose proof (clearance_eq b d A far PA F1) as Ce.
  assert (0 <= e_of b d A)%R as Pe by exact (e_pos b d A (fval f1em4) M1 D1 PA Hm0).
  assert (forall s, (Rabs (s - t) <= err b d A far)%R -> ray_point_near (Rmax 0 (clearance b d A far - margin)) bx o dir s) as K.
  { intros s Hst.
    pose proof (near_box margin (e_of b d A) b d (err b d A far) bx tr o dir t s Pe Hst C0 C1 C2 Wd (conj I0 (conj I1 I2)) N) as Q.
    rewrite <- Ce in Q. pose proof (Rmax_r 0 (clearance b d A far - margin)) as Rm.
    destruct Q as (Q1 & Q2 & Q3). repeat split; lra. }
  exists (Rmax 0 (clearance b d A far - margin)). split; [apply Rmax_l|]. split; [|split].
  - unfold Rmax. destruct (Rle_dec 0 (clearance b d A far - margin)); lra.
  - destruct (clamp_low b d A far (fval f1em4) M1 D1 PA F1 C4 Hm0 (fval x) t Lx E) as (s & S1 & S2). exists s. auto.
  - intro Re. pose proof (near_far b d A far (fval f1em4) M1 D1 PA F1 C4 Hm0 tr o dir t C0 C1 C2 Co Re N) as Tf.
    destruct (clamp_both b d A far (fval f1em4) M1 D1 PA F1 C4 Hm0 (fval x) t Lx E Tf) as (s & S1 & S2 & S3). exists s. auto.
Qed.

Lemma ray_hit_box : forall m d margin far tris aabbs o dir t0 p x bx,
  let r := ray_set_t (ray_new o dir) t0 in
  mesh_fits m d margin 13 far (ray_reports r) tris aabbs o dir -> (fval m <= 128)%R ->
  mesh_dist tris r p = Some x -> nth_error aabbs p = Some bx ->
  ffinite x /\ flt f0 x = true /\
  exists mu, bound_ok m 6 mu /\ (exists s, (fval f1em4 <= s)%R /\ ray_point_near mu bx o dir s) /\
    (reaches (fval m) far dir -> exists s, (fval f1em4 <= s <= fval x)%R /\ ray_point_near mu bx o dir s).
Proof.
  intros m d margin far tris aabbs o dir t0 p x bx r Fit Mx Ed Eb.
  apply mesh_dist_hit in Ed as (tr & Et & Hit).
  pose proof Fit as (Ln & Wa & Wo & Fm & M1 & [D1 D2] & Wd & [G0 G1] & F1 & Hr & Ht).
  destruct (Ht p tr bx Et Eb) as ((I0 & I1 & I2) & Hs).
  assert (ray_reports r tr = true) as Rp by (unfold ray_reports; rewrite Hit; reflexivity).
  destruct (Hs Rp) as [NZ Cl].
  assert (box_within m bx) as Wb by (rewrite Forall_forall in Wa; apply Wa; eapply nth_error_In; eauto).
  assert (fval m <= 1048576)%R as Mb by lra.
  assert (1 <= fval m <= 1048576)%R as Mb' by lra.
  assert (1 <= d <= 1048576)%R as Db by lra.
  destruct (C38_f32_sound (fval m) d tr r (ray_set_t r x) Mb' Db (inside_coords m margin bx _ Fm Mb G0 Wb I0)
    (inside_coords m margin bx _ Fm Mb G0 Wb I1) (inside_coords m margin bx _ Fm Mb G0 Wb I2) (vwithin_coords m o Fm Mb Wo) Wd NZ Hit)
    as (Fx & t & N & E).
  change (r_t (ray_set_t r x)) with x in *.
  destruct (C37_scalar _ _ _ _ Hit) as [Q _]. destruct (Q eq_refl) as (x' & Ex & L1 & _).
  assert (x' = x) as -> by (assert (r_t (ray_set_t r x) = r_t (ray_set_t r x')) as K by congruence; exact (eq_sym K)).
  change (r_tmin r) with f1em4 in L1.
  assert (flt f0 x = true) as P0 by (eapply flt_trans; [|exact L1]; vm_compute; reflexivity).
  assert (fval f1em4 <= fval x)%R as Lx.
  { destruct (flt_notnan _ _ L1) as [U1 U2]. apply flt_spec in L1; auto. rewrite (fr_fin x) in L1 by exact Fx.
    change (fr f1em4) with (fval f1em4) in L1. unfold fval at 2. lra. }
  split; auto. split; auto.
  destruct (fits_near m d margin 13 far _ tris aabbs o dir p tr bx x t ltac:(lra) Fit Mx Et Eb Rp Lx N E) as (mu & U0 & U1 & U2 & U3).
  exists mu. split; [|split; [auto|intro Re; destruct (U3 Re) as (s & V1 & _ & V2); exists s; auto]].
  assert (fr m = fval m) as Em by (rewrite fr_fin by exact Fm; reflexivity).
  split; [exact Fm|]. rewrite Em. split; [lra|]. split; auto. change (fr f1em4) with (fval f1em4).
  replace ue with half_ulp by (unfold half_ulp, ue; simpl; lra). lra.
Qed.

Lemma shorter_self : forall r, flt f0 (r_t r) = true -> shorter r r.
Proof. intros r H. exists (r_t r). split; [destruct r; reflexivity|]. apply fle_refl. apply flt_notnan in H. tauto. Qed.

Lemma mesh_iter : forall tris nodes indices turns r, flt f0 (r_t r) = true ->
  iter_ray_prims (length tris) nodes indices (mesh_body tris) turns tt r =
  iter_ray_prims (length tris) nodes indices (closest_body (mesh_dist tris r)) turns tt r.
Proof.
  intros. unfold iter_ray_prims. apply (bvh_run_ext _ _ _ _ _ _ _ _ _ _ (shorter r)); auto using shorter_self.
  intros c p r'. apply mesh_is_closest.
Qed.
Lemma mesh_miter : forall tris nodes indices turns r, flt f0 (r_t r) = true ->
  miter_ray_prims (length tris) nodes indices (mesh_body tris) turns tt r =
  miter_ray_prims (length tris) nodes indices (closest_body (mesh_dist tris r)) turns tt r.
Proof.
  intros. unfold miter_ray_prims. apply (mbvh_run_ext _ _ _ _ _ _ _ _ (shorter r)); auto using shorter_self.
  intros c p r'. apply mesh_is_closest.
Qed.
Lemma mesh_brute : forall tris r ps, flt f0 (r_t r) = true ->
  client_fold (mesh_body tris) ps tt r = client_fold (closest_body (mesh_dist tris r)) ps tt r.
Proof.
  intros. apply (client_fold_ext _ _ _ _ (shorter r)); auto using shorter_self. intros c p r'. apply mesh_is_closest.
Qed.

(** ** C60: rays *)

Lemma le_128 : forall m, ffinite m -> (1 <= fval m <= 128)%R -> fle m f128 = true /\ fle (fneg f128) (fneg m) = true.
Proof.
  intros m Fm [L U]. unfold fval, ffinite in *. pose proof (fin_notnan _ Fm) as N. destruct (fr_neg m N) as [N1 E1].
  destruct (fr_neg f128 eq_refl) as [N2 E2]. split; apply fle_spec; auto; rewrite ?E1, ?E2, fr_128, (fr_fin m) by auto; lra.
Qed.

Lemma fits_128 : forall m d margin rel far reports tris aabbs o dir, (fval m <= 128)%R ->
  mesh_fits m d margin rel far reports tris aabbs o dir -> Forall (box_within f128) aabbs /\ vwithin f128 o /\ length tris = length aabbs.
Proof.
  intros m d margin rel far reports tris aabbs o dir Mx (Ln & Wa & Wo & Fm & M1 & _).
  destruct (le_128 m Fm ltac:(lra)) as [A B]. split; [|split; auto].
  - eapply Forall_impl; [|exact Wa]. intros x. apply within_mono; auto.
  - eapply vwithin_mono; [| |exact Wo]; auto.
Qed.

(** Any binary BVH whose node boxes contain the primitives' boxes padded by
    1e-4. *)
Theorem C60_ray : forall m d margin tris aabbs nodes indices t turns o dir t0,
  let r := ray_set_t (ray_new o dir) t0 in
  mesh_fits m d margin 13 1 (ray_reports r) tris aabbs o dir -> (fval m <= 128)%R -> dirs_fine dir -> flt f0 t0 = true ->
  traversable nodes indices t -> Permutation (positions t) (seq 0 (length indices)) ->
  Permutation indices (seq 0 (length aabbs)) -> roomy aabbs indices t -> enough t turns ->
  exists ps rays,
    iter_ray_prims (length tris) nodes indices (mesh_body tris) turns tt r = Ok (ps, rays, tt) /\
    last rays r = snd (client_fold (mesh_body tris) (seq 0 (length tris)) tt r).
Proof.
  intros m d margin tris aabbs nodes indices t turns o dir t0 r Fit Mx Hd Pt Tr P1 P2 [En Wi] Fu.
  destruct (fits_128 _ _ _ _ _ _ _ _ _ _ Mx Fit) as (W & Wo & Ln).
  assert (flt f0 (r_t r) = true) as Pr by exact Pt.
  rewrite mesh_iter, mesh_brute by auto. rewrite Ln.
  destruct (ray_vok o dir t0 Wo Hd) as [V1 V2]. destruct Tr as (Hn & Hi & Rp & T0 & Dp & F).
  assert (forall p x, mesh_dist tris r p = Some x -> exists bx, nth_error aabbs p = Some bx) as Bx.
  { intros p x E. apply mesh_dist_hit in E as (tr & Et & _). assert (p < length aabbs) as L by (rewrite <- Ln; apply nth_error_Some; congruence).
    apply nth_error_Some in L. destruct (nth_error aabbs p) as [bx|]; [eauto|congruence]. }
  apply (closest_hit_gen nodes indices (length aabbs) t (mesh_dist tris r) r turns); auto.
  - intros p x E. destruct (Bx p x E) as [bx Eb]. apply (ray_hit_box m d margin 1 tris aabbs o dir t0 p x bx); auto.
  - intros p x E Lp. destruct (Bx p x E) as [bx Eb].
    destruct (ray_hit_box m d margin 1 tris aabbs o dir t0 p x bx Fit Mx E Eb) as (Fx & Px & mu & Bo & (s & S1 & S2) & _).
    destruct Fit as (_ & Wa & Wom & _).
    assert (In p (prims indices t)) as Ii.
    { apply (Permutation_in _ (Permutation_sym (prims_valid _ _ _ P1 P2))). apply in_seq. lia. }
    destruct (reached_prim (hit_box r) (map (fun b => with_offset b f1em4) aabbs) indices p (with_offset bx f1em4)) with (t := t) as (n & I1 & I2); auto.
    + apply (map_nth_error (fun b => with_offset b f1em4)); auto.
    + eapply all_recs_impl; [|apply Wi]. intros n Wn Bn. apply (near_rhit m mu bx n o dir s t0); auto.
      rewrite Forall_forall in Wa. apply Wa. eapply nth_error_In; eauto.
    + apply in_flat_map. exists n. auto.
Qed.

(** The 4-wide BVH made of such a binary one, for a ray that leaves the scene
    within distance [far]. *)
Theorem C60_quad : forall m d margin far tris aabbs mb ns indices t turns o dir t0,
  let r := ray_set_t (ray_new o dir) t0 in
  mesh_fits m d margin 13 far (ray_reports r) tris aabbs o dir -> reaches (fval m) far dir ->
  (fval m <= 128)%R -> dirs_fine dir -> flt f0 t0 = true ->
  made_from mb ns indices (length aabbs) t -> roomy aabbs indices t -> depth t <= 22 -> quad_enough mb turns ->
  exists ps rays,
    miter_ray_prims (length tris) (MbvhModel.m_nodes mb) (mb_indices mb) (mesh_body tris) turns tt r = Ok (ps, rays, tt) /\
    last rays r = snd (client_fold (mesh_body tris) (seq 0 (length tris)) tt r).
Proof.
  intros m d margin far tris aabbs mb ns indices t turns o dir t0 r Fit Re Mx Hd Pt Hm Ro D Fu.
  destruct (fits_128 _ _ _ _ _ _ _ _ _ _ Mx Fit) as (W & Wo & Ln).
  assert (flt f0 (r_t r) = true) as Pr by exact Pt.
  rewrite mesh_miter, mesh_brute by auto. rewrite Ln.
  pose proof Hm as [(A & B & Cc & Dd & Ee & F & G & H & I) _].
  assert (forall p x, mesh_dist tris r p = Some x -> exists bx, nth_error aabbs p = Some bx) as Bx.
  { intros p x E. apply mesh_dist_hit in E as (tr & Et & _). assert (p < length aabbs) as L by (rewrite <- Ln; apply nth_error_Some; congruence).
    apply nth_error_Some in L. destruct (nth_error aabbs p) as [bx|]; [eauto|congruence]. }
  apply (C27_closest_hit mb ns indices (length aabbs) t (mesh_dist tris r) r turns); auto.
  - intros p x E. destruct (Bx p x E) as [bx Eb]. apply (ray_hit_box m d margin far tris aabbs o dir t0 p x bx); auto.
  - intros p x y bb E Iy Ip Ib t' Ht'. destruct (Bx p x E) as [bx Eb].
    destruct (ray_hit_box m d margin far tris aabbs o dir t0 p x bx Fit Mx E Eb) as (Fx & Px & mu & Bo & _ & Q).
    destruct (Q Re) as (s & (S1 & S2) & S3). destruct Fit as (_ & Wa & Wom & _).
    pose proof (paths_around aabbs indices t Ro y p bx Iy Ip Eb) as Pa. rewrite Forall_forall in Pa.
    destruct (Pa bb Ib) as (n & -> & Q1 & Q2).
    apply (near_qhit m mu bx n o dir s) with x; auto.
    + rewrite Forall_forall in Wa. apply Wa. eapply nth_error_In; eauto.
    + apply flt_fle; auto.
Qed.

(** BVHs of the locally-ordered-clustering builder. *)
Theorem C60_locb : forall m d margin tris fuel threads aabbs centers bv t turns o dir t0,
  let r := ray_set_t (ray_new o dir) t0 in
  mesh_fits m d margin 13 1 (ray_reports r) tris aabbs o dir -> (fval m <= 128)%R -> dirs_fine dir -> flt f0 t0 = true ->
  locb_input aabbs centers -> 1 <= threads -> 3 <= length aabbs -> locb_build fuel threads aabbs centers = Ok bv ->
  repr (nodes bv) t -> t_idx t = 0 -> depth t <= 31 -> 3 * length aabbs + 1 <= turns ->
  exists ps rays,
    iter_ray_prims (length tris) (nodes bv) (prim_indices bv) (mesh_body tris) turns tt r = Ok (ps, rays, tt) /\
    last rays r = snd (client_fold (mesh_body tris) (seq 0 (length tris)) tt r).
Proof.
  intros m d margin tris fuel threads aabbs centers bv t turns o dir t0 r Fit Mx Hd Pt I T N3 E Rp T0 D Fu.
  destruct (fits_128 _ _ _ _ _ _ _ _ _ _ Mx Fit) as (W & Wo & Ln).
  destruct (locb_traversable fuel threads aabbs centers bv t) as (Tr & P1 & P2 & Sz & Sp); auto.
  destruct (locb_roomy fuel threads aabbs centers bv t) as (Ro & Bi & _); auto.
  { eapply Forall_impl; [|apply W]. intros x. apply within_mono; vm_compute; reflexivity. }
  apply (C60_ray m d margin tris aabbs (nodes bv) (prim_indices bv) t turns o dir t0); auto. unfold enough. lia.
Qed.

Theorem C60_locb_quad : forall m d margin far tris fuel threads aabbs centers bv mfuel mb t turns o dir t0,
  let r := ray_set_t (ray_new o dir) t0 in
  mesh_fits m d margin 13 far (ray_reports r) tris aabbs o dir -> reaches (fval m) far dir ->
  (fval m <= 128)%R -> dirs_fine dir -> flt f0 t0 = true ->
  locb_input aabbs centers -> 1 <= threads -> 3 <= length aabbs -> locb_build fuel threads aabbs centers = Ok bv ->
  repr (nodes bv) t -> t_idx t = 0 -> depth t <= 22 ->
  length (nodes bv) <= mfuel -> mbvh_construct mfuel bv = Ok mb -> quad_enough mb turns ->
  exists ps rays,
    miter_ray_prims (length tris) (MbvhModel.m_nodes mb) (mb_indices mb) (mesh_body tris) turns tt r = Ok (ps, rays, tt) /\
    last rays r = snd (client_fold (mesh_body tris) (seq 0 (length tris)) tt r).
Proof.
  intros m d margin far tris fuel threads aabbs centers bv mfuel mb t turns o dir t0 r Fit Re Mx Hd Pt I T N3 E Rp T0 D Mf Em Fu.
  destruct (fits_128 _ _ _ _ _ _ _ _ _ _ Mx Fit) as (W & Wo & Ln).
  destruct (locb_roomy fuel threads aabbs centers bv t) as (Ro & Bi & _); auto.
  { eapply Forall_impl; [|apply W]. intros x. apply within_mono; vm_compute; reflexivity. }
  apply (C60_quad m d margin far tris aabbs mb (nodes bv) (prim_indices bv) t turns o dir t0); auto.
  split; auto. exists mfuel. split; [auto|]. left. destruct bv; exact Em.
Qed.

(** BVHs of the binned-SAH builder, for every schedule of the build. *)
Theorem C60_binned : forall m d margin tris ppl aabbs centers bv t turns o dir t0,
  let r := ray_set_t (ray_new o dir) t0 in
  mesh_fits m d margin 13 1 (ray_reports r) tris aabbs o dir -> (fval m <= 128)%R -> dirs_fine dir -> flt f0 t0 = true ->
  binned_input aabbs centers -> binned_build ppl aabbs centers bv ->
  repr (nodes bv) t -> t_idx t = 0 -> depth t <= 31 -> well_cut ppl aabbs centers (prim_indices bv) t ->
  3 * length aabbs + 1 <= turns ->
  exists ps rays,
    iter_ray_prims (length tris) (nodes bv) (prim_indices bv) (mesh_body tris) turns tt r = Ok (ps, rays, tt) /\
    last rays r = snd (client_fold (mesh_body tris) (seq 0 (length tris)) tt r).
Proof.
  intros m d margin tris ppl aabbs centers bv t turns o dir t0 r Fit Mx Hd Pt I B Rp T0 D Wc Fu.
  destruct (fits_128 _ _ _ _ _ _ _ _ _ _ Mx Fit) as (W & Wo & Ln).
  destruct (binned_traversable ppl aabbs centers bv t) as (Tr & P1 & P2 & Sz & Sp); auto.
  apply (C60_ray m d margin tris aabbs (nodes bv) (prim_indices bv) t turns o dir t0); auto; [|unfold enough; lia].
  apply (binned_roomy ppl aabbs centers bv t); auto.
  eapply Forall_impl; [|apply W]. intros x. apply within_mono; vm_compute; reflexivity.
Qed.

Theorem C60_binned_quad : forall m d margin far tris ppl aabbs centers bv mfuel mb t turns o dir t0,
  let r := ray_set_t (ray_new o dir) t0 in
  mesh_fits m d margin 13 far (ray_reports r) tris aabbs o dir -> reaches (fval m) far dir ->
  (fval m <= 128)%R -> dirs_fine dir -> flt f0 t0 = true ->
  binned_input aabbs centers -> binned_build ppl aabbs centers bv ->
  repr (nodes bv) t -> t_idx t = 0 -> depth t <= 22 -> well_cut ppl aabbs centers (prim_indices bv) t ->
  length (nodes bv) <= mfuel -> mbvh_construct mfuel bv = Ok mb -> quad_enough mb turns ->
  exists ps rays,
    miter_ray_prims (length tris) (MbvhModel.m_nodes mb) (mb_indices mb) (mesh_body tris) turns tt r = Ok (ps, rays, tt) /\
    last rays r = snd (client_fold (mesh_body tris) (seq 0 (length tris)) tt r).
Proof.
  intros m d margin far tris ppl aabbs centers bv mfuel mb t turns o dir t0 r Fit Re Mx Hd Pt I B Rp T0 D Wc Mf Em Fu.
  destruct (fits_128 _ _ _ _ _ _ _ _ _ _ Mx Fit) as (W & Wo & Ln).
  apply (C60_quad m d margin far tris aabbs mb (nodes bv) (prim_indices bv) t turns o dir t0); auto.
  - split; [eapply binned_binary; eauto|]. exists mfuel. split; [auto|]. left. destruct bv; exact Em.
  - apply (binned_roomy ppl aabbs centers bv t); auto.
    eapply Forall_impl; [|apply W]. intros x. apply within_mono; vm_compute; reflexivity.
Qed.

(** ** C60: packets *)

Lemma lane_hit_box : forall m d margin far tris aabbs p t_min k o dir i x bx,
  mesh_fits m d margin 35 far (lane_reports p t_min k) tris aabbs o dir -> (fval m <= 128)%R ->
  lane_traces p k o dir -> fle f1em4 (wget t_min k) = true -> reaches (fval m) far dir ->
  mesh_dist4 tris p t_min k i = Some x -> nth_error aabbs i = Some bx ->
  ffinite x /\ (fval f1em4 <= fval x)%R /\
  exists mu, bound_ok m 17 mu /\ exists s, (fval f1em4 <= s <= fval x)%R /\ (s <= far)%R /\ ray_point_near mu bx o dir s.
Proof.
  intros m d margin far tris aabbs p t_min k o dir i x bx Fit Mx (K & Eo & Ed & Ei) Tm Re Eh Eb.
  destruct (mesh_dist4_hit tris p t_min k i x K Eh) as (tr & mk & p' & Et & Hit & Mk & Ex).
  pose proof Fit as (Ln & Wa & Wo & Fm & M1 & [D1 D2] & Wd & [G0 G1] & F1 & Hr & Ht).
  destruct (Ht i tr bx Et Eb) as ((I0 & I1 & I2) & Hs).
  assert (lane_reports p t_min k tr = true) as Rp by (unfold lane_reports; rewrite Hit; exact Mk).
  destruct (Hs Rp) as [NZ Cl].
  assert (box_within m bx) as Wb by (rewrite Forall_forall in Wa; apply Wa; eapply nth_error_In; eauto).
  assert (fval m <= 1048576)%R as Mb by lra.
  assert (1 <= fval m <= 1048576)%R as Mb' by lra.
  assert (1 <= d <= 1048576)%R as Db by lra.
  assert (exists r, lane_ray p t_min k = Ok r /\ r_origin r = o /\ r_dir r = dir) as (r & Lr & Ro & Rd).
  { unfold lane_ray, packet_ray. destruct (Nat.ltb_spec k 4) as [_|]; [|lia]. cbn [bind]. eexists. split; [reflexivity|]. cbn [r_origin r_dir]. auto. }
  pose proof (inside_coords m margin bx _ Fm Mb G0 Wb I0) as C0.
  pose proof (inside_coords m margin bx _ Fm Mb G0 Wb I1) as C1.
  pose proof (inside_coords m margin bx _ Fm Mb G0 Wb I2) as C2.
  pose proof (vwithin_coords m o Fm Mb Wo) as Co.
  rewrite <- Ro in Co. rewrite <- Rd in Wd, NZ.
  destruct (C38_f32_packet_sound (fval m) d tr p t_min k r mk p' Mb' Db Lr C0 C1 C2 Co Wd NZ Hit Mk) as (Fx & t & N & E).
  rewrite Ro, Rd in N. rewrite Rd in E. rewrite Ex in Fx, E.
  pose proof (C37_packet tr p t_min _ _ Hit) as (_ & _ & Q). specialize (Q k K). rewrite Mk, Ex in Q. destruct Q as [Q1 Q2].
  assert (fle f1em4 x = true) as L1 by (eapply fle_trans; eauto).
  assert (fval f1em4 <= fval x)%R as Lx.
  { destruct (fle_notnan _ _ L1) as [U1 U2]. apply fle_spec in L1; auto. rewrite (fr_fin x) in L1 by exact Fx.
    change (fr f1em4) with (fval f1em4) in L1. unfold fval at 2. lra. }
  split; auto. split; auto.
  destruct (fits_near m d margin 35 far _ tris aabbs o dir i tr bx x t ltac:(lra) Fit Mx Et Eb Rp Lx N E) as (mu & U0 & U1 & U2 & U3).
  exists mu. split; [|auto].
  assert (fr m = fval m) as Em by (rewrite fr_fin by exact Fm; reflexivity).
  split; [exact Fm|]. rewrite Em. split; [lra|]. split; auto. change (fr f1em4) with (fval f1em4).
  replace ue with half_ulp by (unfold half_ulp, ue; simpl; lra). lra.
Qed.

(** If every triangle that meets the lane not beyond its final distance has
    been handed to the loop, the lane's final distance is that of the loop
    over all triangles. *)
Lemma lane_final : forall m d margin far tris aabbs p t_min k o dir ps,
  mesh_fits m d margin 35 far (lane_reports p t_min k) tris aabbs o dir -> (fval m <= 128)%R ->
  lane_traces p k o dir -> fle f1em4 (wget t_min k) = true -> reaches (fval m) far dir ->
  ffinite (wget (p_t p) k) -> flt f0 (wget (p_t p) k) = true ->
  let final := wget (p_t (snd (client_fold (mesh_body4 tris t_min) ps tt p))) k in
  (ffinite final -> forall i x, mesh_dist4 tris p t_min k i = Some x -> (fval x <= fval final)%R -> In i ps) ->
  final = wget (p_t (snd (client_fold (mesh_body4 tris t_min) (seq 0 (length tris)) tt p))) k.
Proof.
  intros m d margin far tris aabbs p t_min k o dir ps Fit Mx Lt Tm Re Ft Pt final Vis.
  pose proof (fin_notnan _ Ft : fnan (wget (p_t p) k) = false) as Nt.
  pose proof Fit as (Ln & _).
  assert (forall i x, mesh_dist4 tris p t_min k i = Some x -> ffinite x /\ (fval f1em4 <= fval x)%R) as Hd.
  { intros i x E. destruct (mesh_dist4_hit tris p t_min k i x (proj1 Lt) E) as (tr & _ & _ & Et & _).
    assert (i < length aabbs) as L by (rewrite <- Ln; apply nth_error_Some; congruence).
    apply nth_error_Some in L. destruct (nth_error aabbs i) as [bx|] eqn:Eb; [|congruence].
    destruct (lane_hit_box m d margin far tris aabbs p t_min k o dir i x bx Fit Mx Lt Tm Re E Eb) as (A & B & _). auto. }
  set (r0 := ray_set_t (ray_new (V3 f0 f0 f0) (V3 f0 f0 f0)) (wget (p_t p) k)).
  assert (forall ps', wget (p_t (snd (client_fold (mesh_body4 tris t_min) ps' tt p))) k =
     r_t (snd (client_fold (closest_body (mesh_dist4 tris p t_min k)) ps' tt r0))) as G.
  { intro ps'. rewrite (packet_set_same p) at 1. unfold r0. apply mesh_lane. apply fle_refl. exact Nt. }
  assert (forall i x, mesh_dist4 tris p t_min k i = Some x -> fnan x = false) as Nd.
  { intros i x E. destruct (Hd i x E) as [F _]. apply fin_notnan. exact F. }
  assert (forall ps', let z := wget (p_t (snd (client_fold (mesh_body4 tris t_min) ps' tt p))) k in
    ffinite z /\ (fval z > 0)%R /\ (fval z <= fval (wget (p_t p) k))%R /\
    (z = wget (p_t p) k \/ exists i x, In i ps' /\ mesh_dist4 tris p t_min k i = Some x /\ z = x) /\
    forall i x, In i ps' -> mesh_dist4 tris p t_min k i = Some x -> (fval z <= fval x)%R) as H.
  { intros ps' z. pose proof (G ps') as Gp. fold z in Gp.
    destruct (closest_fold (mesh_dist4 tris p t_min k) ps' r0 Nt Nd) as (_ & Nf & A & B & C). rewrite <- Gp in Nf, A, B, C.
    change (r_t r0) with (wget (p_t p) k) in A, B.
    assert (ffinite z) as Fz by (destruct A as [-> |(i & x & _ & E & ->)]; [auto|destruct (Hd i x E); auto]).
    split; auto. split; [|split; [|split; [exact A|]]].
    - destruct A as [Az |(i & x & _ & E & Az)]; rewrite Az.
      + apply flt_spec in Pt; auto. rewrite (fr_fin (wget (p_t p) k)) in Pt by exact Ft. change (fr f0) with 0%R in Pt. exact Pt.
      + destruct (Hd i x E) as [_ X]. pose proof fr_1em4_bounds as Fb. change (fr f1em4) with (fval f1em4) in Fb. lra.
    - apply fle_spec in B; auto. rewrite (fr_fin z), (fr_fin (wget (p_t p) k)) in B by auto. exact B.
    - intros i x Ii E. specialize (C i x Ii E). destruct (Hd i x E) as [Fx _]. apply fle_spec in C; auto.
      + rewrite (fr_fin z), (fr_fin x) in C by auto. exact C.
      + apply Nd with i. exact E. }
  destruct (H ps) as (F1 & P1 & T1 & A1 & B1). destruct (H (seq 0 (length tris))) as (F2 & P2 & T2 & A2 & B2).
  fold final in F1, P1, T1, A1, B1. set (all := wget (p_t (snd (client_fold (mesh_body4 tris t_min) (seq 0 (length tris)) tt p))) k) in *.
  assert (fval all <= fval final)%R as L1.
  { destruct A1 as [-> |(i & x & _ & E & ->)]; [exact T2|]. apply (B2 i x); auto.
    destruct (mesh_dist4_hit tris p t_min k i x (proj1 Lt) E) as (tr & _ & _ & Et & _).
    apply in_seq. split; [lia|]. apply nth_error_Some. congruence. }
  assert (fval final <= fval all)%R as L2.
  { destruct A2 as [Ea |(i & x & _ & E & Ea)]; [rewrite Ea; exact T1|]. rewrite Ea in *.
    apply (B1 i x); auto. apply (Vis F1 i x); auto. }
  assert (forall z : f32, ffinite z -> fr z = fval z) as Fr by (intros z Fz; rewrite (fr_fin z) by exact Fz; reflexivity).
  apply fr_inj; try (apply fin_notnan; assumption); rewrite (Fr final F1), ?(Fr all F2); lra.
Qed.

(** Any binary BVH whose node boxes contain the primitives' boxes padded by
    1e-4: every lane that satisfies the conditions ends as if every triangle
    had been tried. *)
Theorem C60_packet : forall m d margin far tris aabbs nodes indices t turns p t_min,
  1 <= length tris -> length tris = length aabbs -> traversable nodes indices t -> Permutation (positions t) (seq 0 (length indices)) ->
  Permutation indices (seq 0 (length aabbs)) -> roomy aabbs indices t -> enough t turns -> packet_alive nodes p = true ->
  exists ps packets,
    iter_packet_prims (length tris) nodes indices (mesh_body4 tris t_min) turns tt p = Ok (ps, packets, tt) /\
    forall k o dir, lane_traces p k o dir ->
      mesh_fits m d margin 35 far (lane_reports p t_min k) tris aabbs o dir -> reaches (fval m) far dir ->
      (fval m <= 128)%R -> (far <= bpow radix2 127)%R -> dirs_fine dir -> fle f1em4 (wget t_min k) = true ->
      ffinite (wget (p_t p) k) -> flt f0 (wget (p_t p) k) = true ->
      wget (p_t (last packets p)) k = wget (p_t (snd (client_fold (mesh_body4 tris t_min) (seq 0 (length tris)) tt p))) k.
Proof.
  intros m d margin far tris aabbs nodes indices t turns p t_min N1 Ln Tr P1 P2 [En Wi] Fu Al.
  pose proof Tr as (Hn & Hi & Rp & T0 & Dp & F).
  destruct (packet_run_between unit (fun i => i <? length tris) nodes indices t (mesh_body4 tris t_min) turns tt p (mesh_lowers tris t_min) Hn Hi Rp T0 Dp)
    as (ls & rs & [] & E & S0 & _ & Fo); auto.
  { eapply Forall_impl; [|apply F]. intros j Lj. split; auto. apply Nat.ltb_lt. rewrite Ln.
    assert (In (nth j indices 0) indices) as Ij by (apply nth_In; auto). apply (Permutation_in _ P2) in Ij. apply in_seq in Ij. lia. }
  exists (flat_map (leaf_prims indices) ls), rs. split.
  { unfold iter_packet_prims. rewrite Al. destruct (Nat.eqb_spec (length tris) 0) as [Z|_]; [lia|]. exact E. }
  intros k o dir Lt Fit Re Mx Ff Hd Tm Ft Pt.
  change (client_fold (mesh_body4 tris t_min) (flat_map (leaf_prims indices) ls) tt p = (tt, last rs p)) in Fo.
  replace (last rs p) with (snd (client_fold (mesh_body4 tris t_min) (flat_map (leaf_prims indices) ls) tt p)) by (rewrite Fo; reflexivity).
  apply (lane_final m d margin far tris aabbs p t_min k o dir); auto.
  rewrite Fo. cbn [snd]. intros Fl i x Ed Lx.
  assert (exists w, last rs p = packet_set_t p w) as [w El].
  { rewrite <- (f_equal snd Fo : snd (client_fold _ _ _ _) = last rs p). apply lowers_t_fold. apply mesh_lowers. }
  assert (i < length aabbs) as Li.
  { destruct (mesh_dist4_hit tris p t_min k i x (proj1 Lt) Ed) as (tr & _ & _ & Et & _). rewrite <- Ln. apply nth_error_Some. congruence. }
  destruct (nth_error aabbs i) as [bx|] eqn:Eb; [|apply nth_error_None in Eb; lia].
  destruct (lane_hit_box m d margin far tris aabbs p t_min k o dir i x bx Fit Mx Lt Tm Re Ed Eb) as (Fx & _ & mu & Bo & s & [Sa Sb] & Sf & Np).
  destruct Fit as (_ & Wa & Wom & _).
  assert (In i (prims indices t)) as Ii.
  { apply (Permutation_in _ (Permutation_sym (prims_valid _ _ _ P1 P2))). apply in_seq. lia. }
  destruct (reached_prim (hit_box4 (last rs p)) (map (fun b => with_offset b f1em4) aabbs) indices i (with_offset bx f1em4)) with (t := t) as (n & I1 & I2); auto.
  - apply (map_nth_error (fun b => with_offset b f1em4)); auto.
  - eapply all_recs_impl; [|apply Wi]. intros n Wn Bn.
    destruct (near_lane m mu bx n o dir s (wget (p_t (last rs p)) k)) as (t1 & X1 & X2 & X3 & X4 & X5 & X6 & X7 & X8); auto; try lra.
    { rewrite Forall_forall in Wa. apply Wa. eapply nth_error_In; eauto. }
    unfold hit_box4. destruct (C08_complete n (last rs p) k o dir t1 s) as [ts ->]; auto; try lra.
    rewrite El. destruct Lt as (K & Eo & _ & Ei). split; auto.
  - apply in_flat_map. exists n. split; auto. eapply submset_in; eauto.
Qed.

(** The same for the 4-wide BVH made of such a binary one. *)
Theorem C60_quad_packet : forall m d margin far tris aabbs mb ns indices t turns p t_min,
  length tris = length aabbs -> made_from mb ns indices (length aabbs) t -> roomy aabbs indices t -> depth t <= 22 -> quad_enough mb turns ->
  exists ps packets,
    miter_packet_prims (length tris) (MbvhModel.m_nodes mb) (mb_indices mb) (mesh_body4 tris t_min) turns tt p = Ok (ps, packets, tt) /\
    forall k o dir, lane_traces p k o dir ->
      mesh_fits m d margin 35 far (lane_reports p t_min k) tris aabbs o dir -> reaches (fval m) far dir ->
      (fval m <= 128)%R -> (far <= bpow radix2 127)%R -> dirs_fine dir -> fle f1em4 (wget t_min k) = true ->
      ffinite (wget (p_t p) k) -> flt f0 (wget (p_t p) k) = true ->
      wget (p_t (last packets p)) k = wget (p_t (snd (client_fold (mesh_body4 tris t_min) (seq 0 (length tris)) tt p))) k.
Proof.
  intros m d margin far tris aabbs mb ns indices t turns p t_min Ln Hm Ro D Fu.
  destruct (C27_packet_prims unit mb ns indices (length aabbs) t (mesh_body4 tris t_min) turns tt p Hm D Fu (mesh_lowers tris t_min))
    as (mt & ls & rs & [] & _ & _ & E & S0 & _ & _ & Fo).
  exists (flat_map (range_prims indices) ls), rs. split; [rewrite Ln; exact E|].
  intros k o dir Lt Fit Re Mx Ff Hd Tm Ft Pt.
  replace (last rs p) with (snd (client_fold (mesh_body4 tris t_min) (flat_map (range_prims indices) ls) tt p)) by (rewrite Fo; reflexivity).
  apply (lane_final m d margin far tris aabbs p t_min k o dir); auto.
  rewrite Fo. cbn [snd]. intros Fl i x Ed Lx.
  assert (exists w, last rs p = packet_set_t p w) as [w El].
  { rewrite <- (f_equal snd Fo : snd (client_fold _ _ _ _) = last rs p). apply lowers_t_fold. apply mesh_lowers. }
  assert (i < length aabbs) as Li.
  { destruct (mesh_dist4_hit tris p t_min k i x (proj1 Lt) Ed) as (tr & _ & _ & Et & _). rewrite <- Ln. apply nth_error_Some. congruence. }
  destruct (nth_error aabbs i) as [bx|] eqn:Eb; [|apply nth_error_None in Eb; lia].
  destruct (lane_hit_box m d margin far tris aabbs p t_min k o dir i x bx Fit Mx Lt Tm Re Ed Eb) as (Fx & _ & mu & Bo & s & [Sa Sb] & Sf & Np).
  destruct Fit as (_ & Wa & Wom & _).
  destruct Hm as [(A & B & Cc & Dd & Ee & F & G & H & I) _].
  apply (visited aabbs indices t (qhit4 (last rs p)) ls i bx); auto.
  intros n I1 I2.
  destruct (near_lane m mu bx n o dir s (wget (p_t (last rs p)) k)) as (t1 & X1 & X2 & X3 & X4 & X5 & X6 & X7 & X8); auto; try lra.
  { rewrite Forall_forall in Wa. apply Wa. eapply nth_error_In; eauto. }
  apply (qlane_accept n (last rs p) k o dir t1 s); auto; try lra.
  rewrite El. destruct Lt as (K & Eo & _ & Ei). split; auto.
Qed.

(** Packets through BVHs of the two builders. *)
Theorem C60_locb_packet : forall m d margin far tris fuel threads aabbs centers bv t turns p t_min,
  length tris = length aabbs -> Forall (box_within f128) aabbs ->
  locb_input aabbs centers -> 1 <= threads -> 3 <= length aabbs -> locb_build fuel threads aabbs centers = Ok bv ->
  repr (nodes bv) t -> t_idx t = 0 -> depth t <= 31 -> 3 * length aabbs + 1 <= turns -> packet_alive (nodes bv) p = true ->
  exists ps packets,
    iter_packet_prims (length tris) (nodes bv) (prim_indices bv) (mesh_body4 tris t_min) turns tt p = Ok (ps, packets, tt) /\
    forall k o dir, lane_traces p k o dir ->
      mesh_fits m d margin 35 far (lane_reports p t_min k) tris aabbs o dir -> reaches (fval m) far dir ->
      (fval m <= 128)%R -> (far <= bpow radix2 127)%R -> dirs_fine dir -> fle f1em4 (wget t_min k) = true ->
      ffinite (wget (p_t p) k) -> flt f0 (wget (p_t p) k) = true ->
      wget (p_t (last packets p)) k = wget (p_t (snd (client_fold (mesh_body4 tris t_min) (seq 0 (length tris)) tt p))) k.
Proof.
  intros m d margin far tris fuel threads aabbs centers bv t turns p t_min Ln W I T N3 E Rp T0 D Fu Al.
  destruct (locb_traversable fuel threads aabbs centers bv t) as (Tr & P1 & P2 & Sz & Sp); auto.
  destruct (locb_roomy fuel threads aabbs centers bv t) as (Ro & Bi & _); auto.
  { eapply Forall_impl; [|apply W]. intros x. apply within_mono; vm_compute; reflexivity. }
  apply (C60_packet m d margin far tris aabbs (nodes bv) (prim_indices bv) t turns p t_min); auto; [lia|unfold enough; lia].
Qed.
Theorem C60_locb_quad_packet : forall m d margin far tris fuel threads aabbs centers bv mfuel mb t turns p t_min,
  length tris = length aabbs -> Forall (box_within f128) aabbs ->
  locb_input aabbs centers -> 1 <= threads -> 3 <= length aabbs -> locb_build fuel threads aabbs centers = Ok bv ->
  repr (nodes bv) t -> t_idx t = 0 -> depth t <= 22 ->
  length (nodes bv) <= mfuel -> mbvh_construct mfuel bv = Ok mb -> quad_enough mb turns ->
  exists ps packets,
    miter_packet_prims (length tris) (MbvhModel.m_nodes mb) (mb_indices mb) (mesh_body4 tris t_min) turns tt p = Ok (ps, packets, tt) /\
    forall k o dir, lane_traces p k o dir ->
      mesh_fits m d margin 35 far (lane_reports p t_min k) tris aabbs o dir -> reaches (fval m) far dir ->
      (fval m <= 128)%R -> (far <= bpow radix2 127)%R -> dirs_fine dir -> fle f1em4 (wget t_min k) = true ->
      ffinite (wget (p_t p) k) -> flt f0 (wget (p_t p) k) = true ->
      wget (p_t (last packets p)) k = wget (p_t (snd (client_fold (mesh_body4 tris t_min) (seq 0 (length tris)) tt p))) k.
Proof.
  intros m d margin far tris fuel threads aabbs centers bv mfuel mb t turns p t_min Ln W I T N3 E Rp T0 D Mf Em Fu.
  destruct (locb_roomy fuel threads aabbs centers bv t) as (Ro & Bi & _); auto.
  { eapply Forall_impl; [|apply W]. intros x. apply within_mono; vm_compute; reflexivity. }
  apply (C60_quad_packet m d margin far tris aabbs mb (nodes bv) (prim_indices bv) t turns p t_min); auto.
  split; auto. exists mfuel. split; [auto|]. left. destruct bv; exact Em.
Qed.
Theorem C60_binned_packet : forall m d margin far tris ppl aabbs centers bv t turns p t_min,
  1 <= length tris -> length tris = length aabbs -> Forall (box_within f128) aabbs ->
  binned_input aabbs centers -> binned_build ppl aabbs centers bv ->
  repr (nodes bv) t -> t_idx t = 0 -> depth t <= 31 -> well_cut ppl aabbs centers (prim_indices bv) t ->
  3 * length aabbs + 1 <= turns -> packet_alive (nodes bv) p = true ->
  exists ps packets,
    iter_packet_prims (length tris) (nodes bv) (prim_indices bv) (mesh_body4 tris t_min) turns tt p = Ok (ps, packets, tt) /\
    forall k o dir, lane_traces p k o dir ->
      mesh_fits m d margin 35 far (lane_reports p t_min k) tris aabbs o dir -> reaches (fval m) far dir ->
      (fval m <= 128)%R -> (far <= bpow radix2 127)%R -> dirs_fine dir -> fle f1em4 (wget t_min k) = true ->
      ffinite (wget (p_t p) k) -> flt f0 (wget (p_t p) k) = true ->
      wget (p_t (last packets p)) k = wget (p_t (snd (client_fold (mesh_body4 tris t_min) (seq 0 (length tris)) tt p))) k.
Proof.
  intros m d margin far tris ppl aabbs centers bv t turns p t_min N1 Ln W I B Rp T0 D Wc Fu Al.
  destruct (binned_traversable ppl aabbs centers bv t) as (Tr & P1 & P2 & Sz & Sp); auto.
  apply (C60_packet m d margin far tris aabbs (nodes bv) (prim_indices bv) t turns p t_min); auto; [|unfold enough; lia].
  apply (binned_roomy ppl aabbs centers bv t); auto.
  eapply Forall_impl; [|apply W]. intros x. apply within_mono; vm_compute; reflexivity.
Qed.
Theorem C60_binned_quad_packet : forall m d margin far tris ppl aabbs centers bv mfuel mb t turns p t_min,
  length tris = length aabbs -> Forall (box_within f128) aabbs ->
  binned_input aabbs centers -> binned_build ppl aabbs centers bv ->
  repr (nodes bv) t -> t_idx t = 0 -> depth t <= 22 -> well_cut ppl aabbs centers (prim_indices bv) t ->
  length (nodes bv) <= mfuel -> mbvh_construct mfuel bv = Ok mb -> quad_enough mb turns ->
  exists ps packets,
    miter_packet_prims (length tris) (MbvhModel.m_nodes mb) (mb_indices mb) (mesh_body4 tris t_min) turns tt p = Ok (ps, packets, tt) /\
    forall k o dir, lane_traces p k o dir ->
      mesh_fits m d margin 35 far (lane_reports p t_min k) tris aabbs o dir -> reaches (fval m) far dir ->
      (fval m <= 128)%R -> (far <= bpow radix2 127)%R -> dirs_fine dir -> fle f1em4 (wget t_min k) = true ->
      ffinite (wget (p_t p) k) -> flt f0 (wget (p_t p) k) = true ->
      wget (p_t (last packets p)) k = wget (p_t (snd (client_fold (mesh_body4 tris t_min) (seq 0 (length tris)) tt p))) k.
Proof.
  intros m d margin far tris ppl aabbs centers bv mfuel mb t turns p t_min Ln W I B Rp T0 D Wc Mf Em Fu.
  apply (C60_quad_packet m d margin far tris aabbs mb (nodes bv) (prim_indices bv) t turns p t_min); auto.
  - split; [eapply binned_binary; eauto|]. exists mfuel. split; [auto|]. left. destruct bv; exact Em.
  - apply (binned_roomy ppl aabbs centers bv t); auto.
    eapply Forall_impl; [|apply W]. intros x. apply within_mono; vm_compute; reflexivity.
Qed.

(** ** What trying every triangle finds *)

(** The final distance is the initial one or lies near a true hit, and it does
    not exceed the distance of any triangle that is hit well inside by more
    than the error bound. *)
Theorem C60_found : forall b d tris o dir t0,
  let r := ray_set_t (ray_new o dir) t0 in
  let final := r_t (snd (client_fold (mesh_body tris) (seq 0 (length tris)) tt r)) in
  (1 <= b <= 1048576)%R -> (1 <= d <= 1048576)%R -> coords_within b o -> coords_within d dir -> ffinite t0 -> flt f0 t0 = true ->
  Forall (fun tr => coords_within b (tv0 tr) /\ coords_within b (tv1 tr) /\ coords_within b (tv2 tr) /\ seen tr dir <> 0%R) tris ->
  (final = t0 \/ exists tr t, In tr tris /\
     near_triangle (half_ulp * (758 * (b * b * d) / seen tr dir + 2)) (rv (tv0 tr)) (rv (tv1 tr)) (rv (tv2 tr)) (rv o) (rv dir) t /\
     (Rabs (fval final - t) <= half_ulp * (b * b * d * (165 * Rabs (fval final) + 1) + 472 * (b * b * b)) / seen tr dir)%R) /\
  forall tr t, In tr tris ->
    let A := (seen tr dir - 165 * half_ulp * (b * b * d))%R in
    let error := (half_ulp * (b * b * d * (165 * Rabs t + 1) + 472 * (b * b * b)) / A)%R in
    (fval f1em5 <= A)%R ->
    near_triangle (- (half_ulp * (758 * (b * b * d) / A))) (rv (tv0 tr)) (rv (tv1 tr)) (rv (tv2 tr)) (rv o) (rv dir) t ->
    (fval f1em4 + error < t < fval t0 - error)%R ->
    (fval final <= t + error)%R.
Proof.
  intros b d tris o dir t0 r final Hb Hd Wo Wd Ft0 Pt Ts.
  assert (flt f0 (r_t r) = true) as Pr by exact Pt.
  assert (fnan (r_t r) = false) as Nt by (apply flt_notnan in Pr; tauto).
  assert (forall p x, mesh_dist tris r p = Some x -> fnan x = false) as Nd.
  { intros p x E. apply mesh_dist_hit in E as (tr & Et & Hit). destruct (C37_scalar _ _ _ _ Hit) as [Q _].
    destruct (Q eq_refl) as (x' & Ex & L & _). assert (x' = x) as -> by (assert (r_t (ray_set_t r x) = r_t (ray_set_t r x')) as K by congruence; exact (eq_sym K)).
    apply flt_notnan in L. tauto. }
  destruct (closest_fold (mesh_dist tris r) (seq 0 (length tris)) r Nt Nd) as (_ & Nf & G & Le & Al).
  rewrite <- (mesh_brute tris r (seq 0 (length tris)) Pr) in Nf, G, Le, Al. fold final in Nf, G, Le, Al.
  rewrite Forall_forall in Ts. split.
  - destruct G as [G|(p & x & _ & E & G)]; [left; exact G|right].
    apply mesh_dist_hit in E as (tr & Et & Hit). pose proof (nth_error_In _ _ Et) as Itr.
    destruct (Ts tr Itr) as (W0 & W1 & W2 & NZ).
    destruct (C38_f32_sound b d tr r _ Hb Hd W0 W1 W2 Wo Wd NZ Hit) as (Fx & t & N & E).
    exists tr, t. rewrite G. split; auto.
  - intros tr t Itr A error LA Near Lt. destruct (Ts tr Itr) as (W0 & W1 & W2 & NZ).
    assert (ffinite (r_tmin r)) as Fm by reflexivity.
    destruct (C38_f32_complete b d tr r t Hb Hd W0 W1 W2 Wo Wd Fm Ft0 LA Near Lt) as (r' & Hit & Fr & E).
    destruct (In_nth_error _ _ Itr) as [p Ep].
    assert (mesh_dist tris r p = Some (r_t r')) as Ed.
    { apply mesh_dist_hit. exists tr. split; auto. destruct (C37_scalar _ _ _ _ Hit) as [Q _]. destruct (Q eq_refl) as (x' & -> & _). exact Hit. }
    assert (In p (seq 0 (length tris))) as Ip by (apply in_seq; split; [lia|]; apply nth_error_Some; congruence).
    pose proof (Al p _ Ip Ed) as L. pose proof (Nd p _ Ed) as Nr.
    apply fle_spec in L; auto. rewrite (fr_fin (r_t r')) in L by exact Fr. assert (Rabs (fval (r_t r') - t) <= error)%R as E' by exact E.
    clear E. apply Rabs_le_inv in E'. unfold fval in E'.
    assert (fin final) as Ff.
    { assert (fle final (r_t r) = true) as Le' by exact Le. 
      destruct G as [G|(q & x & _ & Eq & G)]; [rewrite G; exact Ft0|].
      apply mesh_dist_hit in Eq as (tr' & Et' & Hit'). destruct (Ts tr' (nth_error_In _ _ Et')) as (X0 & X1 & X2 & NZ').
      destruct (C38_f32_sound b d tr' r _ Hb Hd X0 X1 X2 Wo Wd NZ' Hit') as (Fx & _). rewrite G. exact Fx. }
    rewrite (fr_fin final) in L by exact Ff. unfold fval. lra.
Qed.

(** ** A concrete case *)

(** Three parallel triangles one behind the other, each filling half of the
    square from -1 to 1, their bounding boxes, and a ray through all of them:
    the first lies at the ray's origin, the ray finds the other two. *)
Definition tri60 (z : Z) : tri := Tri (pt (-1) (-1) z) (pt 1 (-1) z) (pt (-1) 1 z).
Definition tris60 : list tri := map tri60 [1; -1; 0]%Z.
Definition box60 (z : Z) : aabb := Bb (pt (-1) (-1) z) 0 (pt 1 1 z) 0.
Definition boxes60 : list aabb := map box60 [1; -1; 0]%Z.
Definition centers60 : list vec3 := map center boxes60.
Definition o60 : vec3 := V3 (fneg half_f) (fneg half_f) (fz (-1)).
Definition d60 : vec3 := V3 f0 f0 (fz 1).
Definition w_of (v : vec3) : vec4 := V4 (vx v) (vy v) (vz v) f0.
Definition p60 : packet := packet_new (w_of o60) (w_of o60) (w_of o60) (w_of o60) (w_of d60) (w_of d60) (w_of d60) (w_of d60).

Lemma fval_fz : forall z, In z [1; -1; 0]%Z -> fval (fz z) = IZR z.
Proof. intros z [<- |[<- |[<- |[]]]]; vm_compute; lra. Qed.

Example C60_nonvacuous :
  (forall rel reports, (0 <= rel <= 35)%R -> mesh_fits (fz 1) 1 0 rel 3 reports tris60 boxes60 o60 d60) /\
  reaches (fval (fz 1)) 3 d60 /\ (fval (fz 1) <= 128)%R /\ dirs_fine d60 /\
  locb_input boxes60 centers60 /\ Forall (box_within f128) boxes60 /\
  (exists bv, locb_build 6 2 boxes60 centers60 = Ok bv /\ length (nodes bv) = 5 /\ packet_alive (nodes bv) p60 = true) /\
  (forall k, k < 4 -> lane_traces p60 k o60 d60 /\ ffinite (wget (p_t p60) k) /\ flt f0 (wget (p_t p60) k) = true) /\
  fle f1em4 (wget (wsplat f1em4) 0) = true /\
  map (ray_reports (ray_new o60 d60)) tris60 = [true; false; true] /\
  map (lane_reports p60 (wsplat f1em4) 2) tris60 = [true; false; true] /\
  feq (r_t (snd (client_fold (mesh_body tris60) (seq 0 3) tt (ray_new o60 d60)))) (fz 1) = true /\
  feq (wget (p_t (snd (client_fold (mesh_body4 tris60 (wsplat f1em4)) (seq 0 3) tt p60))) 2) (fz 1) = true.
Proof.
  pose proof (fval_fz 1 ltac:(simpl; auto)) as E1. pose proof (fval_fz (-1) ltac:(simpl; auto)) as E2. pose proof (fval_fz 0 ltac:(simpl; auto)) as E3.
  pose proof fr_1em4_bounds as Fb. change (fr f1em4) with (fval f1em4) in Fb.
  assert (fval (B754_zero false) = 0%R) as Z0 by reflexivity.
  split.
  { intros rel reports Hrel. split; [reflexivity|].
    split; [unfold boxes60; simpl map; repeat constructor; vm_compute; reflexivity|].
    split; [repeat split; vm_compute; reflexivity|]. split; [reflexivity|]. rewrite E1.
    split; [lra|]. split; [lra|]. split.
    { split; [repeat split|]. unfold d60. cbn [vx vy vz]. rewrite E1. change (fval f0) with 0%R. rewrite Rabs_R0, Rabs_R1. lra. }
    split; [lra|]. split; [lra|]. split; [unfold half_ulp; lra|].
    intros p tr bx Et Eb.
    assert (exists z, In z [1; -1; 0]%Z /\ tr = tri60 z /\ bx = box60 z) as (z & Iz & -> & ->).
    { destruct p as [|[|[|p]]]; [exists 1%Z|exists (-1)%Z|exists 0%Z|destruct p; discriminate];
        (split; [simpl; auto|]; split; [cbn in Et; congruence|cbn in Eb; congruence]). }
    pose proof (fval_fz z Iz) as Ez. split.
    { unfold tri_inside, vertex_inside, tri60, box60, pt. cbn [tv0 tv1 tv2 bmin bmax vx vy vz]. rewrite E1, E2.
      assert (ffinite (fz z)) as Fz by (destruct Iz as [<- |[<- |[<- |[]]]]; reflexivity).
      repeat split; try exact Fz; try reflexivity; lra. }
    intros _. assert (seen (tri60 z) d60 = 4%R) as ->.
    { unfold seen, facing, rv, tri60, d60, pt, rx, ry, rz. cbn [tv0 tv1 tv2 vx vy vz fst snd]. rewrite E1, E2, Ez. change (fval f0) with 0%R.
      match goal with |- Rabs ?x = _ => replace x with (-4)%R by lra end. rewrite Rabs_left; lra. }
    split; [lra|]. unfold clearance, half_ulp. lra. }
  split; [right; right; unfold d60; cbn [vz]; rewrite E1, Rabs_R1; lra|]. split; [rewrite E1; lra|].
  split; [split; [right; reflexivity|split; [right; reflexivity|left; split; [reflexivity|unfold d60; cbn [vz]; rewrite E1, Rabs_R1; change 1%R with (bpow radix2 0); split; apply bpow_le; lia]]]|].
  split; [unfold locb_input; split; [reflexivity|]; split; [vm_compute; lia|reflexivity]|].
  split; [unfold boxes60; simpl map; repeat constructor; vm_compute; reflexivity|]. split.
  { assert (summary (locb_build 6 2 boxes60 centers60) = Some (5, 3)) as S by (vm_compute; reflexivity).
    destruct (locb_build 6 2 boxes60 centers60) as [bv| | |]; try discriminate. injection S as S1 S2. exists bv. split; auto. split; auto.
    destruct (nodes bv); [discriminate|vm_compute; reflexivity]. }
  split.
  { intros k Hk. destruct k as [|[|[|[|k]]]]; [| | | |lia]; (split; [split; [lia|split; [reflexivity|split; reflexivity]]|split; vm_compute; reflexivity]). }
  split; [vm_compute; reflexivity|]. split; [vm_compute; reflexivity|]. split; [vm_compute; reflexivity|].
  split; vm_compute; reflexivity.
Qed.
