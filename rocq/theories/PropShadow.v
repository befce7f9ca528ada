(** * Property C78: shadow rays *)
Require Import List ZArith Bool Lia Permutation Arith.
Require Import Reals Lra.
From Flocq Require Import Core BinarySingleNaN.
From Verif Require Import F32 F32Facts Vec RayModel Base AabbModel NodeModel IterModel BinnedModel BinnedProofs MbvhModel SpecGeom SpecSlab SpecTree SpecTraverse SpecMbvh
  AabbProofs MeasureProofs SlabProofs Slab4Proofs IterProofs TraverseProofs ClosestProofs MbvhClient LocbModel LocbProofs
  SpecBinned BinnedFacts BinnedCost BinnedRoom TriModel SpecTri SpecMesh TriProofs TriError
  PropBox PropSlab PropTraverse PropLocb PropNoMiss PropMbvh PropNoMiss4 PropBinned PropNoMissBinned PropTri PropTriError NearProofs MeshProofs
  SpecNext PropNext PropMesh SpecShadow.
Import ListNotations.
Local Open Scope nat_scope.

(** ** The loop against the full one *)
Section Loop.
  Variables (R S : Type) (trn : R -> S -> res (turn * S)) (client : unit -> nat -> R -> unit * R) (hit : nat -> R -> bool).
  Hypothesis stuck : forall r s s', trn r s = Ok (Done, s') -> s' = s /\ forall r', trn r' s = Ok (Done, s).
  Hypothesis misses : forall p r, hit p r = false -> snd (client tt p r) = r.

  Lemma run_short : forall f c r s ps rs c', t_run R S unit trn client f c r s = Ok (ps, rs, c') -> length ps < f.
  Proof.
    induction f as [|f IH]; intros c r s ps rs c' E; [discriminate E|]. cbn [t_run] in E.
    destruct (trn r s) as [[[p| |] s']| | |]; cbn [bind] in E; try discriminate E.
    - destruct (client c p r) as [c1 r1]. destruct (t_run R S unit trn client f c1 r1 s') as [[[ps1 rs1] c2]| | |] eqn:Er; try discriminate E.
      injection E as <- <- <-. apply IH in Er. simpl. lia.
    - apply IH in E. lia.
    - injection E as <- <- <-. simpl. lia.
  Qed.

  Lemma any_hit_run : forall ps f0 f k c r s rs c', t_run R S unit trn client f0 c r s = Ok (ps, rs, c') -> f0 <= f -> length ps < k ->
    any_hit (t_next R S trn f) hit k r s = Ok (existsb (fun p => hit p r) ps) /\
    (existsb (fun p => hit p r) ps = false -> last rs r = r).
  Proof.
    induction ps as [|p ps IH]; intros f0 f k c r s rs c' E Lf Lk; (destruct k as [|k]; [simpl in Lk; lia|]).
    - destruct (run_nil _ _ _ _ _ stuck _ _ _ _ _ _ E) as (s' & N & _ & -> & _). cbn [any_hit existsb].
      rewrite (next_more _ _ _ _ _ _ _ f N Lf). cbn [bind last]. auto.
    - destruct (run_cons _ _ _ _ _ _ _ _ _ _ _ _ _ E) as (f' & s' & rs' & L' & N & -> & E'). cbn [any_hit existsb].
      rewrite (next_more _ _ _ _ _ _ _ f N Lf). cbn [bind]. destruct (hit p r) eqn:H; cbn [orb].
      + split; auto; discriminate.
      + destruct c. rewrite (misses p r H) in E'. destruct (IH f' f k _ _ _ _ _ E' ltac:(lia) ltac:(simpl in Lk; lia)) as [A B].
        split; [exact A|]. intro F. specialize (B F). destruct rs' as [|x rs']; auto.
  Qed.
End Loop.

(** ** Triangles *)
Lemma mesh_misses : forall tris p r, mesh_hit tris p r = false -> snd (mesh_body tris tt p r) = r.
Proof.
  intros tris p r H. unfold mesh_hit, mesh_body in *. destruct (nth_error tris p) as [tr|]; auto.
  destruct (tri_intersect tr r) as [b r'] eqn:E. cbn [fst snd] in *. destruct (C37_scalar _ _ _ _ E) as [_ B]. auto.
Qed.
Lemma mesh_hits : forall tris p r, mesh_hit tris p r = true -> flt (r_t (snd (mesh_body tris tt p r))) (r_t r) = true.
Proof.
  intros tris p r H. unfold mesh_hit, mesh_body in *. destruct (nth_error tris p) as [tr|]; [|discriminate].
  destruct (tri_intersect tr r) as [b r'] eqn:E. cbn [fst snd] in *. apply (C37_scalar_iff _ _ _ _ E). auto.
Qed.
Lemma mesh_step : forall tris p r, snd (mesh_body tris tt p r) = r \/ flt (r_t (snd (mesh_body tris tt p r))) (r_t r) = true.
Proof. intros tris p r. destruct (mesh_hit tris p r) eqn:H; [right; apply mesh_hits|left; apply mesh_misses]; auto. Qed.
Lemma fold_step : forall tris ps r r0, flt (r_t r) (r_t r0) = true ->
  flt (r_t (snd (client_fold (mesh_body tris) ps tt r))) (r_t r0) = true.
Proof.
  intros tris ps. induction ps as [|p ps IH]; intros r r0 L; [exact L|].
  unfold client_fold in *. cbn [fold_left fst snd]. destruct (mesh_step tris p r) as [E|E].
  - destruct (mesh_body tris tt p r) as [[] r1]. cbn [snd] in *. subst r1. apply IH. auto.
  - destruct (mesh_body tris tt p r) as [[] r1]. cbn [snd] in *. apply IH. eapply flt_trans; eauto.
Qed.
Lemma fold_hit : forall tris ps p r, In p ps -> mesh_hit tris p r = true ->
  flt (r_t (snd (client_fold (mesh_body tris) ps tt r))) (r_t r) = true.
Proof.
  intros tris ps p r. induction ps as [|q ps IH]; intros I H; [destruct I|].
  pose proof (mesh_hits tris p r H) as Hp. pose proof (mesh_step tris q r) as St.
  assert (client_fold (mesh_body tris) (q :: ps) tt r = client_fold (mesh_body tris) ps tt (snd (mesh_body tris tt q r))) as ->.
  { unfold client_fold. cbn [fold_left fst snd]. destruct (mesh_body tris tt q r) as [[] r1]. reflexivity. }
  destruct I as [-> | I].
  - apply fold_step. auto.
  - destruct St as [-> | St]; [apply IH; auto|]. apply fold_step. auto.
Qed.

Lemma shadow_of_loop : forall S trn tris turns r (s : S) ps rays,
  (forall r s s', trn r s = Ok (Done, s') -> s' = s /\ forall r', trn r' s = Ok (Done, s)) ->
  t_run ray S unit trn (mesh_body tris) turns tt r s = Ok (ps, rays, tt) ->
  last rays r = snd (client_fold (mesh_body tris) (seq 0 (length tris)) tt r) ->
  any_hit (t_next ray S trn turns) (mesh_hit tris) turns r s = Ok (existsb (ray_reports r) tris).
Proof.
  intros S trn tris turns r s ps rays St E L.
  destruct (any_hit_run ray S trn (mesh_body tris) (mesh_hit tris) St (mesh_misses tris) ps turns turns turns tt r s rays tt E (le_n _))
    as [A B].
  { eapply run_short; eauto. }
  rewrite A. f_equal. clear A. destruct (existsb (ray_reports r) tris) eqn:X.
  - destruct (existsb (fun p => mesh_hit tris p r) ps) eqn:Y; auto. specialize (B eq_refl). rewrite B in L.
    apply existsb_exists in X as (tr & It & Ht). apply In_nth_error in It as [p Ep].
    assert (flt (r_t (snd (client_fold (mesh_body tris) (seq 0 (length tris)) tt r))) (r_t r) = true) as C.
    { apply (fold_hit tris _ p).
      - apply in_seq. assert (p < length tris) by (apply nth_error_Some; congruence). lia.
      - unfold mesh_hit. rewrite Ep. exact Ht. }
    rewrite <- L in C. rewrite flt_irrefl in C. discriminate.
  - destruct (existsb (fun p => mesh_hit tris p r) ps) eqn:Y; auto. apply existsb_exists in Y as (p & Ip & Hp).
    unfold mesh_hit in Hp. destruct (nth_error tris p) as [tr|] eqn:Ep; [|discriminate].
    rewrite <- not_true_iff_false in X. exfalso. apply X. apply existsb_exists. exists tr. split; auto. eapply nth_error_In; eauto.
Qed.

(** The shadow-ray loops over the iterators of the two kinds of BVH. *)
Definition shadow (tris : list tri) (nodes : list aabb) (indices : list nat) (turns : nat) (r : ray) : res bool :=
  any_hit (bvh_next ray f32 intersect flt (fun p => p <? length tris) nodes indices turns) (mesh_hit tris) turns r
    (bvh_init (ray_alive nodes r && negb (length tris =? 0))).
Definition shadow_quad (tris : list tri) (ms : list mnode) (indices : list nat) (turns : nat) (r : ray) : res bool :=
  any_hit (mbvh_next ray m_intersect (fun p => p <? length tris) ms indices turns) (mesh_hit tris) turns r
    (mbvh_init ray m_intersect ms r).

Lemma shadow_bvh : forall tris nodes indices turns r ps rays,
  iter_ray_prims (length tris) nodes indices (mesh_body tris) turns tt r = Ok (ps, rays, tt) ->
  last rays r = snd (client_fold (mesh_body tris) (seq 0 (length tris)) tt r) ->
  shadow tris nodes indices turns r = Ok (existsb (ray_reports r) tris).
Proof.
  intros tris nodes indices turns r ps rays E L.
  apply (shadow_of_loop bit _ tris turns r _ ps rays (bvh_stuck _ _ intersect flt (fun p => p <? length tris) nodes indices) E L).
Qed.
Lemma shadow_mbvh : forall tris ms indices turns r ps rays,
  miter_ray_prims (length tris) ms indices (mesh_body tris) turns tt r = Ok (ps, rays, tt) ->
  last rays r = snd (client_fold (mesh_body tris) (seq 0 (length tris)) tt r) ->
  shadow_quad tris ms indices turns r = Ok (existsb (ray_reports r) tris).
Proof.
  intros tris ms indices turns r ps rays E L.
  apply (shadow_of_loop mit _ tris turns r _ ps rays (mbvh_stuck _ m_intersect (fun p => p <? length tris) ms indices) E L).
Qed.

(** ** C78 *)
Theorem C78_ray : forall m d margin tris aabbs nodes indices t turns o dir t0,
  let r := ray_set_t (ray_new o dir) t0 in
  mesh_fits m d margin 13 1 (ray_reports r) tris aabbs o dir -> (fval m <= 128)%R -> dirs_fine dir -> flt f0 t0 = true ->
  traversable nodes indices t -> Permutation (positions t) (seq 0 (length indices)) ->
  Permutation indices (seq 0 (length aabbs)) -> roomy aabbs indices t -> enough t turns ->
  shadow tris nodes indices turns r = Ok (existsb (ray_reports r) tris).
Proof.
  intros. edestruct C60_ray as (ps & rays & A & B); eauto. eapply shadow_bvh; eauto.
Qed.

Theorem C78_quad : forall m d margin far tris aabbs mb ns indices t turns o dir t0,
  let r := ray_set_t (ray_new o dir) t0 in
  mesh_fits m d margin 13 far (ray_reports r) tris aabbs o dir -> reaches (fval m) far dir ->
  (fval m <= 128)%R -> dirs_fine dir -> flt f0 t0 = true ->
  made_from mb ns indices (length aabbs) t -> roomy aabbs indices t -> depth t <= 22 -> quad_enough mb turns ->
  shadow_quad tris (MbvhModel.m_nodes mb) (mb_indices mb) turns r = Ok (existsb (ray_reports r) tris).
Proof.
  intros. edestruct C60_quad as (ps & rays & A & B); eauto. eapply shadow_mbvh; eauto.
Qed.

Theorem C78_locb : forall m d margin tris fuel threads aabbs centers bv t turns o dir t0,
  let r := ray_set_t (ray_new o dir) t0 in
  mesh_fits m d margin 13 1 (ray_reports r) tris aabbs o dir -> (fval m <= 128)%R -> dirs_fine dir -> flt f0 t0 = true ->
  locb_input aabbs centers -> 1 <= threads -> 3 <= length aabbs -> locb_build fuel threads aabbs centers = Ok bv ->
  repr (nodes bv) t -> t_idx t = 0 -> depth t <= 31 -> 3 * length aabbs + 1 <= turns ->
  shadow tris (nodes bv) (prim_indices bv) turns r = Ok (existsb (ray_reports r) tris).
Proof.
  intros. edestruct C60_locb as (ps & rays & A & B); eauto. eapply shadow_bvh; eauto.
Qed.

Theorem C78_locb_quad : forall m d margin far tris fuel threads aabbs centers bv mfuel mb t turns o dir t0,
  let r := ray_set_t (ray_new o dir) t0 in
  mesh_fits m d margin 13 far (ray_reports r) tris aabbs o dir -> reaches (fval m) far dir ->
  (fval m <= 128)%R -> dirs_fine dir -> flt f0 t0 = true ->
  locb_input aabbs centers -> 1 <= threads -> 3 <= length aabbs -> locb_build fuel threads aabbs centers = Ok bv ->
  repr (nodes bv) t -> t_idx t = 0 -> depth t <= 22 ->
  length (nodes bv) <= mfuel -> mbvh_construct mfuel bv = Ok mb -> quad_enough mb turns ->
  shadow_quad tris (MbvhModel.m_nodes mb) (mb_indices mb) turns r = Ok (existsb (ray_reports r) tris).
Proof.
  intros. edestruct C60_locb_quad as (ps & rays & A & B); eauto. eapply shadow_mbvh; eauto.
Qed.

Theorem C78_binned : forall m d margin tris ppl aabbs centers bv t turns o dir t0,
  let r := ray_set_t (ray_new o dir) t0 in
  mesh_fits m d margin 13 1 (ray_reports r) tris aabbs o dir -> (fval m <= 128)%R -> dirs_fine dir -> flt f0 t0 = true ->
  binned_input aabbs centers -> binned_build ppl aabbs centers bv ->
  repr (nodes bv) t -> t_idx t = 0 -> depth t <= 31 -> well_cut ppl aabbs centers (prim_indices bv) t ->
  3 * length aabbs + 1 <= turns ->
  shadow tris (nodes bv) (prim_indices bv) turns r = Ok (existsb (ray_reports r) tris).
Proof.
  intros. edestruct C60_binned as (ps & rays & A & B); eauto. eapply shadow_bvh; eauto.
Qed.

Theorem C78_binned_quad : forall m d margin far tris ppl aabbs centers bv mfuel mb t turns o dir t0,
  let r := ray_set_t (ray_new o dir) t0 in
  mesh_fits m d margin 13 far (ray_reports r) tris aabbs o dir -> reaches (fval m) far dir ->
  (fval m <= 128)%R -> dirs_fine dir -> flt f0 t0 = true ->
  binned_input aabbs centers -> binned_build ppl aabbs centers bv ->
  repr (nodes bv) t -> t_idx t = 0 -> depth t <= 22 -> well_cut ppl aabbs centers (prim_indices bv) t ->
  length (nodes bv) <= mfuel -> mbvh_construct mfuel bv = Ok mb -> quad_enough mb turns ->
  shadow_quad tris (MbvhModel.m_nodes mb) (mb_indices mb) turns r = Ok (existsb (ray_reports r) tris).
Proof.
  intros. edestruct C60_binned_quad as (ps & rays & A & B); eauto. eapply shadow_mbvh; eauto.
Qed.

(** The scene of [C60_nonvacuous] (its hypotheses are those used here), traced
    over the BVH built of it: a ray that hits, and one whose [t] ends before. *)
Example C78_nonvacuous : exists bv, locb_build 6 2 boxes60 centers60 = Ok bv /\
  let far := ray_set_t (ray_new o60 d60) (fz 100) in
  let near := ray_set_t (ray_new o60 d60) (fdiv (fz 1) (fz 2)) in
  shadow tris60 (nodes bv) (prim_indices bv) 10 far = Ok true /\ existsb (ray_reports far) tris60 = true /\
  shadow tris60 (nodes bv) (prim_indices bv) 10 near = Ok false /\ existsb (ray_reports near) tris60 = false.
Proof.
  destruct (ok_with _ (locb_build 6 2 boxes60 centers60) (fun bv =>
    match shadow tris60 (nodes bv) (prim_indices bv) 10 (ray_set_t (ray_new o60 d60) (fz 100)),
          shadow tris60 (nodes bv) (prim_indices bv) 10 (ray_set_t (ray_new o60 d60) (fdiv (fz 1) (fz 2))) with
    | Ok true, Ok false => true | _, _ => false end)) as (bv & E & H); [vm_compute; reflexivity|].
  exists bv. split; [exact E|]. cbv zeta.
  destruct (shadow _ _ _ _ (ray_set_t _ (fz 100))) as [[]| | |]; try discriminate H.
  destruct (shadow _ _ _ _ _) as [[]| | |]; try discriminate H.
  split; [reflexivity|]. split; [vm_compute; reflexivity|]. split; [reflexivity|]. vm_compute. reflexivity.
Qed.
