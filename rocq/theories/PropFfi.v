(** * Properties C39-C42, C48-C50: the C interface *)
Require Import List ZArith Bool Arith Lia Permutation.
From Verif Require Import F32 F32Facts Vec RayModel AabbModel Base NodeModel IterModel SpecGeom SpecTree SpecTraverse
  AabbProofs LocbModel LocbProofs MbvhModel BvhModel TriModel FfiModel SpecFfi FfiProofs
  PropBox PropTraverse PropLocb PropMbvh PropBvh.
Import ListNotations.
Local Open Scope nat_scope.

(** ** C39 *)
(** After any history of store, refit (the only use of [get_mut]) and free,
    [get] shows the table of SpecFfi.v. *)
Theorem C39_map : forall os st, run ffi_new os = Some st ->
  exists t, table_run ([], []) os = Some t /\ forall id, manager_get st id = Ok (nth_error (fst t) (Z.to_nat id)).
Proof.
  intros os st R. destruct (run_inv os ffi_new st ([], []) inv_new R) as (t & E & I).
  exists t. split; auto. intro id. apply get_table; auto.
Qed.

(** The number of structures stored so far. *)
Definition stores (os : list op) : nat := length (filter (fun o => match o with OStore _ => true | _ => false end) os).
Lemma table_stores : forall os t t', table_run t os = Some t' -> length (fst t') = length (fst t) + stores os.
Proof.
  induction os as [|o os IH]; intros t t' E; cbn [table_run] in E.
  - injection E as <-. unfold stores. cbn. lia.
  - destruct (table_step t o) as [t1|] eqn:S; [|discriminate]. rewrite (IH _ _ E). unfold stores. cbn [filter].
    destruct t as [bs ms]. destruct o as [b|m|id l|id|id]; cbn [table_step] in S.
    + injection S as <-. cbn [fst length]. rewrite app_length. cbn. lia.
    + injection S as <-. reflexivity.
    + destruct (nth_error bs (Z.to_nat id)) as [b|]; [|injection S as <-; reflexivity].
      destruct (BvhModel.refit b l); try discriminate. injection S as <-. cbn [fst]. rewrite upd_length. reflexivity.
    + injection S as <-. cbn [fst]. rewrite upd_length. reflexivity.
    + injection S as <-. reflexivity.
Qed.
Lemma run_stores : forall os st t', run ffi_new os = Some st -> inv st t' -> length (fst t') = stores os.
Proof.
  intros os st t' R I. destruct (run_inv os ffi_new st ([], []) inv_new R) as (t & E & I').
  rewrite <- (i_len _ _ I), (i_len _ _ I'). rewrite (table_stores _ _ _ E). reflexivity.
Qed.

(** [store] hands out the number of structures stored before, so never the
    same id twice (up to the 2^32 ids there are), and [get] of the new id is
    what was stored. *)
Theorem C39_store : forall os st b, run ffi_new os = Some st -> (Z.of_nat (stores os) < 4294967296)%Z ->
  h_id (fst (store st b)) = Z.of_nat (stores os) /\
  manager_get (snd (store st b)) (h_id (fst (store st b))) = Ok (Some b).
Proof.
  intros os st b R L. destruct (run_inv os ffi_new st ([], []) inv_new R) as ([bs ms] & E & I).
  assert (h_id (fst (store st b)) = Z.of_nat (stores os)) as Hid.
  { unfold store. cbn [fst h_id]. rewrite (i_len _ _ I), (run_stores os st _ R I). unfold as_u32. apply Z.mod_small. lia. }
  split; auto. rewrite Hid. rewrite (get_table _ _ _ (inv_store _ _ _ b I)). cbn [fst].
  rewrite Nat2Z.id, nth_app_at. pose proof (run_stores os st _ R I) as Q. cbn [fst] in Q. rewrite Q, Nat.eqb_refl. reflexivity.
Qed.
Theorem C39_fresh : forall os os' st st' b b',
  run ffi_new os = Some st -> run (snd (store st b)) os' = Some st' -> (Z.of_nat (stores (os ++ OStore b :: os')) < 4294967296)%Z ->
  h_id (fst (store st b)) <> h_id (fst (store st' b')).
Proof.
  intros os os' st st' b b' R R' L.
  assert (forall l1 l2 s, run s (l1 ++ l2) = match run s l1 with Some s' => run s' l2 | None => None end) as App.
  { induction l1 as [|o l1 IH]; intros l2 s; cbn [app run]; auto. destruct (step s o); auto. }
  assert (run ffi_new (os ++ OStore b :: os') = Some st') as R2.
  { rewrite App, R. cbn [run step]. auto. }
  assert (stores (os ++ OStore b :: os') = stores os + S (stores os')) as Q.
  { unfold stores. rewrite filter_app, app_length. cbn. lia. }
  destruct (C39_store os st b R ltac:(lia)) as [-> _]. destruct (C39_store _ st' b' R2 L) as [-> _]. lia.
Qed.

(** Calls that do not concern [id] leave what [get] shows unchanged. *)
Theorem C39_frame : forall os st o st' id, run ffi_new os = Some st -> step st o = Some st' -> touches id o = false ->
  Z.to_nat id < stores os -> manager_get st' id = manager_get st id.
Proof.
  intros os st o st' id R S T L. destruct (run_inv os ffi_new st ([], []) inv_new R) as ([bs ms] & E & I).
  pose proof (run_stores os st _ R I) as Q. cbn [fst] in Q.
  pose proof (step_table st (bs, ms) o I) as ST. rewrite S in ST. destruct (table_step (bs, ms) o) as [t'|] eqn:E'; [|contradiction].
  rewrite (get_table _ _ id ST), (get_table _ _ id I). cbn [fst]. f_equal.
  destruct o as [b|m|j l|j|j]; cbn [table_step] in E'.
  - injection E' as <-. cbn [fst]. apply nth_error_app1. lia.
  - injection E' as <-. reflexivity.
  - cbn [touches] in T. apply Nat.eqb_neq in T. destruct (nth_error bs (Z.to_nat j)); [|injection E' as <-; auto].
    destruct (BvhModel.refit b l); try discriminate. injection E' as <-. cbn [fst]. apply nth_error_upd_other. auto.
  - cbn [touches] in T. apply Nat.eqb_neq in T. injection E' as <-. cbn [fst]. apply nth_error_upd_other. auto.
  - injection E' as <-. reflexivity.
Qed.
Theorem C39_frame_all : forall os os' st st' id, run ffi_new os = Some st -> run st os' = Some st' ->
  forallb (fun o => negb (touches id o)) os' = true -> Z.to_nat id < stores os -> manager_get st' id = manager_get st id.
Proof.
  intros os os'. revert os. induction os' as [|o os' IH]; intros os st st' id R R' T L; cbn [run] in R'; [congruence|].
  destruct (step st o) as [st1|] eqn:S; [|discriminate]. cbn [forallb] in T. apply andb_true_iff in T as [T1 T2].
  apply negb_true_iff in T1. rewrite <- (C39_frame os st o st1 id R S T1 L).
  assert (forall l1 l2 s, run s (l1 ++ l2) = match run s l1 with Some s' => run s' l2 | None => None end) as App.
  { induction l1 as [|o' l1 IH']; intros l2 s; cbn [app run]; auto. destruct (step s o'); auto. }
  apply (IH (os ++ [o]) st1 st' id); auto.
  - rewrite App, R. cbn [run]. rewrite S. reflexivity.
  - unfold stores in *. rewrite filter_app, app_length. lia.
Qed.

(** [free]: an error without effect for an unknown id, otherwise the structure
    becomes empty (also when it already was). *)
Theorem C39_free : forall os st id, run ffi_new os = Some st ->
  (stores os <= Z.to_nat id -> manager_free st id = (false, st) /\ manager_get st id = Ok None) /\
  (Z.to_nat id < stores os -> fst (manager_free st id) = true /\
     manager_get (snd (manager_free st id)) id = Ok (Some empty_bvh)).
Proof.
  intros os st id R. destruct (run_inv os ffi_new st ([], []) inv_new R) as ([bs ms] & E & I).
  pose proof (run_stores os st _ R I) as Q. cbn [fst] in Q. destruct (inv_free st bs ms id I) as [I' F]. split; intro L.
  - split; [|rewrite (get_table _ _ id I); cbn [fst]; f_equal; apply nth_error_None; lia].
    unfold manager_free. assert (nth_error (f_bvhs st) (Z.to_nat id) = None) as ->; auto.
    apply nth_error_None. rewrite (i_len _ _ I). cbn [fst]. lia.
  - split; [rewrite F; apply Nat.ltb_lt; lia|]. rewrite (get_table _ _ id I'). cbn [fst]. f_equal.
    apply nth_error_upd_same. lia.
Qed.

(** Refit through the interface is the library's refit on that structure. *)
Theorem C39_get_mut : forall os st id b l b', run ffi_new os = Some st -> manager_get st id = Ok (Some b) ->
  BvhModel.refit b l = Ok b' -> manager_get (manager_set_nodes st id (nodes b')) id = Ok (Some b').
Proof.
  intros os st id b l b' R G F. destruct (run_inv os ffi_new st ([], []) inv_new R) as ([bs ms] & E & I).
  rewrite (get_table _ _ id I) in G. cbn [fst] in G. injection G as G.
  rewrite (get_table _ _ id (inv_set_nodes st bs ms id b (nodes b') I G)). cbn [fst].
  rewrite nth_error_upd_same by (eapply nth_lt; eauto). destruct (refit_keeps _ _ _ F) as [_ <-]. destruct b'; reflexivity.
Qed.

Definition one_leaf (p : vec3) : bvh := Bvh [Bb p 1 p 0] [0].
Example C39_case : exists st,
  run ffi_new [OStore (one_leaf (V3 f0 f0 f0)); OStore (one_leaf (V3 f1 f1 f1)); OFree 0; OFree 0; OFree 7] = Some st /\
  manager_get st 0 = Ok (Some empty_bvh) /\ manager_get st 1 = Ok (Some (one_leaf (V3 f1 f1 f1))) /\ manager_get st 2 = Ok None.
Proof. eexists. split; [reflexivity|]. split; [reflexivity|]. split; reflexivity. Qed.

(** ** C40 *)
Theorem C40_aabb : forall b, aabb_of_rt (rt_of_aabb b) = b.
Proof. intros [[] ? [] ?]. reflexivity. Qed.
Theorem C40_rtaabb : forall b, rt_of_aabb (aabb_of_rt b) = b.
Proof. intros [[[] ?] ? [[] ?] ?]. reflexivity. Qed.
Theorem C40_node : forall n, node_of_rt (rt_of_node n) = n.
Proof. intros n. apply C40_aabb. Qed.
Theorem C40_rtnode : forall n, rt_of_node (node_of_rt n) = n.
Proof. intros [b]. unfold rt_of_node, node_of_rt. cbn [rtn_aabb]. rewrite C40_rtaabb. reflexivity. Qed.
(** The pointers in the handles are cast, not converted: the two layouts hold
    the same words in the same places, and determine the value. *)
Theorem C40_node_layout : forall n, words_rtnode (rt_of_node n) = words_aabb n.
Proof. intros [[] ? [] ?]. reflexivity. Qed.
Theorem C40_mnode_layout : forall m, words_rtmnode (rt_of_mnode m) = words_mnode m.
Proof. reflexivity. Qed.
(** The documented layout, word by word. *)
Theorem C40_node_words : forall n k, k < 3 ->
  nth_error (words_aabb n) k = Some (WF (vget (bmin n) k)) /\ nth_error (words_aabb n) 3 = Some (WI (ex1 n)) /\
  nth_error (words_aabb n) (4 + k) = Some (WF (vget (bmax n) k)) /\ nth_error (words_aabb n) 7 = Some (WI (ex2 n)) /\
  length (words_aabb n) = 8.
Proof. intros n k K. destruct k as [|[|[|k]]]; [| | |lia]; repeat split. Qed.
Theorem C40_mnode_words : forall m k, k < 4 ->
  nth_error (words_mnode m) k = Some (WF (wget (mn_x m) k)) /\ nth_error (words_mnode m) (4 + k) = Some (WF (wget (mx_x m) k)) /\
  nth_error (words_mnode m) (8 + k) = Some (WF (wget (mn_y m) k)) /\ nth_error (words_mnode m) (12 + k) = Some (WF (wget (mx_y m) k)) /\
  nth_error (words_mnode m) (16 + k) = Some (WF (wget (mn_z m) k)) /\ nth_error (words_mnode m) (20 + k) = Some (WF (wget (mx_z m) k)) /\
  nth_error (words_mnode m) (24 + k) = Some (WI (zget (m_children m) k)) /\ nth_error (words_mnode m) (28 + k) = Some (WI (zget (m_counts m) k)) /\
  length (words_mnode m) = 32.
Proof. intros m k K. destruct k as [|[|[|[|k]]]]; [| | | |lia]; repeat split. Qed.
Theorem C40_mnode_lossless : forall m m', words_mnode m = words_mnode m' -> m = m'.
Proof.
  intros [[] [] [] [] [] [] [] []] [[] [] [] [] [] [] [] []] H. unfold words_mnode, words_v4, words_z4 in H.
  cbn in H.
  injection H as -> -> -> -> -> -> -> -> -> -> -> -> -> -> -> -> -> -> -> -> -> -> -> -> -> -> -> -> -> -> -> ->. reflexivity.
Qed.
Theorem C40_node_lossless : forall n n', words_aabb n = words_aabb n' -> n = n'.
Proof.
  intros [[] ? [] ?] [[] ? [] ?] H. unfold words_aabb in H. cbn in H.
  injection H as -> -> -> -> -> -> -> ->. reflexivity.
Qed.

(** ** C41 *)
Lemma read3_floats : forall b i x y z, nth_error b i = Some x -> nth_error b (i + 1) = Some y -> nth_error b (i + 2) = Some z ->
  read3 b i = Ok (V3 x y z).
Proof. intros b i x y z A B C. unfold read3, get_unchecked. rewrite A, B, C. reflexivity. Qed.

(** The vertices (for the splitter) and the centre of triangle [i] are the
    caller's, as long as all byte offsets fit 32 bits. *)
Theorem C41_vertices : forall vertices stride vertex_stride triangle_stride i k v,
  k < 3 -> (0 <= vertex_stride)%Z -> (0 <= triangle_stride)%Z -> (vertex_stride mod 4 = 0)%Z -> (triangle_stride mod 4 = 0)%Z ->
  (Z.of_nat i * triangle_stride + 2 * vertex_stride < 4294967296)%Z ->
  floats_at vertices (Z.of_nat i * triangle_stride + Z.of_nat k * vertex_stride) v ->
  w_vertex vertices (wrapper_of stride vertex_stride triangle_stride i) k = Ok v.
Proof.
  intros vertices stride vs ts i k v K V0 T0 Vm Tm L (P & M & X & Y & Z0). unfold w_vertex, wrapper_of.
  cbn [w_vertex0_offset w_vertex_stride].
  apply Z.div_exact in Vm; [|lia]. apply Z.div_exact in Tm; [|lia].
  assert (Z.of_nat i * ts / 4 = Z.of_nat i * (ts / 4))%Z as E1.
  { rewrite Tm at 1. replace (Z.of_nat i * (4 * (ts / 4)))%Z with (Z.of_nat i * (ts / 4) * 4)%Z by ring. apply Z.div_mul. lia. }
  assert (0 <= Z.of_nat i * (ts / 4))%Z as P1 by (apply Z.mul_nonneg_nonneg; [lia|apply Z.div_pos; lia]).
  assert (0 <= vs / 4)%Z as P2 by (apply Z.div_pos; lia).
  assert (Z.of_nat i * ts = 4 * (Z.of_nat i * (ts / 4)))%Z as E3 by (rewrite Tm at 1; ring).
  unfold as_u32. rewrite E1, (Z.mod_small (Z.of_nat i * (ts / 4))) by lia. rewrite (Z.mod_small (vs / 4)) by lia.
  assert ((Z.of_nat i * ts + Z.of_nat k * vs) / 4 = Z.of_nat i * (ts / 4) + Z.of_nat k * (vs / 4))%Z as E2.
  { rewrite E3. rewrite Vm at 1.
    replace (4 * (Z.of_nat i * (ts / 4)) + Z.of_nat k * (4 * (vs / 4)))%Z
      with ((Z.of_nat i * (ts / 4) + Z.of_nat k * (vs / 4)) * 4)%Z by ring. apply Z.div_mul. lia. }
  rewrite E2 in *. rewrite Z.mod_small by nia. destruct v. apply read3_floats; auto.
Qed.
Theorem C41_center : forall centers stride vertex_stride triangle_stride i v,
  (0 <= stride)%Z -> (stride mod 4 = 0)%Z -> (Z.of_nat i * stride < 4294967296)%Z -> (stride < 4294967296)%Z ->
  (Z.of_nat i < 4294967296)%Z -> floats_at centers (Z.of_nat i * stride) v ->
  w_center centers (wrapper_of stride vertex_stride triangle_stride i) = Ok v.
Proof.
  intros centers s vs ts i v S0 Sm L Ls Li (P & M & X & Y & Z0). unfold w_center, wrapper_of. cbn [w_center_i w_center_stride].
  unfold as_u32. rewrite (Z.mod_small s) by lia. rewrite (Z.mod_small (Z.of_nat i)) by lia. rewrite Z.mod_small by lia.
  destruct v. apply read3_floats; auto.
Qed.

(** [create_bvh] without AABBs: the builder gets the centres and, for each,
    the box that is exactly that point. *)
Theorem C41_centers : forall w centers n prims i v, centers_slice w centers n = Ok prims -> 3 <= w ->
  nth_error prims i = Some v -> i < n /\ floats_at (cb_data centers) (Z.of_nat (w * 4 * i)) v.
Proof.
  intros w centers n prims i v E W H. unfold centers_slice in E. unfold raw_parts in E.
  destruct ((cb_addr centers mod align_f32 =? 0)%Z && (w * n <=? length (cb_data centers))) eqn:C; [|discriminate].
  cbn [bind] in E. injection E as <-. apply andb_true_iff in C as [_ C]. apply Nat.leb_le in C.
  assert (i < n) as Li.
  { apply nth_lt in H. rewrite map_length, seq_length in H. exact H. }
  split; auto. rewrite nth_error_map in H. rewrite (nth_error_nth' (seq 0 n) 0) in H by (rewrite seq_length; auto).
  cbn [option_map] in H. rewrite seq_nth in H by auto. cbn [Nat.add] in H. injection H as <-. cbn [vx vy vz].
  assert (forall k, k < w -> nth_error (cb_data centers) (w * i + k) = Some (nth (w * i + k) (firstn (w * n) (cb_data centers)) f0)) as N.
  { intros k K. assert (w * i + k < w * n) as Lk by nia.
    rewrite <- (firstn_skipn (w * n) (cb_data centers)) at 1. rewrite nth_error_app1 by (rewrite firstn_length; lia).
    apply nth_error_nth'. rewrite firstn_length. lia. }
  assert (Z.to_nat (Z.of_nat (w * 4 * i) / 4) = w * i) as D.
  { replace (Z.of_nat (w * 4 * i)) with (Z.of_nat (w * i) * 4)%Z by lia. rewrite Z.div_mul by lia. apply Nat2Z.id. }
  split; [lia|]. split; [|cbn [vx vy vz]; rewrite D; split; [|split; apply N; lia]].
  - replace (Z.of_nat (w * 4 * i)) with (Z.of_nat (w * i) * 4)%Z by lia. apply Z.mod_mul. lia.
  - pose proof (N 0 ltac:(lia)) as Q. rewrite !Nat.add_0_r in Q. exact Q.
Qed.
Lemma non_zero_eq : forall ppl, non_zero ppl = if ppl =? 0 then None else Some ppl.
Proof. intros [|ppl]; reflexivity. Qed.
Theorem C41_create : forall bs st w n centers ppl k prims,
  w = 3 \/ w = 4 -> centers_slice w centers n = Ok prims -> prims <> [] ->
  create_bvh bs st None n (Some centers) (Z.of_nat (4 * w)) ppl k false =
  (do b <- (match k with KLocb => run_locb bs | KBinned => run_binned bs (if ppl =? 0 then None else Some ppl) end)
             (run_collect bs (map point_aabb prims)) (map point_center prims);
   Ok (COk, Some (fst (store st b)), snd (store st b))).
Proof.
  intros bs st w n centers ppl k prims W E Ne. rewrite <- non_zero_eq.
  assert (map point_center prims = prims) as -> by apply map_id.
  destruct prims as [|p ps]; [congruence|].
  destruct W as [-> | ->]; unfold create_bvh; cbn -[centers_slice run_kind store]; rewrite E; cbn [bind];
    unfold run_kind, construct; destruct (match k with KLocb => _ | KBinned => _ end _ _) as [b| | |]; auto;
    cbn [bind]; destruct (store st b); auto.
Qed.
Theorem C41_point_box : forall p, vok p -> vle p (vsplat f1e34) -> vle (vsplat (fneg f1e34)) p ->
  in_box (point_aabb p) p /\ box_in (point_aabb p) (Bb p 0 p 0).
Proof.
  intros p V L G. split; [apply grow_pt; [apply aabb_new_ok|auto]|].
  apply grow_least.
  - split; auto.
  - assert (vle p p) as R by (destruct V as (A & B & C); repeat split; apply fle_refl; auto). split; auto.
Qed.

(** [create_spatial_Bvh] without AABBs: the box of a triangle is computed from
    the wrong floats.  For tightly packed vertices (12 bytes each) the first
    triangle's box is its first vertex only. *)
Theorem C41_first_box : forall vertices stride triangle_stride v0,
  floats_at vertices 0 v0 ->
  w_aabb vertices (wrapper_of stride 12 triangle_stride 0) = Ok (grow (grow (grow aabb_new v0) v0) v0).
Proof.
  intros vertices stride ts v0 (_ & _ & X & Y & Z0). unfold w_aabb, wrapper_of. cbn [w_vertex0_offset w_vertex_stride].
  assert (read3 vertices 0 = Ok v0) as R by (destruct v0; apply read3_floats; auto).
  change (Z.to_nat (as_u32 (as_u32 (Z.of_nat 0 * ts / 4) * as_u32 (12 / 4)) / 4)) with 0.
  change (Z.to_nat (as_u32 (12 / 4) / 4)) with 0. cbn [Nat.add Nat.mul]. rewrite R. cbn [bind]. reflexivity.
Qed.
Definition packed : list f32 := [f0; f0; f0; f1; f0; f0; f0; f1; f0].
Theorem C41_aabb_refuted : exists v0 v1 v2 b, 
  w_vertex packed (wrapper_of 12 12 36 0) 0 = Ok v0 /\ w_vertex packed (wrapper_of 12 12 36 0) 1 = Ok v1 /\
  w_vertex packed (wrapper_of 12 12 36 0) 2 = Ok v2 /\
  w_aabb packed (wrapper_of 12 12 36 0) = Ok b /\ ~ in_box b v1 /\ ~ in_box b v2.
Proof.
  exists (V3 f0 f0 f0), (V3 f1 f0 f0), (V3 f0 f1 f0), (grow (grow (grow aabb_new (V3 f0 f0 f0)) (V3 f0 f0 f0)) (V3 f0 f0 f0)).
  split; [reflexivity|]. split; [reflexivity|]. split; [reflexivity|].
  split; [apply C41_first_box; split; [apply Z.le_refl|repeat split]|].
  split; intros [_ (X & Y & _)]; [revert X|revert Y]; vm_compute; discriminate.
Qed.
(** Later triangles are read from an offset three times too small or, for
    wider strides, out of the buffer. *)
Theorem C41_out_of_buffer_refuted : exists vertices v0 v1 v2,
  w_vertex vertices (wrapper_of 16 20 60 1) 0 = Ok v0 /\ w_vertex vertices (wrapper_of 16 20 60 1) 1 = Ok v1 /\
  w_vertex vertices (wrapper_of 16 20 60 1) 2 = Ok v2 /\ length vertices = 30 /\
  w_aabb vertices (wrapper_of 16 20 60 1) <> Ok (grow (grow (grow aabb_new v0) v1) v2).
Proof.
  exists (repeat f0 15 ++ [f1; f1; f1; f0; f0; f1; f1; f1; f0; f0; f1; f1; f1; f0; f0]).
  eexists _, _, _. split; [reflexivity|]. split; [reflexivity|]. split; [reflexivity|]. split; [reflexivity|].
  intro H. assert (vx (bmin (match w_aabb (repeat f0 15 ++ [f1; f1; f1; f0; f0; f1; f1; f1; f0; f0; f1; f1; f1; f0; f0]) (wrapper_of 16 20 60 1) with Ok b => b | _ => aabb_new end)) =
    vx (bmin (grow (grow (grow aabb_new (V3 f1 f1 f1)) (V3 f1 f1 f1)) (V3 f1 f1 f1)))) as Q by (rewrite H; reflexivity).
  apply (f_equal (fun x => feq x f1)) in Q. vm_compute in Q. discriminate.
Qed.
Example C41_case : exists v, w_vertex packed (wrapper_of 12 12 36 0) 2 = Ok v /\ floats_at packed 24 v /\ vy v = f1.
Proof. exists (V3 f0 f1 f0). split; [reflexivity|]. split; [split; [vm_compute; discriminate|repeat split]|reflexivity]. Qed.

(** ** C42 *)
Theorem C42_codes_distinct : forall c c', code_value c = code_value c' -> c = c'.
Proof. intros [] []; cbn; congruence. Qed.
Theorem C42_errors : forall e, code_of_error e <> COk /\ code_of_error e <> CError /\ code_of_error e <> CNan /\
  (code_of_error e = CNoPrimitives <-> e = NoPrimitives).
Proof. intros []; cbn; repeat split; congruence. Qed.

(** The AABBs and centres [create_bvh] passes to the builder. *)
Definition given_of (aabbs : option (cbuf rtaabb)) (n : nat) : res (option (list aabb)) :=
  match aabbs with Some b => do l <- raw_parts align_aabb b n; Ok (Some (map aabb_of_rt l)) | None => Ok None end.

(** Every call that returns: either a structure was built from the given data,
    the code is Ok, and exactly that structure was added and its handle
    written; or the code is another one and nothing was written or stored. *)
Theorem C42_create : forall bs st aabbs n centers stride ppl k null c out st',
  create_bvh bs st aabbs n centers stride ppl k null = Ok (c, out, st') ->
  (c = COk /\ exists data given prims b, centers = Some data /\ null = false /\ (stride = 12 \/ stride = 16)%Z /\
     given_of aabbs n = Ok given /\ centers_slice (Z.to_nat (stride / 4)) data n = Ok prims /\
     run_kind bs k ppl given prims = Ok (ROk b) /\ out = Some (fst (store st b)) /\ st' = snd (store st b)) \/
  (c <> COk /\ out = None /\ st' = st).
Proof.
  intros bs st aabbs n centers stride ppl k null c out st' H. unfold create_bvh in H.
  destruct centers as [data|]; [|injection H as <- <- <-; right; split; [discriminate|auto]].
  destruct null; [injection H as <- <- <-; right; split; [discriminate|auto]|].
  destruct (negb _) eqn:S1 in H; [discriminate|]. destruct (negb _) eqn:S2 in H; [discriminate|]. destruct (negb _) eqn:S3 in H; [discriminate|].
  change (match aabbs with Some b => _ | None => _ end) with (given_of aabbs n) in H.
  destruct (given_of aabbs n) as [given| | |] eqn:G; try discriminate. cbn [bind] in H.
  assert (exists prims r, (stride = 12 \/ stride = 16)%Z /\ centers_slice (Z.to_nat (stride / 4)) data n = Ok prims /\
    run_kind bs k ppl given prims = Ok r /\
    match r with ROk b => let '(h, st) := store st b in Ok (COk, Some h, st) | RErr e => Ok (code_of_error e, None, st) end = Ok (c, out, st'))
    as (prims & r & Hs & E & R & H').
  { destruct (Z.eqb_spec stride 12) as [-> |N].
    - destruct (centers_slice 3 data n) as [prims| | |] eqn:E; try discriminate. cbn [bind] in H.
      destruct (run_kind bs k ppl given prims) as [r| | |] eqn:R; try discriminate. cbn [bind] in H. exists prims, r. auto.
    - destruct (Z.eqb_spec stride 16) as [-> |N']; [|discriminate].
      destruct (centers_slice 4 data n) as [prims| | |] eqn:E; try discriminate. cbn [bind] in H.
      destruct (run_kind bs k ppl given prims) as [r| | |] eqn:R; try discriminate. cbn [bind] in H. exists prims, r. auto. }
  destruct r as [b|e].
  - left. destruct (store st b) as [h s] eqn:Eb. injection H' as <- <- <-. split; auto.
    exists data, given, prims, b. rewrite Eb. cbn [fst snd]. repeat split; auto.
  - right. injection H' as <- <- <-. split; [apply C42_errors|auto].
Qed.

Lemma centers_length : forall w data n prims, centers_slice w data n = Ok prims -> length prims = n.
Proof.
  intros w data n prims E. unfold centers_slice in E. destruct (raw_parts _ _ _); try discriminate. cbn [bind] in E.
  injection E as <-. rewrite map_length, seq_length. auto.
Qed.
Lemma given_length : forall aabbs n given l, given_of aabbs n = Ok given -> given = Some l -> length l = n.
Proof.
  intros [b|] n given l E ->; cbn [given_of] in E; [|discriminate]. unfold raw_parts in E.
  destruct (_ && _) eqn:C; [|discriminate]. cbn [bind] in E. injection E as <-. rewrite map_length, firstn_length.
  apply andb_true_iff in C as [_ C]. apply Nat.leb_le in C. lia.
Qed.
(** Which code: Error for null pointers, NoPrimitives for an empty scene, never
    the other two. *)
Theorem C42_which : forall bs st aabbs n centers stride ppl k null c out st',
  create_bvh bs st aabbs n centers stride ppl k null = Ok (c, out, st') ->
  (c = CError <-> centers = None \/ null = true) /\
  (c = CNoPrimitives <-> centers <> None /\ null = false /\ n = 0) /\
  c <> CInequalAabbsAndPrimitives /\ c <> CNan.
Proof.
  intros bs st aabbs n centers stride ppl k null c out st' H. unfold create_bvh in H.
  destruct centers as [data|].
  2:{ injection H as <- <- <-. split; [tauto|]. split; [split; [discriminate|intros (A & _); congruence]|split; discriminate]. }
  destruct null.
  { injection H as <- <- <-. split; [tauto|]. split; [split; [discriminate|intros (_ & A & _); discriminate]|split; discriminate]. }
  destruct (negb _) in H; [discriminate|]. destruct (negb _) in H; [discriminate|]. destruct (negb _) in H; [discriminate|].
  change (match aabbs with Some b => _ | None => _ end) with (given_of aabbs n) in H.
  destruct (given_of aabbs n) as [given| | |] eqn:G; try discriminate. cbn [bind] in H.
  assert (exists w prims r, centers_slice w data n = Ok prims /\ run_kind bs k ppl given prims = Ok r /\
    match r with ROk b => let '(h, st) := store st b in Ok (COk, Some h, st) | RErr e => Ok (code_of_error e, None, st) end = Ok (c, out, st'))
    as (w & prims & r & E & R & H').
  { destruct (Z.eqb_spec stride 12) as [-> |N].
    - destruct (centers_slice 3 data n) as [prims| | |] eqn:E; try discriminate. cbn [bind] in H.
      destruct (run_kind bs k ppl given prims) as [r| | |] eqn:R; try discriminate. cbn [bind] in H. exists 3, prims, r. auto.
    - destruct (Z.eqb_spec stride 16) as [-> |N']; [|discriminate].
      destruct (centers_slice 4 data n) as [prims| | |] eqn:E; try discriminate. cbn [bind] in H.
      destruct (run_kind bs k ppl given prims) as [r| | |] eqn:R; try discriminate. cbn [bind] in H. exists 4, prims, r. auto. }
  pose proof (centers_length _ _ _ _ E) as L. unfold run_kind in R.
  set (bld := match k with KLocb => run_locb bs | KBinned => run_binned bs (non_zero ppl) end) in R.
  assert (c <> CError /\ c <> CInequalAabbsAndPrimitives /\ c <> CNan /\ (c = CNoPrimitives <-> prims = [])) as (A & B & C & D).
  { destruct r as [b|e].
    - destruct (store st b) as [h s]. injection H' as <- <- <-. repeat split; try discriminate.
      intros ->. cbn in R. discriminate.
    - injection H' as <- <- <-. destruct e as [|a p].
      + apply C11_no_primitives in R. cbn. repeat split; auto; discriminate.
      + exfalso. apply C11_inequal in R as (_ & l & Eg & Hl & _). apply Hl.
        rewrite (given_length _ _ _ _ G Eg). auto. }
  split; [split; [congruence|intros [?|?]; discriminate]|]. split; [|auto].
  rewrite D. split.
  - intros ->. split; [discriminate|]. auto.
  - intros (_ & _ & ->). destruct prims; [auto|discriminate].
Qed.

(** Strides other than 12 and 16 bytes are refused by a panic before anything
    happens. *)
Theorem C42_stride : forall bs st aabbs n data stride ppl k, stride <> 12%Z -> stride <> 16%Z ->
  create_bvh bs st aabbs n (Some data) stride ppl k false = Panic.
Proof.
  intros bs st aabbs n data stride ppl k A B. unfold create_bvh.
  destruct (Z.eqb_spec (stride mod 4) 0) as [E|E]; cbn [negb]; auto.
  destruct (Z.leb_spec 12 stride); cbn [negb]; auto. destruct (Z.leb_spec stride 16); cbn [negb]; auto.
  exfalso. assert (stride = 13 \/ stride = 14 \/ stride = 15)%Z as [-> |[-> | ->]] by lia; discriminate.
Qed.

(** create_mbvh and refit. *)
Theorem C42_create_mbvh : forall fuel st h null c out st', create_mbvh fuel st h null = Ok (c, out, st') ->
  (c = COk /\ null = false /\ exists b m, manager_get st (h_id h) = Ok (Some b) /\ mbvh_construct fuel b = Ok m /\
     out = Some (fst (store_mbvh st m)) /\ st' = snd (store_mbvh st m)) \/
  (c = CError /\ out = None /\ st' = st /\
     (h_nodes h = None \/ h_indices h = None \/ null = true \/ manager_get st (h_id h) = Ok None)).
Proof.
  intros fuel st h null c out st' H. unfold create_mbvh in H.
  destruct (h_nodes h) as [a|]; [|injection H as <- <- <-; right; auto 10].
  destruct (h_indices h) as [i|]; [|injection H as <- <- <-; right; auto 10].
  destruct null; [injection H as <- <- <-; right; auto 10|].
  destruct (manager_get st (h_id h)) as [[b|]| | |]; try discriminate; cbn [bind] in H; [|injection H as <- <- <-; right; auto 10].
  destruct (mbvh_construct fuel b) as [m| | |] eqn:M; try discriminate. cbn [bind] in H.
  destruct (store_mbvh st m) as [h' s] eqn:S. injection H as <- <- <-. left. split; auto. split; auto.
  exists b, m. rewrite S. auto.
Qed.
Theorem C42_refit : forall st aabbs h c st', ffi_refit st aabbs h = Ok (c, st') ->
  (c = COk /\ exists data l b b', aabbs = Some data /\ manager_get st (h_id h) = Ok (Some b) /\
     raw_parts align_aabb data (length (prim_indices b)) = Ok l /\ BvhModel.refit b (map aabb_of_rt l) = Ok b' /\
     st' = manager_set_nodes st (h_id h) (nodes b')) \/
  (c = CError /\ st' = st /\ (aabbs = None \/ h_nodes h = None \/ h_indices h = None \/ manager_get st (h_id h) = Ok None)).
Proof.
  intros st aabbs h c st' H. unfold ffi_refit in H.
  destruct aabbs as [data|]; [|injection H as <- <-; right; auto 10].
  destruct (h_nodes h) as [a|]; [|injection H as <- <-; right; auto 10].
  destruct (h_indices h) as [i|]; [|injection H as <- <-; right; auto 10].
  destruct (manager_get st (h_id h)) as [[b|]| | |]; try discriminate; cbn [bind] in H; [|injection H as <- <-; right; auto 10].
  destruct (raw_parts align_aabb data (length (prim_indices b))) as [l| | |] eqn:R; try discriminate. cbn [bind] in H.
  destruct (BvhModel.refit b (map aabb_of_rt l)) as [b'| | |] eqn:F; try discriminate. cbn [bind] in H.
  injection H as <- <-. left. split; auto. exists data, l, b, b'. auto.
Qed.

(** With the clustering builder and sane data the call succeeds: the stored
    structure is a valid BVH over all [n] primitives. *)
Definition locb_builders (fuel threads : nat) (collect : list aabb -> list aabb) (other : option nat -> list aabb -> list vec3 -> res bvh)
    : builders vec3 :=
  Builders vec3 (fun aabbs ps => locb_build fuel threads aabbs (map point_center ps)) other collect.
Theorem C42_locb : forall fuel threads collect other st data n w centers ppl prims l,
  w = 3 \/ w = 4 -> centers_slice w centers n = Ok prims -> raw_parts align_aabb data n = Ok l -> n <> 0 ->
  1 <= threads -> (Z.of_nat (3 * (2 * n - 1)) < 4294967295)%Z -> n <= fuel -> (forall l, Permutation (collect l) l) ->
  Forall (box_within f2p60) (map aabb_of_rt l) ->
  exists b, create_bvh (locb_builders fuel threads collect other) st (Some data) n (Some centers) (Z.of_nat (4 * w)) ppl KLocb false
      = Ok (COk, Some (fst (store st b)), snd (store st b)) /\ valid_bvh (nodes b) (prim_indices b) n.
Proof.
  intros fuel threads collect other st data n w centers ppl prims l W E R N T M F Cp Wi.
  pose proof (centers_length _ _ _ _ E) as Lp.
  assert (length (map aabb_of_rt l) = n) as Ll.
  { apply (given_length (Some data) n (Some (map aabb_of_rt l))); auto. cbn [given_of]. rewrite R. auto. }
  destruct (C11_locb vec3 point_center point_aabb collect fuel threads (Some (map aabb_of_rt l)) prims) as (b & B & V); auto.
  - destruct prims; [cbn in Lp; congruence|discriminate].
  - intros aabbs Q. injection Q as <-. congruence.
  - rewrite Lp; auto.
  - rewrite Lp; auto.
  - exists b. rewrite Lp in V. split; auto.
    unfold construct_locb in B.
    destruct W as [-> | ->]; unfold create_bvh; cbn -[centers_slice run_kind store raw_parts]; rewrite R; cbn [bind]; rewrite E; cbn [bind];
      unfold run_kind; cbn [locb_builders run_collect run_locb]; rewrite B; cbn [bind]; destruct (store st b); reflexivity.
Qed.

Lemma wrapper_aabbs_each : forall vertices (f : nat -> wrapper) is l, wrapper_aabbs vertices (map f is) = Ok l ->
  (exists data, vertices = Some data /\ Forall2 (fun i box => w_aabb data (f i) = Ok box) is l) \/ is = [].
Proof.
  intros vertices f. induction is as [|i is IH]; intros l E; [auto|left].
  cbn [map wrapper_aabbs] in E. destruct vertices as [data|]; [|discriminate]. exists data. split; auto.
  destruct (w_aabb data (f i)) as [b| | |] eqn:Eb; try discriminate. cbn [bind] in E.
  destruct (wrapper_aabbs (Some data) (map f is)) as [l'| | |] eqn:El; try discriminate. cbn [bind] in E.
  injection E as <-. constructor; auto.
  destruct (IH l' eq_refl) as [(d & Ed & F)|Ei]; [injection Ed as <-; auto|].
  rewrite Ei in El |- *. injection El as <-. constructor.
Qed.

(** The same for [create_spatial_Bvh]: Ok means that the builder, run on one
    wrapper per triangle and the given (or computed) AABBs, returned the
    structure that was added and whose handle was written; the only other
    code is the one for no triangles, and then nothing changed. *)
Theorem C42_spatial : forall build collect st aabbs n stride vertices vs ts ppl null c out st',
  create_spatial build collect st aabbs n stride vertices vs ts ppl null = Ok (c, out, st') ->
  (c = COk /\ 0 < n /\ exists l b,
     (match aabbs with
      | Some data => exists raw, raw_parts 16 data n = Ok raw /\ l = map aabb_of_rt raw
      | None => exists data l0, vertices = Some data /\ l = collect l0 /\
          Forall2 (fun i box => w_aabb data (wrapper_of stride vs ts i) = Ok box) (seq 0 n) l0
      end) /\
     build (if ppl =? 0 then None else Some ppl) l (map (wrapper_of stride vs ts) (seq 0 n)) = Ok b /\ null = false /\
     out = Some (fst (store st b)) /\ st' = snd (store st b)) \/
  (c = CNoPrimitives /\ n = 0 /\ out = None /\ st' = st).
Proof.
  intros build collect st aabbs n stride vertices vs ts ppl null c out st' H. rewrite <- non_zero_eq. unfold create_spatial in H.
  destruct (negb _) eqn:S1 in H; [discriminate|].
  remember (map (wrapper_of stride vs ts) (seq 0 n)) as prims eqn:Ep.
  assert (length prims = n) as Lp by (subst prims; rewrite map_length, seq_length; auto).
  assert (forall b, (if null then UB else let '(h, st0) := store st b in Ok (COk, Some h, st0)) = Ok (c, out, st') ->
    c = COk /\ null = false /\ out = Some (fst (store st b)) /\ st' = snd (store st b)) as Fin.
  { intros b Q. destruct null; [discriminate|]. destruct (store st b) as [h s1]. injection Q as <- <- <-. auto. }
  destruct aabbs as [data|].
  - change align_aabb with 16%Z in H. destruct (raw_parts 16 data n) as [raw| | |] eqn:Er; try discriminate. cbn [bind] in H.
    assert (length raw = n) as Lr.
    { unfold raw_parts in Er. destruct (_ && _) eqn:Q in Er; [|discriminate]. apply andb_true_iff in Q as [_ Q]. apply Nat.leb_le in Q.
      injection Er as <-. apply firstn_length_le. auto. }
    destruct prims as [|p0 prims].
    + cbn [bind] in H. injection H as <- <- <-. right. simpl in Lp. auto.
    + rewrite map_length, Lr, Lp, Nat.eqb_refl in H. cbn [negb] in H.
      destruct (build _ _ _) as [b| | |] eqn:Eb; try discriminate. cbn [bind] in H.
      destruct (Fin b H) as (-> & -> & -> & ->). left. split; auto. split; [simpl in Lp; lia|].
      exists (map aabb_of_rt raw), b. split; eauto.
  - cbn [bind] in H. destruct prims as [|p0 prims].
    + cbn [bind] in H. injection H as <- <- <-. right. simpl in Lp. auto.
    + destruct (wrapper_aabbs vertices (p0 :: prims)) as [l0| | |] eqn:Ew; try discriminate. cbn [bind] in H.
      destruct (build _ _ _) as [b| | |] eqn:Eb; try discriminate. cbn [bind] in H.
      destruct (Fin b H) as (-> & -> & -> & ->). left. split; auto. split; [simpl in Lp; lia|].
      exists (collect l0), b. split; [|auto].
      rewrite Ep in Ew. destruct n as [|n']; [discriminate|].
      destruct (wrapper_aabbs_each vertices (wrapper_of stride vs ts) (seq 0 (S n')) l0 Ew) as [(data & -> & F)|X]; [|discriminate].
      exists data, l0. auto.
Qed.

(** ** C50 *)
(** The array of AABBs must be aligned to 16 bytes although its declared type
    only needs 4: any other address is undefined behaviour. *)
Theorem C50_aabbs_refuted : forall bs st data n centers stride ppl k,
  (cb_addr data mod 16 <> 0)%Z -> (stride = 12 \/ stride = 16)%Z ->
  create_bvh bs st (Some data) n (Some centers) stride ppl k false = UB.
Proof.
  intros bs st data n centers stride ppl k A W. unfold create_bvh, raw_parts, align_aabb.
  destruct (Z.eqb_spec (cb_addr data mod 16) 0); [contradiction|]. destruct W as [-> | ->]; reflexivity.
Qed.
Theorem C50_refit_refuted : forall st data h b, (cb_addr data mod 16 <> 0)%Z -> h_nodes h <> None -> h_indices h <> None ->
  manager_get st (h_id h) = Ok (Some b) -> ffi_refit st (Some data) h = UB.
Proof.
  intros st data h b A N I G. unfold ffi_refit. destruct (h_nodes h); [|congruence]. destruct (h_indices h); [|congruence].
  rewrite G. cbn [bind]. unfold raw_parts, align_aabb. destruct (Z.eqb_spec (cb_addr data mod 16) 0); [contradiction|]. reflexivity.
Qed.
(** Likewise the [t] of the packet functions, once the ray is not NaN. *)
Theorem C50_packet_t_refuted : forall C fuel st h ox oy oz dx dy dz t_addr t (f : C -> nat -> vec4 -> bool * C * vec4) c,
  (t_addr mod 16 <> 0)%Z -> lanes_nan ox oy oz dx dy dz = false ->
  forall out, ffi_intersect_packet fuel st h ox oy oz dx dy dz t_addr t f c <> Ok out /\
              ffi_intersect_mbvh_packet fuel st h ox oy oz dx dy dz t_addr t f c <> Ok out.
Proof.
  intros C fuel st h ox oy oz dx dy dz ta t f c A N out. unfold ffi_intersect_packet, ffi_intersect_mbvh_packet, align_vec4.
  rewrite N. destruct (Z.eqb_spec (ta mod 16) 0); [contradiction|].
  split; intro H; revert H; repeat (destruct (handle_slice _ _ _); cbn [bind]; try discriminate);
    destruct (ffi_loop _ _ _ _ _ _) as [[[? ?] ?]| | |]; cbn [bind]; discriminate.
Qed.

(** Exactly which calls are undefined behaviour: those with a buffer that is
    too short or not aligned to [align] bytes, where [align] is 16 for the
    AABBs and for [t]. *)
Definition suits {A} (align : Z) (b : cbuf A) (n : nat) : Prop := (cb_addr b mod align = 0)%Z /\ n <= length (cb_data b).
Lemma raw_parts_ub : forall A align (b : cbuf A) n, raw_parts align b n = UB <-> ~ suits align b n.
Proof.
  intros A align b n. unfold raw_parts, suits. destruct (Z.eqb_spec (cb_addr b mod align) 0); destruct (Nat.leb_spec n (length (cb_data b)));
    cbn [andb]; split; intro Q; try discriminate; try tauto; intros [? ?]; try congruence; lia.
Qed.
Lemma raw_parts_ok : forall A align (b : cbuf A) n, suits align b n -> raw_parts align b n = Ok (firstn n (cb_data b)).
Proof.
  intros A align b n [H1 H2]. unfold raw_parts. rewrite H1. cbn [Z.eqb]. apply Nat.leb_le in H2. rewrite H2. reflexivity.
Qed.
Lemma suits_dec : forall A align (b : cbuf A) n, suits align b n \/ ~ suits align b n.
Proof.
  intros A align b n. unfold suits. destruct (Z.eq_dec (cb_addr b mod align) 0); destruct (le_dec n (length (cb_data b))); tauto.
Qed.
Theorem C50_create : forall bs st aabbs n centers w ppl k,
  (forall given prims, run_kind bs k ppl given prims <> UB) -> w = 3 \/ w = 4 ->
  (create_bvh bs st aabbs n (Some centers) (4 * Z.of_nat w) ppl k false = UB <->
   (exists data, aabbs = Some data /\ ~ suits 16 data n) \/ ~ suits 4 centers (w * n)).
Proof.
  intros bs st aabbs n centers w ppl k Nu W.
  assert (create_bvh bs st aabbs n (Some centers) (4 * Z.of_nat w) ppl k false =
    do given <- (match aabbs with
                 | Some b => do l <- raw_parts align_aabb b n; Ok (Some (map aabb_of_rt l))
                 | None => Ok None
                 end);
    do r <- (do prims <- centers_slice w centers n; run_kind bs k ppl given prims);
    match r with
    | ROk b => let '(h, st) := store st b in Ok (COk, Some h, st)
    | RErr e => Ok (code_of_error e, None, st)
    end) as -> by (destruct W as [-> | ->]; reflexivity).
  assert (forall given, (do r <- (do prims <- centers_slice w centers n; run_kind bs k ppl given prims);
    match r with
    | ROk b => let '(h, st) := store st b in Ok (COk, Some h, st)
    | RErr e => Ok (code_of_error e, None, st)
    end) = UB <-> ~ suits 4 centers (w * n)) as G.
  { intro given. unfold centers_slice, align_f32. destruct (suits_dec _ 4 centers (w * n)) as [S|S].
    - rewrite (raw_parts_ok _ _ _ _ S). cbn [bind]. set (prims := map _ _). specialize (Nu given prims).
      destruct (run_kind bs k ppl given prims) as [[b|e]| | |]; cbn [bind]; try (destruct (store st b));
        split; intro H; try discriminate; try contradiction; congruence.
    - rewrite (proj2 (raw_parts_ub _ _ _ _) S). cbn [bind]. tauto. }
  destruct aabbs as [data|].
  - unfold align_aabb. destruct (suits_dec _ 16 data n) as [S|S].
    + rewrite (raw_parts_ok _ _ _ _ S). cbn [bind]. rewrite G. split; [tauto|]. intros [(d & E & H)|H]; auto. injection E as <-. tauto.
    + rewrite (proj2 (raw_parts_ub _ _ _ _) S). cbn [bind]. split; auto. intros _. left. eauto.
  - cbn [bind]. rewrite G. split; [tauto|]. intros [(d & E & H)|H]; auto. discriminate.
Qed.
Lemma for_each_not_ub : forall A S (l : list A) (f : A -> S -> res S) s, (forall x s, f x s <> UB) -> for_each l f s <> UB.
Proof.
  intros A S l f s H. revert s. induction l as [|x l IH]; intro s; cbn [for_each]; [discriminate|].
  specialize (H x s). destruct (f x s); cbn [bind]; auto; try discriminate; congruence.
Qed.
Lemma refit_not_ub : forall b new, BvhModel.refit b new <> UB.
Proof.
  intros b new. unfold BvhModel.refit.
  assert (for_each (rev (seq 0 (length (nodes b)))) (refit_node (prim_indices b) new) (nodes b) <> UB) as H.
  { apply for_each_not_ub. intros i ns. unfold refit_node, get, set. destruct (nth_error ns i) as [n|]; cbn [bind]; [|discriminate].
    assert (refit_bounds (prim_indices b) new ns n <> UB) as H.
    { unfold refit_bounds. destruct (get_left_first n) as [lf|]; [|discriminate]. destruct (is_leaf n).
      - assert (refit_leaf (prim_indices b) new lf (count_unchecked n) <> UB) as H.
        { apply for_each_not_ub. intros j a. unfold get. destruct (nth_error (prim_indices b) _) as [p|]; cbn [bind]; [|discriminate].
          destruct (nth_error new p); discriminate. }
        destruct (refit_leaf _ _ _ _); cbn [bind]; congruence.
      - unfold get. destruct (nth_error ns _); cbn [bind]; [|discriminate]. destruct (nth_error ns _); cbn [bind]; discriminate. }
    destruct (refit_bounds _ _ _ _); cbn [bind]; try congruence. destruct (i <? length ns); discriminate. }
  destruct (for_each _ _ _); cbn [bind]; congruence.
Qed.
Theorem C50_refit : forall st data h b, h_nodes h <> None -> h_indices h <> None -> manager_get st (h_id h) = Ok (Some b) ->
  (ffi_refit st (Some data) h = UB <-> ~ suits 16 data (length (prim_indices b))).
Proof.
  intros st data h b N I G. unfold ffi_refit. destruct (h_nodes h); [|congruence]. destruct (h_indices h); [|congruence].
  rewrite G. cbn [bind]. unfold align_aabb. destruct (suits_dec _ 16 data (length (prim_indices b))) as [S|S].
  - rewrite (raw_parts_ok _ _ _ _ S). cbn [bind]. pose proof (refit_not_ub b (map aabb_of_rt (firstn (length (prim_indices b)) (cb_data data)))) as Nu.
    destruct (BvhModel.refit _ _); cbn [bind]; split; intro H; try discriminate; try contradiction; congruence.
  - rewrite (proj2 (raw_parts_ub _ _ _ _) S). cbn [bind]. tauto.
Qed.

(** A stride that is no multiple of 4 bytes is refused by a panic before
    anything is read or written. *)
Theorem C42_spatial_stride : forall build collect st aabbs n stride vertices vs ts ppl null, (stride mod 4 <> 0)%Z ->
  create_spatial build collect st aabbs n stride vertices vs ts ppl null = Panic.
Proof.
  intros. unfold create_spatial. apply Z.eqb_neq in H. rewrite H. reflexivity.
Qed.

(** Unlike [create_bvh], [create_spatial_Bvh] does not report a null [result]:
    whenever the build succeeds the handle is written through it; nor a null
    [vertices] when it has to compute the AABBs. *)
Theorem C50_spatial_null_refuted : forall build collect st aabbs n stride vertices vs ts ppl h st',
  create_spatial build collect st aabbs n stride vertices vs ts ppl false = Ok (COk, Some h, st') ->
  create_spatial build collect st aabbs n stride vertices vs ts ppl true = UB.
Proof.
  intros build collect st aabbs n stride vertices vs ts ppl h st' H. unfold create_spatial in *.
  destruct (negb _) in H |- *; [discriminate|].
  destruct (match aabbs with Some b => _ | None => _ end) as [given| | |]; cbn [bind] in *; try discriminate.
  match type of H with (do _ <- ?x; _) = _ => destruct x as [r| | |] end; cbn [bind] in *; try discriminate.
  destruct r as [b|e]; auto. destruct e; discriminate.
Qed.
Theorem C50_spatial_vertices_refuted : forall build collect st n stride vs ts ppl null,
  (stride mod 4 = 0)%Z -> 0 < n -> create_spatial build collect st None n stride None vs ts ppl null = UB.
Proof.
  intros build collect st n stride vs ts ppl null A L. unfold create_spatial. rewrite A. cbn [Z.eqb negb bind].
  destruct n as [|n]; [lia|]. reflexivity.
Qed.

(** ** C48 *)
(** Every call is one operation of the table, or none. *)
Lemma api_op : forall st a c h st', api_step st a = Ok (c, h, st') ->
  exists os, run st os = Some st' /\ length os <= 1 /\
    (forall id, api_frees id a = false -> forallb (fun o => negb (frees id o)) os = true) /\
    (forall id, api_frees_m id a = false -> forallb (fun o => negb (frees_m id o)) os = true) /\
    (forall id, api_frees id a = false -> api_refits id a = false -> forallb (fun o => negb (touches id o)) os = true).
Proof.
  intros st a c h st' H. destruct a as [bs aabbs n centers stride ppl k null|bd co aabbs n stride vertices vs ts ppl null|fuel h0 null|aabbs h0|h0|h0]; cbn [api_step] in H.
  - destruct (C42_create _ _ _ _ _ _ _ _ _ _ _ _ H) as [(_ & data & given & prims & b & _ & _ & _ & _ & _ & _ & _ & ->)|(_ & _ & ->)].
    + exists [OStore b]. cbn. auto 10.
    + exists []. cbn. auto 10.
  - destruct (C42_spatial _ _ _ _ _ _ _ _ _ _ _ _ _ _ H) as [(_ & _ & l & b & _ & _ & _ & _ & ->)|(_ & _ & _ & ->)].
    + exists [OStore b]. cbn. auto 10.
    + exists []. cbn. auto 10.
  - destruct (C42_create_mbvh _ _ _ _ _ _ _ H) as [(_ & _ & b & m & _ & _ & _ & ->)|(_ & _ & -> & _)].
    + exists [OStoreM m]. cbn. auto 10.
    + exists []. cbn. auto 10.
  - destruct (ffi_refit st aabbs h0) as [[c1 st1]| | |] eqn:R; try discriminate. cbn [bind] in H. injection H as <- <- <-.
    destruct (C42_refit _ _ _ _ _ R) as [(_ & data & l & b & b' & _ & G & _ & F & ->)|(_ & -> & _)].
    + exists [ORefit (h_id h0) (map aabb_of_rt l)]. cbn [run step]. rewrite G, F. split; auto. split; auto.
      split; [auto|]. split; [auto|]. intros id _ Q. cbn [api_refits] in Q. cbn [forallb touches]. rewrite Q. auto.
    + exists []. cbn. auto 10.
  - injection H as <- <- <-. exists [OFree (h_id h0)]. split; auto. split; auto. cbn.
    split; [intros id ->; auto|]. split; [auto|intros id -> _; auto].
  - injection H as <- <- <-. exists [OFreeM (h_id h0)]. split; auto. split; auto. cbn.
    split; [auto|]. split; [intros id ->; auto|auto].
Qed.
Lemma run_app : forall l1 l2 s, run s (l1 ++ l2) = match run s l1 with Some s' => run s' l2 | None => None end.
Proof. induction l1 as [|o l1 IH]; intros l2 s; cbn [app run]; auto. destruct (step s o); auto. Qed.
Lemma history_ops : forall st l st', history st l st' ->
  exists os, run st os = Some st' /\ length os <= length l /\
    (forall id, forallb (fun a => negb (api_frees id a)) l = true -> forallb (fun o => negb (frees id o)) os = true) /\
    (forall id, forallb (fun a => negb (api_frees_m id a)) l = true -> forallb (fun o => negb (frees_m id o)) os = true) /\
    (forall id, forallb (fun a => negb (api_frees id a)) l = true -> forallb (fun a => negb (api_refits id a)) l = true ->
       forallb (fun o => negb (touches id o)) os = true).
Proof.
  induction 1 as [st|st a c h st' l st'' S H IH].
  - exists []. cbn. auto 10.
  - destruct (api_op _ _ _ _ _ S) as (o1 & R1 & L1 & A1 & B1 & C1). destruct IH as (o2 & R2 & L2 & A2 & B2 & C2).
    exists (o1 ++ o2). rewrite run_app, R1. split; auto. split; [rewrite app_length; cbn; lia|].
    split; [|split].
    + intros id F. cbn [forallb] in F. apply andb_true_iff in F as [F1 F2]. apply negb_true_iff in F1.
      rewrite forallb_app, (A1 id F1), (A2 id F2). auto.
    + intros id F. cbn [forallb] in F. apply andb_true_iff in F as [F1 F2]. apply negb_true_iff in F1.
      rewrite forallb_app, (B1 id F1), (B2 id F2). auto.
    + intros id F G. cbn [forallb] in F, G. apply andb_true_iff in F as [F1 F2]. apply andb_true_iff in G as [G1 G2].
      apply negb_true_iff in F1. apply negb_true_iff in G1. rewrite forallb_app, (C1 id F1 G1), (C2 id F2 G2). auto.
Qed.

(** Sizes never change while the structure is not freed. *)
Lemma table_sizes : forall os t t' id b, table_run t os = Some t' -> nth_error (fst t) (Z.to_nat id) = Some b ->
  forallb (fun o => negb (frees id o)) os = true ->
  exists b', nth_error (fst t') (Z.to_nat id) = Some b' /\ length (nodes b') = length (nodes b) /\ prim_indices b' = prim_indices b.
Proof.
  induction os as [|o os IH]; intros [bs ms] t' id b E N F; cbn [table_run] in E.
  - injection E as <-. eauto.
  - destruct (table_step (bs, ms) o) as [t1|] eqn:S; [|discriminate]. cbn [forallb] in F. apply andb_true_iff in F as [F1 F2].
    apply negb_true_iff in F1. cbn [fst] in N. apply nth_lt in N as L.
    assert (exists b1, nth_error (fst t1) (Z.to_nat id) = Some b1 /\ length (nodes b1) = length (nodes b) /\ prim_indices b1 = prim_indices b)
      as (b1 & N1 & L1 & P1).
    { destruct o as [b0|m|j l|j|j]; cbn [table_step] in S.
      - injection S as <-. cbn [fst]. rewrite nth_error_app1 by auto. eauto.
      - injection S as <-. eauto.
      - destruct (nth_error bs (Z.to_nat j)) as [b0|] eqn:Ej; [|injection S as <-; eauto].
        destruct (BvhModel.refit b0 l) as [b0'| | |] eqn:R; try discriminate. injection S as <-. cbn [fst].
        destruct (Nat.eq_dec (Z.to_nat id) (Z.to_nat j)) as [Q|Q].
        + rewrite Q, nth_error_upd_same by lia. destruct (refit_keeps _ _ _ R). exists b0'. split; auto.
          rewrite Q, Ej in N. injection N as ->. auto.
        + rewrite nth_error_upd_other by auto. eauto.
      - injection S as <-. cbn [frees] in F1. apply Nat.eqb_neq in F1. cbn [fst]. rewrite nth_error_upd_other by auto. eauto.
      - injection S as <-. eauto. }
    destruct (IH t1 t' id b1 E N1 F2) as (b2 & N2 & L2 & P2). exists b2. split; auto. split; [lia|congruence].
Qed.
Lemma table_sizes_m : forall os t t' id m, table_run t os = Some t' -> nth_error (snd t) (Z.to_nat id) = Some m ->
  forallb (fun o => negb (frees_m id o)) os = true -> nth_error (snd t') (Z.to_nat id) = Some m.
Proof.
  induction os as [|o os IH]; intros [bs ms] t' id b E N F; cbn [table_run] in E.
  - injection E as <-. eauto.
  - destruct (table_step (bs, ms) o) as [t1|] eqn:S; [|discriminate]. cbn [forallb] in F. apply andb_true_iff in F as [F1 F2].
    apply negb_true_iff in F1. cbn [snd] in N. apply nth_lt in N as L. apply (IH t1 t' id b E); auto.
    destruct o as [b0|m|j l|j|j]; cbn [table_step] in S.
    + injection S as <-. auto.
    + injection S as <-. cbn [snd]. rewrite nth_error_app1; auto.
    + destruct (nth_error bs (Z.to_nat j)); [|injection S as <-; auto].
      destruct (BvhModel.refit b0 l); try discriminate. injection S as <-. auto.
    + injection S as <-. auto.
    + injection S as <-. cbn [frees_m] in F1. apply Nat.eqb_neq in F1. cbn [snd]. rewrite nth_error_upd_other; auto.
Qed.
Lemma stores_le : forall os, stores os <= length os.
Proof. intro os. unfold stores. induction os as [|o os IH]; cbn; auto. destruct o; cbn; lia. Qed.
Lemma slice_all : forall A (heap : list (option (list A))) a l, nth_error heap a = Some (Some l) -> (Z.of_nat (length l) < 4294967296)%Z ->
  handle_slice heap (Some a) (as_u32 (Z.of_nat (length l))) = Ok l.
Proof.
  intros A heap a l E L. unfold handle_slice, heap_get. rewrite E. cbn [bind]. unfold as_u32. rewrite Z.mod_small by lia.
  rewrite Nat2Z.id, Nat.leb_refl, firstn_all. reflexivity.
Qed.

Lemma stored_kept : forall l st b0 h l' st2,
  history ffi_new l st -> h = fst (store st b0) ->
  history (snd (store st b0)) l' st2 -> forallb (fun a => negb (api_frees (h_id h) a)) l' = true ->
  (Z.of_nat (length l) < 4294967296)%Z ->
  manager_get (snd (store st b0)) (h_id h) = Ok (Some b0) /\
  nth_error (f_bvhs st2) (Z.to_nat (h_id h)) = Some (length (f_nodes st), length (f_idx st)) /\
  ((Z.of_nat (length (nodes b0)) < 4294967296)%Z -> (Z.of_nat (length (prim_indices b0)) < 4294967296)%Z ->
     exists b, manager_get st2 (h_id h) = Ok (Some b) /\
       handle_slice (f_nodes st2) (h_nodes h) (h_node_count h) = Ok (nodes b) /\
       handle_slice (f_idx st2) (h_indices h) (h_index_count h) = Ok (prim_indices b) /\
       length (nodes b) = length (nodes b0) /\ prim_indices b = prim_indices b0 /\
       (forallb (fun a => negb (api_refits (h_id h) a)) l' = true -> b = b0)).
Proof.
  intros l st b0 h l' st2 H1 Hh H2 NF Lm.
  destruct (history_ops _ _ _ H1) as (os & R & Lo & _). destruct (history_ops _ _ _ H2) as (os' & R' & _ & Fr & _ & To).
  pose proof (stores_le os) as Ls. destruct (C39_store os st b0 R ltac:(lia)) as [Hid Hg]. rewrite <- Hh in Hid, Hg.
  destruct (run_inv os ffi_new st ([], []) inv_new R) as ([tb tm] & Et & I).
  pose proof (inv_store _ _ _ b0 I) as I1.
  destruct (run_inv os' _ st2 _ I1 R') as (t2 & Et2 & I2).
  pose proof (run_stores os st _ R I) as Q. cbn [fst] in Q.
  assert (nth_error (fst (tb ++ [b0], tm)) (Z.to_nat (h_id h)) = Some b0) as N0.
  { cbn [fst]. rewrite Hid, Nat2Z.id, nth_app_at, Q, Nat.eqb_refl. auto. }
  destruct (table_sizes _ _ _ (h_id h) _ Et2 N0 (Fr _ NF)) as (b & Nb & Lb & Pb).
  assert (nth_error (f_bvhs (snd (store st b0))) (Z.to_nat (h_id h)) = Some (length (f_nodes st), length (f_idx st))) as P0.
  { unfold store. cbn [snd f_bvhs]. rewrite nth_app_at, (i_len _ _ I). cbn [fst]. rewrite Hid, Nat2Z.id, Q, Nat.eqb_refl. auto. }
  pose proof (run_ptrs os' _ st2 _ (h_id h) _ _ I1 R' P0 eq_refl (Fr _ NF)) as P2.
  split; [exact Hg|]. split; [exact P2|]. intros Ln Li.
  destruct (i_bvh _ _ I2 _ _ _ _ P2 Nb) as [Hn Hi].
  exists b. split; [rewrite (get_table _ _ _ I2), Nb; auto|].
  assert (h_nodes h = Some (length (f_nodes st)) /\ h_node_count h = as_u32 (Z.of_nat (length (nodes b0))) /\
          h_indices h = Some (length (f_idx st)) /\ h_index_count h = as_u32 (Z.of_nat (length (prim_indices b0)))) as (-> & -> & -> & ->).
  { rewrite Hh. unfold store. cbn. auto. }
  split; [rewrite <- Lb; apply slice_all; auto; lia|]. split; [rewrite <- Pb; apply slice_all; auto; rewrite Pb; auto|].
  split; auto. split; auto. intro NR.
  assert (manager_get st2 (h_id h) = manager_get (snd (store st b0)) (h_id h)) as G.
  { apply (C39_frame_all (os ++ [OStore b0]) os'); auto.
    - rewrite run_app, R. reflexivity.
    - rewrite Hid, Nat2Z.id. unfold stores. rewrite filter_app, app_length. cbn. lia. }
  rewrite Hg, (get_table _ _ _ I2), Nb in G. congruence.
Qed.

(** A structure created at some point of a history: until it is freed, the
    pointers in its handle show what the library holds for its id, whatever
    else happens; and that is the structure as built unless it was refitted. *)
Theorem C48_bvh : forall l st bs aabbs n centers stride ppl k null h st1 l' st2,
  history ffi_new l st -> create_bvh bs st aabbs n centers stride ppl k null = Ok (COk, Some h, st1) ->
  history st1 l' st2 -> forallb (fun a => negb (api_frees (h_id h) a)) l' = true ->
  (Z.of_nat (length l) < 4294967296)%Z ->
  exists b0, manager_get st1 (h_id h) = Ok (Some b0) /\
    ((Z.of_nat (length (nodes b0)) < 4294967296)%Z -> (Z.of_nat (length (prim_indices b0)) < 4294967296)%Z ->
     exists b, manager_get st2 (h_id h) = Ok (Some b) /\
       handle_slice (f_nodes st2) (h_nodes h) (h_node_count h) = Ok (nodes b) /\
       handle_slice (f_idx st2) (h_indices h) (h_index_count h) = Ok (prim_indices b) /\
       length (nodes b) = length (nodes b0) /\ prim_indices b = prim_indices b0 /\
       (forallb (fun a => negb (api_refits (h_id h) a)) l' = true -> b = b0)).
Proof.
  intros l st bs aabbs n centers stride ppl k null h st1 l' st2 H1 Cr H2 NF Lm.
  destruct (C42_create _ _ _ _ _ _ _ _ _ _ _ _ Cr) as [(_ & data & given & prims & b0 & _ & _ & _ & _ & _ & _ & Eh & ->)|(C & _)]; [|congruence].
  assert (h = fst (store st b0)) as Hh by congruence. exists b0.
  destruct (stored_kept _ _ _ _ _ _ H1 Hh H2 NF Lm) as (A & _ & B). auto.
Qed.
(** The same for create_spatial_Bvh. *)
Theorem C48_spatial : forall l st build collect aabbs n stride vertices vs ts ppl null h st1 l' st2,
  history ffi_new l st -> create_spatial build collect st aabbs n stride vertices vs ts ppl null = Ok (COk, Some h, st1) ->
  history st1 l' st2 -> forallb (fun a => negb (api_frees (h_id h) a)) l' = true ->
  (Z.of_nat (length l) < 4294967296)%Z ->
  exists b0, manager_get st1 (h_id h) = Ok (Some b0) /\
    ((Z.of_nat (length (nodes b0)) < 4294967296)%Z -> (Z.of_nat (length (prim_indices b0)) < 4294967296)%Z ->
     exists b, manager_get st2 (h_id h) = Ok (Some b) /\
       handle_slice (f_nodes st2) (h_nodes h) (h_node_count h) = Ok (nodes b) /\
       handle_slice (f_idx st2) (h_indices h) (h_index_count h) = Ok (prim_indices b) /\
       length (nodes b) = length (nodes b0) /\ prim_indices b = prim_indices b0 /\
       (forallb (fun a => negb (api_refits (h_id h) a)) l' = true -> b = b0)).
Proof.
  intros l st build collect aabbs n stride vertices vs ts ppl null h st1 l' st2 H1 Cr H2 NF Lm.
  destruct (C42_spatial _ _ _ _ _ _ _ _ _ _ _ _ _ _ Cr) as [(_ & _ & bx & b0 & _ & _ & _ & Eh & ->)|(C & _)]; [|congruence].
  assert (h = fst (store st b0)) as Hh by congruence. exists b0.
  destruct (stored_kept _ _ _ _ _ _ H1 Hh H2 NF Lm) as (A & _ & B). auto.
Qed.

(** Mbvh handles. *)
Definition mstores (os : list op) : nat := length (filter (fun o => match o with OStoreM _ => true | _ => false end) os).
Lemma table_mstores : forall os t t', table_run t os = Some t' -> length (snd t') = length (snd t) + mstores os.
Proof.
  induction os as [|o os IH]; intros t t' E; cbn [table_run] in E.
  - injection E as <-. unfold mstores. cbn. lia.
  - destruct (table_step t o) as [t1|] eqn:S; [|discriminate]. rewrite (IH _ _ E). unfold mstores. cbn [filter].
    destruct t as [bs ms]. destruct o as [b|m|id l|id|id]; cbn [table_step] in S.
    + injection S as <-. reflexivity.
    + injection S as <-. cbn [snd length]. rewrite app_length. cbn. lia.
    + destruct (nth_error bs (Z.to_nat id)) as [b|]; [|injection S as <-; reflexivity].
      destruct (BvhModel.refit b l); try discriminate. injection S as <-. reflexivity.
    + injection S as <-. reflexivity.
    + injection S as <-. cbn [snd]. rewrite upd_length. reflexivity.
Qed.
Lemma mstores_le : forall os, mstores os <= length os.
Proof. intro os. unfold mstores. induction os as [|o os IH]; cbn; auto. destruct o; cbn; lia. Qed.
Theorem C48_mbvh : forall l st fuel hb null h st1 l' st2,
  history ffi_new l st -> create_mbvh fuel st hb null = Ok (COk, Some h, st1) ->
  history st1 l' st2 -> forallb (fun a => negb (api_frees_m (h_id h) a)) l' = true ->
  (Z.of_nat (length l) < 4294967296)%Z ->
  exists b m, manager_get st (h_id hb) = Ok (Some b) /\ mbvh_construct fuel b = Ok m /\
    ((Z.of_nat (length (m_nodes m)) < 4294967296)%Z -> (Z.of_nat (length (mb_indices m)) < 4294967296)%Z ->
       handle_slice (f_quads st2) (h_nodes h) (h_node_count h) = Ok (m_nodes m) /\
       handle_slice (f_idx st2) (h_indices h) (h_index_count h) = Ok (mb_indices m)).
Proof.
  intros l st fuel hb null h st1 l' st2 H1 Cr H2 NF Lm.
  destruct (history_ops _ _ _ H1) as (os & R & Lo & _). destruct (history_ops _ _ _ H2) as (os' & R' & _ & _ & Fr & _).
  destruct (C42_create_mbvh _ _ _ _ _ _ _ Cr) as [(_ & _ & b & m & G & M & Eh & ->)|(C & _)]; [|discriminate].
  assert (h = fst (store_mbvh st m)) as Hh by congruence. clear Eh.
  exists b, m. split; auto. split; auto. intros Ln Li.
  destruct (run_inv os ffi_new st ([], []) inv_new R) as ([tb tm] & Et & I).
  pose proof (table_mstores _ _ _ Et) as Q. cbn [snd length Nat.add] in Q. pose proof (mstores_le os) as Ls.
  pose proof (inv_store_m _ _ _ m I) as I1.
  destruct (run_inv os' _ st2 _ I1 R') as (t2 & Et2 & I2).
  assert (h_id h = Z.of_nat (length tm)) as Hid.
  { rewrite Hh. unfold store_mbvh. cbn [fst h_id]. rewrite (i_mlen _ _ I). cbn [snd]. unfold as_u32. apply Z.mod_small. lia. }
  assert (nth_error (snd (tb, tm ++ [(m_nodes m, mb_indices m)])) (Z.to_nat (h_id h)) = Some (m_nodes m, mb_indices m)) as N0.
  { cbn [snd]. rewrite Hid, Nat2Z.id, nth_app_at, Nat.eqb_refl. auto. }
  pose proof (table_sizes_m _ _ _ (h_id h) _ Et2 N0 (Fr _ NF)) as Nb.
  assert (nth_error (f_mbvhs (snd (store_mbvh st m))) (Z.to_nat (h_id h)) = Some (length (f_quads st), length (f_idx st))) as P0.
  { unfold store_mbvh. cbn [snd f_mbvhs]. rewrite nth_app_at, (i_mlen _ _ I). cbn [snd]. rewrite Hid, Nat2Z.id, Nat.eqb_refl. auto. }
  pose proof (run_ptrs_m os' _ st2 _ (h_id h) _ _ I1 R' P0 eq_refl (Fr _ NF)) as P2.
  destruct (i_mbvh _ _ I2 _ _ _ _ P2 Nb) as [Hn Hi]. cbn [fst snd] in Hn, Hi.
  assert (h_nodes h = Some (length (f_quads st)) /\ h_node_count h = as_u32 (Z.of_nat (length (m_nodes m))) /\
          h_indices h = Some (length (f_idx st)) /\ h_index_count h = as_u32 (Z.of_nat (length (mb_indices m)))) as (-> & -> & -> & ->).
  { rewrite Hh. unfold store_mbvh. cbn. auto. }
  split; apply slice_all; auto.
Qed.

(** A handle that no call has filled in ([RTBvh::default], [RTMbvh::default])
    is refused by create_mbvh and refit and ignored by the two free functions,
    at any time, as long as fewer than 2^32 - 1 structures were made. *)
Theorem C48_default : forall l st, history ffi_new l st -> (Z.of_nat (length l) < 4294967295)%Z ->
  (forall fuel null, create_mbvh fuel st handle_default null = Ok (CError, None, st)) /\
  (forall aabbs, ffi_refit st aabbs handle_default = Ok (CError, st)) /\
  free_bvh st handle_default = st /\ free_mbvh st handle_default = st.
Proof.
  intros l st H L. destruct (history_ops _ _ _ H) as (os & R & Lo & _).
  destruct (run_inv os ffi_new st ([], []) inv_new R) as ([tb tm] & Et & I).
  pose proof (run_stores os st _ R I) as Q. cbn [fst] in Q. pose proof (stores_le os) as Ls.
  pose proof (table_mstores _ _ _ Et) as Q2. cbn [snd length Nat.add] in Q2. pose proof (mstores_le os) as Ls2.
  split; [reflexivity|]. split; [intros [a|]; reflexivity|]. split.
  - unfold free_bvh. rewrite (proj1 (proj1 (C39_free os st (h_id handle_default) R) ltac:(change (h_id handle_default) with 4294967295%Z; lia))). reflexivity.
  - unfold free_mbvh, manager_free_mbvh.
    assert (nth_error (f_mbvhs st) (Z.to_nat (h_id handle_default)) = None) as ->; auto.
    apply nth_error_None. rewrite (i_mlen _ _ I). cbn [snd]. change (h_id handle_default) with 4294967295%Z. lia.
Qed.
(** The traversal functions, however, read through its null pointers. *)
Theorem C48_default_refuted : forall C fuel st origin direction t (f : C -> nat -> f32 -> bool * C * f32) c,
  vnan origin = false -> vnan direction = false ->
  ffi_intersect fuel st handle_default origin direction t f c = UB /\
  ffi_intersect_mbvh fuel st handle_default origin direction t f c = UB.
Proof.
  intros C fuel st origin direction t f c N1 N2. unfold ffi_intersect, ffi_intersect_mbvh. rewrite N1, N2. split; reflexivity.
Qed.

(** Once freed, the old pointers dangle for good. *)
Lemma stored_freed : forall l st b0 h l' st2 l'' st3,
  history ffi_new l st -> h = fst (store st b0) ->
  history (snd (store st b0)) l' st2 -> forallb (fun a => negb (api_frees (h_id h) a)) l' = true ->
  (Z.of_nat (length l) < 4294967296)%Z -> history (free_bvh st2 h) l'' st3 ->
  handle_slice (f_nodes st3) (h_nodes h) (h_node_count h) = UB.
Proof.
  intros l st b0 h l' st2 l'' st3 H1 Hh H2 NF Lm H3.
  destruct (history_ops _ _ _ H1) as (os & R & Lo & _). destruct (history_ops _ _ _ H2) as (os' & R' & _ & Fr & _ & _).
  destruct (history_ops _ _ _ H3) as (os'' & R'' & _).
  pose proof (stores_le os) as Ls. destruct (C39_store os st b0 R ltac:(lia)) as [Hid _]. rewrite <- Hh in Hid.
  destruct (run_inv os ffi_new st ([], []) inv_new R) as ([tb tm] & Et & I).
  pose proof (inv_store _ _ _ b0 I) as I1.
  destruct (run_inv os' _ st2 _ I1 R') as ([tb2 tm2] & Et2 & I2).
  pose proof (run_stores os st _ R I) as Q. cbn [fst] in Q.
  assert (nth_error (f_bvhs (snd (store st b0))) (Z.to_nat (h_id h)) = Some (length (f_nodes st), length (f_idx st))) as P0.
  { unfold store. cbn [snd f_bvhs]. rewrite nth_app_at, (i_len _ _ I). cbn [fst]. rewrite Hid, Nat2Z.id, Q, Nat.eqb_refl. auto. }
  pose proof (run_ptrs os' _ st2 _ (h_id h) _ _ I1 R' P0 eq_refl (Fr _ NF)) as P2.
  destruct (inv_live _ _ _ _ _ I2 P2) as (La & _ & _).
  destruct (inv_free st2 tb2 tm2 (h_id h) I2) as [I3 _].
  assert (dead (f_nodes (free_bvh st2 h)) (length (f_nodes st))) as D.
  { unfold free_bvh, manager_free. rewrite P2. cbn [snd f_nodes]. apply dead_app. unfold dead. apply nth_error_upd_same. auto. }
  pose proof (run_dead os'' _ st3 _ _ I3 R'' D) as D3.
  assert (h_nodes h = Some (length (f_nodes st))) as -> by (rewrite Hh; reflexivity).
  unfold handle_slice. rewrite (dead_get _ _ D3). reflexivity.
Qed.
Theorem C48_freed : forall l st bs aabbs n centers stride ppl k null h st1 l' st2 l'' st3,
  history ffi_new l st -> create_bvh bs st aabbs n centers stride ppl k null = Ok (COk, Some h, st1) ->
  history st1 l' st2 -> forallb (fun a => negb (api_frees (h_id h) a)) l' = true ->
  (Z.of_nat (length l) < 4294967296)%Z -> history (free_bvh st2 h) l'' st3 ->
  handle_slice (f_nodes st3) (h_nodes h) (h_node_count h) = UB.
Proof.
  intros l st bs aabbs n centers stride ppl k null h st1 l' st2 l'' st3 H1 Cr H2 NF Lm H3.
  destruct (C42_create _ _ _ _ _ _ _ _ _ _ _ _ Cr) as [(_ & data & given & prims & b0 & _ & _ & _ & _ & _ & _ & Eh & ->)|(C & _)]; [|congruence].
  eapply stored_freed; eauto. congruence.
Qed.
Theorem C48_freed_spatial : forall l st build collect aabbs n stride vertices vs ts ppl null h st1 l' st2 l'' st3,
  history ffi_new l st -> create_spatial build collect st aabbs n stride vertices vs ts ppl null = Ok (COk, Some h, st1) ->
  history st1 l' st2 -> forallb (fun a => negb (api_frees (h_id h) a)) l' = true ->
  (Z.of_nat (length l) < 4294967296)%Z -> history (free_bvh st2 h) l'' st3 ->
  handle_slice (f_nodes st3) (h_nodes h) (h_node_count h) = UB.
Proof.
  intros l st build collect aabbs n stride vertices vs ts ppl null h st1 l' st2 l'' st3 H1 Cr H2 NF Lm H3.
  destruct (C42_spatial _ _ _ _ _ _ _ _ _ _ _ _ _ _ Cr) as [(_ & _ & bx & b0 & _ & _ & _ & Eh & ->)|(C & _)]; [|congruence].
  eapply stored_freed; eauto. congruence.
Qed.

(** ** C49 *)
(** A NaN origin or direction: the code says so, the callback is not called,
    [*t] is left alone, the handle is not touched (it may even be garbage). *)
Theorem C49_nan : forall C fuel st h origin direction t (f : C -> nat -> f32 -> bool * C * f32) c,
  ~ vok origin \/ ~ vok direction ->
  ffi_intersect fuel st h origin direction t f c = Ok (CNan, [], t, c) /\
  ffi_intersect_mbvh fuel st h origin direction t f c = Ok (CNan, [], t, c).
Proof.
  intros C fuel st h o d t f c H. assert (forall v, ~ vok v -> vnan v = true) as V.
  { intros [x y z] N. unfold vok, vnan in *. cbn [vx vy vz] in *. destruct (fnan x), (fnan y), (fnan z); auto; tauto. }
  assert (vnan o || vnan d = true) as E by (apply orb_true_iff; destruct H as [H|H]; [left|right]; auto).
  unfold ffi_intersect, ffi_intersect_mbvh. rewrite E. auto.
Qed.
Theorem C49_nan_packet : forall C fuel st h ox oy oz dx dy dz ta t (f : C -> nat -> vec4 -> bool * C * vec4) c,
  wnan ox = true \/ wnan oy = true \/ wnan oz = true \/ wnan dx = true \/ wnan dy = true \/ wnan dz = true ->
  ffi_intersect_packet fuel st h ox oy oz dx dy dz ta t f c = Ok (CNan, [], t, c) /\
  ffi_intersect_mbvh_packet fuel st h ox oy oz dx dy dz ta t f c = Ok (CNan, [], t, c).
Proof.
  intros C fuel st h ox oy oz dx dy dz ta t f c H.
  assert (lanes_nan ox oy oz dx dy dz = true) as E.
  { unfold lanes_nan. rewrite !orb_true_iff. tauto. }
  unfold ffi_intersect_packet, ffi_intersect_mbvh_packet. rewrite E. auto.
Qed.

(** The library's ray and packet for the arguments. *)
Definition arg_ray (origin direction : vec3) (t : f32) : ray := ray_set_t (ray_new origin direction) t.

Lemma fold_set_t : forall C (f : C -> nat -> f32 -> bool * C * f32) ps c r,
  exists t', snd (client_fold (forget_stop (ray_callback f)) ps c r) = ray_set_t r t'.
Proof.
  intros C f. unfold client_fold. induction ps as [|p ps IH]; intros c r; cbn [fold_left fst snd].
  - exists (r_t r). destruct r; reflexivity.
  - unfold forget_stop at 2, ray_callback at 2. destruct (f c p (r_t r)) as [[s c'] t'].
    destruct (IH c' (ray_set_t r t')) as [t'' E]. exists t''. rewrite E. destruct r; reflexivity.
Qed.
Lemma fold_set_t4 : forall C (f : C -> nat -> vec4 -> bool * C * vec4) ps c r,
  exists t', snd (client_fold (forget_stop (packet_callback f)) ps c r) = packet_set_t r t'.
Proof.
  intros C f. unfold client_fold. induction ps as [|p ps IH]; intros c r; cbn [fold_left fst snd].
  - exists (p_t r). destruct r; reflexivity.
  - unfold forget_stop at 2, packet_callback at 2. destruct (f c p (p_t r)) as [[s c'] t'].
    destruct (IH c' (packet_set_t r t')) as [t'' E]. exists t''. rewrite E. destruct r; reflexivity.
Qed.
Lemma vok_nan : forall v, vok v -> vnan v = false.
Proof. intros v (A & B & C). unfold vnan. rewrite A, B, C. reflexivity. Qed.

(** Otherwise: if the library iterator, driven by the callback with its "stop"
    ignored, yields [full], then the callback is called for the ids of [full]
    in order up to and including the first one it stops at; [*t] and the
    caller's data end as those calls left them. *)
Theorem C49_ray : forall C fuel st h origin direction t (f : C -> nat -> f32 -> bool * C * f32) c ns is full rays ce,
  vok origin -> vok direction ->
  handle_slice (f_nodes st) (h_nodes h) (h_node_count h) = Ok ns ->
  handle_slice (f_idx st) (h_indices h) (h_index_count h) = Ok is ->
  iter_ray_indices ns is (forget_stop (ray_callback f)) fuel c (arg_ray origin direction t) = Ok (full, rays, ce) ->
  exists ps t' c', ffi_intersect fuel st h origin direction t f c = Ok (COk, ps, t', c') /\
    calls_made (ray_callback f) c (arg_ray origin direction t) full ps /\
    client_fold (forget_stop (ray_callback f)) ps c (arg_ray origin direction t) = (c', arg_ray origin direction t').
Proof.
  intros C fuel st h o d t f c ns is full rays ce Vo Vd Hn Hi E. unfold ffi_intersect.
  rewrite (vok_nan _ Vo), (vok_nan _ Vd), Hn, Hi. cbn [orb bind].
  destruct (ffi_loop_run _ _ _ _ _ (ray_callback f) _ _ _ _ _ _ _ E) as (ps & r' & c' & L & CM & CF).
  unfold arg_ray in L. rewrite L. cbn [bind]. exists ps, (r_t r'), c'. split; auto. split; auto. rewrite CF. f_equal.
  destruct (fold_set_t C f ps c (arg_ray o d t)) as [t' Q]. rewrite CF in Q. cbn [snd] in Q. rewrite Q. reflexivity.
Qed.
Theorem C49_mbvh : forall C fuel st h origin direction t (f : C -> nat -> f32 -> bool * C * f32) c ms is full rays ce,
  vok origin -> vok direction ->
  handle_slice (f_quads st) (h_nodes h) (h_node_count h) = Ok ms ->
  handle_slice (f_idx st) (h_indices h) (h_index_count h) = Ok is ->
  miter_ray_indices ms is (forget_stop (ray_callback f)) fuel c (arg_ray origin direction t) = Ok (full, rays, ce) ->
  exists ps t' c', ffi_intersect_mbvh fuel st h origin direction t f c = Ok (COk, ps, t', c') /\
    calls_made (ray_callback f) c (arg_ray origin direction t) full ps /\
    client_fold (forget_stop (ray_callback f)) ps c (arg_ray origin direction t) = (c', arg_ray origin direction t').
Proof.
  intros C fuel st h o d t f c ns is full rays ce Vo Vd Hn Hi E. unfold ffi_intersect_mbvh.
  rewrite (vok_nan _ Vo), (vok_nan _ Vd), Hn, Hi. cbn [orb bind].
  destruct (ffi_loop_mrun _ _ _ _ (ray_callback f) _ _ _ _ _ _ _ E) as (ps & r' & c' & L & CM & CF).
  unfold arg_ray in L. rewrite L. cbn [bind]. exists ps, (r_t r'), c'. split; auto. split; auto. rewrite CF. f_equal.
  destruct (fold_set_t C f ps c (arg_ray o d t)) as [t' Q]. rewrite CF in Q. cbn [snd] in Q. rewrite Q. reflexivity.
Qed.
(** The packet that is traversed: lane [k] is the ray with the given origin,
    direction and [t], and the reciprocals of its own direction. *)
Theorem C49_packet_lanes : forall ox oy oz dx dy dz t k, k < 4 ->
  let p := ffi_packet ox oy oz dx dy dz t in
  let r := ray_new (V3 (wget ox k) (wget oy k) (wget oz k)) (V3 (wget dx k) (wget dy k) (wget dz k)) in
  V3 (wget (p_ox p) k) (wget (p_oy p) k) (wget (p_oz p) k) = r_origin r /\
  V3 (wget (p_dx p) k) (wget (p_dy p) k) (wget (p_dz p) k) = r_dir r /\
  V3 (wget (p_ix p) k) (wget (p_iy p) k) (wget (p_iz p) k) = r_inv r /\ p_t p = t.
Proof. intros ox oy oz dx dy dz t k K. do 4 (destruct k as [|k]; [repeat split|]). lia. Qed.
Theorem C49_packet : forall C fuel st h ox oy oz dx dy dz ta t (f : C -> nat -> vec4 -> bool * C * vec4) c ns is full rays ce,
  lanes_nan ox oy oz dx dy dz = false -> (ta mod 16 = 0)%Z ->
  handle_slice (f_nodes st) (h_nodes h) (h_node_count h) = Ok ns ->
  handle_slice (f_idx st) (h_indices h) (h_index_count h) = Ok is ->
  iter_packet_indices ns is (forget_stop (packet_callback f)) fuel c (ffi_packet ox oy oz dx dy dz t) = Ok (full, rays, ce) ->
  exists ps t' c', ffi_intersect_packet fuel st h ox oy oz dx dy dz ta t f c = Ok (COk, ps, t', c') /\
    calls_made (packet_callback f) c (ffi_packet ox oy oz dx dy dz t) full ps /\
    client_fold (forget_stop (packet_callback f)) ps c (ffi_packet ox oy oz dx dy dz t) = (c', ffi_packet ox oy oz dx dy dz t').
Proof.
  intros C fuel st h ox oy oz dx dy dz ta t f c ns is full rays ce N A Hn Hi E. unfold ffi_intersect_packet.
  rewrite N, Hn, Hi. cbn [bind].
  destruct (ffi_loop_run _ _ _ _ _ (packet_callback f) _ _ _ _ _ _ _ E) as (ps & r' & c' & L & CM & CF).
  rewrite L. cbn [bind]. unfold align_vec4. rewrite A. cbn [Z.eqb]. exists ps, (p_t r'), c'. split; auto. split; auto. rewrite CF. f_equal.
  destruct (fold_set_t4 C f ps c (ffi_packet ox oy oz dx dy dz t)) as [t' Q]. rewrite CF in Q. cbn [snd] in Q. rewrite Q. reflexivity.
Qed.
Theorem C49_mbvh_packet : forall C fuel st h ox oy oz dx dy dz ta t (f : C -> nat -> vec4 -> bool * C * vec4) c ms is full rays ce,
  lanes_nan ox oy oz dx dy dz = false -> (ta mod 16 = 0)%Z ->
  handle_slice (f_quads st) (h_nodes h) (h_node_count h) = Ok ms ->
  handle_slice (f_idx st) (h_indices h) (h_index_count h) = Ok is ->
  miter_packet_indices ms is (forget_stop (packet_callback f)) fuel c (ffi_packet ox oy oz dx dy dz t) = Ok (full, rays, ce) ->
  exists ps t' c', ffi_intersect_mbvh_packet fuel st h ox oy oz dx dy dz ta t f c = Ok (COk, ps, t', c') /\
    calls_made (packet_callback f) c (ffi_packet ox oy oz dx dy dz t) full ps /\
    client_fold (forget_stop (packet_callback f)) ps c (ffi_packet ox oy oz dx dy dz t) = (c', ffi_packet ox oy oz dx dy dz t').
Proof.
  intros C fuel st h ox oy oz dx dy dz ta t f c ns is full rays ce N A Hn Hi E. unfold ffi_intersect_mbvh_packet.
  rewrite N, Hn, Hi. cbn [bind].
  destruct (ffi_loop_mrun _ _ _ _ (packet_callback f) _ _ _ _ _ _ _ E) as (ps & r' & c' & L & CM & CF).
  rewrite L. cbn [bind]. unfold align_vec4. rewrite A. cbn [Z.eqb]. exists ps, (p_t r'), c'. split; auto. split; auto. rewrite CF. f_equal.
  destruct (fold_set_t4 C f ps c (ffi_packet ox oy oz dx dy dz t)) as [t' Q]. rewrite CF in Q. cbn [snd] in Q. rewrite Q. reflexivity.
Qed.

(** C50 for the packet functions: on a live handle whose traversal returns,
    the address of [t] decides. *)
Theorem C50_packet : forall C fuel st h ox oy oz dx dy dz ta t (f : C -> nat -> vec4 -> bool * C * vec4) c ns is out,
  lanes_nan ox oy oz dx dy dz = false ->
  handle_slice (f_nodes st) (h_nodes h) (h_node_count h) = Ok ns ->
  handle_slice (f_idx st) (h_indices h) (h_index_count h) = Ok is ->
  iter_packet_indices ns is (forget_stop (packet_callback f)) fuel c (ffi_packet ox oy oz dx dy dz t) = Ok out ->
  (ffi_intersect_packet fuel st h ox oy oz dx dy dz ta t f c = UB <-> (ta mod 16 <> 0)%Z).
Proof.
  intros C fuel st h ox oy oz dx dy dz ta t f c ns is [[full rays] ce] N Hn Hi E. unfold ffi_intersect_packet, iter_packet_indices in *.
  rewrite N, Hn, Hi. cbn [bind].
  destruct (ffi_loop_run _ _ _ _ _ (packet_callback f) _ _ _ _ _ _ _ E) as (ps & r' & c' & L & CM & CF).
  rewrite L. cbn [bind]. unfold align_vec4. destruct (Z.eqb_spec (ta mod 16) 0); split; intro H; try discriminate; try contradiction; auto.
Qed.
Theorem C50_mbvh_packet : forall C fuel st h ox oy oz dx dy dz ta t (f : C -> nat -> vec4 -> bool * C * vec4) c ms is out,
  lanes_nan ox oy oz dx dy dz = false ->
  handle_slice (f_quads st) (h_nodes h) (h_node_count h) = Ok ms ->
  handle_slice (f_idx st) (h_indices h) (h_index_count h) = Ok is ->
  miter_packet_indices ms is (forget_stop (packet_callback f)) fuel c (ffi_packet ox oy oz dx dy dz t) = Ok out ->
  (ffi_intersect_mbvh_packet fuel st h ox oy oz dx dy dz ta t f c = UB <-> (ta mod 16 <> 0)%Z).
Proof.
  intros C fuel st h ox oy oz dx dy dz ta t f c ms is [[full rays] ce] N Hn Hi E.
  destruct (Z.eq_dec (ta mod 16) 0) as [A|A].
  - destruct (C49_mbvh_packet C fuel st h ox oy oz dx dy dz ta t f c ms is full rays ce N A Hn Hi E) as (ps & t' & c' & E' & _).
    rewrite E'. split; [discriminate|contradiction].
  - split; auto. intros _.
    destruct (C49_mbvh_packet C fuel st h ox oy oz dx dy dz 0 t f c ms is full rays ce N eq_refl Hn Hi E) as (ps & t' & c' & E' & _).
    unfold ffi_intersect_mbvh_packet in *. rewrite N, Hn, Hi in *. cbn [bind] in *.
    destruct (ffi_loop _ _ _ _ _ _) as [[[? ?] ?]| | |]; cbn [bind] in *; try discriminate.
    unfold align_vec4. destruct (Z.eqb_spec (ta mod 16) 0); [contradiction|reflexivity].
Qed.

(** The four functions return, for every callback. *)
Theorem C49_returns : forall C fuel st h origin direction t (f : C -> nat -> f32 -> bool * C * f32) c ns is tr,
  handle_slice (f_nodes st) (h_nodes h) (h_node_count h) = Ok ns ->
  handle_slice (f_idx st) (h_indices h) (h_index_count h) = Ok is ->
  traversable ns is tr -> enough tr fuel ->
  exists out, ffi_intersect fuel st h origin direction t f c = Ok out.
Proof.
  intros C fuel st h o d t f c ns is tr Hn Hi T En.
  destruct (vnan o || vnan d) eqn:N.
  - unfold ffi_intersect. rewrite N. eauto.
  - destruct (C24_ray_terminates C ns is tr (forget_stop (ray_callback f)) fuel c (arg_ray o d t) T En) as [[[full rays] ce] E].
    unfold ffi_intersect. rewrite N, Hn, Hi. cbn [bind].
    destruct (ffi_loop_run _ _ _ _ _ (ray_callback f) _ _ _ _ _ _ _ E) as (ps & r' & c' & L & _).
    unfold arg_ray in L. rewrite L. cbn [bind]. eauto.
Qed.

(** Closest hit: with a callback that lowers [*t] to nearer hits, [*t] ends as
    the brute-force result over all [n] primitives. *)
Lemma closest_forget : forall dist c p r,
  forget_stop (ray_callback (closest_callback dist)) c p r = closest_body dist c p r.
Proof.
  intros dist [] p r. unfold forget_stop, ray_callback, closest_callback, closest_body.
  destruct (dist p) as [d|]; [destruct (flt d (r_t r))|]; destruct r; reflexivity.
Qed.
Lemma closest_fold_eq : forall dist ps c r,
  client_fold (forget_stop (ray_callback (closest_callback dist))) ps c r = client_fold (closest_body dist) ps c r.
Proof.
  intros dist. unfold client_fold. induction ps as [|p ps IH]; intros c r; cbn [fold_left fst snd]; auto.
  rewrite closest_forget. destruct (closest_body dist c p r). apply IH.
Qed.
Lemma run_client_ext : forall R H inter closer found ns is C (cl1 cl2 : C -> nat -> R -> C * R),
  (forall c p r, cl1 c p r = cl2 c p r) -> forall fuel c r s,
  bvh_run R H inter closer found ns is C cl1 fuel c r s = bvh_run R H inter closer found ns is C cl2 fuel c r s.
Proof.
  intros R H inter closer found ns is C cl1 cl2 E. induction fuel as [|fuel IH]; intros c r s; auto. cbn [bvh_run].
  destruct (bvh_turn R H inter closer found ns is r s) as [[t s']| | |]; auto. cbn [bind]. destruct t; auto.
  rewrite E. destruct (cl2 c prim r). rewrite IH. auto.
Qed.
Lemma never_stops : forall dist c p r, fst (fst (ray_callback (closest_callback dist) c p r)) = false.
Proof.
  intros dist c p r. unfold ray_callback, closest_callback. destruct (dist p) as [d|]; [destruct (flt d (r_t r))|]; reflexivity.
Qed.
Theorem C49_closest : forall fuel st h origin direction t dist n ns is tr,
  vok origin -> vok direction ->
  handle_slice (f_nodes st) (h_nodes h) (h_node_count h) = Ok ns ->
  handle_slice (f_idx st) (h_indices h) (h_index_count h) = Ok is ->
  traversable ns is tr -> enough tr fuel ->
  Permutation (positions tr) (seq 0 (length is)) -> Permutation is (seq 0 n) -> n <> 0 ->
  flt f0 t = true -> (forall p d, dist p = Some d -> flt f0 d = true) ->
  (forall p d b, dist p = Some d -> on_path is p tr b -> hit_box (arg_ray origin direction t) b = true) ->
  exists ps t', ffi_intersect fuel st h origin direction t (closest_callback dist) tt = Ok (COk, ps, t', tt) /\
    arg_ray origin direction t' = snd (client_fold (closest_body dist) (seq 0 n) tt (arg_ray origin direction t)).
Proof.
  intros fuel st h o d t dist n ns is tr Vo Vd Hn Hi T En P1 P2 N0 Pt Pd HB.
  destruct (C25_closest_hit ns is n tr dist (arg_ray o d t) fuel) as (full & rays & E & B); auto.
  assert (iter_ray_indices ns is (forget_stop (ray_callback (closest_callback dist))) fuel tt (arg_ray o d t) = Ok (full, rays, tt)) as E'.
  { rewrite <- E. unfold iter_ray_indices, iter_ray_prims.
    rewrite (run_client_ext _ _ _ _ _ _ _ _ _ _ (closest_forget dist)).
    rewrite (run_found _ _ _ _ (fun _ => true) (fun p => Nat.ltb p n)).
    - destruct (Nat.eqb_spec n 0); [contradiction|]. cbn [negb]. rewrite andb_true_r. reflexivity.
    - intros p Ip. symmetry. apply Nat.ltb_lt. apply (Permutation_in _ P2) in Ip. apply in_seq in Ip. lia. }
  destruct (C49_ray unit fuel st h o d t (closest_callback dist) tt ns is full rays tt Vo Vd Hn Hi E') as (ps & t' & c' & F & CM & CF).
  destruct c'. exists ps, t'. split; auto.
  rewrite (calls_all _ (never_stops dist) _ _ _ _ CM) in CF. rewrite closest_fold_eq in CF.
  rewrite <- B.
  destruct (C23_ray_prims unit n ns is tr (closest_body dist) fuel tt (arg_ray o d t)) as (ls & rs & c & E2 & _ & F2); auto.
  { intros c p r. unfold closest_body. destruct (dist p) as [x|]; [destruct (flt x (r_t r))|]; cbn [snd].
    - exists x; auto.
    - exists (r_t r). destruct r; reflexivity.
    - exists (r_t r). destruct r; reflexivity. }
  { apply Forall_forall. intros p Ip. unfold prims in Ip. apply in_map_iff in Ip as (k & <- & Ik).
    apply (Permutation_in _ P1), in_seq in Ik. assert (In (nth k is 0) is) as Ip by (apply nth_In; lia).
    apply (Permutation_in _ P2), in_seq in Ip. lia. }
  rewrite E in E2. injection E2 as E3 E4 E5. rewrite <- E3, <- E4, CF in F2. congruence.
Qed.

(** ** A session: everything above applies to it *)
Definition box_rt (a b : Z) : rtaabb := rt_of_aabb (Bb (pt a 0 0) 0 (pt b 1 1) 0).
Definition session_boxes : cbuf rtaabb := Cbuf 4096 [box_rt 0 1; box_rt 2 3; box_rt 4 5].
Definition session_centers : cbuf f32 :=
  Cbuf 8192 (flat_map (fun x => [f_of_Z x; f1; f1]) [0; 2; 4]%Z).
Definition session_builders : builders vec3 := locb_builders 10 4 (fun l => l) (fun _ _ _ => Panic).
Definition session_create : api := ACreate session_builders (Some session_boxes) 3 (Some session_centers) 12 0 KLocb false.
Definition session (calls : list api) : res (list (option handle) * ffi) :=
  fold_left (fun acc a => do (hs, st) <- acc; do (c, h, st') <- api_step st a; Ok (hs ++ [h], st')) calls (Ok ([], ffi_new)).
(** Two structures, the first freed, the second refitted; its handle still
    works, the Mbvh made from it too, and a ray finds all three primitives
    through both. *)
Definition second_handle : handle := Handle 1 5 (Some 1) 3 (Some 1).
Definition session_calls : list api :=
  [session_create; session_create; ACreateM 20 second_handle false; AFree (Handle 0 0 None 0 None); ARefit (Some session_boxes) second_handle].
Definition count_cb (c : nat) (p : nat) (t : f32) : bool * nat * f32 := (false, S c, t).
Example session_runs :
  match session (firstn 4 session_calls) with
  | Ok ([Some h0; Some h1; Some m; None], st) =>
      (match ffi_intersect 50 st h1 (pt (-1) 0 0) (pt 1 0 0) f1e34 count_cb 0 with Ok (COk, ps, t, c) => c =? 3 | _ => false end) &&
      (match ffi_intersect_mbvh 50 st m (pt (-1) 0 0) (pt 1 0 0) f1e34 count_cb 0 with Ok (COk, ps, t, c) => c =? 3 | _ => false end) &&
      (match ffi_intersect 50 st h0 (pt (-1) 0 0) (pt 1 0 0) f1e34 count_cb 0 with UB => true | _ => false end) &&
      (match session session_calls with Ok (hs, st') => length (f_bvhs st') =? 2 | _ => false end)
  | _ => false
  end = true.
Proof. vm_compute. reflexivity. Qed.

(** [create_spatial_Bvh] on two triangles whose AABBs it computes itself, with a
    builder that succeeds: the handle of a new structure is written; with the
    same arguments and a null result the call is undefined. *)
Definition two_triangles : list f32 := map (fun k => f_of_Z (Z.of_nat k)) (seq 0 64).
Definition tri_builder (ppl : option nat) (boxes : list aabb) (ws : list wrapper) : res bvh :=
  locb_build 10 4 boxes (map (fun b => bmin b) boxes).
Example spatial_runs :
  match create_spatial tri_builder (fun l => l) ffi_new None 2 12 (Some two_triangles) 16 48 0 false with
  | Ok (COk, Some h, st) => (h_id h =? 0)%Z && (length (f_bvhs st) =? 1)
  | _ => false
  end = true /\
  create_spatial tri_builder (fun l => l) ffi_new None 2 12 (Some two_triangles) 16 48 0 true = UB.
Proof. split; vm_compute; reflexivity. Qed.
(** [C50_create] applies to the session: none of its buffers is short or
    misaligned, so the call is not undefined. *)
Example create_suits : suits 16 session_boxes 3 /\ suits 4 session_centers (3 * 3).
Proof. vm_compute. intuition (auto with arith). Qed.
