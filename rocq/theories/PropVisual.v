(** * Properties C82 and C83: the demo renderer's frame and its averager *)
Require Import List ZArith Bool Lia Permutation Arith.
Require Import Reals Lra.
From Flocq Require Import Core BinarySingleNaN.
From Verif Require Import F32 F32Facts Vec RayModel Base AabbModel NodeModel IterModel BinnedModel BinnedProofs MbvhModel SpecGeom SpecSlab SpecTree SpecTraverse SpecMbvh
  LocbModel SpecBinned BinnedFacts BinnedCost BinnedRoom TriModel SpecTri SpecMesh
  PropBox PropSlab PropTraverse PropLocb PropNoMiss PropMbvh PropBinned PropNoMissBinned PropTri PropTriError
  SpecMeasure PropMesh SpecShade PropShade CameraModel SpecCamera PropCamera VisualModel.
Import ListNotations.
Local Open Scope nat_scope.

(** ** Chunks in any order *)
Lemma write_chunk_length : forall size frame i bytes, length bytes = size -> size * i + size <= length frame ->
  length (write_chunk size frame i bytes) = length frame.
Proof. intros. unfold write_chunk. rewrite !app_length, firstn_length, skipn_length. lia. Qed.

Lemma nth_error_firstn_lt : forall A (l : list A) n k, k < n -> nth_error (firstn n l) k = nth_error l k.
Proof.
  intros A l. induction l as [|x l IH]; intros n k L; [rewrite firstn_nil; reflexivity|]. destruct n as [|n]; [lia|].
  destruct k as [|k]; auto. cbn [firstn nth_error]. apply IH. lia.
Qed.
Lemma nth_error_skipn_add : forall A (l : list A) n k, nth_error (skipn n l) k = nth_error l (n + k).
Proof.
  intros A l. induction l as [|x l IH]; intros n k; [rewrite skipn_nil; destruct k, n; reflexivity|].
  destruct n as [|n]; auto. cbn [skipn Nat.add nth_error]. apply IH.
Qed.

Lemma write_chunk_nth : forall size frame i bytes k, length bytes = size -> size * i + size <= length frame ->
  nth_error (write_chunk size frame i bytes) k =
  if (size * i <=? k) && (k <? size * i + size) then nth_error bytes (k - size * i) else nth_error frame k.
Proof.
  intros size frame i bytes k Lb Lf. unfold write_chunk.
  assert (length (firstn (size * i) frame) = size * i) as L1 by (rewrite firstn_length; lia).
  destruct (Nat.leb_spec (size * i) k) as [A|A]; cbn [andb].
  - rewrite nth_error_app2 by lia. rewrite L1. destruct (Nat.ltb_spec k (size * i + size)) as [B|B].
    + rewrite nth_error_app1 by lia. reflexivity.
    + rewrite nth_error_app2 by lia. rewrite nth_error_skipn_add. f_equal. lia.
  - rewrite nth_error_app1 by lia. apply nth_error_firstn_lt. exact A.
Qed.

Lemma for_chunks_spec : forall size f g order frame, 0 < size ->
  (forall i, In i order -> f i = Ok (g i) /\ length (g i) = size /\ size * i + size <= length frame) ->
  exists frame', for_chunks size f order frame = Ok frame' /\ length frame' = length frame /\
    forall k, nth_error frame' k = if existsb (Nat.eqb (k / size)) order then nth_error (g (k / size)) (k mod size) else nth_error frame k.
Proof.
  intros size f g order. induction order as [|i order IH]; intros frame Ls H; [exists frame; auto|].
  destruct (H i (or_introl eq_refl)) as (E & Lg & Lf). cbn [for_chunks]. rewrite E. cbn [bind].
  pose proof (write_chunk_length size frame i (g i) Lg Lf) as LW.
  destruct (IH (write_chunk size frame i (g i)) Ls) as (frame' & E' & L' & N).
  { intros j Ij. rewrite LW. apply H. right. exact Ij. }
  exists frame'. split; [exact E'|]. split; [congruence|]. intro k. rewrite N. cbn [existsb].
  pose proof (Nat.div_mod_eq k size) as DM. pose proof (Nat.mod_upper_bound k size ltac:(lia)) as MB.
  destruct (existsb (Nat.eqb (k / size)) order) eqn:X; [rewrite orb_true_r; reflexivity|]. rewrite orb_false_r.
  rewrite write_chunk_nth by auto. destruct (Nat.eqb_spec (k / size) i) as [Q|Q].
  - rewrite Q in *. destruct (Nat.leb_spec (size * i) k); [|lia]. destruct (Nat.ltb_spec k (size * i + size)); [|lia]. cbn [andb]. f_equal. lia.
  - destruct ((size * i <=? k) && (k <? size * i + size)) eqn:Y; [|reflexivity]. exfalso. apply Q.
    apply andb_prop in Y as [Y1 Y2]. apply Nat.leb_le in Y1. apply Nat.ltb_lt in Y2. nia.
Qed.

Lemma pixel_bytes_length : forall tris found, length (pixel_bytes tris found) = 4.
Proof. intros tris [p|]; [|reflexivity]. cbn [pixel_bytes]. destruct (nth_error tris p); reflexivity. Qed.

Lemma u32_small : forall n, (Z.of_nat n < 4294967296)%Z -> as_u32 (Z.of_nat n) = Z.of_nat n.
Proof. intros n H. unfold as_u32. apply Z.mod_small. lia. Qed.

(** ** C82: the frame

    One ray per pixel: whatever the order in which the chunks are finished,
    byte [b] of pixel (x, y) is that of what the ray of pixel (x, y) found. *)
Theorem C82_rays : forall c w h tris trace found order frame,
  1 <= w -> (Z.of_nat w < 2 ^ 32)%Z -> (Z.of_nat (w * h) <= 2 ^ 32)%Z -> length frame = 4 * (w * h) ->
  Permutation order (seq 0 (length frame / 4)) ->
  (forall x y, x < w -> y < h -> trace (generate_ray c (Z.of_nat x) (Z.of_nat y)) = Ok (found x y)) ->
  exists frame', for_chunks 4 (draw_pixel c w tris trace) order frame = Ok frame' /\ length frame' = length frame /\
    forall x y b, x < w -> y < h -> b < 4 ->
      nth_error frame' (4 * (y * w + x) + b) = nth_error (pixel_bytes tris (found x y)) b.
Proof.
  intros c w h tris trace found order frame Lw Lw2 Lwh Lf P T. change (2 ^ 32)%Z with 4294967296%Z in *.
  assert (length frame / 4 = w * h) as D by (rewrite Lf, Nat.mul_comm; apply Nat.div_mul; lia). rewrite D in P.
  destruct (for_chunks_spec 4 (draw_pixel c w tris trace) (fun i => pixel_bytes tris (found (i mod w) (i / w))) order frame ltac:(lia)) as (frame' & E & L & N).
  { intros i Ii. apply (Permutation_in _ P) in Ii. apply in_seq in Ii. split; [|split; [apply pixel_bytes_length|lia]].
    unfold draw_pixel. rewrite !u32_small by lia. rewrite <- Nat2Z.inj_mod, <- Nat2Z.inj_div.
    rewrite T; [reflexivity| |].
    - apply Nat.mod_upper_bound. lia.
    - apply Nat.div_lt_upper_bound; lia. }
  exists frame'. split; [exact E|]. split; [exact L|]. intros x y b Lx Ly Lb.
  assert (y * w + x < w * h) as Li by nia.
  rewrite N.
  assert ((4 * (y * w + x) + b) / 4 = y * w + x) as -> by (rewrite Nat.mul_comm, Nat.div_add_l by lia; rewrite Nat.div_small by lia; lia).
  assert ((4 * (y * w + x) + b) mod 4 = b) as -> by (rewrite Nat.add_comm, Nat.mul_comm, Nat.mod_add by lia; apply Nat.mod_small; lia).
  assert (existsb (Nat.eqb (y * w + x)) order = true) as ->.
  { apply existsb_exists. exists (y * w + x). split; [|apply Nat.eqb_refl]. apply (Permutation_in _ (Permutation_sym P)). apply in_seq. lia. }
  assert ((y * w + x) mod w = x) as -> by (rewrite Nat.add_comm, Nat.mod_add by lia; apply Nat.mod_small; lia).
  assert ((y * w + x) / w = y) as -> by (rewrite Nat.div_add_l by lia; rewrite Nat.div_small by lia; lia).
  reflexivity.
Qed.

Lemma four_nth : forall (g : nat -> list Z) k b, (forall k, length (g k) = 4) -> k < 4 -> b < 4 ->
  nth_error (flat_map g [0; 1; 2; 3]) (4 * k + b) = nth_error (g k) b.
Proof.
  intros g k b L Lk Lb. cbn [flat_map]. rewrite app_nil_r.
  destruct k as [|[|[|[|k]]]]; [| | | |lia];
    repeat (rewrite nth_error_app2 by (rewrite !L; lia); rewrite L); try (rewrite nth_error_app1 by (rewrite L; lia)); f_equal; lia.
Qed.
Lemma four_length : forall (g : nat -> list Z), (forall k, length (g k) = 4) -> length (flat_map g [0; 1; 2; 3]) = 16.
Proof. intros g L. cbn [flat_map]. rewrite !app_length, !L. reflexivity. Qed.

(** Four rays at a time, for widths that are multiples of four (the demo's is
    1280): byte [b] of pixel (x, y) is that of what one lane of one packet
    found, and that lane is the ray of pixel (x, y). *)
Theorem C82_packets : forall c q h tris trace found order frame,
  let w := 4 * q in
  1 <= q -> (Z.of_nat w < 2 ^ 32)%Z -> (Z.of_nat (w * h) <= 2 ^ 32)%Z -> length frame = 4 * (w * h) ->
  Permutation order (seq 0 (length frame / 16)) ->
  let packet x y := generate_ray4 c (Z.of_nat x) (Z.of_nat x + 1) (Z.of_nat x + 2) (Z.of_nat x + 3)
                      (Z.of_nat y) (Z.of_nat y) (Z.of_nat y) (Z.of_nat y) in
  (forall x y, x < w -> x mod 4 = 0 -> y < h -> trace (packet x y) = Ok (found x y)) ->
  exists frame', for_chunks 16 (draw_four c w tris trace) order frame = Ok frame' /\ length frame' = length frame /\
    forall x y, x < w -> y < h -> exists x0 k, x = x0 + k /\ x0 mod 4 = 0 /\ k < 4 /\
      packet_ray (packet x0 y) k = Ok (generate_ray c (Z.of_nat x) (Z.of_nat y)) /\
      forall b, b < 4 -> nth_error frame' (4 * (y * w + x) + b) = nth_error (pixel_bytes tris (found x0 y k)) b.
Proof.
  intros c q h tris trace found order frame w Lq Lw2 Lwh Lf P packet T. change (2 ^ 32)%Z with 4294967296%Z in *.
  assert (length frame / 16 = q * h) as D by (rewrite Lf; unfold w; replace (4 * (4 * q * h)) with (q * h * 16) by lia; apply Nat.div_mul; lia).
  rewrite D in P. clear D.
  set (g := fun i => flat_map (fun k => pixel_bytes tris (found ((i * 4) mod w) ((i * 4) / w) k)) [0; 1; 2; 3]).
  assert (forall i, (i * 4) mod w = 4 * (i mod q)) as M1.
  { intro i. unfold w. rewrite (Nat.mul_comm i 4). apply Nat.mul_mod_distr_l; lia. }
  assert (forall i, (i * 4) / w = i / q) as M2.
  { intro i. unfold w. rewrite (Nat.mul_comm i 4). apply Nat.div_mul_cancel_l; lia. }
  destruct (for_chunks_spec 16 (draw_four c w tris trace) g order frame ltac:(lia)) as (frame' & E & L & N).
  { intros i Ii. apply (Permutation_in _ P) in Ii. apply in_seq in Ii. split; [|split; [apply four_length; intro; apply pixel_bytes_length|]].
    - assert (i * 4 < w * h) as Li by (unfold w; nia). unfold draw_four. rewrite (u32_small (i * 4)) by lia. rewrite (u32_small w) by lia. rewrite <- Nat2Z.inj_mod, <- Nat2Z.inj_div.
      assert ((i * 4) mod w < w) as B1 by (apply Nat.mod_upper_bound; unfold w; lia).
      assert ((i * 4) / w < h) as B2 by (rewrite M2; apply Nat.div_lt_upper_bound; lia).
      assert (((i * 4) mod w) mod 4 = 0) as B3 by (rewrite M1, Nat.mul_comm; apply Nat.mod_mul; lia).
      pose proof (T _ _ B1 B3 B2) as T'. unfold packet in T'. rewrite T'. reflexivity.
    - rewrite Lf. unfold w. nia. }
  exists frame'. split; [exact E|]. split; [exact L|]. intros x y Lx Ly.
  pose proof (Nat.div_mod_eq x 4) as DM. pose proof (Nat.mod_upper_bound x 4 ltac:(lia)) as MB.
  exists (4 * (x / 4)), (x mod 4). split; [lia|]. split; [rewrite Nat.mul_comm; apply Nat.mod_mul; lia|]. split; [lia|].
  set (k := x mod 4) in *. set (m := x / 4) in *. assert (m < q) as Lm by (unfold w in Lx; lia). split.
  { apply (C67_lanes c _ _ _ _ _ _ _ _ k (Z.of_nat x) (Z.of_nat y)). clearbody k m.
    destruct k as [|[|[|[|k]]]]; [| | | |lia]; cbn [nth_error]; match goal with |- Some (?a, _) = Some (?b, _) => replace b with a by lia; reflexivity end. }
  intros b Lb. rewrite N. 
  replace (4 * (y * w + x) + b) with ((y * q + m) * 16 + (4 * k + b)) by (unfold w; lia).
  rewrite Nat.div_add_l by lia. rewrite (Nat.div_small (4 * k + b)) by lia. rewrite Nat.add_0_r.
  rewrite (Nat.add_comm _ (4 * k + b)), Nat.mod_add by lia. rewrite Nat.mod_small by lia.
  assert (existsb (Nat.eqb (y * q + m)) order = true) as ->.
  { apply existsb_exists. exists (y * q + m). split; [|apply Nat.eqb_refl]. apply (Permutation_in _ (Permutation_sym P)). apply in_seq. nia. }
  unfold g. rewrite M1, M2.
  assert ((y * q + m) mod q = m) as -> by (rewrite Nat.add_comm, Nat.mod_add by lia; apply Nat.mod_small; lia).
  assert ((y * q + m) / q = y) as -> by (rewrite Nat.div_add_l by lia; rewrite Nat.div_small by lia; lia).
  rewrite four_nth by (auto; intro; apply pixel_bytes_length). reflexivity.
Qed.

(** The colours: bytes; opaque exactly where a triangle was found. *)
Lemma u8_range : forall x, (0 <= f_as_u8 x <= 255)%Z.
Proof. intro x. unfold f_as_u8, f_to_Z_sat. destruct x as [s|s| |s m e B]; try destruct s; try lia. Qed.
Theorem C82_colour : forall tris found,
  length (pixel_bytes tris found) = 4 /\ Forall (fun b => (0 <= b <= 255)%Z) (pixel_bytes tris found) /\
  (nth_error (pixel_bytes tris found) 3 = Some 255%Z <-> exists p tr, found = Some p /\ nth_error tris p = Some tr).
Proof.
  intros tris found. split; [apply pixel_bytes_length|]. destruct found as [p|]; cbn [pixel_bytes].
  - destruct (nth_error tris p) as [tr|] eqn:E.
    + split; [repeat constructor; try apply u8_range; lia|]. cbn [nth_error]. split; [exists p, tr; auto|reflexivity].
    + split; [repeat constructor; lia|]. cbn [nth_error]. split; [discriminate|]. intros (q & tr & Q & F). congruence.
  - split; [repeat constructor; lia|]. cbn [nth_error]. split; [discriminate|]. intros (q & tr & Q & F). congruence.
Qed.

(** ** The image: pixels show the nearest triangle *)

(** The traversal loop as the demo writes it. *)
Definition trace_bvh (tris : list tri) (nodes : list aabb) (indices : list nat) (turns : nat) (r : ray) : res (option nat) :=
  do (_, _, found) <- iter_ray_prims (length tris) nodes indices (shade_body tris) turns None r; Ok found.
Definition trace_mbvh (tris : list tri) (ms : list mnode) (indices : list nat) (turns : nat) (r : ray) : res (option nat) :=
  do (_, _, found) <- miter_ray_prims (length tris) ms indices (shade_body tris) turns None r; Ok found.

(** A frame in which every pixel shows a triangle nearest along its ray. *)
Definition shows_nearest (c : camera) (w h : nat) (tris : list tri) (frame : list Z) : Prop :=
  forall x y, x < w -> y < h -> exists found r', nearest_of tris (generate_ray c (Z.of_nat x) (Z.of_nat y)) found r' /\
    forall b, b < 4 -> nth_error frame (4 * (y * w + x) + b) = nth_error (pixel_bytes tris found) b.

Lemma image_of : forall c w h tris trace order frame,
  1 <= w -> (Z.of_nat w < 2 ^ 32)%Z -> (Z.of_nat (w * h) <= 2 ^ 32)%Z -> length frame = 4 * (w * h) ->
  Permutation order (seq 0 (length frame / 4)) ->
  (forall x y, x < w -> y < h -> exists found r', trace (generate_ray c (Z.of_nat x) (Z.of_nat y)) = Ok found /\
     nearest_of tris (generate_ray c (Z.of_nat x) (Z.of_nat y)) found r') ->
  exists frame', for_chunks 4 (draw_pixel c w tris trace) order frame = Ok frame' /\ length frame' = length frame /\
    shows_nearest c w h tris frame'.
Proof.
  intros c w h tris trace order frame L1 L2 L3 L4 P T.
  destruct (C82_rays c w h tris trace (fun x y => match trace (generate_ray c (Z.of_nat x) (Z.of_nat y)) with Ok f => f | _ => None end)
    order frame L1 L2 L3 L4 P) as (frame' & E & L & N).
  { intros x y Lx Ly. destruct (T x y Lx Ly) as (f & r' & Tr & _). rewrite Tr. reflexivity. }
  exists frame'. split; [exact E|]. split; [exact L|]. intros x y Lx Ly. destruct (T x y Lx Ly) as (f & r' & Tr & Nr).
  exists f, r'. split; [exact Nr|]. intros b Lb. rewrite (N x y b Lx Ly Lb), Tr. reflexivity.
Qed.

Lemma camera_ray : forall c x y, generate_ray c x y = ray_set_t (ray_new (c_pos c) (r_dir (generate_ray c x y))) DEFAULT_T_MAX.
Proof. intros c x y. unfold generate_ray. reflexivity. Qed.

(** Every pixel's ray satisfies the rounding conditions of C60. *)
Definition view_fits (m : f32) (d margin far : R) (c : camera) (w h : nat) (tris : list tri) (aabbs : list aabb) : Prop :=
  forall x y, x < w -> y < h ->
    let r := generate_ray c (Z.of_nat x) (Z.of_nat y) in
    mesh_fits m d margin 13 far (ray_reports r) tris aabbs (c_pos c) (r_dir r) /\ dirs_fine (r_dir r).

Theorem C82_image_locb : forall m d margin tris fuel threads aabbs centers bv t turns c w h order frame,
  view_fits m d margin 1 c w h tris aabbs -> (fval m <= 128)%R ->
  locb_input aabbs centers -> 1 <= threads -> 3 <= length aabbs -> locb_build fuel threads aabbs centers = Ok bv ->
  repr (nodes bv) t -> t_idx t = 0 -> depth t <= 31 -> 3 * length aabbs + 1 <= turns ->
  1 <= w -> (Z.of_nat w < 2 ^ 32)%Z -> (Z.of_nat (w * h) <= 2 ^ 32)%Z -> length frame = 4 * (w * h) ->
  Permutation order (seq 0 (length frame / 4)) ->
  exists frame', for_chunks 4 (draw_pixel c w tris (trace_bvh tris (nodes bv) (prim_indices bv) turns)) order frame = Ok frame' /\
    length frame' = length frame /\ shows_nearest c w h tris frame'.
Proof.
  intros m d margin tris fuel threads aabbs centers bv t turns c w h order frame V Lm I1 I2 I3 B R1 R2 R3 Lt L1 L2 L3 L4 P.
  apply image_of; auto. intros x y Lx Ly. destruct (V x y Lx Ly) as [Fit Fine]. rewrite (camera_ray c (Z.of_nat x) (Z.of_nat y)) in Fit |- *.
  destruct (C81_locb m d margin tris fuel threads aabbs centers bv t turns _ _ DEFAULT_T_MAX Fit Lm Fine eq_refl I1 I2 I3 B R1 R2 R3 Lt)
    as (ps & rays & found & E & Nr).
  exists found, (last rays (ray_set_t (ray_new (c_pos c) (r_dir (generate_ray c (Z.of_nat x) (Z.of_nat y)))) DEFAULT_T_MAX)).
  split; [|exact Nr]. unfold trace_bvh. rewrite E. reflexivity.
Qed.

Lemma fit_ray : forall m d margin far c w h tris aabbs, view_fits m d margin far c w h tris aabbs -> forall x y, x < w -> y < h ->
  let dir := r_dir (generate_ray c (Z.of_nat x) (Z.of_nat y)) in
  mesh_fits m d margin 13 far (ray_reports (ray_set_t (ray_new (c_pos c) dir) DEFAULT_T_MAX)) tris aabbs (c_pos c) dir /\ dirs_fine dir.
Proof. intros m d margin far c w h tris aabbs V x y Lx Ly. cbv zeta. rewrite <- camera_ray. apply V; auto. Qed.

Theorem C82_image_locb_quad : forall m d margin far tris fuel threads aabbs centers bv mfuel mb t turns c w h order frame,
  view_fits m d margin far c w h tris aabbs -> (forall x y, x < w -> y < h -> reaches (fval m) far (r_dir (generate_ray c (Z.of_nat x) (Z.of_nat y)))) -> (fval m <= 128)%R ->
  locb_input aabbs centers -> 1 <= threads -> 3 <= length aabbs -> locb_build fuel threads aabbs centers = Ok bv ->
  repr (nodes bv) t -> t_idx t = 0 -> depth t <= 22 ->
  length (nodes bv) <= mfuel -> mbvh_construct mfuel bv = Ok mb -> quad_enough mb turns ->
  1 <= w -> (Z.of_nat w < 2 ^ 32)%Z -> (Z.of_nat (w * h) <= 2 ^ 32)%Z -> length frame = 4 * (w * h) ->
  Permutation order (seq 0 (length frame / 4)) ->
  exists frame', for_chunks 4 (draw_pixel c w tris (trace_mbvh tris (MbvhModel.m_nodes mb) (mb_indices mb) turns)) order frame = Ok frame' /\
    length frame' = length frame /\ shows_nearest c w h tris frame'.
Proof.
  intros. rename H into V. apply image_of; auto. intros x y Lx Ly. destruct (fit_ray _ _ _ _ _ _ _ _ _ V x y Lx Ly) as [Fit Fine]. rewrite (camera_ray c (Z.of_nat x) (Z.of_nat y)).
  pose proof (H0 x y Lx Ly) as Rc.
  assert (flt f0 DEFAULT_T_MAX = true) as Lz by reflexivity.
  edestruct C81_locb_quad with (1 := Fit) (fuel := fuel) (threads := threads) as (ps & rays & found & E & Nr); eauto.
  exists found; eexists. split; [|exact Nr]. unfold trace_mbvh. rewrite E. reflexivity.
Qed.

Theorem C82_image_binned : forall m d margin tris ppl aabbs centers bv t turns c w h order frame,
  view_fits m d margin 1 c w h tris aabbs -> (fval m <= 128)%R ->
  binned_input aabbs centers -> binned_build ppl aabbs centers bv ->
  repr (nodes bv) t -> t_idx t = 0 -> depth t <= 31 -> well_cut ppl aabbs centers (prim_indices bv) t ->
  3 * length aabbs + 1 <= turns ->
  1 <= w -> (Z.of_nat w < 2 ^ 32)%Z -> (Z.of_nat (w * h) <= 2 ^ 32)%Z -> length frame = 4 * (w * h) ->
  Permutation order (seq 0 (length frame / 4)) ->
  exists frame', for_chunks 4 (draw_pixel c w tris (trace_bvh tris (nodes bv) (prim_indices bv) turns)) order frame = Ok frame' /\
    length frame' = length frame /\ shows_nearest c w h tris frame'.
Proof.
  intros. rename H into V. apply image_of; auto. intros x y Lx Ly. destruct (fit_ray _ _ _ _ _ _ _ _ _ V x y Lx Ly) as [Fit Fine]. rewrite (camera_ray c (Z.of_nat x) (Z.of_nat y)).
  assert (flt f0 DEFAULT_T_MAX = true) as Lz by reflexivity.
  edestruct C81_binned with (1 := Fit) as (ps & rays & found & E & Nr); eauto.
  exists found; eexists. split; [|exact Nr]. unfold trace_bvh. rewrite E. reflexivity.
Qed.

Theorem C82_image_binned_quad : forall m d margin far tris ppl aabbs centers bv mfuel mb t turns c w h order frame,
  view_fits m d margin far c w h tris aabbs -> (forall x y, x < w -> y < h -> reaches (fval m) far (r_dir (generate_ray c (Z.of_nat x) (Z.of_nat y)))) -> (fval m <= 128)%R ->
  binned_input aabbs centers -> binned_build ppl aabbs centers bv ->
  repr (nodes bv) t -> t_idx t = 0 -> depth t <= 22 -> well_cut ppl aabbs centers (prim_indices bv) t ->
  length (nodes bv) <= mfuel -> mbvh_construct mfuel bv = Ok mb -> quad_enough mb turns ->
  1 <= w -> (Z.of_nat w < 2 ^ 32)%Z -> (Z.of_nat (w * h) <= 2 ^ 32)%Z -> length frame = 4 * (w * h) ->
  Permutation order (seq 0 (length frame / 4)) ->
  exists frame', for_chunks 4 (draw_pixel c w tris (trace_mbvh tris (MbvhModel.m_nodes mb) (mb_indices mb) turns)) order frame = Ok frame' /\
    length frame' = length frame /\ shows_nearest c w h tris frame'.
Proof.
  intros. rename H into V. apply image_of; auto. intros x y Lx Ly. destruct (fit_ray _ _ _ _ _ _ _ _ _ V x y Lx Ly) as [Fit Fine]. rewrite (camera_ray c (Z.of_nat x) (Z.of_nat y)).
  pose proof (H0 x y Lx Ly) as Rc.
  assert (flt f0 DEFAULT_T_MAX = true) as Lz by reflexivity.
  edestruct C81_binned_quad with (1 := Fit) as (ps & rays & found & E & Nr); eauto.
  exists found; eexists. split; [|exact Nr]. unfold trace_mbvh. rewrite E. reflexivity.
Qed.

(** The scene of [C60_nonvacuous] seen by a camera at its origin: the rounding
    conditions hold for a whole (one-pixel-direction) view, and a frame of two
    pixels drawn over the BVH built of it, last pixel first, shows the nearest
    triangle (normal along z: blue) in the first and nothing in the second. *)
Definition cam82 (right : vec3) : camera := Camera o60 right (V3 f0 f0 f0) (V3 (fneg half_f) (fneg half_f) f0) half_f f1.
Example C82_nonvacuous :
  view_fits (fz 1) 1 0 3 (cam82 (V3 f0 f0 f0)) 2 2 tris60 boxes60 /\
  (forall x y, x < 2 -> y < 2 -> reaches (fval (fz 1)) 3 (r_dir (generate_ray (cam82 (V3 f0 f0 f0)) (Z.of_nat x) (Z.of_nat y)))) /\
  exists bv, locb_build 6 2 boxes60 centers60 = Ok bv /\
    for_chunks 4 (draw_pixel (cam82 (V3 (fz 4) f0 f0)) 2 tris60 (trace_bvh tris60 (nodes bv) (prim_indices bv) 10)) [1; 0] [7; 7; 7; 7; 7; 7; 7; 7]%Z =
      Ok [0; 0; 255; 255; 0; 0; 0; 0]%Z.
Proof.
  destruct C60_nonvacuous as (Fit & Rc & _ & Fine & _).
  assert (forall x y, x < 2 -> y < 2 -> r_dir (generate_ray (cam82 (V3 f0 f0 f0)) (Z.of_nat x) (Z.of_nat y)) = d60) as D.
  { intros x y Lx Ly. assert (forall a b : vec3, B2SF (vx a) = B2SF (vx b) -> B2SF (vy a) = B2SF (vy b) -> B2SF (vz a) = B2SF (vz b) -> a = b) as V.
    { intros [] []; cbn; intros A B C. apply B2SF_inj in A. apply B2SF_inj in B. apply B2SF_inj in C. congruence. }
    destruct x as [|[|x]]; [| |lia]; (destruct y as [|[|y]]; [| |lia]); apply V; vm_compute; reflexivity. }
  split; [|split].
  - intros x y Lx Ly. cbv zeta. rewrite (D x y Lx Ly). split; [|exact Fine]. apply Fit. lra.
  - intros x y Lx Ly. rewrite (D x y Lx Ly). exact Rc.
  - destruct (ok_with _ (locb_build 6 2 boxes60 centers60) (fun bv =>
      match for_chunks 4 (draw_pixel (cam82 (V3 (fz 4) f0 f0)) 2 tris60 (trace_bvh tris60 (nodes bv) (prim_indices bv) 10)) [1; 0] [7; 7; 7; 7; 7; 7; 7; 7]%Z with
      | Ok [0; 0; 255; 255; 0; 0; 0; 0]%Z => true | _ => false end)) as (bv & E & H); [vm_compute; reflexivity|].
    exists bv. split; [exact E|].
    destruct (for_chunks _ _ _ _) as [l| | |]; try discriminate H.
    repeat match type of H with match ?z with _ => _ end = true => destruct z; try discriminate H end. reflexivity.
Qed.

(** ** C83: the averager *)

(** What is kept: the last [capacity] samples, oldest first. *)
Definition recent (capacity : nat) (samples : list f32) : list f32 := skipn (length samples - capacity) samples.

Lemma shift_down_spec : forall k i values, i + k < length values ->
  exists values', shift_down k i values = Ok values' /\ length values' = length values /\
    forall j, nth_error values' j = if (i <=? j) && (j <? i + k) then nth_error values (j + 1) else nth_error values j.
Proof.
  induction k as [|k IH]; intros i values L.
  - exists values. split; [reflexivity|]. split; [reflexivity|]. intro j. destruct (Nat.leb_spec i j), (Nat.ltb_spec j (i + 0)); auto; lia.
  - cbn [shift_down]. destruct (nth_error values (i + 1)) as [v|] eqn:Ev; [|apply nth_error_None in Ev; lia].
    destruct (Nat.ltb_spec i (length values)); [|lia].
    destruct (IH (i + 1) (upd values i v)) as (values' & E & A & B); [rewrite upd_length; lia|].
    exists values'. split; [exact E|]. rewrite upd_length in A. split; [exact A|]. intro j. rewrite B.
    destruct (Nat.eq_dec i j) as [<- |Ne].
    + destruct (Nat.leb_spec (i + 1) i); [lia|]. destruct (Nat.leb_spec i i); [|lia]. destruct (Nat.ltb_spec i (i + S k)); [|lia]. cbn [andb].
      rewrite nth_error_upd_same by lia. congruence.
    + destruct (Nat.leb_spec (i + 1) j), (Nat.leb_spec i j), (Nat.ltb_spec j (i + 1 + k)), (Nat.ltb_spec j (i + S k)); cbn [andb];
        try lia; apply nth_error_upd_other; lia.
Qed.

(** The state after a history of samples. *)
Definition holds (c : nat) (samples : list f32) (a : averager) : Prop :=
  let n := length samples in
  a_capacity a = c /\ length (a_values a) = c /\ a_index a = Nat.min n c /\ a_looped a = (c <=? n) /\
  forall j, j < Nat.min n c -> nth_error (a_values a) j = nth_error samples (n - Nat.min n c + j).

Lemma add_holds : forall c samples a s, 1 <= c -> holds c samples a -> exists a', add_sample a s = Ok a' /\ holds c (samples ++ [s]) a'.
Proof.
  intros c samples a s Lc (E1 & E2 & E3 & E4 & N). destruct c as [|c1]; [lia|]. unfold add_sample. rewrite E1, E4.
  set (n := length samples) in *. assert (length (samples ++ [s]) = n + 1) as Ln by (rewrite app_length; reflexivity).
  destruct (Nat.leb_spec (S c1) n) as [A|A].
  - destruct (shift_down_spec c1 0 (a_values a)) as (v' & E & L' & N'); [lia|]. rewrite E. cbn [bind].
    destruct (Nat.ltb_spec c1 (length v')); [|lia]. eexists. split; [reflexivity|]. unfold holds. rewrite Ln. cbn [a_capacity a_values a_index a_looped].
    rewrite upd_length. split; [reflexivity|]. split; [lia|]. split; [lia|]. split; [symmetry; apply Nat.leb_le; lia|].
    intros j Lj. destruct (Nat.eq_dec j c1) as [-> |Ne].
    + rewrite nth_error_upd_same by lia. rewrite nth_error_app2 by (fold n; lia). fold n. replace (n + 1 - Nat.min (n + 1) (S c1) + c1 - n) with 0 by lia. reflexivity.
    + rewrite nth_error_upd_other by lia. rewrite N'. destruct (Nat.leb_spec 0 j); [|lia]. destruct (Nat.ltb_spec j (0 + c1)); [|lia]. cbn [andb].
      rewrite N by lia. rewrite nth_error_app1 by (fold n; lia). f_equal. lia.
  - assert (Nat.min n (S c1) = n) as M by lia. rewrite M in *. rewrite E3.
    destruct (Nat.ltb_spec n (length (a_values a))); [|lia]. eexists. split; [reflexivity|]. unfold holds. rewrite Ln. cbn [a_capacity a_values a_index a_looped].
    rewrite upd_length. split; [reflexivity|]. split; [lia|]. split; [lia|]. split.
    { destruct (Nat.leb_spec c1 n), (Nat.leb_spec (S c1) (n + 1)); auto; lia. }
    intros j Lj. replace (n + 1 - Nat.min (n + 1) (S c1) + j) with j by lia. destruct (Nat.eq_dec j n) as [-> |Ne].
    + rewrite nth_error_upd_same by lia. rewrite nth_error_app2 by (fold n; lia). fold n. rewrite Nat.sub_diag. reflexivity.
    + rewrite nth_error_upd_other by lia. rewrite N by lia. rewrite nth_error_app1 by (fold n; lia). f_equal. lia.
Qed.

Lemma add_samples_app : forall l a s, add_samples a (l ++ [s]) = do a' <- add_samples a l; add_sample a' s.
Proof.
  induction l as [|x l IH]; intros a s; cbn [add_samples app].
  - cbn [bind]. destruct (add_sample a s); reflexivity.
  - destruct (add_sample a x); cbn [bind]; auto.
Qed.
Lemma history_holds : forall c samples, 1 <= c -> exists a, add_samples (avg_new c) samples = Ok a /\ holds c samples a.
Proof.
  intros c samples Lc. induction samples as [|s samples IH] using rev_ind.
  - exists (avg_new c). split; [reflexivity|]. unfold holds, avg_new. cbn [a_capacity a_values a_index a_looped length]. rewrite repeat_length.
    repeat split; auto. + destruct (Nat.leb_spec c 0); auto; lia. + intros j Lj. lia.
  - destruct IH as (a & E & H). destruct (add_holds c samples a s Lc H) as (a' & E' & H'). exists a'. split; [|exact H'].
    rewrite add_samples_app, E. exact E'.
Qed.

Lemma nth_error_eq : forall A (l m : list A), length l = length m -> (forall j, j < length l -> nth_error l j = nth_error m j) -> l = m.
Proof.
  intros A l. induction l as [|x l IH]; intros [|y m] L H; try discriminate L; auto.
  pose proof (H 0 ltac:(simpl; lia)) as H0. cbn in H0. injection H0 as ->. f_equal. apply IH; [simpl in L; lia|].
  intros j Lj. apply (H (S j)). simpl. lia.
Qed.
Lemma holds_recent : forall c samples a, holds c samples a -> firstn (length (recent c samples)) (a_values a) = recent c samples /\
  length (recent c samples) = Nat.min (length samples) c.
Proof.
  intros c samples a (E1 & E2 & E3 & E4 & N). unfold recent. set (n := length samples) in *.
  assert (length (skipn (n - c) samples) = Nat.min n c) as L by (rewrite skipn_length; fold n; lia). rewrite L. split; [|reflexivity].
  apply nth_error_eq; [rewrite firstn_length, L; lia|]. rewrite firstn_length. intros j Lj. rewrite nth_error_firstn_lt by lia.
  rewrite N by lia. rewrite nth_error_skipn_add. f_equal. lia.
Qed.

Lemma sum_spec : forall l k pre values acc, values = pre ++ l ++ skipn (length pre + length l) values -> k = length l ->
  sum_upto k (length pre) values acc = Ok (fold_left fadd l acc).
Proof.
  induction l as [|x l IH]; intros k pre values acc E ->; [reflexivity|]. cbn [length sum_upto fold_left].
  rewrite E at 1. rewrite nth_error_app2, Nat.sub_diag by lia. cbn [app nth_error].
  replace (length pre + 1) with (length (pre ++ [x])) by (rewrite app_length; reflexivity). apply IH; [|reflexivity].
  rewrite E at 1. rewrite <- app_assoc. cbn [app]. rewrite app_length. cbn [length]. do 4 f_equal. lia.
Qed.

(** For every capacity of at least one and every history: no panic; [data]
    is the last samples, oldest first; [get_average] is their sum, added in
    that order, times the reciprocal of their number. *)
Theorem C83_window : forall c samples, 1 <= c ->
  exists a, add_samples (avg_new c) samples = Ok a /\ avg_data a = Ok (recent c samples) /\
    get_average a = Ok (fmul (fold_left fadd (recent c samples) f0) (fdiv f1 (f_of_Z (Z.of_nat (length (recent c samples)))))).
Proof.
  intros c samples Lc. destruct (history_holds c samples Lc) as (a & E & H). exists a. split; [exact E|].
  destruct (holds_recent c samples a H) as [Fr Lr]. destruct H as (E1 & E2 & E3 & E4 & N). split.
  - unfold avg_data. rewrite E1, E3. replace (Nat.min (Nat.min (length samples) c) c) with (length (recent c samples)) by lia.
    destruct (Nat.leb_spec (length (recent c samples)) (length (a_values a))); [|lia]. rewrite Fr. reflexivity.
  - unfold get_average. rewrite E1, E3, E4.
    assert ((if c <=? length samples then c else Nat.min (length samples) c) = length (recent c samples)) as ->.
    { destruct (Nat.leb_spec c (length samples)); lia. }
    rewrite (sum_spec (recent c samples) _ [] (a_values a)); [reflexivity| |reflexivity].
    cbn [length app Nat.add]. transitivity (firstn (length (recent c samples)) (a_values a) ++ skipn (length (recent c samples)) (a_values a));
      [symmetry; apply firstn_skipn|rewrite Fr; reflexivity].
Qed.

(** Before the first sample the average is not a number; with capacity 0 the
    first sample panics. *)
Theorem C83_empty : forall c, exists v, get_average (avg_new c) = Ok v /\ fnan v = true.
Proof.
  intro c. eexists. split; [reflexivity|]. vm_compute. reflexivity.
Qed.
Theorem C83_no_capacity : forall s, add_sample (avg_new 0) s = Panic.
Proof. reflexivity. Qed.

(** Five samples into three places: the last three remain; their average is 4. *)
Example C83_nonvacuous : exists a, add_samples (avg_new 3) [fz 1; fz 2; fz 3; fz 4; fz 5] = Ok a /\ avg_data a = Ok [fz 3; fz 4; fz 5] /\
  exists v, get_average a = Ok v /\ feq v (fz 4) = true.
Proof.
  destruct (C83_window 3 [fz 1; fz 2; fz 3; fz 4; fz 5] ltac:(lia)) as (a & E & D & G). exists a. split; [exact E|]. split; [exact D|].
  eexists. split; [exact G|]. vm_compute. reflexivity.
Qed.
