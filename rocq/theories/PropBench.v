(** * Properties C84 and C85: the benchmark's loops and its timer *)
Require Import List ZArith Bool Lia Permutation Arith.
Require Import Reals Lra.
From Flocq Require Import Core BinarySingleNaN.
From Verif Require Import F32 F32Facts Vec RayModel Base AabbModel NodeModel IterModel BinnedModel BinnedProofs MbvhModel SpecGeom SpecSlab SpecTree SpecTraverse SpecMbvh
  LocbModel SpecBinned BinnedFacts BinnedCost BinnedRoom TriModel SpecTri SpecMesh TriError
  PropBox PropSlab PropTraverse PropLocb PropNoMiss PropMbvh PropBinned PropNoMissBinned PropTri PropTriError
  SpecMeasure PropMesh SpecShade PropShade CameraModel SpecCamera CameraProofs PropCamera VisualModel PropVisual BenchModel.
From Verif Require ClosestProofs LocbProofs.
Import ListNotations.
Local Open Scope nat_scope.

(** ** The slices of rays and packets *)
Lemma flat_map_length_const : forall A B (f : A -> list B) l n, (forall a, In a l -> length (f a) = n) -> length (flat_map f l) = length l * n.
Proof.
  intros A B f l n H. induction l as [|a l IH]; auto. cbn [flat_map length]. rewrite app_length, H by (left; auto).
  rewrite IH by (intros; apply H; right; auto). lia.
Qed.
Lemma flat_map_nth : forall A B (f : A -> list B) n l i j a, (forall a, In a l -> length (f a) = n) -> nth_error l i = Some a -> j < n ->
  nth_error (flat_map f l) (i * n + j) = nth_error (f a) j.
Proof.
  intros A B f n l. induction l as [|b l IH]; intros i j a H E L; [destruct i; discriminate|].
  assert (length (f b) = n) as Lb by (apply H; left; auto). cbn [flat_map].
  destruct i as [|i]; cbn [nth_error] in E.
  - assert (b = a) as -> by congruence. rewrite nth_error_app1 by lia. reflexivity.
  - rewrite nth_error_app2 by lia. replace (S i * n + j - length (f b)) with (i * n + j) by lia.
    apply IH; auto. intros; apply H; right; auto.
Qed.
Lemma nth_seq : forall n i, i < n -> nth_error (seq 0 n) i = Some i.
Proof. intros n i L. rewrite (nth_error_nth' _ 0) by (rewrite seq_length; auto). rewrite seq_nth by auto. reflexivity. Qed.

(** Every frame holds one ray per pixel, in reading order. *)
Theorem C84_rays : forall c frames w h,
  length (bench_rays c frames w h) = frames * (h * w) /\
  forall f y x, f < frames -> y < h -> x < w ->
    nth_error (bench_rays c frames w h) (f * (h * w) + (y * w + x)) = Some (generate_ray c (Z.of_nat x) (Z.of_nat y)).
Proof.
  intros c frames w h.
  assert (forall y, length (map (fun x => generate_ray c (Z.of_nat x) (Z.of_nat y)) (seq 0 w)) = w) as L1 by (intro; rewrite map_length, seq_length; auto).
  assert (length (flat_map (fun y => map (fun x => generate_ray c (Z.of_nat x) (Z.of_nat y)) (seq 0 w)) (seq 0 h)) = h * w) as L2.
  { rewrite (flat_map_length_const _ _ _ _ w) by auto. rewrite seq_length. reflexivity. }
  split.
  - unfold bench_rays. rewrite (flat_map_length_const _ _ _ _ (h * w)) by auto. rewrite seq_length. reflexivity.
  - intros f y x Lf Ly Lx. unfold bench_rays.
    rewrite (flat_map_nth _ _ _ (h * w) (seq 0 frames) f (y * w + x) f) by (auto using nth_seq; nia).
    rewrite (flat_map_nth _ _ _ w (seq 0 h) y x y) by auto using nth_seq.
    rewrite nth_error_map, nth_seq by auto. reflexivity.
Qed.

(** If the width is a multiple of four, lane [j] of packet [k] is ray [4 k + j]. *)
Theorem C84_packets : forall c frames w h, w mod 4 = 0 ->
  4 * length (bench_packets c frames w h) = length (bench_rays c frames w h) /\
  forall k p j, nth_error (bench_packets c frames w h) k = Some p -> j < 4 ->
    exists r, packet_ray p j = Ok r /\ nth_error (bench_rays c frames w h) (4 * k + j) = Some r.
Proof.
  intros c frames w h Hw. pose proof (Nat.div_mod w 4 ltac:(lia)) as Dw. rewrite Hw in Dw. set (q := w / 4) in *.
  assert ((w + 3) / 4 = q) as Eq by (symmetry; apply (Nat.div_unique (w + 3) 4 q 3); lia).
  set (pk := fun y k => let x := Z.of_nat (4 * k) in let y := Z.of_nat y in generate_ray4 c x (x + 1) (x + 2) (x + 3) y y y y).
  assert (bench_packets c frames w h = flat_map (fun _ => flat_map (fun y => map (pk y) (seq 0 q)) (seq 0 h)) (seq 0 frames)) as E.
  { unfold bench_packets. rewrite Eq. reflexivity. }
  assert (forall y, length (map (pk y) (seq 0 q)) = q) as L1 by (intro; rewrite map_length, seq_length; auto).
  assert (length (flat_map (fun y => map (pk y) (seq 0 q)) (seq 0 h)) = h * q) as L2.
  { rewrite (flat_map_length_const _ _ _ _ q) by auto. rewrite seq_length. reflexivity. }
  assert (length (bench_packets c frames w h) = frames * (h * q)) as L3.
  { rewrite E. rewrite (flat_map_length_const _ _ _ _ (h * q)) by auto. rewrite seq_length. reflexivity. }
  destruct (C84_rays c frames w h) as [L4 N].
  split; [rewrite L3, L4; nia|].
  intros k p j Ek Lj. assert (k < frames * (h * q)) as Lk by (rewrite <- L3; apply nth_error_Some; congruence).
  assert (0 < h * q) as P by nia. assert (0 < q) as P' by nia.
  pose proof (Nat.div_mod k (h * q) ltac:(lia)) as Dk. pose proof (Nat.mod_upper_bound k (h * q) ltac:(lia)) as Bk.
  set (f := k / (h * q)) in *. set (i := k mod (h * q)) in *.
  pose proof (Nat.div_mod i q ltac:(lia)) as Di. pose proof (Nat.mod_upper_bound i q ltac:(lia)) as Bi.
  set (y := i / q) in *. set (x := i mod q) in *.
  assert (f < frames) as Lf by (apply Nat.div_lt_upper_bound; lia).
  assert (y < h) as Ly by (apply Nat.div_lt_upper_bound; lia).
  rewrite E in Ek. replace k with (f * (h * q) + (y * q + x)) in Ek by lia.
  rewrite (flat_map_nth _ _ _ (h * q) (seq 0 frames) f (y * q + x) f) in Ek by (auto using nth_seq; nia).
  rewrite (flat_map_nth _ _ _ q (seq 0 h) y x y) in Ek by auto using nth_seq.
  rewrite nth_error_map, nth_seq in Ek by auto. cbn [option_map] in Ek. assert (p = pk y x) as -> by congruence. clear Ek.
  exists (generate_ray c (Z.of_nat (4 * x + j)) (Z.of_nat y)). split.
  - apply (C67_lanes c _ _ _ _ _ _ _ _ j (Z.of_nat (4 * x + j)) (Z.of_nat y)).
    destruct j as [|[|[|[|j]]]]; [..|lia]; cbn [nth_error]; do 2 f_equal; lia.
  - replace (4 * k + j) with (f * (h * w) + (y * w + (4 * x + j))) by nia. apply N; auto. nia.
Qed.

(** ** The parallel loop *)
Lemma each_spec : forall A (trace : A -> res A) l, (forall r, In r l -> exists r', trace r = Ok r') -> exists l', each_in_turn trace l = Ok l' /\ length l' = length l /\
  forall i r, nth_error l i = Some r -> exists r', trace r = Ok r' /\ nth_error l' i = Some r'.
Proof.
  intros A trace l. induction l as [|r l IH]; intro H.
  - exists []. repeat split. intros [|i] r E; discriminate.
  - destruct (H r (or_introl eq_refl)) as (r' & T). destruct IH as (l' & E & Le & Nt); [intros; apply H; right; auto|].
    exists (r' :: l'). cbn [each_in_turn]. rewrite T. cbn [bind]. rewrite E. cbn [bind]. split; [reflexivity|]. split; [cbn [length]; lia|].
    intros [|i] r1 E1; cbn [nth_error] in *; [|apply Nt; auto]. assert (r1 = r) as -> by congruence. exists r'. auto.
Qed.
(** Rays done in the first [c] chunks. *)
Fixpoint work (done : nat -> nat) (c : nat) : nat := match c with O => 0 | S c' => work done c' + done c' end.
Lemma work_upd : forall done c k x, work (fun i => if i =? c then S x else done i) k + (if c <? k then done c else 0) = work done k + (if c <? k then S x else 0).
Proof.
  intros done c k x. induction k as [|k IH]; [reflexivity|]. cbn [work].
  destruct (Nat.eqb_spec k c) as [-> |Ne].
  - rewrite Nat.ltb_irrefl in IH. replace (c <? S c) with true by (symmetry; apply Nat.ltb_lt; lia). lia.
  - destruct (Nat.ltb_spec c k), (Nat.ltb_spec c (S k)); lia.
Qed.
Lemma work_le : forall done done' c, (forall i, i < c -> done i <= done' i) -> work done c <= work done' c.
Proof. intros done done' c. induction c as [|c IH]; intros H; auto. cbn [work]. pose proof (H c ltac:(lia)). specialize (IH ltac:(intros; apply H; lia)). lia. Qed.
Section Par.
  Context {A : Type} (trace : A -> res A) (size : nat) (l0 : list A).
  Hypothesis Hsize : 1 <= size.
  Let n := length l0.

  Definition inv (s : par_state) : Prop :=
    length (fst s) = n /\ (forall c, snd s c <= chunk_len size n c) /\
    (forall c j, j < chunk_len size n c -> exists r, nth_error l0 (size * c + j) = Some r /\
       if j <? snd s c then exists r', trace r = Ok r' /\ nth_error (fst s) (size * c + j) = Some r'
       else nth_error (fst s) (size * c + j) = Some r).

  Lemma chunk_pos : forall c j, j < chunk_len size n c -> size * c + j < n.
  Proof. intros c j H. unfold chunk_len in H. lia. Qed.
  Lemma chunk_of : forall i, i < n -> i mod size < chunk_len size n (i / size) /\ i = size * (i / size) + i mod size.
  Proof.
    intros i L. pose proof (Nat.div_mod i size ltac:(lia)). pose proof (Nat.mod_upper_bound i size ltac:(lia)). unfold chunk_len. lia.
  Qed.

  Lemma inv_start : inv (par_start l0).
  Proof.
    split; [reflexivity|]. split; [intro; apply Nat.le_0_l|]. intros c j H. pose proof (chunk_pos _ _ H) as L.
    destruct (nth_error l0 (size * c + j)) as [r|] eqn:E; [|apply nth_error_None in E; unfold n in L; lia].
    exists r. split; auto.
  Qed.
  Lemma upd_same : forall (l : list A) i x, i < length l -> nth_error (upd l i x) i = Some x.
  Proof. intro l. induction l as [|a l IH]; intros [|i] x L; cbn [length] in L; try lia; cbn [upd nth_error]; auto. apply IH. lia. Qed.
  Lemma upd_other : forall (l : list A) i j x, i <> j -> nth_error (upd l i x) j = nth_error l j.
  Proof. intro l. induction l as [|a l IH]; intros [|i] [|j] x D; cbn [upd nth_error]; auto; try lia. Qed.
  Lemma upd_len : forall (l : list A) i x, length (upd l i x) = length l.
  Proof. intro l. induction l as [|a l IH]; intros [|i] x; cbn [upd length]; auto. Qed.

  Lemma inv_step : forall s s', inv s -> par_step trace size s s' -> inv s'.
  Proof.
    intros s s' (Ln & Le & Nt) St. destruct St as [l done c r r' L E T]. cbn [fst snd] in *. rewrite Ln in L.
    split; [cbn [fst]; rewrite upd_len; auto|]. split.
    - intro k. cbn [snd]. destruct (Nat.eqb_spec k c) as [-> |Ne]; [lia|apply Le].
    - intros k j Lj. destruct (Nt k j Lj) as (r1 & E1 & H1). exists r1. split; [exact E1|]. cbn [fst snd].
      pose proof (chunk_pos _ _ Lj) as Lp.
      destruct (Nat.eqb_spec k c) as [-> |Ne].
      + destruct (Nat.eq_dec j (done c)) as [-> |Nj].
        * rewrite Nat.ltb_irrefl in H1. assert (r1 = r) as -> by congruence.
          replace (done c <? S (done c)) with true by (symmetry; apply Nat.ltb_lt; lia).
          exists r'. split; auto. apply upd_same. lia.
        * replace (j <? S (done c)) with (j <? done c).
          2: { destruct (Nat.ltb_spec j (done c)), (Nat.ltb_spec j (S (done c))); auto; lia. }
          rewrite upd_other by lia. exact H1.
      + assert (size * c + done c <> size * k + j) as D.
        { unfold chunk_len in Lj, L. intro Q. assert (j < size) by lia. assert (done c < size) by lia.
          assert (c = k); [|congruence]. nia. }
        rewrite upd_other by auto. exact H1.
  Qed.
  Lemma inv_run : forall k s, par_run trace size k (par_start l0) s -> inv s.
  Proof.
    intros k s R. remember (par_start l0) as s0 eqn:E0. induction R as [|k s s' s'' R IH St]; [subst; apply inv_start|].
    eapply inv_step; eauto.
  Qed.

  Lemma work_chunks : forall c, work (chunk_len size n) c = Nat.min n (size * c).
  Proof. induction c as [|c IH]; [cbn [work]; lia|]. cbn [work]. rewrite IH. unfold chunk_len. lia. Qed.
  Lemma work_zero : forall c, work (fun _ => 0) c = 0.
  Proof. induction c as [|c IH]; auto. cbn [work]. lia. Qed.

  Lemma run_work : forall k s, par_run trace size k (par_start l0) s -> work (snd s) n = k.
  Proof.
    intros k s R. remember (par_start l0) as s0 eqn:E0. induction R as [|k s s' s'' R IH St]; [subst; apply work_zero|].
    specialize (IH E0). subst s. pose proof (inv_run _ _ R) as (Ln & _ & _). destruct St as [l done c r r' L E T]. cbn [fst snd] in *.
    pose proof (work_upd done c n (done c)) as W. rewrite Ln in L. unfold chunk_len in L.
    assert (c < n) as Lc by nia. replace (c <? n) with true in W by (symmetry; apply Nat.ltb_lt; lia). lia.
  Qed.

  Definition finished (s : @par_state A) : Prop := forall c, snd s c = chunk_len size n c.

  Hypothesis Hok : forall r, In r l0 -> exists r', trace r = Ok r'.

  Lemma progress : forall s, inv s -> finished s \/ exists s', par_step trace size s s'.
  Proof.
    intros [l done] (Ln & Le & Nt). cbn [fst snd] in *.
    assert ((forall c, c < n -> done c = chunk_len size n c) \/ exists c, c < n /\ done c < chunk_len size n c) as [F|(c & Lc & L)].
    { clear Nt. generalize n at 1 3. intro m. induction m as [|m [IH|(c & Lc & L)]].
      - left. intros; lia.
      - destruct (Nat.eq_dec (done m) (chunk_len size n m)) as [E|N].
        + left. intros c Lc. destruct (Nat.eq_dec c m) as [-> |D]; auto. apply IH. lia.
        + right. exists m. split; [lia|]. specialize (Le m). lia.
      - right. exists c. split; [lia|auto]. }
    - left. intro c. cbn [snd]. destruct (Nat.lt_ge_cases c n) as [Lc|Lc]; auto. specialize (Le c). unfold chunk_len in *. nia.
    - right. destruct (Nt c (done c) L) as (r & E0 & H). rewrite Nat.ltb_irrefl in H.
      destruct (Hok r (nth_error_In _ _ E0)) as (r' & T). exists (upd l (size * c + done c) r', fun k => if k =? c then S (done c) else done k).
      assert (done c < chunk_len size (length l) c) as L' by (rewrite Ln; exact L). exact (par_ray trace size l done c r r' L' H T).
  Qed.

  Lemma finished_result : forall s, inv s -> finished s -> each_in_turn trace l0 = Ok (fst s).
  Proof.
    intros [l done] (Ln & Le & Nt) F. destruct (each_spec A trace l0 Hok) as (l' & E & L' & N'). rewrite E. f_equal. cbn [fst snd] in *.
    apply nth_error_ext. intro i. destruct (Nat.lt_ge_cases i n) as [L|L].
    - destruct (chunk_of i L) as [Lj Ei]. destruct (Nt _ _ Lj) as (r & E0 & H). rewrite <- Ei in *. pose proof (F (i / size)) as Fi. cbn [snd] in Fi. rewrite Fi in H.
      replace (i mod size <? chunk_len size n (i / size)) with true in H by (symmetry; apply Nat.ltb_lt; auto).
      destruct H as (r' & T & En). destruct (N' i r E0) as (r2 & T2 & E2). congruence.
    - assert (nth_error l' i = None) as -> by (apply nth_error_None; unfold n in L; lia). symmetry. apply nth_error_None. lia.
  Qed.
End Par.

(** The multi-threaded loop leaves the rays the single-threaded one leaves: no
    schedule gets stuck before every ray is traced, every schedule ends after
    as many steps as there are rays, and then the slice is that of the
    sequential loop. *)
Theorem C84_parallel : forall A (trace : A -> res A) size l, 1 <= size -> (forall r, In r l -> exists r', trace r = Ok r') ->
  exists l', each_in_turn trace l = Ok l' /\ length l' = length l /\
    (forall i r, nth_error l i = Some r -> exists r', trace r = Ok r' /\ nth_error l' i = Some r') /\
    forall k s, par_run trace size k (par_start l) s ->
      k <= length l /\ (k = length l -> fst s = l') /\ (k < length l -> exists s', par_step trace size s s').
Proof.
  intros A trace size l Hs Ok'. destruct (each_spec A trace l Ok') as (l' & E & Le & Nt). exists l'. split; [exact E|]. split; [exact Le|]. split; [exact Nt|].
  intros k s R. pose proof (inv_run trace size l Hs k s R) as Iv. pose proof (run_work trace size l Hs k s R) as W.
  assert (work (chunk_len size (length l)) (length l) = length l) as Wc.
  { pose proof (work_chunks size l Hs (length l)) as Q. cbv zeta in Q. rewrite Q. nia. }
  assert (k <= length l) as Lk.
  { rewrite <- W. rewrite <- Wc at 2. apply work_le. intros i _. destruct Iv as (_ & Le' & _). apply Le'. }
  destruct (progress trace size l Hs Ok' s Iv) as [F|P].
  - assert (k = length l) as Ek.
    { rewrite <- W, <- Wc. assert (forall c, work (snd s) c = work (chunk_len size (length l)) c) as ->; auto.
      intro c. induction c as [|c IH]; auto. cbn [work]. rewrite IH, F. reflexivity. }
    split; [lia|]. split; [|lia]. intros _. pose proof (finished_result trace size l Hs Ok' s Iv F) as Q. congruence.
  - split; [exact Lk|]. split; [|auto]. intro Ek. exfalso. destruct P as (s' & St).
    pose proof (run_work trace size l Hs (S k) s' (par_next trace size k (par_start l) s s' R St)) as W'.
    pose proof (inv_step trace size l Hs s s' Iv St) as (_ & Le' & _).
    assert (work (snd s') (length l) <= work (chunk_len size (length l)) (length l)) as B by (apply work_le; intros; apply Le'). lia.
Qed.

(** ** What the benchmark's rays end with *)

(** benchmark.rs:28-30, 35-37: the inner loop of [intersect_rays]. *)
Definition bench_ray (tris : list tri) (nodes : list aabb) (indices : list nat) (turns : nat) (r : ray) : res ray :=
  do (_, rays, _) <- iter_ray_prims (length tris) nodes indices (mesh_body tris) turns tt r; Ok (last rays r).
Definition bench_mray (tris : list tri) (ms : list mnode) (indices : list nat) (turns : nat) (r : ray) : res ray :=
  do (_, rays, _) <- miter_ray_prims (length tris) ms indices (mesh_body tris) turns tt r; Ok (last rays r).

(** However the rays are spread over threads in chunks of [size], every
    complete run leaves every ray cut off at the nearest triangle along it. *)
Definition benched (trace : ray -> res ray) (size : nat) (tris : list tri) (l : list ray) : Prop :=
  exists l', each_in_turn trace l = Ok l' /\ length l' = length l /\
    (forall i r, nth_error l i = Some r -> exists r' found, nth_error l' i = Some r' /\ nearest_of tris r found r') /\
    forall k s, par_run trace size k (par_start l) s ->
      k <= length l /\ (k = length l -> fst s = l') /\ (k < length l -> exists s', par_step trace size s s').

Lemma bench_in : forall c frames w h r, In r (bench_rays c frames w h) -> exists x y, x < w /\ y < h /\ r = generate_ray c (Z.of_nat x) (Z.of_nat y).
Proof.
  intros c frames w h r H. apply in_flat_map in H. destruct H as (f & _ & H). apply in_flat_map in H. destruct H as (y & Hy & H).
  apply in_map_iff in H. destruct H as (x & E & Hx). apply in_seq in Hx. apply in_seq in Hy. exists x, y. split; [lia|]. split; [lia|]. auto.
Qed.

Lemma benched_of : forall trace size tris c frames w h, 1 <= size ->
  (forall x y, x < w -> y < h -> let r := generate_ray c (Z.of_nat x) (Z.of_nat y) in
     trace r = Ok (snd (client_fold (mesh_body tris) (seq 0 (length tris)) tt r))) ->
  benched trace size tris (bench_rays c frames w h).
Proof.
  intros trace size tris c frames w h Hs H.
  destruct (C84_parallel ray trace size (bench_rays c frames w h) Hs) as (l' & E & Le & Nt & P).
  - intros r Hr. destruct (bench_in _ _ _ _ _ Hr) as (x & y & Lx & Ly & ->). eexists. apply H; auto.
  - exists l'. split; [exact E|]. split; [exact Le|]. split; [|exact P]. intros i r Ei.
    destruct (Nt i r Ei) as (r' & T & E'). destruct (bench_in _ _ _ _ _ (nth_error_In _ _ Ei)) as (x & y & Lx & Ly & Er).
    rewrite Er in T. cbv zeta in H. rewrite (H x y Lx Ly) in T. rewrite <- Er in T.
    assert (snd (client_fold (mesh_body tris) (seq 0 (length tris)) tt r) = r') as <- by congruence.
    eexists. exists (fst (client_fold (shade_body tris) (seq 0 (length tris)) None r)). split; [exact E'|].
    rewrite <- (shade_fold_ray tris (seq 0 (length tris)) None r). apply shade_nearest; [rewrite Er; reflexivity|apply shade_fold_ray].
Qed.

(** Over a BVH of the binned-SAH builder and the 4-wide BVH made of it, as the
    benchmark does, and over those of the locally-ordered-clustering builder. *)
Theorem C84_binned : forall m d margin tris ppl aabbs centers bv t turns c frames w h size,
  view_fits m d margin 1 c w h tris aabbs -> (fval m <= 128)%R ->
  binned_input aabbs centers -> binned_build ppl aabbs centers bv ->
  repr (nodes bv) t -> t_idx t = 0 -> depth t <= 31 -> well_cut ppl aabbs centers (prim_indices bv) t ->
  3 * length aabbs + 1 <= turns -> 1 <= size ->
  benched (bench_ray tris (nodes bv) (prim_indices bv) turns) size tris (bench_rays c frames w h).
Proof.
  intros. rename H into V. apply benched_of; auto. intros x y Lx Ly. destruct (fit_ray _ _ _ _ _ _ _ _ _ V x y Lx Ly) as [Fit Fine]. cbv zeta. rewrite (camera_ray c (Z.of_nat x) (Z.of_nat y)).
  assert (flt f0 DEFAULT_T_MAX = true) as Lz by reflexivity.
  edestruct C60_binned with (1 := Fit) as (ps & rays & E & Nr); eauto. unfold bench_ray. rewrite E. cbn [bind]. rewrite Nr. reflexivity.
Qed.
Theorem C84_binned_quad : forall m d margin far tris ppl aabbs centers bv mfuel mb t turns c frames w h size,
  view_fits m d margin far c w h tris aabbs -> (forall x y, x < w -> y < h -> reaches (fval m) far (r_dir (generate_ray c (Z.of_nat x) (Z.of_nat y)))) -> (fval m <= 128)%R ->
  binned_input aabbs centers -> binned_build ppl aabbs centers bv ->
  repr (nodes bv) t -> t_idx t = 0 -> depth t <= 22 -> well_cut ppl aabbs centers (prim_indices bv) t ->
  length (nodes bv) <= mfuel -> mbvh_construct mfuel bv = Ok mb -> quad_enough mb turns -> 1 <= size ->
  benched (bench_mray tris (MbvhModel.m_nodes mb) (mb_indices mb) turns) size tris (bench_rays c frames w h).
Proof.
  intros. rename H into V. apply benched_of; auto. intros x y Lx Ly. destruct (fit_ray _ _ _ _ _ _ _ _ _ V x y Lx Ly) as [Fit Fine]. cbv zeta. rewrite (camera_ray c (Z.of_nat x) (Z.of_nat y)).
  pose proof (H0 x y Lx Ly) as Rc. assert (flt f0 DEFAULT_T_MAX = true) as Lz by reflexivity.
  edestruct C60_binned_quad with (1 := Fit) (ppl := ppl) as (ps & rays & E & Nr); eauto. unfold bench_mray. rewrite E. cbn [bind]. rewrite Nr. reflexivity.
Qed.
Theorem C84_locb : forall m d margin tris fuel threads aabbs centers bv t turns c frames w h size,
  view_fits m d margin 1 c w h tris aabbs -> (fval m <= 128)%R ->
  locb_input aabbs centers -> 1 <= threads -> 3 <= length aabbs -> locb_build fuel threads aabbs centers = Ok bv ->
  repr (nodes bv) t -> t_idx t = 0 -> depth t <= 31 -> 3 * length aabbs + 1 <= turns -> 1 <= size ->
  benched (bench_ray tris (nodes bv) (prim_indices bv) turns) size tris (bench_rays c frames w h).
Proof.
  intros. rename H into V. apply benched_of; auto. intros x y Lx Ly. destruct (fit_ray _ _ _ _ _ _ _ _ _ V x y Lx Ly) as [Fit Fine]. cbv zeta. rewrite (camera_ray c (Z.of_nat x) (Z.of_nat y)).
  assert (flt f0 DEFAULT_T_MAX = true) as Lz by reflexivity.
  edestruct C60_locb with (1 := Fit) (fuel := fuel) (threads := threads) as (ps & rays & E & Nr); eauto. unfold bench_ray. rewrite E. cbn [bind]. rewrite Nr. reflexivity.
Qed.
Theorem C84_locb_quad : forall m d margin far tris fuel threads aabbs centers bv mfuel mb t turns c frames w h size,
  view_fits m d margin far c w h tris aabbs -> (forall x y, x < w -> y < h -> reaches (fval m) far (r_dir (generate_ray c (Z.of_nat x) (Z.of_nat y)))) -> (fval m <= 128)%R ->
  locb_input aabbs centers -> 1 <= threads -> 3 <= length aabbs -> locb_build fuel threads aabbs centers = Ok bv ->
  repr (nodes bv) t -> t_idx t = 0 -> depth t <= 22 ->
  length (nodes bv) <= mfuel -> mbvh_construct mfuel bv = Ok mb -> quad_enough mb turns -> 1 <= size ->
  benched (bench_mray tris (MbvhModel.m_nodes mb) (mb_indices mb) turns) size tris (bench_rays c frames w h).
Proof.
  intros. rename H into V. apply benched_of; auto. intros x y Lx Ly. destruct (fit_ray _ _ _ _ _ _ _ _ _ V x y Lx Ly) as [Fit Fine]. cbv zeta. rewrite (camera_ray c (Z.of_nat x) (Z.of_nat y)).
  pose proof (H0 x y Lx Ly) as Rc. assert (flt f0 DEFAULT_T_MAX = true) as Lz by reflexivity.
  edestruct C60_locb_quad with (1 := Fit) (fuel := fuel) (threads := threads) as (ps & rays & E & Nr); eauto. unfold bench_mray. rewrite E. cbn [bind]. rewrite Nr. reflexivity.
Qed.

(** ** The timer *)
Local Open Scope R_scope.
Lemma millis_near : forall ms micros, (0 <= ms < 4294967296)%Z -> (0 <= micros < 1000000)%Z ->
  let f := fadd (f_of_Z ms) (fdiv (f_of_Z micros) (f_of_Z 1000)) in let elapsed := IZR ms + IZR micros / 1000 in
  ffinite f /\ Rabs (fval f - elapsed) <= 4 / 2 ^ 24 * elapsed + / 2 ^ 100.
Proof.
  intros ms micros Hs Hm f0' elapsed. unfold f0'. clear f0'.
  destruct (fr_of_u32 ms ltac:(lia)) as [Fa Ea]. destruct (fr_of_u32 micros ltac:(lia)) as [Fb Eb].
  set (X := IZR ms) in *. set (Y := IZR micros) in *.
  set (a := f_of_Z ms) in *. set (b := f_of_Z micros) in *.
  assert (0 <= X <= 4294967296) as BX by (unfold X; split; apply IZR_le; lia).
  assert (0 <= Y <= 1000000) as BY by (unfold Y; split; apply IZR_le; lia).
  assert (fin (f_of_Z 1000) /\ fr (f_of_Z 1000) = 1000) as [Fc Ec].
  { assert (f_of_Z 1000 = @B754_finite 24 128 false 16384000 (-14) eq_refl) as -> by (apply B2SF_inj; vm_compute; reflexivity).
    split; [reflexivity|]. unfold fr. cbn [B2R]. unfold F2R. simpl. lra. }
  assert (fr (f_of_Z 1000) <> 0) as NZ by (rewrite Ec; lra).
  destruct (fr_fdiv b (f_of_Z 1000) Fb Fc NZ) as [Nd Ed]. rewrite Ec in Ed.
  pose proof ue_bounds as U. apply Rabs_le_inv in Ea. apply Rabs_le_inv in Eb.
  assert (0 <= ue * Y <= / 1000 * Y) as Q1 by (split; [apply Rmult_le_pos; lra|apply Rmult_le_compat_r; lra]).
  assert (0 <= ue * X <= / 1000 * X) as Q2 by (split; [apply Rmult_le_pos; lra|apply Rmult_le_compat_r; lra]).
  assert (256 * 256 * 256 * 256 * 256 <= bpow radix2 127) as Big by (simpl; lra).
  assert (Rabs (fr b / 1000) <= bpow radix2 127) as Bd by (apply Rabs_le; split; lra).
  pose proof (fin_of_RN _ _ Nd Ed Bd) as Fd.
  destruct (RN_small _ Bd) as [R1 _]. rewrite R1 in Ed. pose proof (rnd_err (fr b / 1000)) as E1. rewrite <- Ed in E1.
  set (q := fdiv b (f_of_Z 1000)) in *.
  assert (0 <= fr b) as Pb by lra. rewrite (Rabs_pos_eq (fr b / 1000)) in E1 by lra. apply Rabs_le_inv in E1.
  destruct (fr_fadd a q Fa Fd) as [Nf Ef].
  set (e := bpow radix2 (-150)) in *.
  assert (0 < e) as Pe by apply bpow_gt_0. assert (e <= / 2 ^ 110) as Le by (unfold e; simpl; lra).
  assert (ue * (fr b / 1000) <= ue * (2 * Y / 1000)) as Q3 by (apply Rmult_le_compat_l; lra).
  assert (0 <= fr a) as Pa by lra.
  assert (Rabs (fr a + fr q) <= bpow radix2 127) as Bf by (apply Rabs_le; simpl in Le; split; lra).
  pose proof (fin_of_RN _ _ Nf Ef Bf) as Ff. split; [exact Ff|].
  destruct (RN_small _ Bf) as [R2 _]. rewrite R2 in Ef. pose proof (rnd_err (fr a + fr q)) as E2. rewrite <- Ef in E2. fold e in E2.
  unfold fval. rewrite <- (fr_fin _ Ff). set (f := fadd a q) in *. fold e in E1.
  assert (Rabs (fr a + fr q) <= 1.01 * elapsed + e) as Q4.
  { unfold elapsed. apply Rabs_le. split; lra. }
  assert (ue * Rabs (fr a + fr q) <= ue * (1.01 * elapsed + e)) as Q5 by (apply Rmult_le_compat_l; lra).
  apply Rabs_le_inv in E2.
  assert (4 / 2 ^ 24 = 4 * ue) as -> by (unfold ue; simpl; lra).
  assert (fr b / 1000 <= 1.01 * (Y / 1000)) as Q6 by lra.
  assert (ue * (fr b / 1000) <= ue * (1.01 * (Y / 1000))) as Q7 by (apply Rmult_le_compat_l; lra).
  assert (ue * e <= 1 * e) as Q8 by (apply Rmult_le_compat_r; lra).
  assert (3 * e <= / 2 ^ 100) as Q9 by (simpl in Le |- *; lra).
  unfold elapsed in *. apply Rabs_le. split; lra.
Qed.

(** For the first 49 days the timer shows the elapsed milliseconds. *)
Theorem C85_millis : forall checked secs micros, (0 <= secs <= 4294967)%Z -> (0 <= micros < 1000000)%Z ->
  let elapsed := 1000 * IZR secs + IZR micros / 1000 in
  exists f, elapsed_in_millis checked secs micros = Ok f /\ ffinite f /\ Rabs (fval f - elapsed) <= 4 / 2 ^ 24 * elapsed + / 2 ^ 100.
Proof.
  intros checked secs micros Hs Hm elapsed. unfold elapsed_in_millis.
  rewrite (Z.mod_small secs) by lia. rewrite (Z.mod_small (secs * 1000)) by lia.
  replace (2 ^ 32 <=? secs * 1000)%Z with false by (symmetry; apply Z.leb_gt; lia). rewrite andb_false_r.
  eexists. split; [reflexivity|].
  pose proof (millis_near (secs * 1000) micros ltac:(lia) Hm) as N. cbv zeta in N. rewrite mult_IZR, (Rmult_comm (IZR secs)) in N. exact N.
Qed.

(** Without overflow checks the milliseconds of the whole seconds wrap at 2^32. *)
Theorem C85_wraps : forall secs micros, (0 <= secs)%Z -> (0 <= micros < 1000000)%Z ->
  let shown := IZR (1000 * secs mod 4294967296) + IZR micros / 1000 in
  exists f, elapsed_in_millis false secs micros = Ok f /\ ffinite f /\ Rabs (fval f - shown) <= 4 / 2 ^ 24 * shown + / 2 ^ 100.
Proof.
  intros secs micros Hs Hm shown. unfold elapsed_in_millis. cbn [andb].
  eexists. split; [reflexivity|].
  change (2 ^ 32)%Z with 4294967296%Z. rewrite Z.mul_mod_idemp_l by lia. rewrite (Z.mul_comm secs).
  apply millis_near; [apply Z.mod_pos_bound; lia|exact Hm].
Qed.

(** With them it panics from 4294968 seconds on (up to 2^32 seconds, when the seconds wrap). *)
Theorem C85_panics : forall secs micros, (4294968 <= secs < 4294967296)%Z -> elapsed_in_millis true secs micros = Panic.
Proof.
  intros secs micros Hs. unfold elapsed_in_millis. change (2 ^ 32)%Z with 4294967296%Z. rewrite (Z.mod_small secs) by lia.
  replace (4294967296 <=? secs * 1000)%Z with true by (symmetry; apply Z.leb_le; lia). reflexivity.
Qed.

Local Open Scope nat_scope.
(** Five rays in chunks of two, chunk 1 first: a run to the end; the
    benchmark's slices for 2 frames of 4 x 2 pixels; a scene in which the
    conditions hold for every ray and rays are cut off by a triangle. *)
Definition bump (n : nat) : res nat := Ok (n + 10).
Example C84_nonvacuous_run :
  exists s, par_run bump 2 5 (par_start [0; 1; 2; 3; 4]) s /\ fst s = [10; 11; 12; 13; 14].
Proof.
  set (s0 := par_start [0; 1; 2; 3; 4]).
  set (go := fun (s : @par_state nat) c r' => (upd (fst s) (2 * c + snd s c) r', fun k => if k =? c then S (snd s c) else snd s k) : @par_state nat).
  assert (forall s c r, snd s c < chunk_len 2 (length (fst s)) c -> nth_error (fst s) (2 * c + snd s c) = Some r -> par_step bump 2 s (go s c (r + 10))) as G.
  { intros [l done] c r L E. exact (par_ray bump 2 l done c r (r + 10) L E eq_refl). }
  exists (go (go (go (go (go s0 1 12) 2 14) 0 10) 1 13) 0 11). split; [|reflexivity].
  apply par_next with (s' := go (go (go (go s0 1 12) 2 14) 0 10) 1 13); [|apply (G _ 0 1); [cbv; lia|reflexivity]].
  apply par_next with (s' := go (go (go s0 1 12) 2 14) 0 10); [|apply (G _ 1 3); [cbv; lia|reflexivity]].
  apply par_next with (s' := go (go s0 1 12) 2 14); [|apply (G _ 0 0); [cbv; lia|reflexivity]].
  apply par_next with (s' := go s0 1 12); [|apply (G _ 2 4); [cbv; lia|reflexivity]].
  apply par_next with (s' := s0); [apply par_here|apply (G _ 1 2); [cbv; lia|reflexivity]].
Qed.
Example C84_nonvacuous :
  4 * length (bench_packets (cam82 (V3 f0 f0 f0)) 2 4 2) = 16 /\ length (bench_rays (cam82 (V3 f0 f0 f0)) 2 4 2) = 16 /\
  view_fits (fz 1) 1 0 3 (cam82 (V3 f0 f0 f0)) 2 2 tris60 boxes60 /\
  exists bv l, locb_build 6 2 boxes60 centers60 = Ok bv /\
    each_in_turn (bench_ray tris60 (nodes bv) (prim_indices bv) 10) (bench_rays (cam82 (V3 f0 f0 f0)) 1 2 1) = Ok l /\
    forallb (fun r => flt (r_t r) DEFAULT_T_MAX) l = true /\ length l = 2.
Proof.
  split; [reflexivity|]. split; [reflexivity|]. split; [apply C82_nonvacuous|].
  destruct (ok_with _ (locb_build 6 2 boxes60 centers60) (fun bv =>
    match each_in_turn (bench_ray tris60 (nodes bv) (prim_indices bv) 10) (bench_rays (cam82 (V3 f0 f0 f0)) 1 2 1) with
    | Ok l => (forallb (fun r => flt (r_t r) DEFAULT_T_MAX) l && (length l =? 2))%bool | _ => false end)) as (bv & E & H); [vm_compute; reflexivity|].
  destruct (each_in_turn _ _) as [l| | |] eqn:El; try discriminate H. apply andb_prop in H as [H1 H2]. apply Nat.eqb_eq in H2.
  exists bv, l. auto.
Qed.
Example C85_nonvacuous : (exists f, elapsed_in_millis false 4294968 0 = Ok f /\ flt f (f_of_Z 1000) = true) /\
  exists f, elapsed_in_millis true 12 345678 = Ok f /\ flt (f_of_Z 12345) f = true /\ flt f (f_of_Z 12346) = true.
Proof.
  split.
  { destruct (ok_with _ (elapsed_in_millis false 4294968 0) (fun f => flt f (f_of_Z 1000))) as (f & E & H); [vm_compute; reflexivity|]. exists f. auto. }
  destruct (ok_with _ (elapsed_in_millis true 12 345678) (fun f => (flt (f_of_Z 12345) f && flt f (f_of_Z 12346))%bool)) as (f & E & H); [vm_compute; reflexivity|].
  apply andb_prop in H as [H1 H2]. exists f. auto.
Qed.

Lemma view60 : view_fits (fz 1) 1 0 1 (cam82 (V3 f0 f0 f0)) 2 2 tris60 boxes60.
Proof.
  destruct C82_nonvacuous as (V & _).
  intros x y Lx Ly. cbv zeta. destruct (V x y Lx Ly) as [(A1 & A2 & A3 & A4 & A5 & A6 & A7 & A8 & A9 & A10 & A11) Fn]. split; [|exact Fn].
    split; [exact A1|]. split; [exact A2|]. split; [exact A3|]. split; [exact A4|]. split; [exact A5|]. split; [exact A6|]. split; [exact A7|].
    split; [exact A8|]. split; [lra|]. split; [exact A10|]. intros p tr bx Et Eb. destruct (A11 p tr bx Et Eb) as [B1 B2]. split; [exact B1|].
    intro Rp. destruct (B2 Rp) as [C1 C2]. split; [exact C1|]. eapply Rle_trans; [|exact C2]. apply Rplus_le_compat_r.
    set (S := seen tr _) in *. assert (0 < S)%R as PS.
    { assert (0 <= S)%R by apply Rabs_pos. lra. }
    unfold clearance. apply Rmult_le_compat_l; [unfold half_ulp; lra|]. apply Rplus_le_compat_l. unfold Rdiv. apply Rmult_le_compat_r; [left; apply Rinv_0_lt_compat; exact PS|].
    assert (0 <= fval (fz 1) * fval (fz 1))%R by (apply Rmult_le_pos; lra). lra.
Qed.
(** The scene of C60 seen by that camera meets every condition, so all
    conclusions hold of it: the frame and the benchmark. *)
Example C84_applies : exists bv, locb_build 6 2 boxes60 centers60 = Ok bv /\
  benched (bench_ray tris60 (nodes bv) (prim_indices bv) 10) 3 tris60 (bench_rays (cam82 (V3 f0 f0 f0)) 2 2 2) /\
  exists frame, for_chunks 4 (draw_pixel (cam82 (V3 f0 f0 f0)) 2 tris60 (trace_bvh tris60 (nodes bv) (prim_indices bv) 10)) [2; 0; 3; 1] (repeat 9%Z 16) = Ok frame /\
    shows_nearest (cam82 (V3 f0 f0 f0)) 2 2 tris60 frame.
Proof.
  destruct C82_nonvacuous as (V & _). destruct C60_nonvacuous as (_ & _ & M & _ & I & _ & (bv & E & Ln & _) & _).
  pose proof view60 as V1.
  exists bv. split; [exact E|].
  pose proof I as (L & N1 & Mx).
  destruct (LocbProofs.locb_sound 14 6 2 boxes60 centers60 bv) as (t & Rp & T0 & Pi & _ & _ & Ln' & _); auto; [lia|].
  assert (depth t <= 31) as Dt.
  { apply Permutation_length in Pi. rewrite ClosestProofs.t_ids_size, seq_length, Ln in Pi. pose proof (ClosestProofs.depth_leaves t). pose proof (ClosestProofs.size_leaves t). lia. }
  assert (length boxes60 = 3) as L3 by reflexivity.
  split.
  - apply (C84_locb (fz 1) 1 0 tris60 6 2 boxes60 centers60 bv t 10); auto; rewrite ?L3; lia.
  - destruct (C82_image_locb (fz 1) 1 0 tris60 6 2 boxes60 centers60 bv t 10 (cam82 (V3 f0 f0 f0)) 2 2 [2; 0; 3; 1] (repeat 9%Z 16)) as (fr & F1 & _ & F2);
      auto; try (rewrite ?L3; simpl; lia).
    + change (Permutation [2; 0; 3; 1] [0; 1; 2; 3]). apply NoDup_Permutation; [repeat constructor; simpl; lia|repeat constructor; simpl; lia|]. intro x. simpl. lia.
    + exists fr. auto.
Qed.

(** The same over the BVH the binned-SAH builder makes of it with default
    settings, under every schedule of that build. *)
Example C84_applies_binned : forall bv, binned_build None boxes60 centers60 bv ->
  benched (bench_ray tris60 (nodes bv) (prim_indices bv) 10) 3 tris60 (bench_rays (cam82 (V3 f0 f0 f0)) 2 2 2) /\
  exists frame, for_chunks 4 (draw_pixel (cam82 (V3 f0 f0 f0)) 2 tris60 (trace_bvh tris60 (nodes bv) (prim_indices bv) 10)) [2; 0; 3; 1] (repeat 9%Z 16) = Ok frame /\
    shows_nearest (cam82 (V3 f0 f0 f0)) 2 2 tris60 frame.
Proof.
  intros bv B. destruct C60_nonvacuous as (_ & _ & M & _). pose proof view60 as V1.
  assert (binned_input boxes60 centers60) as I by (repeat split; simpl; lia).
  destruct (binned_result _ _ _ _ I B) as (u & R & U0 & Ids & Ps & _ & _ & Sh & Pi & _).
  pose proof (result_prims _ _ _ _ u I B Ps) as Pr.
  assert ((match fst (sah_of (max_leaf_size None) boxes60 centers60 (root_ent boxes60)) with
           | SNode _ _ (SLeaf _ _ _ _) (SNode _ _ (SLeaf _ _ _ _) (SLeaf _ _ _ _)) => true | _ => false end &&
    cutb boxes60 centers60 [(2, 8)] (fst (sah_of (max_leaf_size None) boxes60 centers60 (root_ent boxes60)))
      (snd (sah_of (max_leaf_size None) boxes60 centers60 (root_ent boxes60)))) = true) as Ck by (vm_compute; reflexivity).
  rewrite <- Sh, <- Pi in Ck. apply andb_prop in Ck as [C1 C2].
  assert (depth u <= 31) as Du.
  { clear -C1. destruct u as [|i n l r]; [discriminate|]. destruct l as [|? ? l1 l2], r as [|? ? r1 r2]; try discriminate; cbn [shape_of] in C1.
    destruct r1, r2; try discriminate; simpl; lia. }
  assert (well_cut None boxes60 centers60 (prim_indices bv) u) as Wc by (eapply cutb_spec; rewrite Pr; exact C2).
  assert (length boxes60 = 3) as L3 by reflexivity.
  split.
  - apply (C84_binned (fz 1) 1 0 tris60 None boxes60 centers60 bv u 10); auto; rewrite ?L3; lia.
  - destruct (C82_image_binned (fz 1) 1 0 tris60 None boxes60 centers60 bv u 10 (cam82 (V3 f0 f0 f0)) 2 2 [2; 0; 3; 1] (repeat 9%Z 16)) as (fr & F1 & _ & F2);
      auto; try (rewrite ?L3; simpl; lia).
    + change (Permutation [2; 0; 3; 1] [0; 1; 2; 3]). apply NoDup_Permutation; [repeat constructor; simpl; lia|repeat constructor; simpl; lia|]. intro x. simpl. lia.
    + exists fr. auto.
Qed.
