(** * Property C87: how far one turn of the demo's loop moves the camera *)
Require Import List ZArith Bool Reals Lia Lra.
From Flocq Require Import Core BinarySingleNaN.
From Verif Require Import F32 F32Facts Vec RayModel AabbModel Base SpecGeom AabbProofs PropBox TriModel SpecTri TriProofs TriError
  SpecMeasure PropMeasure CameraModel SpecCamera CameraProofs PropCamera SpecTransform PropTransform PropView ControlModel PropControl.
Import ListNotations.
Local Open Scope R_scope.

Lemma small_Z : forall k : Z, In k [-10; -1; 0; 1; 10]%Z -> fin (f_of_Z k) /\ fr (f_of_Z k) = IZR k.
Proof.
  intros k H. cbn [In] in H.
  assert (forall (x y : f32), B2SF x = B2SF y -> x = y) as J by (intros x y; apply B2SF_inj).
  destruct H as [<- |[<- |[<- |[<- |[<- |[]]]]]].
  - rewrite (J (f_of_Z (-10)) (@B754_finite 24 128 true 10485760 (-20) eq_refl)) by (vm_compute; reflexivity). split; [reflexivity|]. unfold fr. cbn [B2R]. unfold F2R. simpl. lra.
  - rewrite (J (f_of_Z (-1)) (@B754_finite 24 128 true 8388608 (-23) eq_refl)) by (vm_compute; reflexivity). split; [reflexivity|]. unfold fr. cbn [B2R]. unfold F2R. simpl. lra.
  - rewrite (J (f_of_Z 0) (B754_zero false)) by (vm_compute; reflexivity). split; [reflexivity|]. unfold fr. cbn [B2R]. reflexivity.
  - rewrite (J (f_of_Z 1) (@B754_finite 24 128 false 8388608 (-23) eq_refl)) by (vm_compute; reflexivity). split; [reflexivity|]. unfold fr. cbn [B2R]. unfold F2R. simpl. lra.
  - rewrite (J (f_of_Z 10) (@B754_finite 24 128 false 10485760 (-20) eq_refl)) by (vm_compute; reflexivity). split; [reflexivity|]. unfold fr. cbn [B2R]. unfold F2R. simpl. lra.
Qed.

(** The time in units of 100 ms. *)
Lemma time_near : forall millis m, 1 <= m <= 2 ^ 20 -> fin millis -> 0 <= fr millis <= 9 * m ->
  approx m (fdiv millis (f_of_Z 100)) (fr millis / 100) (1 / 10) (9 / 100).
Proof.
  intros ms m Hm F B.
  assert (fin (f_of_Z 100) /\ fr (f_of_Z 100) = 100) as [Fc Ec].
  { assert (f_of_Z 100 = @B754_finite 24 128 false 13107200 (-17) eq_refl) as -> by (apply B2SF_inj; vm_compute; reflexivity).
    split; [reflexivity|]. unfold fr. cbn [B2R]. unfold F2R. simpl. lra. }
  assert (fr (f_of_Z 100) <> 0) as NZ by (rewrite Ec; lra).
  destruct (fr_fdiv ms (f_of_Z 100) F Fc NZ) as [Nd Ed]. rewrite Ec in Ed.
  assert (2 ^ 20 * 9 <= bpow radix2 127) as Big by (simpl; lra).
  assert (Rabs (fr ms / 100) <= bpow radix2 127) as Bd by (apply Rabs_le; split; lra).
  pose proof (fin_of_RN _ _ Nd Ed Bd) as Fd. split; [exact Fd|].
  destruct (RN_small _ Bd) as [R1 _]. rewrite R1 in Ed. pose proof (rnd_err (fr ms / 100)) as E1. rewrite <- Ed in E1.
  rewrite (Rabs_pos_eq (fr ms / 100)) in * by lra. split; [|lra].
  eapply Rle_trans; [exact E1|]. pose proof ue_bounds as U.
  assert (ue * (fr ms / 100) <= ue * (9 / 100 * m)) as Q by (apply Rmult_le_compat_l; lra).
  assert (bpow radix2 (-150) <= 1 / 100 * ue) as T by (unfold ue; simpl; lra).
  assert (1 / 100 * ue * 1 <= 1 / 100 * ue * m) as T2 by (apply Rmult_le_compat_l; lra). lra.
Qed.

Lemma step_near : forall (k : Z) millis m, In k [-10; -1; 0; 1; 10]%Z -> 1 <= m <= 2 ^ 20 -> fin millis -> 0 <= fr millis <= 9 * m ->
  let o := fmul (f_of_Z k) (fdiv millis (f_of_Z 100)) in
  ffinite o /\ Rabs (fval o) <= m /\ Rabs (fval o - IZR k * (fr millis / 100)) <= 2 * m / 2 ^ 24.
Proof.
  intros k ms m Hk Hm F B o. pose proof (time_near ms m Hm F B) as T. destruct (small_Z k Hk) as [Fk Ek].
  assert (scale m) as Sm by (apply (scale_le m 20 Hm); lia).
  assert (scale 1) as S1 by (apply (scale_le 1 20); [split; simpl; lra|lia]).
  assert (scale (1 * m)) as S by (rewrite Rmult_1_l; exact Sm).
  assert (approx 1 (f_of_Z k) (IZR k) 0 10) as Ak.
  { split; [exact Fk|]. rewrite Ek, Rminus_diag_eq, Rabs_R0 by reflexivity. split; [lra|].
    cbn [In] in Hk. apply Rabs_le. destruct Hk as [<- |[<- |[<- |[<- |[<- |[]]]]]]; lra. }
  pose proof (approx_mul 1 m _ _ _ _ 0 10 (1 / 10) (9 / 100) 2 (9 / 10) S1 Sm S Ak T ltac:(lra) ltac:(lra) ltac:(lra)) as G.
  fold o in G. rewrite Rmult_1_l in G. pose proof (approx_abs _ _ _ _ _ Sm G) as Ab. destruct G as (Fo & Eo & _).
  split; [exact Fo|]. unfold fval. rewrite <- (fr_fin _ Fo).
  split; [lra|]. eapply Rle_trans; [exact Eo|]. unfold ue. simpl. lra.
Qed.

Lemma steps_in : forall sh a b, In ((if sh : bool then 10 else 1) * steps a b)%Z [-10; -1; 0; 1; 10]%Z.
Proof. intros [] [] []; cbn; tauto. Qed.

(** After one turn of the loop the camera stands where the held keys say: the
    old position plus, for every 100 ms, one unit (ten with left Shift) per
    held key to the left (A) or right (D), up (E) or down (Q), ahead (W) or
    back (S), up to rounding. *)
Theorem C87_position : forall tan v history millis rendered m hold, let s := control_run tan history (control_start v) in
  let s' := handle tan (EventsCleared millis rendered) s in
  ~ is_held history Escape -> (forall k, hold k = true <-> is_held history k) ->
  1 <= m <= 2 ^ 20 -> sized m (c_pos (v_cam (eye s))) -> sized 2 (v_direction (eye s)) ->
  ffinite millis -> 0 <= fval millis <= 9 * m ->
  let far := (if hold LShift then 10 else 1) * (fval millis / 100) in
  forall i, Rabs (comp (c_pos (v_cam (eye s'))) i -
    (comp (c_pos (v_cam (eye s))) i + far * (IZR (steps (hold D) (hold A)) * rightwards (v_direction (eye s)) i
        + IZR (steps (hold E) (hold Q)) * upwards i + IZR (steps (hold W) (hold S)) * comp (v_direction (eye s)) i)))
    <= 36 * m / 2 ^ 24.
Proof.
  intros tan v history ms rendered m hold s s' NE Hh Hm Sp Sd Fm Bm far i.
  destruct (C87_tick tan v history ms rendered) as [_ T]. fold s in T. fold s' in T. destruct (T NE) as (_ & hold' & Hh' & Ey). clear T.
  cbv zeta in Ey.
  assert (forall k, hold' k = hold k) as Eh.
  { intro k. pose proof (Hh k) as H1. pose proof (Hh' k) as H2. destruct (hold k), (hold' k); auto; [apply H2, H1; reflexivity|symmetry; apply H1, H2; reflexivity]. }
  rewrite !Eh in Ey. clear hold' Hh' Eh.
  assert (fval ms = fr ms) as Ems by (unfold fval; rewrite <- (fr_fin _ Fm); reflexivity).
  assert (0 <= fr ms <= 9 * m) as Bm' by (rewrite <- Ems; exact Bm).
  set (fast := if hold LShift then 10%Z else 1%Z) in *. set (t := fdiv ms (f_of_Z 100)) in *.
  assert (forall a b, In (fast * steps a b)%Z [-10; -1; 0; 1; 10]%Z) as Hin by (intros; apply steps_in).
  pose proof (step_near _ ms m (Hin (hold A) (hold D)) Hm Fm Bm') as N0. pose proof (step_near _ ms m (Hin (hold E) (hold Q)) Hm Fm Bm') as N1.
  pose proof (step_near _ ms m (Hin (hold W) (hold S)) Hm Fm Bm') as N2. cbv zeta in N0, N1, N2. fold t in N0, N1, N2.
  set (o := V3 _ _ _) in Ey.
  assert (c_pos (v_cam (eye s')) = c_pos (v_cam (translate tan (eye s) o))) as -> by (rewrite Ey; reflexivity).
  assert (sized m o) as So.
  { intros g [-> |[-> | ->]]; cbn [vx vy vz o]; [destruct N0 as (P1 & P2 & _)|destruct N1 as (P1 & P2 & _)|destruct N2 as (P1 & P2 & _)]; split; assumption. }
  destruct (C73_moves tan (eye s) o m Hm Sp Sd So) as [Mv _]. destruct (Mv i) as [_ Mi]. clear Mv.
  destruct N0 as (_ & _ & N0). destruct N1 as (_ & _ & N1). destruct N2 as (_ & _ & N2).
  change (comp o 0) with (fval (fmul (f_of_Z (fast * steps (hold A) (hold D))) t)) in Mi.
  change (comp o 1) with (fval (fmul (f_of_Z (fast * steps (hold E) (hold Q))) t)) in Mi.
  change (comp o 2) with (fval (fmul (f_of_Z (fast * steps (hold W) (hold S))) t)) in Mi.
  assert (far = IZR fast * (fr ms / 100)) as Ef by (unfold far, fast; rewrite Ems; destruct (hold LShift); reflexivity).
  assert (IZR (steps (hold D) (hold A)) = - IZR (steps (hold A) (hold D))) as Es by (unfold steps; rewrite <- opp_IZR; f_equal; lia).
  rewrite Ef, Es. rewrite !mult_IZR in N0, N1, N2.
  assert (1 <= 2 <= 2 ^ 20) as H2 by (simpl; lra). assert (scale 2) as S2 by (apply (scale_le 2 20 H2); lia).
  destruct (sized_comp 2 _ i ltac:(lra) Sd) as (_ & _ & Bd).
  destruct (cross_y 2 _ i ltac:(lra) (proj2 S2) Sd) as (_ & _ & Br). rewrite Rmult_1_l in Br.
  assert (Rabs (upwards i) <= 1) as Bu by (unfold upwards; destruct i as [|[|]]; rewrite ?Rabs_R0, ?Rabs_R1; lra).
  set (r := rightwards _ i) in *. set (d := comp (v_direction _) i) in *. set (u := upwards i) in *.
  set (x := fval (fmul (f_of_Z (fast * steps (hold A) (hold D))) t)) in *.
  set (y := fval (fmul (f_of_Z (fast * steps (hold E) (hold Q))) t)) in *.
  set (z := fval (fmul (f_of_Z (fast * steps (hold W) (hold S))) t)) in *.
  set (X := IZR fast * IZR (steps (hold A) (hold D)) * (fr ms / 100)) in *.
  set (Y := IZR fast * IZR (steps (hold E) (hold Q)) * (fr ms / 100)) in *.
  set (Z := IZR fast * IZR (steps (hold W) (hold S)) * (fr ms / 100)) in *.
  set (p' := comp (c_pos (v_cam (translate _ _ _))) i) in *. set (p := comp (c_pos (v_cam (eye s))) i) in *.
  match goal with |- Rabs ?e <= _ => replace e with ((p' - (p - x * r + y * u + z * d)) + (- (x - X) * r + (y - Y) * u + (z - Z) * d)) by (unfold X, Y, Z; ring) end.
  assert (forall a b c e, Rabs a <= c -> Rabs b <= e -> Rabs (a * b) <= c * e) as Mb by (intros; rewrite Rabs_mult; apply Rmult_le_compat; auto using Rabs_pos).
  pose proof (Mb _ _ _ _ N0 Br) as M0. pose proof (Mb _ _ _ _ N1 Bu) as M1. pose proof (Mb _ _ _ _ N2 Bd) as M2.
  replace (- (x - X) * r) with (- ((x - X) * r)) by ring.
  set (e0 := (x - X) * r) in *. set (e1 := (y - Y) * u) in *. set (e2 := (z - Z) * d) in *. set (e3 := p' - _) in *.
  apply Rabs_le_inv in M0. apply Rabs_le_inv in M1. apply Rabs_le_inv in M2. apply Rabs_le_inv in Mi. apply Rabs_le. simpl in *. lra.
Qed.

(** The keys of [history87] (D and left Shift held) for two milliseconds: the
    camera of C73 moves a fifth of a unit to the right (towards -x). *)
Example C87_position_nonvacuous : forall tan rendered,
  let s' := handle tan (EventsCleared f2 rendered) (control_run tan history87 (control_start demo_view)) in
  Rabs (comp (c_pos (v_cam (eye s'))) 0 - - (1 / 5)) <= 144 / 2 ^ 24.
Proof.
  intros tan rendered s'. destruct C73_nonvacuous as (_ & _ & _ & _ & Sp & Sd & _).
  assert (fval f2 = 2) as V2 by (unfold f2, fval, B2R, F2R; simpl; lra).
  assert (fval f1 = 1) as V1 by (unfold f1, fval, B2R, F2R; simpl; lra).
  assert (eye (control_run tan history87 (control_start demo_view)) = demo_view) as Ev by reflexivity.
  pose (hold := down (keys (control_run tan history87 (control_start demo_view)))).
  assert (forall k, hold k = true <-> is_held history87 k) as Hh by (intro k; apply C87_held).
  destruct (C87_nonvacuous tan demo_view) as (NE & _).
  pose proof (C87_position tan demo_view history87 f2 rendered 4 hold NE Hh) as P. cbv zeta in P. fold s' in P. rewrite Ev in P.
  specialize (P ltac:(simpl; lra) Sp Sd eq_refl ltac:(rewrite V2; lra) 0%nat).
  change (hold LShift) with true in P. change (steps (hold D) (hold A)) with 1%Z in P. change (steps (hold E) (hold Q)) with 0%Z in P.
  change (steps (hold W) (hold S)) with 0%Z in P. cbn iota in P. rewrite V2 in P.
  change (rightwards (v_direction demo_view) 0) with (- fval f1) in P. rewrite V1 in P.
  change (comp (c_pos (v_cam demo_view)) 0) with 0 in P.
  match type of P with Rabs (?a - ?b) <= ?c => replace b with (- (1 / 5)) in P by lra; replace c with (144 / 2 ^ 24) in P by lra end. exact P.
Qed.
