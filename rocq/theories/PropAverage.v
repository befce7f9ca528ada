(** * Property C83, numerically: the averager's error *)
Require Import List ZArith Bool Lia Arith.
Require Import Reals Lra.
From Flocq Require Import Core BinarySingleNaN.
From Verif Require Import F32 F32Facts Vec Base SpecGeom TriError CameraProofs PropBox VisualModel PropVisual.
Import ListNotations.
Local Open Scope R_scope.

(** The exact sum. *)
Definition rsum (l : list f32) : R := fold_right Rplus 0 (map fval l).

Lemma sum_approx : forall S l acc X i, scale S -> (i + length l <= 1000)%nat ->
  Forall (fun s => ffinite s /\ Rabs (fval s) <= S) l ->
  approx S acc X (INR i * (INR i + 1)) (INR i) ->
  approx S (fold_left fadd l acc) (X + rsum l) (INR (i + length l) * (INR (i + length l) + 1)) (INR (i + length l)).
Proof.
  intros S l. induction l as [|s l IH]; intros acc X i HS L F A.
  - cbn [length fold_left rsum map fold_right] in *. unfold rsum. cbn [map fold_right]. rewrite Nat.add_0_r, Rplus_0_r. exact A.
  - apply Forall_inv in F as Fs. apply Forall_inv_tail in F. destruct Fs as [Fs Bs]. cbn [fold_left length] in *.
    assert (rsum (s :: l) = fval s + rsum l) as -> by reflexivity. rewrite <- Rplus_assoc.
    replace (i + Datatypes.S (length l))%nat with (i + 1 + length l)%nat by lia. apply IH; auto; [lia|].
    assert (fr s = fval s) as E by (rewrite fr_fin by exact Fs; reflexivity).
    assert (approx S s (fval s) 0 1) as As by (rewrite <- E; apply approx_exact; [destruct HS; lra|exact Fs|rewrite E; exact Bs]).
    assert (0 <= INR i <= 1000) as Bi by (split; [apply pos_INR|replace 1000 with (INR 1000) by (rewrite INR_IZR_INZ; reflexivity); apply le_INR; lia]).
    rewrite plus_INR. change (INR 1) with 1. 
    assert (INR i * (INR i + 1) <= 1001000) as Q by nra.
    apply (approx_add S acc s X (fval s) _ _ _ _ _ _ HS A As); nra.
Qed.

Lemma recip_approx : forall k, (1 <= k <= 1000)%nat ->
  approx 1 (fdiv f1 (f_of_Z (Z.of_nat k))) (/ INR k) (3 * / INR k) (/ INR k).
Proof.
  intros k Lk. destruct (fr_of_u32 (Z.of_nat k) ltac:(lia)) as [Ff Ef]. rewrite <- INR_IZR_INZ in Ef.
  set (f := f_of_Z (Z.of_nat k)) in *. pose proof ue_bounds as U.
  assert (1 <= INR k <= 1000) as Bk.
  { split; [apply (le_INR 1); lia|]. replace 1000 with (INR 1000) by (rewrite INR_IZR_INZ; reflexivity). apply le_INR; lia. }
  apply Rabs_le_inv in Ef.
  assert (fr f <> 0) as NZ by nra.
  destruct (fr_fdiv f1 f eq_refl Ff NZ) as [N E]. assert (fr f1 = 1) as E1 by (simpl; unfold F2R; simpl; lra). rewrite E1 in E.
  assert (0 < / INR k) as Pk by (apply Rinv_0_lt_compat; lra).
  assert (/ 1000 <= / INR k) as Lk2 by (apply Rinv_le; lra).
  assert (0.999 * INR k <= fr f) as Lf by nra.
  assert (1 / fr f <= 1.01 * / INR k) as Uf.
  { apply Rmult_le_reg_r with (fr f); [nra|]. unfold Rdiv. rewrite Rmult_1_l, Rinv_l by auto.
    apply Rle_trans with (1.01 * / INR k * (0.999 * INR k)); [|apply Rmult_le_compat_l; nra].
    replace (1.01 * / INR k * (0.999 * INR k)) with (1.01 * 0.999 * (/ INR k * INR k)) by ring. rewrite Rinv_l by lra. lra. }
  assert (0 < 1 / fr f) as Pf by (unfold Rdiv; rewrite Rmult_1_l; apply Rinv_0_lt_compat; nra).
  assert (Rabs (1 / fr f - / INR k) <= 1.01 * / INR k * ue * 1) as D.
  { replace (1 / fr f - / INR k) with ((1 / fr f) * / INR k * (INR k - fr f)) by (field; split; lra).
    rewrite !Rabs_mult, (Rabs_pos_eq (1 / fr f)), (Rabs_pos_eq (/ INR k)) by lra.
    assert (Rabs (INR k - fr f) <= ue * INR k) as Ak by (apply Rabs_le; lra).
    apply Rle_trans with ((1.01 * / INR k) * / INR k * (ue * INR k)).
    - apply Rmult_le_compat; [nra|apply Rabs_pos| |exact Ak]. apply Rmult_le_compat_r; lra.
    - apply Req_le. field. lra. }
  assert (scale 1) as S1 by (split; [lra|]; change 1 with (bpow radix2 0); apply bpow_le; lia).
  assert (approx 1 (fdiv f1 f) (/ INR k) (1.01 * / INR k + 1.01 * / INR k + / 1000000) (/ INR k)) as (A & B & C).
  { eapply approx_rnd; [exact S1|exact N|exact E|apply rnd_err| | |exact D|].
    - rewrite Rabs_pos_eq by lra. lra.
    - assert (/ INR k <= / 1) by (apply Rinv_le; lra). lra.
    - rewrite Rabs_pos_eq by lra. lra. }
  split; [exact A|]. split; [|exact C]. eapply Rle_trans; [exact B|]. apply Rmult_le_compat_r; [lra|]. apply Rmult_le_compat_r; lra.
Qed.

(** The average is the exact mean of the samples kept, up to
    (number + 7) * 2^-24 times the largest magnitude: for up to 1000 kept
    samples (the demo keeps 100) that are finite and at most [m] in size. *)
Theorem C83_mean : forall c samples m, (1 <= c <= 1000)%nat -> samples <> [] -> 1 <= m <= 2 ^ 60 ->
  Forall (fun s => ffinite s /\ Rabs (fval s) <= m) samples ->
  let kept := recent c samples in
  exists a v, add_samples (avg_new c) samples = Ok a /\ get_average a = Ok v /\ ffinite v /\
    Rabs (fval v - rsum kept / INR (length kept)) <= (INR (length kept) + 7) * m / 2 ^ 24.
Proof.
  intros c samples m Lc Ne Bm F kept. destruct (C83_window c samples ltac:(lia)) as (a & E & _ & G). fold kept in G.
  exists a. eexists. split; [exact E|]. split; [exact G|].
  assert (1 <= length kept <= 1000)%nat as Lk.
  { unfold kept, recent. rewrite skipn_length. destruct samples as [|s l]; [congruence|]. cbn [length]. lia. }
  assert (Forall (fun s => ffinite s /\ Rabs (fval s) <= m) kept) as Fk.
  { unfold kept, recent. apply Forall_forall. intros s Is. rewrite Forall_forall in F. apply F.
    rewrite <- (firstn_skipn (length samples - c) samples). apply in_or_app. right. exact Is. }
  set (k := length kept) in *. clearbody kept.
  assert (bpow radix2 60 = 2 ^ 60) as P60 by (simpl; lra).
  assert (scale m) as Sm by (split; [lra|rewrite P60; lra]).
  assert (scale 1) as S1 by (split; [lra|]; change 1 with (bpow radix2 0); apply bpow_le; lia).
  assert (approx m f0 0 (INR 0 * (INR 0 + 1)) (INR 0)) as A0.
  { split; [reflexivity|]. change (fr f0) with 0. simpl. rewrite Rminus_0_r, Rabs_R0. split; lra. }
  pose proof (sum_approx m kept f0 0 0 Sm ltac:(fold k; lia) Fk A0) as As. cbn [Nat.add] in As. fold k in As. rewrite Rplus_0_l in As.
  pose proof (recip_approx k Lk) as Ar.
  assert (1 <= INR k <= 1000) as Bk.
  { split; [apply (le_INR 1); lia|]. replace 1000 with (INR 1000) by (rewrite INR_IZR_INZ; reflexivity). apply le_INR; lia. }
  assert (INR k * / INR k = 1) as Ik by (apply Rinv_r; lra). assert (0 < / INR k) as Pk by (apply Rinv_0_lt_compat; lra).
  assert (approx (m * 1) (fmul (fold_left fadd kept f0) (fdiv f1 (f_of_Z (Z.of_nat k)))) (rsum kept * / INR k) (INR k + 7) 1) as (A & B & _).
  { set (i := / INR k) in *.
    assert (i <= 1) as Li by nra.
    assert ((INR k + INR k * (INR k + 1) / 1000000) * (i + 3 * i / 1000000) = (1 + (INR k + 1) / 1000000) * (1 + 3 / 1000000)) as Pr.
    { replace ((INR k + INR k * (INR k + 1) / 1000000) * (i + 3 * i / 1000000)) with ((INR k * i) * (1 + (INR k + 1) / 1000000) * (1 + 3 / 1000000)) by field.
      rewrite Ik. ring. }
    apply (approx_mul m 1 _ _ _ _ _ _ _ _ _ _ Sm S1 ltac:(rewrite Rmult_1_r; exact Sm) As Ar).
    - rewrite Pr. lra.
    - rewrite Pr. replace (INR k * (INR k + 1) * (i + 3 * i / 1000000) + INR k * (3 * i)) with ((INR k * i) * ((INR k + 1) * (1 + 3 / 1000000) + 3)) by field.
      rewrite Ik. lra.
    - rewrite Ik. lra. }
  split; [exact A|]. rewrite Rmult_1_r in B. rewrite fr_fin in B by exact A. unfold Rdiv.
  assert (ue = / 2 ^ 24) as Eu by (unfold ue; simpl; lra). rewrite Eu in B. change (@B2R 24 128) with fval in B.
  eapply Rle_trans; [exact B|]. apply Req_le. ring.
Qed.

(** Five samples into three places. *)
Example C83_mean_applies : Forall (fun s => ffinite s /\ Rabs (fval s) <= 8) [fz 1; fz 2; fz 3; fz 4; fz 5] /\
  rsum (recent 3 [fz 1; fz 2; fz 3; fz 4; fz 5]) / INR 3 = 4.
Proof.
  assert (fval (fz 1) = 1 /\ fval (fz 2) = 2 /\ fval (fz 3) = 3 /\ fval (fz 4) = 4 /\ fval (fz 5) = 5) as (E1 & E2 & E3 & E4 & E5).
  { repeat split; vm_compute; lra. }
  split.
  - repeat (apply Forall_cons; [split; [reflexivity|]; rewrite ?E1, ?E2, ?E3, ?E4, ?E5; rewrite Rabs_pos_eq; lra|]). apply Forall_nil.
  - unfold rsum, recent. cbn [length Nat.sub skipn map fold_right]. rewrite E3, E4, E5. simpl. lra.
Qed.
