(** * Property C87: the demo's controls *)
Require Import List ZArith Bool Lia Arith.
From Flocq Require Import Core BinarySingleNaN.
From Verif Require Import F32 F32Facts Vec CameraModel ControlModel.
Import ListNotations.

(** A key is held after a history if its last change was a press. *)
Definition is_held (history : list event) (k : key) : Prop :=
  exists before after, history = before ++ KeyChange (Some k) true :: after /\ forall b, ~ In (KeyChange (Some k) b) after.

Lemma run_app : forall tan h1 h2 s, control_run tan (h1 ++ h2) s = control_run tan h2 (control_run tan h1 s).
Proof. intros tan h1. induction h1 as [|e h1 IH]; intros h2 s; [reflexivity|]. cbn [app control_run]. apply IH. Qed.

Lemma down_step : forall tan ev s k, down (keys (handle tan ev s)) k =
  match ev with KeyChange (Some k') b => if key_eq_dec k' k then b else down (keys s) k | _ => down (keys s) k end.
Proof.
  intros tan [[k'|] b| | |ms r|] s k; cbn [handle]; try reflexivity.
  - unfold down, insert. cbn [keys]. destruct (key_eq_dec k' k); reflexivity.
  - destruct (down (keys s) Escape); [reflexivity|]. destruct (offsets (keys s)). reflexivity.
Qed.

Theorem C87_held : forall tan v history k,
  down (keys (control_run tan history (control_start v))) k = true <-> is_held history k.
Proof.
  intros tan v history k. induction history as [|ev h IH] using rev_ind.
  - split; [discriminate|]. intros (b & a & E & _). destruct b; discriminate.
  - rewrite run_app. cbn [control_run]. rewrite down_step.
    assert ((forall b, ev <> KeyChange (Some k) b) -> (is_held (h ++ [ev]) k <-> is_held h k)) as Skip.
    { intro Ne. split.
      - intros (b & a & E & N). destruct a as [|x a _] using rev_ind.
        + apply app_inj_tail in E as [_ E]. destruct (Ne true E).
        + rewrite app_comm_cons, app_assoc in E. apply app_inj_tail in E as [E _]. exists b, a. split; [exact E|]. intros b' I. apply (N b'). apply in_or_app. left. exact I.
      - intros (b & a & E & N). exists b, (a ++ [ev]). split; [rewrite E, <- app_assoc; reflexivity|].
        intros b' I. apply in_app_or in I as [I|[I|[]]]; [apply (N b' I)|apply (Ne b' I)]. }
    destruct ev as [[k'|] b| | |ms r|]; try (rewrite IH, Skip; [reflexivity|intros b' H; discriminate]).
    destruct (key_eq_dec k' k) as [-> |Ne]; [|rewrite IH, Skip; [reflexivity|intros b' H; congruence]].
    split.
    + intros ->. exists h, []. split; [reflexivity|]. intros b' [].
    + intros (b' & a & E & N). destruct a as [|x a _] using rev_ind.
      * apply app_inj_tail in E as [_ E]. congruence.
      * rewrite app_comm_cons, app_assoc in E. apply app_inj_tail in E as [_ E]. exfalso. apply (N b). rewrite E. apply in_or_app. right. left. reflexivity.
Qed.

(** The steps a pair of keys asks for: one forward, one back, none if both or
    neither is held. *)
Definition steps (forward back : bool) : Z := Z.b2z forward - Z.b2z back.

Lemma f_same : forall a b : f32, B2SF a = B2SF b -> a = b.
Proof. intros a b. apply B2SF_inj. Qed.

(** The directions the camera is moved and turned in are exact. *)
Theorem C87_offsets : forall ks,
  let d := down ks in let fast := if d LShift then 10%Z else 1%Z in let turn := if d LShift then 2%Z else 1%Z in
  offsets ks = (V3 (f_of_Z (fast * steps (d A) (d D))) (f_of_Z (fast * steps (d E) (d Q))) (f_of_Z (fast * steps (d W) (d S))),
                V3 (f_of_Z (turn * steps (d Left) (d Right))) (f_of_Z (turn * steps (d Up) (d Down))) f0).
Proof.
  intros ks. cbv zeta. unfold offsets. cbv zeta.
  assert (forall a b : vec3, B2SF (vx a) = B2SF (vx b) -> B2SF (vy a) = B2SF (vy b) -> B2SF (vz a) = B2SF (vz b) -> a = b) as V.
  { intros [] []; cbn; intros X Y Z. apply f_same in X. apply f_same in Y. apply f_same in Z. congruence. }
  assert (forall (a b c d : vec3), a = c -> b = d -> (a, b) = (c, d)) as P by (intros; subst; reflexivity).
  generalize (down ks W), (down ks S), (down ks A), (down ks D), (down ks E), (down ks Q), (down ks Up), (down ks Down), (down ks Left), (down ks Right).
  intros w s a d e q u n l r. destruct (down ks LShift); apply P.
  - clear u n l r. destruct w, s, a, d, e, q; apply V; vm_compute; reflexivity.
  - clear w s a d e q. destruct u, n, l, r; apply V; vm_compute; reflexivity.
  - clear u n l r. destruct w, s, a, d, e, q; apply V; vm_compute; reflexivity.
  - clear w s a d e q. destruct u, n, l, r; apply V; vm_compute; reflexivity.
Qed.

(** What one turn of the loop does. *)
Definition digit (m : method) : key :=
  match m with UseBvh => Key1 | UseMbvh => Key2 | UseAltBvh => Key3 | UseBvhPacket => Key4 | UseMbvhPacket => Key5 end.
Definition rank (m : method) : nat := match m with UseBvh => 1 | UseMbvh => 2 | UseAltBvh => 3 | UseBvhPacket => 4 | UseMbvhPacket => 5 end.

Theorem C87_method : forall tan v history millis rendered, let s := control_run tan history (control_start v) in
  let s' := handle tan (EventsCleared millis rendered) s in ~ is_held history Escape ->
  (forall m, is_held history (digit m) -> rank m <= rank (use s') /\ is_held history (digit (use s'))) /\
  ((forall m, ~ is_held history (digit m)) -> use s' = use s).
Proof.
  intros tan v history millis rendered s s' NE.
  assert (forall k, down (keys s) k = true <-> is_held history k) as H by (intro; apply C87_held).
  assert (use s' = choose (keys s) (use s)) as ->.
  { unfold s', handle. destruct (down (keys s) Escape) eqn:Es; [elim NE; apply H; exact Es|]. destruct (offsets (keys s)). reflexivity. }
  unfold choose. split.
  - intros m Hm. apply H in Hm. rewrite <- H.
    destruct (down (keys s) Key5) eqn:E5, (down (keys s) Key4) eqn:E4, (down (keys s) Key3) eqn:E3, (down (keys s) Key2) eqn:E2, (down (keys s) Key1) eqn:E1;
      destruct m; cbn [digit rank] in *; try congruence; split; try assumption; lia.
  - intro N. assert (forall m, down (keys s) (digit m) = false) as F by (intro m; destruct (down (keys s) (digit m)) eqn:Em; [destruct (N m); apply H; exact Em|reflexivity]).
    pose proof (F UseBvh) as F1. pose proof (F UseMbvh) as F2. pose proof (F UseAltBvh) as F3. pose proof (F UseBvhPacket) as F4. pose proof (F UseMbvhPacket) as F5.
    cbn [digit] in *. rewrite F1, F2, F3, F4, F5. reflexivity.
Qed.

(** Holding Escape leaves the loop without moving; otherwise the camera is
    moved by (left, up, ahead) and then turned by (left, up), at a rate per 100
    ms given by the keys held; no other event moves it or leaves the loop,
    except closing the window and a frame that cannot be shown. *)
Theorem C87_tick : forall tan v history millis rendered, let s := control_run tan history (control_start v) in
  let s' := handle tan (EventsCleared millis rendered) s in
  (is_held history Escape -> leaving s' = true /\ eye s' = eye s /\ use s' = use s) /\
  (~ is_held history Escape -> leaving s' = negb rendered /\
   exists hold : key -> bool, (forall k, hold k = true <-> is_held history k) /\
     let fast := if hold LShift then 10%Z else 1%Z in let turn := if hold LShift then 2%Z else 1%Z in
     let t := fdiv millis (f_of_Z 100) in
     let move k1 k2 := fmul (f_of_Z (fast * steps (hold k1) (hold k2))) t in
     let aim k1 k2 := fdiv (fmul (f_of_Z (turn * steps (hold k1) (hold k2))) t) (f_of_Z 10) in
     eye s' = translate_target tan (translate tan (eye s) (V3 (move A D) (move E Q) (move W S)))
                (V3 (aim Left Right) (aim Up Down) (fdiv (fmul f0 t) (f_of_Z 10)))).
Proof.
  intros tan v history millis rendered s s'.
  assert (forall k, down (keys s) k = true <-> is_held history k) as H by (intro; apply C87_held).
  unfold s', handle. split.
  - intro He. apply H in He. rewrite He. auto.
  - intro Ne. destruct (down (keys s) Escape) eqn:Es; [elim Ne; apply H; exact Es|].
    rewrite (C87_offsets (keys s)). split; [reflexivity|]. exists (down (keys s)). split; [exact H|]. cbv zeta. reflexivity.
Qed.
Theorem C87_still : forall tan ev s, (forall millis rendered, ev <> EventsCleared millis rendered) ->
  eye (handle tan ev s) = eye s /\ use (handle tan ev s) = use s /\
  (leaving (handle tan ev s) = true <-> ev = CloseRequested \/ ev = Destroyed).
Proof.
  intros tan [[k|] b| | |ms r|] s N; try (elim (N ms r); reflexivity); cbn; repeat split; auto; try discriminate; intros [X|X]; discriminate X.
Qed.

(** W, then 4 and D, W released while D and Shift stay held: the camera moves
    ten steps to the right and none ahead, drawing by packets. *)
Definition history87 : list event :=
  [KeyChange (Some W) true; Ignored; KeyChange (Some Key4) true; KeyChange (Some D) true; KeyChange (Some W) false; KeyChange (Some LShift) true; KeyChange None true].
Example C87_nonvacuous : forall tan v, ~ is_held history87 Escape /\ is_held history87 D /\ ~ is_held history87 W /\ is_held history87 Key4 /\
  offsets (keys (control_run tan history87 (control_start v))) = (V3 (f_of_Z (-10)) (f_of_Z 0) (f_of_Z 0), V3 (f_of_Z 0) (f_of_Z 0) f0) /\
  use (handle tan (EventsCleared (f_of_Z 100) true) (control_run tan history87 (control_start v))) = UseBvhPacket.
Proof.
  intros tan v. rewrite <- !(C87_held tan v).
  split; [discriminate|]. split; [reflexivity|]. split; [discriminate|]. split; [reflexivity|]. split; [rewrite C87_offsets; reflexivity|].
  cbn [handle]. change (down (keys (control_run tan history87 (control_start v))) Escape) with false. cbn iota.
  destruct (offsets _). reflexivity.
Qed.
