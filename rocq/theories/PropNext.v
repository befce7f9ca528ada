(** * C64: the iterators are lazy and fused *)
Require Import List ZArith Bool Arith Lia.
From Verif Require Import F32 Vec RayModel AabbModel Base NodeModel IterModel LocbModel MbvhModel SpecNext PropBox PropTraverse.
Import ListNotations.
Local Open Scope nat_scope.

(** ** Any iterator whose [next] is "turns until one yields or ends" *)
Section Turns.
  Variables (R S C : Type) (trn : R -> S -> res (turn * S)) (client : C -> nat -> R -> C * R).
  Hypothesis stuck : forall r s s', trn r s = Ok (Done, s') -> s' = s /\ forall r', trn r' s = Ok (Done, s).
  Fixpoint t_next (fuel : nat) (r : R) (s : S) : res (option nat * S) :=
    match fuel with
    | O => OutOfFuel
    | Datatypes.S k =>
        do (t, s') <- trn r s;
        match t with
        | Yield p => Ok (Some p, s')
        | Done => Ok (None, s')
        | Again => t_next k r s'
        end
    end.
  Fixpoint t_run (fuel : nat) (c : C) (r : R) (s : S) : res (list nat * list R * C) :=
    match fuel with
    | O => OutOfFuel
    | Datatypes.S k =>
        do (t, s') <- trn r s;
        match t with
        | Done => Ok ([], [r], c)
        | Again => t_run k c r s'
        | Yield p =>
            let '(c', r') := client c p r in
            do (ps, rs, c'') <- t_run k c' r' s';
            Ok (p :: ps, r :: rs, c'')
        end
    end.

  Lemma next_more : forall f r s x f', t_next f r s = Ok x -> f <= f' -> t_next f' r s = Ok x.
  Proof.
    induction f as [|f IH]; intros r s x f' E L; [discriminate E|]. destruct f' as [|f']; [lia|].
    cbn [t_next] in *. destruct (trn r s) as [[[p| |] s']| | |]; cbn [bind] in *; auto. apply IH; auto; lia.
  Qed.
  Lemma run_nil : forall f c r s rs c', t_run f c r s = Ok ([], rs, c') ->
    exists s', t_next f r s = Ok (None, s') /\ (forall r', trn r' s' = Ok (Done, s')) /\ rs = [r] /\ c' = c.
  Proof.
    induction f as [|f IH]; intros c r s rs c' E; [discriminate E|].
    cbn [t_run t_next] in *. destruct (trn r s) as [[[p| |] s']| | |] eqn:Et; cbn [bind] in *; try discriminate E.
    - destruct (client c p r) as [c1 r1]. destruct (t_run f c1 r1 s') as [[[ps rs'] c2]| | |]; discriminate E.
    - apply IH; auto.
    - injection E as <- <-. exists s'. destruct (stuck _ _ _ Et) as (-> & St). auto.
  Qed.
  Lemma run_cons : forall f c r s p ps rs c', t_run f c r s = Ok (p :: ps, rs, c') ->
    exists f' s' rs', f' <= f /\ t_next f r s = Ok (Some p, s') /\ rs = r :: rs' /\
      t_run f' (fst (client c p r)) (snd (client c p r)) s' = Ok (ps, rs', c').
  Proof.
    induction f as [|f IH]; intros c r s p ps rs c' E; [discriminate E|].
    cbn [t_run t_next] in *. destruct (trn r s) as [[[q| |] s']| | |] eqn:Et; cbn [bind] in *; try discriminate E.
    - destruct (client c q r) as [c1 r1] eqn:Ec. destruct (t_run f c1 r1 s') as [[[ps1 rs1] c2]| | |] eqn:Er; try discriminate E.
      injection E as -> -> <- ->. exists f, s', rs1. rewrite Ec. auto.
    - destruct (IH _ _ _ _ _ _ _ E) as (f' & s2 & rs' & L & A & B & D). exists f', s2, rs'. auto.
  Qed.
  Lemma run_length : forall f c r s ps rs c', t_run f c r s = Ok (ps, rs, c') -> length rs = length ps + 1.
  Proof.
    intros f c r s ps. revert f c r s. induction ps as [|p ps IH]; intros f c r s rs c' E.
    - destruct (run_nil _ _ _ _ _ _ E) as (_ & _ & _ & -> & _). reflexivity.
    - destruct (run_cons _ _ _ _ _ _ _ _ E) as (f' & s' & rs' & _ & _ & -> & E'). simpl. rewrite (IH _ _ _ _ _ _ E'). lia.
  Qed.
  Lemma stuck_nexts : forall f k c r s, 0 < f -> (forall r', trn r' s = Ok (Done, s)) ->
    nexts (t_next f) client k c r s = Ok (repeat None k, c, r).
  Proof.
    intros f k c r s Lf St. induction k as [|k IH]; auto. cbn [nexts repeat]. destruct f as [|f]; [lia|].
    cbn [t_next] in *. rewrite St in *. cbn [bind]. rewrite IH. reflexivity.
  Qed.
  Theorem run_nexts : forall ps f f0 c r s rs c' k, t_run f0 c r s = Ok (ps, rs, c') -> f0 <= f ->
    exists ck, nexts (t_next f) client k c r s = Ok (answers k ps, ck, nth (Nat.min k (length ps)) rs r) /\
      (length ps <= k -> ck = c').
  Proof.
    induction ps as [|p ps IH]; intros f f0 c r s rs c' k E L.
    - destruct (run_nil _ _ _ _ _ _ E) as (s' & En & St & -> & ->).
      assert (0 < f) as Lf by (destruct f0; [discriminate E|lia]).
      exists c. split; auto. destruct k as [|k]; [reflexivity|].
      cbn [nexts]. rewrite (next_more _ _ _ _ _ En L). cbn [bind].
      rewrite stuck_nexts by auto. reflexivity.
    - destruct (run_cons _ _ _ _ _ _ _ _ E) as (f' & s' & rs' & L' & En & -> & E').
      destruct k as [|k].
      { exists c. split; [reflexivity|]. intro; simpl in *; lia. }
      cbn [nexts]. rewrite (next_more _ _ _ _ _ En L). cbn [bind].
      destruct (client c p r) as [c1 r1] eqn:Ec. cbn [fst snd] in E'.
      destruct (IH f f' c1 r1 s' rs' c' k E' ltac:(lia)) as (ck & A & B). rewrite A. cbn [bind].
      exists ck. split; [|intro; apply B; simpl in *; lia].
      cbn [length Nat.min nth answers firstn map]. unfold answers. cbn [firstn map app length]. 
      replace (Datatypes.S k - Datatypes.S (length ps)) with (k - length ps) by lia.
      f_equal. f_equal. apply nth_indep. rewrite (run_length _ _ _ _ _ _ _ E'). lia.
  Qed.
End Turns.

Lemma bvh_stuck : forall R H inter closer found nodes indices r s s',
  bvh_turn R H inter closer found nodes indices r s = Ok (Done, s') ->
  s' = s /\ forall r', bvh_turn R H inter closer found nodes indices r' s = Ok (Done, s).
Proof.
  intros R H inter closer found nodes indices r s s' E. unfold bvh_turn in *.
  destruct (b_sp s <? 0)%Z; [injection E as <-; auto|exfalso]. revert E.
  destruct (get_unchecked (b_stack s) _); cbn [bind]; try discriminate.
  destruct (get_unchecked nodes _); cbn [bind]; try discriminate. cbv zeta.
  destruct (_ >? -1)%Z.
  - destruct (_ <? _)%Z; [|discriminate]. destruct (get_unchecked indices _); cbn [bind]; try discriminate.
    destruct (found _); discriminate.
  - destruct (_ >? -1)%Z; [|discriminate].
    destruct (get_unchecked nodes _); cbn [bind]; try discriminate. destruct (get_unchecked nodes _); cbn [bind]; try discriminate.
    destruct (sort_nodes_gen _ _ _ _ _ _) as [[stk sp]| | |]; cbn [bind]; discriminate.
Qed.
Lemma mbvh_stuck : forall R inter found ms indices r s s',
  mbvh_turn R inter found ms indices r s = Ok (Done, s') ->
  s' = s /\ forall r', mbvh_turn R inter found ms indices r' s = Ok (Done, s).
Proof.
  intros R inter found ms indices r s s' E. unfold mbvh_turn in *.
  destruct (get_unchecked ms (as_usize (q_cur s))) as [node| | |]; cbn [bind] in *; try discriminate E.
  destruct (q_i s >=? 4)%Z.
  - destruct (q_sp s <? 0)%Z; [injection E as <-; auto|exfalso]. revert E.
    destruct (get (q_stack s) _); cbn [bind]; try discriminate. destruct (get_unchecked ms _); cbn [bind]; discriminate.
  - exfalso. revert E. destruct (get_unchecked (h_ids (q_hit s)) _); cbn [bind]; try discriminate.
    destruct (mget _ _); [|discriminate]. cbv zeta. destruct (_ >? -1)%Z.
    + destruct (_ <? _)%Z; [|discriminate]. destruct (get_unchecked indices _); cbn [bind]; try discriminate. destruct (found _); discriminate.
    + destruct (_ >? -1)%Z; [|discriminate]. destruct (set_unchecked _ _ _); cbn [bind]; discriminate.
Qed.

(** ** The statements
    Whenever a full loop over an iterator ends, having yielded [ps], calling
    [next] any number [k] of times by hand returns the first [k] of them and
    then [None], however often it is called again; the client and the ray are
    then where the full loop had them after [k] primitives ([rs] lists the rays
    that were current during the loop). *)
Theorem C64_ray_indices : forall C nodes indices client fuel (c : C) r ps rs c' k,
  iter_ray_indices nodes indices client fuel c r = Ok (ps, rs, c') ->
  exists ck, nexts (bvh_next ray f32 intersect flt (fun _ => true) nodes indices fuel) client k c r
      (bvh_init (ray_alive nodes r)) = Ok (answers k ps, ck, nth (Nat.min k (length ps)) rs r) /\
    (length ps <= k -> ck = c').
Proof.
  intros C nodes indices client fuel c r ps rs c' k E.
  apply (run_nexts ray bit C _ client (bvh_stuck _ _ intersect flt (fun _ => true) nodes indices) ps fuel fuel c r _ rs c' k E (le_n _)).
Qed.
Theorem C64_ray_prims : forall C nprims nodes indices client fuel (c : C) r ps rs c' k,
  iter_ray_prims nprims nodes indices client fuel c r = Ok (ps, rs, c') ->
  exists ck, nexts (bvh_next ray f32 intersect flt (fun p => Nat.ltb p nprims) nodes indices fuel) client k c r
      (bvh_init (ray_alive nodes r && negb (Nat.eqb nprims 0))) = Ok (answers k ps, ck, nth (Nat.min k (length ps)) rs r) /\
    (length ps <= k -> ck = c').
Proof.
  intros C nprims nodes indices client fuel c r ps rs c' k E.
  apply (run_nexts ray bit C _ client (bvh_stuck _ _ intersect flt _ nodes indices) ps fuel fuel c r _ rs c' k E (le_n _)).
Qed.
Theorem C64_packet_indices : forall C nodes indices client fuel (c : C) r ps rs c' k,
  iter_packet_indices nodes indices client fuel c r = Ok (ps, rs, c') ->
  exists ck, nexts (bvh_next packet vec4 intersect4 (fun a b => many (wcmp flt a b)) (fun _ => true) nodes indices fuel) client k c r
      (bvh_init (packet_alive nodes r)) = Ok (answers k ps, ck, nth (Nat.min k (length ps)) rs r) /\
    (length ps <= k -> ck = c').
Proof.
  intros C nodes indices client fuel c r ps rs c' k E.
  apply (run_nexts packet bit C _ client (bvh_stuck _ _ intersect4 _ _ nodes indices) ps fuel fuel c r _ rs c' k E (le_n _)).
Qed.
Theorem C64_packet_prims : forall C nprims nodes indices client fuel (c : C) r ps rs c' k,
  iter_packet_prims nprims nodes indices client fuel c r = Ok (ps, rs, c') ->
  exists ck, nexts (bvh_next packet vec4 intersect4 (fun a b => many (wcmp flt a b)) (fun p => Nat.ltb p nprims) nodes indices fuel) client k c r
      (bvh_init (packet_alive nodes r && negb (Nat.eqb nprims 0))) = Ok (answers k ps, ck, nth (Nat.min k (length ps)) rs r) /\
    (length ps <= k -> ck = c').
Proof.
  intros C nprims nodes indices client fuel c r ps rs c' k E.
  apply (run_nexts packet bit C _ client (bvh_stuck _ _ intersect4 _ _ nodes indices) ps fuel fuel c r _ rs c' k E (le_n _)).
Qed.
Theorem C64_quad_ray_indices : forall C ms indices client fuel (c : C) r ps rs c' k,
  miter_ray_indices ms indices client fuel c r = Ok (ps, rs, c') ->
  exists ck, nexts (mbvh_next ray m_intersect (fun _ => true) ms indices fuel) client k c r
      (mbvh_init ray m_intersect ms r) = Ok (answers k ps, ck, nth (Nat.min k (length ps)) rs r) /\
    (length ps <= k -> ck = c').
Proof.
  intros C ms indices client fuel c r ps rs c' k E.
  apply (run_nexts ray mit C _ client (mbvh_stuck _ m_intersect (fun _ => true) ms indices) ps fuel fuel c r _ rs c' k E (le_n _)).
Qed.
Theorem C64_quad_ray_prims : forall C nprims ms indices client fuel (c : C) r ps rs c' k,
  miter_ray_prims nprims ms indices client fuel c r = Ok (ps, rs, c') ->
  exists ck, nexts (mbvh_next ray m_intersect (fun p => Nat.ltb p nprims) ms indices fuel) client k c r
      (mbvh_init ray m_intersect ms r) = Ok (answers k ps, ck, nth (Nat.min k (length ps)) rs r) /\
    (length ps <= k -> ck = c').
Proof.
  intros C nprims ms indices client fuel c r ps rs c' k E.
  apply (run_nexts ray mit C _ client (mbvh_stuck _ m_intersect _ ms indices) ps fuel fuel c r _ rs c' k E (le_n _)).
Qed.
Theorem C64_quad_packet_indices : forall C ms indices client fuel (c : C) r ps rs c' k,
  miter_packet_indices ms indices client fuel c r = Ok (ps, rs, c') ->
  exists ck, nexts (mbvh_next packet m_intersect4 (fun _ => true) ms indices fuel) client k c r
      (mbvh_init packet m_intersect4 ms r) = Ok (answers k ps, ck, nth (Nat.min k (length ps)) rs r) /\
    (length ps <= k -> ck = c').
Proof.
  intros C ms indices client fuel c r ps rs c' k E.
  apply (run_nexts packet mit C _ client (mbvh_stuck _ m_intersect4 (fun _ => true) ms indices) ps fuel fuel c r _ rs c' k E (le_n _)).
Qed.
Theorem C64_quad_packet_prims : forall C nprims ms indices client fuel (c : C) r ps rs c' k,
  miter_packet_prims nprims ms indices client fuel c r = Ok (ps, rs, c') ->
  exists ck, nexts (mbvh_next packet m_intersect4 (fun p => Nat.ltb p nprims) ms indices fuel) client k c r
      (mbvh_init packet m_intersect4 ms r) = Ok (answers k ps, ck, nth (Nat.min k (length ps)) rs r) /\
    (length ps <= k -> ck = c').
Proof.
  intros C nprims ms indices client fuel c r ps rs c' k E.
  apply (run_nexts packet mit C _ client (mbvh_stuck _ m_intersect4 _ ms indices) ps fuel fuel c r _ rs c' k E (le_n _)).
Qed.

(** The hypotheses hold for a tree with three leaves and four primitives and a
    ray that meets all boxes, and for its 4-wide version. *)
Definition ends_with (x : res (list nat * list ray * list nat)) (n : nat) : bool :=
  match x with Ok (ps, rs, c) => (length ps =? n) && (length rs =? S n) && (length c =? n) | _ => false end.
Definition keep (c : list nat) (p : nat) (r : ray) : list nat * ray := (p :: c, r).
Definition slant : ray := ray_new (pt (-1) (-1) (-1)) (V3 f1 f1 f1).
Definition ex_quads : list mnode :=
  match mbvh_construct 9 (Bvh ex_nodes ex_indices) with Ok m => m_nodes m | _ => [] end.
Example C64_nonvacuous :
  (exists ps rs c, iter_ray_indices ex_nodes ex_indices keep 40 [] slant = Ok (ps, rs, c) /\ length ps = 4) /\
  (exists ps rs c, miter_ray_indices ex_quads ex_indices keep 40 [] slant = Ok (ps, rs, c) /\ length ps = 4).
Proof.
  assert (forall x n, ends_with x n = true -> exists ps rs c, x = Ok (ps, rs, c) /\ length ps = n) as G.
  { intros [[[ps rs] c]| | |] n H; try discriminate H. simpl in H. apply andb_true_iff in H as [H _].
    apply andb_true_iff in H as [H _]. apply Nat.eqb_eq in H. eauto. }
  split; apply G; vm_compute; reflexivity.
Qed.
