(** * Calling [next] a given number of times *)
Require Import List.
From Verif Require Import Base.
Import ListNotations.

(** [next r s]: one call of [next] with the current ray [r] on the iterator
    state [s].  A client with state [c] calls it [k] times; after each yielded
    primitive it may change the ray.  What the calls returned, and the client's
    state and ray after them. *)
Fixpoint nexts {R S C : Type} (next : R -> S -> res (option nat * S)) (client : C -> nat -> R -> C * R)
    (k : nat) (c : C) (r : R) (s : S) : res (list (option nat) * C * R) :=
  match k with
  | O => Ok ([], c, r)
  | Datatypes.S k =>
      do (o, s') <- next r s;
      let '(c', r') := match o with Some p => client c p r | None => (c, r) end in
      do (os, c'', r'') <- nexts next client k c' r' s';
      Ok (o :: os, c'', r'')
  end.

(** The answers of [k] calls of an iterator that yields [ps] and is exhausted
    then: the first [k] of them, and [None] for every further call. *)
Definition answers (k : nat) (ps : list nat) : list (option nat) :=
  map Some (firstn k ps) ++ repeat None (k - length ps).
