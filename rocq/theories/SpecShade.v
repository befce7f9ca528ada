(** * Specification: the loop of a renderer

    examples/visualizer.rs:305-312 ([Bvh]), 314-320 ([Mbvh]):
    [let mut t = None;
     for (triangle, r) in bvh.traverse_iter(&mut ray, &primitives) {
       if triangle.intersect(r) { t = Some(triangle); } }]
    and the packet loop of 247-279, which keeps one triangle per lane.
    The loop remembers positions in the triangle slice instead of references
    into it. *)
Require Import List Bool.
From Verif Require Import F32 Vec RayModel TriModel SpecMesh.

(** visualizer.rs:307-309, the body of the loop over rays. *)
Definition shade_body (tris : list tri) (t : option nat) (p : nat) (r : ray) : option nat * ray :=
  match nth_error tris p with
  | Some tr => let '(hit, r') := tri_intersect tr r in (if hit then Some p else t, r')
  | None => (t, r)
  end.

(** visualizer.rs:257-263, the body of the loop over packets. *)
Definition shade_body4 (tris : list tri) (t_min : vec4) (ts : nat -> option nat) (p : nat) (q : packet)
    : (nat -> option nat) * packet :=
  match nth_error tris p with
  | Some tr =>
      match tri_intersect4 tr q t_min with
      | (Some m, q') => (fun k => if mget m k then Some p else ts k, q')
      | (None, q') => (ts, q')
      end
  | None => (ts, q)
  end.

(** [found] is the triangle a brute-force search could have ended with, [r']
    the ray it ends with: a triangle the ray meets, with no other triangle
    closer; or none, and then no triangle meets the ray. *)
Definition nearest_of (tris : list tri) (r : ray) (found : option nat) (r' : ray) : Prop :=
  match found with
  | None => r' = r /\ forall tr, In tr tris -> ray_reports r tr = false
  | Some p =>
      (exists tr, nth_error tris p = Some tr /\ tri_intersect tr r = (true, r')) /\
      (forall tr r'', In tr tris -> tri_intersect tr r = (true, r'') -> fle (r_t r') (r_t r'') = true)
  end.

(** The same for lane [k] of a packet; [t'] is the lane's final distance. *)
Definition lane_nearest_of (tris : list tri) (q : packet) (t_min : vec4) (k : nat) (found : option nat) (t' : f32) : Prop :=
  match found with
  | None => t' = wget (p_t q) k /\ forall tr, In tr tris -> lane_reports q t_min k tr = false
  | Some p =>
      (exists tr, nth_error tris p = Some tr /\ lane_reports q t_min k tr = true /\
         wget (p_t (snd (tri_intersect4 tr q t_min))) k = t') /\
      (forall tr, In tr tris -> lane_reports q t_min k tr = true ->
         fle t' (wget (p_t (snd (tri_intersect4 tr q t_min))) k) = true)
  end.

(** No two triangles are met at the same distance. *)
Definition no_ties (tris : list tri) (r : ray) : Prop :=
  forall i j a b ra rb, nth_error tris i = Some a -> nth_error tris j = Some b ->
    tri_intersect a r = (true, ra) -> tri_intersect b r = (true, rb) -> feq (r_t ra) (r_t rb) = true -> i = j.
