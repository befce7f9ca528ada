(** * Specification vocabulary for triangle meshes

    Exact geometry over the reals, and the two loops a renderer writes:
    tracing through a BVH, and trying every triangle.  Nothing here models
    library code. *)
Require Import List ZArith Bool Reals.
From Flocq Require Import Core BinarySingleNaN.
From Verif Require Import F32 Vec RayModel AabbModel SpecGeom TriModel SpecTri.
Local Open Scope R_scope.

(** The ray's point at [t] is within [slack] of the box on every axis. *)
Definition ray_point_near (slack : R) (b : aabb) (o d : vec3) (t : R) : Prop :=
  fval (vx (bmin b)) - slack <= fval (vx o) + t * fval (vx d) <= fval (vx (bmax b)) + slack /\
  fval (vy (bmin b)) - slack <= fval (vy o) + t * fval (vy d) <= fval (vy (bmax b)) + slack /\
  fval (vz (bmin b)) - slack <= fval (vz o) + t * fval (vz d) <= fval (vz (bmax b)) + slack.

(** The box contains the (finite) vertex, and reaches beyond it by [margin] on every
    side ([margin = 0]: the box just contains it). *)
Definition vertex_inside (margin : R) (b : aabb) (v : vec3) : Prop :=
  vfinite v /\
  fval (vx (bmin b)) + margin <= fval (vx v) <= fval (vx (bmax b)) - margin /\
  fval (vy (bmin b)) + margin <= fval (vy v) <= fval (vy (bmax b)) - margin /\
  fval (vz (bmin b)) + margin <= fval (vz v) <= fval (vz (bmax b)) - margin.
Definition tri_inside (margin : R) (b : aabb) (tr : tri) : Prop :=
  vertex_inside margin b (tv0 tr) /\ vertex_inside margin b (tv1 tr) /\ vertex_inside margin b (tv2 tr).

(** Twice the triangle's area seen along the direction. *)
Definition seen (tr : tri) (d : vec3) : R := Rabs (facing (rv (tv0 tr)) (rv (tv1 tr)) (rv (tv2 tr)) (rv d)).

(** How far from the triangle the ray may be, at the distance the rounded
    triangle test reports: coordinates up to [b], direction up to [d], [A]
    twice the seen area, distances up to [far]. *)
Definition clearance (b d A far : R) : R :=
  half_ulp * (4 * b * (758 * (b * b * d) / A + 2) + d * (b * b * d * (165 * far + 1) + 472 * (b * b * b)) / A).

(** The direction is long enough to leave the scene (coordinates up to [b])
    within distance [far]. *)
Definition reaches (b far : R) (d : vec3) : Prop :=
  2 * b + 1 <= far * Rabs (fval (vx d)) \/ 2 * b + 1 <= far * Rabs (fval (vy d)) \/ 2 * b + 1 <= far * Rabs (fval (vz d)).

(** The loop body [triangles[i].intersect(ray)]. *)
Definition mesh_body (tris : list tri) (c : unit) (p : nat) (r : ray) : unit * ray :=
  match nth_error tris p with
  | Some tr => (tt, snd (tri_intersect tr r))
  | None => (tt, r)
  end.
(** The loop body [triangles[i].intersect4(packet, t_min)]. *)
Definition mesh_body4 (tris : list tri) (t_min : vec4) (c : unit) (i : nat) (p : packet) : unit * packet :=
  match nth_error tris i with
  | Some tr => (tt, snd (tri_intersect4 tr p t_min))
  | None => (tt, p)
  end.

(** What the triangle test says about [tr]. *)
Definition ray_reports (r : ray) (tr : tri) : bool := fst (tri_intersect tr r).
Definition lane_reports (p : packet) (t_min : vec4) (k : nat) (tr : tri) : bool :=
  match tri_intersect4 tr p t_min with (Some m, _) => mget m k | (None, _) => false end.

(** A scene in which rounding errors stay within what the trees' padding of
    1e-4 absorbs: [tris] within coordinates [m], with boxes that contain them
    (with some [margin] to spare); a ray from within [m] whose direction
    components are at most [d]; and every reported triangle is seen large
    enough that the error of the triangle test ([clearance]) and the error of
    the box test ([rel * m + 2] half-ulps) fit into padding and margin. *)
Definition mesh_fits (m : f32) (d margin rel far : R) (reports : tri -> bool)
    (tris : list tri) (aabbs : list aabb) (o dir : vec3) : Prop :=
  length tris = length aabbs /\ Forall (box_within m) aabbs /\ vwithin m o /\
  ffinite m /\ 1 <= fval m /\ 1 <= d <= 1048576 /\ coords_within d dir /\ 0 <= margin <= / 8 /\ 1 <= far /\
  half_ulp * (rel * fval m + 2) <= fval f1em4 /\
  forall p tr bx, nth_error tris p = Some tr -> nth_error aabbs p = Some bx ->
    tri_inside margin bx tr /\
    (reports tr = true -> seen tr dir <> 0 /\
       clearance (fval m) d (seen tr dir) far + half_ulp * (rel * fval m + 2) <= fval f1em4 + margin).

(** Lane [k] of the packet is the ray from [o] in direction [dir]. *)
Definition lane_traces (p : packet) (k : nat) (o dir : vec3) : Prop :=
  (k < 4)%nat /\
  o = V3 (wget (p_ox p) k) (wget (p_oy p) k) (wget (p_oz p) k) /\
  dir = V3 (wget (p_dx p) k) (wget (p_dy p) k) (wget (p_dz p) k) /\
  V3 (wget (p_ix p) k) (wget (p_iy p) k) (wget (p_iz p) k) = V3 (fdiv f1 (vx dir)) (fdiv f1 (vy dir)) (fdiv f1 (vz dir)).
