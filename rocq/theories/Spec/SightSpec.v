(** What a ray can see: the point sets the geometry managers were made for, and the
    stretch of a ray with nothing in it. *)
From Coq Require Import Reals List Arith Bool.
From Verif.Base Require Import Py Num Vec.
From Verif.Model Require Import RayBundle Boundary Geometry OpticsCallables Engine Surface.
From Verif.Spec Require Import BundleSpec EngineSpec GeometrySpec GeomIface LibrarySpec.
Import ListNotations.
Local Open Scope R_scope.

(** A geometry manager in the frame, with the point set in local coordinates it was made
    for, and the rays that do not run almost parallel to it. *)
Inductive made_as (frame : mat4) : geom -> shape -> (vec -> vec -> Prop) -> Prop :=
| as_plane : made_as frame Flat xy_plane (fun _ d => inclined frame d)
| as_rect w h gm : new_rect_plate w h = Ok gm -> made_as frame gm (rectangle w h) (fun _ d => inclined frame d)
| as_round r gm : new_round_plate r = Ok gm -> made_as frame gm (disk r) (fun _ d => inclined frame d)
| as_triangle v0 v1 : vz v0 = 0 -> vz v1 = 0 -> vx v0 * vy v1 - vx v1 * vy v0 <> 0 ->
    made_as frame (new_triangle v0 v1) (triangle v0 v1) (fun _ d => inclined frame d)
| as_sphere r gm : new_sphere r = Ok gm -> made_as frame gm (ball_surface r) (fun _ _ => True)
| as_uncut r gm : new_cut_sphere r None = Ok gm -> made_as frame gm (ball_surface r) (fun _ _ => True)
| as_cylinder D : made_as frame (new_cylinder D) (round_wall D) (cylinder_safe frame D)
| as_tube D h : made_as frame (new_finite_cylinder D h) (round_wall_of_height D h) (cylinder_safe frame D)
| as_bowl a b gm : new_parab a b = Ok gm -> made_as frame gm (elliptic_bowl a b) (fun _ d => bowl_safe frame a b d)
| as_dish D f gm : new_dish D f = Ok gm ->
    made_as frame gm (round_dish D f) (fun _ d => bowl_safe frame (2 * sqrt f) (2 * sqrt f) d)
| as_hex D f gm : new_hex_dish D f = Ok gm ->
    made_as frame gm (hex_dish D f) (fun _ d => bowl_safe frame (2 * sqrt f) (2 * sqrt f) d).

(** The surface consists of the points [A], in space; a ray from [v] along [d] does not run
    almost parallel to it. *)
Definition in_the_way (s : surface) (v d : vec) (A : shape) : Prop :=
  exists B clear, made_as (s_frame s) (s_geom s) B clear /\ clear v d /\ A = placed (s_frame s) B.

(** Before the length [lim], or all along if there is none, the ray meets no point of [A],
    unless it does so within a millionth of its start. *)
Definition free_way (A : shape) (v d : vec) (lim : option R) : Prop :=
  forall u, 0 < u -> (forall t, lim = Some t -> u < t) -> A (ray_at v d u) ->
  exists u0, 0 < u0 <= tenm 6 /\ u0 <= u /\ A (ray_at v d u0).

(** Ray [j] of [prev] has a ray of [next] for a child, if there is such a level. *)
Definition has_child (next : option bundle) (j : nat) : Prop :=
  exists lvl k, next = Some lvl /\ parent_at lvl k = Some j.

(** What ray [j] of a level, from [v] along [d], can have met among the surfaces it was
    [tried] with: its children start at the point [ray_at v d t] of a surface, with nothing
    in between. *)
Definition children_in_sight (surfs : list surface) (tried : nat -> Prop) (v d : vec) (next : option bundle) (j : nat) : Prop :=
  forall lvl k, next = Some lvl -> parent_at lvl k = Some j ->
  exists i s t, nth_error surfs i = Some s /\ tried i /\ 0 < t /\ vert_at lvl k = Some (ray_at v d t) /\
    (forall A, in_the_way s v d A -> A (ray_at v d t)) /\
    forall i' s' A, nth_error surfs i' = Some s' -> tried i' -> in_the_way s' v d A -> free_way A v d (Some t).

(** A ray without children has nothing in its way. *)
Definition childless_free (surfs : list surface) (tried : nat -> Prop) (v d : vec) (next : option bundle) (j : nat) : Prop :=
  ~ has_child next j ->
  forall i' s' A, nth_error surfs i' = Some s' -> tried i' -> in_the_way s' v d A -> free_way A v d None.
