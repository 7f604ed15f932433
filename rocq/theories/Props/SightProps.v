(** Theorems for C102: nothing stands between a ray and the place where it is caught. *)
From Coq Require Import Reals List Arith Bool.
From Verif.Base Require Import Py Num Vec.
From Verif.Model Require Import RayBundle Boundary Geometry TraceTree OpticsCallables Engine Objects Surface.
From Verif.Proof Require Import EngineTop OrderCase SightProof SightCase.
From Verif.Spec Require Import BundleSpec EngineSpec GeometrySpec GeomIface OpticsSpec LibrarySpec LawSpec SightSpec.
Import ListNotations.
Local Open Scope R_scope.

(** C102, for any objects: [tried L j] are the surfaces that ray [j] of level [L] is tried
    with, all of them for rays of the source, and later those that its object allows. *)
Theorem c102_sight : forall objs surfs, library_assembly objs surfs ->
  forall me g b n, library_source b n -> forall reps vs ds st,
  ray_tracer surface_ops objs surfs g b reps me TreeTrue = Ok (vs, ds, st) ->
  exists tried : nat -> nat -> nat -> Prop,
  (forall i j, (0 < reps)%nat -> (i < length surfs)%nat -> (j < n)%nat -> tried 0%nat j i) /\
  (forall L lvl j, nth_error (t_tree st) (L + 1) = Some lvl -> (L + 1 < reps)%nat -> is_traced me (L + 1) lvl j ->
     exists i oi owns next r, emitted_by objs i oi owns next lvl j r /\
       forall i', (i' < length surfs)%nat -> (tried (L + 1)%nat j i' <-> next_surfaces objs oi owns next r i')) /\
  forall L prev j v d, nth_error (t_tree st) L = Some prev -> (L < reps)%nat -> is_traced me L prev j ->
    vert_at prev j = Some v -> dir_at prev j = Some d ->
    children_in_sight surfs (tried L j) v d (nth_error (t_tree st) (L + 1)) j /\
    ((forall s, In s surfs -> exists B c, made_as (s_frame s) (s_geom s) B c) ->
     childless_free surfs (tried L j) v d (nth_error (t_tree st) (L + 1)) j).
Proof. exact sight_all. Qed.
Print Assumptions c102_sight.

(** C102, for scenes of ordinary objects: every surface counts. *)
Theorem c102_plain : forall objs surfs, library_assembly objs surfs -> (forall ob, In ob objs -> exists k, ob = default_object k) ->
  forall me g b n, library_source b n -> forall reps vs ds st,
  ray_tracer surface_ops objs surfs g b reps me TreeTrue = Ok (vs, ds, st) ->
  forall L prev j v d, nth_error (t_tree st) L = Some prev -> (L < reps)%nat -> is_traced me L prev j ->
    vert_at prev j = Some v -> dir_at prev j = Some d ->
    children_in_sight surfs (fun _ => True) v d (nth_error (t_tree st) (L + 1)) j /\
    ((forall s, In s surfs -> exists B c, made_as (s_frame s) (s_geom s) B c) ->
     childless_free surfs (fun _ => True) v d (nth_error (t_tree st) (L + 1)) j).
Proof. exact sight_plain. Qed.
Print Assumptions c102_plain.

(** A surface across the way of a ray, not right at its start, catches the ray: at that
    point or before it. *)
Theorem c102_caught : forall objs surfs, library_assembly objs surfs -> (forall ob, In ob objs -> exists k, ob = default_object k) ->
  (forall s, In s surfs -> exists B c, made_as (s_frame s) (s_geom s) B c) ->
  forall me g b n, library_source b n -> forall reps vs ds st,
  ray_tracer surface_ops objs surfs g b reps me TreeTrue = Ok (vs, ds, st) ->
  forall L prev j v d, nth_error (t_tree st) L = Some prev -> (L < reps)%nat -> is_traced me L prev j ->
    vert_at prev j = Some v -> dir_at prev j = Some d ->
  forall s A u, In s surfs -> in_the_way s v d A -> 0 < u -> A (ray_at v d u) ->
  (forall u0, 0 < u0 <= tenm 6 -> ~ A (ray_at v d u0)) ->
  has_child (nth_error (t_tree st) (L + 1)) j /\
  forall lvl k, nth_error (t_tree st) (L + 1) = Some lvl -> parent_at lvl k = Some j ->
    exists t, 0 < t <= u /\ vert_at lvl k = Some (ray_at v d t).
Proof. exact caught. Qed.
Print Assumptions c102_caught.

(** A mirror at height 1 in front of one at height 0: both are in the way of a ray from
    height 2, which goes no further than the first. *)
Example c102_example : forall g, let objs := [default_object 2] in let surfs := pair_of 0 1 in let b := drops [2; 3] in
  library_assembly objs surfs /\ library_source b 2 /\
  (forall s, In s surfs -> exists B c, made_as (s_frame s) (s_geom s) B c) /\
  (exists A, in_the_way (mirror 0) (V3 0 0 2) (V3 0 0 (-1)) A /\ A (ray_at (V3 0 0 2) (V3 0 0 (-1)) 2)) /\
  (exists A, in_the_way (mirror 1) (V3 0 0 2) (V3 0 0 (-1)) A /\ A (ray_at (V3 0 0 2) (V3 0 0 (-1)) 1)) /\
  exists vs ds st, ray_tracer surface_ops objs surfs g b 3 (1 / 10) TreeTrue = Ok (vs, ds, st) /\
  exists lvl k t, nth_error (t_tree st) (0 + 1) = Some lvl /\ parent_at lvl k = Some 0%nat /\ t <= 1 /\
    vert_at lvl k = Some (ray_at (V3 0 0 2) (V3 0 0 (-1)) t).
Proof. exact front_mirror. Qed.
