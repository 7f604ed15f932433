(** Theorems for C111: a dish as a searchlight. *)
From Coq Require Import Reals List Arith Bool.
From Verif.Base Require Import Py Num Vec.
From Verif.Model Require Import RayBundle Boundary Geometry TraceTree Sources OpticsCallables Engine Objects Surface.
From Verif.Proof Require Import EngineTop BeamProof BeamCase.
From Verif.Spec Require Import BundleSpec EngineSpec GeometrySpec GeomIface OpticsSpec LibrarySpec ModelSpec LawSpec BeamSpec.
Import ListNotations.
Local Open Scope R_scope.

(** C111: light from the focus that comes to the dish leaves along the axis and meets
    nothing more; the way to the dish is as long as the point is high above the plane at
    the height [- f], so that all light has come equally far in any plane across the axis.
    Light that does not come to the dish meets nothing. *)
Theorem c111_beam : forall objs s f a A me g b n reps vs ds st,
  library_assembly objs [s] -> (forall ob, In ob objs -> exists k, ob = default_object k) -> dish_mirror f a A s ->
  library_source b n -> fair (g_rng g) -> ray_tracer surface_ops objs [s] g b reps me TreeTrue = Ok (vs, ds, st) ->
  forall j l e, vert_at b j = Some (app4 (s_frame s) (focus_at f)) -> dir_at b j = Some (turned (s_frame s) l) -> energy_at b j = Some e ->
  tells_from_axis f l -> tenm 6 < f -> (1 <= reps)%nat ->
  (forall t, 0 < t -> A (ray_at (focus_at f) l t) ->
   t = vz (ray_at (focus_at f) l t) + f /\
   (exists lvl k, nth_error (t_tree st) 1 = Some lvl /\ descends (t_tree st) 1 k j /\ (forall k', descends (t_tree st) 1 k' j -> k' = k) /\
     vert_at lvl k = Some (app4 (s_frame s) (ray_at (focus_at f) l t)) /\ dir_at lvl k = Some (turned (s_frame s) (V3 0 0 1)) /\
     energy_at lvl k = Some (e * (1 - a)) /\ ref_at lvl k = ref_at b j) /\
   ((2 <= reps)%nat -> me < e * (1 - a) -> forall k, ~ descends (t_tree st) 2 k j)) /\
  ((forall t, 0 < t -> ~ A (ray_at (focus_at f) l t)) -> forall k, ~ descends (t_tree st) 1 k j).
Proof. exact beam. Qed.
Print Assumptions c111_beam.

(** A ray from the focus meets the paraboloid once. *)
Theorem c111_once : forall f, 0 < f -> forall l t u, is_unit l -> 0 < t -> 0 < u ->
  focal_bowl f (ray_at (focus_at f) l t) -> focal_bowl f (ray_at (focus_at f) l u) -> u = t.
Proof. exact one_meeting. Qed.
Print Assumptions c111_once.

(** A dish of diameter 4 and focal length 1; one ray comes to it and one passes. *)
Example c111_example : forall g, fair (g_rng g) -> exists gm, new_dish 4 1 = Ok gm /\ let objs := [default_object 1] in let s := lit_dish gm in
  library_assembly objs [s] /\ dish_mirror 1 (1/2) (round_dish 4 1) s /\ library_source lamp 2 /\
  (forall j, (j < 2)%nat -> vert_at lamp j = Some (app4 (s_frame s) (focus_at 1))) /\
  round_dish 4 1 (ray_at (focus_at 1) (V3 (4/5) 0 (- (3/5))) (5/4)) /\
  forall reps me, (2 <= reps)%nat -> me < 1/2 ->
  exists vs ds st lvl k, ray_tracer surface_ops objs [s] g lamp reps me TreeTrue = Ok (vs, ds, st) /\
    nth_error (t_tree st) 1 = Some lvl /\ descends (t_tree st) 1 k 0 /\ vert_at lvl k = Some (V3 2 2 (13/4)) /\ dir_at lvl k = Some (V3 0 0 1) /\
    energy_at lvl k = Some (1/2) /\ (forall k', ~ descends (t_tree st) 2 k' 0) /\ (forall k', ~ descends (t_tree st) 1 k' 1).
Proof. exact lamp_lit. Qed.
