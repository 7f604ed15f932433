(** Theorem for C100: what a homogenizer does to any light. *)
From Coq Require Import Reals String List Arith Bool Lra Lia.
From Verif.Base Require Import Py Num Vec.
From Verif.Model Require Import RayBundle Spatial Geometry TraceTree OpticsCallables Engine Objects Surface Assembly Scene Models Sources.
From Verif.Proof Require Import KaleidoProof KaleidoMeets.
From Verif.Spec Require Import BundleSpec EngineSpec GeometrySpec GeomIface OpticsSpec LibrarySpec FrameSpec SceneSpec ModelSpec LawSpec KaleidoSpec.
Import ListNotations.
Local Open Scope R_scope.

(** C100: every ray of the trace has been reflected [a] times by the walls across X and [c]
    times by those across Y; light between the walls loses energy only by reflection, and
    its slope limits the number of reflections.  It is reflected wherever it comes to a
    wall. *)
Theorem c100_homogenizer : forall limit X Y H eff sc, reached limit sc -> 0 < X -> 0 < Y -> 0 < H -> 0 <= eff <= 1 -> (2 <= limit)%nat ->
  exists sc' n, rect_homogenizer limit X Y H eff sc = (sc', Ok n) /\
  forall T, rigid T -> exists sc'' ss, put_at limit n T sc' = (sc'', Ok tt) /\
    engine_view limit n sc'' = (sc'', Ok (repeat (one_sided_object 1) 4, ss)) /\
  forall me g b m reps, library_source b m -> fair (g_rng g) ->
  exists vs ds st, ray_tracer surface_ops (repeat (one_sided_object 1) 4) ss g b reps me TreeTrue = Ok (vs, ds, st) /\
  (forall L lvl k v, nth_error (t_tree st) L = Some lvl -> vert_at lvl k = Some v ->
   exists j p0 u0 e0 a c p e, descends (t_tree st) L k j /\
    vert_at b j = Some (app4 T p0) /\ dir_at b j = Some (turned T u0) /\ energy_at b j = Some e0 /\
    v = app4 T p /\ dir_at lvl k = Some (turned T (bounced a c u0)) /\ energy_at lvl k = Some e /\ ref_at lvl k = ref_at b j /\
    (a + c = L)%nat /\ arrived X Y H eff p0 u0 e0 a c p e /\
    (within X (vx p0) -> within Y (vy p0) -> 0 <= vz p0 <= H ->
     (INR a - 1) * X * Rabs (vz u0) <= H * Rabs (vx u0) /\ (INR c - 1) * Y * Rabs (vz u0) <= H * Rabs (vy u0))) /\
  forall L prev j p u t, nth_error (t_tree st) L = Some prev -> (L < reps)%nat -> is_traced me L prev j ->
    vert_at prev j = Some (app4 T p) -> dir_at prev j = Some (turned T u) -> within X (vx p) -> within Y (vy p) ->
    tenm 6 < t -> reaches X Y H u (ray_at p u t) ->
    exists lvl k, nth_error (t_tree st) (L + 1) = Some lvl /\ parent_at lvl k = Some j /\ vert_at lvl k = Some (app4 T (ray_at p u t)).
Proof. exact kaleido_top. Qed.
Print Assumptions c100_homogenizer.

(** A ray that starts on the axis of a homogenizer 2 wide and 4 long and meets the wall. *)
Example c100_example : exists sc, reached 2 sc /\ rigid (translate 5 0 0) /\
  vert_at across 0 = Some (app4 (translate 5 0 0) (V3 0 0 (1 / 2))) /\ dir_at across 0 = Some (turned (translate 5 0 0) (V3 (3 / 5) 0 (4 / 5))) /\
  within 2 0 /\ within 1 0 /\ library_source across 1 /\ (forall me, is_traced me 0 across 0) /\
  tenm 6 < 5 / 3 /\ reaches 2 1 4 (V3 (3 / 5) 0 (4 / 5)) (ray_at (V3 0 0 (1 / 2)) (V3 (3 / 5) 0 (4 / 5)) (5 / 3)).
Proof. exact across_meets. Qed.
