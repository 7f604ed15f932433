(** C88: a trace does not depend on where the whole scene stands, nor on the unit of energy. *)
From Coq Require Import Reals List Arith Bool Lia Lra.
From Verif.Base Require Import Py Num Vec.
From Verif.Model Require Import RayBundle Geometry OpticsCallables Engine Objects Surface Assembly Scene Models.
From Verif.Proof Require Import ModelProof ModelTop MoveTop MoveCase MoveScale MoveScene.
From Verif.Spec Require Import GeometrySpec FrameSpec SceneSpec LibrarySpec ModelSpec MoveSpec.
Import ListNotations.
Local Open Scope R_scope.

(** C88: surfaces and light moved by the same rigid motion (mirror images included),
    energies and the least energy multiplied by the same factor: the trace is the
    moved one, or the same exception is raised.  All geometries and optics; the
    surfaces' own frames need not be rigid. *)
Theorem c88_moved : forall T c objs surfs g g' b reps me ta, rigid T -> 0 < c ->
  (forall s, In s surfs -> idle s /\ affine (s_frame s) /\ may_turn T s) ->
  (forall ob, In ob objs -> indifferent T c ob) -> moved_shared T c g g' ->
  same_outcome (moved_trace T c) (ray_tracer surface_ops objs surfs g b reps me ta)
    (ray_tracer surface_ops objs (map (moved_surface T) surfs) g' (moved_bundle T c b) reps (c * me) ta).
Proof. exact moved_top. Qed.
Print Assumptions c88_moved.

(** The objects of the library are indifferent to where the rays are. *)
Theorem c88_objects : forall T c n, indifferent T c (default_object n) /\ indifferent T c (one_sided_object n).
Proof. exact standard_indifferent. Qed.
Print Assumptions c88_objects.

(** A whole assembly: one [set_transform] on it moves everything the engine sees. *)
Theorem c88_scene : forall limit sc n d ls t T c, reached limit sc -> is_assembly sc n d ls -> NoDup ls -> has_objects d ->
  well_placed (sc_w sc) n -> (S (depth d) <= limit)%nat -> transform_of (sc_w sc) n = Some t -> rigid T -> 0 < c ->
  (forall s, In s (seen_surfaces id4 d) -> affine (s_frame s) /\ may_turn T s) ->
  exists sc' objs ss, put_at limit n (mm4 T t) sc = (sc', Ok tt) /\
    engine_view limit n sc = (sc, Ok (objs, ss)) /\
    engine_view limit n sc' = (sc', Ok (objs, map (moved_surface T) ss)) /\
    forall g g' b reps me ta, moved_shared T c g g' ->
    same_outcome (moved_trace T c) (ray_tracer surface_ops objs ss g b reps me ta)
      (ray_tracer surface_ops objs (map (moved_surface T) ss) g' (moved_bundle T c b) reps (c * me) ta).
Proof. exact moved_scene. Qed.
Print Assumptions c88_scene.

(** A homogenizer, moved by any rigid motion. *)
Example c88_example : exists sc n ls, let d := mkA id4 (walls 1 2 3 (9 / 10)) [] in
  reached 5 sc /\ is_assembly sc n d ls /\ NoDup ls /\ has_objects d /\ well_placed (sc_w sc) n /\ (S (depth d) <= 5)%nat /\
  transform_of (sc_w sc) n = Some id4 /\ forall T s, In s (seen_surfaces id4 d) -> affine (s_frame s) /\ may_turn T s.
Proof. exact moved_scene_example. Qed.
(** A trace that ends with rays, in any frame that looks up from the origin. *)
Example c88_trace_example : forall f e, zaxis f = V3 0 0 1 -> loc_of f = V3 0 0 0 -> 0 < e ->
  exists st, ray_tracer surface_ops [default_object 1] [matte f] (mkG quarter nobody) (down e) 1 0 TreeFalse =
    Ok ([V3 0 0 0], [outward], st).
Proof. exact down_traced. Qed.

(** What is read off the accounts afterwards. *)
Theorem c88_hits : forall T c a,
  match get_all_hits a with
  | Ok (es, ps) => get_all_hits (moved_account T c a) = Ok (map (Rmult c) es, map (app4 T) ps)
  | Err e => get_all_hits (moved_account T c a) = Err e
  end.
Proof. exact moved_hits. Qed.
Print Assumptions c88_hits.

Theorem c88_local : forall T s pts, rigid T ->
  global_to_local (moved_surface T s) (map (app4 T) pts) = global_to_local s pts.
Proof. exact moved_local. Qed.
Print Assumptions c88_local.

(** Brighter light alone; scattering surfaces included. *)
Theorem c88_brighter : forall c objs surfs g g' b reps me ta, 0 < c ->
  (forall s, In s surfs -> idle s /\ affine (s_frame s)) ->
  (forall ob, In ob objs -> forall b k, own_rays ob (brighter c b) k = own_rays ob b k /\
     surfaces_for_next ob (brighter c b) k = surfaces_for_next ob b k) ->
  g_rng g' = g_rng g -> (forall id, g_acc g' id = brighter_account c (g_acc g id)) ->
  same_outcome (brighter_trace c) (ray_tracer surface_ops objs surfs g b reps me ta)
    (ray_tracer surface_ops objs surfs g' (brighter c b) reps (c * me) ta).
Proof. exact brighter_top. Qed.
Print Assumptions c88_brighter.

(** A scattering surface that is turned with the scene draws its directions in the
    same world directions as before. *)
Theorem c88_random_refuted : exists T objs surfs g b, rigid T /\
  (forall s, In s surfs -> idle s /\ affine (s_frame s)) /\ (forall ob, In ob objs -> indifferent T 1 ob) /\
  moved_shared T 1 g g /\
  exists vs ds st st', ray_tracer surface_ops objs surfs g b 1 0 TreeFalse = Ok (vs, ds, st) /\
    ray_tracer surface_ops objs (map (moved_surface T) surfs) g (moved_bundle T 1 b) 1 0 TreeFalse = Ok (map (app4 T) vs, ds, st') /\
    map (turned T) ds <> ds.
Proof. exact random_stays. Qed.
Print Assumptions c88_random_refuted.

(** The unit of length does matter. *)
Theorem c88_enlarged_refuted : exists k objs surfs g b vs ds st vs' ds' st', 0 < k /\
  (forall s, In s surfs -> idle s /\ rigid (s_frame s) /\ s_geom s = Flat /\ not_random (s_opt s)) /\
  ray_tracer surface_ops objs surfs g b 1 0 TreeFalse = Ok (vs, ds, st) /\
  ray_tracer surface_ops objs (map (enlarged_flat k) surfs) g (enlarged_bundle k b) 1 0 TreeFalse = Ok (vs', ds', st') /\
  vs' <> map (vscale k) vs.
Proof. exact enlarged_differs. Qed.
Print Assumptions c88_enlarged_refuted.
