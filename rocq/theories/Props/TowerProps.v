(** Properties of the tower plant of examples/tower_gui.py. *)
From Coq Require Import Reals List Arith Bool Lia Lra.
From Verif.Base Require Import Py Num Vec.
From Verif.Model Require Import RayBundle Spatial Geometry TraceTree Engine Objects Sources OpticsCallables Surface Assembly Scene Models Tower.
From Verif.Proof Require Import SceneProof ModelProof ModelTop HelioProof TowerProof TowerScene TowerField TowerFlux.
From Verif.Spec Require Import BundleSpec EngineSpec SourceSpec LibrarySpec GeometrySpec OpticsSpec FrameSpec SceneSpec ModelSpec TowerSpec.
Import ListNotations.
Local Open Scope R_scope.

(** C85: the constructor makes a plant, without touching what was there. *)
Theorem c85_built : forall limit ps w h a aim X Y sc, reached limit sc -> 0 < w -> 0 < h -> 0 < X -> 0 < Y -> (3 <= limit)%nat ->
  exists sc' t id, tower_plant limit ps w h a aim X Y sc = (sc', Ok t) /\ reached limit sc' /\ undisturbed sc sc' /\
    is_tower sc' t ps w h a aim X Y id /\ ~ exists_in sc (tw_plant t) /\ (sc_acc sc <= id < sc_acc sc')%nat.
Proof. exact tower_built. Qed.
Print Assumptions c85_built.

(** Aiming it, in any state, and tracing one ray for each heliostat: every ray comes to
    the middle of its heliostat, then to the middle of the receiver, and is absorbed
    there.  The plant stays a plant, so that this holds again for the next position of
    the sun. *)
Theorem c85_aimed : forall limit sc t ps w h a aim X Y id az el reps me g,
  reached limit sc -> is_tower sc t ps w h a aim X Y id -> ps <> [] -> 0 < w -> 0 < h -> 0 < X -> 0 < Y -> 0 <= a -> (3 <= limit)%nat ->
  (2 <= reps)%nat -> 0 <= me < 1 - a ->
  free_ways ps (V3 0 0 aim) (solar_vector (az * degree) (el * degree)) w h X Y ->
  exists sc' st, aim_field limit t az el reps me g sc = (sc', Ok ([], [], st)) /\ reached limit sc' /\
    is_tower sc' t ps w h a aim X Y id /\ relays (t_tree st) (gen_rays ps az el) ps (V3 0 0 aim) (1 - a) /\
    a_absorbed (g_acc (t_g st) id) = a_absorbed (g_acc g id) ++ [map (fun _ => 1 - a) ps] /\
    a_hits (g_acc (t_g st) id) = a_hits (g_acc g id) ++ [map (fun _ => V3 0 0 aim) ps].
Proof. exact tower_aimed. Qed.
Print Assumptions c85_aimed.

(** The field of the example leaves all ways free, wherever the sun is put, and so does
    a sparser one. *)
Theorem c85_free : forall rr ar ps az el, 1 <= rr -> PI / 8 <= ar -> tower_positions rr ar = Ok ps -> 0 <= az <= 180 -> 0 <= el <= 90 ->
  ps <> [] /\ free_ways ps (V3 0 0 10) (solar_vector (az * degree) (el * degree)) (1 / 2) (1 / 2) 1 1.
Proof. exact plant_free. Qed.
Print Assumptions c85_free.

(** The example as a whole: building, *)
Theorem c85_example_built : forall limit rr ar sc, reached limit sc -> (3 <= limit)%nat -> 1 <= rr -> PI / 8 <= ar ->
  exists ps sc' t id, tower_positions rr ar = Ok ps /\ ps <> [] /\ gen_plant limit rr ar sc = (sc', Ok t) /\ reached limit sc' /\ undisturbed sc sc' /\
    ~ exists_in sc (tw_plant t) /\ (sc_acc sc <= id < sc_acc sc')%nat /\ is_tower sc' t ps (1 / 2) (1 / 2) 0 10 1 1 id.
Proof. exact example_built. Qed.
Print Assumptions c85_example_built.

(** and moving the sun. *)
Theorem c85_example_aimed : forall limit rr ar ps sc t id az el reps me g, reached limit sc -> (3 <= limit)%nat -> 1 <= rr -> PI / 8 <= ar ->
  tower_positions rr ar = Ok ps -> is_tower sc t ps (1 / 2) (1 / 2) 0 10 1 1 id -> 0 <= az <= 180 -> 0 <= el <= 90 ->
  (2 <= reps)%nat -> 0 <= me < 1 ->
  exists sc' st, aim_field limit t az el reps me g sc = (sc', Ok ([], [], st)) /\ reached limit sc' /\
    is_tower sc' t ps (1 / 2) (1 / 2) 0 10 1 1 id /\ relays (t_tree st) (gen_rays ps az el) ps (V3 0 0 10) 1 /\
    a_absorbed (g_acc (t_g st) id) = a_absorbed (g_acc g id) ++ [map (fun _ => 1) ps] /\
    a_hits (g_acc (t_g st) id) = a_hits (g_acc g id) ++ [map (fun _ => V3 0 0 10) ps].
Proof. exact example_aimed. Qed.
Print Assumptions c85_example_aimed.

Example c85_example : exists ps sc t id, reached 5 sc /\ tower_positions 1 (PI / 8) = Ok ps /\ In (V3 (5 * cos (- PI / 4)) (5 * sin (- PI / 4)) 0) ps /\
  is_tower sc t ps (1 / 2) (1 / 2) 0 10 1 1 id /\ 0 <= 90 <= 180 /\ 0 <= 45 <= 90 /\ 0 <= 1 / 20 < 1.
Proof. exact tower_example. Qed.

(** A new resolution. *)
Theorem c85_example_replaced : forall limit rr ar sc az el reps me g, reached limit sc -> (3 <= limit)%nat -> 1 <= rr -> PI / 8 <= ar ->
  0 <= az <= 180 -> 0 <= el <= 90 -> (2 <= reps)%nat -> 0 <= me < 1 ->
  exists ps sc' t st id, tower_positions rr ar = Ok ps /\ replace_plant limit rr ar az el reps me g sc = (sc', Ok (t, ([], [], st))) /\ reached limit sc' /\
    is_tower sc' t ps (1 / 2) (1 / 2) 0 10 1 1 id /\ relays (t_tree st) (gen_rays ps az el) ps (V3 0 0 10) 1.
Proof. exact example_replaced. Qed.
Print Assumptions c85_example_replaced.

(** C86: the flux map, for a plant in any state and whatever hits were recorded before.
    It is what the receiver got from this trace, and no more than was sent if the
    plates do not touch. *)
Theorem c86_map : forall limit sc t ps w h a aim X Y id az el per ang half reps me bins g, is_tower sc t ps w h a aim X Y id ->
  0 < w -> 0 < h -> 0 < X -> 0 < Y -> 0 <= a <= 1 -> (3 <= limit)%nat -> fair (g_rng g) -> 0 <= ang <= PI / 2 -> 0 <= half -> (0 < bins)%nat ->
  exists rays objs ss vs ds st H xe ye,
    flux_map limit t az el per ang half reps me bins (X / 2) (Y / 2) g sc = (sc, Ok (H, xe, ye, t_g st)) /\
    sun_rays ps (solar_vector (az * degree) (el * degree)) per ang half (g_rng g) rays /\
    engine_view limit (tw_plant t) sc = (sc, Ok (objs, ss)) /\
    ray_tracer surface_ops objs ss (mkG (mkRng (draws (g_rng g)) (drawn (g_rng g) + 4 * (per * length ps))) (upd (g_acc g) id (mkAcc [] [])))
      rays reps me TreeTrue = Ok (vs, ds, st) /\
    nth_error ss (length ps) = Some (Surface.new_surface (RectPlate (X / 2) (Y / 2)) (Accountant id (Reflective 1)) (receiver_frame aim)) /\
    shows ss (length ps) (t_tree st) reps me X Y (receiver_frame aim) bins H /\
    xe = map (fun i => - (X / 2) + INR i * (X / INR bins)) (seq 0 (S bins)) /\
    ye = map (fun i => - (Y / 2) + INR i * (Y / INR bins)) (seq 0 (S bins)) /\
    (well_apart ps (V3 0 0 aim) w h X Y -> 0 <= total (concat H) <= INR (per * length ps)).
Proof. exact flux_map_top. Qed.
Print Assumptions c86_map.

(** The plates of the example do not touch. *)
Theorem c86_apart : forall rr ar ps, 1 <= rr -> PI / 8 <= ar -> tower_positions rr ar = Ok ps -> well_apart ps (V3 0 0 10) (1 / 2) (1 / 2) 1 1.
Proof. exact example_apart. Qed.
Print Assumptions c86_apart.

Theorem c86_example_map : forall limit rr ar ps sc t id az el reps me per bins g, (3 <= limit)%nat -> 1 <= rr -> PI / 8 <= ar -> tower_positions rr ar = Ok ps ->
  is_tower sc t ps (1 / 2) (1 / 2) 0 10 1 1 id -> fair (g_rng g) -> (0 < bins)%nat ->
  exists H xe ye g', flux_map limit t az el per (465 / 100000) (1 / 4) reps me bins (1 / 2) (1 / 2) g sc = (sc, Ok (H, xe, ye, g')) /\
    0 <= total (concat H) <= INR (per * length ps).
Proof. exact example_flux. Qed.
Print Assumptions c86_example_map.

Example c86_example : exists ps sc t id, tower_positions 1 (PI / 8) = Ok ps /\ is_tower sc t ps (1 / 2) (1 / 2) 0 10 1 1 id /\
  fair (mkRng (fun _ => 1 / 3) 0) /\ 0 <= 465 / 100000 <= PI / 2 /\ well_apart ps (V3 0 0 10) (1 / 2) (1 / 2) 1 1.
Proof. exact flux_example. Qed.
