(** Theorems for C104: light goes there in one trace and comes back in another. *)
From Coq Require Import Reals List Arith Bool.
From Verif.Base Require Import Py Num Vec.
From Verif.Model Require Import RayBundle Boundary Geometry TraceTree Sources OpticsCallables Engine Objects Surface.
From Verif.Proof Require Import EngineTop BackCase FoundProof ReturnProof ReturnCase.
From Verif.Spec Require Import BundleSpec EngineSpec GeometrySpec GeomIface OpticsSpec LibrarySpec LawSpec BackSpec SightSpec FoundSpec ReturnSpec.
Import ListNotations.
Local Open Scope R_scope.

(** C104: light at [v] along [d] comes by the meetings [x :: path] to [v'] along [d'], and
    from there to a point in the open.  A trace takes it there.  A trace with a ray sent back
    from that point takes the ray to the first meeting, and on in the direction the light
    came from.  Both keep the same fraction [f] of the energy. *)
Theorem c104_there_and_back : forall objs surfs, library_assembly objs surfs -> (forall ob, In ob objs -> exists k, ob = default_object k) ->
  forall B c, shaped_as surfs B c ->
  forall me v d e m x path v' d' e' m', open_way surfs B c me v d e m (x :: path) v' d' e' m' -> Forall works_back (x :: path) ->
  forall t, tenm 6 < t -> open_until surfs B c v' d' t ->
  exists f, 0 <= f <= 1 /\ e' = e * f /\
  (forall g b n, library_source b n -> fair (g_rng g) -> forall reps vs ds st,
   ray_tracer surface_ops objs surfs g b reps me TreeTrue = Ok (vs, ds, st) -> (length (x :: path) <= reps)%nat ->
   forall j, vert_at b j = Some v -> dir_at b j = Some d -> energy_at b j = Some e -> ref_at b j = m ->
   exists lvl k, nth_error (t_tree st) (length (x :: path)) = Some lvl /\ descends (t_tree st) (length (x :: path)) k j /\
     vert_at lvl k = Some v' /\ dir_at lvl k = Some d' /\ energy_at lvl k = Some (e * f) /\ ref_at lvl k = m') /\
  (forall g b n, library_source b n -> fair (g_rng g) -> forall me' reps vs ds st,
   ray_tracer surface_ops objs surfs g b reps me' TreeTrue = Ok (vs, ds, st) -> (length (x :: path) <= reps)%nat ->
   forall j e0, vert_at b j = Some (ray_at v' d' t) -> dir_at b j = Some (vopp d') -> energy_at b j = Some e0 -> ref_at b j = m' ->
   0 <= e0 -> me' < e0 * f ->
   exists lvl k, nth_error (t_tree st) (length (x :: path)) = Some lvl /\ descends (t_tree st) (length (x :: path)) k j /\
     vert_at lvl k = Some (mt_point x) /\ dir_at lvl k = Some (vopp d) /\ energy_at lvl k = Some (e0 * f) /\ ref_at lvl k = m).
Proof. exact there_and_back. Qed.
Print Assumptions c104_there_and_back.

(** The way back is as open as the way there. *)
Theorem c104_open_back : forall surfs B c, shaped_as surfs B c -> (forall s, In s surfs -> optics_ok (s_opt s)) ->
  forall me0 v d e m path v' d' e' m', open_way surfs B c me0 v d e m path v' d' e' m' -> Forall works_back path ->
  forall t', tenm 6 < t' -> open_until surfs B c v' d' t' ->
  exists f, 0 <= f <= 1 /\ e' = e * f /\ (path = [] -> f = 1) /\ forall me e0, 0 <= e0 -> me < e0 * f -> forall x rest, path = x :: rest ->
    open_way surfs B c me (ray_at v' d' t') (vopp d') e0 m' (rev (map turned_back path)) (mt_point x) (vopp d) (e0 * f) m.
Proof. exact open_back. Qed.
Print Assumptions c104_open_back.

(** Light into glass under an angle, and back out of it. *)
Example c104_example : library_assembly [default_object 1] pane /\ shaped_as pane pane_shape pane_clear /\
  Forall works_back [into_glass] /\
  (exists f, open_way pane pane_shape pane_clear (1 / 10) (V3 (-3) 0 4) (V3 (3/5) 0 (-4/5)) 1 (Some 1) [into_glass]
     (V3 0 0 0) (V3 (5/13) 0 (-12/13)) (1 - f) (Some (39/25))) /\
  open_until pane pane_shape pane_clear (V3 0 0 0) (V3 (5/13) 0 (-12/13)) 1.
Proof. exact glass_there_and_back. Qed.
Example c104_example_runs : forall g, fair (g_rng g) -> let n := 39/25 in
  let a := V3 (-3) 0 4 in let d := V3 (3/5) 0 (-4/5) in let d' := V3 (5/13) 0 (-12/13) in
  exists f, 0 <= f <= 1 /\
  (exists vs ds st lvl k, ray_tracer surface_ops [default_object 1] pane g (lone a d 1) 2 (1 / 10) TreeTrue = Ok (vs, ds, st) /\
     nth_error (t_tree st) 1 = Some lvl /\ vert_at lvl k = Some (V3 0 0 0) /\ dir_at lvl k = Some d' /\
     energy_at lvl k = Some (1 * f) /\ ref_at lvl k = Some n) /\
  (exists vs ds st lvl k, ray_tracer surface_ops [default_object 1] pane g (lone (ray_at (V3 0 0 0) d' 1) (vopp d') n) 2 (-1) TreeTrue = Ok (vs, ds, st) /\
     nth_error (t_tree st) 1 = Some lvl /\ vert_at lvl k = Some (V3 0 0 0) /\ dir_at lvl k = Some (vopp d) /\
     energy_at lvl k = Some (1 * f) /\ ref_at lvl k = Some 1).
Proof. exact glass_runs. Qed.
