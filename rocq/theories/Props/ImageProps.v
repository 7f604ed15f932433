(** Theorems for C105: plane mirrors make images. *)
From Coq Require Import Reals List Arith Bool.
From Verif.Base Require Import Py Num Vec.
From Verif.Model Require Import RayBundle Boundary Geometry TraceTree Sources OpticsCallables Engine Objects Surface.
From Verif.Proof Require Import EngineTop OrderCase ImageProof ImageCase.
From Verif.Spec Require Import BundleSpec EngineSpec GeometrySpec GeomIface OpticsSpec LibrarySpec LawSpec ImageSpec.
Import ListNotations.
Local Open Scope R_scope.

(** C105: among plane mirrors each ray of each level is where the straight continuation of
    the source's ray is seen, through the mirrors its ancestors met, after the whole length. *)
Theorem c105_images : forall objs surfs, library_assembly objs surfs -> (forall s, In s surfs -> plane_mirror s) ->
  forall me g b n, library_source b n -> fair (g_rng g) -> forall reps vs ds st,
  ray_tracer surface_ops objs surfs g b reps me TreeTrue = Ok (vs, ds, st) ->
  forall L lvl k v d, nth_error (t_tree st) L = Some lvl -> vert_at lvl k = Some v -> dir_at lvl k = Some d ->
  exists j v0 d0 ss t, came_by surfs (t_tree st) L k j ss t /\ vert_at b j = Some v0 /\ dir_at b j = Some d0 /\
    length ss = L /\ 0 <= t /\ Forall (fun s => In s surfs) ss /\ v = images (ray_at v0 d0 t) ss /\ d = image_dirs d0 ss.
Proof. exact images_top. Qed.
Print Assumptions c105_images.
Example c105_example : forall g, fair (g_rng g) -> forall me reps, me < 1/2 -> (2 <= reps)%nat ->
  let objs := [default_object 2] in let surfs := pair_of 0 1 in let b := drops [1/2; 3] in
  library_assembly objs surfs /\ (forall s, In s surfs -> plane_mirror s) /\ library_source b 2 /\
  exists vs ds st, ray_tracer surface_ops objs surfs g b reps me TreeTrue = Ok (vs, ds, st) /\
  exists lvl k j v0 d0 s1 s2 t, nth_error (t_tree st) 2 = Some lvl /\ came_by surfs (t_tree st) 2 k j [s1; s2] t /\
    In s1 surfs /\ In s2 surfs /\ vert_at b j = Some v0 /\ dir_at b j = Some d0 /\
    V3 0 0 1 = images (ray_at v0 d0 t) [s1; s2] /\ V3 0 0 (-1) = image_dirs d0 [s1; s2].
Proof. exact seen_twice. Qed.

(** Images keep distances and angles. *)
Theorem c105_rigid : forall ss, (forall s, In s ss -> rigid (s_frame s)) -> forall p q d d',
  norm2 (vsub (images p ss) (images q ss)) = norm2 (vsub p q) /\ dot (image_dirs d ss) (image_dirs d' ss) = dot d d'.
Proof. exact images_rigid. Qed.
Print Assumptions c105_rigid.

(** Two mirrors turn light about their common line by twice their angle; parallel ones
    leave its direction as it was. *)
Theorem c105_two_mirrors : forall s1 s2, rigid (s_frame s1) -> rigid (s_frame s2) -> forall d,
  let a := axis s1 in let b := axis s2 in let d' := image_dirs d [s1; s2] in
  ((b = a \/ b = vopp a) -> d' = d) /\ dot d' (cross a b) = dot d (cross a b) /\
  (dot d (cross a b) = 0 -> dot d d' = (2 * (dot a b * dot a b) - 1) * norm2 d).
Proof. exact two_mirrors. Qed.
Print Assumptions c105_two_mirrors.

(** Three mirrors at right angles, in any order, send light back where it came from. *)
Theorem c105_corner : forall s1 s2 s3, rigid (s_frame s1) -> rigid (s_frame s2) -> rigid (s_frame s3) ->
  perpendicular s1 s2 -> perpendicular s2 s3 -> perpendicular s1 s3 ->
  (forall d, image_dirs d [s1; s2; s3] = vopp d) /\
  forall c p, on_plane s1 c -> on_plane s2 c -> on_plane s3 c -> images p [s1; s2; s3] = vadd c (vopp (vsub p c)).
Proof. exact corner. Qed.
Print Assumptions c105_corner.
Example c105_corner_example :
  let x := standing facing_x in let y := standing facing_y in let z := standing id3 in
  rigid (s_frame x) /\ rigid (s_frame y) /\ rigid (s_frame z) /\ perpendicular x y /\ perpendicular y z /\ perpendicular x z /\
  on_plane x (V3 0 0 0) /\ on_plane y (V3 0 0 0) /\ on_plane z (V3 0 0 0).
Proof. exact corner_case. Qed.

(** In a trace among mirrors that are all at right angles to each other, or equal, no light
    is reflected more than three times, and after the third time it goes back. *)
Theorem c105_corner_trace : forall objs surfs, library_assembly objs surfs -> (forall s, In s surfs -> plane_mirror s) -> square surfs ->
  forall me g b n, library_source b n -> fair (g_rng g) -> forall reps vs ds st,
  ray_tracer surface_ops objs surfs g b reps me TreeTrue = Ok (vs, ds, st) ->
  forall L lvl k v d, nth_error (t_tree st) L = Some lvl -> vert_at lvl k = Some v -> dir_at lvl k = Some d ->
  (L <= 3)%nat /\
  (L = 3%nat -> exists j v0 d0 t, descends (t_tree st) 3 k j /\ vert_at b j = Some v0 /\ dir_at b j = Some d0 /\ 0 <= t /\ d = vopp d0 /\
    forall c, (forall s, In s surfs -> on_plane s c) -> v = vadd c (vopp (vsub (ray_at v0 d0 t) c))).
Proof. exact corner_trace. Qed.
Print Assumptions c105_corner_trace.
Example c105_corner_trace_example : forall g, fair (g_rng g) -> forall me reps, me < 1/4 -> (3 <= reps)%nat ->
  let objs := [default_object 3] in let surfs := corner_cube in let b := single (V3 1 1 3) inward in
  library_assembly objs surfs /\ (forall s, In s surfs -> plane_mirror s) /\ square surfs /\ (forall s, In s surfs -> on_plane s (V3 0 0 0)) /\ library_source b 1 /\
  exists vs ds st, ray_tracer surface_ops objs surfs g b reps me TreeTrue = Ok (vs, ds, st) /\
  exists lvl k, nth_error (t_tree st) 3 = Some lvl /\ descends (t_tree st) 3 k 0 /\
    vert_at lvl k = Some (V3 2 (1/2) 0) /\ dir_at lvl k = Some (V3 (2/3) (1/3) (2/3)).
Proof. exact cube_trace. Qed.
