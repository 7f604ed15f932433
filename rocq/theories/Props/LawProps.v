(** Theorems for C95, C96 and C97: the laws of optics along every path of light, and what the
    symmetry of a scene makes of them. *)
From Coq Require Import Reals String List Arith Bool Lra Lia.
From Verif.Base Require Import Py Num Vec.
From Verif.Model Require Import RayBundle Geometry TraceTree Sources Optics OpticsCallables Engine Objects Surface.
From Verif.Proof Require Import EngineTop TraceTop LawProof SymmetryProof SymmetryCases MoveCase LineageProof LineageCase.
From Verif.Spec Require Import BundleSpec EngineSpec GeometrySpec GeomIface OpticsSpec LibrarySpec LawSpec.
Import ListNotations.
Local Open Scope R_scope.

(** C95 *)
Theorem c95_laws : forall objs surfs, library_assembly objs surfs ->
  forall me g b n, library_source b n -> fair (g_rng g) -> forall reps vs ds st,
  ray_tracer surface_ops objs surfs g b reps me TreeTrue = Ok (vs, ds, st) ->
  exists (ns : nat -> nat) (Ts : nat -> reports),
  (forall L prev, nth_error (t_tree st) L = Some prev -> (L < reps)%nat -> (0 < ns L)%nat ->
     exists tb, reported surface_ops surfs prev (ns L) (Ts L) tb) /\
  (forall L prev, nth_error (t_tree st) L = Some prev -> forall j, (j < ns L)%nat <-> is_traced me L prev j) /\
  forall L prev lvl, nth_error (t_tree st) L = Some prev -> nth_error (t_tree st) (L + 1) = Some lvl ->
  exists N via thr, sent_on surfs (Ts L) (ns L) prev N via thr lvl.
Proof. exact laws_top. Qed.
Print Assumptions c95_laws.

Example c95_example : forall rg, fair rg -> let g := mkG rg (fun _ => mkAcc [] []) in exists vs ds st lvl k,
  library_assembly [default_object 1] one_mirror /\ library_source (drops [1; 2]) 2 /\
  ray_tracer surface_ops [default_object 1] one_mirror g (drops [1; 2]) 3 (1 / 10) TreeTrue = Ok (vs, ds, st) /\
  nth_error (t_tree st) (0 + 1) = Some lvl /\ vert_at lvl k = Some (V3 0 0 0).
Proof.
  intros rg _ g. destruct (mirror_trace g 3 TreeTrue ltac:(lia)) as (vs & ds & st & E).
  destruct (mirror_level g 3 vs ds st ltac:(lia) E) as (lvl & H & (k & _ & Hk) & _). exists vs, ds, st, lvl, k.
  split; [apply one_mirror_library|]. split; [apply (drops_source [1; 2])|]. split; [exact E|]. split; [exact H|exact Hk].
Qed.

(** C96: every ray comes from a ray of the source, and the momentum along a symmetry of
    the scene is what it was there. *)
Theorem c96_conserved : forall objs surfs, library_assembly objs surfs ->
  forall me g b n, library_source b n -> fair (g_rng g) -> forall reps vs ds st,
  ray_tracer surface_ops objs surfs g b reps me TreeTrue = Ok (vs, ds, st) ->
  forall L lvl k v d, nth_error (t_tree st) L = Some lvl -> vert_at lvl k = Some v -> dir_at lvl k = Some d ->
  (exists j, descends (t_tree st) L k j) /\
  forall j, descends (t_tree st) L k j -> exists v0 d0, vert_at b j = Some v0 /\ dir_at b j = Some d0 /\
  forall u w, (forall s, In s surfs -> slides u w s /\ specular (s_opt s)) ->
  along u w (ref_at lvl k) v d = along u w (ref_at b j) v0 d0.
Proof. exact conserved_top. Qed.
Print Assumptions c96_conserved.

(** The surfaces of the library with a symmetry. *)
Theorem c96_surfaces : forall s, rigid (s_frame s) ->
  (forall c a, coaxial c a s -> slides (vscale (- 1) (cross a c)) a s) /\
  (forall a, wall a s -> slides a (V3 0 0 0) s) /\
  (forall a u, is_unit a -> layer a s -> dot u a = 0 -> slides u (V3 0 0 0) s).
Proof. exact surfaces_slide. Qed.
Print Assumptions c96_surfaces.

(** Surfaces of revolution about the line through [c] along [a] keep the skewness. *)
Theorem c96_revolution : forall objs surfs, library_assembly objs surfs -> (forall s, In s surfs -> specular (s_opt s)) ->
  forall me g b n, library_source b n -> fair (g_rng g) -> forall reps vs ds st,
  ray_tracer surface_ops objs surfs g b reps me TreeTrue = Ok (vs, ds, st) ->
  forall L lvl k v d j v0 d0, nth_error (t_tree st) L = Some lvl -> vert_at lvl k = Some v -> dir_at lvl k = Some d ->
  descends (t_tree st) L k j -> vert_at b j = Some v0 -> dir_at b j = Some d0 ->
  forall c a, (forall s, In s surfs -> coaxial c a s) ->
  index (ref_at lvl k) * dot a (cross (vsub v c) d) = index (ref_at b j) * dot a (cross (vsub v0 c) d0).
Proof. exact revolution. Qed.
Print Assumptions c96_revolution.

(** Walls along [a] keep the angle with it. *)
Theorem c96_pipe : forall objs surfs, library_assembly objs surfs -> (forall s, In s surfs -> specular (s_opt s)) ->
  forall me g b n, library_source b n -> fair (g_rng g) -> forall reps vs ds st,
  ray_tracer surface_ops objs surfs g b reps me TreeTrue = Ok (vs, ds, st) ->
  forall L lvl k v d j v0 d0, nth_error (t_tree st) L = Some lvl -> vert_at lvl k = Some v -> dir_at lvl k = Some d ->
  descends (t_tree st) L k j -> vert_at b j = Some v0 -> dir_at b j = Some d0 ->
  forall a, (forall s, In s surfs -> wall a s) -> index (ref_at lvl k) * dot d a = index (ref_at b j) * dot d0 a.
Proof. exact pipe. Qed.
Print Assumptions c96_pipe.

(** Parallel layers: only the first and the present medium matter, and back in the first
    medium a ray runs as it started or mirrored. *)
Theorem c96_layers : forall objs surfs, library_assembly objs surfs -> (forall s, In s surfs -> specular (s_opt s)) ->
  forall me g b n, library_source b n -> fair (g_rng g) -> forall reps vs ds st,
  ray_tracer surface_ops objs surfs g b reps me TreeTrue = Ok (vs, ds, st) ->
  forall L lvl k v d j v0 d0, nth_error (t_tree st) L = Some lvl -> vert_at lvl k = Some v -> dir_at lvl k = Some d ->
  descends (t_tree st) L k j -> vert_at b j = Some v0 -> dir_at b j = Some d0 ->
  forall a, is_unit a -> (forall s, In s surfs -> layer a s) ->
  vscale (index (ref_at lvl k)) (tangential d a) = vscale (index (ref_at b j)) (tangential d0 a) /\
  (index (ref_at lvl k) = index (ref_at b j) -> d = d0 \/ mirrored a d0 d).
Proof. exact layers. Qed.
Print Assumptions c96_layers.

(** A ball of glass, a pane and a dish on one axis; a pane; a mirror tube. *)
Example c96_example : forall rg, fair rg -> let g := mkG rg (fun _ => mkAcc [] []) in
  library_source slanted 1 /\
  (library_assembly [default_object 4] bench /\ (forall s, In s bench -> specular (s_opt s) /\ coaxial (V3 0 0 5) (V3 0 0 1) s) /\
   exists vs ds st, ray_tracer surface_ops [default_object 4] bench g slanted 9 (1 / 10) TreeTrue = Ok (vs, ds, st)) /\
  (library_assembly [default_object 2] pane /\ (forall s, In s pane -> specular (s_opt s) /\ layer (V3 0 0 1) s) /\
   exists vs ds st, ray_tracer surface_ops [default_object 2] pane g slanted 9 (1 / 10) TreeTrue = Ok (vs, ds, st)) /\
  (library_assembly [default_object 1] tube /\ (forall s, In s tube -> specular (s_opt s) /\ wall (V3 0 0 1) s) /\
   exists vs ds st, ray_tracer surface_ops [default_object 1] tube g slanted 9 (1 / 10) TreeTrue = Ok (vs, ds, st)).
Proof. exact symmetric_scenes. Qed.

(** Light that has met a mirror. *)
Example c96_met : forall rg, fair rg -> let g := mkG rg (fun _ => mkAcc [] []) in
  (forall s, In s one_mirror -> specular (s_opt s) /\ coaxial (V3 0 0 0) (V3 0 0 1) s /\ layer (V3 0 0 1) s) /\
  exists vs ds st lvl k d j, ray_tracer surface_ops [default_object 1] one_mirror g (drops [1; 2]) 3 (1 / 10) TreeTrue = Ok (vs, ds, st) /\
  nth_error (t_tree st) 1 = Some lvl /\ vert_at lvl k = Some (V3 0 0 0) /\ dir_at lvl k = Some d /\ descends (t_tree st) 1 k j.
Proof. exact met_mirror. Qed.

(** C97: every ray has one ancestor among the rays of the source.  It carries the
    ancestor's additional properties, and at most its energy. *)
Theorem c97_lineage : forall objs surfs, library_assembly objs surfs ->
  forall me g b n, library_source b n -> fair (g_rng g) -> forall reps vs ds st,
  ray_tracer surface_ops objs surfs g b reps me TreeTrue = Ok (vs, ds, st) ->
  forall L lvl, nth_error (t_tree st) L = Some lvl ->
  (forall p, p <> Parents -> (prop lvl p = None <-> prop b p = None)) /\
  forall k v, vert_at lvl k = Some v ->
  exists j, descends (t_tree st) L k j /\ (forall j', descends (t_tree st) L k j' -> j' = j) /\
    (exists v0, vert_at b j = Some v0) /\ (forall x, extra_at lvl x k = extra_at b x j) /\
    exists e0 e, energy_at b j = Some e0 /\ energy_at lvl k = Some e /\ 0 <= e <= e0.
Proof. exact lineage_top. Qed.
Print Assumptions c97_lineage.

Example c97_example : library_assembly [default_object 1] [ceiling] /\ library_source coloured 1 /\ fair quarter /\
  exists vs ds st lvl, ray_tracer surface_ops [default_object 1] [ceiling] (mkG quarter nobody) coloured 1 0 TreeTrue = Ok (vs, ds, st) /\
  nth_error (t_tree st) (0 + 1) = Some lvl /\ vert_at lvl 0 = Some (V3 0 0 1) /\ extra_at lvl "wavelength" 0 = Some (PCell [500]).
Proof. split; [exact ceiling_library|]. split; [exact coloured_source|]. split; [exact quarter_fair|exact coloured_traced]. Qed.
