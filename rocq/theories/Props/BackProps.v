(** Theorems for C101: light can be sent back the way it came. *)
From Coq Require Import Reals String List Arith Bool Lra Lia.
From Verif.Base Require Import Py Num Vec.
From Verif.Model Require Import RayBundle Geometry TraceTree Sources Optics OpticsCallables Engine Objects Surface.
From Verif.Proof Require Import EngineTop TraceTop BackProof BackCase.
From Verif.Spec Require Import BundleSpec EngineSpec GeometrySpec GeomIface OpticsSpec LibrarySpec LawSpec BackSpec.
Import ListNotations.
Local Open Scope R_scope.

(** A way of light backwards is a way of light, and keeps the same fraction of the energy. *)
Theorem c101_way : forall surfs, (forall s, In s surfs -> optics_ok (s_opt s)) ->
  forall v d e m path v' d' e' m', way surfs v d e m path v' d' e' m' -> Forall works_back path ->
  exists f, 0 <= f <= 1 /\ e' = e * f /\
    forall e0, way surfs v d e0 m path v' d' (e0 * f) m' /\
               way surfs v' (vopp d') e0 m' (rev (map turned_back path)) v (vopp d) (e0 * f) m.
Proof. exact way_back_top. Qed.
Print Assumptions c101_way.

(** Every ray of a trace has come such a way from the source, and could go back. *)
Theorem c101_trace : forall objs surfs, library_assembly objs surfs ->
  forall me g b n, library_source b n -> fair (g_rng g) -> forall reps vs ds st,
  ray_tracer surface_ops objs surfs g b reps me TreeTrue = Ok (vs, ds, st) ->
  forall L lvl k v d e, nth_error (t_tree st) L = Some lvl -> vert_at lvl k = Some v -> dir_at lvl k = Some d -> energy_at lvl k = Some e ->
  exists j v0 d0 e0 path, descends (t_tree st) L k j /\
    vert_at b j = Some v0 /\ dir_at b j = Some d0 /\ energy_at b j = Some e0 /\ length path = L /\
    way surfs v0 d0 e0 (ref_at b j) path v d e (ref_at lvl k) /\
    (Forall works_back path -> exists f, 0 <= f <= 1 /\ e = e0 * f /\
       forall e1, way surfs v (vopp d) e1 (ref_at lvl k) (rev (map turned_back path)) v0 (vopp d0) (e1 * f) (ref_at b j)).
Proof. exact trace_back. Qed.
Print Assumptions c101_trace.

(** A trace does send light back: a ray that comes to a meeting from where its light went
    has a child that goes to where it came from. *)
Theorem c101_sent_back : forall objs surfs, library_assembly objs surfs ->
  forall me g b n, library_source b n -> fair (g_rng g) -> forall reps vs ds st,
  ray_tracer surface_ops objs surfs g b reps me TreeTrue = Ok (vs, ds, st) ->
  exists (ns : nat -> nat) (Ts : nat -> reports),
  (forall L prev, nth_error (t_tree st) L = Some prev -> (L < reps)%nat -> (0 < ns L)%nat ->
     exists tb, reported surface_ops surfs prev (ns L) (Ts L) tb) /\
  (forall L prev, nth_error (t_tree st) L = Some prev -> forall j, (j < ns L)%nat <-> is_traced me L prev j) /\
  forall L prev lvl, nth_error (t_tree st) L = Some prev -> nth_error (t_tree st) (L + 1) = Some lvl ->
  forall x e e' i j t v e0, lawful_meeting x e e' -> works_back x -> dot (mt_in x) (mt_normal x) <> 0 ->
  nth_error surfs i = Some (mt_surf x) -> meets_first (Ts L) (length surfs) (ns L) i j t ->
  vert_at prev j = Some v -> dir_at prev j = Some (vopp (mt_out x)) -> energy_at prev j = Some e0 -> ref_at prev j = mt_after x ->
  mt_point x = ray_at v (vopp (mt_out x)) t ->
  exists f k, 0 <= f <= 1 /\ e' = e * f /\ parent_at lvl k = Some j /\ vert_at lvl k = Some (mt_point x) /\
    dir_at lvl k = Some (vopp (mt_in x)) /\ energy_at lvl k = Some (e0 * f) /\ ref_at lvl k = mt_before x.
Proof. exact sent_back_top. Qed.
Print Assumptions c101_sent_back.

(** The laws leave no choice at a meeting. *)
Theorem c101_determined : forall x y e ex ey, lawful_meeting x e ex -> lawful_meeting y e ey ->
  mt_surf x = mt_surf y -> mt_through x = mt_through y -> mt_point x = mt_point y -> mt_in x = mt_in y -> mt_before x = mt_before y ->
  rigid (s_frame (mt_surf x)) -> specular (s_opt (mt_surf x)) -> dot (mt_in x) (mt_normal x) <> 0 -> y = x /\ ey = ex.
Proof. exact meeting_determined. Qed.
Print Assumptions c101_determined.

(** Light into glass under an angle, and light on a mirror. *)
Example c101_example : (exists f, lawful_meeting into_glass 1 (1 - f)) /\ works_back into_glass /\
  dot (mt_in into_glass) (mt_normal into_glass) <> 0 /\
  forall rg, fair rg -> let g := mkG rg (fun _ => mkAcc [] []) in exists vs ds st lvl k,
  library_assembly [default_object 1] one_mirror /\ library_source (drops [1; 2]) 2 /\
  ray_tracer surface_ops [default_object 1] one_mirror g (drops [1; 2]) 3 (1 / 10) TreeTrue = Ok (vs, ds, st) /\
  nth_error (t_tree st) 1 = Some lvl /\ vert_at lvl k = Some (V3 0 0 0) /\
  forall x, In (mt_surf x) one_mirror -> works_back x.
Proof. exact back_cases. Qed.
