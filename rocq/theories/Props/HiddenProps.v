(** Theorems for C107: what is out of sight makes no difference. *)
From Coq Require Import Reals List Arith Bool.
From Verif.Base Require Import Py Num Vec.
From Verif.Model Require Import RayBundle Boundary Geometry TraceTree OpticsCallables Engine Objects Surface.
From Verif.Proof Require Import EngineTop OrderCase HiddenTop HiddenCase.
From Verif.Spec Require Import BundleSpec EngineSpec GeometrySpec GeomIface OpticsSpec LibrarySpec SightSpec HiddenSpec.
Import ListNotations.
Local Open Scope R_scope.

(** C107: one more object with any surfaces that no ray of the trace sees leaves the returned
    rays, the tree and the accounts as they are. *)
Theorem c107_hidden : forall objs surfs, library_assembly objs surfs -> (forall ob, In ob objs -> exists k, ob = default_object k) ->
  forall extra, (forall x, In x extra -> rigid (s_frame x)) ->
  forall me g b n, library_source b n -> forall reps vs ds st,
  ray_tracer surface_ops objs surfs g b reps me TreeTrue = Ok (vs, ds, st) ->
  (forall L lvl j v d, nth_error (t_tree st) L = Some lvl -> (L < reps)%nat -> is_traced me L lvl j ->
     vert_at lvl j = Some v -> dir_at lvl j = Some d -> forall x, In x extra -> out_of_sight surfs x v d) ->
  exists st', ray_tracer surface_ops (objs ++ [default_object (length extra)]) (surfs ++ extra) g b reps me TreeTrue = Ok (vs, ds, st') /\
    t_tree st' = t_tree st /\ t_g st' = t_g st /\ t_bund st' = t_bund st.
Proof. exact hidden_top. Qed.
Print Assumptions c107_hidden.

(** A mirror at height -1 is on the line of the rays, but behind the one at height 0. *)
Example c107_example : forall g me, let objs := [default_object 2] in let surfs := pair_of 0 1 in let extra := [mirror (-1)] in let b := drops [1/2; 3] in
  library_assembly objs surfs /\ library_source b 2 /\ (forall x, In x extra -> rigid (s_frame x)) /\
  (exists A, in_the_way (mirror (-1)) (V3 0 0 (1/2)) (V3 0 0 (-1)) A /\ A (ray_at (V3 0 0 (1/2)) (V3 0 0 (-1)) (3/2))) /\
  exists vs ds st, ray_tracer surface_ops objs surfs g b 1 me TreeTrue = Ok (vs, ds, st) /\
  forall L lvl j v d, nth_error (t_tree st) L = Some lvl -> (L < 1)%nat -> is_traced me L lvl j ->
     vert_at lvl j = Some v -> dir_at lvl j = Some d -> forall x, In x extra -> out_of_sight surfs x v d.
Proof. exact behind_mirror. Qed.
