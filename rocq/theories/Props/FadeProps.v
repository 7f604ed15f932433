(** Theorems for C108: light fades, and traces end by themselves. *)
From Coq Require Import Reals List Arith Bool.
From Verif.Base Require Import Py Num Vec.
From Verif.Model Require Import RayBundle Boundary Geometry TraceTree Sources OpticsCallables Engine Objects Surface.
From Verif.Proof Require Import EngineTop OrderCase FadeProof FadeCase.
From Verif.Spec Require Import BundleSpec EngineSpec GeometrySpec GeomIface OpticsSpec LibrarySpec FadeSpec.
Import ListNotations.
Local Open Scope R_scope.

(** C108: if every surface takes the fraction [a] or more, rays of level [L] have at most
    [(1 - a)^L] of the energy of the strongest ray of the source. *)
Theorem c108_fades : forall objs surfs, library_assembly objs surfs -> forall a, 0 <= a <= 1 -> (forall s, In s surfs -> takes a s) ->
  forall me g b n, library_source b n -> fair (g_rng g) -> forall E0, 0 <= E0 -> dimmer E0 b ->
  forall reps vs ds st, ray_tracer surface_ops objs surfs g b reps me TreeTrue = Ok (vs, ds, st) ->
  forall L lvl, nth_error (t_tree st) L = Some lvl -> dimmer ((1 - a) ^ L * E0) lvl.
Proof. exact fades. Qed.
Print Assumptions c108_fades.

(** Once that is at the limit, no more iterations are needed: no rays are left, and traces
    with more iterations are the same. *)
Theorem c108_enough : forall objs surfs, library_assembly objs surfs -> forall a, 0 <= a <= 1 -> (forall s, In s surfs -> takes a s) ->
  forall me g b n, library_source b n -> fair (g_rng g) -> forall E0, 0 <= E0 -> dimmer E0 b ->
  forall r, (1 <= r)%nat -> (1 - a) ^ r * E0 <= me ->
  forall reps vs ds st, (r <= reps)%nat -> ray_tracer surface_ops objs surfs g b reps me TreeTrue = Ok (vs, ds, st) ->
  vs = [] /\ (length (t_tree st) <= r + 1)%nat /\
  forall reps', (r <= reps')%nat -> ray_tracer surface_ops objs surfs g b reps' me TreeTrue = Ok (vs, ds, st).
Proof. exact enough. Qed.
Print Assumptions c108_enough.

(** With a positive limit and surfaces that all take something, every trace ends by itself,
    after a number of iterations that depends on the scene and the source only. *)
Theorem c108_ends : forall objs surfs, library_assembly objs surfs -> forall a, 0 < a <= 1 -> (forall s, In s surfs -> takes a s) ->
  forall me, 0 < me -> forall b n, library_source b n ->
  exists r, forall g, fair (g_rng g) -> forall reps vs ds st, (r <= reps)%nat ->
  ray_tracer surface_ops objs surfs g b reps me TreeTrue = Ok (vs, ds, st) ->
  vs = [] /\ (length (t_tree st) <= r + 1)%nat /\
  forall reps', (r <= reps')%nat -> ray_tracer surface_ops objs surfs g b reps' me TreeTrue = Ok (vs, ds, st).
Proof. exact ends_itself. Qed.
Print Assumptions c108_ends.

(** The number is the least possible between two mirrors. *)
Theorem c108_least : forall g, fair (g_rng g) -> forall r me reps, (1 <= r)%nat -> (r <= reps)%nat -> (1/2) ^ r <= me < (1/2) ^ (r - 1) ->
  let objs := [default_object 2] in let surfs := pair_of 0 1 in let b := drops [1/2; 3] in
  library_assembly objs surfs /\ (forall s, In s surfs -> takes (1/2) s) /\ library_source b 2 /\ dimmer 1 b /\ (1 - 1/2) ^ r * 1 <= me /\
  exists vs ds st, ray_tracer surface_ops objs surfs g b reps me TreeTrue = Ok (vs, ds, st) /\ length (t_tree st) = (r + 1)%nat.
Proof. exact just_enough. Qed.
Print Assumptions c108_least.

(** Without a limit there is no such number: light goes on between two mirrors. *)
Theorem c108_no_limit : forall g, fair (g_rng g) -> forall reps, (1 <= reps)%nat ->
  let objs := [default_object 2] in let surfs := pair_of 0 1 in let b := drops [1/2; 3] in
  exists vs ds st, ray_tracer surface_ops objs surfs g b reps 0 TreeTrue = Ok (vs, ds, st) /\ vs <> [].
Proof. exact never_ends. Qed.
Print Assumptions c108_no_limit.

(** Ten iterations for a thousandth. *)
Example c108_example : forall g, fair (g_rng g) ->
  let objs := [default_object 2] in let surfs := pair_of 0 1 in let b := drops [1/2; 3] in
  library_assembly objs surfs /\ (forall s, In s surfs -> takes (1/2) s) /\ library_source b 2 /\ dimmer 1 b /\ (1 - 1/2) ^ 10 * 1 <= 1/1000 /\
  exists vs ds st, ray_tracer surface_ops objs surfs g b 200 (1/1000) TreeTrue = Ok (vs, ds, st) /\ length (t_tree st) = 11%nat.
Proof. exact ten_enough. Qed.
