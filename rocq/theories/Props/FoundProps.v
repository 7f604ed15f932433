(** Theorems for C103: a trace finds every way of light with clear sight. *)
From Coq Require Import Reals List Arith Bool.
From Verif.Base Require Import Py Num Vec.
From Verif.Model Require Import RayBundle Boundary Geometry TraceTree Sources OpticsCallables Engine Objects Surface.
From Verif.Proof Require Import EngineTop OrderCase FoundProof FoundCase.
From Verif.Spec Require Import BundleSpec EngineSpec GeometrySpec GeomIface OpticsSpec LibrarySpec LawSpec BackSpec SightSpec FoundSpec.
Import ListNotations.
Local Open Scope R_scope.

(** C103: light of the source that can come a way of at most [reps] meetings does so in
    the trace, with the energy and the index that the laws give it. *)
Theorem c103_found : forall objs surfs, library_assembly objs surfs -> (forall ob, In ob objs -> exists k, ob = default_object k) ->
  forall me g b n, library_source b n -> fair (g_rng g) -> forall reps vs ds st,
  ray_tracer surface_ops objs surfs g b reps me TreeTrue = Ok (vs, ds, st) ->
  forall j v d e, vert_at b j = Some v -> dir_at b j = Some d -> energy_at b j = Some e ->
  forall path v' d' e' m', seen_way surfs me v d e (ref_at b j) path v' d' e' m' -> (length path <= reps)%nat ->
  exists lvl k, nth_error (t_tree st) (length path) = Some lvl /\ descends (t_tree st) (length path) k j /\
    vert_at lvl k = Some v' /\ dir_at lvl k = Some d' /\ energy_at lvl k = Some e' /\ ref_at lvl k = m'.
Proof. exact found_top. Qed.
Print Assumptions c103_found.

(** Light goes to and fro between two mirrors as often as the limits let it, and loses
    half of its energy each time. *)
Theorem c103_to_and_fro : forall me n b z e, starts z b -> (n <> O -> me < e * (1/2) ^ (n - 1)) ->
  0 < e -> seen_way (pair_of 0 1) me (V3 0 0 z) (upward b) e None (bounces n b)
    (V3 0 0 (end_height n b z)) (upward (xorb b (Nat.odd n))) (e * (1/2) ^ n) None.
Proof. exact to_and_fro. Qed.
Print Assumptions c103_to_and_fro.
Example c103_example : forall g, fair (g_rng g) -> forall me reps n, (1 <= reps)%nat -> (n <= reps)%nat -> (n <> O -> me < (1/2) ^ (n - 1)) ->
  let objs := [default_object 2] in let surfs := pair_of 0 1 in let b := drops [1/2; 3] in
  library_assembly objs surfs /\ library_source b 2 /\
  exists vs ds st, ray_tracer surface_ops objs surfs g b reps me TreeTrue = Ok (vs, ds, st) /\
  exists lvl k, nth_error (t_tree st) n = Some lvl /\ descends (t_tree st) n k 0 /\
    vert_at lvl k = Some (V3 0 0 (end_height n false (1/2))) /\
    dir_at lvl k = Some (V3 0 0 (if Nat.odd n then 1 else -1)) /\ energy_at lvl k = Some ((1/2) ^ n).
Proof. exact between_mirrors. Qed.
