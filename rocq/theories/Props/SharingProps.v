(** Theorems for C98: surfaces as objects. *)
From Coq Require Import Reals List Arith Bool Lra.
From Verif.Base Require Import Py Num Vec.
From Verif.Model Require Import RayBundle Geometry TraceTree Sources Optics OpticsCallables Engine Objects Surface SharingEngine.
From Verif.Proof Require Import MoveCase MoveScale SharingProof SharingCase.
From Verif.Spec Require Import SharingSpec.
Import ListNotations.
Local Open Scope R_scope.

(** If every surface has a geometry manager of its own, tracing with surface objects
    and tracing with surfaces as values give the same rays, tree and accounts and raise
    the same exceptions; other objects are left alone. *)
Theorem c98_objects : forall h0 ks, unshared h0 ks -> forall objs g b reps me ta,
  match ray_tracer_at object_ops objs h0 ks g b reps me ta with
  | Ok (v, d, (h', st)) =>
      ray_tracer surface_ops objs (map (surf_at h0) ks) g b reps me ta = Ok (v, d, by_value h' st) /\
      t_surfs st = ks /\ unshared h' ks /\ elsewhere_same ks h0 h'
  | Err e => ray_tracer surface_ops objs (map (surf_at h0) ks) g b reps me ta = Err e
  end.
Proof. exact objects_sim. Qed.
Print Assumptions c98_objects.

Example c98_example : unshared (mirrors own) [0%nat; 1%nat] /\ map (surf_at (mirrors own)) [0%nat; 1%nat] = [mirror 1; mirror 2] /\
  exists ds st, ray_tracer_at object_ops [default_object 2] (mirrors own) [0%nat; 1%nat] (mkG quarter nobody) upward 1 0 TreeFalse = Ok ([V3 0 0 1], ds, st).
Proof.
  split; [exact own_unshared|]. split; [apply mirrors_seen|]. destruct two_traced as (ds & st & E).
  pose proof (objects_sim (mirrors own) [0%nat; 1%nat] own_unshared [default_object 2] (mkG quarter nobody) upward 1%nat 0 TreeFalse) as H.
  rewrite mirrors_seen in H. destruct (ray_tracer_at _ _ _ _ _ _ _ _ _) as [[[v d] [h' st']]|e]; [|congruence].
  destruct H as (H & _). exists d, (h', st'). congruence.
Qed.

(** Two mirrors with one geometry manager between them: the ray that the lower one
    meets first is said to be reflected at the upper one. *)
Theorem c98_shared_refuted : exists h ks objs g b vs ds st vs' ds' st',
  NoDup ks /\ map (surf_at h) ks = [mirror 1; mirror 2] /\ ~ unshared h ks /\
  ray_tracer_at object_ops objs h ks g b 1 0 TreeFalse = Ok (vs, ds, st) /\
  ray_tracer surface_ops objs (map (surf_at h) ks) g b 1 0 TreeFalse = Ok (vs', ds', st') /\
  vs = [V3 0 0 2] /\ vs' = [V3 0 0 1].
Proof. exact shared_differs. Qed.
Print Assumptions c98_shared_refuted.
