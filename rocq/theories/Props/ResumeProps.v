(** Theorems for C106: a longer trace begins like a shorter one, and a trace can be resumed. *)
From Coq Require Import Reals List Arith Bool.
From Verif.Base Require Import Py Num Vec.
From Verif.Model Require Import RayBundle Boundary Geometry TraceTree Sources OpticsCallables Engine Objects Surface.
From Verif.Proof Require Import EngineTop OrderCase ResumeProof ResumeCase.
From Verif.Spec Require Import BundleSpec EngineSpec GeometrySpec GeomIface OpticsSpec LibrarySpec ResumeSpec.
Import ListNotations.

(** C106: the tree of a trace with more iterations begins with the tree of the one with
    fewer, and so does each account. *)
Theorem c106_begins : forall objs surfs, library_assembly objs surfs -> forall me g b n, library_source b n ->
  forall r1 vs1 ds1 st1, ray_tracer surface_ops objs surfs g b r1 me TreeTrue = Ok (vs1, ds1, st1) ->
  forall r2 vs2 ds2 st2, ray_tracer surface_ops objs surfs g b (r1 + r2) me TreeTrue = Ok (vs2, ds2, st2) ->
  t_tree st1 = firstn (r1 + 1) (t_tree st2) /\ books_grow (t_g st1) (t_g st2).
Proof. exact begins_top. Qed.
Print Assumptions c106_begins.

(** With ordinary objects, and surfaces of any kind, a trace of the rays that are left gives
    the rest of the tree, the same last rays and the same state of surfaces, accounts and
    random numbers. *)
Theorem c106_resumed : forall (S G : Type) (ops : surf_ops S G) objs me, (forall ob, In ob objs -> exists k, ob = default_object k) ->
  forall surfs g b, length surfs = length (surf_ownership objs) ->
  forall r1 vs1 ds1 st1, ray_tracer ops objs surfs g b r1 me TreeTrue = Ok (vs1, ds1, st1) -> vs1 <> [] ->
  forall r2 vs2 ds2 st2, ray_tracer ops objs (t_surfs st1) (t_g st1) (t_bund st1) r2 me TreeTrue = Ok (vs2, ds2, st2) ->
  exists st, ray_tracer ops objs surfs g b (r1 + r2) me TreeTrue = Ok (vs2, ds2, st) /\
    t_tree st = t_tree st1 ++ tl (t_tree st2) /\ t_surfs st = t_surfs st2 /\ t_g st = t_g st2 /\ t_bund st = t_bund st2.
Proof. intros S G ops objs me Df surfs g b. exact (resumed ops objs me Df surfs g b). Qed.
Print Assumptions c106_resumed.
Theorem c106_resumable : forall (S G : Type) (ops : surf_ops S G) objs me, (forall ob, In ob objs -> exists k, ob = default_object k) ->
  forall surfs g b, length surfs = length (surf_ownership objs) ->
  forall r1 vs1 ds1 st1, ray_tracer ops objs surfs g b r1 me TreeTrue = Ok (vs1, ds1, st1) -> vs1 <> [] ->
  forall r2 vs2 ds2 st, ray_tracer ops objs surfs g b (r1 + r2) me TreeTrue = Ok (vs2, ds2, st) ->
  exists st2, ray_tracer ops objs (t_surfs st1) (t_g st1) (t_bund st1) r2 me TreeTrue = Ok (vs2, ds2, st2) /\
    t_tree st = t_tree st1 ++ tl (t_tree st2) /\ t_surfs st = t_surfs st2 /\ t_g st = t_g st2 /\ t_bund st = t_bund st2.
Proof. intros S G ops objs me Df surfs g b. exact (resumable ops objs me Df surfs g b). Qed.
Print Assumptions c106_resumable.

Example c106_example : forall g, fair (g_rng g) -> forall r1 r2 me, 1 <= r1 -> 1 <= r2 -> (me < (1/2) ^ r1)%R ->
  let objs := [default_object 2] in let surfs := pair_of 0 1 in let b := drops [1/2; 3]%R in
  library_assembly objs surfs /\ library_source b 2 /\
  exists vs1 ds1 st1 vs2 ds2 st st2, ray_tracer surface_ops objs surfs g b r1 me TreeTrue = Ok (vs1, ds1, st1) /\ vs1 <> [] /\
    ray_tracer surface_ops objs surfs g b (r1 + r2) me TreeTrue = Ok (vs2, ds2, st) /\
    ray_tracer surface_ops objs (t_surfs st1) (t_g st1) (t_bund st1) r2 me TreeTrue = Ok (vs2, ds2, st2).
Proof. exact in_two_parts. Qed.
