(** A trace between two mirrors, whole and in two parts. *)
From Coq Require Import Reals List Arith Bool Lra Lia.
From Verif.Base Require Import Py Num Vec.
From Verif.Model Require Import RayBundle Boundary Geometry TraceTree Sources OpticsCallables Engine Objects Surface.
From Verif.Proof Require Import ListLemmas EngineTop TraceTop AnswerProof OrderCase FoundCase ResumeProof.
From Verif.Spec Require Import BundleSpec EngineSpec GeometrySpec GeomIface OpticsSpec LibrarySpec LawSpec ResumeSpec.
Import ListNotations.
Local Open Scope R_scope.

Lemma in_two_parts : forall g, fair (g_rng g) -> forall r1 r2 me, (1 <= r1)%nat -> (1 <= r2)%nat -> me < (1/2) ^ r1 ->
  let objs := [default_object 2] in let surfs := pair_of 0 1 in let b := drops [1/2; 3] in
  library_assembly objs surfs /\ library_source b 2 /\
  exists vs1 ds1 st1 vs2 ds2 st st2, ray_tracer surface_ops objs surfs g b r1 me TreeTrue = Ok (vs1, ds1, st1) /\ vs1 <> [] /\
    ray_tracer surface_ops objs surfs g b (r1 + r2) me TreeTrue = Ok (vs2, ds2, st) /\
    ray_tracer surface_ops objs (t_surfs st1) (t_g st1) (t_bund st1) r2 me TreeTrue = Ok (vs2, ds2, st2).
Proof.
  intros g Fg r1 r2 me H1 H2 Hm objs surfs b.
  destruct (between_mirrors g Fg me (r1 + r2) (r1 + 1)) as (La & Ls & vs2 & ds2 & st & E2 & lvl & k & A1 & _); try lia.
  { intros _. replace (r1 + 1 - 1)%nat with r1 by lia. exact Hm. }
  split; [exact La|]. split; [exact Ls|].
  destruct (tracing_answers _ _ (pair_answers joined 0 1 (or_introl eq_refl)) g b 2 r1 me TreeTrue Ls) as (vs1 & ds1 & st1 & E1); auto using pair_media.
  assert (Nv : vs1 <> []).
  { intros Ev. destruct (bounded_trace objs surfs La me g b 2 Ls r1 vs1 ds1 st1 E1) as (B1 & _ & _ & _ & _ & _ & _ & _ & _ & B4).
    pose proof (B4 H1 Ev r2) as E3. fold objs surfs b in E2. rewrite E3 in E2. assert (st1 = st) by congruence. subst st1.
    assert (r1 + 1 < length (t_tree st))%nat by (apply nth_error_Some; congruence). lia. }
  destruct (resumable surface_ops objs me ltac:(intros ob [<-|[]]; eauto) surfs g b eq_refl r1 vs1 ds1 st1 E1 Nv r2 vs2 ds2 st E2) as (st2 & E3 & _).
  exists vs1, ds1, st1, vs2, ds2, st, st2. auto.
Qed.
