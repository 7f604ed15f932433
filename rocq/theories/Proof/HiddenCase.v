(** A mirror behind another one. *)
From Coq Require Import Reals List Arith Bool Lra Lia.
From Verif.Base Require Import Py Num Vec.
From Verif.Model Require Import RayBundle Boundary Geometry TraceTree OpticsCallables Engine Objects Surface.
From Verif.Proof Require Import ListLemmas NumLemmas VecLemmas GeomProof GeomTop GeomCases EngineTop TraceTop AnswerProof OrderCase SightProof SightCase HiddenTop.
From Verif.Spec Require Import BundleSpec EngineSpec GeometrySpec GeomIface OpticsSpec LibrarySpec LawSpec SightSpec HiddenSpec.
Import ListNotations.
Local Open Scope R_scope.

Lemma level_there h z t : z - t = h -> placed (mk4 id3 (V3 0 0 h)) xy_plane (ray_at (V3 0 0 z) (V3 0 0 (-1)) t).
Proof.
  intros E. replace (ray_at (V3 0 0 z) (V3 0 0 (-1)) t) with (V3 0 0 h); [apply level_point|].
  unfold ray_at. vunfold. f_equal; try ring. rewrite <- E. ring.
Qed.
Lemma level_where h z t : placed (mk4 id3 (V3 0 0 h)) xy_plane (ray_at (V3 0 0 z) (V3 0 0 (-1)) t) -> z - t = h.
Proof. intros K. apply level_only in K. revert K. unfold ray_at. vunfold. intros K. lra. Qed.

Lemma behind_mirror : forall g me, let objs := [default_object 2] in let surfs := pair_of 0 1 in let extra := [mirror (-1)] in let b := drops [1/2; 3] in
  library_assembly objs surfs /\ library_source b 2 /\ (forall x, In x extra -> rigid (s_frame x)) /\
  (exists A, in_the_way (mirror (-1)) (V3 0 0 (1/2)) (V3 0 0 (-1)) A /\ A (ray_at (V3 0 0 (1/2)) (V3 0 0 (-1)) (3/2))) /\
  exists vs ds st, ray_tracer surface_ops objs surfs g b 1 me TreeTrue = Ok (vs, ds, st) /\
  forall L lvl j v d, nth_error (t_tree st) L = Some lvl -> (L < 1)%nat -> is_traced me L lvl j ->
     vert_at lvl j = Some v -> dir_at lvl j = Some d -> forall x, In x extra -> out_of_sight surfs x v d.
Proof.
  intros g me objs surfs extra b.
  assert (La : library_assembly objs surfs) by (apply (pair_library joined 0 1); auto).
  assert (Ls : library_source b 2) by (apply (drops_source [1/2; 3])).
  split; auto. split; auto. split; [intros x [<-|[]]; apply mirror_rigid|]. split.
  { exists (placed (mk4 id3 (V3 0 0 (-1))) xy_plane). split; [apply level_in_the_way|]. apply level_there. lra. }
  destruct (tracing_answers _ _ (pair_answers joined 0 1 (or_introl eq_refl)) g b 2 1 me TreeTrue Ls) as (vs & ds & st & E); auto using pair_media.
  exists vs, ds, st. split; [exact E|]. intros L lvl j v d Hl HL _ Hv Hd x [<-|[]].
  assert (L = 0%nat) by lia. subst L.
  pose proof (proj1 (proj2 (bounded_trace objs surfs La me g b 2 Ls 1 vs ds st E))) as Sb. assert (lvl = b) by congruence. subst lvl.
  assert (T6 : 0 < tenm 6 < 1/4) by (unfold tenm; split; [apply Rinv_0_lt_compat; lra|lra]).
  assert (K : forall z, 1/2 <= z -> out_of_sight surfs (mirror (-1)) (V3 0 0 z) (V3 0 0 (-1))).
  { intros z Hz. exists (placed (mk4 id3 (V3 0 0 (-1))) xy_plane). split; [apply level_in_the_way|]. right.
    exists (mirror 0), (placed (mk4 id3 (V3 0 0 0)) xy_plane), z. split; [left; reflexivity|]. split; [apply level_in_the_way|]. split; [lra|].
    split; [apply level_there; lra|]. split; intros u Hu Q; apply level_where in Q; lra. }
  destruct j as [|[|j]]; cbn in Hv, Hd.
  - assert (v = V3 0 0 (1/2)) by congruence. assert (d = V3 0 0 (-1)) by congruence. subst v d. apply K; lra.
  - assert (v = V3 0 0 3) by congruence. assert (d = V3 0 0 (-1)) by congruence. subst v d. apply K; lra.
  - destruct j; discriminate.
Qed.
