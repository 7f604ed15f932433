(** examples/gui.py: two rays and two mirrors in a scene with sliders. *)
From Coq Require Import Reals ZArith String List Arith Bool Lia Lra Permutation.
From Verif.Base Require Import Py Num Vec.
From Verif.Model Require Import RayBundle Spatial Geometry TraceTree OpticsCallables Engine Objects Surface View Assembly Scene Models TwoMirrors.
From Verif.Proof Require Import ModelExamples PathProof TwoMirrorsTop.
From Verif.Spec Require Import BundleSpec EngineSpec GeometrySpec OpticsSpec LibrarySpec SceneSpec ModelSpec SceneViewSpec PathSpec TwoMirrorsSpec.
Import ListNotations.
Local Open Scope R_scope.

(** C92: the assembly of the program can be built, in any state of the library's objects.
    In a window that shows it, with the source clear of the mirrors, the scene opens;
    moving the source to another clear place succeeds, whatever was done before; and then
    the scene has the pictures of the two mirrors and the lines of the two rays from where
    the source is now, each once, and nothing else. *)
Theorem c92_scene : forall limit sc, reached limit sc -> (2 <= limit)%nat ->
  exists sc' a objs surfs, two_mirrors limit sc = (sc', Ok a) /\ engine_view limit a sc' = (sc', Ok (objs, surfs)) /\
  forall order w, some_order order -> shows_assembly w a objs surfs ->
    (forall y z, clear_source y z -> exists v, open_scene order w a y z = Ok v) /\
    (forall v y z y' z', played order w a v y z -> clear_source y' z' -> exists v', bundle_move w y' z' v = Ok v') /\
    forall v y z, played order w a v y z -> clear_source y z ->
    exists i j m1 m2 pts cs l1 l2, w_surfaces w a = [i; j] /\ plain_portrait w i m1 /\ plain_portrait w j m2 /\
      Permutation (in_scene v) [m1; m2; Lines pts cs] /\ first_path y z l1 /\ second_path y z l2 /\ draws pts cs (l1 ++ l2).
Proof. exact two_mirrors_top. Qed.
Print Assumptions c92_scene.

(** There is such a window. *)
Example c92_example : forall g, exists sc' a objs surfs w, two_mirrors 5 start = (sc', Ok a) /\ engine_view 5 a sc' = (sc', Ok (objs, surfs)) /\ shows_assembly w a objs surfs /\ w_shared w = g.
Proof. intros g. apply two_world_example; [apply start_reached|repeat constructor]. Qed.
(** The sliders where the program puts them: both rays are reflected by both mirrors. *)
Example c92_example_default : clear_source 2 1 /\ first_path 2 1 [(at_yz 2 1, at_yz (3 / 2) (3 / 2)); (at_yz (3 / 2) (3 / 2), at_yz 3 0); (at_yz 3 0, at_yz (3 + 1 / sqrt 2) (1 / sqrt 2))] /\
  second_path 2 1 [(at_yz 2 1, at_yz 2 0); (at_yz 2 0, at_yz 2 2); (at_yz 2 2, at_yz 3 2)].
Proof. exact two_default. Qed.
(** Behind the first mirror: the first ray leaves, the second is stopped. *)
Example c92_example_above : clear_source 1 3 /\ first_path 1 3 [(at_yz 1 3, at_yz (1 - 1 / sqrt 2) (3 + 1 / sqrt 2))] /\ second_path 1 3 [(at_yz 1 3, at_yz 1 1)].
Proof. exact two_above. Qed.
(** Near the edges: the first ray passes the second mirror, the second ray the first mirror. *)
Example c92_example_far : clear_source 5 (3 / 2) /\ first_path 5 (3 / 2) [(at_yz 5 (3 / 2), at_yz (13 / 4) (13 / 4)); (at_yz (13 / 4) (13 / 4), at_yz (13 / 4 + 1 / sqrt 2) (13 / 4 - 1 / sqrt 2))] /\
  second_path 5 (3 / 2) [(at_yz 5 (3 / 2), at_yz 5 0); (at_yz 5 0, at_yz 5 1)].
Proof. exact two_far. Qed.

(** There is one picture for every clear place of the source. *)
Theorem c92_paths : forall y z, clear_source y z ->
  (exists! l, first_path y z l) /\ exists! l, second_path y z l.
Proof. exact two_paths. Qed.
Print Assumptions c92_paths.
