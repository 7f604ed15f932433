(** Properties of the triangulated surface and the spherical lens. *)
From Coq Require Import Reals List Arith ZArith Bool Lia Lra.
From Verif.Base Require Import Py Num Vec.
From Verif.Model Require Import RayBundle Spatial Geometry OpticsCallables Surface Assembly Scene Triangulated Lens.
From Verif.Proof Require Import TriangleProof TriangleExamples TurnProof LensProof LensExamples.
From Verif.Spec Require Import BundleSpec EngineSpec GeometrySpec GeomIface OpticsSpec FrameSpec SceneSpec ModelSpec TriangleSpec LensSpec.
Import ListNotations.
Local Open Scope R_scope.

(** C66: when improper faces come last, if at all, the object has one surface for
    each proper face, which is exactly the triangle of its three vertices. *)
Theorem c66_faces : forall limit vertices faces good bad o tr t sc, reached limit sc -> (0 < limit)%nat ->
  usable_opt (sc_w sc) (w_size (sc_w sc)) tr -> given (sc_w sc) tr t ->
  Forall2 (names_corners vertices) faces (good ++ bad) -> Forall proper good -> Forall (fun x => ~ proper x) bad ->
  exists parts, makes_surface limit vertices faces o tr t sc parts /\ Forall2 (shows o) good parts.
Proof. exact triangulated_top. Qed.
Print Assumptions c66_faces.

(** In general each surface has the shape of a proper face, but stands at the first
    corner of the face with the same number in the list of all faces. *)
Theorem c66_any_faces : forall limit vertices faces ts kept o tr t sc, reached limit sc -> (0 < limit)%nat ->
  usable_opt (sc_w sc) (w_size (sc_w sc)) tr -> given (sc_w sc) tr t ->
  Forall2 (names_corners vertices) faces ts -> selection proper ts kept ->
  exists parts, makes_surface limit vertices faces o tr t sc parts /\ length parts = length kept /\
    forall k a b p, nth_error ts k = Some a -> nth_error kept k = Some b -> nth_error parts k = Some p -> shows o (carried (t0 a) b) p.
Proof. exact triangulated_any. Qed.
Print Assumptions c66_any_faces.

(** So a proper face after an improper one is misplaced. *)
Theorem c66_misplaced_refuted : exists vertices faces ts t, Forall2 (names_corners vertices) faces ts /\ In t ts /\ proper t /\
  forall limit o sc, reached limit sc -> (0 < limit)%nat ->
  exists p, makes_surface limit vertices faces o None id4 sc [p] /\ ~ shows o t p.
Proof. exact misplaced. Qed.
Print Assumptions c66_misplaced_refuted.

(** A row with an index that names no vertex. *)
Theorem c66_bad_index : forall limit vertices faces o tr sc f, In f faces ->
  (forall x, ~ index_of vertices (f0 f) x) \/ (forall x, ~ index_of vertices (f1 f) x) \/ (forall x, ~ index_of vertices (f2 f) x) ->
  triangulated_surface limit vertices faces o tr sc = (sc, Err IndexError).
Proof. exact triangulated_index. Qed.
Print Assumptions c66_bad_index.

Example c66_example : exists vertices faces good bad,
  Forall2 (names_corners vertices) faces (good ++ bad) /\ Forall proper good /\ Forall (fun x => ~ proper x) bad /\
  length good = 2%nat /\ length bad = 1%nat.
Proof. exact some_faces. Qed.

Example c66_bad_index_example : forall limit o sc,
  triangulated_surface limit [V3 0 0 0; V3 1 0 0; V3 0 1 0] [mkRow 0 1 2; mkRow 0 1 3] o None sc = (sc, Err IndexError).
Proof.
  intros. apply c66_bad_index with (mkRow 0 1 3); [simpl; auto|]. right. right. intros x (k & Hk & E).
  match type of Hk with nth_error ?l _ = _ => assert (k < length l)%nat by (apply nth_error_Some; rewrite Hk; discriminate) end.
  cbn in *. lia.
Qed.

(** C67: a lens with two curved faces.  The faces meet the axis at [v + depth] and
    [v]; the edges of the caps are joined by the wall. *)
Theorem c67_lens : forall limit D depth r1 r2 n tr t sc, reached limit sc -> (0 < limit)%nat ->
  usable_opt (sc_w sc) (w_size (sc_w sc)) tr -> given (sc_w sc) tr t ->
  r1 <> 0 -> r2 <> 0 -> D * D / 4 <= r1 * r1 -> D * D / 4 <= r2 * r2 -> n <> 0 -> lensmaker n depth r1 r2 <> 0 ->
  exists f v pf pb walls, makes_lens limit D depth (Some (Fin r1)) (Some (Fin r2)) n tr t sc f (pf :: pb :: walls) /\
    f * lensmaker n depth r1 r2 = 1 /\ v = f * depth * (n - 1) / (n * r1) /\
    face_of n (cap D r1 (v + depth)) (V3 0 0 (v + depth - r1)) pf /\ face_of n (cap D r2 v) (V3 0 0 (v - r2)) pb /\
    closed_by n D (cap D r1 (v + depth)) (cap D r2 v) walls.
Proof. exact lens_top. Qed.
Print Assumptions c67_lens.

Theorem c67_vertex : forall D r v, r <> 0 -> apex (cap D r v) v.
Proof. exact cap_apex. Qed.
Print Assumptions c67_vertex.

Theorem c67_planar_front_refuted : forall limit D depth r1 r2 n tr sc, planar_radius r1 -> 0 < D -> reached limit sc ->
  snd (spherical_lens limit D depth r1 r2 n tr sc) = Err NameError.
Proof. exact planar_front. Qed.
Print Assumptions c67_planar_front_refuted.

(** A planar back stays at 0, while the front is placed for a back at [depth / n]. *)
Theorem c67_planar_back : forall limit D depth r1 r2 n tr t sc, reached limit sc -> (0 < limit)%nat ->
  usable_opt (sc_w sc) (w_size (sc_w sc)) tr -> given (sc_w sc) tr t -> 0 < D -> planar_radius r2 ->
  r1 <> 0 -> D * D / 4 <= r1 * r1 -> n <> 0 -> n <> 1 ->
  exists f pf pb walls, makes_lens limit D depth (Some (Fin r1)) r2 n tr t sc f (pf :: pb :: walls) /\
    f * ((n - 1) / r1) = 1 /\
    face_of n (cap D r1 (depth + depth / n)) (V3 0 0 (depth + depth / n - r1)) pf /\ flat_face_of n (disc D 0) pb /\
    closed_by n D (cap D r1 (depth + depth / n)) (disc D 0) walls.
Proof. exact plano_top. Qed.
Print Assumptions c67_planar_back.

Theorem c67_planar_back_refuted : forall n depth D r1 v1 v2, n <> 0 -> depth <> 0 -> r1 <> 0 ->
  apex (cap D r1 (depth + depth / n)) v1 -> apex (disc D 0) v2 -> v1 - v2 <> depth.
Proof. exact too_thick. Qed.
Print Assumptions c67_planar_back_refuted.

(** A bundle of one ray is always in order. *)
Theorem c67_one_ray : forall A c v d, entering_first A c [v] [d].
Proof. exact one_in_turn. Qed.
Print Assumptions c67_one_ray.

Example c67_example : 2 * 2 / 4 <= 3 * 3 /\ lensmaker (3 / 2) 1 3 (-3) <> 0 /\ cap 2 3 1 (V3 0 0 1).
Proof. exact biconvex. Qed.

(** C80: for the lens of [c67_lens], rays parallel to the axis and close to it meet
    at [2 * v - f]. *)
Theorem c80_focus : forall n depth r1 r2 f v z, n <> 0 -> r1 <> 0 -> r2 <> 0 ->
  f * lensmaker n depth r1 r2 = 1 -> v = f * depth * (n - 1) / (n * r1) ->
  focus_at n r1 (v + depth) r2 v z <-> z = 2 * v - f.
Proof. exact focus_where. Qed.
Print Assumptions c80_focus.

Theorem c80_docstring_refuted : forall n depth r1 r2 f v, n <> 0 -> n <> 1 -> depth <> 0 -> r1 <> 0 -> r2 <> 0 ->
  f * lensmaker n depth r1 r2 = 1 -> v = f * depth * (n - 1) / (n * r1) -> ~ focus_at n r1 (v + depth) r2 v (- f).
Proof. exact focus_not_there. Qed.
Print Assumptions c80_docstring_refuted.

(** The same lens: f = 54 / 17, v = 6 / 17. *)
Example c80_example : (54 / 17) * lensmaker (3 / 2) 1 3 (-3) = 1 /\
  focus_at (3 / 2) 3 (6 / 17 + 1) (-3) (6 / 17) (- (42 / 17)) /\ ~ focus_at (3 / 2) 3 (6 / 17 + 1) (-3) (6 / 17) (- (54 / 17)).
Proof.
  assert (E : (54 / 17) * lensmaker (3 / 2) 1 3 (-3) = 1) by (unfold lensmaker; lra).
  split; [exact E|]. split.
  - apply (c80_focus (3 / 2) 1 3 (-3) (54 / 17)); lra.
  - apply (c80_docstring_refuted (3 / 2) 1 3 (-3) (54 / 17)); lra.
Qed.
