(** Theorems for C113: light in a pane of glass. *)
From Coq Require Import Reals List Arith Bool.
From Verif.Base Require Import Py Num Vec.
From Verif.Model Require Import RayBundle Boundary Geometry TraceTree Sources OpticsCallables Engine Objects Surface.
From Verif.Proof Require Import EngineTop LibraryTop GlassProof GlassTop GlassCase.
From Verif.Spec Require Import BundleSpec EngineSpec GeometrySpec GeomIface OpticsSpec LibrarySpec LawSpec ImageSpec GlassSpec.
Import ListNotations.
Local Open Scope R_scope.

(** C113: light that comes to a pane is mirrored in part, and the rest goes to and fro between
    the faces, with the same share mirrored each time.  What goes through is parallel to the
    light that came.  No other rays come of it. *)
Theorem c113_pane : forall surfs i1 i2 u a w, glass i1 i2 u a w surfs -> forall objs me g b n reps vs ds st,
  library_assembly objs surfs -> (forall ob, In ob objs -> exists k, ob = default_object k) ->
  library_source b n -> fair (g_rng g) -> ray_tracer surface_ops objs surfs g b reps me TreeTrue = Ok (vs, ds, st) ->
  forall j v d e k k', vert_at b j = Some v -> dir_at b j = Some d -> energy_at b j = Some e -> ref_at b j = Some k ->
  sides i1 i2 k k' -> enters u a w k k' v d ->
  exists f P D Out, to_and_fro u a w k k' v d f P D Out /\ 0 <= f <= 1 /\
    ((1 <= reps)%nat -> exists d', mirrored u d d' /\ found_at (t_tree st) 1 j (P 0%nat) d' (e * f) k) /\
    (forall q, (q + 1 <= reps)%nat -> ((1 <= q)%nat -> me < e * (1 - f) * f ^ (q - 1)) ->
      found_at (t_tree st) (q + 1) j (P q) (D q) (e * (1 - f) * f ^ q) k') /\
    (forall q, (q + 2 <= reps)%nat -> me < e * (1 - f) * f ^ q ->
      found_at (t_tree st) (q + 2) j (P (S q)) (Out (S q)) (e * (1 - f) * f ^ q * (1 - f)) k) /\
    (forall L i lvl, (1 <= L)%nat -> nth_error (t_tree st) L = Some lvl -> descends (t_tree st) L i j ->
      one_of_them u k k' d e f P D Out L lvl i).
Proof. exact pane_top. Qed.
Print Assumptions c113_pane.

(** A pane from z = 0 to z = 4, and a ray that comes in at Brewster's angle. *)
Example c113_example : forall g, fair (g_rng g) -> forall reps me, (2 <= reps)%nat -> me < 1201/1250 ->
  let objs := [default_object 2] in let surfs := [near_face; far_face] in
  library_assembly objs surfs /\ glass 1 (4/3) (V3 0 0 1) 0 4 surfs /\ library_source slanting 1 /\
  ref_at slanting 0 = Some 1 /\ sides 1 (4/3) 1 (4/3) /\ enters (V3 0 0 1) 0 4 1 (4/3) (V3 (- 4) 0 (- 3)) (V3 (4/5) 0 (3/5)) /\
  exists vs ds st, ray_tracer surface_ops objs surfs g slanting reps me TreeTrue = Ok (vs, ds, st) /\
    found_at (t_tree st) 1 0 (V3 0 0 0) (V3 (3/5) 0 (4/5)) (1201/1250) (4/3) /\
    found_at (t_tree st) 2 0 (V3 3 0 4) (V3 (4/5) 0 (3/5)) (1201/1250 * (1201/1250)) 1.
Proof. exact through_the_pane. Qed.
