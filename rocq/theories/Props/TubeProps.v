(** Theorems for C110: light in a mirror tube. *)
From Coq Require Import Reals List Arith Bool.
From Verif.Base Require Import Py Num Vec.
From Verif.Model Require Import RayBundle Boundary Geometry TraceTree Sources OpticsCallables Engine Objects Surface.
From Verif.Proof Require Import EngineTop TubeProof TubeTop TubeCase.
From Verif.Spec Require Import BundleSpec EngineSpec GeometrySpec GeomIface OpticsSpec LibrarySpec ModelSpec LawSpec TubeSpec.
Import ListNotations.
Local Open Scope R_scope.

(** C110: in a tube with a mirror all around, a ray winds from wall to wall as long as there
    is a wall where it comes and its energy is above the limit.  Each level has exactly one
    ray that comes from it; once it passes the end of the tube, none does. *)
Theorem c110_winds : forall objs s D H a me g b n reps vs ds st,
  library_assembly objs [s] -> (forall ob, In ob objs -> exists k, ob = default_object k) -> mirror_tube D H a s ->
  library_source b n -> fair (g_rng g) -> ray_tracer surface_ops objs [s] g b reps me TreeTrue = Ok (vs, ds, st) ->
  forall j q l e, vert_at b j = Some (app4 (s_frame s) q) -> dir_at b j = Some (turned (s_frame s) l) -> energy_at b j = Some e -> in_tube (D / 2) q l ->
  exists P E, winds (D / 2) q l P E /\
  (forall L, (1 <= L <= reps)%nat -> ((2 <= L)%nat -> me < e * (1 - a) ^ (L - 1)) -> (forall i, (1 <= i <= L)%nat -> walled H (vz (P i))) ->
   exists lvl k, nth_error (t_tree st) L = Some lvl /\ descends (t_tree st) L k j /\ (forall k', descends (t_tree st) L k' j -> k' = k) /\
     vert_at lvl k = Some (app4 (s_frame s) (P L)) /\ dir_at lvl k = Some (turned (s_frame s) (E L)) /\ energy_at lvl k = Some (e * (1 - a) ^ L) /\ ref_at lvl k = ref_at b j) /\
  (forall L, (L < reps)%nat -> ((1 <= L)%nat -> me < e * (1 - a) ^ L) -> (forall i, (1 <= i <= L)%nat -> walled H (vz (P i))) ->
   ~ walled H (vz (P (S L))) -> forall k, ~ descends (t_tree st) (S L) k j).
Proof. exact tube_path. Qed.
Print Assumptions c110_winds.

(** The way is determined by where the light starts. *)
Theorem c110_unique : forall r q l P E P' E', 0 < r -> winds r q l P E -> winds r q l P' E' -> forall n, P' n = P n /\ E' n = E n.
Proof. exact winds_unique. Qed.
Print Assumptions c110_unique.

(** It meets the wall at equal steps along the axis, so the length of the tube decides how
    often. *)
Theorem c110_steps : forall r q l P E, winds r q l P E ->
  forall n, vz (P (S n)) = vz q + (first_length r q l + INR n * next_length r q l) * vz l.
Proof. exact wind_height. Qed.
Print Assumptions c110_steps.

(** A tube of diameter 10 and height 20: a ray from (3, 0, 0) in it meets the wall at the
    heights 3 and 9 and leaves. *)
Example c110_example : forall g, fair (g_rng g) -> forall reps me, (3 <= reps)%nat -> me < 1/4 ->
  let objs := [default_object 1] in
  library_assembly objs [bright_tube] /\ mirror_tube 10 (Some 20) (1/2) bright_tube /\ library_source slanting 1 /\
  vert_at slanting 0 = Some (app4 (s_frame bright_tube) (V3 3 0 0)) /\ dir_at slanting 0 = Some (turned (s_frame bright_tube) (V3 0 (4/5) (3/5))) /\
  in_tube (10/2) (V3 3 0 0) (V3 0 (4/5) (3/5)) /\
  exists vs ds st lvl1 lvl2 k1 k2, ray_tracer surface_ops objs [bright_tube] g slanting reps me TreeTrue = Ok (vs, ds, st) /\
    nth_error (t_tree st) 1 = Some lvl1 /\ vert_at lvl1 k1 = Some (V3 4 6 6) /\
    nth_error (t_tree st) 2 = Some lvl2 /\ vert_at lvl2 k2 = Some (V3 (- (92/25)) (94/25) 12) /\ energy_at lvl2 k2 = Some (1/4) /\
    length (t_tree st) = 3%nat.
Proof. exact through_the_tube. Qed.
