(** Theorems for C109: light in a mirror ball. *)
From Coq Require Import Reals List Arith Bool.
From Verif.Base Require Import Py Num Vec.
From Verif.Model Require Import RayBundle Boundary Geometry TraceTree Sources OpticsCallables Engine Objects Surface.
From Verif.Proof Require Import EngineTop BallProof BallTop BallCase.
From Verif.Spec Require Import BundleSpec EngineSpec GeometrySpec GeomIface OpticsSpec LibrarySpec AccountSpec LawSpec BallSpec.
Import ListNotations.
Local Open Scope R_scope.

(** C109: in a ball with a mirror all around, a ray goes from chord to chord as long as its
    energy is above the limit.  Each level has exactly one ray that comes from it. *)
Theorem c109_chords : forall objs s r a me g b n reps vs ds st,
  library_assembly objs [s] -> (forall ob, In ob objs -> exists k, ob = default_object k) -> mirror_ball r a s ->
  library_source b n -> fair (g_rng g) -> ray_tracer surface_ops objs [s] g b reps me TreeTrue = Ok (vs, ds, st) ->
  forall j v d e, vert_at b j = Some v -> dir_at b j = Some d -> energy_at b j = Some e -> in_ball (centre s) r v d ->
  exists P D, chords (centre s) r v d P D /\ forall L, (1 <= L <= reps)%nat -> ((2 <= L)%nat -> me < e * (1 - a) ^ (L - 1)) ->
  exists lvl k, nth_error (t_tree st) L = Some lvl /\ descends (t_tree st) L k j /\ (forall k', descends (t_tree st) L k' j -> k' = k) /\
    vert_at lvl k = Some (P L) /\ dir_at lvl k = Some (D L) /\ energy_at lvl k = Some (e * (1 - a) ^ L) /\ ref_at lvl k = ref_at b j.
Proof. exact ball_path. Qed.
Print Assumptions c109_chords.

(** The chords are determined by where the light starts. *)
Theorem c109_unique : forall c r v d P D P' D', 0 < r -> chords c r v d P D -> chords c r v d P' D' ->
  forall n, (1 <= n)%nat -> P' n = P n /\ D' n = D n.
Proof. exact chords_unique. Qed.
Print Assumptions c109_unique.

(** No light escapes: the trace goes on to the last iteration, and every level has the
    energy that the ball has left of the source's. *)
Theorem c109_no_escape : forall objs s r a me g b n reps vs ds st,
  library_assembly objs [s] -> (forall ob, In ob objs -> exists k, ob = default_object k) -> mirror_ball r a s ->
  library_source b n -> fair (g_rng g) -> ray_tracer surface_ops objs [s] g b reps me TreeTrue = Ok (vs, ds, st) -> (0 < n)%nat ->
  (forall j v d, vert_at b j = Some v -> dir_at b j = Some d -> in_ball (centre s) r v d) ->
  ((2 <= reps)%nat -> forall j e, energy_at b j = Some e -> me < e * (1 - a) ^ (reps - 1)) ->
  length (t_tree st) = (reps + 1)%nat /\
  forall L lvl, nth_error (t_tree st) L = Some lvl -> total_energy lvl = (1 - a) ^ L * total_energy b.
Proof.
  intros objs s r a me g b n reps vs ds st La Df Ms Ls Fg Tr Hn Al St. split.
  - exact (whole_tree objs s r a me g b n reps vs ds st La Df Ms Ls Fg Tr Hn Al St).
  - exact (ball_energy objs s r a me g b n reps vs ds st La Df Ms Ls Fg Tr Hn Al St).
Qed.
Print Assumptions c109_no_escape.

(** A ball that keeps account has all the rest on record. *)
Theorem c109_receiver : forall objs s r a me g b n reps vs ds st,
  library_assembly objs [s] -> (forall ob, In ob objs -> exists k, ob = default_object k) -> mirror_ball r a s ->
  library_source b n -> fair (g_rng g) -> ray_tracer surface_ops objs [s] g b reps me TreeTrue = Ok (vs, ds, st) -> (0 < n)%nat ->
  (forall j v d, vert_at b j = Some v -> dir_at b j = Some d -> in_ball (centre s) r v d) ->
  ((2 <= reps)%nat -> forall j e, energy_at b j = Some e -> me < e * (1 - a) ^ (reps - 1)) ->
  forall id, s_opt s = Accountant id (Reflective a) -> g_acc g id = mkAcc [] [] ->
  exists es hs, get_all_hits (g_acc (t_g st) id) = Ok (es, hs) /\ sum_R es = total_energy b * (1 - (1 - a) ^ reps).
Proof. exact ball_receiver. Qed.
Print Assumptions c109_receiver.

(** A ball of radius 5 about (1, 2, 3), and a ray that passes its centre at the distance 3. *)
Example c109_example : forall g, fair (g_rng g) -> g_acc g 0%nat = mkAcc [] [] -> forall reps me, (2 <= reps)%nat -> me < (1/2) ^ (reps - 1) ->
  let objs := [default_object 1] in
  library_assembly objs [bright_ball] /\ mirror_ball 5 (1/2) bright_ball /\ library_source beam_in 1 /\
  (forall j v d, vert_at beam_in j = Some v -> dir_at beam_in j = Some d -> in_ball (centre bright_ball) 5 v d) /\
  exists vs ds st lvl1 lvl2 k1 k2 es hs, ray_tracer surface_ops objs [bright_ball] g beam_in reps me TreeTrue = Ok (vs, ds, st) /\
    nth_error (t_tree st) 1 = Some lvl1 /\ descends (t_tree st) 1 k1 0 /\ vert_at lvl1 k1 = Some (V3 4 2 7) /\
    nth_error (t_tree st) 2 = Some lvl2 /\ descends (t_tree st) 2 k2 0 /\ vert_at lvl2 k2 = Some (V3 (- (92/25)) 2 (119/25)) /\
    get_all_hits (g_acc (t_g st) 0%nat) = Ok (es, hs) /\ sum_R es = 1 - (1/2) ^ reps.
Proof. exact round_the_ball. Qed.
