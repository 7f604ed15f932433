(** Theorems for C112: light in a drop. *)
From Coq Require Import Reals List Arith Bool.
From Verif.Base Require Import Py Num Vec.
From Verif.Model Require Import RayBundle Boundary Geometry TraceTree Sources OpticsCallables Engine Objects Surface.
From Verif.Proof Require Import EngineTop DropProof DropTop DropCase.
From Verif.Spec Require Import BundleSpec EngineSpec GeometrySpec GeomIface OpticsSpec LibrarySpec AccountSpec LawSpec BallSpec DropSpec.
Import ListNotations.
Local Open Scope R_scope.

(** C112: light that comes to a drop is mirrored in part, and the rest goes in, from chord to
    chord, with the same share mirrored at every end.  What leaves does so at the angle at which
    the light came.  No other rays come of it. *)
Theorem c112_drop : forall objs s r i1 i2 me g b n reps vs ds st,
  library_assembly objs [s] -> (forall ob, In ob objs -> exists k, ob = default_object k) -> drop r i1 i2 s ->
  library_source b n -> fair (g_rng g) -> ray_tracer surface_ops objs [s] g b reps me TreeTrue = Ok (vs, ds, st) ->
  forall j v d e k k', vert_at b j = Some v -> dir_at b j = Some d -> energy_at b j = Some e -> ref_at b j = Some k ->
  faces i1 i2 k k' -> comes_in (centre s) r k k' v d ->
  exists f P D Out, rainbow (centre s) r k k' v d f P D Out /\ 0 <= f <= 1 /\
    ((1 <= reps)%nat -> exists d', mirrored (vscale (/ r) (vsub (P 0%nat) (centre s))) d d' /\
      there (t_tree st) 1 j (P 0%nat) d' (e * f) k) /\
    (forall q, (q + 1 <= reps)%nat -> ((1 <= q)%nat -> me < e * (1 - f) * f ^ (q - 1)) ->
      there (t_tree st) (q + 1) j (P q) (D q) (e * (1 - f) * f ^ q) k') /\
    (forall q, (q + 2 <= reps)%nat -> me < e * (1 - f) * f ^ q ->
      there (t_tree st) (q + 2) j (P (S q)) (Out (S q)) (e * (1 - f) * f ^ q * (1 - f)) k) /\
    (forall L i lvl, (1 <= L)%nat -> nth_error (t_tree st) L = Some lvl -> descends (t_tree st) L i j ->
      in_rainbow (centre s) r k k' d e f P D Out L lvl i).
Proof. exact drop_ways. Qed.
Print Assumptions c112_drop.

(** These shares make up all the light. *)
Theorem c112_energy : forall e f q,
  e * f + sum_R (map (fun i => e * (1 - f) * f ^ i * (1 - f)) (seq 0 q)) + e * (1 - f) * f ^ q = e.
Proof. exact drop_energy. Qed.
Print Assumptions c112_energy.

(** A drop of water of radius 5 about (1, 2, 3), and a ray that comes in at Brewster's angle. *)
Example c112_example : forall g, fair (g_rng g) -> forall reps me, (2 <= reps)%nat -> me < 1201/1250 ->
  let objs := [default_object 1] in
  library_assembly objs [water] /\ drop 5 1 (4/3) water /\ library_source sunbeam 1 /\
  ref_at sunbeam 0 = Some 1 /\ faces 1 (4/3) 1 (4/3) /\ comes_in (centre water) 5 1 (4/3) (V3 5 2 (- 7)) (V3 0 0 1) /\
  exists vs ds st out, ray_tracer surface_ops objs [water] g sunbeam reps me TreeTrue = Ok (vs, ds, st) /\
    there (t_tree st) 1 0 (V3 5 2 0) (V3 (- (7/25)) 0 (24/25)) (1201/1250) (4/3) /\
    there (t_tree st) 2 0 (V3 (69/25) 2 (192/25)) out (1201/1250 * (1201/1250)) 1 /\ out = V3 (- (336/625)) 0 (527/625).
Proof. exact in_the_water. Qed.
