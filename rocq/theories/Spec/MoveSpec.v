(** A scene and its light moved as a whole, and brighter light. *)
From Coq Require Import Reals List Arith Bool.
From Verif.Base Require Import Py Num Vec.
From Verif.Model Require Import RayBundle Geometry OpticsCallables Engine Surface.
From Verif.Spec Require Import GeometrySpec LibrarySpec ModelSpec.
Import ListNotations.
Local Open Scope R_scope.

(** The rays of [b] moved by [T], with all energies multiplied by [c]. *)
Definition moved_bundle (T : mat4) (c : R) (b : bundle) : bundle :=
  mkB (option_map (map (app4 T)) (b_vert b)) (option_map (map (turned T)) (b_dir b))
      (option_map (map (Rmult c)) (b_energy b)) (b_parents b) (b_ref b) (b_extra b).

(** A surface between traces, placed by [T] after its own frame. *)
Definition moved_surface (T : mat4) (s : surface) : surface :=
  mkS (s_geom s) (s_opt s) (mm4 T (s_frame s)) (s_gstate s) (s_bundle s) (s_selected s).

Definition stands_moved (T : mat4) (s s' : surface) : Prop :=
  s_geom s' = s_geom s /\ s_opt s' = s_opt s /\ s_frame s' = mm4 T (s_frame s) /\ s_selected s' = s_selected s.

(** The log of an accountant: the energies multiplied, the points moved. *)
Definition moved_account (T : mat4) (c : R) (a : account) : account :=
  mkAcc (map (map (Rmult c)) (a_absorbed a)) (map (map (app4 T)) (a_hits a)).
Definition moved_shared (T : mat4) (c : R) (g g' : shared) : Prop :=
  g_rng g' = g_rng g /\ forall id, g_acc g' id = moved_account T c (g_acc g id).

(** A frame that maps points to points. *)
Definition affine (f : mat4) : Prop := q3 f = V4 0 0 0 1.

(** Objects whose decisions do not look at where the rays are. *)
Definition indifferent (T : mat4) (c : R) (ob : obj) : Prop := forall b k,
  own_rays ob (moved_bundle T c b) k = own_rays ob b k /\
  surfaces_for_next ob (moved_bundle T c b) k = surfaces_for_next ob b k.

(** The same outcome: the same exception, or results in relation [Q]. *)
Definition same_outcome {A B : Type} (Q : A -> B -> Prop) (x : res A) (y : res B) : Prop :=
  match x, y with Ok a, Ok b => Q a b | Err e, Err e' => e' = e | _, _ => False end.

(** The result of a trace, moved: what is returned, the surfaces, the accounts, the
    bundle in flight and the recorded tree. *)
Definition moved_trace (T : mat4) (c : R)
    (x y : list vec * list vec * tstate surface shared) : Prop :=
  let '(vs, ds, st) := x in let '(vs', ds', st') := y in
  vs' = map (app4 T) vs /\ ds' = map (turned T) ds /\
  Forall2 (stands_moved T) (t_surfs st) (t_surfs st') /\
  moved_shared T c (t_g st) (t_g st') /\
  t_bund st' = moved_bundle T c (t_bund st) /\
  t_tree st' = map (moved_bundle T c) (t_tree st).

(** Surfaces whose optics do not care which way they are turned. *)
Definition may_turn (T : mat4) (s : surface) : Prop := not_random (s_opt s) \/ rot_of T = id3.

(** Surfaces without a size of their own, and light, in a scene [k] times as large. *)
Definition enlarged_flat (k : R) (s : surface) : surface :=
  mkS (s_geom s) (s_opt s) (mk4 (rot_of (s_frame s)) (vscale k (loc_of (s_frame s)))) (s_gstate s) (s_bundle s) (s_selected s).
Definition enlarged_bundle (k : R) (b : bundle) : bundle :=
  mkB (option_map (map (vscale k)) (b_vert b)) (b_dir b) (b_energy b) (b_parents b) (b_ref b) (b_extra b).

(** Only brighter. *)
Definition brighter (c : R) (b : bundle) : bundle :=
  mkB (b_vert b) (b_dir b) (option_map (map (Rmult c)) (b_energy b)) (b_parents b) (b_ref b) (b_extra b).
Definition brighter_account (c : R) (a : account) : account := mkAcc (map (map (Rmult c)) (a_absorbed a)) (a_hits a).
Definition brighter_trace (c : R) (x y : list vec * list vec * tstate surface shared) : Prop :=
  let '(vs, ds, st) := x in let '(vs', ds', st') := y in
  vs' = vs /\ ds' = ds /\ t_tree st' = map (brighter c) (t_tree st) /\
  g_rng (t_g st') = g_rng (t_g st) /\ forall id, g_acc (t_g st') id = brighter_account c (g_acc (t_g st) id).
