(** Sunlight on a tilted minidish. *)
From Coq Require Import Reals ZArith List Arith Bool.
From Verif.Base Require Import Py Num Vec.
From Verif.Model Require Import RayBundle Spatial Geometry OpticsCallables Engine Objects Surface Assembly Scene Models Sources TestCase.
From Verif.Spec Require Import BundleSpec EngineSpec SourceSpec GeometrySpec GeomIface OpticsSpec LibrarySpec AccountSpec FrameSpec SceneSpec ModelSpec DishSpec SunSpec.
Import ListNotations.
Local Open Scope R_scope.

(** The dish is turned about the x axis by an eighth of a circle, from z towards y. *)
Definition tilt : mat4 := rotx (- PI / 4).
Definition downwards : vec := V3 0 0 (-1).
(** The rays of [b], in the coordinates of the dish: from [vs] in the directions [ds]. *)
Definition seen_by_dish (b : bundle) (vs ds : list vec) : Prop :=
  b_vert b = Some (map (app4 tilt) vs) /\ b_dir b = Some (map (turned tilt) ds).
(** The sun's light: [n] rays that start in the disk of the dish's radius around its
    axis, within 5 mrad of the axis; 1000 for each unit of the disk's area, together. *)
Definition sunlight (n : nat) (vs ds : list vec) (es : list R) : Prop :=
  length vs = n /\ length ds = n /\ Forall (in_disk (V3 0 0 (7 * sqrt 2)) downwards (5 / 2)) vs /\ Forall (deviates downwards (5 / 1000)) ds /\
  es = repeat (1000 * (PI * (5 / 2) ^ 2) / INR n) n.

(** [M] in suns is [H] in energies: one sun on a bin is 1000 times its area. *)
Definition in_suns (side : R) (M H : list (list R)) : Prop :=
  H = map (map (fun x => x * (1000 * (side / 50) ^ 2))) M.

(** Where light starts from, above the plane z = 0: between two circles around the axis, or
    within a square. *)
Definition in_ring (a b : R) (v : vec) : Prop := a * a <= vx v * vx v + vy v * vy v <= b * b.
Definition in_square (a : R) (v : vec) : Prop := - a <= vx v <= a /\ - a <= vy v <= a.
