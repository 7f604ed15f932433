(** A dish used as a searchlight.  Points and directions are in the coordinates of the dish. *)
From Coq Require Import Reals List Arith Bool.
From Verif.Base Require Import Py Num Vec.
From Verif.Model Require Import RayBundle Geometry OpticsCallables Engine Surface.
From Verif.Spec Require Import BundleSpec EngineSpec GeometrySpec GeomIface OpticsSpec LibrarySpec LawSpec.
Import ListNotations.
Local Open Scope R_scope.

(** A round or hexagonal dish of focal length [f] that consists of the points [A], reflects
    and keeps the fraction [a] of the energy. *)
Definition dish_mirror (f a : R) (A : shape) (s : surface) : Prop :=
  (exists D, new_dish D f = Ok (s_geom s) /\ A = round_dish D f \/ new_hex_dish D f = Ok (s_geom s) /\ A = hex_dish D f) /\
  (s_opt s = Absorbing (Reflective a) \/ exists id, s_opt s = Accountant id (Reflective a)).
Definition focus_at (f : R) : vec := V3 0 0 f.
(** Along the axis, or not almost along it. *)
Definition tells_from_axis (f : R) (l : vec) : Prop :=
  4 * f * tenm 10 < vx l * vx l + vy l * vy l \/ vx l = 0 /\ vy l = 0 /\ vz l <> 0.
