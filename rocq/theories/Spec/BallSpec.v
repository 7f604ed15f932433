(** A ball with a mirror all around, and the chords that light runs along in it. *)
From Coq Require Import Reals List Arith Bool.
From Verif.Base Require Import Py Num Vec.
From Verif.Model Require Import RayBundle Geometry OpticsCallables Engine Surface.
From Verif.Spec Require Import BundleSpec EngineSpec GeometrySpec GeomIface OpticsSpec LibrarySpec LawSpec.
Import ListNotations.
Local Open Scope R_scope.

(** A sphere of radius [r] that reflects, and keeps the fraction [a] of the energy. *)
Definition mirror_ball (r a : R) (s : surface) : Prop :=
  s_geom s = Sphere r /\ 0 < r /\
  (s_opt s = Absorbing (Reflective a) \/ exists id, s_opt s = Accountant id (Reflective a)).

(** Half of the chord, on the line through [v] along [d], of the ball about [c]: the other
    leg of a right triangle with hypotenuse [r], as the line passes [c] at the distance of
    the length of the cross product. *)
Definition half_chord (c : vec) (r : R) (v d : vec) : R := sqrt (r * r - norm2 (cross (vsub v c) d)).
(** The way to the end of the chord. *)
Definition to_wall (c : vec) (r : R) (v d : vec) : R := half_chord c r v d - dot (vsub v c) d.

(** Light from [v] along [d] is at [P n] on the sphere after [n] meetings, and goes on along
    [D n].  All the chords have the same length, they lie in a plane through the centre and
    pass it at the same distance, on the same side. *)
Record chords (c : vec) (r : R) (v d : vec) (P D : nat -> vec) : Prop := {
  ch_first : P 1%nat = ray_at v d (to_wall c r v d);
  ch_next : forall n, (1 <= n)%nat -> P (S n) = ray_at (P n) (D n) (2 * half_chord c r v d);
  ch_wall : forall n, (1 <= n)%nat -> norm2 (vsub (P n) c) = r * r;
  ch_unit : forall n, (1 <= n)%nat -> is_unit (D n);
  ch_angle : forall n, (1 <= n)%nat -> dot (D n) (vsub (P n) c) = - half_chord c r v d;
  ch_plane : forall n, (1 <= n)%nat -> cross (vsub (P n) c) (D n) = cross (vsub v c) d }.

(** The light starts in the ball, more than a millionth from where it meets the sphere. *)
Definition in_ball (c : vec) (r : R) (v d : vec) : Prop :=
  norm2 (vsub v c) <= r * r /\ tenm 6 < to_wall c r v d.
