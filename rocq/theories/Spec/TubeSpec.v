(** A tube with a mirror all around, and the way light winds through it.  Points and
    directions are in the coordinates of the tube, with its axis along Z. *)
From Coq Require Import Reals List Arith Bool.
From Verif.Base Require Import Py Num Vec.
From Verif.Model Require Import RayBundle Geometry OpticsCallables Engine Surface.
From Verif.Spec Require Import BundleSpec EngineSpec GeometrySpec GeomIface OpticsSpec LibrarySpec LawSpec.
Import ListNotations.
Local Open Scope R_scope.

(** A tube of diameter [D], endless or of the height [H], that reflects and keeps the
    fraction [a] of the energy. *)
Definition mirror_tube (D : R) (H : option R) (a : R) (s : surface) : Prop :=
  s_geom s = match H with None => new_cylinder D | Some h => new_finite_cylinder D h end /\ 0 < D /\
  (s_opt s = Absorbing (Reflective a) \/ exists id, s_opt s = Accountant id (Reflective a)).
(** At the height [z] there is a wall. *)
Definition walled (H : option R) (z : R) : Prop :=
  match H with None => True | Some h => - (h / 2) <= z <= h / 2 end.

(** Products of the parts across the axis. *)
Definition dot_across (p l : vec) : R := vx p * vx l + vy p * vy l.
Definition cross_across (p l : vec) : R := vx p * vy l - vy p * vx l.

(** Seen along the axis, light runs along chords of a circle of radius [r]: half the chord
    on the line through [q] along [l], times the length of [l] across. *)
Definition half_width (r : R) (q l : vec) : R := sqrt (dot_across l l * (r * r) - cross_across q l * cross_across q l).
(** The lengths of the way to the wall and from wall to wall. *)
Definition first_length (r : R) (q l : vec) : R := (half_width r q l - dot_across q l) / dot_across l l.
Definition next_length (r : R) (q l : vec) : R := 2 * half_width r q l / dot_across l l.

(** Light from [q] along [l] is at [P n] on the wall after [n] meetings, and goes on along
    [E n].  The lengths from wall to wall are the same, and so are the rise along the axis,
    the angle with the wall and the sense of winding. *)
Record winds (r : R) (q l : vec) (P E : nat -> vec) : Prop := {
  wd_start : P 0%nat = q /\ E 0%nat = l;
  wd_first : P 1%nat = ray_at q l (first_length r q l);
  wd_next : forall n, (1 <= n)%nat -> P (S n) = ray_at (P n) (E n) (next_length r q l);
  wd_wall : forall n, (1 <= n)%nat -> dot_across (P n) (P n) = r * r;
  wd_unit : forall n, (1 <= n)%nat -> is_unit (E n);
  wd_axis : forall n, (1 <= n)%nat -> vz (E n) = vz l;
  wd_angle : forall n, (1 <= n)%nat -> dot_across (P n) (E n) = - half_width r q l;
  wd_sense : forall n, (1 <= n)%nat -> cross_across (P n) (E n) = cross_across q l }.

(** The light starts in the tube, not almost along the axis, and more than a millionth from
    where it meets the wall. *)
Definition in_tube (r : R) (q l : vec) : Prop :=
  dot_across q q <= r * r /\ tenm 10 < dot_across l l /\ tenm 6 < first_length r q l.
