(** The ways of light in a drop: it goes in, is reflected inside any number of times, and
    part of it goes out each time. *)
From Coq Require Import Reals List Arith Bool.
From Verif.Base Require Import Py Num Vec.
From Verif.Model Require Import RayBundle Geometry OpticsCallables Engine Surface.
From Verif.Spec Require Import BundleSpec EngineSpec GeometrySpec GeomIface OpticsSpec LibrarySpec LawSpec BallSpec.
Import ListNotations.
Local Open Scope R_scope.

(** A sphere of radius [r] between media of the indices [i1] and [i2]. *)
Definition drop (r i1 i2 : R) (s : surface) : Prop := s_geom s = Sphere r /\ 0 < r /\ s_opt s = Refractive i1 i2.
(** The index outside and the one inside, in either order. *)
Definition faces (i1 i2 k k' : R) : Prop := k = i1 /\ k' = i2 \/ k = i2 /\ k' = i1.

(** From outside, the way to the drop. *)
Definition to_drop (c : vec) (r : R) (v d : vec) : R := - dot (vsub v c) d - half_chord c r v d.
(** Half of the chords inside: by Snell's law the light passes the centre at a distance that
    is in the proportion of the indices. *)
Definition inner_half (c : vec) (r k k' : R) (v d : vec) : R :=
  sqrt (r * r - k / k' * (k / k') * norm2 (cross (vsub v c) d)).

(** The light comes to the drop and can go in; its ways to it and in it are longer than a
    millionth. *)
Definition comes_in (c : vec) (r k k' : R) (v d : vec) : Prop :=
  norm2 (cross (vsub v c) d) < r * r /\ k * k * norm2 (cross (vsub v c) d) < k' * k' * (r * r) /\
  tenm 6 < to_drop c r v d /\ tenm 6 < 2 * inner_half c r k k' v d.

(** Light from [v] along [d] meets the drop at [P 0], where the fraction [f] is reflected and
    the rest goes in along [D 0].  Inside it is at [P n] after [n] more meetings, and goes on
    along [D n] or out along [Out n].  Light that goes out makes the same angle with the drop
    as the light that came in, and passes the centre in the same plane at the same distance. *)
Record rainbow (c : vec) (r k k' : R) (v d : vec) (f : R) (P D Out : nat -> vec) : Prop := {
  rb_start : P 0%nat = ray_at v d (to_drop c r v d) /\ norm2 (vsub (P 0%nat) c) = r * r;
  rb_share : reflectance k k' d (vscale (/ r) (vsub (P 0%nat) c)) f;
  rb_in : snell k k' (vscale (/ r) (vsub (P 0%nat) c)) d (D 0%nat);
  rb_chords : chords c r (P 0%nat) (D 0%nat) P D /\ half_chord c r (P 0%nat) (D 0%nat) = inner_half c r k k' v d;
  rb_out : forall n, snell k' k (vscale (- / r) (vsub (P (S n)) c)) (D n) (Out (S n));
  rb_angle : forall n, dot (Out (S n)) (vsub (P (S n)) c) = half_chord c r v d;
  rb_plane : forall n, cross (vsub (P (S n)) c) (Out (S n)) = cross (vsub v c) d }.

Definition is_ray (b : bundle) (i : nat) (v d : vec) (e k : R) : Prop :=
  vert_at b i = Some v /\ dir_at b i = Some d /\ energy_at b i = Some e /\ ref_at b i = Some k.
(** A ray at level [L] of the tree that comes from ray [j] of the source. *)
Definition there (tree : list bundle) (L j : nat) (v d : vec) (e k : R) : Prop :=
  exists lvl i, nth_error tree L = Some lvl /\ descends tree L i j /\ is_ray lvl i v d e k.

(** Ray [i] of level [L] is the mirrored one, or one inside the drop, or one that has left it. *)
Definition in_rainbow (c : vec) (r k k' : R) (d : vec) (e f : R) (P D Out : nat -> vec) (L : nat) (lvl : bundle) (i : nat) : Prop :=
  L = 1%nat /\ (exists d', mirrored (vscale (/ r) (vsub (P 0%nat) c)) d d' /\ is_ray lvl i (P 0%nat) d' (e * f) k) \/
  (exists q, L = (q + 1)%nat /\ is_ray lvl i (P q) (D q) (e * (1 - f) * f ^ q) k') \/
  (exists q, L = (q + 2)%nat /\ is_ray lvl i (P (S q)) (Out (S q)) (e * (1 - f) * f ^ q * (1 - f)) k).
