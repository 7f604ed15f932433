(** Light between the walls of a homogenizer, in its own coordinates. *)
From Coq Require Import Reals List Arith.
From Verif.Base Require Import Py Num Vec.
From Verif.Spec Require Import GeometrySpec ModelSpec.
Import ListNotations.
Local Open Scope R_scope.

(** The direction [u] after [a] reflections by the walls across X and [c] by those across Y. *)
Definition bounced (a c : nat) (u : vec) : vec := V3 ((-1) ^ a * vx u) ((-1) ^ c * vy u) (vz u).

(** Between two walls [W] apart. *)
Definition within (W x : R) : Prop := - (W / 2) <= x <= W / 2.
(** The way in which a coordinate changes. *)
Definition heading (x : R) : R := if Rlt_dec x 0 then -1 else 1.
(** The coordinate after [n] reflections between walls [W] apart that would be [x] without
    them, changing at the rate [u]: one sees the images of the walls as in a kaleidoscope. *)
Definition folded (W : R) (n : nat) (u x : R) : R := (-1) ^ n * (x - heading u * INR n * W).

(** On one of the four walls. *)
Definition on_wall (X Y H : R) (p : vec) : Prop :=
  across_x (X / 2) Y H p \/ across_x (- (X / 2)) Y H p \/ across_y (Y / 2) X H p \/ across_y (- (Y / 2)) X H p.

(** A ray that started at [p0] in the direction [u0] with the energy [e0] is at [p] with
    the energy [e] after [a] and [c] reflections.  It keeps the part [eff] of its energy at
    each, or has met a wall from behind and lost all.  If it started between the walls, it
    stays between them, loses nothing else and is where the images of the walls show it. *)
Definition arrived (X Y H eff : R) (p0 u0 : vec) (e0 : R) (a c : nat) (p : vec) (e : R) : Prop :=
  (a + c = 0 -> p = p0)%nat /\ ((0 < a + c)%nat -> on_wall X Y H p) /\ (e = e0 * eff ^ (a + c) \/ e = 0) /\
  (within X (vx p0) -> within Y (vy p0) -> e = e0 * eff ^ (a + c) /\ within X (vx p) /\ within Y (vy p) /\
     exists s, 0 <= s /\ vx p = folded X a (vx u0) (vx p0 + s * vx u0) /\ vy p = folded Y c (vy u0) (vy p0 + s * vy u0) /\ vz p = vz p0 + s * vz u0).

(** A ray along [u] that is not almost parallel to the wall is at the wall at [q]. *)
Definition reaches (X Y H : R) (u q : vec) : Prop :=
  tenm 10 < Rabs (vx u) /\ (across_x (X / 2) Y H q \/ across_x (- (X / 2)) Y H q) \/
  tenm 10 < Rabs (vy u) /\ (across_y (Y / 2) X H q \/ across_y (- (Y / 2)) X H q).
