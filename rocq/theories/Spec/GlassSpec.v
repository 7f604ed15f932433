(** Light in a pane of glass: it goes in, goes to and fro between the faces, and part of it
    goes out each time. *)
From Coq Require Import Reals List Arith Bool.
From Verif.Base Require Import Py Num Vec.
From Verif.Model Require Import RayBundle Geometry OpticsCallables Engine Surface.
From Verif.Spec Require Import BundleSpec EngineSpec GeometrySpec GeomIface OpticsSpec LibrarySpec LawSpec ImageSpec.
Import ListNotations.
Local Open Scope R_scope.

(** A plane between media of the indices [i1] and [i2], perpendicular to [u] at the height [h]. *)
Definition face_at (i1 i2 : R) (u : vec) (h : R) (s : surface) : Prop :=
  s_geom s = Flat /\ s_opt s = Refractive i1 i2 /\ (axis s = u \/ axis s = vopp u) /\ dot (middle s) u = h.
(** Two such planes, at the heights [a] and [a + w]. *)
Definition glass (i1 i2 : R) (u : vec) (a w : R) (surfs : list surface) : Prop :=
  0 < w /\ is_unit u /\ (exists s, In s surfs /\ face_at i1 i2 u a s) /\ (exists s, In s surfs /\ face_at i1 i2 u (a + w) s) /\
  forall s, In s surfs -> face_at i1 i2 u a s \/ face_at i1 i2 u (a + w) s.

(** The way to the glass, and the cosine of the angle inside by Snell's law. *)
Definition to_glass (u : vec) (a : R) (v d : vec) : R := (a - dot v u) / dot d u.
Definition inner_cos (k k' : R) (u d : vec) : R := sqrt (1 - k / k' * (k / k') * (1 - dot d u * dot d u)).

(** The light comes to the face at [a] and can go in.  It is neither outside nor inside almost
    parallel to the faces, and its ways to the glass and in it are longer than a millionth. *)
Definition enters (u : vec) (a w k k' : R) (v d : vec) : Prop :=
  tenm 10 < dot d u /\ tenm 10 < inner_cos k k' u d /\ tenm 6 < to_glass u a v d /\ tenm 6 < w / inner_cos k k' u d.

(** The indices outside and inside, in either order. *)
Definition sides (i1 i2 k k' : R) : Prop := k = i1 /\ k' = i2 \/ k = i2 /\ k' = i1.

(** Light from [v] along [d] meets the glass at [P 0], where the fraction [f] is reflected and
    the rest goes in along [D 0].  Inside it is at [P n] after [n] more meetings, and goes on
    along [D n] or out along [Out n].  All that goes out beyond the glass is parallel to the
    light that came, and what goes out before it is parallel to its mirror image. *)
Record to_and_fro (u : vec) (a w k k' : R) (v d : vec) (f : R) (P D Out : nat -> vec) : Prop := {
  tf_start : P 0%nat = ray_at v d (to_glass u a v d);
  tf_share : reflectance k k' d u f;
  tf_in : snell k k' u d (D 0%nat);
  tf_next : forall q, P (S q) = ray_at (P q) (D q) (w / inner_cos k k' u d);
  tf_turn : forall q, mirrored u (D q) (D (S q));
  tf_side : forall q, dot (P q) u = if Nat.even q then a else a + w;
  tf_through : forall q, Nat.even q = true -> Out (S q) = d;
  tf_back : forall q, Nat.even q = false -> mirrored u d (Out (S q));
  tf_shift : forall q, vsub (P (S (S q))) (P q) = vscale (2 * (w / inner_cos k k' u d) * (k / k')) (tangential d u) }.

Definition ray_is (b : bundle) (i : nat) (v d : vec) (e k : R) : Prop :=
  vert_at b i = Some v /\ dir_at b i = Some d /\ energy_at b i = Some e /\ ref_at b i = Some k.
(** A ray at level [L] of the tree that comes from ray [j] of the source. *)
Definition found_at (tree : list bundle) (L j : nat) (v d : vec) (e k : R) : Prop :=
  exists lvl i, nth_error tree L = Some lvl /\ descends tree L i j /\ ray_is lvl i v d e k.

(** Ray [i] of level [L] is the mirrored one, or one inside the glass, or one that has left it. *)
Definition one_of_them (u : vec) (k k' : R) (d : vec) (e f : R) (P D Out : nat -> vec) (L : nat) (lvl : bundle) (i : nat) : Prop :=
  L = 1%nat /\ (exists d', mirrored u d d' /\ ray_is lvl i (P 0%nat) d' (e * f) k) \/
  (exists q, L = (q + 1)%nat /\ ray_is lvl i (P q) (D q) (e * (1 - f) * f ^ q) k') \/
  (exists q, L = (q + 2)%nat /\ ray_is lvl i (P (S q)) (Out (S q)) (e * (1 - f) * f ^ q * (1 - f)) k).
