(** Light sources. *)
From Coq Require Import Reals List Arith Bool.
From Verif.Base Require Import Vec.
From Verif.Model Require Import RayBundle Sources.
From Verif.Spec Require Import BundleSpec GeometrySpec OpticsSpec.
Import ListNotations.
Local Open Scope R_scope.

(** [d] is a direction at most [ang] away from [axis]. *)
Definition deviates (axis : vec) (ang : R) (d : vec) : Prop :=
  is_unit d /\ exists t, 0 <= t <= ang /\ dot axis d = cos t.

(** [p] is in the disk. *)
Definition in_disk (center normal : vec) (radius : R) (p : vec) : Prop :=
  dot (vsub p center) normal = 0 /\ norm2 (vsub p center) <= radius * radius.

(** Polar coordinates of the plane. *)
Definition polar (r a : R) : vec := V3 (r * cos a) (r * sin a) 0.

Definition sum (l : list R) : R := fold_right Rplus 0 l.

(** [x] and [y] are the axes of the plane at right angles to [z]. *)
Definition right_handed (x y z : vec) : Prop :=
  is_unit x /\ is_unit y /\ dot x y = 0 /\ cross x y = z.

(** [l] is a square grid of [m] by [m] points in the plane of [x] and [y], with
    spacing [h] and first corner [p]. *)
Definition square_grid (p x y : vec) (h : R) (m : nat) (l : list vec) : Prop :=
  length l = (m * m)%nat /\ forall i j, (i < m)%nat -> (j < m)%nat ->
    nth_error l (i * m + j) = Some (vadd p (vadd (vscale (INR i * h) x) (vscale (INR j * h) y))).
