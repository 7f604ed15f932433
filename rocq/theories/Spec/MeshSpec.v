(** What a mesh of a surface is for. *)
From Coq Require Import Reals List Arith Bool.
From Verif.Base Require Import Py Num Vec.
From Verif.Model Require Import Geometry Surface Mesh.
From Verif.Spec Require Import GeometrySpec.
Import ListNotations.
Local Open Scope R_scope.

Definition in_mesh (m : list (list vec)) (p : vec) : Prop := exists row, In row m /\ In p row.
(** All rows have the same length. *)
Definition two_dimensional (m : list (list vec)) : Prop := exists n, forall row, In row m -> length row = n.
(** Points at most [o] apart. *)
Definition near (o : R) (p q : vec) : Prop := norm2 (vsub p q) <= o * o.

(** The points of the mesh are points of [A'], and every point of [A] is at most [o]
    from one of them. *)
Definition represents (m : list (list vec)) (A A' : shape) (o : R) : Prop :=
  two_dimensional m /\ (forall p, in_mesh m p -> A' p) /\
  forall p, A p -> exists q, in_mesh m q /\ near o p q.
Definition meshed (r : res (list (list vec))) (A A' : shape) (o : R) : Prop :=
  exists m, r = Ok m /\ represents m A A' o.

(** Somewhat larger surfaces. *)
Definition longer_wall (diameter height more : R) : shape := fun q =>
  round_wall diameter q /\ - (height / 2) <= vz q < height / 2 + more.
Definition larger_dish (diameter f more : R) : shape := fun q =>
  focal_bowl f q /\ vx q * vx q + vy q * vy q <= (diameter / 2 + more) * (diameter / 2 + more).

(** The number of points, and "of the order of the area times the square of the
    resolution". *)
Definition points (m : list (list vec)) : nat := length (concat m).
Definition in_proportion (r : res (list (list vec))) (area resolution : R) : Prop :=
  exists m, r = Ok m /\ INR (points m) <= 6 * area * (resolution * resolution).
