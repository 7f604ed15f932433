(** What rotations and rigid motions are. *)
From Coq Require Import Reals.
From Verif.Base Require Import Vec.
From Verif.Spec Require Import GeometrySpec.
Local Open Scope R_scope.

(** Orthogonal with determinant 1. *)
Definition is_rotation (m : mat3) : Prop := orthonormal m /\ det3 m = 1.

(** [m] turns space about the unit vector [axis] by [angle], counterclockwise when
    the axis points to the viewer: the component along the axis stays, and a
    vector [u] at right angles to it goes to [cos u + sin (axis x u)]. *)
Definition turns (axis : vec) (angle : R) (m : mat3) : Prop :=
  forall k u, dot axis u = 0 ->
    mv3 m (vadd (vscale k axis) u) =
    vadd (vscale k axis) (vadd (vscale (cos angle) u) (vscale (sin angle) (cross axis u))).

(** The homogeneous matrix [f] maps each point [p] to [m p + t]. *)
Definition moves (f : mat4) (m : mat3) (t : vec) : Prop :=
  (forall p, mv4 f (hom p) = hom (vadd (mv3 m p) t)) /\ rot_of f = m /\ loc_of f = t.

(** A rigid motion that keeps handedness. *)
Definition proper_motion (f : mat4) : Prop := exists m t, is_rotation m /\ moves f m t.

(** The distance of two points is kept. *)
Definition keeps_distances (f : mat4) : Prop :=
  forall p q, norm2 (vsub (app4 f p) (app4 f q)) = norm2 (vsub p q).
