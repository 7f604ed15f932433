(** What the geometry managers are for, stated without reference to how they
    compute: point sets in the surface's own coordinates, rigid placement in
    space, and the first point of a ray in such a set. *)
From Coq Require Import Reals List Arith Bool.
From Verif.Base Require Import Py Num Vec.
Import ListNotations.
Local Open Scope R_scope.

(** ** Rigid frames *)
Definition orthonormal (m : mat3) : Prop := mm3 (tr3 m) m = id3.

(** A homogeneous transform made of an orthonormal matrix and a translation. *)
Definition rigid (f : mat4) : Prop := exists r t, f = mk4 r t /\ orthonormal r.

(** ** Point sets in local coordinates *)
Definition shape := vec -> Prop.

Definition xy_plane : shape := fun q => vz q = 0.
Definition rectangle (width height : R) : shape := fun q =>
  vz q = 0 /\ - (width / 2) <= vx q <= width / 2 /\ - (height / 2) <= vy q <= height / 2.
Definition disk (radius : R) : shape := fun q =>
  vz q = 0 /\ vx q * vx q + vy q * vy q <= radius * radius.
(** The closed triangle with corners 0, [v0], [v1]. *)
Definition triangle (v0 v1 : vec) : shape := fun q =>
  exists s t, 0 <= s /\ 0 <= t /\ s + t <= 1 /\ q = vadd (vscale s v0) (vscale t v1).
Definition ball_surface (radius : R) : shape := fun q => norm2 q = radius * radius.
Definition lower_half (s : shape) : shape := fun q => s q /\ vz q <= 0.
Definition round_wall (diameter : R) : shape := fun q =>
  vx q * vx q + vy q * vy q = (diameter / 2) * (diameter / 2).
Definition round_wall_of_height (diameter height : R) : shape := fun q =>
  round_wall diameter q /\ - (height / 2) <= vz q <= height / 2.
Definition elliptic_bowl (a b : R) : shape := fun q =>
  vz q = (vx q / a) * (vx q / a) + (vy q / b) * (vy q / b).
(** Paraboloid of revolution with its focus at height [f]. *)
Definition focal_bowl (f : R) : shape := fun q =>
  4 * f * vz q = vx q * vx q + vy q * vy q.
Definition round_dish (diameter f : R) : shape := fun q =>
  focal_bowl f q /\ vx q * vx q + vy q * vy q <= (diameter / 2) * (diameter / 2).
(** The regular hexagon with circumscribed radius [radius] whose sides are
    perpendicular to the directions at 0, 60 and 120 degrees from X. *)
Definition hexagon (radius : R) (x y : R) : Prop :=
  Rabs x <= sqrt 3 / 2 * radius /\
  Rabs (1 / 2 * x + sqrt 3 / 2 * y) <= sqrt 3 / 2 * radius /\
  Rabs (- (1 / 2) * x + sqrt 3 / 2 * y) <= sqrt 3 / 2 * radius.
Definition hex_dish (diameter f : R) : shape := fun q =>
  focal_bowl f q /\ hexagon (diameter / 2) (vx q) (vy q).
Definition ball (centre : vec) (radius : R) : shape := fun q =>
  norm2 (vsub q centre) <= radius * radius.
Definition upper_space : shape := fun q => 0 <= vz q.
Definition solid_cylinder (radius : R) : shape := fun q =>
  vx q * vx q + vy q * vy q <= radius * radius.

(** ** Placement and rays *)

(** The points [app4 frame q] for [q] in the local set. *)
Definition placed (frame : mat4) (s : shape) : shape := fun p =>
  exists q, s q /\ p = app4 frame q.

Definition ray_at (v d : vec) (t : R) : vec := vadd v (vscale t d).

(** [x] is the least number with the property, infinite if there is none. *)
Definition least (P : R -> Prop) (x : num) : Prop :=
  match x with
  | Fin t => P t /\ forall t', P t' -> t <= t'
  | PInf => forall t, ~ P t
  | _ => False
  end.

(** First point of the ray in the set, ahead of the vertex. *)
Definition first_hit (s : shape) (v d : vec) (x : num) : Prop :=
  least (fun t => 0 < t /\ s (ray_at v d t)) x.
(** The same, counting the vertex itself. *)
Definition first_hit0 (s : shape) (v d : vec) (x : num) : Prop :=
  least (fun t => 0 <= t /\ s (ray_at v d t)) x.

(** The ray's direction in the surface's coordinates. *)
Definition local_dir (frame : mat4) (d l : vec) : Prop := d = mv3 (rot_of frame) l.
(** Direction of the local Z axis. *)
Definition z_of (frame : mat4) : vec := mv3 (rot_of frame) (V3 0 0 1).

(** ** Normals *)

(** [n] is a unit vector along the gradient [g] (given in local coordinates) and
    does not point along [d]. *)
Definition good_normal (frame : mat4) (g d n : vec) : Prop :=
  norm2 n = 1 /\ (exists k, n = vscale k (mv3 (rot_of frame) g)) /\ dot n d <= 0.

(** Parameters a surface may report: non-negative, or infinite for a miss. *)
Definition proper_param (x : num) : Prop :=
  match x with Fin t => 0 <= t | PInf => True | _ => False end.
