(** The geometry managers as seen by a caller: claims about the answers given for
    the rays of a bundle. *)
From Coq Require Import Reals List Arith Bool.
From Verif.Base Require Import Py Num Vec.
From Verif.Model Require Import RayBundle Boundary Geometry.
From Verif.Spec Require Import GeometrySpec.
Import ListNotations.
Local Open Scope R_scope.

(** A bundle with given vertices and directions. *)
Definition has_rays (b : bundle) (vs ds : list vec) : Prop :=
  b_vert b = Some vs /\ b_dir b = Some ds /\ length vs = length ds.

(** Asked about any bundle, the geometry manager answers with one parameter per
    ray, related to the ray by [P]. *)
Definition finds (gm : geom) (frame : mat4) (P : vec -> vec -> num -> Prop) : Prop :=
  forall b vs ds, has_rays b vs ds ->
  exists st ps, find_intersections gm frame b = Ok (st, ps) /\ length ps = length vs /\
    forall i v d x, nth_error vs i = Some v -> nth_error ds i = Some d -> nth_error ps i = Some x ->
      P v d x.

(** The same for bundles of a single ray. *)
Definition finds_one (gm : geom) (frame : mat4) (P : vec -> vec -> num -> Prop) : Prop :=
  forall b v d, has_rays b [v] [d] ->
  exists st x, find_intersections gm frame b = Ok (st, [x]) /\ P v d x.

(** ** Bundles that meet part of a sphere, entering rays first *)

(** The ray meets [A], part of a sphere around [c], only from without, or only from
    within. *)
Definition comes_in (A : shape) (c v d : vec) : Prop :=
  (exists t, 0 < t /\ A (ray_at v d t)) /\
  forall t, 0 < t -> A (ray_at v d t) -> dot d (vsub (ray_at v d t) c) < 0.
Definition goes_out (A : shape) (c v d : vec) : Prop :=
  (exists t, 0 < t /\ A (ray_at v d t)) /\
  forall t, 0 < t -> A (ray_at v d t) -> 0 < dot d (vsub (ray_at v d t) c).
(** Rays of the first kind come before those of the second, among any others. *)
Definition entering_first (A : shape) (c : vec) (vs ds : list vec) : Prop :=
  forall i j v d v' d', (i < j)%nat -> nth_error vs i = Some v -> nth_error ds i = Some d ->
    nth_error vs j = Some v' -> nth_error ds j = Some d' -> goes_out A c v d -> comes_in A c v' d' -> False.
(** The answers are the first meetings with [A] exactly when the
    entering rays come first. *)
Definition finds_entering_first (gm : geom) (frame : mat4) (A : shape) (c : vec) : Prop :=
  forall b vs ds, has_rays b vs ds -> (forall d, In d ds -> tenm 10 < norm2 d) ->
  exists st ps, find_intersections gm frame b = Ok (st, ps) /\ length ps = length vs /\
    (entering_first A c vs ds <->
     forall i v d x, nth_error vs i = Some v -> nth_error ds i = Some d -> nth_error ps i = Some x ->
       first_hit A v d x).

(** Directions not almost parallel to a flat surface. *)
Definition inclined (frame : mat4) (d : vec) : Prop := tenm 10 < Rabs (dot d (z_of frame)).

Definition flat_answer (frame : mat4) (s : shape) (v d : vec) (x : num) : Prop :=
  (inclined frame d -> first_hit0 (placed frame s) v d x) /\
  (~ inclined frame d -> x = PInf).

(** Directions for which the cylinder's equation is solved as a quadratic, or
    parallel to the axis of the cylinder with the ray not inside its wall. *)
Definition cylinder_safe (frame : mat4) (diameter : R) (v d : vec) : Prop :=
  exists l q, d = mv3 (rot_of frame) l /\ v = app4 frame q /\
    (tenm 10 < vx l * vx l + vy l * vy l \/ vx l = 0 /\ vy l = 0 /\ ~ round_wall diameter q).

(** The same for the paraboloid z = (x/a)^2 + (y/b)^2. *)
Definition bowl_safe (frame : mat4) (a b : R) (d : vec) : Prop :=
  exists l, d = mv3 (rot_of frame) l /\
    (tenm 10 < (vx l / a) * (vx l / a) + (vy l / b) * (vy l / b) \/ vx l = 0 /\ vy l = 0 /\ vz l <> 0).

(** The bounding volume in the coordinates of the frame it is attached to. *)
Definition volume (bd : bshape) : shape :=
  match bd with
  | BSphere c r => ball c r
  | BPlane tr => placed tr upper_space
  | BCylinder r tr => placed tr (solid_cylinder r)
  | BBase _ => fun _ => False
  end.
Definition sphere_or_plane (bd : bshape) : Prop :=
  match bd with BSphere _ _ => True | BPlane tr => rigid tr | _ => False end.

(** The reported point of every selected ray. *)
Definition point_of (b : bundle) (ps : list num) (i : nat) (p : vec) : Prop :=
  exists vs ds v d t, has_rays b vs ds /\ nth_error vs i = Some v /\ nth_error ds i = Some d /\
    nth_error ps i = Some (Fin t) /\ p = ray_at v d t.

(** ** Normals *)

(** [g] is the gradient of [F] at [q]. *)
Definition is_gradient (F : vec -> R) (q g : vec) : Prop :=
  derivable_pt_lim (fun x => F (V3 x (vy q) (vz q))) (vx q) (vx g) /\
  derivable_pt_lim (fun y => F (V3 (vx q) y (vz q))) (vy q) (vy g) /\
  derivable_pt_lim (fun z => F (V3 (vx q) (vy q) z)) (vz q) (vz g).

(** The function whose zeros are the (untrimmed) surface, in local coordinates. *)
Definition implicit (gm : geom) (q : vec) : R :=
  match gm with
  | Base | Flat | RectPlate _ _ | RoundPlate _ | Triangle _ _ => vz q
  | Sphere r | Hemisphere r | CutSphere r _ => norm2 q - r * r
  | Cylinder r | FiniteCyl r _ => vx q * vx q + vy q * vy q - r * r
  | Parab a b | ParabDish a b _ _ | HexDish a b _ => a * (vx q * vx q) + b * (vy q * vy q) - vz q
  end.

(** Direction of ray [i]. *)
Definition direction_of (b : bundle) (i : nat) (d : vec) : Prop :=
  exists vs ds, has_rays b vs ds /\ nth_error ds i = Some d.

Definition all_hit (ps : list num) (idxs : list nat) : Prop :=
  forall i, In i idxs -> exists t, nth_error ps i = Some (Fin t).

(** ** Bounding volumes *)

(** The flags say for each point whether it lies in the volume placed by [frame]. *)
Definition says_inside (bd : bshape) (frame : mat4) : Prop :=
  forall ps, exists flags, in_bounds (transform_frame_b bd frame) (map nfin ps) = Ok flags /\
    length flags = length ps /\
    forall i p f, nth_error ps i = Some p -> nth_error flags i = Some f ->
      (f = true <-> placed frame (volume bd) p).

(** A rectangle (xmin, xmax, ymin, ymax) of the XY plane of [tr] that contains the
    section of the ball by that plane. *)
Definition covers_section (tr : mat4) (centre : vec) (radius : R) (rect : R * R * R * R) : Prop :=
  let '(x0, x1, y0, y1) := rect in
  forall q, vz q = 0 -> ball centre radius (app4 tr q) -> x0 <= vx q <= x1 /\ y0 <= vy q <= y1.
