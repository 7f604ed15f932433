(** Surfaces made of triangles. *)
From Coq Require Import Reals List Arith ZArith Bool.
From Verif.Base Require Import Py Num Vec.
From Verif.Model Require Import RayBundle OpticsCallables Surface Scene Triangulated.
From Verif.Spec Require Import BundleSpec EngineSpec GeometrySpec OpticsSpec FrameSpec SceneSpec ModelSpec.
Import ListNotations.
Local Open Scope R_scope.

(** A triangle by its corners, its points, and its direction: unit, perpendicular
    to the sides, with the corners counterclockwise around it. *)
Record tri : Type := mkTri { t0 : vec; t1 : vec; t2 : vec }.
Definition points_of (t : tri) : shape := fun p =>
  exists a b c, 0 <= a /\ 0 <= b /\ 0 <= c /\ a + b + c = 1 /\
    p = vadd (vadd (vscale a (t0 t)) (vscale b (t1 t))) (vscale c (t2 t)).
Definition facing (t : tri) (z : vec) : Prop :=
  is_unit z /\ exists k, 0 < k /\ z = vscale k (cross (vsub (t1 t) (t0 t)) (vsub (t2 t) (t0 t))).

(** The sides from the first corner are longer than 1e-8, and it has an area. *)
Definition proper (t : tri) : Prop :=
  / 10 ^ 8 < norm (vsub (t1 t) (t0 t)) /\ / 10 ^ 8 < norm (vsub (t2 t) (t0 t)) /\
  cross (vsub (t1 t) (t0 t)) (vsub (t2 t) (t0 t)) <> vzero.

(** [i] is the index of [x] in [l], possibly counted from the end. *)
Definition index_of {A : Type} (l : list A) (i : Z) (x : A) : Prop :=
  exists k, nth_error l k = Some x /\ (i = Z.of_nat k \/ i = Z.of_nat k - Z.of_nat (length l))%Z.
(** A row of the face list names the corners of [t]. *)
Definition names_corners (vertices : list vec) (f : row) (t : tri) : Prop :=
  index_of vertices (f0 f) (t0 t) /\ index_of vertices (f1 f) (t1 t) /\ index_of vertices (f2 f) (t2 t).

(** Asked about any rays, [s] reports the first meeting with the flat set [A]. *)
Definition covers (s : surface) (A : shape) (z : vec) : Prop :=
  forall b n, traceable b n ->
  exists s1 ps, surf_register s b = Ok (s1, ps) /\ length ps = n /\
    forall j v d x, vert_at b j = Some v -> dir_at b j = Some d -> nth_error ps j = Some x -> meets_flat A z v d x.

(** The part [p], in an object placed anywhere by [T], is the triangle [t] with
    optics [o]. *)
Definition shows (o : optics) (t : tri) (p : part) : Prop :=
  p_opt p = o /\ exists z, facing t z /\ forall T, rigid T ->
    covers (seen_part T p) (placed T (points_of t)) (turned T z) /\
    forall a, o = Absorbing (Reflective a) -> flat_mirror (seen_part T p) (placed T (points_of t)) (turned T z) (1 - a).

(** The triangle with its first corner moved to [p]. *)
Definition carried (p : vec) (t : tri) : tri :=
  mkTri p (vadd p (vsub (t1 t) (t0 t))) (vadd p (vsub (t2 t) (t0 t))).

(** The members of a list with the property, in order. *)
Inductive selection {A : Type} (P : A -> Prop) : list A -> list A -> Prop :=
  | sel_nil : selection P [] []
  | sel_in x l m : P x -> selection P l m -> selection P (x :: l) (x :: m)
  | sel_out x l m : ~ P x -> selection P l m -> selection P (x :: l) m.

(** Making a triangulated surface of the triangles [ts], placed by [t], with
    [parts] for surfaces. *)
Definition makes_surface (limit : nat) (vertices : list vec) (faces : list row) (o : optics) (tr : option Assembly.ref) (t : mat4)
    (sc : scene) (parts : list part) : Prop :=
  exists sc' n ss, triangulated_surface limit vertices faces o tr sc = (sc', Ok n) /\ reached limit sc' /\ undisturbed sc sc' /\
    ~ exists_in sc n /\ (forall s, In s ss -> ~ exists_in sc s) /\ NoDup ss /\ is_object sc' n (mkO false t parts) ss.
