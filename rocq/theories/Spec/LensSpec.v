(** Lenses with spherical faces. *)
From Coq Require Import Reals List Arith Bool.
From Verif.Base Require Import Py Num Vec.
From Verif.Model Require Import RayBundle OpticsCallables Surface Scene Lens.
From Verif.Spec Require Import BundleSpec EngineSpec GeometrySpec GeomIface OpticsSpec FrameSpec SceneSpec ModelSpec TriangleSpec.
Import ListNotations.
Local Open Scope R_scope.

(** Squared distance from the axis. *)
Definition off_axis (p : vec) : R := vx p * vx p + vy p * vy p.
(** The face of radius of curvature [r] and aperture [diameter] that meets the axis
    at height [v].  Its centre of curvature is at height [v - r]. *)
Definition cap (diameter r v : R) : shape := fun p =>
  norm2 (vsub p (V3 0 0 (v - r))) = r * r /\ 0 <= (vz p - (v - r)) * r /\ off_axis p <= (diameter / 2) * (diameter / 2).
Definition disc (diameter v : R) : shape := fun p => vz p = v /\ off_axis p <= (diameter / 2) * (diameter / 2).
Definition tube (diameter lo hi : R) : shape := fun p => off_axis p = (diameter / 2) * (diameter / 2) /\ lo <= vz p <= hi.

(** [A] meets the axis exactly at [v], and its edge is at height [z]. *)
Definition apex (A : shape) (v : R) : Prop := forall x, A (V3 0 0 x) <-> x = v.
Definition edge (diameter : R) (A : shape) (z : R) : Prop :=
  forall p, off_axis p = (diameter / 2) * (diameter / 2) -> (A p <-> vz p = z).

(** Asked about any rays, [s] reports the first meetings with [A], part of a sphere
    around [c], exactly when no ray that only leaves the sphere comes before one that
    only enters it. *)
Definition meets_entering_first (s : surface) (A : shape) (c : vec) : Prop :=
  forall b vs ds, has_rays b vs ds -> (forall d, In d ds -> tenm 10 < norm2 d) ->
  exists s1 ps, surf_register s b = Ok (s1, ps) /\ length ps = length vs /\
    (entering_first A c vs ds <->
     forall i v d x, nth_error vs i = Some v -> nth_error ds i = Some d -> nth_error ps i = Some x ->
       first_hit A v d x).
(** Asked about any rays, [s] reports the first meeting with [A] of those that are
    not almost parallel to the axis of the lens. *)
Definition meets_across (T : mat4) (diameter : R) (s : surface) (A : shape) : Prop :=
  forall b vs ds, has_rays b vs ds ->
  exists s1 ps, surf_register s b = Ok (s1, ps) /\ length ps = length vs /\
    forall i v d x, nth_error vs i = Some v -> nth_error ds i = Some d -> nth_error ps i = Some x ->
      cylinder_safe T diameter v d -> first_hit A v d x.

(** Parts of an object placed anywhere by [T]. *)
Definition face_of (n : R) (A : shape) (c : vec) (p : part) : Prop :=
  p_opt p = Refractive 1 n /\ forall T, rigid T -> meets_entering_first (seen_part T p) (placed T A) (app4 T c).
Definition flat_face_of (n : R) (A : shape) (p : part) : Prop :=
  p_opt p = Refractive 1 n /\ forall T, rigid T -> covers (seen_part T p) (placed T A) (turned T (V3 0 0 (-1))).
Definition wall_of (n diameter : R) (A : shape) (p : part) : Prop :=
  p_opt p = Refractive n 1 /\ forall T, rigid T -> meets_across T diameter (seen_part T p) (placed T A).
(** A wall from the edge of the back to that of the front, where there is a gap. *)
Definition closed_by (n diameter : R) (front back : shape) (walls : list part) : Prop :=
  exists zf zb, edge diameter front zf /\ edge diameter back zb /\
    (zb < zf /\ (exists w, walls = [w] /\ wall_of n diameter (tube diameter zb zf) w) \/ zf <= zb /\ walls = []).

(** The lensmaker equation. *)
Definition lensmaker (n depth r1 r2 : R) : R := (n - 1) * (1 / r1 - 1 / r2 + (n - 1) * depth / (n * r1 * r2)).

Definition makes_lens (limit : nat) (diameter depth : R) (r1 r2 : radius_arg) (n : R) (tr : option Assembly.ref) (t : mat4)
    (sc : scene) (f : R) (parts : list part) : Prop :=
  exists sc' l ss, spherical_lens limit diameter depth r1 r2 n tr sc = (sc', Ok l) /\ reached limit sc' /\ undisturbed sc sc' /\
    ~ exists_in sc (l_node l) /\ (forall s, In s ss -> ~ exists_in sc s) /\ NoDup ss /\
    ss = l_front l :: l_back l :: match l_cyl l with Some c => [c] | None => [] end /\
    is_object sc' (l_node l) (mkO false t parts) ss /\ focal_length l = f.

(** A planar face, as the docstring describes it. *)
Definition planar_radius (r : radius_arg) : Prop := r = None \/ r = Some (Fin 0) \/ r = Some PInf \/ r = Some NInf.

(** ** Paraxial rays going down the axis *)

(** At height [z], [y] from the axis with slope [u]; the slope is against the
    distance travelled down the axis. *)
Record paraxial : Type := mkPx { px_z : R; px_y : R; px_u : R }.
(** On to height [z]. *)
Definition travels (z : R) (p : paraxial) : paraxial := mkPx z (px_y p + px_u p * (px_z p - z)) (px_u p).
(** From index [n] into [n'] at a face of radius [r]: Snell's law for small angles. *)
Definition refracts (n n' r : R) (p q : paraxial) : Prop :=
  px_z q = px_z p /\ px_y q = px_y p /\ n' * px_u q = n * px_u p - px_y p * ((n' - n) / r).
(** A lens with vertices at [v1] above [v2] brings all rays parallel to the axis to
    the axis at [z]. *)
Definition focus_at (n r1 v1 r2 v2 z : R) : Prop :=
  forall y p q, refracts 1 n r1 (mkPx v1 y 0) p -> refracts n 1 r2 (travels v2 p) q -> px_y (travels z q) = 0.
