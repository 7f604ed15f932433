(** Ways of light from surface to surface, and the same ways taken backwards. *)
From Coq Require Import Reals String List Arith Bool.
From Verif.Base Require Import Py Num Vec.
From Verif.Model Require Import RayBundle Geometry OpticsCallables Engine Surface.
From Verif.Spec Require Import BundleSpec EngineSpec GeometrySpec GeomIface OpticsSpec LibrarySpec LawSpec.
Import ListNotations.
Local Open Scope list_scope.
Local Open Scope R_scope.

(** A ray meets a surface at a point with a normal: which surface, whether the ray goes
    through it, the directions and the refractive indices before and after. *)
Record meeting : Type := mkMeeting {
  mt_surf : surface; mt_through : bool; mt_point : vec; mt_normal : vec;
  mt_in : vec; mt_out : vec; mt_before : option R; mt_after : option R }.

(** The meeting follows the laws of optics and takes the energy from [e] to [e']. *)
Definition lawful_meeting (x : meeting) (e e' : R) : Prop :=
  let s := mt_surf x in is_unit (mt_in x) /\
  (exists q g, mt_point x = app4 (s_frame s) q /\ is_gradient (implicit (s_geom s)) q g /\
     good_normal (s_frame s) g (mt_in x) (mt_normal x)) /\
  follows (mt_through x) (s_opt s) (z_of (s_frame s)) (mt_normal x) (mt_in x) e (mt_before x) (mt_out x) e' (mt_after x).

(** Light at [v] with direction [d], energy [e] and index [m] comes by the meetings [path]
    to [v'], with direction [d'], energy [e'] and index [m']; between meetings it runs
    straight. *)
Inductive way (surfs : list surface) : vec -> vec -> R -> option R -> list meeting -> vec -> vec -> R -> option R -> Prop :=
| way_straight v d e m t : 0 <= t -> way surfs v d e m [] (ray_at v d t) d e m
| way_meets v d e m t x e1 path v' d' e' m' : 0 <= t -> In (mt_surf x) surfs ->
    mt_point x = ray_at v d t -> mt_in x = d -> mt_before x = m -> lawful_meeting x e e1 ->
    way surfs (mt_point x) (mt_out x) e1 (mt_after x) path v' d' e' m' ->
    way surfs v d e m (x :: path) v' d' e' m'.

(** The same meeting seen by light that comes back. *)
Definition turned_back (x : meeting) : meeting :=
  mkMeeting (mt_surf x) (mt_through x) (mt_point x) (if mt_through x then vopp (mt_normal x) else mt_normal x)
    (vopp (mt_out x)) (vopp (mt_in x)) (mt_after x) (mt_before x).

(** What must hold for light to come back: the surface does not scatter at random, a
    one-sided mirror is met on its front both ways, glass lies between the two indices it
    knows, and light that passes it does not run along the surface. *)
Definition works_back (x : meeting) : Prop :=
  match s_opt (mt_surf x) with
  | Absorbing (Reflective _) | Accountant _ (Reflective _) => True
  | Absorbing (AbsorberReflector _) | Accountant _ (AbsorberReflector _) =>
      dot (mt_in x) (z_of (s_frame (mt_surf x))) <= 0 /\ 0 <= dot (mt_out x) (z_of (s_frame (mt_surf x)))
  | Absorbing (Lambertian _) | Accountant _ (Lambertian _) => False
  | Refractive i1 i2 => (mt_before x = Some i1 \/ mt_before x = Some i2) /\
      (mt_through x = true -> dot (mt_in x) (mt_normal x) <> 0 /\ dot (mt_out x) (mt_normal x) <> 0)
  end.
