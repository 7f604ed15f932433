(** Ways of light in the open, for surfaces that are given as point sets. *)
From Coq Require Import Reals List Arith Bool.
From Verif.Base Require Import Py Num Vec.
From Verif.Model Require Import RayBundle Boundary Geometry OpticsCallables Engine Surface.
From Verif.Spec Require Import BundleSpec EngineSpec GeometrySpec GeomIface OpticsSpec LibrarySpec LawSpec BackSpec SightSpec FoundSpec.
Import ListNotations.
Local Open Scope R_scope.

(** [B s] is the shape of the surface [s] in its own coordinates, [c s] tells the rays that
    do not run almost parallel to it. *)
Definition shaped_as (surfs : list surface) (B : surface -> shape) (c : surface -> vec -> vec -> Prop) : Prop :=
  forall s, In s surfs -> made_as (s_frame s) (s_geom s) (B s) (c s).
(** Nothing between [v] and the point at the length [t] along [d]. *)
Definition open_until (surfs : list surface) (B : surface -> shape) (c : surface -> vec -> vec -> Prop) (v d : vec) (t : R) : Prop :=
  forall s, In s surfs -> c s v d /\ forall u, 0 < u < t -> ~ placed (s_frame s) (B s) (ray_at v d u).

(** As [seen_way], with the shapes of the surfaces fixed. *)
Inductive open_way (surfs : list surface) (B : surface -> shape) (c : surface -> vec -> vec -> Prop) (me : R) :
    vec -> vec -> R -> option R -> list meeting -> vec -> vec -> R -> option R -> Prop :=
| open_here v d e m : open_way surfs B c me v d e m [] v d e m
| open_next v d e m t x e1 path v' d' e' m' :
    In (mt_surf x) surfs -> open_until surfs B c v d t -> tenm 6 < t -> placed (s_frame (mt_surf x)) (B (mt_surf x)) (mt_point x) ->
    mt_point x = ray_at v d t -> mt_in x = d -> mt_before x = m -> lawful_meeting x e e1 ->
    specular (s_opt (mt_surf x)) -> dot d (mt_normal x) <> 0 -> (path <> [] -> me < e1) ->
    open_way surfs B c me (mt_point x) (mt_out x) e1 (mt_after x) path v' d' e' m' ->
    open_way surfs B c me v d e m (x :: path) v' d' e' m'.
