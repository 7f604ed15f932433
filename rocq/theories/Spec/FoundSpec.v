(** Ways of light that a trace has to find: those that follow the laws of optics and have
    nothing in between. *)
From Coq Require Import Reals List Arith Bool.
From Verif.Base Require Import Py Num Vec.
From Verif.Model Require Import RayBundle Boundary Geometry OpticsCallables Engine Surface.
From Verif.Spec Require Import BundleSpec EngineSpec GeometrySpec GeomIface OpticsSpec LibrarySpec LawSpec BackSpec SightSpec.
Import ListNotations.
Local Open Scope R_scope.

(** From [v] along [d] there is no point of any surface before the length [t]. *)
Definition clear_until (surfs : list surface) (v d : vec) (t : R) : Prop :=
  forall s, In s surfs -> exists A, in_the_way s v d A /\ forall u, 0 < u < t -> ~ A (ray_at v d u).
(** The point at the length [t], further than a millionth, is one of the surface. *)
Definition on_surface (s : surface) (v d : vec) (t : R) : Prop :=
  tenm 6 < t /\ exists A, in_the_way s v d A /\ A (ray_at v d t).

(** Light at [v] with direction [d], energy [e] and index [m] meets one surface after the
    other, each time the first in its way.  The surfaces do not scatter at random, none is
    grazed, and the energy is above the limit [me] all the way to the last meeting.  At
    that it is sent on from [v'], with direction [d'], energy [e'] and index [m']. *)
Inductive seen_way (surfs : list surface) (me : R) :
    vec -> vec -> R -> option R -> list meeting -> vec -> vec -> R -> option R -> Prop :=
| seen_here v d e m : seen_way surfs me v d e m [] v d e m
| seen_next v d e m t x e1 path v' d' e' m' :
    In (mt_surf x) surfs -> clear_until surfs v d t -> on_surface (mt_surf x) v d t ->
    mt_point x = ray_at v d t -> mt_in x = d -> mt_before x = m -> lawful_meeting x e e1 ->
    specular (s_opt (mt_surf x)) -> dot d (mt_normal x) <> 0 -> (path <> [] -> me < e1) ->
    seen_way surfs me (mt_point x) (mt_out x) e1 (mt_after x) path v' d' e' m' ->
    seen_way surfs me v d e m (x :: path) v' d' e' m'.
