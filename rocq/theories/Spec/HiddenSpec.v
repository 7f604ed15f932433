(** What a ray cannot see. *)
From Coq Require Import Reals List Arith Bool.
From Verif.Base Require Import Py Num Vec.
From Verif.Model Require Import RayBundle Boundary Geometry OpticsCallables Engine Surface.
From Verif.Spec Require Import BundleSpec EngineSpec GeometrySpec GeomIface LibrarySpec SightSpec.
Import ListNotations.
Local Open Scope R_scope.

(** The ray from [v] along [d] never comes to the surface [x], or comes to one of [surfs]
    before it: at the length [t], and not right at its start. *)
Definition out_of_sight (surfs : list surface) (x : surface) (v d : vec) : Prop :=
  exists A, in_the_way x v d A /\
  ((forall u, 0 <= u -> ~ A (ray_at v d u)) \/
   exists o B t, In o surfs /\ in_the_way o v d B /\ tenm 6 < t /\ B (ray_at v d t) /\
     (forall u, 0 <= u <= tenm 6 -> ~ B (ray_at v d u)) /\ forall u, 0 <= u <= t -> ~ A (ray_at v d u)).
