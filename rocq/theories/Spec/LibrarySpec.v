(** Surfaces made of library geometry and optics managers, and the rays they can
    deal with. *)
From Coq Require Import Reals List Arith Bool.
From Verif.Base Require Import Py Num Vec.
From Verif.Model Require Import RayBundle Geometry OpticsCallables Engine Surface.
From Verif.Spec Require Import BundleSpec EngineSpec GeometrySpec OpticsSpec.
Import ListNotations.
Local Open Scope R_scope.

(** Unit direction, no negative energy, a positive refractive index if any. *)
Definition lib_ray : ray_prop := fun d e m =>
  is_unit d /\ 0 <= e /\ forall n, m = Some n -> 0 < n.

(** Absorptivity within [0, 1], positive refractive indices. *)
Definition optics_ok (o : optics) : Prop :=
  match o with
  | Absorbing o | Accountant _ o => 0 <= absorptivity o <= 1
  | Refractive n1 n2 => 0 < n1 /\ 0 < n2
  end.

(** No data of a trace left, apart from the indices selected last. *)
Definition idle (s : surface) : Prop := s_gstate s = GIdle /\ s_bundle s = None.

(** A surface of the library, rigidly placed and between traces. *)
Definition lib_surface (s : surface) : Prop :=
  rigid (s_frame s) /\ optics_ok (s_opt s) /\ idle s.

(** Surfaces that differ at most in the indices selected last. *)
Definition same_surface (s s' : surface) : Prop :=
  s_geom s' = s_geom s /\ s_opt s' = s_opt s /\ s_frame s' = s_frame s /\
  s_gstate s' = s_gstate s /\ s_bundle s' = s_bundle s.

(** Objects with library surfaces, numbered object by object. *)
Definition library_assembly (objs : list obj) (surfs : list surface) : Prop :=
  (forall ob, In ob objs -> object_contract ob) /\ (forall s, In s surfs -> lib_surface s) /\
  length surfs = length (surf_ownership objs).

Definition library_source (b : bundle) (n : nat) : Prop := traceable b n /\ all_rays lib_ray b.

(** Surface [s], given some of the rays of [b], reports the parameter [t] for ray
    [j] of [b]. *)
Definition reports_hit (s : surface) (b : bundle) (j : nat) (t : R) : Prop :=
  exists sub idx q s' ps, rays_picked b idx sub /\ nth_error idx q = Some j /\
    surf_register s sub = Ok (s', ps) /\ nth_error ps q = Some (Fin t).

(** No ray of [b] is reported to meet two surfaces at once. *)
Definition never_ties (surfs : list surface) (b : bundle) : Prop :=
  forall i i' s s' j t, nth_error surfs i = Some s -> nth_error surfs i' = Some s' ->
    reports_hit s b j t -> reports_hit s' b j t -> i = i'.

(** What optics manager [o] of a surface facing [z] makes of energy [e] coming in along
    [d]: all rays sent on have the energy [e'] together. *)
Definition sends_on (o : optics) (z d : vec) (e e' : R) : Prop :=
  match o with
  | Absorbing (Reflective a) | Accountant _ (Reflective a)
  | Absorbing (Lambertian a) | Accountant _ (Lambertian a) => e' = e * (1 - a)
  | Absorbing (AbsorberReflector a) | Accountant _ (AbsorberReflector a) =>
      (dot d z <= 0 -> e' = e * (1 - a)) /\ (0 < dot d z -> e' = 0)
  | Refractive _ _ => e' = e
  end.

(** Optics managers that draw no random numbers. *)
Definition not_random (o : optics) : Prop :=
  match o with
  | Absorbing (Lambertian _) | Accountant _ (Lambertian _) => False
  | _ => True
  end.

(** Geometry managers that answer every bundle: with a surface to speak of, and
    reporting no negative parameters. *)
Definition geom_ok (gm : geom) : Prop :=
  match gm with
  | Base | Hemisphere _ | CutSphere _ (Some _) => False
  | Sphere r | CutSphere r None => 0 < r
  | Cylinder r | FiniteCyl r _ => r <> 0
  | _ => True
  end.
(** Media that differ, if any. *)
Definition media_differ (o : optics) : Prop :=
  match o with Refractive n1 n2 => n1 <> n2 | _ => True end.
Definition is_refractive (o : optics) : Prop :=
  match o with Refractive _ _ => True | _ => False end.

(** Objects and surfaces that have an answer for every ray they may be given. *)
Definition answering_assembly (objs : list obj) (surfs : list surface) : Prop :=
  library_assembly objs surfs /\ surfs <> [] /\ (forall ob, In ob objs -> object_answers ob) /\
  (forall s, In s surfs -> geom_ok (s_geom s) /\ media_differ (s_opt s)).
(** Rays know their medium if some surface asks. *)
Definition knows_media (surfs : list surface) (b : bundle) : Prop :=
  (exists s, In s surfs /\ is_refractive (s_opt s)) -> b_ref b <> None.
