(** Surfaces that take their share of the light. *)
From Coq Require Import Reals List Arith Bool.
From Verif.Base Require Import Py Num Vec.
From Verif.Model Require Import RayBundle OpticsCallables Engine Surface.
From Verif.Spec Require Import BundleSpec EngineSpec.
Import ListNotations.
Local Open Scope R_scope.

(** The surface absorbs the fraction [a] of the light, or more. *)
Definition takes (a : R) (s : surface) : Prop :=
  match s_opt s with
  | Absorbing (Reflective x) | Absorbing (AbsorberReflector x) | Absorbing (Lambertian x)
  | Accountant _ (Reflective x) | Accountant _ (AbsorberReflector x) | Accountant _ (Lambertian x) => a <= x
  | Refractive _ _ => False
  end.

(** No ray of the bundle has more energy than [e]. *)
Definition dimmer (e : R) (b : bundle) : Prop := forall j x, energy_at b j = Some x -> x <= e.
