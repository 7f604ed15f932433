(** Model of the object side of the trace protocol: tracer/object.py and the
    override in tracer/models/one_sided_mirror.py. *)
From Coq Require Import List Arith Bool.
From Verif.Base Require Import Py.
From Verif.Model Require Import RayBundle Engine.
Import ListNotations.

(** object.py:67-81 *)
Definition default_own_rays (rays : bundle) (surface_id : nat) : res (list bool) :=
  n <- get_num_rays rays ;; Ok (repeat false n).

(** object.py:83-98; [nsurf] is [len(self.surfaces)] *)
Definition default_surfaces_for_next (nsurf : nat) (rays : bundle) (surface_id : nat)
    : res (list (list bool)) :=
  n <- get_num_rays rays ;; Ok (repeat (repeat true n) nsurf).

(** An [AssembledObject] with [nsurf] surfaces, object.py:7. *)
Definition default_object (nsurf : nat) : obj :=
  mkObj nsurf default_own_rays (default_surfaces_for_next nsurf).

(** one_sided_mirror.py:13-28 *)
Definition no_surfaces_for_next (nsurf : nat) (rays : bundle) (surface_id : nat)
    : res (list (list bool)) :=
  n <- get_num_rays rays ;; Ok (repeat (repeat false n) nsurf).

(** one_sided_mirror.py:43-45, 70-72: an object whose method is replaced. *)
Definition one_sided_object (nsurf : nat) : obj :=
  mkObj nsurf default_own_rays (no_surfaces_for_next nsurf).
