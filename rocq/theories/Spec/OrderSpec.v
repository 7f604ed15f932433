(** Scenes and sources that differ in the order and the grouping of their parts only. *)
From Coq Require Import Reals String List Arith Bool.
From Verif.Base Require Import Py Num Vec.
From Verif.Model Require Import RayBundle Geometry OpticsCallables Engine Objects Surface.
From Verif.Spec Require Import BundleSpec EngineSpec LibrarySpec LawSpec.
Import ListNotations.
Local Open Scope nat_scope.

(** [f] exchanges the numbers below [n], and [g] puts them back. *)
Definition exchange (n : nat) (f g : nat -> nat) : Prop :=
  (forall j, j < n -> f j < n /\ g (f j) = j) /\ (forall j, j < n -> g j < n /\ f (g j) = j).

(** Ray [j] of [b] and ray [j'] of [b'] have all properties in common but the parent. *)
Definition same_light (b : bundle) (j : nat) (b' : bundle) (j' : nat) : Prop := forall p, p <> Parents ->
  (match prop b p with Some l => nth_error l j | None => None end) =
  (match prop b' p with Some l => nth_error l j' | None => None end).

(** The bundles have the same [m] rays in different order: ray [j] of [b] is ray [f j]
    of [b']. *)
Definition reordered (m : nat) (f g : nat -> nat) (b b' : bundle) : Prop :=
  rays b m /\ rays b' m /\ exchange m f g /\ forall j, j < m -> same_light b j b' (f j).

(** Objects as the library makes them: one-sided or not, with a number of surfaces. *)
Definition made (q : bool * nat) : obj := if fst q then one_sided_object (snd q) else default_object (snd q).

(** Surface [i] is one of object [o]'s: the objects' surfaces are numbered one object
    after the other. *)
Definition part_of (qs : list (bool * nat)) (o i : nat) : Prop :=
  list_sum (map snd (firstn o qs)) <= i < list_sum (map snd (firstn (o + 1) qs)).

(** Light from surface [i] is not tested against surface [i']: both belong to the same
    one-sided object. *)
Definition shut (qs : list (bool * nat)) (i i' : nat) : Prop := exists o n,
  nth_error qs o = Some (true, n) /\ part_of qs o i /\ part_of qs o i'.

(** No object is one-sided. *)
Definition plain_objects (qs : list (bool * nat)) : Prop := forall q, In q qs -> fst q = false.

(** The same surfaces in different order: surface [i] is number [p i] in the other scene.
    Objects may be cut up and joined, as long as the same surfaces are shut to each other. *)
Definition rearranged (qs : list (bool * nat)) (surfs : list surface) (qs' : list (bool * nat)) (surfs' : list surface)
    (p p' : nat -> nat) : Prop :=
  length surfs' = length surfs /\ exchange (length surfs) p p' /\
  (forall i, i < length surfs -> nth_error surfs' (p i) = nth_error surfs i) /\
  forall i i', i < length surfs -> i' < length surfs -> (shut qs i i' <-> shut qs' (p i) (p i')).
