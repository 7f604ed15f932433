(** What receivers have on record after a trace. *)
From Coq Require Import Reals List Arith Bool Sorted.
From Verif.Base Require Import Py Num Vec.
From Verif.Model Require Import RayBundle OpticsCallables Engine Surface.
From Verif.Spec Require Import BundleSpec EngineSpec OpticsSpec LibrarySpec.
Import ListNotations.

(** [l] has, for each of the first [ns] rays of [prev] that meets surface [i] first,
    in the order of the rays, the share [a] of its energy and the point where the
    ray meets the surface. *)
Definition noted (a : R) (T : reports) (nsurf : nat) (prev : bundle) (ns i : nat)
    (l : list (R * vec)) : Prop :=
  exists js, StronglySorted lt js /\
    (forall j, In j js <-> exists t, meets_first T nsurf ns i j t) /\
    Forall2 (fun j h => exists t e v d, meets_first T nsurf ns i j t /\
      energy_at prev j = Some e /\ vert_at prev j = Some v /\ dir_at prev j = Some d /\
      h = ((e * a)%R, vadd v (vscale t d))) js l.

(** Only surface [i] reports to accountant [id]. *)
Definition sole_account (surfs : list surface) (i id : nat) : Prop :=
  forall i' s o, nth_error surfs i' = Some s -> s_opt s = Accountant id o -> i' = i.

(** The energy of the rays [js] of [b]. *)
Definition energy_of (b : bundle) (js : list nat) : R :=
  sum_R (map (fun j => match energy_at b j with Some e => e | None => 0%R end) js).

(** [js] are the rays of [prev] that met no surface: because they were not traced on,
    as only the first [ns] were, or because no surface reported to be met. *)
Definition unmet (T : reports) (nsurf : nat) (prev : bundle) (ns : nat) (js : list nat) : Prop :=
  NoDup js /\ forall j, In j js <->
    (exists e, energy_at prev j = Some e) /\ forall i t, ~ meets_first T nsurf ns i j t.

(** Every surface is refractive, or reports what it absorbs, on both sides alike, to
    an accountant of its own. *)
Definition keeps_books (surfs : list surface) : Prop :=
  forall i s, nth_error surfs i = Some s ->
    match s_opt s with
    | Accountant id (Reflective _) | Accountant id (Lambertian _) => sole_account surfs i id
    | Refractive _ _ => True
    | _ => False
    end.

(** The accounts are empty. *)
Definition fresh_books (surfs : list surface) (g : shared) : Prop :=
  forall s id o, In s surfs -> s_opt s = Accountant id o -> g_acc g id = mkAcc [] [].

(** [x] is the sum of what surface [s] has on record. *)
Definition on_record (g : shared) (s : surface) (x : R) : Prop :=
  match s_opt s with
  | Accountant id _ => exists es hs, get_all_hits (g_acc g id) = Ok (es, hs) /\ x = sum_R es
  | _ => x = 0%R
  end.
