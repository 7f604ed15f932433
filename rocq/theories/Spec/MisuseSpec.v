(** Arguments that do not fit: what numpy raises for them.  A single value is
    broadcast and fits everywhere; an index array that does not fit and comes with the
    wrong number of values may fail either way. *)
From Coq Require Import Reals String List Arith Bool.
From Verif.Base Require Import Py Num Vec.
From Verif.Model Require Import RayBundle.
From Verif.Spec Require Import BundleSpec.
Import ListNotations.

(** Reading through the selector from an array of [n] entries. *)
Definition unreadable (n : nat) (sel : selector) : Prop :=
  match sel with
  | SAll => False
  | SIdx idx => exists i, In i idx /\ n <= i
  | SMask m => length m <> n
  end.

(** Writing [k] values through the selector into an array of [n] entries. *)
Inductive misfit (n : nat) : selector -> nat -> exn -> Prop :=
  | misfit_index idx i : In i idx -> n <= i -> misfit n (SIdx idx) (length idx) IndexError
  | misfit_mask m k : length m <> n -> misfit n (SMask m) k IndexError
  | misfit_count sel k : sel_ok sel n -> k <> length (positions sel n) -> k <> 1 -> misfit n sel k ValueError.
