(** Traces that begin alike. *)
From Coq Require Import Reals List Arith Bool.
From Verif.Base Require Import Py Num Vec.
From Verif.Model Require Import OpticsCallables.
Import ListNotations.

(** Every account of [g'] begins with what it has in [g]. *)
Definition books_grow (g g' : shared) : Prop := forall id, exists x y,
  a_absorbed (g_acc g' id) = a_absorbed (g_acc g id) ++ x /\ a_hits (g_acc g' id) = a_hits (g_acc g id) ++ y.
