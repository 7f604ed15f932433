(** Lines that are drawn. *)
From Coq Require Import Reals List Arith Permutation.
From Verif.Base Require Import Py Num Vec.
Import ListNotations.
Local Open Scope R_scope.

(** The points [pts] joined as [cs] says make the given lines, each once, in some
    order. *)
Definition draws (pts : list vec) (cs : list (nat * nat)) (lines : list (vec * vec)) : Prop :=
  exists ls, Permutation ls lines /\
    Forall2 (fun c l => nth_error pts (fst c) = Some (fst l) /\ nth_error pts (snd c) = Some (snd l)) cs ls.
