(** Which ray bundles share storage.  ([contents h o] is what bundle [o] holds.) *)
From Coq Require Import Reals String List Arith Bool.
From Verif.Base Require Import Py Num Vec.
From Verif.Model Require Import RayBundle BundleHeap.
Import ListNotations.

(** The arrays a bundle refers to. *)
Definition refers (b : hbundle) (a : nat) : Prop :=
  hb_vert b = Some a \/ hb_dir b = Some a \/ hb_energy b = Some a \/ hb_parents b = Some a \/
  hb_ref b = Some a \/ exists n, In (n, Some a) (hb_extra b).

(** Bundle [o] exists, with arrays that exist. *)
Definition made (h : heap) (o : nat) : Prop :=
  o < h_onext h /\ forall a, refers (h_obj h o) a -> a < h_next h.

(** No array belongs to both. *)
Definition apart (h : heap) (o1 o2 : nat) : Prop :=
  forall a, refers (h_obj h o1) a -> ~ refers (h_obj h o2) a.

(** Everything that was there in [h] is there in [h'] as it was. *)
Definition untouched (h h' : heap) : Prop :=
  h_next h <= h_next h' /\ h_onext h <= h_onext h' /\
  (forall k a, a < h_next h -> rd k h' a = rd k h a) /\
  (forall o, o < h_onext h -> h_obj h' o = h_obj h o).

(** The bundle has arrays made after [h] only. *)
Definition own_arrays (h h' : heap) (o : nat) : Prop :=
  h_onext h <= o /\ forall a, refers (h_obj h' o) a -> h_next h <= a.

(** Changing a bundle after it was made: entries of a property, or a property as a
    whole (to an array made for it).  Exceptions are caught. *)
Inductive change : Type :=
  | Entries (p : prop) (vals : list (elt (kind_of p))) (sel : selector)
  | Whole (p : prop) (vals : list (elt (kind_of p))).
Definition make_change (o : nat) (c : change) (h : heap) : heap :=
  match c with
  | Entries p vals sel => fst (set_p_sel p vals sel o h)
  | Whole p vals => fst ((a <! array (kind_of p) vals ;! set_p p a o) h)
  end.
Definition make_changes (o : nat) (cs : list change) (h : heap) : heap :=
  fold_left (fun h c => make_change o c h) cs h.

(** Whatever is done to one of the two bundles, the other one stays as it is. *)
Definition independent (h : heap) (o1 o2 : nat) : Prop :=
  (forall cs, contents (make_changes o1 cs h) o2 = contents h o2) /\
  (forall cs, contents (make_changes o2 cs h) o1 = contents h o1).

(** [m] makes a new bundle holding [v] with arrays of its own, and does nothing else
    that can be noticed; or it raises what [v] says, and does nothing. *)
Definition makes (h : heap) (m : H nat) (v : res bundle) : Prop :=
  let '(h', r) := m h in
  untouched h h' /\
  match r, v with
  | Ok o, Ok b => made h' o /\ contents h' o = b /\ own_arrays h h' o /\
      forall o', made h o' -> independent h' o' o
  | Err e, Err e' => e = e'
  | _, _ => False
  end.
