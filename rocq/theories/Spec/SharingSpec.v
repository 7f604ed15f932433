(** Surface objects seen as values. *)
From Coq Require Import Reals List Arith ZArith Bool.
From Verif.Base Require Import Py Num Vec.
From Verif.Model Require Import RayBundle TraceTree Geometry OpticsCallables Engine Surface SharingEngine.
Import ListNotations.

(** Everything surface number [k] consists of. *)
Definition surf_at (h : heap) (k : nat) : surface :=
  let s := hp_surf h k in
  let g := hp_geom h (so_geom s) in
  mkS (go_geom g) (so_opt s) (so_frame s) (go_state g) (so_bundle s) (so_selected s).

(** Every surface of the list has a geometry manager of its own; in particular no
    surface is in the list twice. *)
Definition unshared (h : heap) (ks : list nat) : Prop := NoDup (map (fun k => so_geom (hp_surf h k)) ks).

(** The variables of the trace, with surfaces for references to them. *)
Definition by_value {G : Type} (h : heap) (st : tstate nat G) : tstate surface G :=
  mkT (map (surf_at h) (t_surfs st)) (t_g st) (t_bund st) (t_own st) (t_rel st) (t_tree st) (t_record st).

(** Surfaces and geometry managers that [ks] does not use are the same in both. *)
Definition elsewhere_same (ks : list nat) (h h' : heap) : Prop :=
  (forall k, ~ In k ks -> hp_surf h' k = hp_surf h k) /\
  forall m, (forall k, In k ks -> so_geom (hp_surf h k) <> m) -> hp_geom h' m = hp_geom h m.
