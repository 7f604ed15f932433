(** Images in plane mirrors. *)
From Coq Require Import Reals List Arith Bool Permutation.
From Verif.Base Require Import Py Num Vec.
From Verif.Model Require Import RayBundle Geometry OpticsCallables Engine Surface.
From Verif.Spec Require Import BundleSpec EngineSpec GeometrySpec GeomIface OpticsSpec LibrarySpec LawSpec.
Import ListNotations.
Local Open Scope R_scope.

(** A flat surface, of any outline, that does nothing with light but reflect or absorb it. *)
Definition plane_mirror (s : surface) : Prop :=
  match s_geom s with Flat | RectPlate _ _ | RoundPlate _ | Triangle _ _ => True | _ => False end /\
  match s_opt s with
  | Absorbing (Reflective _) | Accountant _ (Reflective _) => True
  | Absorbing (AbsorberReflector _) | Accountant _ (AbsorberReflector _) => True
  | _ => False
  end.

(** The mirror's plane is through its location and perpendicular to its Z axis. *)
Definition middle (s : surface) : vec := app4 (s_frame s) (V3 0 0 0).
Definition axis (s : surface) : vec := z_of (s_frame s).
Definition on_plane (s : surface) (p : vec) : Prop := dot (vsub p (middle s)) (axis s) = 0.

(** The images of a point and of a direction. *)
Definition image_point (p : vec) (s : surface) : vec := vsub p (vscale (2 * dot (vsub p (middle s)) (axis s)) (axis s)).
Definition image_dir (d : vec) (s : surface) : vec := vsub d (vscale (2 * dot d (axis s)) (axis s)).
(** The images in one mirror after the other. *)
Definition images (p : vec) (ss : list surface) : vec := fold_left image_point ss p.
Definition image_dirs (d : vec) (ss : list surface) : vec := fold_left image_dir ss d.

(** Ray [k] of level [L] descends from ray [j] of the source; its ancestors have met the
    planes of the surfaces [ss], in this order, none of them along the plane, and have run
    the length [t] in all. *)
Inductive came_by (surfs : list surface) (tree : list bundle) : nat -> nat -> nat -> list surface -> R -> Prop :=
| came_from_source b j v : nth_error tree 0 = Some b -> vert_at b j = Some v -> came_by surfs tree 0 j j [] 0
| came_from_mirror L prev lvl k p j ss t u s v d : came_by surfs tree L p j ss t ->
    nth_error tree L = Some prev -> nth_error tree (L + 1) = Some lvl -> parent_at lvl k = Some p ->
    vert_at prev p = Some v -> dir_at prev p = Some d -> In s surfs -> 0 < u ->
    vert_at lvl k = Some (ray_at v d u) -> on_plane s (ray_at v d u) -> dot d (axis s) <> 0 ->
    dir_at lvl k = Some (image_dir d s) ->
    came_by surfs tree (L + 1) k j (ss ++ [s]) (t + u).

(** Two surfaces whose axes are at right angles. *)
Definition perpendicular (s s' : surface) : Prop := dot (axis s) (axis s') = 0.
(** Mirrors at right angles to each other. *)
Definition square (surfs : list surface) : Prop := forall s s', In s surfs -> In s' surfs -> s <> s' -> perpendicular s s'.
