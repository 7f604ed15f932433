(** Model of tracer/spatial_geometry.py. *)
From Coq Require Import Reals List Bool.
From Verif.Base Require Import Py Num Vec.
Import ListNotations.
Local Open Scope R_scope.

(** [N.multiply.outer] *)
Definition outer (a b : vec) : mat3 := M3 (vscale (vx a) b) (vscale (vy a) b) (vscale (vz a) b).

(** spatial_geometry.py:8-22 [general_axis_rotation] *)
Definition general_axis_rotation (axis : vec) (angle : R) : mat3 :=
  let s := sin angle in
  let c := cos angle in
  let v := 1 - c in
  let add := M3 (V3 0 (- vz axis) (vy axis)) (V3 (vz axis) 0 (- vx axis))
                (V3 (- vy axis) (vx axis) 0) in
  madd3 (madd3 (mscale3 v (outer axis axis)) (mscale3 c id3)) (mscale3 s add).

(** spatial_geometry.py:24-48 [rotation_to_z], for one vector.  The array version
    maps it over the rows; [squeeze] only changes the shape of the result for a
    single row, for which the callers' broadcasting gives the same values. *)
Definition rotation_to_z (v : vec) : mat3 :=
  let perp := V3 (vy v) (- vx v) 0 in
  let perp := if veqb perp vzero then V3 1 0 0 else perp in
  let perp := vscale (/ sqrt (norm2 perp)) perp in
  of_cols perp (cross v perp) v.

(** spatial_geometry.py:50-59 [generate_transform] *)
Definition generate_transform (axis : vec) (angle : R) (translation : vec) : mat4 :=
  mk4 (general_axis_rotation axis angle) translation.

(** spatial_geometry.py:61-69 *)
Definition rotx (ang : R) : mat4 :=
  let s := sin ang in let c := cos ang in
  M4 (V4 1 0 0 0) (V4 0 c (- s) 0) (V4 0 s c 0) (V4 0 0 0 1).
(** spatial_geometry.py:71-79 *)
Definition roty (ang : R) : mat4 :=
  let s := sin ang in let c := cos ang in
  M4 (V4 c 0 s 0) (V4 0 1 0 0) (V4 (- s) 0 c 0) (V4 0 0 0 1).
(** spatial_geometry.py:81-89 *)
Definition rotz (ang : R) : mat4 :=
  let s := sin ang in let c := cos ang in
  M4 (V4 c (- s) 0 0) (V4 s c 0 0) (V4 0 0 1 0) (V4 0 0 0 1).
(** spatial_geometry.py:91-98 *)
Definition translate (x y z : R) : mat4 :=
  M4 (V4 1 0 0 x) (V4 0 1 0 y) (V4 0 0 1 z) (V4 0 0 0 1).
