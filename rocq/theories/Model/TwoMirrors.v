(** Model of examples/gui.py: two rays and two one-sided mirrors in a scene, and sliders
    that move the source.  (The camera and the layout of the window are left out.) *)
From Coq Require Import Reals List Arith Bool.
From Verif.Base Require Import Py Num Vec.
From Verif.Model Require Import RayBundle Spatial Geometry TraceTree OpticsCallables Engine Objects Surface View Assembly Scene Models.
Import ListNotations.
Local Open Scope R_scope.

(** assembly.py:95-105: [set_rotation] of an object. *)
Definition turn (limit : nat) (n : nat) (r : ref) : B unit := frames (set_rotation limit n r).

(** gui.py:28, 47 *)
Definition source_position (y z : R) : list vec := [V3 0 y z; V3 0 y z].
(** gui.py:26-29 *)
Definition two_rays (y z : R) : bundle :=
  let nrm := 1 / sqrt 2 in
  set_energy [1; 1] (set_directions [V3 0 (- nrm) nrm; V3 0 0 (- 1)] (set_vertices (source_position y z) no_bundle)).

(** gui.py:32-36: the assembly. *)
Definition two_mirrors (limit : nat) : B nat :=
  rot1 <+ literal (A33 (mm3 (rot_of (rotx (PI / 4))) (rot_of (roty PI)))) ;+
  surf1 <+ rect_one_sided_mirror limit 10 10 0 ;+
  _ <+ turn limit surf1 rot1 ;+
  surf2 <+ rect_one_sided_mirror limit 10 10 0 ;+
  make_assembly limit [surf1; surf2] [] None None.

(** gui.py:38, with the sliders at [y] and [z]. *)
Definition open_scene (order : list nat -> list nat) (w : View.world) (assembly : nat) (y z : R) : res viewer :=
  new_viewer order w assembly (Some (two_rays y z)) 1 None.
(** gui.py:46-49.  The bundle that is changed is the source of the scene; without one the
    method has nothing to change. *)
Definition bundle_move (w : View.world) (y z : R) (v : viewer) : res viewer :=
  match v_source v with
  | None => Err OutOfModel
  | Some b => plot_ray_trace w (with_source v (Some (set_vertices (source_position y z) b)))
  end.
